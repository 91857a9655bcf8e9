From Coq Require Import ZArith Lia.
From stdpp Require Import list list_numbers sets.
From Verif Require Import StdSort AlgorithmModel AlgorithmSpec AlgorithmProofs ParetoModel.

(** ** Positions and segments *)
Lemma insert_S {A} (x : A) l i y : <[S i := y]> (x :: l) = x :: <[i := y]> l.
Proof. done. Qed.
Lemma lookup_S {A} (x : A) l i : (x :: l) !! S i = l !! i.
Proof. done. Qed.
Lemma list_insert_middle {A} (a : list A) x c y i : i = length a -> <[i := y]> (a ++ x :: c) = a ++ y :: c.
Proof. intros ->. rewrite insert_app_r_alt by lia. rewrite Nat.sub_diag. done. Qed.
Lemma swap_segments {A} (a : list A) x m y c :
  iter_swap (a ++ x :: m ++ y :: c) (length a) (length a + S (length m)) = Some (a ++ y :: m ++ x :: c).
Proof.
  unfold iter_swap. rewrite (list_lookup_middle a _ x (length a)) by done. cbn [mbind option_bind].
  replace (a ++ x :: m ++ y :: c) with ((a ++ x :: m) ++ y :: c) at 1 by (rewrite <- app_assoc; done).
  rewrite (list_lookup_middle (a ++ x :: m)) by (rewrite app_length; done). cbn [mbind option_bind]. f_equal.
  rewrite (list_insert_middle a) by done.
  replace (a ++ y :: m ++ y :: c) with ((a ++ y :: m) ++ y :: c) by (rewrite <- app_assoc; done).
  rewrite list_insert_middle by (rewrite app_length; done). rewrite <- app_assoc. done.
Qed.
Lemma swap_segments_rev {A} (a : list A) x m y c :
  iter_swap (a ++ x :: m ++ y :: c) (length a + S (length m)) (length a) = Some (a ++ y :: m ++ x :: c).
Proof.
  unfold iter_swap.
  replace (a ++ x :: m ++ y :: c) with ((a ++ x :: m) ++ y :: c) by (rewrite <- app_assoc; done).
  rewrite (list_lookup_middle (a ++ x :: m) c y (length a + S (length m))) by (rewrite app_length; done). cbn [mbind option_bind].
  replace ((a ++ x :: m) ++ y :: c) with (a ++ x :: m ++ y :: c) at 1 by (rewrite <- app_assoc; done).
  rewrite (list_lookup_middle a _ x (length a)) by done. cbn [mbind option_bind]. f_equal.
  rewrite (list_insert_middle (a ++ x :: m)) by (rewrite app_length; done). rewrite <- app_assoc. cbn [app].
  rewrite list_insert_middle by done. done.
Qed.
Lemma swap_same {A} (a : list A) x c : iter_swap (a ++ x :: c) (length a) (length a) = Some (a ++ x :: c).
Proof.
  unfold iter_swap. rewrite !list_lookup_middle by done. cbn [mbind option_bind]. f_equal.
  rewrite list_insert_insert. apply list_insert_id, list_lookup_middle. done.
Qed.

(** Membership by propositional reasoning only. *)
Ltac ins := repeat rewrite ?elem_of_app, ?elem_of_cons, ?elem_of_list_singleton in *; tauto.
(** Equality of two calls that differ in the presentation of lists and positions. *)
Ltac seg := f_equal; cbn [app length]; rewrite ?app_length; cbn [app length]; first [lia | repeat (rewrite <- ?app_assoc; cbn [app]); done].

Lemma sublist_in {A} (l k : list A) : l `sublist_of` k -> forall x, x ∈ l -> x ∈ k.
Proof. intros H x Hx. eapply elem_of_submseteq; [exact Hx|]. apply sublist_submseteq. done. Qed.
Lemma sublist_NoDup {A} (l k : list A) : NoDup k -> l `sublist_of` k -> NoDup l.
Proof.
  intros Hk H. induction H as [|x l k Hlk IH|x l k Hlk IH]; [done| |]; apply NoDup_cons in Hk as [Hx Hk]; [|auto].
  apply NoDup_cons. split; [|auto]. intros Hl. apply Hx. apply (sublist_in l); done.
Qed.

Section Front.
Context (n : nat) (less : nat -> nat -> bool) (cmp : nat -> nat -> Z).

(** ** The BEST algorithm, reduced to steps on multisets *)
Section Scan.
Variable I : list nat -> list nat -> nat -> list nat -> list nat -> list nat -> Prop. (* F A b C U L *)
Hypothesis Ibound : forall F A b C U L, I F A b C U L -> forall x, x ∈ b :: U -> x < n.
Hypothesis Igt : forall F A b C x U U' L, I F A b C (x :: U) L -> (0 < cmp b x)%Z -> U' ≡ₚ U -> I F A b C U' (x :: L).
Hypothesis Ilt : forall F A A' b C x U L, I F A b C (x :: U) L -> (cmp b x < 0)%Z -> A' ≡ₚ A ++ C -> I (F ++ [b]) A' x [] U L.
Hypothesis Ieq : forall F A b C x U L, I F A b C (x :: U) L -> cmp b x = 0%Z -> I F A b (C ++ [x]) U L.

Lemma best_scan_ok fuel : forall F A b C U L,
  I F A b C U L -> length U < fuel ->
  exists F' A' b' C' L', (I F' A' b' C' [] L' /\ length F <= length F' /\ length L <= length L') /\
    best_scan n cmp fuel (F ++ A ++ b :: C ++ U ++ L) (length F) (length F + length A + 1 + length C + length U)
      (length F + length A) (length F + length A + 1 + length C)
    = Some (F' ++ A' ++ b' :: C' ++ L', length F', length F' + length A' + 1 + length C', length F' + length A').
Proof.
  induction fuel as [|fuel IH]; intros F A b C U L HI Hf; [lia|]. cbn [best_scan].
  destruct U as [|x U].
  - rewrite decide_False by (cbn; lia). exists F, A, b, C, L. split; [split_and!; [done|lia..]|]. cbn. rewrite Nat.add_0_r. done.
  - rewrite decide_True by (cbn; lia).
    assert (Hb : (F ++ A ++ b :: C ++ (x :: U) ++ L) !! (length F + length A) = Some b).
    { rewrite app_assoc. apply list_lookup_middle. rewrite app_length. done. }
    assert (Hx : (F ++ A ++ b :: C ++ (x :: U) ++ L) !! (length F + length A + 1 + length C) = Some x).
    { replace (F ++ A ++ b :: C ++ (x :: U) ++ L) with ((F ++ A ++ b :: C) ++ x :: U ++ L)
        by (rewrite <- !app_assoc; done).
      apply list_lookup_middle. rewrite !app_length. cbn. lia. }
    rewrite Hb. cbn [mbind option_bind]. rewrite Hx. cbn [mbind option_bind].
    unfold cmpM. rewrite decide_True by (split; apply (Ibound _ _ _ _ _ _ HI); set_solver). cbn [mbind option_bind].
    destruct (Z.ltb_spec 0 (cmp b x)) as [Hc|Hc].
    + (* move x to the back *)
      destruct (decide (U = [])) as [->|Hne].
      * replace (F ++ A ++ b :: C ++ [x] ++ L) with ((F ++ A ++ b :: C) ++ x :: L) by (rewrite <- !app_assoc; done).
        assert (Hl : length F + length A + 1 + length C = length (F ++ A ++ b :: C)) by (rewrite !app_length; cbn; lia).
        replace (length F + length A + 1 + length C + length [x] - 1) with (length (F ++ A ++ b :: C)) by (rewrite <- Hl; cbn; lia).
        rewrite Hl. rewrite swap_same. cbn [mbind option_bind].
        destruct (IH F A b C [] (x :: L)) as (F'&A'&b'&C'&L'&(HI'&HlF&HlL)&Hr).
        { apply (Igt _ _ _ _ _ []); done. }
        { cbn in *. lia. }
        exists F', A', b', C', L'. rewrite ?app_length in HlF; cbn [length] in HlF, HlL. split; [split_and!; [done|lia..]|]. rewrite <- Hr. rewrite <- Hl. seg.
      * destruct (exists_last Hne) as (U1&z&->).
        assert (Hl : length F + length A + 1 + length C = length (F ++ A ++ b :: C)) by (rewrite !app_length; cbn; lia).
        replace (F ++ A ++ b :: C ++ (x :: U1 ++ [z]) ++ L) with ((F ++ A ++ b :: C) ++ x :: U1 ++ z :: L)
          by (rewrite <- !app_assoc; cbn; rewrite <- !app_assoc; done).
        replace (length F + length A + 1 + length C + length (x :: U1 ++ [z]) - 1)
          with (length (F ++ A ++ b :: C) + S (length U1)) by (rewrite <- Hl; cbn; rewrite app_length; cbn; lia).
        rewrite Hl. rewrite swap_segments. cbn [mbind option_bind].
        destruct (IH F A b C (z :: U1) (x :: L)) as (F'&A'&b'&C'&L'&(HI'&HlF&HlL)&Hr).
        { apply (Igt _ _ _ _ _ (U1 ++ [z])); [done..|]. rewrite Permutation_app_comm. done. }
        { cbn in *. rewrite app_length in Hf. cbn in *. lia. }
        exists F', A', b', C', L'. rewrite ?app_length in HlF; cbn [length] in HlF, HlL. split; [split_and!; [done|lia..]|]. rewrite <- Hr. rewrite <- Hl.
        seg.
    + destruct (Z.ltb_spec (cmp b x) 0) as [Hc'|Hc'].
      * (* best := x *)
        destruct A as [|a A].
        -- cbn [app length]. rewrite !Nat.add_0_r. 
           rewrite swap_same. cbn [mbind option_bind].
           destruct (IH (F ++ [b]) C x [] U L) as (F'&A'&b'&C'&L'&(HI'&HlF&HlL)&Hr).
           { apply (Ilt _ [] _ _ C); done. }
           { cbn in *. lia. }
           exists F', A', b', C', L'. rewrite ?app_length in HlF; cbn [length] in HlF, HlL. split; [split_and!; [done|lia..]|]. rewrite <- Hr. rewrite !app_length. cbn [length].
           seg.
        -- cbn [app length].
           replace (length F + S (length A)) with (length F + S (length A)) by done.
           rewrite swap_segments_rev. cbn [mbind option_bind].
           destruct (IH (F ++ [b]) (A ++ a :: C) x [] U L) as (F'&A'&b'&C'&L'&(HI'&HlF&HlL)&Hr).
           { apply (Ilt _ (a :: A) _ _ C); [done..|]. cbn. rewrite Permutation_middle. done. }
           { cbn in *. lia. }
           exists F', A', b', C', L'. rewrite ?app_length in HlF; cbn [length] in HlF, HlL. split; [split_and!; [done|lia..]|]. rewrite <- Hr. rewrite !app_length. cbn [length].
           seg.
      * destruct (IH F A b (C ++ [x]) U L) as (F'&A'&b'&C'&L'&(HI'&HlF&HlL)&Hr).
        { apply Ieq; [done|lia]. }
        { cbn in *. lia. }
        exists F', A', b', C', L'. rewrite ?app_length in HlF; cbn [length] in HlF, HlL. split; [split_and!; [done|lia..]|]. rewrite <- Hr. rewrite !app_length. cbn [length].
        seg.
Qed.
End Scan.

Section Clean.
Variable b : nat.
Variable J : list nat -> list nat -> list nat -> Prop. (* F (removed), D (kept), A (unchecked) *)
Hypothesis Jbound : forall F D A, J F D A -> b < n /\ forall x, x ∈ A -> x < n.
Hypothesis Jdrop : forall F D D' a A, J F D (a :: A) -> less a b = true -> D' ≡ₚ D -> J (F ++ [a]) D' A.
Hypothesis Jkeep : forall F D a A, J F D (a :: A) -> less a b = false -> J F (D ++ [a]) A.

Lemma best_clean_ok fuel : forall F D A R, J F D A -> length A < fuel ->
  exists F' D', (J F' D' [] /\ length F <= length F') /\
    best_clean n less fuel (F ++ D ++ A ++ b :: R) (length F) (length F + length D + length A) (length F + length D)
    = Some (F' ++ D' ++ b :: R, length F') /\ length F' + length D' = length F + length D + length A.
Proof.
  induction fuel as [|fuel IH]; intros F D A R HJ Hf; [lia|]. cbn [best_clean]. destruct A as [|a A].
  - rewrite decide_False by (cbn; lia). exists F, D. split; [split; [done|lia]|]. cbn. split; [done|lia].
  - rewrite decide_True by (cbn; lia).
    assert (Ha : (F ++ D ++ (a :: A) ++ b :: R) !! (length F + length D) = Some a).
    { rewrite app_assoc. apply list_lookup_middle. rewrite app_length. done. }
    assert (Hb : (F ++ D ++ (a :: A) ++ b :: R) !! (length F + length D + length (a :: A)) = Some b).
    { replace (F ++ D ++ (a :: A) ++ b :: R) with ((F ++ D ++ a :: A) ++ b :: R) by (rewrite <- !app_assoc; done).
      apply list_lookup_middle. rewrite !app_length. lia. }
    rewrite Ha. cbn [mbind option_bind]. rewrite Hb. cbn [mbind option_bind].
    destruct (Jbound _ _ _ HJ) as [Hbn Han].
    unfold lessM. rewrite decide_True by (split; [apply Han; set_solver|done]). cbn [mbind option_bind].
    destruct (less a b) eqn:E.
    + destruct D as [|d D].
      * cbn [app length]. rewrite !Nat.add_0_r. rewrite swap_same. cbn [mbind option_bind].
        destruct (IH (F ++ [a]) [] A R) as (F'&D'&(HJ'&HlF)&Hr&Hlen).
        { apply (Jdrop _ []); done. }
        { cbn in *. lia. }
        exists F', D'. rewrite ?app_length in HlF; cbn [length] in HlF. split; [split; [done|lia]|]. rewrite <- Hr. rewrite app_length in *. cbn [length app] in *.
        split; [seg|lia].
      * cbn [app length]. rewrite swap_segments_rev. cbn [mbind option_bind].
        destruct (IH (F ++ [a]) (D ++ [d]) A R) as (F'&D'&(HJ'&HlF)&Hr&Hlen).
        { apply (Jdrop _ (d :: D)); [done..|]. rewrite Permutation_app_comm. done. }
        { cbn in *. lia. }
        exists F', D'. rewrite ?app_length in HlF; cbn [length] in HlF. split; [split; [done|lia]|]. rewrite <- Hr. rewrite !app_length in *. cbn [length app] in *.
        split; [seg|lia].
    + destruct (IH F (D ++ [a]) A R) as (F'&D'&(HJ'&HlF)&Hr&Hlen).
      { apply Jkeep; done. }
      { cbn in *. lia. }
      exists F', D'. rewrite ?app_length in HlF; cbn [length] in HlF. split; [split; [done|lia]|]. rewrite <- Hr. rewrite !app_length in *. cbn [length app] in *.
      split; [seg|lia].
Qed.
End Clean.

Section Loop.
(** Invariant of the outer loop: F removed at the front, R the remaining range, L
    removed at the back, opt the result so far. *)
Variable K : list nat -> list nat -> list nat -> list nat -> Prop.
(** One round, as a scan invariant [I], a cleaning invariant [J] and their connection. *)
Variable I : list nat -> list nat -> list nat -> nat -> list nat -> list nat -> list nat -> Prop.
Variable J : list nat -> nat -> list nat -> list nat -> list nat -> list nat -> list nat -> Prop.
Hypothesis Kperm : forall F R L opt, K F R L opt -> F ++ R ++ L ≡ₚ seq 0 n.
Hypothesis KI : forall F b R L opt, K F (b :: R) L opt -> I opt F [] b [] R L.
Hypothesis Ibound : forall opt F A b C U L, I opt F A b C U L -> forall x, x ∈ b :: U -> x < n.
Hypothesis Igt : forall opt F A b C x U U' L, I opt F A b C (x :: U) L -> (0 < cmp b x)%Z -> U' ≡ₚ U -> I opt F A b C U' (x :: L).
Hypothesis Ilt : forall opt F A A' b C x U L, I opt F A b C (x :: U) L -> (cmp b x < 0)%Z -> A' ≡ₚ A ++ C -> I opt (F ++ [b]) A' x [] U L.
Hypothesis Ieq : forall opt F A b C x U L, I opt F A b C (x :: U) L -> cmp b x = 0%Z -> I opt F A b (C ++ [x]) U L.
Hypothesis Iperm : forall opt F A b C U L, I opt F A b C U L -> F ++ A ++ b :: C ++ U ++ L ≡ₚ seq 0 n.
Hypothesis IJ : forall opt F A b C L, I opt F A b C [] L -> J opt b C L F [] A.
Hypothesis Jbound : forall opt b C L F D A, J opt b C L F D A -> b < n /\ forall x, x ∈ A -> x < n.
Hypothesis Jdrop : forall opt b C L F D D' a A, J opt b C L F D (a :: A) -> less a b = true -> D' ≡ₚ D -> J opt b C L (F ++ [a]) D' A.
Hypothesis Jkeep : forall opt b C L F D a A, J opt b C L F D (a :: A) -> less a b = false -> J opt b C L F (D ++ [a]) A.
Hypothesis JK : forall opt b C L F D R', J opt b C L F D [] -> R' ≡ₚ D ++ C -> K F R' (b :: L) (opt ++ [b]).

Lemma best_loop_ok fuel : forall F R L opt, K F R L opt -> length R < fuel ->
  exists F' L' opt', K F' [] L' opt' /\
    best_loop n less cmp fuel (F ++ R ++ L) (length F) (length F + length R) opt = Some opt'.
Proof.
  induction fuel as [|fuel IH]; intros F R L opt HK Hf; [lia|]. cbn [best_loop]. destruct R as [|b R].
  - rewrite decide_True by (cbn; lia). exists F, L, opt. done.
  - rewrite decide_False by (cbn; lia).
    pose proof (Permutation_length (Kperm _ _ _ _ HK)) as Hlen. rewrite seq_length, !app_length in Hlen. cbn in Hlen.
    destruct (best_scan_ok (I opt) (Ibound opt) (Igt opt) (Ilt opt) (Ieq opt) (S n) F [] b [] R L)
      as (F'&A'&b'&C'&L'&(HI'&HlF&HlL)&Hr).
    { apply KI. done. }
    { lia. }
    cbn [length app] in Hr. rewrite !Nat.add_0_r in Hr.
    replace (length F + 1 + length R) with (length F + length (b :: R)) in Hr by (cbn; lia).
    replace (length F + 1) with (S (length F)) in Hr by lia.
    change (F ++ (b :: R) ++ L) with (F ++ b :: R ++ L). rewrite Hr. cbn [mbind option_bind].
    assert (Hb : (F' ++ A' ++ b' :: C' ++ L') !! (length F' + length A') = Some b').
    { rewrite app_assoc. apply list_lookup_middle. rewrite app_length. done. }
    rewrite Hb. cbn [mbind option_bind].
    pose proof (Permutation_length (Iperm _ _ _ _ _ _ _ HI')) as Hlen'. rewrite seq_length, !app_length in Hlen'. cbn in Hlen'.
    rewrite app_length in Hlen'.
    destruct (best_clean_ok b' (J opt b' C' L') (Jbound opt b' C' L') (Jdrop opt b' C' L') (Jkeep opt b' C' L') (S n) F' [] A' (C' ++ L'))
      as (F2&D&(HJ&HlF2)&Hr2&Hlen2).
    { apply IJ. done. }
    { lia. }
    cbn [length app] in Hr2, Hlen2. rewrite !Nat.add_0_r in Hr2. rewrite Hr2. cbn [mbind option_bind].
    destruct (decide (C' = [])) as [->|Hne].
    + assert (HK' : K F2 D (b' :: L') (opt ++ [b'])) by (eapply JK; [done|rewrite app_nil_r; done]).
      pose proof (Permutation_length (Kperm _ _ _ _ HK')) as Hl2. rewrite !app_length, seq_length in Hl2. cbn in Hl2.
      cbn [app length]. replace (length F' + length A' + 1 + 0 - 1) with (length (F2 ++ D)) by (rewrite app_length; lia).
      replace (length F' + length A') with (length (F2 ++ D)) by (rewrite app_length; lia).
      rewrite (app_assoc F2 D). rewrite swap_same. cbn [mbind option_bind].
      destruct (IH F2 D (b' :: L') (opt ++ [b'])) as (F3&L3&o3&HK3&Hr3); [done|cbn in *; lia|].
      exists F3, L3, o3. split; [done|]. rewrite <- Hr3. seg.
    + destruct (exists_last Hne) as (C1&z&->).
      assert (HK' : K F2 (D ++ z :: C1) (b' :: L') (opt ++ [b'])).
      { eapply JK; [done|]. f_equiv. rewrite Permutation_app_comm. done. }
      pose proof (Permutation_length (Kperm _ _ _ _ HK')) as Hl2. rewrite !app_length, seq_length in Hl2. cbn in Hl2.
      rewrite app_length in *. cbn [length] in *.
      replace (length F' + length A' + 1 + (length C1 + 1) - 1) with (length (F2 ++ D) + S (length C1)) by (rewrite app_length; lia).
      replace (length F' + length A') with (length (F2 ++ D)) by (rewrite app_length; lia).
      replace (F2 ++ D ++ b' :: (C1 ++ [z]) ++ L') with ((F2 ++ D) ++ b' :: C1 ++ z :: L')
        by (repeat (rewrite <- ?app_assoc; cbn [app]); done).
      rewrite swap_segments. cbn [mbind option_bind].
      destruct (IH F2 (D ++ z :: C1) (b' :: L') (opt ++ [b'])) as (F3&L3&o3&HK3&Hr3); [done|rewrite !app_length; cbn in *; lia|].
      exists F3, L3, o3. split; [done|]. rewrite <- Hr3. seg.
Qed.
End Loop.

(** ** Safety of the BEST algorithm *)
Definition base (ix L opt : list nat) : Prop :=
  ix ≡ₚ seq 0 n /\ NoDup opt /\ forall x, x ∈ opt -> x ∈ L.

Lemma base_bound ix L opt x : base ix L opt -> x ∈ ix -> x < n.
Proof. intros [H _] Hx. rewrite H in Hx. apply elem_of_seq in Hx. lia. Qed.
Lemma base_nodup ix L opt : base ix L opt -> NoDup ix.
Proof. intros [H _]. rewrite H. apply NoDup_seq. Qed.
Lemma base_perm ix ix' L L' opt : base ix L opt -> ix' ≡ₚ ix -> (forall x, x ∈ L -> x ∈ L') -> base ix' L' opt.
Proof. intros (H1&H2&H3) Hp Hs. split; [rewrite Hp; done|]. split; [done|]. intros x Hx. auto. Qed.
Lemma base_push pre post L b opt : base (pre ++ b :: post ++ L) L opt -> b ∉ L.
Proof.
  intros H. apply base_nodup in H. apply NoDup_app in H as (_&_&H). apply NoDup_cons in H as [H _]. set_solver.
Qed.

(** ** Exactness of the BEST algorithm for a strict partial order *)
Section Exact.
Hypothesis Hirr : forall x, x < n -> less x x = false.
Hypothesis Htr : forall x y z, x < n -> y < n -> z < n -> less x y = true -> less y z = true -> less x z = true.
Hypothesis Hcmp : forall x y, x < n -> y < n -> ((cmp x y < 0)%Z <-> less x y = true) /\ ((0 < cmp x y)%Z <-> less y x = true).

Definition maximal (x : nat) : Prop := forall y, y < n -> less x y = false.
(** [G]: what is gone, [R]: what remains (best included). *)
Definition common (G R L opt : list nat) : Prop :=
  base (G ++ R) L opt /\ (forall x, x ∈ L -> x ∈ G) /\
  (forall x, x ∈ G -> x ∈ opt \/ exists y, y ∈ R ++ opt /\ less x y = true) /\
  (forall x o, x ∈ R -> o ∈ opt -> less x o = false) /\
  (forall o, o ∈ opt -> maximal o).

Lemma common_perm G R L opt G' R' L' : common G R L opt -> G' ≡ₚ G -> R' ≡ₚ R -> L' ≡ₚ L -> common G' R' L' opt.
Proof.
  intros (H1&H2&H3&H4&H5) HG HR HL.
  split; [eapply base_perm; [exact H1|rewrite HG, HR; done|intros x; rewrite HL; done]|].
  split; [intros x; rewrite HL, HG; apply H2|].
  split. { intros x. rewrite HG. intros Hx. destruct (H3 x Hx) as [?|(y&Hy&?)]; [by left|right]. exists y. rewrite HR. done. }
  split; [intros x o; rewrite HR; apply H4|done].
Qed.
(** Dropping [x], dominated by a remaining element [b]. *)
Lemma common_drop G R L L' b x opt : common G (x :: R) L opt -> b ∈ R -> less x b = true ->
  (forall z, z ∈ L -> z ∈ L') -> (forall z, z ∈ L' -> z ∈ x :: L) -> common (x :: G) R L' opt.
Proof.
  intros (H1&H2&H3&H4&H5) Hb Hlt Hs1 Hs2.
  assert (Hbnd : forall z, z ∈ G ++ x :: R -> z < n) by (intros; eapply base_bound; done).
  split; [eapply base_perm; [exact H1|cbn; rewrite Permutation_middle; done|done]|].
  split; [intros z Hz; specialize (Hs2 z Hz); specialize (H2 z); ins|]. split; [|split; [|done]].
  - intros y Hy. apply elem_of_cons in Hy as [->|Hy].
    + right. exists b. set_solver.
    + destruct (H3 y Hy) as [?|(z&Hz&Hyz)]; [by left|right].
      destruct (decide (z = x)) as [->|Hne]; [exists b|exists z]; (split; [set_solver|]); [|done].
      apply (Htr y x b); [apply Hbnd; clear -Hy Hb; ins..|done|done].
  - intros y o Hy Ho. apply H4; set_solver.
Qed.

Definition Iex (opt F A : list nat) (b : nat) (C U L : list nat) : Prop :=
  common (F ++ L) (b :: A ++ C ++ U) L opt /\
  (forall x, x ∈ A ++ C -> less b x = false) /\ (forall x, x ∈ C -> less x b = false).
Definition Jex (opt : list nat) (b : nat) (C L F D A : list nat) : Prop :=
  common (F ++ L) (b :: D ++ A ++ C) L opt /\ maximal b /\ (forall x, x ∈ D ++ C -> less x b = false).
Definition Kex (F R L opt : list nat) : Prop := common (F ++ L) R L opt.

Lemma common_bound G R L opt x : common G R L opt -> x ∈ G ++ R -> x < n.
Proof. intros [H _]. apply base_bound with (1 := H). Qed.

Lemma best_loop_exact fuel F R L opt : Kex F R L opt -> length R < fuel ->
  exists F' L' opt', Kex F' [] L' opt' /\
    best_loop n less cmp fuel (F ++ R ++ L) (length F) (length F + length R) opt = Some opt'.
Proof.
  apply (best_loop_ok Kex Iex Jex); clear fuel F R L opt.
  - intros F R L opt ((H&_)&_). rewrite <- H. rewrite <- app_assoc. rewrite (Permutation_app_comm R). done.
  - intros F b R L opt H. split; [|split; set_solver]. exact H.
  - intros opt F A b C U L (H&_) x Hx. apply (common_bound _ _ _ _ _ H). set_solver.
  - intros opt F A b C x U U' L (H&Hb&Hb') Hc HU. split; [|done].
    assert (HP : b :: A ++ C ++ x :: U ≡ₚ x :: b :: A ++ C ++ U') by (rewrite HU; solve_Permutation).
    assert (H' : common (F ++ L) (x :: b :: A ++ C ++ U') L opt) by (eapply common_perm; [exact H|done|symmetry; exact HP|done]).
    eapply common_perm; [eapply (common_drop _ _ _ (x :: L) b); [exact H'|set_solver| |set_solver..]| |done|done].
    + assert (b < n /\ x < n) as [Hbn Hxn] by (split; apply (common_bound _ _ _ _ _ H); clear; ins). apply (Hcmp b x); done.
    + rewrite Permutation_middle. done.
  - intros opt F A A' b C x U L (H&Hb&Hb') Hc HA.
    assert (HP : b :: A ++ C ++ x :: U ≡ₚ b :: x :: A' ++ [] ++ U) by (rewrite HA; solve_Permutation).
    assert (H' : common (F ++ L) (b :: x :: A' ++ [] ++ U) L opt) by (eapply common_perm; [exact H|done|symmetry; exact HP|done]).
    assert (Hbnd : forall z, z ∈ b :: x :: A' -> z < n) by (intros z Hz; apply (common_bound _ _ _ _ _ H'); clear -Hz; ins).
    assert (Hlt : less b x = true) by (apply (Hcmp b x); [apply Hbnd; set_solver..|done]).
    split; [|split; [|set_solver]].
    + eapply common_perm; [eapply (common_drop _ _ _ L x); [exact H'|set_solver|done|set_solver..]| |done|done]. solve_Permutation.
    + intros y Hy. rewrite app_nil_r in Hy. destruct (less x y) eqn:E; [|done].
      rewrite HA in Hy. rewrite <- (Hb y Hy). symmetry. apply (Htr b x y); [apply Hbnd; rewrite ?HA; clear -Hy; ins..|done|done].
  - intros opt F A b C x U L (H&Hb&Hb') Hc.
    assert (b < n /\ x < n) as [Hbn Hxn] by (split; apply (common_bound _ _ _ _ _ H); clear; ins).
    assert (less b x = false). { apply not_true_is_false. intros E. apply (Hcmp b x) in E; [lia|done..]. }
    assert (less x b = false). { apply not_true_is_false. intros E. apply (Hcmp b x) in E; [lia|done..]. }
    split; [eapply common_perm; [exact H|done| |done]; rewrite <- app_assoc; done|]. split.
    + intros y. rewrite !elem_of_app, elem_of_list_singleton. intros [?|[?| ->]]; [apply Hb; set_solver..|done].
    + intros y. rewrite !elem_of_app, elem_of_list_singleton. intros [?| ->]; [apply Hb'; set_solver|done].
  - intros opt F A b C U L (((H&_)&_)&_). rewrite <- H. solve_Permutation.
  - intros opt F A b C L (H&Hb&Hb'). rewrite app_nil_r in H. split; [exact H|]. split; [|set_solver].
    intros x Hx. destruct (less b x) eqn:E; [|done].
    assert (Hbn : b < n) by (apply (common_bound _ _ _ _ _ H); set_solver).
    pose proof H as (H1&H2&H3&H4&H5).
    assert (Hx' : x ∈ (F ++ L) ++ b :: A ++ C). { destruct H1 as [H1 _]. rewrite H1. apply elem_of_seq. lia. }
    apply elem_of_app in Hx' as [Hx'|Hx'].
    + destruct (H3 x Hx') as [Ho|(y&Hy&Hxy)]; [rewrite <- E; apply H4; set_solver|].
      assert (Hyn : y < n).
      { apply elem_of_app in Hy as [Hy|Hy]; [apply (common_bound _ _ _ _ _ H); clear -Hy; ins|].
        apply (base_bound _ _ _ _ H1). destruct H1 as (_&_&H1). set_solver. }
      assert (Hby : less b y = true) by (apply (Htr b x y); done). rewrite <- Hby.
      apply elem_of_app in Hy as [Hy|Hy]; [|apply H4; set_solver].
      apply elem_of_cons in Hy as [->|Hy]; [apply Hirr; done|apply Hb; set_solver].
    + rewrite <- E. apply elem_of_cons in Hx' as [->|Hx']; [apply Hirr; done|apply Hb; set_solver].
  - intros opt b C L F D A (H&_). split; [|intros x Hx]; apply (common_bound _ _ _ _ _ H); set_solver.
  - intros opt b C L F D D' a A (H&Hm&Hb) Hlt HD. split; [|split; [done|intros x; rewrite HD; apply Hb]].
    eapply common_perm; [eapply (common_drop (F ++ L) (b :: D' ++ A ++ C) L L b a opt)| |done|done].
    + eapply common_perm; [exact H|done| |done]. rewrite HD. solve_Permutation.
    + set_solver.
    + done.
    + done.
    + set_solver.
    + solve_Permutation.
  - intros opt b C L F D a A (H&Hm&Hb) Hlt. split; [|split; [done|]].
    + eapply common_perm; [exact H|done| |done]. rewrite <- app_assoc. done.
    + intros y. rewrite !elem_of_app, elem_of_list_singleton. intros [[?| ->]|?]; [apply Hb; set_solver|done|apply Hb; set_solver].
  - intros opt b C L F D R' (H&Hm&Hb) HR. cbn [app] in H. pose proof H as (H1&H2&H3&H4&H5).
    pose proof H1 as (Hp&Hnd&Hs).
    assert (HbL : b ∉ F ++ L).
    { intros Hbl. apply base_nodup in H1. apply NoDup_app in H1 as (_&H1&_). apply (H1 b); set_solver. }
    split; [|split; [|split; [|split]]].
    + split; [rewrite <- Hp; rewrite HR; solve_Permutation|]. split; [|intros x; rewrite elem_of_app; set_solver].
      apply NoDup_app. split; [done|]. split; [|apply NoDup_singleton]. set_solver.
    + set_solver.
    + intros x Hx. destruct (decide (x = b)) as [->|Hne]; [set_solver|].
      destruct (H3 x) as [?|(y&Hy&Hxy)]; [set_solver|set_solver|]. right. exists y. split; [|done].
      rewrite HR. clear -Hy. ins.
    + intros x o. rewrite HR. intros Hx. rewrite elem_of_app, elem_of_list_singleton. intros [Ho| ->]; [apply H4; set_solver|apply Hb; done].
    + intros o. rewrite elem_of_app, elem_of_list_singleton. intros [Ho| ->]; auto.
Qed.

Lemma best_exact : exists front, findParetoFrontBest n less cmp = Some front /\ NoDup front /\
  forall x, x ∈ front <-> x < n /\ maximal x.
Proof.
  destruct (best_loop_exact (S n) [] (seq 0 n) [] []) as (F&L&front&HK&Hr).
  - split; [|split; [|split; [|split]]]; [|set_solver..].
    split; [done|]. split; [apply NoDup_nil_2|set_solver].
  - rewrite seq_length. lia.
  - exists front. unfold findParetoFrontBest, index_vector. cbn [length] in Hr. rewrite seq_length, !app_nil_r in Hr.
    split; [exact Hr|]. destruct HK as ((Hp&Hnd&Hs)&H2&H3&H4&H5). split; [done|]. intros x. split.
    + intros Hx. split; [|apply H5; done]. rewrite app_nil_r in Hp. assert (Hx' : x ∈ F ++ L) by set_solver.
      rewrite Hp in Hx'. apply elem_of_seq in Hx'. lia.
    + intros [Hx Hm]. assert (Hx' : x ∈ F ++ L).
      { rewrite app_nil_r in Hp. rewrite Hp. apply elem_of_seq. lia. }
      destruct (H3 x Hx') as [?|(y&Hy&Hxy)]; [done|]. rewrite Hm in Hxy; [done|].
      assert (y ∈ F ++ L) by set_solver. rewrite app_nil_r in Hp. rewrite Hp in *. apply elem_of_seq in H. lia.
Qed.
End Exact.
(** ** Any comparison outcome *)
(** What a comparison said against [x] in favour of [y]. *)
Definition beats (y x : nat) : Prop := less x y = true \/ (cmp x y < 0)%Z \/ (0 < cmp y x)%Z.
(** Earlier members of the result did not dominate later ones. *)
Definition later (opt R : list nat) : Prop :=
  (forall x o, x ∈ R -> o ∈ opt -> less x o = false \/ cmp o x = 0%Z) /\
  (forall i j o o', i < j -> opt !! i = Some o -> opt !! j = Some o' -> less o' o = false \/ cmp o o' = 0%Z).
Definition gone (G opt : list nat) : Prop := forall x, x ∈ G -> x ∈ opt \/ exists y, y < n /\ beats y x.

Definition Igen (opt F A : list nat) (b : nat) (C U L : list nat) : Prop :=
  base (F ++ A ++ b :: C ++ U ++ L) L opt /\ gone (F ++ L) opt /\ later opt (A ++ b :: C ++ U) /\
  (forall x, x ∈ C -> cmp b x = 0%Z).
Definition Jgen (opt : list nat) (b : nat) (C L F D A : list nat) : Prop :=
  base (F ++ D ++ A ++ b :: C ++ L) L opt /\ gone (F ++ L) opt /\ later opt (D ++ A ++ b :: C) /\
  (forall x, x ∈ C -> cmp b x = 0%Z) /\ (forall x, x ∈ D -> less x b = false).
Definition Kgen (F R L opt : list nat) : Prop :=
  base (F ++ R ++ L) L opt /\ gone (F ++ L) opt /\ later opt R /\ (opt = [] -> 0 < n -> R <> []).

Lemma later_sub opt R R' : later opt R -> (forall x, x ∈ R' -> x ∈ R) -> later opt R'.
Proof. intros [H1 H2] Hs. split; [|done]. intros x o Hx. apply H1. auto. Qed.
Lemma gone_add G G' opt x y : gone G opt -> y < n -> beats y x -> (forall z, z ∈ G' -> z = x \/ z ∈ G) -> gone G' opt.
Proof. intros H Hy Hb Hs z Hz. destruct (Hs z Hz) as [->|?]; [right; eauto|auto]. Qed.

Lemma best_loop_gen fuel F R L opt : Kgen F R L opt -> length R < fuel ->
  exists F' L' opt', Kgen F' [] L' opt' /\
    best_loop n less cmp fuel (F ++ R ++ L) (length F) (length F + length R) opt = Some opt'.
Proof.
  apply (best_loop_ok Kgen Igen Jgen); clear fuel F R L opt.
  - intros F R L opt ((H&_)&_). exact H.
  - intros F b R L opt (H1&H2&H3&H4). split; [exact H1|]. split; [exact H2|]. split; [exact H3|set_solver].
  - intros opt F A b C U L (H&_) x Hx. apply (base_bound _ _ _ _ H). set_solver.
  - intros opt F A b C x U U' L (H1&H2&H3&H4) Hc HU. split; [|split; [|split; [|exact H4]]].
    + eapply base_perm; [exact H1| |set_solver]. rewrite HU. solve_Permutation.
    + apply (gone_add _ _ _ x b H2); [apply (base_bound _ _ _ _ H1); set_solver|right; right; done|set_solver].
    + eapply later_sub; [exact H3|]. intros y. rewrite HU. set_solver.
  - intros opt F A A' b C x U L (H1&H2&H3&H4) Hc HA. split; [|split; [|split; [|set_solver]]].
    + eapply base_perm; [exact H1| |set_solver]. rewrite HA. solve_Permutation.
    + apply (gone_add _ _ _ b x H2); [apply (base_bound _ _ _ _ H1); set_solver|right; left; done|set_solver].
    + eapply later_sub; [exact H3|]. intros y. rewrite HA. set_solver.
  - intros opt F A b C x U L (H1&H2&H3&H4) Hc. split; [|split; [done|split]].
    + eapply base_perm; [exact H1| |set_solver]. rewrite <- app_assoc. done.
    + eapply later_sub; [exact H3|]. set_solver.
    + intros y. rewrite elem_of_app, elem_of_list_singleton. intros [?| ->]; auto.
  - intros opt F A b C U L ((H&_)&_). exact H.
  - intros opt F A b C L (H1&H2&H3&H4). rewrite app_nil_r in H3. split; [exact H1|]. split; [exact H2|]. split; [exact H3|].
    split; [exact H4|set_solver].
  - intros opt b C L F D A (H&_). split; [|intros x Hx]; apply (base_bound _ _ _ _ H); set_solver.
  - intros opt b C L F D D' a A (H1&H2&H3&H4&H5) Hlt HD. split; [|split; [|split; [|split]]].
    + eapply base_perm; [exact H1| |set_solver]. rewrite HD. solve_Permutation.
    + apply (gone_add _ _ _ a b H2); [apply (base_bound _ _ _ _ H1); set_solver|left; done|set_solver].
    + eapply later_sub; [exact H3|]. intros y. rewrite HD. set_solver.
    + done.
    + intros x. rewrite HD. apply H5.
  - intros opt b C L F D a A (H1&H2&H3&H4&H5) Hlt. split; [|split; [|split; [|split]]].
    + eapply base_perm; [exact H1| |set_solver]. rewrite <- app_assoc. done.
    + done.
    + eapply later_sub; [exact H3|]. set_solver.
    + done.
    + intros y. rewrite elem_of_app, elem_of_list_singleton. intros [?| ->]; auto.
  - intros opt b C L F D R' (H1&H2&[H3 H3']&H4&H5) HR. cbn [app] in *.
    pose proof H1 as (Hp&Hnd&Hs).
    assert (HbL : b ∉ L).
    { apply base_nodup in H1. rewrite app_assoc in H1. apply NoDup_app in H1 as (_&_&H1). apply NoDup_cons in H1 as [H1 _]. set_solver. }
    split; [|split; [|split; [split|]]].
    + split; [rewrite <- Hp; rewrite HR; solve_Permutation|]. split; [|intros x; rewrite elem_of_app; set_solver].
      apply NoDup_app. split; [done|]. split; [set_solver|apply NoDup_singleton].
    + intros x Hx. destruct (decide (x = b)) as [->|Hne]; [left; set_solver|]. destruct (H2 x) as [?|?]; [set_solver|left; set_solver|by right].
    + intros x o. rewrite HR. intros Hx. rewrite elem_of_app, elem_of_list_singleton.
      intros [Ho| ->]; [apply H3; [set_solver|done]|]. apply elem_of_app in Hx as [?|?]; [left; auto|right; auto].
    + intros i j o o' Hij Ho Ho'. assert (Hj : j <= length opt) by (apply lookup_lt_Some in Ho'; rewrite app_length in Ho'; cbn in Ho'; lia).
      destruct (decide (j = length opt)) as [->|Hne]; [rewrite list_lookup_middle in Ho' by done; injection Ho' as <-|].
      2: rewrite lookup_app_l in Ho' by lia. all: swap 1 2.
      * apply (H3' i j); [done| |done]. rewrite lookup_app_l in Ho by lia. done.
      * rewrite lookup_app_l in Ho by lia. apply H3; [set_solver|]. apply elem_of_list_lookup. eauto.
    + intros Ho. destruct opt; done.
Qed.

Lemma best_gen : exists front, findParetoFrontBest n less cmp = Some front /\ NoDup front /\
  (forall x, x ∈ front -> x < n) /\ (0 < n -> front <> []) /\
  (forall x, x < n -> x ∈ front \/ exists y, y < n /\ beats y x) /\
  (forall i j o o', i < j -> front !! i = Some o -> front !! j = Some o' -> less o' o = false \/ cmp o o' = 0%Z).
Proof.
  destruct (best_loop_gen (S n) [] (seq 0 n) [] []) as (F&L&front&HK&Hr).
  - split; [|split; [|split; [split|]]]; [|intros x Hx; set_solver|intros x o Hx Ho; set_solver|intros i j o o1 Hij Ho; rewrite lookup_nil in Ho; done|].
    + split; [rewrite app_nil_r; done|]. split; [apply NoDup_nil_2|set_solver].
    + intros _ Hn E. apply (f_equal length) in E. rewrite seq_length in E. cbn in E. lia.
  - rewrite seq_length. lia.
  - exists front. unfold findParetoFrontBest, index_vector. cbn [length] in Hr. rewrite seq_length, !app_nil_r in Hr.
    split; [exact Hr|]. destruct HK as ((Hp&Hnd&Hs)&H2&[_ H3]&H4). cbn [app] in Hp. split; [done|].
    split; [|split; [|split; [|done]]].
    + intros x Hx. assert (Hx' : x ∈ F ++ L) by set_solver. rewrite Hp in Hx'. apply elem_of_seq in Hx'. lia.
    + intros Hn ->. apply H4; done.
    + intros x Hx. apply H2. rewrite Hp. apply elem_of_seq. lia.
Qed.

(** ** The sort-based and the divide-and-conquer algorithm *)
Lemma any_dominates_ok x opt : x < n -> (forall o, o ∈ opt -> o < n) ->
  exists r, any_dominates n less x opt = Some r /\ (r = true <-> exists o, o ∈ opt /\ less x o = true).
Proof.
  intros Hx. induction opt as [|o opt IH]; intros Ho; cbn [any_dominates].
  - exists false. split; [done|]. split; [done|]. intros (o&Ho'&_). set_solver.
  - unfold lessM. rewrite decide_True by (split; [done|apply Ho; set_solver]). cbn [mbind option_bind].
    destruct (less x o) eqn:E; [exists true; split; [done|]; split; [|done]; intros _; exists o; set_solver|].
    destruct IH as (r&Hr&Hiff); [set_solver|]. exists r. split; [done|]. rewrite Hiff. split.
    + intros (o'&?&?). exists o'. set_solver.
    + intros (o'&Ho'&?). apply elem_of_cons in Ho' as [->|Ho']; [congruence|eauto].
Qed.

Lemma kung_merge_sort top bottom : kung_merge n less top bottom = front_sort_loop n less bottom top.
Proof. revert top. induction bottom as [|b bottom IH]; intros top; cbn; [done|]. destruct (any_dominates n less b top); cbn; [|done]. apply IH. Qed.

(** [res] is a front of [range]. *)
Record front_of (range res : list nat) : Prop := {
  fo_sub : res `sublist_of` range;
  fo_dom : forall x, x ∈ range -> x ∈ res \/ exists o, o ∈ res /\ less x o = true;
  fo_ord : forall i j o o', i < j -> res !! i = Some o -> res !! j = Some o' -> less o' o = false;
}.

Lemma front_sort_loop_ok indices : forall opt,
  (forall x, x ∈ opt ++ indices -> x < n) ->
  exists kept, front_sort_loop n less indices opt = Some (opt ++ kept) /\ kept `sublist_of` indices /\
    (forall x, x ∈ indices -> x ∈ kept \/ exists o, o ∈ opt ++ kept /\ less x o = true) /\
    (forall i j o o', i < j -> length opt <= j -> (opt ++ kept) !! i = Some o -> (opt ++ kept) !! j = Some o' -> less o' o = false).
Proof.
  induction indices as [|x indices IH]; intros opt Hb; cbn [front_sort_loop].
  - exists []. rewrite app_nil_r. split; [done|]. split; [done|]. split; [set_solver|].
    intros i j o o' _ Hj _ Ho'. apply lookup_lt_Some in Ho'. lia.
  - destruct (any_dominates_ok x opt) as (r&Hr&Hiff); [apply Hb; set_solver|intros; apply Hb; set_solver|].
    rewrite Hr. cbn [mbind option_bind]. destruct r.
    + destruct (IH opt) as (kept&H1&H2&H3&H4); [intros; apply Hb; set_solver|].
      exists kept. split; [done|]. split; [apply sublist_cons; done|]. split; [|done].
      intros y Hy. apply elem_of_cons in Hy as [->|Hy]; [|auto].
      destruct Hiff as [(o&?&?) _]; [done|]. right. exists o. set_solver.
    + destruct (IH (opt ++ [x])) as (kept&H1&H2&H3&H4); [intros; apply Hb; set_solver|].
      exists (x :: kept). rewrite <- !app_assoc in *. cbn [app] in *. split; [done|]. split; [apply sublist_skip; done|]. split.
      * intros y Hy. apply elem_of_cons in Hy as [->|Hy]; [left; set_solver|]. destruct (H3 y Hy) as [?|?]; [left; set_solver|by right].
      * intros i j o o' Hij Hj Ho Ho'. destruct (decide (j = length opt)) as [->|Hne].
        -- rewrite list_lookup_middle in Ho' by done. injection Ho' as <-. rewrite lookup_app_l in Ho by lia.
           destruct (less x o) eqn:E; [|done]. destruct Hiff as [_ Hiff]. discriminate Hiff. exists o. split; [|done].
           apply elem_of_list_lookup. eauto.
        -- apply (H4 i j); [done| |done..]. rewrite app_length. cbn. lia.
Qed.

Lemma kung_ok (Htr : forall x y z, x < n -> y < n -> z < n -> less x y = true -> less y z = true -> less x z = true) fuel :
  forall range, 0 < length range <= fuel -> (forall x, x ∈ range -> x < n) ->
  exists res, kung n less fuel range = Some res /\ front_of range res /\ res <> [].
Proof.
  induction fuel as [|fuel IH]; intros range Hl Hb; [lia|]. cbn [kung]. destruct (decide (length range = 1)) as [H1|H1].
  - destruct range as [|x [|]]; cbn in H1; try lia. exists [x]. split; [done|]. split; [|done].
    split; [done|set_solver|]. intros i [|j] o o' Hij _ Ho'; [lia|]. cbn in Ho'. done.
  - cbv zeta. assert (Hm : 0 < length range / 2 < length range).
    { split; [apply Nat.div_str_pos; lia|apply Nat.div_lt; lia]. }
    remember (length range / 2) as m eqn:Em. clear Em.
    destruct (IH (take m range)) as (top&Ht&[Hts Htd Hto]&Htne).
    { rewrite take_length. lia. }
    { intros x Hx. apply Hb. apply elem_of_list_lookup in Hx as [i Hi]. apply lookup_take_Some in Hi as [Hi _].
      apply elem_of_list_lookup. eauto. }
    destruct (IH (drop m range)) as (bot&Hbt&[Hbs Hbd Hbo]&Hbne).
    { rewrite drop_length. lia. }
    { intros x Hx. apply Hb. apply elem_of_list_lookup in Hx as [i Hi]. rewrite lookup_drop in Hi.
      apply elem_of_list_lookup. eauto. }
    rewrite Ht, Hbt. cbn [mbind option_bind]. rewrite kung_merge_sort.
    assert (Hsub : top ++ bot `sublist_of` range).
    { rewrite <- (take_drop m range). apply sublist_app; done. }
    assert (Hsb : forall x, x ∈ top ++ bot -> x < n).
    { intros x Hx. apply Hb. apply (sublist_in (top ++ bot)); done. }
    destruct (front_sort_loop_ok bot top Hsb) as (kept&Hk&Hks&Hkd&Hko).
    exists (top ++ kept). split; [done|]. split; [|destruct top; done]. split.
    + etransitivity; [|exact Hsub]. apply sublist_app; done.
    + intros x Hx. rewrite <- (take_drop m range) in Hx. apply elem_of_app in Hx as [Hx|Hx].
      * destruct (Htd x Hx) as [?|(o&?&?)]; [left; set_solver|right; exists o; set_solver].
      * destruct (Hbd x Hx) as [Hy|(y&Hy&Hxy)].
        { destruct (Hkd x Hy) as [?|(o&?&?)]; [left; set_solver|right; exists o; set_solver]. }
        right. destruct (Hkd y Hy) as [?|(o&Ho&?)]; [exists y; set_solver|]. exists o. split; [done|].
        assert (o ∈ top ++ bot).
        { apply elem_of_app in Ho as [?|Ho]; [set_solver|]. apply elem_of_app. right. apply (sublist_in kept); done. }
        apply (Htr x y o); [|apply Hsb; clear -Hy; ins|apply Hsb; done|done|done].
        apply Hb. rewrite <- (take_drop m range). clear -Hx. ins.
    + intros i j o o' Hij Ho Ho'. destruct (decide (length top <= j)) as [Hj|Hj]; [apply (Hko i j); done|].
      rewrite !lookup_app_l in * by lia. apply (Hto i j); done.
Qed.

(** Without transitivity: termination and validity. *)
Lemma kung_safe fuel : forall range, 0 < length range <= fuel -> (forall x, x ∈ range -> x < n) ->
  exists res, kung n less fuel range = Some res /\ res `sublist_of` range /\ res <> [].
Proof.
  induction fuel as [|fuel IH]; intros range Hl Hb; [lia|]. cbn [kung]. destruct (decide (length range = 1)) as [H1|H1].
  - destruct range as [|x [|]]; cbn in H1; try lia. exists [x]. done.
  - cbv zeta. assert (Hm : 0 < length range / 2 < length range).
    { split; [apply Nat.div_str_pos; lia|apply Nat.div_lt; lia]. }
    remember (length range / 2) as m eqn:Em. clear Em.
    destruct (IH (take m range)) as (top&Ht&Hts&Htne).
    { rewrite take_length. lia. }
    { intros x Hx. apply Hb. apply (sublist_in (take m range)); [apply sublist_take|done]. }
    destruct (IH (drop m range)) as (bot&Hbt&Hbs&Hbne).
    { rewrite drop_length. lia. }
    { intros x Hx. apply Hb. apply (sublist_in (drop m range)); [apply sublist_drop|done]. }
    rewrite Ht, Hbt. cbn [mbind option_bind]. rewrite kung_merge_sort.
    assert (Hsub : top ++ bot `sublist_of` range).
    { rewrite <- (take_drop m range). apply sublist_app; done. }
    destruct (front_sort_loop_ok bot top) as (kept&Hk&Hks&Hkd&Hko).
    { intros x Hx. apply Hb. apply (sublist_in (top ++ bot)); done. }
    exists (top ++ kept). split; [done|]. split; [|destruct top; done].
    etransitivity; [|exact Hsub]. apply sublist_app; done.
Qed.

Lemma kung_empty fuel : kung n less fuel [] = None.
Proof. induction fuel as [|fuel IH]; cbn; [done|]. rewrite IH. done. Qed.

Section Sorted.
Context (sort : (nat -> nat -> bool) -> list nat -> list nat) (lexgt : nat -> nat -> bool).
Hypothesis Hsort : sort_contract sort.
Hypothesis Hlex : swo_on lexgt (seq 0 n).

Lemma sorted_indices : argsort sort lexgt false (index_vector n 0) ≡ₚ seq 0 n /\
  sorted_by lexgt (argsort sort lexgt false (index_vector n 0)).
Proof.
  destruct (argsort_ok lexgt sort false (index_vector n 0) Hsort) as [H1 H2]; [done|].
  unfold index_perm, index_vector in *. rewrite seq_length in *. split; [done|]. intros i j x y Hij Hx Hy.
  assert (x < n /\ y < n) as [Hxn Hyn].
  { split; [assert (Hi : x ∈ seq 0 n)|assert (Hi : y ∈ seq 0 n)];
    try (rewrite <- H1; apply elem_of_list_lookup; eauto); apply elem_of_seq in Hi; lia. }
  apply (H2 i j x y x y); try done; [|apply lookup_seq; lia..].
  apply Permutation_length in H1. rewrite seq_length in H1. rewrite <- H1. apply lookup_lt_Some in Hx. done.
Qed.

Lemma sort_front : exists res, findParetoFrontSort n less sort lexgt = Some res /\
  front_of (argsort sort lexgt false (index_vector n 0)) res /\ (0 < n -> res <> []).
Proof.
  destruct sorted_indices as [Hp Hs]. unfold findParetoFrontSort.
  remember (argsort sort lexgt false (index_vector n 0)) as ix eqn:E. clear E.
  destruct (front_sort_loop_ok ix []) as (kept&H1&H2&H3&H4).
  { cbn. intros x Hx. rewrite Hp in Hx. apply elem_of_seq in Hx. lia. }
  cbn [app] in *. exists kept. split; [done|]. split.
  - split; [done|done|]. intros i j o o' Hij. apply H4; [done|cbn; lia].
  - intros Hn ->. destruct ix as [|x ix].
    + apply Permutation_length in Hp. rewrite seq_length in Hp. cbn in Hp. lia.
    + destruct (H3 x) as [?|(o&?&_)]; set_solver.
Qed.

Lemma front_exact res
  (Hirr : forall x, x < n -> less x x = false)
  (Htr : forall x y z, x < n -> y < n -> z < n -> less x y = true -> less y z = true -> less x z = true)
  (Hdl : forall x y, x < n -> y < n -> less x y = true -> lexgt y x = true) :
  front_of (argsort sort lexgt false (index_vector n 0)) res -> NoDup res /\ forall x, x ∈ res <-> x < n /\ maximal x.
Proof.
  destruct sorted_indices as [Hp Hs]. remember (argsort sort lexgt false (index_vector n 0)) as ix eqn:E. clear E.
  intros [H1 H2 H3].
  assert (Hb : forall x, x ∈ ix <-> x < n) by (intros x; rewrite Hp, elem_of_seq; lia).
  assert (Hrb : forall x, x ∈ res -> x < n) by (intros x Hx; apply Hb; apply (sublist_in res); done).
  assert (Hnd : NoDup res). { eapply sublist_NoDup; [|exact H1]. rewrite Hp. apply NoDup_seq. }
  assert (Hsr : forall i j o o', i < j -> res !! i = Some o -> res !! j = Some o' -> less o o' = false).
  { intros i j o o' Hij Ho Ho'. destruct (less o o') eqn:E; [|done].
    assert (o < n /\ o' < n) as [Hon Hon'] by (split; apply Hrb; apply elem_of_list_lookup; eauto).
    pose proof (Hdl o o' Hon Hon' E) as Hgt. rewrite <- Hgt. clear -H1 Hs Hij Ho Ho'.
    assert (Hsr : sorted_by lexgt res).
    { clear -H1 Hs. induction H1 as [|x l k Hlk IH|x l k Hlk IH]; [done| |].
      - apply sorted_by_cons in Hs as [Hx Hs]. apply sorted_by_cons. split; [|auto].
        intros y Hy. apply Hx. apply (sublist_in l); done.
      - apply sorted_by_cons in Hs as [Hx Hs]. auto. }
    apply (Hsr i j); done. }
  split; [done|]. intros x. split.
  - intros Hx. split; [auto|]. intros y Hy. destruct (less x y) eqn:E; [|done].
    assert (exists o, o ∈ res /\ less x o = true) as (o&Ho&Hxo).
    { destruct (H2 y) as [?|(o&Ho&?)]; [apply Hb; done|exists y; done|]. exists o. split; [done|]. apply (Htr x y o); auto. }
    rewrite <- Hxo. apply elem_of_list_lookup in Ho as [j Hj]. apply elem_of_list_lookup in Hx as [i Hi].
    destruct (Nat.lt_trichotomy i j) as [Hij|[-> |Hij]].
    + apply (Hsr i j); done.
    + rewrite Hi in Hj. injection Hj as <-. apply Hirr. apply Hrb. apply elem_of_list_lookup. eauto.
    + apply (H3 j i); done.
  - intros [Hx Hm]. destruct (H2 x) as [?|(o&Ho&Hxo)]; [apply Hb; done|done|]. rewrite Hm in Hxo; auto. done.
Qed.

Lemma kung_front :
  (forall x y z, x < n -> y < n -> z < n -> less x y = true -> less y z = true -> less x z = true) -> 0 < n ->
  exists res, findParetoFrontKung n less sort lexgt = Some res /\
  front_of (argsort sort lexgt false (index_vector n 0)) res.
Proof.
  intros Htr Hn. destruct sorted_indices as [Hp _]. unfold findParetoFrontKung.
  destruct (kung_ok Htr n (argsort sort lexgt false (index_vector n 0))) as (res&H1&H2&_).
  - rewrite Hp, seq_length. lia.
  - intros x. rewrite Hp, elem_of_seq. lia.
  - eauto.
Qed.
Lemma kung_valid : 0 < n ->
  exists res, findParetoFrontKung n less sort lexgt = Some res /\
  res `sublist_of` argsort sort lexgt false (index_vector n 0) /\ res <> [].
Proof.
  intros Hn. destruct sorted_indices as [Hp _]. unfold findParetoFrontKung. apply kung_safe.
  - rewrite Hp, seq_length. lia.
  - intros x. rewrite Hp, elem_of_seq. lia.
Qed.
End Sorted.
End Front.
