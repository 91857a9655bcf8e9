(** sampleUnique selects every subset equally often. *)
From Coq Require Import ZArith Lia Factorial.
From stdpp Require Import list list_numbers.
From Flocq Require Import Core BinarySingleNaN.
From Verif Require Import FloatBase FloatProofs RealCrossoverModel RealSpec RealProofs RandModel RandSpec RandProofs BinomialProofs RandProps.
Local Open Scope Z_scope.

(** The numbers selected by draws, given in reverse order: the new draw, or the largest
    number possible if it was selected before. *)
Fixpoint floyd (first : Z) (rt : list Z) : list Z :=
  match rt with
  | [] => []
  | n :: rt => floyd first rt ++ [if decide (n ∈ floyd first rt) then first + Z.of_nat (length rt) else n]
  end.
Fixpoint fvalid (lb first : Z) (rt : list Z) : Prop :=
  match rt with [] => True | n :: rt => lb <= n <= first + Z.of_nat (length rt) /\ fvalid lb first rt end.
Lemma floyd_ok lb first rt : lb <= first -> fvalid lb first rt ->
  length (floyd first rt) = length rt /\ NoDup (floyd first rt) /\ Forall (fun x => lb <= x < first + Z.of_nat (length rt)) (floyd first rt).
Proof.
  intros Hl. induction rt as [|n rt IH]; intros Hv; [split; [done|]; split; constructor|]. destruct Hv as [Hn Hv]. destruct (IH Hv) as (L & N & F). cbn [floyd].
  remember (floyd first rt) as l eqn:El. clear El IH. rewrite Forall_forall in F. cbn [length].
  assert (Hw : (if decide (n ∈ l) then first + Z.of_nat (length rt) else n) ∉ l /\ lb <= (if decide (n ∈ l) then first + Z.of_nat (length rt) else n) <= first + Z.of_nat (length rt)).
  { case_decide as D; [|split; [done|lia]]. split; [|lia]. intros H. apply F in H. lia. }
  destruct Hw as [Hw1 Hw2]. split; [rewrite app_length; cbn [length]; lia|]. split.
  - apply NoDup_app. split; [done|]. split; [|apply NoDup_singleton]. intros x Hx Hx2. apply elem_of_list_singleton in Hx2. by subst x.
  - apply Forall_app. split; [|constructor; [lia|constructor]]. apply Forall_forall. intros x Hx. apply F in Hx. lia.
Qed.

Lemma gather c (Q : Z -> list Z -> Prop) (D : list Z) : NoDup D -> (forall v, v ∈ D -> exactly c (Q v)) ->
  exactly (length D * c) (fun t => exists v rt, t = v :: rt /\ v ∈ D /\ Q v rt).
Proof.
  intros Hnd. induction D as [|v D IH]; intros H.
  { exists []. split; [constructor|]. split; [done|]. intros t. rewrite elem_of_nil. split; [done|]. intros (v & rt & _ & Hv & _). by apply elem_of_nil in Hv. }
  apply NoDup_cons in Hnd as [Hv Hnd]. destruct (H v) as (tv & N1 & L1 & S1); [left|].
  destruct IH as (ts & N2 & L2 & S2); [done|intros u Hu; apply H; by right|].
  exists ((cons v <$> tv) ++ ts). split; [|split].
  - apply NoDup_app. split; [apply NoDup_fmap; [by intros x y [= ->]|done]|]. split; [|done].
    intros t Ht Ht2. apply elem_of_list_fmap in Ht as (rt & -> & _). apply S2 in Ht2 as (v' & rt' & [= <- <-] & Hv' & _). done.
  - rewrite app_length, fmap_length, L1, L2. cbn [length]. lia.
  - intros t. rewrite elem_of_app, elem_of_list_fmap, S2. split.
    + intros [(rt & -> & Hrt)|(v' & rt & -> & Hv' & HQ)].
      * exists v, rt. split; [done|]. split; [left|]. by apply S1.
      * exists v', rt. split; [done|]. split; [by right|done].
    + intros (v' & rt & -> & Hv' & HQ). apply elem_of_cons in Hv' as [->|Hv']; [left; exists rt; split; [done|by apply S1]|right; by exists v', rt].
Qed.
Lemma and_iff_compat_l_dep (A B C : Prop) : (A -> (B <-> C)) -> (A /\ B <-> A /\ C).
Proof. tauto. Qed.
Lemma exactly_iff {A} k (P Q : A -> Prop) : (forall a, P a <-> Q a) -> exactly k P -> exactly k Q.
Proof. intros H (l & N & L & S1). exists l. split; [done|]. split; [done|]. intros a. by rewrite S1. Qed.
Lemma remove_one (x : Z) (T : list Z) : NoDup T -> x ∈ T -> exists S1, T ≡ₚ x :: S1 /\ NoDup S1 /\ x ∉ S1 /\ length T = S (length S1).
Proof.
  intros N Hx. apply elem_of_Permutation in Hx as [S1 E]. exists S1. rewrite E in N. apply NoDup_cons in N as [N1 N2]. split; [done|]. split; [done|]. split; [done|]. by rewrite E.
Qed.
Lemma floyd_count lb first m : lb <= first -> forall T, NoDup T -> length T = m -> Forall (fun x => lb <= x < first + Z.of_nat m) T ->
  exactly (fact m) (fun rt => length rt = m /\ fvalid lb first rt /\ floyd first rt ≡ₚ T).
Proof.
  intros Hl. induction m as [|m IH]; intros T N L F.
  { destruct T; [|done]. exists [[]]. split; [apply NoDup_singleton|]. split; [done|]. intros rt. rewrite elem_of_list_singleton. split; [by intros ->|]. intros [H _]. by apply nil_length_inv in H. }
  rewrite Forall_forall in F. change (fact (S m)) with (S m * fact m)%nat.
  destruct (decide (first + Z.of_nat m ∈ T)) as [Hin|Hout].
  - destruct (remove_one _ _ N Hin) as (S1 & E & N1 & X1 & L1).
    assert (F1 : forall x, x ∈ S1 -> lb <= x < first + Z.of_nat m).
    { intros x Hx. assert (x ∈ T) as HT by (rewrite E; by right). apply F in HT. assert (x <> first + Z.of_nat m) by (intros ->; done). lia. }
    replace (S m * fact m)%nat with (length ((first + Z.of_nat m)%Z :: S1) * fact m)%nat by (cbn [length]; f_equal; lia).
    eapply exactly_iff; [|apply (gather (fact m) (fun _ rt => length rt = m /\ fvalid lb first rt /\ floyd first rt ≡ₚ S1) (first + Z.of_nat m :: S1))].
    + intros t. split.
      * intros (v & rt & -> & Hv & Lr & Vr & Er). destruct (floyd_ok lb first rt Hl Vr) as (_ & Nr & Fr). rewrite Forall_forall in Fr. rewrite Lr in Fr.
        cbn [length fvalid floyd]. rewrite Lr. split; [done|]. split.
        { split; [|done]. apply elem_of_cons in Hv as [->|Hv]; [lia|]. apply F1 in Hv. lia. }
        assert (Ew : (if decide (v ∈ floyd first rt) then first + Z.of_nat m else v) = first + Z.of_nat m).
        { case_decide as D; [done|]. rewrite Er in D. apply elem_of_cons in Hv as [->|Hv]; done. }
        rewrite Ew, E, Er. symmetry. apply Permutation_cons_append.
      * intros (Lt & Vt & Et). destruct t as [|v rt]; [done|]. cbn [length] in Lt. injection Lt as Lr. destruct Vt as [Bv Vr]. cbn [floyd] in Et. rewrite Lr in *.
        destruct (floyd_ok lb first rt Hl Vr) as (_ & Nr & Fr). rewrite Forall_forall in Fr. rewrite Lr in Fr.
        rewrite <- Permutation_cons_append in Et.
        assert (Ew : (if decide (v ∈ floyd first rt) then first + Z.of_nat m else v) = first + Z.of_nat m).
        { assert (Hx : first + Z.of_nat m ∈ (if decide (v ∈ floyd first rt) then first + Z.of_nat m else v) :: floyd first rt) by (by rewrite Et).
          apply elem_of_cons in Hx as [<-|Hx]; [done|]. apply Fr in Hx. lia. }
        rewrite Ew, E in Et. apply Permutation_cons_inv in Et.
        exists v, rt. split; [done|]. split; [|done]. case_decide as D; [right; by rewrite <- Et|]. rewrite Ew. left.
    + constructor; done.
    + intros v _. apply IH; [done|congruence|]. by apply Forall_forall.
  - replace (S m * fact m)%nat with (length T * fact m)%nat by (by rewrite L). eapply exactly_iff; [|apply (gather (fact m) (fun v rt => length rt = m /\ fvalid lb first rt /\ v :: floyd first rt ≡ₚ T) T)].
    + intros t. split.
      * intros (v & rt & -> & Hv & Lr & Vr & Er). destruct (floyd_ok lb first rt Hl Vr) as (_ & Nr & Fr).
        cbn [length fvalid floyd]. rewrite Lr. split; [done|]. split.
        { split; [|done]. apply F in Hv. lia. }
        assert (NT := N). rewrite <- Er in NT. apply NoDup_cons in NT as [NT _]. rewrite decide_False by done. rewrite <- Er. symmetry. apply Permutation_cons_append.
      * intros (Lt & Vt & Et). destruct t as [|v rt]; [done|]. cbn [length] in Lt. injection Lt as Lr. destruct Vt as [Bv Vr]. cbn [floyd] in Et. rewrite Lr in *.
        rewrite <- Permutation_cons_append in Et. case_decide as D; [exfalso; apply Hout; rewrite <- Et; left|].
        exists v, rt. split; [done|]. split; [rewrite <- Et; left|done].
    + done.
    + intros v Hv. destruct (remove_one _ _ N Hv) as (S1 & E & N1 & X1 & L1).
      eapply exactly_iff; [|apply (IH S1 N1); [congruence|]].
      * intros rt. rewrite E. split; intros (? & ? & Hp); (split; [done|]; split; [done|]); [by rewrite Hp|by apply Permutation_cons_inv in Hp].
      * apply Forall_forall. intros x Hx. assert (x ∈ T) as HT by (rewrite E; by right). assert (x <> first + Z.of_nat m) by (intros ->; done). apply F in HT. lia.
Qed.

(** The loops follow [floyd]. *)
Lemma fvalid_app lb first p t : fvalid lb first (reverse (p ++ t)) -> fvalid lb first (reverse p).
Proof.
  rewrite reverse_app. generalize (reverse t), (reverse p). intros q. induction q as [|x q IH]; intros r H; [done|]. destruct H as [_ H]. by apply IH.
Qed.
Lemma fvalid_next lb first p n t : fvalid lb first (reverse (p ++ n :: t)) -> lb <= n <= first + Z.of_nat (length p).
Proof.
  intros H. replace (p ++ n :: t) with ((p ++ [n]) ++ t) in H by (by rewrite <- app_assoc). apply fvalid_app in H. rewrite reverse_snoc in H.
  destruct H as [H _]. by rewrite reverse_length in H.
Qed.
Definition offsets (lb : Z) (t : list Z) : list Z := (fun n => n - lb) <$> t.
Lemma stream_of_stail x m : stail (stream_of (x :: m)) = stream_of m. Proof. done. Qed.
Lemma randomInt_offset lb ub n m : lb <= n <= ub -> randomInt lb ub (stream_of (n - lb :: m)) = Some (n, stream_of m).
Proof.
  intros H. unfold randomInt. rewrite rassert_true by lia. unfold rbind, rnext, rret. cbn [mbind option_bind]. rewrite stream_of_stail.
  change (bits (stream_of (n - lb :: m) 0%nat)) with (n - lb). rewrite Z.mod_small by lia. do 2 f_equal. lia.
Qed.
(** The flags of selected numbers. *)
Definition flags (lb : Z) (b : bool) (sel : list bool) (l : list Z) : Prop :=
  forall i c, sel !! i = Some c -> (c = b <-> lb + Z.of_nat i ∈ l).
Lemma flags_insert lb b sel l n : flags lb b sel l -> 0 <= n - lb < Z.of_nat (length sel) -> flags lb b (<[Z.to_nat (n - lb) := b]> sel) (l ++ [n]).
Proof.
  intros H Hn i c Hi. rewrite elem_of_app, elem_of_list_singleton. destruct (decide (i = Z.to_nat (n - lb))) as [->|Hne].
  - rewrite list_lookup_insert in Hi by lia. injection Hi as <-. split; [intros _; right; lia|done].
  - rewrite list_lookup_insert_ne in Hi by done. rewrite (H i c Hi). split; [by left|]. intros [?|E]; [done|lia].
Qed.
Lemma few_loop_floyd lb ub first t : forall p sel, lb <= first -> fvalid lb first (reverse (p ++ t)) -> Z.of_nat (length sel) = ub - lb ->
  first + Z.of_nat (length (p ++ t)) = ub -> flags lb true sel (floyd first (reverse p)) ->
  exists rest s', few_loop lb (first + Z.of_nat (length p)) (length t) sel (stream_of (offsets lb t)) = Some (rest, s') /\
    floyd first (reverse p) ++ rest = floyd first (reverse (p ++ t)).
Proof.
  induction t as [|n t IH]; intros p sel Hl Hv Hs Hu Hf.
  { exists [], (stream_of []). split; [done|]. by rewrite !app_nil_r. }
  pose proof (fvalid_next _ _ _ _ _ Hv) as Hn. rewrite app_length in Hu. cbn [length] in Hu. cbn [length few_loop offsets fmap list_fmap].
  rewrite (rbind_eq _ _ _ _ _ (randomInt_offset lb (first + Z.of_nat (length p)) n _ Hn)).
  destruct (lookup_lt_is_Some_2 sel (Z.to_nat (n - lb))) as [b Hb]; [lia|]. rewrite (rbind_eq _ _ _ _ _ (rlift_eq _ _ _ Hb)). cbn zeta.
  pose proof (Hf _ _ Hb) as Hfb. replace (lb + Z.of_nat (Z.to_nat (n - lb))) with n in Hfb by lia.
  remember (if b then first + Z.of_nat (length p) else n) as number eqn:En.
  assert (Hnum : lb <= number <= first + Z.of_nat (length p)) by (subst number; destruct b; lia).
  destruct (lookup_lt_is_Some_2 sel (Z.to_nat (number - lb))) as [b2 Hb2]; [lia|]. rewrite (rbind_eq _ _ _ _ _ (rlift_eq _ _ _ Hb2)).
  assert (Ep : floyd first (reverse (p ++ [n])) = floyd first (reverse p) ++ [number]).
  { rewrite reverse_snoc. cbn [floyd]. rewrite reverse_length. do 2 f_equal. subst number. destruct b.
    - rewrite decide_True by (by apply Hfb). done.
    - rewrite decide_False; [done|]. intros H. apply Hfb in H. done. }
  destruct (IH (p ++ [n]) (<[Z.to_nat (number - lb) := true]> sel)) as (rest & s' & Hrest & Erest).
  - done.
  - by rewrite <- app_assoc.
  - by rewrite insert_length.
  - rewrite !app_length. cbn [length]. lia.
  - rewrite Ep. apply flags_insert; [done|lia].
  - replace (first + Z.of_nat (length p) + 1) with (first + Z.of_nat (length (p ++ [n]))) by (rewrite app_length; cbn [length]; lia).
    rewrite (rbind_eq _ _ _ _ _ Hrest). exists (number :: rest), s'. split; [done|]. rewrite Ep, <- app_assoc in Erest. cbn [app] in Erest. rewrite Erest. by rewrite <- app_assoc.
Qed.
Lemma many_loop_floyd lb ub first t : forall p sel, lb <= first -> fvalid lb first (reverse (p ++ t)) -> Z.of_nat (length sel) = ub - lb ->
  first + Z.of_nat (length (p ++ t)) = ub -> flags lb false sel (floyd first (reverse p)) ->
  exists sel' s', many_loop lb (first + Z.of_nat (length p)) (length t) sel (stream_of (offsets lb t)) = Some (sel', s') /\
    length sel' = length sel /\ flags lb false sel' (floyd first (reverse (p ++ t))).
Proof.
  induction t as [|n t IH]; intros p sel Hl Hv Hs Hu Hf.
  { exists sel, (stream_of []). split; [done|]. by rewrite !app_nil_r. }
  pose proof (fvalid_next _ _ _ _ _ Hv) as Hn. rewrite app_length in Hu. cbn [length] in Hu. cbn [length many_loop offsets fmap list_fmap].
  rewrite (rbind_eq _ _ _ _ _ (randomInt_offset lb (first + Z.of_nat (length p)) n _ Hn)).
  destruct (lookup_lt_is_Some_2 sel (Z.to_nat (n - lb))) as [b Hb]; [lia|]. rewrite (rbind_eq _ _ _ _ _ (rlift_eq _ _ _ Hb)). cbn zeta.
  pose proof (Hf _ _ Hb) as Hfb. replace (lb + Z.of_nat (Z.to_nat (n - lb))) with n in Hfb by lia.
  remember (if b then n else first + Z.of_nat (length p)) as number eqn:En.
  assert (Hnum : lb <= number <= first + Z.of_nat (length p)) by (subst number; destruct b; lia).
  destruct (lookup_lt_is_Some_2 sel (Z.to_nat (number - lb))) as [b2 Hb2]; [lia|]. rewrite (rbind_eq _ _ _ _ _ (rlift_eq _ _ _ Hb2)).
  assert (Ep : floyd first (reverse (p ++ [n])) = floyd first (reverse p) ++ [number]).
  { rewrite reverse_snoc. cbn [floyd]. rewrite reverse_length. do 2 f_equal. subst number. destruct b.
    - rewrite decide_False; [done|]. intros H. apply Hfb in H. done.
    - rewrite decide_True by (by apply Hfb). done. }
  destruct (IH (p ++ [n]) (<[Z.to_nat (number - lb) := false]> sel)) as (sel' & s' & Hrest & Lrest & Frest).
  - done.
  - by rewrite <- app_assoc.
  - by rewrite insert_length.
  - rewrite !app_length. cbn [length]. lia.
  - rewrite Ep. apply flags_insert; [done|lia].
  - replace (first + Z.of_nat (length p) + 1) with (first + Z.of_nat (length (p ++ [n]))) by (rewrite app_length; cbn [length]; lia).
    exists sel', s'. split; [done|]. split; [by rewrite Lrest, insert_length|]. by rewrite <- app_assoc in Frest.
Qed.
Lemma elem_of_collect lb n l x : x ∈ collect lb n l <-> exists i, l !! i = Some true /\ x = lb + n + Z.of_nat i.
Proof.
  revert n. induction l as [|b l IH]; intros n; cbn [collect].
  - rewrite elem_of_nil. split; [done|]. intros (i & Hi & _). by rewrite lookup_nil in Hi.
  - assert (Hrest : x ∈ collect lb (n + 1) l <-> exists i, (b :: l) !! S i = Some true /\ x = lb + n + Z.of_nat (S i)).
    { rewrite IH. cbn [lookup list_lookup]. split; intros (i & Hi & E); exists i; (split; [done|lia]). }
    destruct b.
    + rewrite elem_of_cons, Hrest. split.
      * intros [->|(i & Hi & E)]; [exists 0%nat; split; [done|lia]|by exists (S i)].
      * intros ([|i] & Hi & E); [left; lia|right; by exists i].
    + rewrite Hrest. split; [intros (i & Hi & E); by exists (S i)|]. intros ([|i] & Hi & E); [done|by exists i].
Qed.
(** Tuples of draws, back and forth. *)
Lemma fvalid_lookup lb first rt : fvalid lb first rt <-> forall j x, rt !! j = Some x -> lb <= x <= first + Z.of_nat (length rt) - 1 - Z.of_nat j.
Proof.
  induction rt as [|n rt IH]; cbn [fvalid length]; [split; [intros _ j x H; by rewrite lookup_nil in H|done]|]. rewrite IH. split.
  - intros [H1 H2] [|j] x Hx; cbn [lookup list_lookup] in Hx; [injection Hx as <-; lia|]. apply H2 in Hx. lia.
  - intros H. split; [specialize (H 0%nat n eq_refl); lia|]. intros j x Hx. specialize (H (S j) x Hx). lia.
Qed.
Lemma draws_valid lb first m t : draws (first + Z.of_nat m - lb) m (offsets lb t) <-> length t = m /\ fvalid lb first (reverse t).
Proof.
  unfold draws, offsets. rewrite fmap_length, fvalid_lookup, reverse_length. split; intros [L H]; (split; [done|]); intros j x Hx.
  - pose proof (lookup_lt_Some _ _ _ Hx) as Hj. rewrite reverse_length in Hj. apply reverse_lookup_Some in Hx as [Hx _].
    assert (Hy : ((fun n => n - lb) <$> t) !! (length t - S j)%nat = Some (x - lb)) by (by rewrite list_lookup_fmap, Hx). apply H in Hy. lia.
  - rewrite list_lookup_fmap in Hx. apply fmap_Some in Hx as (y & Hy & ->). pose proof (lookup_lt_Some _ _ _ Hy) as Hj.
    assert (Hr : reverse t !! (length t - S j)%nat = Some y). { apply reverse_lookup_Some. split; [|lia]. replace (length t - S (length t - S j))%nat with j by lia. done. }
    apply H in Hr. lia.
Qed.
Lemma exactly_map {A B} (f : A -> B) (g : B -> A) k (P : A -> Prop) (Q : B -> Prop) :
  (forall a, g (f a) = a) -> (forall b, f (g b) = b) -> (forall b, Q b <-> P (g b)) -> exactly k P -> exactly k Q.
Proof.
  intros H1 H2 H3 (l & N & L & S1). exists (f <$> l). split; [|split].
  - apply NoDup_fmap; [|done]. intros x y E. rewrite <- (H1 x), <- (H1 y). by rewrite E.
  - by rewrite fmap_length.
  - intros b. rewrite elem_of_list_fmap, H3. split; [intros (a & -> & Ha); rewrite H1; by apply S1|]. intros Hb. exists (g b). split; [by rewrite H2|by apply S1].
Qed.
Lemma same_elements (l l' : list Z) : NoDup l -> NoDup l' -> (l ≡ₚ l' <-> forall x, x ∈ l <-> x ∈ l').
Proof. intros N1 N2. split; [intros H x; by rewrite H|]. intros H. by apply NoDup_Permutation. Qed.

Lemma small_set_loop lb first t : (length t <= 2)%nat -> lb <= first -> fvalid lb first (reverse t) ->
  exists s', set_loop lb first (length t) [] (stream_of (offsets lb t)) = Some (floyd first (reverse t), s').
Proof.
  intros Hk Hl Hv. destruct t as [|n [|n2 [|? t]]]; [..|cbn in Hk; lia]; cbn [length set_loop offsets fmap list_fmap].
  - by eexists.
  - destruct Hv as [Hn _]. cbn [length] in Hn. rewrite (rbind_eq _ _ _ _ _ (randomInt_offset lb first n _ ltac:(lia))). by eexists.
  - change (reverse [n; n2]) with [n2; n] in *. destruct Hv as [Hn2 [Hn _]]. cbn [length] in Hn, Hn2.
    rewrite (rbind_eq _ _ _ _ _ (randomInt_offset lb first n _ ltac:(lia))). unfold rbind at 1.
    rewrite (rbind_eq _ _ _ _ _ (randomInt_offset lb (first + 1) n2 _ ltac:(lia))). unfold rret, rbind. cbn [mbind option_bind]. eexists. do 2 f_equal.
Qed.

Lemma sampleUnique_uniform lo hi n : 0 <= n <= hi - lo -> hi - lo < 2 ^ 64 -> hi - lo < 65536 \/ n <= 2 ->
  exists m : nat, (Z.of_nat m = n \/ Z.of_nat m = hi - lo - n) /\ forall T, distinct_sample lo hi n T ->
    exactly (fact m) (fun t => draws (hi - lo) m t /\ exists l s', sampleUnique lo hi n (stream_of t) = Some (l, s') /\ l ≡ₚ T).
Proof.
  intros Hn Hr Hsz.
  (* the threshold does not depend on the draws *)
  destruct (sampleUnique_ok lo hi n (stream_of []) Hn Hr) as (l0 & s0 & H0 & _). unfold sampleUnique in H0. cbn zeta in H0.
  apply rassert_Some in H0 as [B1 H0]. apply rassert_Some in H0 as [B2 H0]. apply rbind_Some in H0 as (th & s1 & Hth & _).
  assert (Eth : ftrunc (fmul f06 (fofZ (hi - lo))) = Some th). { unfold rlift in Hth. destruct (ftrunc _); [|done]. by injection Hth as ->. }
  assert (Hrun : forall s, sampleUnique lo hi n s =
    (if 65536 <=? hi - lo then sampleUniqueSet lo hi n
     else if negb (th <=? n) then few_loop lo (hi - n) (Z.to_nat n) (replicate (Z.to_nat (hi - lo)) (th <=? n))
     else rbind (many_loop lo (hi - (hi - lo - n)) (Z.to_nat (hi - lo - n)) (replicate (Z.to_nat (hi - lo)) (th <=? n)))
       (fun sel => rassert (Z.of_nat (length (collect lo 0 sel)) =? n) (rret (collect lo 0 sel)))) s).
  { intros s. unfold sampleUnique. cbn zeta. rewrite B1, B2. cbn [rassert]. by rewrite (rbind_eq _ _ _ _ _ (rlift_eq _ _ _ Eth)). }
  clear Hth.
  assert (Hperm : forall m first, lo <= first -> first + Z.of_nat m = hi -> forall T', NoDup T' -> length T' = m -> Forall (fun x => lo <= x < hi) T' ->
    exactly (fact m) (fun t => draws (hi - lo) m t /\ floyd first (reverse ((fun x => x + lo) <$> t)) ≡ₚ T')).
  { intros m first Hl Hm T' N L F.
    apply (exactly_map (fun rt => offsets lo (reverse rt)) (fun t => reverse ((fun x => x + lo) <$> t)) _ (fun rt => length rt = m /\ fvalid lo first rt /\ floyd first rt ≡ₚ T')).
    - intros rt. unfold offsets. rewrite <- list_fmap_compose. rewrite <- (reverse_involutive rt) at 2. f_equal. rewrite <- (list_fmap_id (reverse rt)) at 2. apply list_fmap_ext. intros i x _. cbn. lia.
    - intros t. rewrite reverse_involutive. unfold offsets. rewrite <- list_fmap_compose. rewrite <- (list_fmap_id t) at 2. apply list_fmap_ext. intros i x _. cbn. lia.
    - intros t. rewrite reverse_length, fmap_length.
      assert (Eo : offsets lo ((fun x => x + lo) <$> t) = t). { unfold offsets. rewrite <- list_fmap_compose. rewrite <- (list_fmap_id t) at 2. apply list_fmap_ext. intros i x _. cbn. lia. }
      pose proof (draws_valid lo first m ((fun x => x + lo) <$> t)) as Hd. rewrite Eo, fmap_length in Hd. replace (first + Z.of_nat m - lo) with (hi - lo) in Hd by lia. rewrite Hd. tauto.
    - apply floyd_count; [done|done|done|]. by rewrite Hm. }
  assert (Hoff : forall t : list Z, offsets lo ((fun x => x + lo) <$> t) = t). { intros t. unfold offsets. rewrite <- list_fmap_compose. rewrite <- (list_fmap_id t) at 2. apply list_fmap_ext. intros i x _. cbn. lia. }
  assert (Hval : forall m first t, first + Z.of_nat m = hi -> draws (hi - lo) m t -> length t = m /\ fvalid lo first (reverse ((fun x => x + lo) <$> t))).
  { intros m first t Hm Hd. pose proof (draws_valid lo first m ((fun x => x + lo) <$> t)) as Hd2. rewrite Hoff, fmap_length in Hd2. apply Hd2. by replace (first + Z.of_nat m - lo) with (hi - lo) by lia. }
  destruct (Z.leb_spec 65536 (hi - lo)) as [Hhuge|Hhuge]; [|destruct (th <=? n) eqn:Em; cbn [negb] in Hrun].
  - exists (Z.to_nat n). split; [left; lia|]. intros T (L & N & F).
    eapply exactly_iff; [|apply (Hperm (Z.to_nat n) (hi - n)); [lia|lia|done|lia|done]].
    intros t. apply and_iff_compat_l_dep. intros Hd. rewrite Hrun. unfold sampleUniqueSet.
    destruct (Hval (Z.to_nat n) (hi - n) t ltac:(lia) Hd) as [Lt Vt].
    destruct (small_set_loop lo (hi - n) ((fun x => x + lo) <$> t)) as [s' Hs]; [rewrite fmap_length; lia|lia|done|]. rewrite Hoff, fmap_length, Lt in Hs. rewrite Hs.
    split; [intros H; by eexists _, _|]. intros (l & s2 & [= <- _] & H). done.
  - exists (Z.to_nat (hi - lo - n)). split; [right; lia|]. intros T (L & N & F).
    set (T' := filter (fun x => x ∉ T) (seqZ lo (hi - lo))).
    assert (N' : NoDup T') by (apply NoDup_filter, NoDup_seqZ).
    assert (HT' : forall x, x ∈ T' <-> x ∉ T /\ lo <= x < hi). { intros x. unfold T'. rewrite elem_of_list_filter, elem_of_seqZ. split; intros [? ?]; (split; [done|lia]). }
    rewrite Forall_forall in F.
    assert (L' : length T' = Z.to_nat (hi - lo - n)).
    { assert (HP : T ++ T' ≡ₚ seqZ lo (hi - lo)).
      { apply NoDup_Permutation; [apply NoDup_app; split; [done|]; split; [|done]; intros x Hx Hx2; by apply HT' in Hx2 as [? _]|apply NoDup_seqZ|].
        intros x. rewrite elem_of_app, HT', elem_of_seqZ. destruct (decide (x ∈ T)) as [Hx|Hx]; [pose proof (F x Hx); split; [lia|by left]|]. split; [intros [?|[_ ?]]; [done|lia]|]. intros ?. right. split; [done|lia]. }
      apply Permutation_length in HP. rewrite app_length, seqZ_length in HP. lia. }
    eapply exactly_iff; [|apply (Hperm (Z.to_nat (hi - lo - n)) (hi - (hi - lo - n)) ltac:(lia) ltac:(lia) T' N' L')].
    2: { apply Forall_forall. intros x Hx. apply HT' in Hx. lia. }
    intros t. apply and_iff_compat_l_dep. intros Hd. rewrite Hrun.
    destruct (Hval (Z.to_nat (hi - lo - n)) (hi - (hi - lo - n)) t ltac:(lia) Hd) as [Lt Vt].
    destruct (many_loop_floyd lo hi (hi - (hi - lo - n)) ((fun x => x + lo) <$> t) [] (replicate (Z.to_nat (hi - lo)) true)) as (sel & s' & Hs & Ls & Fs).
    + lia.
    + done.
    + rewrite replicate_length. lia.
    + cbn [app]. rewrite fmap_length. lia.
    + intros i c Hi. apply lookup_replicate in Hi as [-> _]. split; [done|]. intros Hx. by apply elem_of_nil in Hx.
    + rewrite Hoff, fmap_length, Lt in Hs. cbn [length app] in Hs, Fs. rewrite Z.add_0_r in Hs. rewrite (rbind_eq _ _ _ _ _ Hs).
      rewrite replicate_length in Ls. destruct (floyd_ok lo (hi - (hi - lo - n)) (reverse ((fun x => x + lo) <$> t)) ltac:(lia) Vt) as (Lf & Nf & Ff).
      rewrite reverse_length, fmap_length, Lt in Lf, Ff. rewrite Forall_forall in Ff.
      remember (floyd (hi - (hi - lo - n)) (reverse ((fun x => x + lo) <$> t))) as fl eqn:Efl. clear Efl.
      assert (Hc : forall x, x ∈ collect lo 0 sel <-> lo <= x < hi /\ x ∉ fl).
      { intros x. rewrite elem_of_collect. split.
        - intros (i & Hi & ->). pose proof (lookup_lt_Some _ _ _ Hi). split; [lia|]. rewrite Z.add_0_r. intros Hx. by apply (Fs i true Hi) in Hx.
        - intros [Hx Hnx]. destruct (lookup_lt_is_Some_2 sel (Z.to_nat (x - lo))) as [b Hb]; [lia|]. exists (Z.to_nat (x - lo)). split; [|lia].
          destruct b; [done|]. exfalso. apply Hnx. pose proof (proj1 (Fs _ _ Hb) eq_refl) as Hy. by replace (lo + Z.of_nat (Z.to_nat (x - lo))) with x in Hy by lia. }
      pose proof (collect_NoDup lo 0 sel) as Nc.
      assert (Lc : Z.of_nat (length (collect lo 0 sel)) = n).
      { assert (HP : fl ++ collect lo 0 sel ≡ₚ seqZ lo (hi - lo)).
        { apply NoDup_Permutation; [apply NoDup_app; split; [done|]; split; [|done]; intros x Hx Hx2; by apply Hc in Hx2 as [_ ?]|apply NoDup_seqZ|].
          intros x. rewrite elem_of_app, Hc, elem_of_seqZ. destruct (decide (x ∈ fl)) as [Hx|Hx]; [pose proof (Ff x Hx); split; [lia|by left]|]. split; [intros [?|[? _]]; [done|lia]|]. intros ?. right. split; [lia|done]. }
        apply Permutation_length in HP. rewrite app_length, seqZ_length in HP. lia. }
      rewrite rassert_true by lia. rewrite (same_elements fl T' Nf N'). split.
      * intros H. eexists _, _. split; [reflexivity|]. apply same_elements; [done|done|]. intros x. rewrite Hc. split.
        -- intros [Hx Hnx]. destruct (decide (x ∈ T)); [done|]. exfalso. apply Hnx, H, HT'. done.
        -- intros Hx. split; [by apply F|]. intros Hf. apply H, HT' in Hf as [? _]. done.
      * intros (l & s2 & [= <- _] & H). rewrite (same_elements _ _ Nc N) in H. intros x. rewrite HT', <- H, Hc. split.
        -- intros Hx. pose proof (Ff x Hx). split; [|lia]. by intros [_ ?].
        -- intros [Hx Hr2]. destruct (decide (x ∈ fl)); [done|]. exfalso. apply Hx. done.
  - exists (Z.to_nat n). split; [left; lia|]. intros T (L & N & F).
    eapply exactly_iff; [|apply (Hperm (Z.to_nat n) (hi - n)); [lia|lia|done|lia|done]].
    intros t. apply and_iff_compat_l_dep. intros Hd. rewrite Hrun.
    destruct (Hval (Z.to_nat n) (hi - n) t ltac:(lia) Hd) as [Lt Vt].
    destruct (few_loop_floyd lo hi (hi - n) ((fun x => x + lo) <$> t) [] (replicate (Z.to_nat (hi - lo)) false)) as (rest & s' & Hs & Es).
    + lia.
    + done.
    + rewrite replicate_length. lia.
    + cbn [app]. rewrite fmap_length. lia.
    + intros i c Hi. apply lookup_replicate in Hi as [-> _]. split; [done|]. intros Hx. by apply elem_of_nil in Hx.
    + rewrite Hoff, fmap_length, Lt in Hs. cbn [length app] in Hs. rewrite Z.add_0_r in Hs. rewrite Hs. change (reverse []) with (@nil Z) in Es. cbn [floyd app] in Es. subst rest.
      split; [intros H; by eexists _, _|]. intros (l & s2 & [= <- _] & H). done.
Qed.
