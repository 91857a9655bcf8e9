From Coq Require Import ZArith Lia.
From stdpp Require Import list list_numbers sets relations.
From Verif Require Import AlgorithmModel ParetoModel ParetoProofs NdSortModel NdSortProofs.

Lemma filter_ext_in {A} (P Q : A -> Prop) `{!forall x, Decision (P x)} `{!forall x, Decision (Q x)} (l : list A) :
  (forall x, x ∈ l -> P x <-> Q x) -> filter P l = filter Q l.
Proof.
  induction l as [|x l IH]; intros Hiff; [done|]. rewrite !filter_cons. rewrite IH by (intros y Hy; apply Hiff; set_solver).
  assert (Hx : P x <-> Q x) by (apply Hiff; set_solver).
  destruct (decide (P x)) as [Hp|Hp]; [rewrite (decide_True (P := Q x)) by tauto|rewrite (decide_False (P := Q x)) by tauto]; done.
Qed.

(** Number of indices below [n] with a property. *)
Section Count.
Context (n : nat).
Definition cnt (P : nat -> bool) : nat := length (filter (fun j => P j = true) (seq 0 n)).
Lemma cnt_ext P Q : (forall j, j < n -> P j = Q j) -> cnt P = cnt Q.
Proof.
  intros H. unfold cnt. apply Permutation_length, NoDup_Permutation; [apply NoDup_filter, NoDup_seq..|].
  intros x. rewrite !elem_of_list_filter, elem_of_seq. split; intros [H1 H2]; (split; [|done]); [rewrite <- H|rewrite H]; done || lia.
Qed.
Lemma cnt_S P Q j : j < n -> P j = false -> Q j = true -> (forall x, x < n -> x <> j -> Q x = P x) -> cnt Q = S (cnt P).
Proof.
  intros Hj HP HQ HPQ. unfold cnt. change (S ?a) with (length (j :: filter (fun j => P j = true) (seq 0 n))).
  apply Permutation_length, NoDup_Permutation.
  - apply NoDup_filter, NoDup_seq.
  - apply NoDup_cons. split; [|apply NoDup_filter, NoDup_seq]. rewrite elem_of_list_filter. intros [? _]. congruence.
  - intros x. rewrite elem_of_cons, !elem_of_list_filter, elem_of_seq. destruct (decide (x = j)) as [->|Hne].
    + split; [auto|]. intros _. split; [done|lia].
    + split.
      * intros [H1 H2]. right. split; [rewrite <- HPQ; [done|lia|done]|done].
      * intros [?|[H1 H2]]; [done|]. split; [rewrite HPQ; [done|lia|done]|done].
Qed.
Lemma cnt_0 P : cnt P = 0 <-> forall j, j < n -> P j = false.
Proof.
  unfold cnt. split.
  - intros H j Hj. destruct (P j) eqn:E; [|done]. apply nil_length_inv in H.
    assert (j ∈ filter (fun j => P j = true) (seq 0 n)) as Hin by (apply elem_of_list_filter; rewrite elem_of_seq; split; [done|lia]).
    rewrite H in Hin. set_solver.
  - intros H. destruct (filter _ _) as [|j l] eqn:E; [done|].
    assert (j ∈ filter (fun j => P j = true) (seq 0 n)) as Hin by (rewrite E; set_solver).
    apply elem_of_list_filter in Hin as [H1 H2]. apply elem_of_seq in H2. rewrite H in H1; [done|lia].
Qed.

End Count.

Definition worse_of (dl : list dominance_list) i := default [] (worse_indices <$> dl !! i).
Definition better_of (dl : list dominance_list) i := default 0 (better_count <$> dl !! i).
Lemma lookup_dl dl i : i < length dl -> dl !! i = Some (DL (worse_of dl i) (better_of dl i)).
Proof. intros H. unfold worse_of, better_of. apply lookup_lt_is_Some_2 in H as [[w b] ->]. done. Qed.

Section Fast.
Context (n : nat) (less : nat -> nat -> bool) (cmp : nat -> nat -> Z).
Notation cnt := (cnt n).

(** ** constructDominanceLists *)
Section Exact.
Hypothesis Hirr : forall i, i < n -> less i i = false.
Hypothesis Htr : forall i j k, i < n -> j < n -> k < n -> less i j = true -> less j k = true -> less i k = true.
Hypothesis Hcmp : forall i j, i < n -> j < n ->
  ((cmp i j < 0)%Z <-> less i j = true) /\ ((0 < cmp i j)%Z <-> less j i = true).

Definition compared (ps : list (nat * nat)) (i j : nat) : bool := bool_decide ((i, j) ∈ ps \/ (j, i) ∈ ps).
Record lists_ok (ps : list (nat * nat)) (dl : list dominance_list) : Prop := {
  lo_len : length dl = n;
  lo_nodup : forall i, i < n -> NoDup (worse_of dl i);
  lo_worse : forall i k, i < n -> k ∈ worse_of dl i <-> k < n /\ less k i = true /\ compared ps i k = true;
  lo_better : forall i, i < n -> better_of dl i = cnt (fun j => less i j && compared ps i j);
}.

Lemma compared_snoc ps a b i j : compared (ps ++ [(a, b)]) i j = compared ps i j || bool_decide (i = a /\ j = b \/ i = b /\ j = a).
Proof.
  unfold compared. rewrite <- bool_decide_or. apply bool_decide_ext.
  rewrite !elem_of_app, !elem_of_list_singleton. split; [intros [[?|[=]]|[?|[=]]]|intros [[?|?]|[[-> ->]|[-> ->]]]]; subst; auto 6.
Qed.
Lemma less_asym i j : i < n -> j < n -> less i j = true -> less j i = false.
Proof. intros Hi Hj H. destruct (less j i) eqn:E; [|done]. rewrite <- (Hirr i Hi). symmetry. apply (Htr i j i); done. Qed.

Lemma add_loser ps dl a b lo hi :
  lists_ok ps dl -> (lo = a /\ hi = b \/ lo = b /\ hi = a) -> a < n -> b < n -> compared ps a b = false -> less lo hi = true ->
  lists_ok (ps ++ [(a, b)]) (alter (add_worse lo) hi (alter add_better lo dl)).
Proof.
  intros [H1 H2 H3 H4] Hab Ha Hb Hnew Hl.
  assert (Hlo : lo < n) by lia. assert (Hhi : hi < n) by lia.
  assert (Hne : lo <> hi) by (intros ->; rewrite Hirr in Hl; done).
  assert (Hnl : less hi lo = false) by (apply less_asym; done).
  assert (Hnew' : compared ps lo hi = false /\ compared ps hi lo = false).
  { assert (Hsym : compared ps b a = false) by (rewrite <- Hnew; unfold compared; apply bool_decide_ext; tauto).
    destruct Hab as [[-> ->]|[-> ->]]; done. }
  assert (Hc : forall i j, compared (ps ++ [(a, b)]) i j = compared ps i j || bool_decide (i = lo /\ j = hi \/ i = hi /\ j = lo)).
  { intros i j. rewrite compared_snoc. f_equal. apply bool_decide_ext. destruct Hab as [[-> ->]|[-> ->]]; tauto. }
  assert (Hw : forall i, worse_of (alter (add_worse lo) hi (alter add_better lo dl)) i =
                 if decide (i = hi) then worse_of dl hi ++ [lo] else worse_of dl i).
  { intros i. unfold worse_of. destruct (decide (i = hi)) as [->|Hi].
    - rewrite list_lookup_alter. rewrite list_lookup_alter_ne by done. destruct (lookup_lt_is_Some_2 dl hi) as [d ->]; [lia|done].
    - rewrite list_lookup_alter_ne by done. destruct (decide (i = lo)) as [->|].
      + rewrite list_lookup_alter. destruct (dl !! lo); done.
      + rewrite list_lookup_alter_ne by done. done. }
  assert (Hbt : forall i, better_of (alter (add_worse lo) hi (alter add_better lo dl)) i =
                 if decide (i = lo) then S (better_of dl lo) else better_of dl i).
  { intros i. unfold better_of. destruct (decide (i = lo)) as [->|Hi].
    - rewrite list_lookup_alter_ne by done. rewrite list_lookup_alter. destruct (lookup_lt_is_Some_2 dl lo) as [d ->]; [lia|done].
    - destruct (decide (i = hi)) as [->|].
      + rewrite list_lookup_alter, list_lookup_alter_ne by done. destruct (dl !! hi); done.
      + rewrite !list_lookup_alter_ne by done. done. }
  destruct Hnew' as [Hn1 Hn2]. split.
  - rewrite !alter_length. done.
  - intros i Hi. rewrite Hw. destruct (decide (i = hi)) as [->|]; [|auto]. apply NoDup_app. split; [auto|]. split; [|apply NoDup_singleton].
    intros k Hk ->%elem_of_list_singleton. apply H3 in Hk as (_&_&Hk); [congruence|done].
  - intros i k Hi. rewrite Hw, Hc. destruct (decide (i = hi)) as [->|Hih].
    + rewrite elem_of_app, elem_of_list_singleton, H3 by done. rewrite orb_true_iff, bool_decide_eq_true. split.
      * intros [(?&?&?)| ->]; [auto|]. auto 6.
      * intros (?&?&[?|[[? ?]|[? ?]]]); [auto|congruence|auto].
    + rewrite H3 by done. rewrite orb_true_iff, bool_decide_eq_true. split; [intros (?&?&?); auto|].
      intros (?&?&[?|[[-> ->]|[? ?]]]); [auto|congruence|done].
  - intros i Hi. rewrite Hbt. destruct (decide (i = lo)) as [->|Hil].
    + rewrite H4 by done. symmetry. apply (cnt_S n _ _ hi); [done|rewrite Hn1, andb_false_r; done|..].
      * rewrite Hc, Hl. cbn. rewrite bool_decide_true by auto. rewrite orb_true_r. done.
      * intros x Hx Hxh. rewrite Hc. rewrite bool_decide_false by (intros [[_ ?]|[? _]]; congruence). rewrite orb_false_r. done.
    + rewrite H4 by done. apply cnt_ext. intros j Hj. rewrite Hc. destruct (less i j) eqn:E; [|done]. cbn.
      rewrite bool_decide_false; [rewrite orb_false_r; done|]. intros [[? _]|[-> ->]]; congruence.
Qed.

Lemma dom_pair_ok ps dl p : lists_ok ps dl -> p.1 < n -> p.2 < n -> compared ps p.1 p.2 = false ->
  lists_ok (ps ++ [p]) (dom_pair cmp dl p).
Proof.
  destruct p as [a b]. cbn [fst snd]. intros H Ha Hb Hnew. unfold dom_pair. destruct (Hcmp a b Ha Hb) as [C1 C2].
  destruct (Z.ltb_spec (cmp a b) 0).
  - apply add_loser; try done; [auto|]. apply C1. done.
  - destruct (Z.ltb_spec 0 (cmp a b)).
    + apply add_loser; try done; [auto|]. apply C2. done.
    + assert (Hab : less a b = false) by (apply not_true_is_false; rewrite <- C1; lia).
      assert (Hba : less b a = false) by (apply not_true_is_false; rewrite <- C2; lia).
      destruct H as [L1 L2 L3 L4]. split; [done|done|..].
      * intros i k Hi. rewrite L3 by done. rewrite compared_snoc, orb_true_iff, bool_decide_eq_true. split; [intros (?&?&?); auto|].
        intros (?&?&[?|[[-> ->]|[-> ->]]]); [auto|congruence..].
      * intros i Hi. rewrite L4 by done. apply cnt_ext. intros j Hj. rewrite compared_snoc. destruct (less i j) eqn:E; [|done]. cbn.
        rewrite bool_decide_false; [rewrite orb_false_r; done|]. intros [[-> ->]|[-> ->]]; congruence.
Qed.

Lemma elem_of_dom_pairs a b : (a, b) ∈ dom_pairs n <-> b < a < n.
Proof.
  unfold dom_pairs. rewrite elem_of_list_bind. split.
  - intros (l&H&Hl). rewrite elem_of_list_bind in H. destruct H as (r&H&Hr). apply elem_of_list_singleton in H as [= -> ->].
    rewrite elem_of_seq in *. lia.
  - intros H. exists a. rewrite elem_of_list_bind, elem_of_seq. split; [|lia]. exists b. rewrite elem_of_list_singleton, elem_of_seq. split; [done|lia].
Qed.
Lemma NoDup_pairs_of a l : NoDup l -> NoDup (r ← l; [(a, r) : nat * nat]).
Proof.
  induction l as [|x l IH]; intros H; [constructor|]. apply NoDup_cons in H as [Hx H]. rewrite bind_cons. cbn.
  apply NoDup_cons. split; [|auto]. rewrite elem_of_list_bind. intros (y&Hy&Hl). apply elem_of_list_singleton in Hy as [= ->]. done.
Qed.
Lemma NoDup_dom_pairs : NoDup (dom_pairs n).
Proof.
  unfold dom_pairs. assert (H : NoDup (seq 0 n)) by apply NoDup_seq. revert H. generalize (seq 0 n). intros l.
  induction l as [|x l IH]; intros H; [constructor|]. apply NoDup_cons in H as [Hx H]. rewrite bind_cons. apply NoDup_app. split; [|split; [|auto]].
  - apply NoDup_pairs_of, NoDup_seq.
  - intros [a b] H1 H2. apply elem_of_list_bind in H1 as (r&H1&_). apply elem_of_list_singleton in H1 as [= -> ->].
    apply elem_of_list_bind in H2 as (y&H2&Hy). apply elem_of_list_bind in H2 as (r'&H2&_). apply elem_of_list_singleton in H2 as [= -> ->]. done.
Qed.
Lemma dom_fold_ok qs : forall ps dl, lists_ok ps dl -> NoDup (ps ++ qs) -> (forall a b, (a, b) ∈ ps ++ qs -> b < a < n) ->
  lists_ok (ps ++ qs) (foldl (dom_pair cmp) dl qs).
Proof.
  induction qs as [|[a b] qs IH]; intros ps dl H Hnd Hb; [rewrite app_nil_r; done|]. cbn [foldl].
  replace (ps ++ (a, b) :: qs) with ((ps ++ [(a, b)]) ++ qs) in * by (rewrite <- app_assoc; done).
  apply IH; [|done|done].
  assert (b < a < n) by (apply Hb; ins). apply dom_pair_ok; [done|cbn; lia..|]. cbn. unfold compared. apply bool_decide_eq_false.
  intros [Hin|Hin].
  - apply NoDup_app in Hnd as (Hnd&_). apply NoDup_app in Hnd as (_&Hnd&_). apply (Hnd _ Hin). set_solver.
  - assert (a < b < n) by (apply Hb; ins). lia.
Qed.
Lemma construct_ok : length (constructDominanceLists n cmp) = n /\
  (forall i, i < n -> NoDup (worse_of (constructDominanceLists n cmp) i)) /\
  (forall i k, i < n -> k ∈ worse_of (constructDominanceLists n cmp) i <-> k < n /\ less k i = true) /\
  (forall i, i < n -> better_of (constructDominanceLists n cmp) i = cnt (less i)).
Proof.
  destruct (dom_fold_ok (dom_pairs n) [] (replicate n (DL [] 0))) as [H1 H2 H3 H4].
  - split.
    + apply replicate_length.
    + intros i Hi. unfold worse_of. rewrite lookup_replicate_2 by done. constructor.
    + intros i k Hi. unfold worse_of. rewrite lookup_replicate_2 by done. cbn. split; [set_solver|]. intros (_&_&H).
      unfold compared in H. apply bool_decide_eq_true in H. set_solver.
    + intros i Hi. unfold better_of. rewrite lookup_replicate_2 by done. cbn. symmetry. apply cnt_0. intros j Hj.
      unfold compared. rewrite bool_decide_false by set_solver. apply andb_false_r.
  - apply NoDup_dom_pairs.
  - intros a b. cbn. apply elem_of_dom_pairs.
  - cbn [app] in *.
    assert (Hc : forall i j, i < n -> j < n -> less i j = true \/ less j i = true -> compared (dom_pairs n) i j = true).
    { intros i j Hi Hj Hl. unfold compared. apply bool_decide_eq_true. rewrite !elem_of_dom_pairs.
      destruct (decide (i = j)) as [->|]; [|lia]. rewrite Hirr in Hl by done. destruct Hl; done. }
    split; [done|]. split; [done|]. split.
    + intros i k Hi. fold (constructDominanceLists n cmp) in *. rewrite H3 by done. split; [intros (?&?&?); done|]. intros [Hk Hl]. auto.
    + intros i Hi. fold (constructDominanceLists n cmp) in *. rewrite H4 by done. apply cnt_ext. intros j Hj. destruct (less i j) eqn:E; [|done].
      cbn. auto.
Qed.

(** ** The fronts *)
Lemma fnds_worse_ok rank ws : forall dl pf, NoDup ws -> (forall w, w ∈ ws -> w < length dl /\ better_of dl w <> 0) ->
  exists dl', fnds_worse ws rank dl pf = Some (dl', pf ++ ((fun w => (w, rank)) <$> filter (fun w => better_of dl w = 1) ws)) /\
    length dl' = length dl /\ (forall i, worse_of dl' i = worse_of dl i) /\
    (forall i, better_of dl' i = if decide (i ∈ ws) then better_of dl i - 1 else better_of dl i).
Proof.
  induction ws as [|w ws IH]; intros dl pf Hnd Hb; cbn [fnds_worse].
  - exists dl. rewrite app_nil_r. split; [done|]. split; [done|]. split; [done|]. intros i. rewrite decide_False by set_solver. done.
  - destruct (Hb w) as [Hw Hc]; [set_solver|]. rewrite (lookup_dl dl w Hw). cbn [mbind option_bind better_count worse_indices].
    apply NoDup_cons in Hnd as [Hx Hnd]. destruct (better_of dl w) as [|c] eqn:Ec; [done|]. clear Hc.
    set (dl1 := <[w:=DL (worse_of dl w) c]> dl).
    assert (Hw1 : forall i, worse_of dl1 i = worse_of dl i).
    { intros i. unfold worse_of at 1, dl1. destruct (decide (i = w)) as [->|].
      - rewrite list_lookup_insert by done. done.
      - rewrite list_lookup_insert_ne by done. done. }
    assert (Hb1 : forall i, better_of dl1 i = if decide (i = w) then c else better_of dl i).
    { intros i. unfold better_of at 1, dl1. destruct (decide (i = w)) as [->|].
      - rewrite list_lookup_insert by done. done.
      - rewrite list_lookup_insert_ne by done. done. }
    destruct (IH dl1 (if decide (c = 0) then pf ++ [(w, rank)] else pf)) as (dl'&H1&H2&H3&H4).
    + done.
    + intros v Hv. rewrite Hb1. unfold dl1. rewrite insert_length. destruct (decide (v = w)) as [->|]; [done|].
      apply Hb. set_solver.
    + exists dl'. split; [|split; [|split]].
      * rewrite H1. f_equal. f_equal.
        assert (Hf : filter (fun v => better_of dl1 v = 1) ws = filter (fun v => better_of dl v = 1) ws).
        { apply filter_ext_in. intros v Hv. rewrite Hb1. destruct (decide (v = w)) as [->|]; done. }
        rewrite Hf. rewrite filter_cons, Ec. destruct (decide (c = 0)) as [->|Hne].
        -- rewrite decide_True by done. rewrite <- app_assoc. done.
        -- rewrite decide_False by lia. done.
      * rewrite H2. unfold dl1. apply insert_length.
      * intros i. rewrite H3. apply Hw1.
      * intros i. rewrite H4, Hb1. destruct (decide (i = w)) as [->|Hne].
        -- rewrite (decide_False (P := w ∈ ws)) by done. rewrite decide_True by set_solver. lia.
        -- destruct (decide (i ∈ ws)); [rewrite decide_True by set_solver|rewrite decide_False by set_solver]; done.
Qed.

(** [Q]: the indices already removed; [A ++ B ++ C]: the elements found so far. *)
Record fnds_inv (rank : nat) (A B C : list element) (dl : list dominance_list) : Prop := {
  fi_len : length dl = n;
  fi_nodup : forall i, i < n -> NoDup (worse_of dl i);
  fi_worse : forall i k, i < n -> k ∈ worse_of dl i <-> k < n /\ less k i = true;
  fi_better : forall i, i < n -> better_of dl i = cnt (fun j => less i j && bool_decide (j ∉ A.*1));
  fi_elems : NoDup (A ++ B ++ C).*1;
  fi_in : forall i, i ∈ (A ++ B ++ C).*1 <-> i < n /\ better_of dl i = 0;
  fi_A : forall e, e ∈ A -> e.2 <= rank;
  fi_B : forall e, e ∈ B -> e.2 = rank;
  fi_C : forall e, e ∈ C -> e.2 = S rank;
  fi_dom : forall i r j s, (i, r) ∈ A ++ B ++ C -> (j, s) ∈ A ++ B ++ C -> less i j = true -> s < r;
  fi_prev : forall i r, (i, S r) ∈ A ++ B ++ C -> exists j, (j, r) ∈ A ++ B ++ C /\ less i j = true;
  fi_sort : by_rank (A ++ B ++ C);
}.

Lemma fi_bound rank A B C dl : fnds_inv rank A B C dl -> forall i r, (i, r) ∈ A ++ B ++ C -> i < n.
Proof. intros H i r Hi. apply (fi_in _ _ _ _ _ H). apply fst_in. eauto. Qed.

Lemma fi_dominators rank A B C dl : fnds_inv rank A B C dl ->
  forall i j, i ∈ (A ++ B ++ C).*1 -> j < n -> less i j = true -> j ∈ A.*1.
Proof.
  intros H i j Hi Hj Hl. apply (fi_in _ _ _ _ _ H) in Hi as [Hi Hz]. rewrite (fi_better _ _ _ _ _ H) in Hz by done.
  rewrite cnt_0 in Hz. specialize (Hz j Hj). rewrite Hl in Hz. cbn in Hz. apply bool_decide_eq_false in Hz. destruct (decide (j ∈ A.*1)); tauto.
Qed.

Lemma fnds_elem rank A x B C dl : fnds_inv rank A ((x, rank) :: B) C dl ->
  exists dl' new, fnds_worse (worse_of dl x) (S rank) dl (A ++ (x, rank) :: B ++ C) = Some (dl', A ++ (x, rank) :: B ++ C ++ new) /\
    fnds_inv rank (A ++ [(x, rank)]) B (C ++ new) dl'.
Proof.
  intros H. pose proof (fi_dominators _ _ _ _ _ H) as Hdoms. pose proof (fi_bound _ _ _ _ _ H) as Hbd.
  destruct H as [H1 H2 H3 H4 H5 H6 H7 H8 H9 H10 H11 H12].
  assert (Hx : x < n) by (apply (Hbd x rank); ins).
  assert (HxA : x ∉ A.*1).
  { rewrite fmap_app in H5. apply NoDup_app in H5 as (_&H5&_). intros Hin. apply (H5 x Hin). cbn. set_solver. }
  assert (Hbw : forall w, w ∈ worse_of dl x -> w < n /\ better_of dl w <> 0).
  { intros w Hw. apply H3 in Hw as [Hw Hl]; [|done]. split; [done|]. rewrite H4 by done. rewrite cnt_0. intros Hz.
    specialize (Hz x Hx). rewrite Hl in Hz. cbn in Hz. apply bool_decide_eq_false in Hz. tauto. }
  destruct (fnds_worse_ok (S rank) (worse_of dl x) dl (A ++ (x, rank) :: B ++ C)) as (dl'&W1&W2&W3&W4).
  { auto. } { intros w Hw. rewrite H1. auto. }
  set (news := filter (fun w => better_of dl w = 1) (worse_of dl x)) in *.
  exists dl', ((fun w => (w, S rank)) <$> news).
  split; [rewrite W1; f_equal; f_equal; repeat (rewrite <- ?app_assoc; cbn [app]); done|].
  assert (Happ : (A ++ [(x, rank)]) ++ B ++ C ++ ((fun w => (w, S rank)) <$> news) =
    (A ++ ((x, rank) :: B) ++ C) ++ ((fun w => (w, S rank)) <$> news)) by (repeat (rewrite <- ?app_assoc; cbn [app]); done).
  assert (Hfst : forall l : list nat, ((fun w => (w, S rank)) <$> l).*1 = l).
  { intros l. rewrite <- list_fmap_compose. rewrite <- (list_fmap_id l) at 2. done. }
  assert (Hnews : forall w, w ∈ news <-> w < n /\ less w x = true /\ better_of dl w = 1).
  { intros w. unfold news. rewrite elem_of_list_filter, H3 by done. tauto. }
  assert (Hnew_in : forall e, e ∈ ((fun w => (w, S rank)) <$> news) -> e.2 = S rank /\ e.1 ∈ news).
  { intros e He. apply elem_of_list_fmap in He as (w&->&Hw). done. }
  assert (Hbetter : forall i, i < n -> better_of dl' i = cnt (fun j => less i j && bool_decide (j ∉ (A ++ [(x, rank)]).*1))).
  { intros i Hi. rewrite W4, H4 by done. destruct (decide (i ∈ worse_of dl x)) as [Hw|Hw].
    - apply H3 in Hw as [_ Hl]; [|done].
      rewrite (cnt_S n (fun j => less i j && bool_decide (j ∉ (A ++ [(x, rank)]).*1)) _ x); [lia|done|..].
      + rewrite bool_decide_false; [apply andb_false_r|]. rewrite fmap_app. cbn. set_solver.
      + rewrite Hl. cbn. apply bool_decide_eq_true. done.
      + intros y Hy Hyx. f_equal. apply bool_decide_ext. rewrite fmap_app. cbn. set_solver.
    - apply cnt_ext. intros j Hj. destruct (less i j) eqn:E; [|done]. cbn. apply bool_decide_ext. rewrite fmap_app. cbn.
      assert (j <> x); [|set_solver]. intros ->. apply Hw, H3; done. }
  split; rewrite ?Happ.
  - congruence.
  - intros i Hi. rewrite W3. auto.
  - intros i k Hi. rewrite W3. auto.
  - done.
  - rewrite (fmap_app fst (A ++ ((x, rank) :: B) ++ C)), Hfst. apply NoDup_app. split; [done|]. split; [|apply NoDup_filter; auto].
    intros w Hw Hn. apply H6 in Hw as [_ Hw]. apply Hnews in Hn as (_&_&Hn). lia.
  - intros i. rewrite (fmap_app fst (A ++ ((x, rank) :: B) ++ C)), Hfst, elem_of_app, H6, Hnews. split.
    + intros [[Hi Hz]|(Hi&Hl&Hz)].
      * split; [done|]. rewrite W4. destruct (decide (i ∈ worse_of dl x)) as [Hw|]; [|done]. apply Hbw in Hw as [_ ?]. done.
      * split; [done|]. rewrite W4. rewrite decide_True by (apply H3; done). lia.
    + intros [Hi Hz]. rewrite W4 in Hz. destruct (decide (i ∈ worse_of dl x)) as [Hw|]; [|auto].
      right. pose proof (Hbw i Hw) as [_ ?]. apply H3 in Hw as [_ Hl]; [|done]. split; [done|]. split; [done|]. lia.
  - intros e He. apply elem_of_app in He as [He | ->%elem_of_list_singleton]; [auto|done].
  - intros e He. apply H8. ins.
  - intros e He. apply elem_of_app in He as [He|He]; [auto|]. apply Hnew_in in He as [? _]. done.
  - intros i r j s Hi Hj Hl. apply elem_of_app in Hi as [Hi|Hi], Hj as [Hj|Hj].
    + eauto.
    + exfalso. apply Hnew_in in Hj as [_ Hj]. cbn in Hj. apply Hnews in Hj as (Hjn&_&Hj).
      assert (HjA : j ∈ A.*1) by (apply (Hdoms i j); [apply fst_in; eauto|done..]).
      assert (j ∈ (A ++ ((x, rank) :: B) ++ C).*1) as Hin by (rewrite fmap_app; apply elem_of_app; auto).
      apply H6 in Hin as [_ Hin]. lia.
    + apply Hnew_in in Hi as [Hr Hi]. cbn in Hr, Hi. subst r. assert (s <= rank); [|lia].
      assert (Hjx : j ∈ (A ++ [(x, rank)]).*1).
      { apply Hnews in Hi as (Hin&Hix&Hz). assert (Hz' : better_of dl' i = 0) by (rewrite W4, decide_True by (apply H3; done); lia).
        rewrite Hbetter, cnt_0 in Hz' by done. specialize (Hz' j (Hbd j s Hj)). rewrite Hl in Hz'. cbn in Hz'.
        apply bool_decide_eq_false in Hz'. destruct (decide (j ∈ (A ++ [(x, rank)]).*1)); tauto. }
      apply elem_of_app in Hj as [Hj|Hj]; [apply H7 in Hj; done|]. apply elem_of_app in Hj as [Hj|Hj]; [apply H8 in Hj; cbn in Hj; lia|].
      exfalso. replace (A ++ ((x, rank) :: B) ++ C) with ((A ++ [(x, rank)]) ++ B ++ C) in H5 by (rewrite <- app_assoc; done).
      rewrite fmap_app in H5. apply NoDup_app in H5 as (_&H5&_). apply (H5 j Hjx). rewrite fmap_app. apply elem_of_app. right. apply fst_in. eauto.
    + exfalso. apply Hnew_in in Hi as [_ Hi], Hj as [_ Hj]. cbn in Hi, Hj. apply Hnews in Hj as (Hjn&_&Hj).
      apply Hnews in Hi as (Hin&Hix&Hz). assert (Hz' : better_of dl' i = 0) by (rewrite W4, decide_True by (apply H3; done); lia).
      rewrite Hbetter, cnt_0 in Hz' by done. specialize (Hz' j Hjn). rewrite Hl in Hz'. cbn in Hz'.
      apply bool_decide_eq_false in Hz'. apply Hz'. intros Hjx.
      assert (j ∈ (A ++ ((x, rank) :: B) ++ C).*1) as HjI.
      { rewrite !fmap_app in *. clear -Hjx. cbn in *. set_solver. }
      apply H6 in HjI as [_ ?]. lia.
  - intros i r Hi. apply elem_of_app in Hi as [Hi|Hi].
    + destruct (H11 i r Hi) as (j&Hj&?). exists j. split; [clear -Hj; ins|done].
    + apply Hnew_in in Hi as [[= ->] Hi]. cbn in Hi. exists x. apply Hnews in Hi as (_&Hi&_). split; [|done]. clear. ins.
  - apply by_rank_app. split; [done|]. split; [apply by_rank_same|]. intros e f He Hf. apply Hnew_in in Hf as [-> _].
    apply elem_of_app in He as [He|He]; [apply H7 in He; lia|]. apply elem_of_app in He as [He|He]; [apply H8 in He; lia|apply H9 in He; lia].
Qed.

Lemma fnds_front_ok rank B : forall A C dl, fnds_inv rank A B C dl ->
  exists dl' C', fnds_front (length B) (length A) (S rank) dl (A ++ B ++ C) = Some (dl', A ++ B ++ C') /\ fnds_inv rank (A ++ B) [] C' dl'.
Proof.
  induction B as [|[x r] B IH]; intros A C dl H; cbn [length fnds_front].
  - exists dl, C. rewrite app_nil_r. done.
  - assert (r = rank) as -> by (apply (fi_B _ _ _ _ _ H (x, r)); ins).
    assert (Hx : x < n) by (apply (fi_bound _ _ _ _ _ H x rank); ins).
    cbn [app]. rewrite (list_lookup_middle A (B ++ C) (x, rank) (length A)) by done. cbn [mbind option_bind fst].
    rewrite lookup_dl by (rewrite (fi_len _ _ _ _ _ H); done). cbn [mbind option_bind worse_indices].
    destruct (fnds_elem _ _ _ _ _ _ H) as (dl'&new&E&H'). cbn [app]. rewrite E. cbn [mbind option_bind].
    destruct (IH _ _ _ H') as (dl''&C''&E'&H''). exists dl'', C''.
    rewrite app_length in E'. cbn [length] in E'. rewrite Nat.add_1_r in E'.
    replace ((A ++ [(x, rank)]) ++ B ++ C ++ new) with (A ++ (x, rank) :: B ++ C ++ new) in E' by (rewrite <- app_assoc; done).
    rewrite E'. rewrite <- !app_assoc in *. done.
Qed.

Lemma fnds_next rank A C dl : fnds_inv rank A [] C dl -> fnds_inv (S rank) A C [] dl.
Proof.
  intros [H1 H2 H3 H4 H5 H6 H7 H8 H9 H10 H11 H12]. cbn [app] in *. split; rewrite ?app_nil_r; try done.
  - intros e He. apply H7 in He. lia.
  - intros e He. set_solver.
Qed.

Lemma fnds_loop_ok fuel : forall rank A B dl, n < fuel + length A -> fnds_inv rank A B [] dl ->
  exists res, fnds_loop n fuel (length A) (length (A ++ B)) dl (A ++ B) = Some res /\ res.*1 ≡ₚ seq 0 n /\ by_rank res /\ ranked less res.
Proof.
  induction fuel as [|fuel IH]; intros rank A B dl Hf H.
  - exfalso. cbn in Hf. pose proof (fi_elems _ _ _ _ _ H) as Hnd. rewrite fmap_app in Hnd. apply NoDup_app in Hnd as (Hnd&_).
    assert (A.*1 ⊆+ seq 0 n) as Hs.
    { apply NoDup_submseteq; [done|]. intros i Hi. apply elem_of_seq. assert (i ∈ (A ++ B ++ []).*1) as Hin by (rewrite fmap_app; ins).
      apply (fi_in _ _ _ _ _ H) in Hin. lia. }
    apply submseteq_length in Hs. rewrite fmap_length, seq_length in Hs. lia.
  - cbn [fnds_loop].
    assert (Hsub : (A ++ B).*1 ⊆+ seq 0 n).
    { apply NoDup_submseteq; [pose proof (fi_elems _ _ _ _ _ H) as Hnd; rewrite app_nil_r in Hnd; done|]. intros i Hi. apply elem_of_seq.
      assert (i ∈ (A ++ B ++ []).*1) as Hin by (rewrite app_nil_r; done). apply (fi_in _ _ _ _ _ H) in Hin. lia. }
    destruct (decide (length (A ++ B) = n)) as [Hn|Hn].
    + exists (A ++ B). split; [done|]. split; [|].
      * apply submseteq_Permutation_length_eq; [|done]. rewrite fmap_length, seq_length. lia.
      * destruct H as [H1 H2 H3 H4 H5 H6 H7 H8 H9 H10 H11 H12]. rewrite app_nil_r in *. split; [done|]. split; done.
    + assert (HB : B <> []).
      { intros ->. rewrite app_nil_r in *.
        set (out := filter (fun i => i ∉ A.*1) (seq 0 n)).
        destruct (maximal_exists n less Hirr Htr out) as (x&Hx&Hmax).
        - intros Ho. assert (seq 0 n ⊆+ A.*1) as Hs2.
          { apply NoDup_submseteq; [apply NoDup_seq|]. intros i Hi. destruct (decide (i ∈ A.*1)); [done|].
            assert (Hin : i ∈ out) by (unfold out; apply elem_of_list_filter; done). rewrite Ho in Hin. set_solver. }
          apply submseteq_length in Hs2, Hsub. rewrite fmap_length, seq_length in *. lia.
        - intros x Hx. apply elem_of_list_filter in Hx as [_ Hx]. apply elem_of_seq in Hx. lia.
        - apply elem_of_list_filter in Hx as [HxA Hx]. apply elem_of_seq in Hx.
          assert (x ∈ (A ++ [] ++ []).*1) as Hin; [|rewrite app_nil_r in Hin; done].
          apply (fi_in _ _ _ _ _ H). split; [lia|]. rewrite (fi_better _ _ _ _ _ H) by lia. apply cnt_0. intros j Hj.
          destruct (decide (j ∈ A.*1)) as [HjA|HjA].
          + rewrite bool_decide_false by tauto. apply andb_false_r.
          + rewrite Hmax; [done|]. apply elem_of_list_filter. rewrite elem_of_seq. split; [done|lia]. }
      destruct B as [|[x r] B]; [done|]. assert (r = rank) as -> by (apply (fi_B _ _ _ _ _ H (x, r)); ins).
      rewrite (list_lookup_middle A B (x, rank) (length A)) by done. cbn [mbind option_bind snd].
      destruct (fnds_front_ok _ _ _ _ _ H) as (dl'&C'&E&H').
      rewrite app_length. replace (length A + length ((x, rank) :: B) - length A) with (length ((x, rank) :: B)) by lia.
      rewrite app_nil_r in E. rewrite E. cbn [mbind option_bind]. apply fnds_next in H'.
      destruct (IH (S rank) (A ++ (x, rank) :: B) C' dl') as (res&R1&R2); [rewrite app_length; cbn [length]; lia|done|].
      exists res. split; [|done]. rewrite <- R1. rewrite <- !app_assoc. rewrite (app_length A ((x, rank) :: B)). done.
Qed.

Lemma fnds_exact fuel : n < fuel ->
  exists res, fastNonDominatedSort n cmp fuel = Some res /\ res.*1 ≡ₚ seq 0 n /\ by_rank res /\ ranked less res.
Proof.
  intros Hf. destruct construct_ok as (C1&C2&C3&C4). unfold fastNonDominatedSort.
  remember (constructDominanceLists n cmp) as dl eqn:E. clear E.
  assert (Hfirst : fnds_first n dl = (fun i => (i, 0)) <$> filter (fun i => better_of dl i = 0) (seq 0 n)).
  { unfold fnds_first. assert (Hb : forall i, i ∈ seq 0 n -> i < length dl) by (intros i Hi; apply elem_of_seq in Hi; lia).
    revert Hb. generalize (seq 0 n). intros l. induction l as [|i l IH]; intros Hb; [done|]. rewrite bind_cons, filter_cons, IH by set_solver.
    rewrite lookup_dl by (apply Hb; set_solver). cbn [better_count]. destruct (decide (better_of dl i = 0)); done. }
  assert (Hel : forall e, e ∈ fnds_first n dl <-> e.2 = 0 /\ e.1 < n /\ better_of dl e.1 = 0).
  { intros [i r]. rewrite Hfirst, elem_of_list_fmap. cbn. split.
    - intros (y&[= -> ->]&Hy). apply elem_of_list_filter in Hy as [H1 H2]. apply elem_of_seq in H2. split_and!; [done|lia|done].
    - intros (->&H1&H2). exists i. split; [done|]. apply elem_of_list_filter. rewrite elem_of_seq. split; [done|lia]. }
  assert (Hfst : (fnds_first n dl).*1 = filter (fun i => better_of dl i = 0) (seq 0 n)).
  { rewrite Hfirst, <- list_fmap_compose. apply list_fmap_id. }
  apply (fnds_loop_ok fuel 0 [] (fnds_first n dl) dl); [cbn; lia|]. split; cbn [app]; rewrite ?app_nil_r; try done.
  - intros i Hi. rewrite C4 by done. apply cnt_ext. intros j Hj. rewrite bool_decide_true by set_solver. rewrite andb_true_r. done.
  - rewrite Hfst. apply NoDup_filter, NoDup_seq.
  - intros i. rewrite Hfst, elem_of_list_filter, elem_of_seq. split; intros [? ?]; split; (done || lia).
  - intros e He. set_solver.
  - intros e He. apply Hel in He. tauto.
  - intros e He. set_solver.
  - intros i r j s Hi Hj Hl. apply Hel in Hi as (_&Hi&Hz). cbn in *. rewrite C4, cnt_0 in Hz by done. apply Hel in Hj as (_&Hj&_).
    cbn in Hj. rewrite Hz in Hl; done.
  - intros i r Hi. apply Hel in Hi as [? _]. done.
  - rewrite Hfirst. apply by_rank_same.
Qed.
End Exact.
End Fast.
