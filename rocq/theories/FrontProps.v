(** Properties of the Pareto front and nadir computations (C18, C19, C20, C26). *)
From Coq Require Import Reals ZArith Lia Lra.
From Flocq Require Import BinarySingleNaN Core.
From stdpp Require Import list list_numbers sets.
From Verif Require Import StdSort AlgorithmModel AlgorithmSpec AlgorithmProofs AlgorithmProps.
From Verif Require Import FloatBase FloatModel FloatSpec FloatProofs FloatProps ParetoModel ParetoProofs FrontModel FrontSpec FrontProofs.
Local Open Scope nat_scope.

(** C18 *)
Theorem C18_front_is_nondominated_set (t : tolerances) sort (d : nat) (m : list (list b64)) :
  exact t -> sort_contract sort -> 0 < d -> matrix d m -> m <> [] ->
  exists f fs fb fk,
    findParetoFront t m d = Some f /\ findParetoFrontSortF t m sort = Some fs /\
    findParetoFrontBestF t m = Some fb /\ findParetoFrontKungF t m sort = Some fk /\
    exact_front m f /\ exact_front m fs /\ exact_front m fb /\ exact_front m fk /\
    f ≡ₚ fs /\ f ≡ₚ fb /\ f ≡ₚ fk.
Proof.
  intros Hex Hs Hd Hm Hne.
  destruct (front_exact_all t d m Hex Hd Hm) as (f&Hf&Hfe).
  destruct (front_sort_exact t d m Hm Hex sort Hs) as (fs&Hfs&Hfse).
  destruct (front_best_exact t d m Hm Hex) as (fb&Hfb&Hfbe).
  destruct (front_kung_exact t d m Hm Hex sort Hs Hne) as (fk&Hfk&Hfke).
  exists f, fs, fb, fk. repeat (split; [done|]). split_and!; apply (exact_front_unique m); done.
Qed.
Print Assumptions C18_front_is_nondominated_set.

(** ... and for populations: the candidates returned are those whose fitness is not
    dominated, in the order of the indices. *)
Theorem C18_population_front (A : Type) (t : tolerances) (fit : A -> list b64) (d : nat) (pop : list A) :
  exact t -> 0 < d -> matrix d (fit <$> pop) ->
  exists front, findParetoFrontPop t fit d pop = Some front /\
    forall x, x ∈ front <-> x ∈ pop /\ forall y, y ∈ pop -> ~ dominated_by (fit x) (fit y).
Proof.
  intros Hex Hd Hm. unfold findParetoFrontPop. destruct (decide (pop = [])) as [->|Hne].
  - exists []. split; [done|]. set_solver.
  - destruct (front_exact_all t d _ Hex Hd Hm) as (f&Hf&Hfe). rewrite Hf. cbn [mbind option_bind].
    destruct (select_copy_ok pop f) as (k&Hk&Hkx).
    { intros i Hi. rewrite <- (fmap_length fit). apply (front_indices_bound _ f); done. }
    exists k. split; [done|]. intros x. rewrite Hkx. destruct Hfe as [_ Hfe]. split.
    + intros (i&Hi&Hx). apply Hfe in Hi as (r&Hr&Hn). rewrite list_lookup_fmap, Hx in Hr. injection Hr as <-.
      split; [apply elem_of_list_lookup; eauto|]. intros y Hy. apply Hn. apply elem_of_list_fmap. eauto.
    + intros [Hx Hn]. apply elem_of_list_lookup in Hx as [i Hi]. exists i. split; [|done]. apply Hfe.
      exists (fit x). split; [rewrite list_lookup_fmap, Hi; done|]. intros r Hr. apply elem_of_list_fmap in Hr as (y&->&Hy). auto.
Qed.
Print Assumptions C18_population_front.

Lemma zero_exact : exact zero_tolerances.
Proof. split; [apply zero_tolerances_ok|]. split; reflexivity. Qed.
Definition fz (z : Z) : b64 := fmk z 0.
Example C18_nonvacuous :
  let m := [[fz 1; fz 5]; [fz 2; fz 2]; [fz 3; fz 1]; [fz 2; fz 4]; [fz 1; fz 4]; [fz 2; fz 4]] in
  exact zero_tolerances /\ matrix 2 m /\
  findParetoFront zero_tolerances m 2 = Some [0; 5; 2; 3] /\
  findParetoFrontSortF zero_tolerances m isort = Some [2; 3; 5; 0] /\
  findParetoFrontKungF zero_tolerances m isort = Some [2; 3; 5; 0].
Proof.
  cbv zeta. split; [apply zero_exact|]. split; [repeat constructor|]. vm_compute. done.
Qed.

(** C19: for any answers [less], [cmp] of the dominance tests. *)
Theorem C19_front_safe_partial (n : nat) (less : nat -> nat -> bool) (cmp : nat -> nat -> Z) sort (lexgt : nat -> nat -> bool) :
  sort_contract sort -> swo_on lexgt (seq 0 n) ->
  (exists f, findParetoFrontBest n less cmp = Some f /\ NoDup f /\ (forall i, i ∈ f -> i < n) /\ (0 < n -> f <> [])) /\
  (exists f, findParetoFrontSort n less sort lexgt = Some f /\ NoDup f /\ (forall i, i ∈ f -> i < n) /\ (0 < n -> f <> [])) /\
  (0 < n -> exists f, findParetoFrontKung n less sort lexgt = Some f /\ NoDup f /\ (forall i, i ∈ f -> i < n) /\ f <> []).
Proof.
  intros Hs Hl. pose proof (sorted_indices n sort lexgt Hs Hl) as [Hp _].
  assert (Hsub : forall f, f `sublist_of` argsort sort lexgt false (index_vector n 0) -> NoDup f /\ forall i, i ∈ f -> i < n).
  { intros f Hf. split; [eapply sublist_NoDup; [|exact Hf]; rewrite Hp; apply NoDup_seq|].
    intros i Hi. apply (sublist_in _ _ Hf) in Hi. rewrite Hp in Hi. apply elem_of_seq in Hi. lia. }
  split; [|split].
  - destruct (best_gen n less cmp) as (f&H1&H2&H3&H4&_). eauto 6.
  - destruct (sort_front n less cmp sort lexgt Hs Hl) as (f&H1&[H2 _ _]&H3). destruct (Hsub f H2). eauto 6.
  - intros Hn. destruct (kung_valid n less cmp sort lexgt Hs Hl Hn) as (f&H1&H2&H3). destruct (Hsub f H2). eauto 6.
Qed.
Print Assumptions C19_front_safe_partial.

(** ... and the one-objective case: whichever rows the tolerant equality accepts. *)
Theorem C19_front_1D_safe (t : tolerances) (m : list (list b64)) :
  tol_ok t -> matrix 1 m -> m <> [] ->
  exists f, findParetoFront1D t m = Some f /\ NoDup f /\ (forall i, i ∈ f -> i < length m) /\ f <> [].
Proof.
  intros Ht Hm Hne. destruct (one_max m Hm Hne) as (k&best&Hb&_&Hmax).
  unfold findParetoFront1D. rewrite Hb. cbn [mbind option_bind]. eexists. split; [done|]. split; [apply find_indices_nodup|].
  split; [intros i Hi; apply find_indices_in in Hi as (x&Hx&_); apply lookup_lt_Some in Hx; done|].
  intros E. assert (Hi : max_element flt elem0 m ∈ find_indices (fun r => floatIsEqual t (elem0 best) (elem0 r)) m).
  { apply find_indices_in. exists best. split; [done|]. apply float_equal_refl; [done|].
    apply (one_row m Hm). apply elem_of_list_lookup. eauto. }
  rewrite E in Hi. set_solver.
Qed.
Print Assumptions C19_front_1D_safe.

(** C19 (refuted for one variant): findParetoFrontKung does not terminate on an empty
    matrix, the recursion never reaches a range of length one. *)
Theorem C19_kung_empty_refuted (less : nat -> nat -> bool) (fuel : nat) : kung 0 less fuel [] = None.
Proof. apply kung_empty. Qed.
Print Assumptions C19_kung_empty_refuted.

Example C19_nonvacuous : (* everything dominates everything, and cyclic comparisons *)
  findParetoFrontBest 4 (fun _ _ => true) (fun i j => if decide ((i + 1) `mod` 4 = j) then (-1)%Z else 1%Z) = Some [3] /\
  findParetoFrontSort 4 (fun _ _ => true) isort Nat.ltb = Some [0] /\
  findParetoFrontKung 4 (fun _ _ => true) isort Nat.ltb = Some [0] /\
  swo_on Nat.ltb (seq 0 4).
Proof. split; [vm_compute; done|]. split; [done|]. split; [done|apply nat_swo]. Qed.

(** C20 (refuted): with the default tolerances, a point is dropped although no returned
    point dominates it, and two points are returned of which one dominates the other. *)
Definition p_a : list b64 := [fzero; fmk 1 (-39)].
Definition p_b : list b64 := [fmk 1 0; fmk 1 (-40)].
Definition p_c : list b64 := [fmk 2 0; fzero].
Theorem C20_front_respects_dominance_refuted :
  (let m := [p_b; p_a; p_c] in matrix 2 m /\
   findParetoFront default_tolerances m 2 = Some [2] /\
   paretoCompareLess default_tolerances p_a p_c = false) /\
  (let m := [[w1]; [w2]] in matrix 1 m /\
   findParetoFront default_tolerances m 1 = Some [0; 1] /\
   paretoCompareLess default_tolerances [w1] [w2] = true).
Proof. split; (split; [repeat constructor|]); vm_compute; done. Qed.
Print Assumptions C20_front_respects_dominance_refuted.

(** C20, what holds under every tolerance: whatever is dropped is dominated by some
    point of the matrix; for two or more objectives an earlier point of the result
    never beats a later one; for one objective the dropped points are dominated by a
    returned one. *)
Theorem C20_front_respects_dominance_partial (t : tolerances) (d : nat) (m : list (list b64)) :
  tol_ok t -> 0 < d -> matrix d m -> m <> [] ->
  exists f, findParetoFront t m d = Some f /\
    (forall i r, m !! i = Some r -> i ∉ f ->
       exists j r', m !! j = Some r' /\ paretoCompareLess t r r' = true /\ (d = 1 -> j ∈ f)) /\
    (d <> 1 -> forall a b i j r r', a < b -> f !! a = Some i -> f !! b = Some j -> m !! i = Some r -> m !! j = Some r' ->
       paretoCompare t r r' <> 1%Z /\
       ((B2R (relative_tolerance t) = 0%R \/ nonneg_vec r /\ nonneg_vec r') -> paretoCompareLess t r' r = false)).
Proof.
  intros Ht Hd Hm Hne. unfold findParetoFront. rewrite decide_False by done.
  assert (Hrow : forall i r, m !! i = Some r -> length r = d /\ finite_vec r).
  { intros i r Hr. rewrite <- (row_lookup m i r Hr). apply (row_ok d m Hm). apply lookup_lt_Some in Hr. done. }
  destruct (decide (d = 1)) as [->|Hd1].
  - destruct (one_max m Hm Hne) as (k&best&Hb&_&Hmax).
    unfold findParetoFront1D. rewrite Hb. cbn [mbind option_bind]. eexists. split; [done|]. split; [|done].
    intros i r Hr Hni. pose proof (elem_of_list_lookup_2 _ _ _ Hb) as Hbin. pose proof (elem_of_list_lookup_2 _ _ _ Hr) as Hrin.
    destruct (one_row m Hm best Hbin) as [Eb Hfb]. destruct (one_row m Hm r Hrin) as [Er Hfr].
    exists (max_element flt elem0 m), best. split; [done|]. split.
    + assert (Hneq : floatIsEqual t (elem0 best) (elem0 r) = false).
      { apply not_true_is_false. intros E. apply Hni. apply find_indices_in. eauto. }
      specialize (Hmax r Hrin). rewrite Er, Eb.
      assert (Hl1 : floatIsLess t (elem0 best) (elem0 r) = false).
      { apply not_true_is_false. intros E. apply floatIsLess_lt in E; [lra|done..]. }
      assert (Hl2 : floatIsLess t (elem0 r) (elem0 best) = true).
      { pose proof (float_trichotomy t Ht (elem0 best) (elem0 r) Hfb Hfr) as H.
        rewrite float_greater_less in H by done. destruct (floatCompare t _ _); destruct H as (?&?&?); congruence. }
      unfold paretoCompareLess. cbn. rewrite Hl1. rewrite (floatIsLess_assume t Ht) by done. done.
    + intros _. apply find_indices_in. exists best. split; [done|]. apply float_equal_refl; done.
  - destruct (best_gen (length m) (row_less t m) (row_cmp t m)) as (f&H1&H2&H3&H4&H5&H6). exists f. split; [done|]. split.
    + intros i r Hr Hni. pose proof (lookup_lt_Some _ _ _ Hr) as Hi. destruct (H5 i Hi) as [?|(j&Hj&Hbt)]; [done|].
      pose proof (row_in m j Hj) as Hrj. exists j, (row m j). split; [done|]. split; [|done].
      destruct (Hrow i r Hr) as [Hl Hf]. destruct (Hrow j _ Hrj) as [Hlj Hfj].
      unfold beats, row_less, row_cmp in Hbt. rewrite (row_lookup m i r Hr) in Hbt.
      destruct Hbt as [?|[Hbt|Hbt]]; [done| |].
      * apply (paretoCompare_less t Ht); [congruence|done..|].
        destruct (paretoCompare_spec t Ht r (row m j)) as (_&_&?); [congruence|done..|]. lia.
      * apply (paretoCompare_less t Ht); [congruence|done..|]. apply (paretoCompare_swap t Ht); [congruence|done..|].
        destruct (paretoCompare_spec t Ht (row m j) r) as (_&_&?); [congruence|done..|]. lia.
    + intros _ a b i j r r' Hab Ha Hb Hi Hj. specialize (H6 a b i j Hab Ha Hb). unfold row_less, row_cmp in H6.
      rewrite (row_lookup m i r Hi), (row_lookup m j r' Hj) in H6.
      destruct (Hrow i r Hi) as [Hl Hf]. destruct (Hrow j r' Hj) as [Hlj Hfj].
      assert (Hlr : length r = length r') by congruence. assert (Hlr' : length r' = length r) by congruence. split.
      * intros E. destruct H6 as [H6|H6]; [|lia]. apply (paretoCompare_swap t Ht) in E; [|done..].
        apply (paretoCompare_less t Ht) in E; [congruence|done..].
      * intros Hs. destruct H6 as [H6|H6]; [done|]. apply not_true_is_false. intros E.
        apply (paretoCompare_agree t Ht) in E; [|done..|destruct Hs as [?|[? ?]]; [left|right]; done].
        apply (paretoCompare_swap t Ht) in E; [lia|done..].
Qed.
Print Assumptions C20_front_respects_dominance_partial.

(** The sort-based variant keeps a dominating point for every dropped one, and an
    earlier point of its result never dominates a later one, under every tolerance. *)
Theorem C20_sort_front_partial (t : tolerances) sort (d : nat) (m : list (list b64)) :
  sort_contract sort -> matrix d m ->
  exists f, findParetoFrontSortF t m sort = Some f /\
    (forall i r, m !! i = Some r -> i ∉ f -> exists j r', j ∈ f /\ m !! j = Some r' /\ paretoCompareLess t r r' = true) /\
    (forall a b i j r r', a < b -> f !! a = Some i -> f !! b = Some j -> m !! i = Some r -> m !! j = Some r' ->
       paretoCompareLess t r' r = false).
Proof.
  intros Hs Hm. pose proof (row_swo d m Hm) as Hl.
  destruct (sort_front (length m) (row_less t m) (row_cmp t m) sort (row_lexgt m) Hs Hl) as (f&H1&[H2 H3 H4]&_).
  destruct (sorted_indices (length m) sort (row_lexgt m) Hs Hl) as [Hp _].
  exists f. split; [done|]. split.
  - intros i r Hr Hni. destruct (H3 i) as [?|(j&Hj&Hlt)]; [|done|].
    { rewrite Hp. apply elem_of_seq. apply lookup_lt_Some in Hr. lia. }
    assert (j < length m). { apply (sublist_in _ _ H2) in Hj. rewrite Hp in Hj. apply elem_of_seq in Hj. lia. }
    exists j, (row m j). split; [done|]. split; [apply row_in; done|]. unfold row_less in Hlt. rewrite (row_lookup m i r Hr) in Hlt. done.
  - intros a b i j r r' Hab Ha Hb Hi Hj. specialize (H4 a b i j Hab Ha Hb). unfold row_less in H4.
    rewrite (row_lookup m i r Hi), (row_lookup m j r' Hj) in H4. done.
Qed.
Print Assumptions C20_sort_front_partial.

Example C20_nonvacuous :
  matrix 2 [p_b; p_a; p_c] /\ tol_ok default_tolerances /\
  paretoCompareLess default_tolerances p_a p_b = true /\
  findParetoFrontSortF default_tolerances [p_b; p_a; p_c] isort = Some [2; 1].
Proof. split; [repeat constructor|]. split; [apply default_tolerances_ok|]. vm_compute. done. Qed.

(** C26 *)
Theorem C26_nadir_point (t : tolerances) (d : nat) (m : list (list b64)) :
  exact t -> 0 < d -> matrix d m -> m <> [] ->
  (exists p, findNadirPoint t d m = Some p /\ componentwise_min d (fun r => r ∈ m /\ nondominated m r) p) /\
  (exists p, findFrontNadirPoint m = Some p /\ componentwise_min d (fun r => r ∈ m) p).
Proof. intros Hex Hd Hm Hne. split; [apply nadir_ok; done|apply front_nadir_ok; done]. Qed.
Print Assumptions C26_nadir_point.

Example C26_nonvacuous :
  let m := [[fz 1; fz 5]; [fz 2; fz 2]; [fz 3; fz 1]; [fz 0; fz 4]] in
  exact zero_tolerances /\ matrix 2 m /\
  option_map (List.map B2SF) (findNadirPoint zero_tolerances 2 m) = Some (List.map B2SF [fz 1; fz 1]) /\
  option_map (List.map B2SF) (findFrontNadirPoint m) = Some (List.map B2SF [fz 0; fz 1]).
Proof. cbv zeta. split; [apply zero_exact|]. split; [repeat constructor|]. vm_compute. done. Qed.
