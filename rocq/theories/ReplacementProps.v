(** C41 and the one-generation part of C42: the replacement operators. *)
From Coq Require Import Reals Lra Lia.
From stdpp Require Import list list_numbers sets.
From Flocq Require Import Core BinarySingleNaN.
From Verif Require Import StdSort FloatBase FloatModel FloatSpec FloatProofs FloatProps AlgorithmModel AlgorithmSpec AlgorithmProofs ReplacementModel ReplacementSpec.

(** One objective and zero tolerances: the comparison is the order of the numbers. *)
Section exact.
Variable t : tolerances.
Hypothesis t_ok : tol_ok t.
Hypothesis abs0 : B2R (absolute_tolerance t) = 0%R.
Hypothesis rel0 : B2R (relative_tolerance t) = 0%R.
Lemma descending1 x y : (exists a, x = [a] /\ is_finite a = true) -> (exists a, y = [a] /\ is_finite a = true) ->
  descending t x y = true <-> greater1 x y.
Proof.
  intros (a & -> & Fa) (b & -> & Fb). unfold descending. rewrite pareto_less_exact; [|done..|by repeat constructor|by repeat constructor].
  unfold dominated_by, greater1. split.
  - intros [_ (i & u & v & Hu & Hv & Hlt)]. destruct i as [|[|i]]; try done. cbn in Hu, Hv. injection Hu as ->. injection Hv as ->. exists v, u. done.
  - intros (u & v & Hu & Hv & Hlt). injection Hu as ->. injection Hv as ->. split; [repeat constructor; lra|]. exists 0, v, u. done.
Qed.
Lemma descending1_swo l : one_objective l -> swo_on (descending t) l.
Proof.
  intros H. unfold one_objective in H. rewrite Forall_forall in H.
  assert (Hf : forall x y, x ∈ l -> y ∈ l -> descending t x y = false <-> ~ greater1 x y).
  { intros x y Hx Hy. rewrite <- (descending1 x y) by (by apply H). by rewrite not_true_iff_false. }
  split.
  - intros x Hx. apply Hf; [done..|]. intros (a & b & E1 & E2 & Hlt). rewrite E1 in E2. injection E2 as ->. lra.
  - intros x y z Hx Hy Hz. rewrite !descending1 by (by apply H). intros (a & b & -> & -> & H1) (c & d & E & -> & H2). injection E as ->. exists a, d. split_and!; try done. lra.
  - intros x y z Hx Hy Hz. rewrite !Hf by done. intros H1 H2 (a & b & -> & -> & H3). destruct (H _ Hy) as (c & -> & _).
    destruct (Rlt_or_le (B2R c) (B2R a)) as [Hc|Hc]; [apply H1; by exists a, c|]. apply H2. exists c, b. split_and!; try done. lra.
Qed.
End exact.

Lemma index_perm_NoDup {A} (l : list A) is : index_perm l is -> NoDup is /\ length is = length l /\ forall i, i ∈ is <-> i < length l.
Proof.
  intros H. unfold index_perm in H. split; [rewrite H; apply NoDup_seq|]. split; [rewrite H; apply seq_length|]. intros i. rewrite H. rewrite elem_of_seq. lia.
Qed.

Section c41.
Variable t : tolerances.
Variable sort : (nat -> nat -> bool) -> list nat -> list nat.
Variable psort : (nat -> nat -> bool) -> nat -> list nat -> list nat.
Hypothesis sort_ok : sort_contract sort.
Hypothesis psort_ok : partial_sort_contract psort.
Variable full : bool.
Variable pop_size : nat.
Implicit Types fmat : list (list b64).

Lemma partial_best (m : nat) (r : list (list b64)) : swo_on (descending t) r -> m <= length r ->
  exists is, partial_argsort sort psort (descending t) full false m r = Some is /\ length is = length r /\
    k_best (fun x y => descending t x y = true) m (length r) r (take m is).
Proof.
  intros Hs Hm. destruct (partial_argsort_ok (descending t) sort psort full false m r sort_ok psort_ok Hs Hm) as (is & His & Hp & Ho). exists is. split; [done|].
  apply index_perm_NoDup in Hp as (Hnd & Hlen & Hmem). split; [done|]. split; [split_and!|].
  - rewrite take_length. lia.
  - rewrite <- (take_drop m is) in Hnd. by apply NoDup_app in Hnd as [? _].
  - apply Forall_forall. intros i Hi. apply Hmem. by apply elem_of_take in Hi as (k & Hk & _); apply elem_of_list_lookup_2 in Hk.
  - intros i j x y Hi Hj Hnj Hx Hy Hb. apply elem_of_take in Hi as (a & Ha & Ham). pose proof Hj as Hj2. rewrite <- Hmem in Hj2. apply elem_of_list_lookup in Hj2 as [b Hb2].
    assert (Hmb : m <= b). { destruct (Nat.lt_ge_cases b m) as [Hlt|]; [|done]. exfalso. apply Hnj. apply elem_of_take. by exists b. }
    rewrite (Ho a b i j x y) in Hb; [done|done|lia|done..].
Qed.
(** The members of the parents' part of a matrix. *)
Lemma k_best_take better m n fmat is : k_best better m n (take n fmat) is -> k_best better m n fmat is.
Proof.
  intros [H1 H2]. split; [done|]. intros i j x y Hi Hj Hnj Hx Hy. eapply H2; try done; rewrite lookup_take; try done.
  destruct H1 as (_ & _ & H1). rewrite Forall_forall in H1. by apply H1.
Qed.

(** ** C41 for every strictly weakly ordering comparison, which std::sort requires. *)
Theorem C41_keep_children fmat : length fmat = 2 * pop_size ->
  distinct_indices pop_size (length fmat) (KeepChildren pop_size) /\ (forall i, i ∈ KeepChildren pop_size <-> pop_size <= i < length fmat).
Proof.
  intros Hl. unfold KeepChildren, index_vector. split; [split_and!|].
  - apply seq_length.
  - apply NoDup_seq.
  - apply Forall_forall. intros i Hi. apply elem_of_seq in Hi. lia.
  - intros i. rewrite elem_of_seq. lia.
Qed.
Theorem C41_elitism n fmat : length fmat = 2 * pop_size -> swo_on (descending t) (take pop_size fmat) ->
  exists best, Elitism t sort psort full pop_size n fmat = Some (best ++ seq pop_size (pop_size - Nat.min n pop_size)) /\
    k_best (fun x y => descending t x y = true) (Nat.min n pop_size) pop_size fmat best /\
    distinct_indices pop_size (length fmat) (best ++ seq pop_size (pop_size - Nat.min n pop_size)).
Proof.
  intros Hl Hs. unfold Elitism. rewrite decide_True by lia. cbn zeta.
  destruct (partial_best (Nat.min n pop_size) (take pop_size fmat) Hs) as (is & His & Hlen & Hb); [rewrite take_length; lia|]. rewrite take_length in Hlen, Hb.
  rewrite (Nat.min_l pop_size (length fmat)) in Hlen, Hb by lia. rewrite His. cbn [mbind option_bind]. exists (take (Nat.min n pop_size) is). split; [done|]. split; [by apply k_best_take|].
  destruct Hb as [(L & N & F) _]. split_and!.
  - rewrite app_length, L, seq_length. lia.
  - apply NoDup_app. split; [done|]. split; [|apply NoDup_seq]. intros i Hi Hs2. rewrite Forall_forall in F. specialize (F i Hi). apply elem_of_seq in Hs2. lia.
  - apply Forall_app. split; [eapply Forall_impl; [exact F|]; cbn; lia|]. apply Forall_forall. intros i Hi. apply elem_of_seq in Hi. lia.
Qed.
Theorem C41_keep_best fmat : pop_size <= length fmat -> swo_on (descending t) fmat ->
  exists is, KeepBest t sort psort full pop_size fmat = Some is /\ k_best (fun x y => descending t x y = true) pop_size (length fmat) fmat is.
Proof.
  intros Hl Hs. unfold KeepBest. rewrite decide_True by lia. destruct (partial_best pop_size fmat Hs Hl) as (is & His & Hlen & Hb). rewrite His. cbn [mbind option_bind].
  by exists (take pop_size is).
Qed.
End c41.
Print Assumptions C41_keep_children.
Print Assumptions C41_elitism.
Print Assumptions C41_keep_best.

(** ** One objective, zero tolerances: "best" means the greatest numbers. *)
Lemma k_best_greater t m n fmat is : tol_ok t -> B2R (absolute_tolerance t) = 0%R -> B2R (relative_tolerance t) = 0%R -> one_objective fmat ->
  k_best (fun x y => descending t x y = true) m n fmat is -> k_best greater1 m n fmat is.
Proof.
  intros H1 H2 H3 Ho [Hd H]. split; [done|]. intros i j x y Hi Hj Hn Hx Hy Hb. apply (H i j x y); try done.
  unfold one_objective in Ho. rewrite Forall_lookup in Ho. apply (descending1 t); eauto.
Qed.
Theorem C41_exact_partial (t : tolerances) sort psort (full : bool) (pop_size n : nat) (fmat : list (list b64)) :
  sort_contract sort -> partial_sort_contract psort -> tol_ok t -> B2R (absolute_tolerance t) = 0%R -> B2R (relative_tolerance t) = 0%R ->
  one_objective fmat -> length fmat = 2 * pop_size ->
  (exists best, Elitism t sort psort full pop_size n fmat = Some (best ++ seq pop_size (pop_size - Nat.min n pop_size)) /\
    k_best greater1 (Nat.min n pop_size) pop_size fmat best) /\
  (exists is, KeepBest t sort psort full pop_size fmat = Some is /\ k_best greater1 pop_size (length fmat) fmat is).
Proof.
  intros H1 H2 H3 H4 H5 Ho Hl.
  assert (Hot : one_objective (take pop_size fmat)) by (by apply Forall_take). split.
  - destruct (C41_elitism t sort psort H1 H2 full pop_size n fmat Hl) as (best & Hb & Hk & _); [by apply descending1_swo|]. exists best. split; [done|]. by apply (k_best_greater t).
  - destruct (C41_keep_best t sort psort H1 H2 full pop_size fmat) as (is & Hb & Hk); [lia|by apply descending1_swo|]. exists is. split; [done|]. by apply (k_best_greater t).
Qed.
Print Assumptions C41_exact_partial.
Example C41_nonvacuous :
  let fmat := [[fmk 3 0]; [fmk 5 0]; [fmk 5 0]; [fmk 1 0]; [fmk 7 0]; [fmk 2 0]] in
  one_objective fmat /\ length fmat = 2 * 3 /\
  Elitism zero_tolerances isort (fun lt _ l => isort lt l) true 3 1 fmat = Some [1; 3; 4] /\
  KeepBest zero_tolerances isort (fun lt _ l => isort lt l) true 3 fmat = Some [4; 1; 2] /\ KeepChildren 3 = [3; 4; 5].
Proof.
  cbn zeta. split. { unfold one_objective. repeat (apply Forall_cons; split; [eexists; split; [reflexivity|vm_compute; reflexivity]|]). apply Forall_nil. done. }
  split; [done|]. split; [vm_compute; reflexivity|]. split; vm_compute; reflexivity.
Qed.
(** With the default tolerances the comparison is not a strict weak ordering, even of one
    objective: the precondition of std::sort does not hold. *)
Theorem C41_tolerant_order_refuted :
  exists a b c : b64, one_objective [[a]; [b]; [c]] /\ ~ swo_on (descending default_tolerances) [[a]; [b]; [c]].
Proof.
  exists (fmk 1 0), (fmk (2 ^ 40 + 1) (-40)), (fmk (2 ^ 40 + 2) (-40)). split.
  { unfold one_objective. repeat (apply Forall_cons; split; [eexists; split; [reflexivity|vm_compute; reflexivity]|]). apply Forall_nil. done. }
  intros [_ _ H].
  assert (E1 : descending default_tolerances [fmk (2 ^ 40 + 2) (-40)] [fmk (2 ^ 40 + 1) (-40)] = false) by (vm_compute; reflexivity).
  assert (E2 : descending default_tolerances [fmk (2 ^ 40 + 1) (-40)] [fmk 1 0] = false) by (vm_compute; reflexivity).
  assert (E3 : descending default_tolerances [fmk (2 ^ 40 + 2) (-40)] [fmk 1 0] = true) by (vm_compute; reflexivity).
  rewrite (H _ _ _ ltac:(by right; right; left) ltac:(by right; left) ltac:(by left) E1 E2) in E3. done.
Qed.
Print Assumptions C41_tolerant_order_refuted.

(** ** C42, one generation: for every parent some member of the next population is not worse. *)
Definition keeps_best {A} (better : A -> A -> Prop) (n : nat) (rows : list A) (is : list nat) : Prop :=
  forall j y, j < n -> rows !! j = Some y -> exists i x, i ∈ is /\ rows !! i = Some x /\ ~ better y x.
Lemma k_best_keeps {A} (better : A -> A -> Prop) m n (rows : list A) is :
  (forall x, ~ better x x) -> 0 < m -> n <= length rows -> k_best better m n rows is -> keeps_best better n rows is.
Proof.
  intros Hi Hm Hn [(L & N & F) H] j y Hj Hy. destruct (decide (j ∈ is)) as [Hin|Hin]; [by exists j, y|].
  destruct is as [|i is]; [cbn in L; lia|]. apply Forall_cons in F as [Fi _]. destruct (lookup_lt_is_Some_2 rows i) as [x Hx]; [lia|].
  exists i, x. split; [left|]. split; [done|]. eapply H; [left|exact Hj|done..].
Qed.
Theorem C42_one_generation (t : tolerances) sort psort (full : bool) (pop_size n : nat) (fmat : list (list b64)) :
  sort_contract sort -> partial_sort_contract psort -> tol_ok t -> B2R (absolute_tolerance t) = 0%R -> B2R (relative_tolerance t) = 0%R ->
  one_objective fmat -> length fmat = 2 * pop_size -> 0 < pop_size -> 0 < n ->
  (exists is, Elitism t sort psort full pop_size n fmat = Some is /\ keeps_best greater1 pop_size fmat is) /\
  (exists is, KeepBest t sort psort full pop_size fmat = Some is /\ keeps_best greater1 (2 * pop_size) fmat is).
Proof.
  intros H1 H2 H3 H4 H5 Ho Hl Hp Hn. destruct (C41_exact_partial t sort psort full pop_size n fmat H1 H2 H3 H4 H5 Ho Hl) as [(best & Hb & Hk) (is & Hb2 & Hk2)].
  assert (Hi : forall x, ~ greater1 x x). { intros x (a & b & E1 & E2 & Hlt). rewrite E1 in E2. injection E2 as ->. lra. }
  split.
  - eexists. split; [exact Hb|]. apply k_best_keeps in Hk; [|done|lia|lia]. intros j y Hj Hy. destruct (Hk j y Hj Hy) as (i & x & Hin & Hx & Hnb). exists i, x. split; [|done]. apply elem_of_app. by left.
  - eexists. split; [exact Hb2|]. rewrite <- Hl. eapply k_best_keeps; [done|exact Hp|lia|done].
Qed.
Print Assumptions C42_one_generation.
