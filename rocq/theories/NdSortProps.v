(** Properties of non-dominated sorting (C22, C23, C24, C25). *)
From Coq Require Import Reals ZArith Lia Lra.
From Flocq Require Import BinarySingleNaN Core.
From stdpp Require Import list list_numbers sets relations.
From Verif Require Import StdSort AlgorithmModel AlgorithmSpec AlgorithmProofs FloatBase FloatModel FloatSpec FloatProofs FloatProps.
From Verif Require Import ParetoModel ParetoProofs FrontModel FrontSpec FrontProofs FrontProps.
From Verif Require Import NdSortModel NdFloatModel NdSortSpec NdSortProofs NdFastProofs NdDegreeProofs NdViewProofs.
Local Open Scope nat_scope.

Definition isorts : forall A, (A -> A -> bool) -> list A -> list A := @isort.
Lemma isorts_contract A : sort_contract (isorts A).
Proof. apply isort_contract. Qed.

(** C22 *)
Theorem C22_nondominated_sort_ranks (t : tolerances) sort (d : nat) (m : list (list b64)) :
  exact t -> (forall A, sort_contract (sort A)) -> matrix d m -> m <> [] ->
  exists L, nonDominatedSort t m sort = Some L /\ nd_ranking (length m) (row_dominated m) L.
Proof.
  intros Hex Hs Hm Hne. unfold nonDominatedSort. rewrite decide_False by done. apply (ensF_exact t d m sort); done.
Qed.
Print Assumptions C22_nondominated_sort_ranks.

Definition m_ex : list (list b64) := [[fz 1; fz 1]; [fz 0; fz 2]; [fz 1; fz 1]; [fz 0; fz 0]; [fz 2; fz 2]; [fz 1; fz 3]].
Example C22_nonvacuous :
  exact zero_tolerances /\ matrix 2 m_ex /\
  nonDominatedSort zero_tolerances m_ex isorts = Some [(5, 0); (4, 0); (1, 1); (2, 1); (0, 1); (3, 2)].
Proof. split; [apply zero_exact|]. split; [repeat constructor|]. vm_compute. done. Qed.

(** C23.  Every execution of the per-objective tasks of DDS ends ([Acc]), and does not
    stop before all of them are done; whatever the schedule, the three sorts return the
    same ranks. *)
Theorem C23_sorts_agree (t : tolerances) sort (d : nat) (m : list (list b64)) (fuel : nat) :
  exact t -> (forall A, sort_contract (sort A)) -> matrix d m -> length m < fuel ->
  exists E F, ensF t m sort = Some E /\ fndsF t m fuel = Some F /\ same_ranks E F /\ nd_ranking (length m) (row_dominated m) E /\
    (forall res, ddsF t m sort d fuel res -> exists D, res = Some D /\ same_ranks E D /\ nd_ranking (length m) (row_dominated m) D).
Proof.
  intros Hex Hs Hm Hf. destruct (ensF_exact t d m sort Hm Hs Hex) as (E&H1&H2).
  destruct (fndsF_exact t d m Hm Hex fuel Hf) as (F&H3&H4).
  exists E, F. split; [done|]. split; [done|]. split; [eapply ranking_unique; done|]. split; [done|].
  intros res Hres. destruct (ddsF_exact t d m sort Hm Hs Hex fuel res Hf Hres) as (D&->&HD).
  exists D. split; [done|]. split; [eapply ranking_unique; done|done].
Qed.
Print Assumptions C23_sorts_agree.

Theorem C23_tasks_terminate (visits : list (list (nat * nat))) :
  Acc (flip dstep) (dinit visits) /\
  forall s, rtc dstep (dinit visits) s -> dfinished s \/ exists s', dstep s s'.
Proof.
  split.
  - generalize (dinit visits). intros s. remember (sum_list (task_left <$> dtasks s)) as k eqn:E. revert s E.
    induction (lt_wf k) as [k _ IH]. intros s ->. constructor. intros s' Hs'. eapply IH; [|done]. apply dstep_measure. done.
  - intros s _. destruct (decide (Forall (fun tk => todo tk = []) (dtasks s))) as [H|H]; [left; done|right]. apply dstep_progress. done.
Qed.
Print Assumptions C23_tasks_terminate.

(** Run the tasks one after the other. *)
Fixpoint run_task (vs : list (nat * nat)) (st : list (nat * nat)) : list (nat * nat) :=
  match vs with [] => st | p :: vs => run_task vs (p :: st) end.
Lemma run_task_steps a c vs : forall st, rtc dstep (DState (a ++ DTask vs None :: c) st) (DState (a ++ DTask [] None :: c) (run_task vs st)).
Proof.
  induction vs as [|p vs IH]; intros st; [apply rtc_refl|]. eapply rtc_l; [|eapply rtc_l; [|apply IH]].
  - apply dstep_load with (i := length a) (v := false); [apply list_lookup_middle; done|auto].
  - rewrite list_insert_middle by done.
    pose proof (dstep_store (a ++ DTask (p :: vs) (Some false) :: c) st (length a) p vs false) as H.
    rewrite list_insert_middle in H by done. apply H. apply list_lookup_middle. done.
Qed.
Lemma run_all_steps visits : forall a st, exists st', rtc dstep (DState (a ++ ((fun l => DTask l None) <$> visits)) st)
  (DState (a ++ ((fun _ => DTask [] None) <$> visits)) st').
Proof.
  induction visits as [|vs visits IH]; intros a st; cbn [fmap list_fmap].
  - exists st. apply rtc_refl.
  - destruct (IH (a ++ [DTask [] None]) (run_task vs st)) as (st'&H). exists st'.
    etransitivity; [apply run_task_steps|]. rewrite <- !app_assoc in H. done.
Qed.
Lemma dds_has_result n fuel visits : exists res, dominanceDegreeSort n fuel visits res.
Proof.
  destruct (run_all_steps visits [] []) as (st&H). eexists. econstructor; [exact H|].
  unfold dfinished. cbn. apply Forall_forall. intros tk Htk. apply elem_of_list_fmap in Htk as (x&->&_). done.
Qed.

Example C23_nonvacuous :
  exact zero_tolerances /\ matrix 2 m_ex /\
  fndsF zero_tolerances m_ex 7 = Some [(4, 0); (5, 0); (0, 1); (1, 1); (2, 1); (3, 2)] /\
  (exists res, ddsF zero_tolerances m_ex isorts 2 7 res).
Proof.
  split; [apply zero_exact|]. split; [repeat constructor|]. split; [vm_compute; done|]. apply dds_has_result.
Qed.

(** C24 for the routine used by default: it terminates whatever the tolerances and the
    outcomes of the comparisons, and returns every index once, by rank. *)
Theorem C24_ens_terminates_partial (t : tolerances) sort (d : nat) (m : list (list b64)) :
  (forall A, sort_contract (sort A)) -> matrix d m ->
  exists L, ensF t m sort = Some L /\ L.*1 ≡ₚ seq 0 (length m) /\
    forall p q e f, p <= q -> L !! p = Some e -> L !! q = Some f -> e.2 <= f.2.
Proof. intros Hs Hm. apply (ensF_safe t d m sort); done. Qed.
Print Assumptions C24_ens_terminates_partial.

(** Three points that dominate each other in a circle under the default tolerances. *)
Definition tiny (z : Z) : b64 := fmk z (-41).
Definition m_cycle : list (list b64) := [[tiny 0; tiny 4; tiny 2]; [tiny 4; tiny 2; tiny 0]; [tiny 2; tiny 0; tiny 4]].

Lemma dds_loop_stuck n fuel : forall rank d cols, n <> 0 -> (forall c s, (c, s) ∈ cols -> s <> 0) -> dds_loop n fuel rank d cols [] = None.
Proof.
  induction fuel as [|fuel IH]; intros rank d cols Hn Hc; [done|]. cbn [dds_loop].
  rewrite decide_False by (cbn; lia).
  assert (E1 : filter (fun c : nat * nat => c.2 = 0) cols = []).
  { destruct (filter _ cols) as [|[c s] l] eqn:E; [done|]. exfalso.
    assert (Hin : (c, s) ∈ filter (fun c : nat * nat => c.2 = 0) cols) by (rewrite E; ins).
    apply elem_of_list_filter in Hin as [H1 H2]. apply (Hc c s); done. }
  rewrite E1. cbn [fmap list_fmap dd_remove_rows mbind option_bind app]. apply IH; [done|].
  intros c s H. apply elem_of_list_filter in H as [_ H]. apply (Hc c s). done.
Qed.

(** C24 (refuted): on this matrix FNDS never returns (it reads the element behind the
    end of its result), and DDS never returns on any schedule of its tasks. *)
Theorem C24_fnds_dds_refuted :
  matrix 3 m_cycle /\ tol_ok default_tolerances /\
  (forall fuel, fndsF default_tolerances m_cycle fuel = None) /\
  (forall fuel res, ddsF default_tolerances m_cycle isorts 3 fuel res -> res = None) /\
  (forall fuel, exists res, ddsF default_tolerances m_cycle isorts 3 fuel res).
Proof.
  split; [repeat constructor|]. split; [apply default_tolerances_ok|]. split; [|split].
  - intros fuel. unfold fndsF, fastNonDominatedSort.
    assert (E : constructDominanceLists (length m_cycle) (row_cmp default_tolerances m_cycle) = [DL [2] 1; DL [0] 1; DL [1] 1])
      by (vm_compute; done).
    rewrite E. destruct fuel; [done|]. reflexivity.
  - intros fuel res [s Hr Hfin]. pose proof (dtasks_result _ _ Hr Hfin) as Hm. unfold dds_finish. apply dds_loop_stuck; [done|].
    assert (E : task_visits default_tolerances m_cycle isorts <$> seq 0 3 = [[(0, 1)]; [(2, 0)]; [(1, 2)]]) by (vm_compute; done).
    assert (Hv : forall r c, visited [[(0, 1)]; [(2, 0)]; [(1, 2)]] (r, c) <-> (r, c) = (0, 1) \/ (r, c) = (2, 0) \/ (r, c) = (1, 2)).
    { intros r c. unfold visited. split.
      - intros (vs&Hvs&Hp). rewrite !elem_of_cons, elem_of_nil in Hvs. destruct Hvs as [->|[->|[->|[]]]]; apply elem_of_list_singleton in Hp; auto.
      - intros H. destruct H as [->|[->| ->]]; [exists [(0, 1)]|exists [(2, 0)]|exists [(1, 2)]]; (split; [rewrite !elem_of_cons; auto|apply elem_of_list_singleton; done]). }
    rewrite E in Hm. setoid_rewrite Hv in Hm. clear Hv E Hr Hfin.
    assert (Hd : forall r c, r < 3 -> c < 3 -> ((r, c) = (0, 1) \/ (r, c) = (2, 0) \/ (r, c) = (1, 2)) -> dd_symmetrise 3 (dmat_of s) c r = false).
    { intros r c Hr Hc H. apply (symmetrise_false 3 (fun _ _ => true)); [done..|]. rewrite <- not_true_iff_false, !Hm.
      split; [|split; [|done]]; destruct H as [[= -> ->]|[[= -> ->]|[= -> ->]]]; try lia; intros [[=]|[[=]|[=]]]. }
    change (length m_cycle) with 3. set (d := dd_symmetrise 3 (dmat_of s)) in *. intros c sm Hin. unfold colwiseSums in Hin.
    apply elem_of_list_fmap in Hin as (x&[= -> ->]&Hx).
    apply elem_of_seq in Hx. intros Hz.
    assert (exists r, r < 3 /\ d r x = false) as (r&Hr3&Hrx).
    { assert (x = 0 \/ x = 1 \/ x = 2) as [->|[->| ->]] by lia; [exists 1|exists 2|exists 0]; (split; [lia|]); apply Hd; (lia || auto). }
    revert Hz. apply Nat.sub_gt. apply (filter_length_lt _ (seq 0 3) r); [apply elem_of_seq; lia|congruence].
  - intros fuel. apply dds_has_result.
Qed.
Print Assumptions C24_fnds_dds_refuted.

Example C24_nonvacuous :
  paretoCompareLess default_tolerances (row m_cycle 0) (row m_cycle 1) = true /\
  paretoCompareLess default_tolerances (row m_cycle 1) (row m_cycle 2) = true /\
  paretoCompareLess default_tolerances (row m_cycle 2) (row m_cycle 0) = true /\
  ensF default_tolerances m_cycle isorts = Some [(2, 0); (1, 0); (0, 1)].
Proof. vm_compute. done. Qed.

(** C25 *)
Definition sorted_ranks (L : list (nat * nat)) : Prop :=
  forall p q e f, p <= q -> L !! p = Some e -> L !! q = Some f -> e.2 <= f.2.

Theorem C25_ranks (L : list (nat * nat)) : L.*1 ≡ₚ seq 0 (length L) ->
  exists rs, pf_ranks L = Some rs /\ length rs = length L /\ forall i r, (i, r) ∈ L <-> rs !! i = Some r.
Proof.
  intros Hp. unfold pf_ranks.
  assert (Hb : forall i, i < length L <-> exists r, (i, r) ∈ L) by (intros i; rewrite <- fst_in, Hp, elem_of_seq; lia).
  destruct (ranks_loop_ok L (replicate (length L) 0)) as (rs&H1&H2&H3&H4).
  - intros i r Hi. rewrite replicate_length. apply Hb. eauto.
  - rewrite Hp. apply NoDup_seq.
  - rewrite replicate_length in H2. exists rs. split; [done|]. split; [done|]. intros i r. split; [apply H3|].
    intros Hi. pose proof (lookup_lt_Some _ _ _ Hi) as Hl. rewrite H2 in Hl. apply Hb in Hl as [r' Hr'].
    rewrite (H3 i r' Hr') in Hi. injection Hi as ->. done.
Qed.
Print Assumptions C25_ranks.

Theorem C25_fronts (L : list (nat * nat)) : L <> [] -> exists fs, pf_fronts L = Some fs /\ runs L 0 fs.
Proof.
  intros Hne. unfold pf_fronts. rewrite decide_False by done.
  assert (Hl : 0 < length L) by (destruct L; [done|cbn; lia]).
  destruct (lookup_lt_is_Some_2 L 0 Hl) as [[i r] H0].
  destruct (fronts_loop_ok L L 0 0 []) as (fs&H1&H2); try done.
  - exists r. split; [intros; lia|]. intros _ i' r' Hi'. congruence.
  - exists fs. done.
Qed.
Print Assumptions C25_fronts.

Theorem C25_partial_front (L : list (nat * nat)) (size : nat) : sorted_ranks L -> 0 < size <= length L ->
  exists res, pf_partialFront L size = Some res /\
    ((size = length L \/ exists e f, L !! (size - 1) = Some e /\ L !! size = Some f /\ e.2 <> f.2) ->
       res = None \/ exists a, res = Some (a, a)) /\
    (forall e f, L !! (size - 1) = Some e -> L !! size = Some f -> e.2 = f.2 ->
       exists a b, res = Some (a, b) /\ a < size < b /\ b <= length L /\
         forall p i r, L !! p = Some (i, r) -> (a <= p < b <-> r = f.2)).
Proof.
  intros Hs Hsz. unfold pf_partialFront. rewrite decide_True by done. destruct (decide (size = length L)) as [->|Hne].
  { exists None. split; [done|]. split; [auto|]. intros e f _ Hf. rewrite lookup_ge_None_2 in Hf by lia. done. }
  destruct (lookup_lt_is_Some_2 L size) as [[ir rr] Hr]; [lia|]. destruct (lookup_lt_is_Some_2 L (size - 1)) as [[il rl] Hl]; [lia|].
  rewrite Hr, Hl. cbn [mbind option_bind snd].
  set (pr := fun e : nat * nat => Nat.eqb e.2 rr). set (pl := fun e : nat * nat => negb (Nat.eqb e.2 rl)).
  destruct (find_pos_ok pr (take size L)) as (F1&F2&F3). destruct (find_pos_ok pl (drop (size - 1) L)) as (G1&G2&G3).
  rewrite take_length, Nat.min_l in F1 by lia. rewrite drop_length in G1.
  eexists. split; [done|]. split.
  - intros [?|(e&f&He&Hf&Hd)]; [done|]. assert (rl <> rr) by (injection He as <-; injection Hf as <-; done).
    right. exists size. f_equal. f_equal.
    + destruct (decide (find_pos pr (take size L) = size)) as [|Hn]; [done|]. exfalso.
      assert (Hlt : find_pos pr (take size L) < size) by lia. remember (find_pos pr (take size L)) as a eqn:Ea. clear Ea.
      destruct (lookup_lt_is_Some_2 L a) as [[i r] Ha]; [lia|].
      assert (Hat : take size L !! a = Some (i, r)) by (rewrite lookup_take by lia; done).
      specialize (F2 _ Hat). unfold pr in F2. cbn in F2. apply Nat.eqb_eq in F2. subst r.
      pose proof (Hs a (size - 1) _ _ ltac:(lia) Ha Hl). pose proof (Hs (size - 1) size _ _ ltac:(lia) Hl Hr). cbn in *. lia.
    + enough (find_pos pl (drop (size - 1) L) = 1) by lia. remember (find_pos pl (drop (size - 1) L)) as b eqn:Eb. clear Eb.
      assert (b <> 0).
      { intros ->. assert (Hat : drop (size - 1) L !! 0 = Some (il, rl)) by (rewrite lookup_drop, Nat.add_0_r; done).
        specialize (G2 _ Hat). unfold pl in G2. cbn in G2. rewrite Nat.eqb_refl in G2. done. }
      destruct (decide (b = 1)) as [|]; [done|]. exfalso.
      assert (Hat : drop (size - 1) L !! 1 = Some (ir, rr)) by (rewrite lookup_drop; replace (size - 1 + 1) with size by lia; done).
      assert (Hpl : pl (ir, rr) = false) by (apply (G3 1); [lia|done]). unfold pl in Hpl. cbn in Hpl.
      apply negb_false_iff, Nat.eqb_eq in Hpl. congruence.
  - intros e f He Hf Heq. assert (e = (il, rl) /\ f = (ir, rr)) as [-> ->] by (split; congruence). cbn in Heq. subst rl. cbn [snd].
    remember (find_pos pr (take size L)) as a eqn:Ea. remember (find_pos pl (drop (size - 1) L)) as b eqn:Eb. clear Ea Eb.
    exists a, (size - 1 + b). split; [done|].
    assert (Ha : a < size).
    { destruct (decide (a < size)) as [|Hn]; [done|]. exfalso.
      assert (Hat : take size L !! (size - 1) = Some (il, rr)) by (rewrite lookup_take by lia; done).
      assert (Hpr : pr (il, rr) = false) by (apply (F3 (size - 1)); [lia|done]). unfold pr in Hpr. cbn in Hpr. rewrite Nat.eqb_refl in Hpr. done. }
    assert (Hb0 : forall k, k < 2 -> b <> k).
    { intros k Hk ->. assert (exists i, drop (size - 1) L !! k = Some (i, rr)) as [i Hat].
      { rewrite lookup_drop. destruct k as [|[|k]]; [exists il; rewrite Nat.add_0_r; done|exists ir; replace (size - 1 + 1) with size by lia; done|lia]. }
      specialize (G2 _ Hat). unfold pl in G2. cbn in G2. rewrite Nat.eqb_refl in G2. done. }
    pose proof (Hb0 0). pose proof (Hb0 1). split; [lia|]. split; [lia|]. intros p i r Hp. split.
    + intros Hpab. destruct (decide (p < size)) as [Hps|Hps].
      * destruct (lookup_lt_is_Some_2 L a) as [[ia ra] Hla]; [lia|].
        assert (Hat : take size L !! a = Some (ia, ra)) by (rewrite lookup_take by lia; done).
        specialize (F2 _ Hat). unfold pr in F2. cbn in F2. apply Nat.eqb_eq in F2. subst ra.
        pose proof (Hs a p _ _ ltac:(lia) Hla Hp). pose proof (Hs p size _ _ ltac:(lia) Hp Hr). cbn in *. lia.
      * assert (Hat : drop (size - 1) L !! (p - (size - 1)) = Some (i, r)) by (rewrite lookup_drop; replace (size - 1 + (p - (size - 1))) with p by lia; done).
        assert (Hpl : pl (i, r) = false) by (apply (G3 (p - (size - 1))); [lia|done]). unfold pl in Hpl. cbn in Hpl.
        apply negb_false_iff, Nat.eqb_eq in Hpl. done.
    + intros ->. split.
      * destruct (decide (a <= p)) as [|Hn]; [done|]. exfalso.
        assert (Hat : take size L !! p = Some (i, rr)) by (rewrite lookup_take by lia; done).
        assert (Hpr : pr (i, rr) = false) by (apply (F3 p); [lia|done]). unfold pr in Hpr. cbn in Hpr. rewrite Nat.eqb_refl in Hpr. done.
      * destruct (decide (p < size - 1 + b)) as [|Hn]; [done|]. exfalso.
        pose proof (lookup_lt_Some _ _ _ Hp). destruct (lookup_lt_is_Some_2 L (size - 1 + b)) as [[ib rb] Hlb]; [lia|].
        assert (Hat : drop (size - 1) L !! b = Some (ib, rb)) by (rewrite lookup_drop; done).
        specialize (G2 _ Hat). unfold pl in G2. cbn in G2. apply negb_true_iff, Nat.eqb_neq in G2.
        pose proof (Hs size (size - 1 + b) _ _ ltac:(lia) Hr Hlb). pose proof (Hs (size - 1 + b) p _ _ ltac:(lia) Hlb Hp). cbn in *. lia.
Qed.
Print Assumptions C25_partial_front.

Theorem C25_resize (L : list (nat * nat)) (k : nat) : k <= length L ->
  exists L', pf_resize L k = Some L' /\ length L' = k /\ forall p, p < k -> L' !! p = L !! p.
Proof.
  intros Hk. unfold pf_resize. rewrite decide_True by done. exists (take k L). split; [done|]. split; [rewrite take_length; lia|].
  intros p Hp. apply lookup_take. done.
Qed.
Print Assumptions C25_resize.

Example C25_nonvacuous :
  let L := [(5, 0); (4, 0); (1, 1); (2, 1); (0, 1); (3, 2)] in
  L.*1 ≡ₚ seq 0 (length L) /\
  pf_ranks L = Some [1; 1; 1; 2; 0; 0] /\ pf_fronts L = Some [(0, 2); (2, 5); (5, 6)] /\
  pf_partialFront L 3 = Some (Some (2, 5)) /\ pf_partialFront L 2 = Some (Some (2, 2)) /\ pf_partialFront L 6 = Some None.
Proof. cbv zeta. split; [cbn; solve_Permutation|]. vm_compute. done. Qed.
