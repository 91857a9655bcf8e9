(** Properties of NSGA-II (C45, C46). *)
From Coq Require Import Reals ZArith Lra Lia.
From stdpp Require Import list list_numbers sets.
From Flocq Require Import Core BinarySingleNaN.
From Verif Require Import StdSort FloatBase FloatModel FloatSpec FloatProofs FloatProps FrontSpec FrontProps NdSortSpec NdSortModel NdFloatModel NdSortProps.
From Verif Require Import RealProofs RandModel RandProofs Nsga2Model Nsga2Spec Nsga2Proofs.
Local Open Scope nat_scope.

(** What a population of [popsize] members chosen by rank and crowding distance is. *)
Record crowded_choice (ncols : nat) (value : nat -> nat -> b64) (n popsize : nat) (L : list (nat * nat)) (chosen : list nat) : Prop := {
  cc_size : length chosen = popsize;
  cc_distinct : NoDup chosen;
  cc_members : forall i, i ∈ chosen -> i < n;
  cc_rank : forall i j r s, i ∈ chosen -> j ∉ chosen -> (i, r) ∈ L -> (j, s) ∈ L -> r <= s;
  cc_whole : forall i r, (i, r) ∈ L -> length (filter (fun e => e.2 <= r) L) <= popsize -> i ∈ chosen;
  cc_cut : forall r, (exists i j, (i, r) ∈ L /\ (j, r) ∈ L /\ i ∈ chosen /\ j ∉ chosen) ->
    exists front orders, front_of L r front /\ ascending_all ncols value front orders /\
      forall i j, i ∈ front -> j ∈ front -> i ∈ chosen -> j ∉ chosen ->
        flt (crowding f1em8 value 0 orders i fzero) (crowding f1em8 value 0 orders j fzero) = false;
}.

Lemma filter_all {A} (P : A -> Prop) `{!forall x, Decision (P x)} (l : list A) : Forall P l -> filter P l = l.
Proof. induction 1 as [|x l Hx _ IH]; [done|]. rewrite filter_cons_True by done. by f_equal. Qed.

(** Any tolerances: [L] is the list of ranks the sort returns. *)
Lemma next_choice (t : tolerances) sort (d : nat) (m : list (list b64)) (popsize : nat) (ranks : list nat) L :
  (forall A, sort_contract (sort A)) -> matrix d m -> moderate m -> m <> [] -> 0 < popsize <= length m -> popsize <= length ranks ->
  nonDominatedSort t m sort = Some L -> ranked m L ->
  exists chosen ranks' dists', nsga2_next t sort m d popsize ranks = Some (chosen, (ranks', dists')) /\
    crowded_choice d (obj_value m) (length m) popsize L chosen /\
    length ranks' = length ranks /\ forall k i, chosen !! k = Some i -> exists r, ranks' !! k = Some r /\ (i, r) ∈ L.
Proof.
  intros Hs Hm Hmod Hne Hsz Hr E HL.
  destruct (next_ok t sort m d Hs Hm Hmod Hne L popsize ranks E HL Hsz Hr) as (L2 & L3 & dists & E2 & P2 & K2 & P3 & K3 & HC).
  destruct (ranked_facts m L HL) as (Hn & Hb & Hlen). destruct HL as [HL HsL].
  assert (Hl2 : length L2 = length L) by (by rewrite P2).
  assert (Hl3 : length L3 = popsize) by (rewrite P3, take_length; lia).
  assert (Hn2 : NoDup L2.*1) by (by rewrite P2).
  assert (Hn3 : NoDup L3.*1).
  { rewrite P3, fmap_take. rewrite <- (take_drop popsize L2.*1) in Hn2. by apply NoDup_app in Hn2 as (? & _). }
  assert (Hs2 : sorted_ranks L2) by (eapply sorted_ranks_eq; done).
  assert (Hin : forall p i r, L2 !! p = Some (i, r) -> i ∈ L3.*1 <-> p < popsize).
  { intros p i r Hp. rewrite P3. split.
    - intros Hi. apply elem_of_list_fmap in Hi as (e & -> & He). apply elem_of_list_lookup in He as [q He].
      pose proof (lookup_lt_Some _ _ _ He) as Hq. rewrite take_length in Hq. rewrite lookup_take in He by lia.
      rewrite (fst_unique L2 p q (e.1, r) e Hn2 Hp He eq_refl). lia.
    - intros Hlt. apply elem_of_list_fmap. exists (i, r). split; [done|]. apply elem_of_list_lookup. exists p. by rewrite lookup_take. }
  assert (Hpos : forall i r, (i, r) ∈ L -> exists p, L2 !! p = Some (i, r)).
  { intros i r Hi. rewrite <- P2 in Hi. by apply elem_of_list_lookup in Hi. }
  exists L3.*1, (L3.*2 ++ drop popsize ranks), (take popsize dists). split; [done|]. split; [|split].
  - split.
    + by rewrite fmap_length.
    + done.
    + intros i Hi. apply elem_of_list_fmap in Hi as (e & -> & He). apply Hb. rewrite <- P2. rewrite P3 in He.
      rewrite <- (take_drop popsize L2). apply elem_of_app. by left.
    + intros i j r s Hi Hj Hir Hjs. destruct (Hpos _ _ Hir) as [p Hp]. destruct (Hpos _ _ Hjs) as [q Hq].
      rewrite (Hin _ _ _ Hp) in Hi. rewrite (Hin _ _ _ Hq) in Hj. exact (Hs2 p q _ _ ltac:(lia) Hp Hq).
    + intros i r Hi Hc. destruct (Hpos _ _ Hi) as [p Hp]. apply (Hin _ _ _ Hp). apply lookup_lt_Some in Hp as Hpl.
      assert (Hc2 : length (filter (fun e : nat * nat => e.2 <= r) L2) <= popsize) by (by rewrite P2).
      rewrite <- (take_drop (S p) L2), filter_app, app_length in Hc2. rewrite filter_all in Hc2.
      * rewrite take_length in Hc2. lia.
      * apply Forall_lookup. intros q e He. pose proof (lookup_lt_Some _ _ _ He) as Hq. rewrite take_length in Hq. rewrite lookup_take in He by lia.
        exact (Hs2 q p _ _ ltac:(lia) He Hp).
    + intros r (i & j & Hi & Hj & Hci & Hcj). destruct (Hpos _ _ Hi) as [p Hp]. destruct (Hpos _ _ Hj) as [q Hq].
      rewrite (Hin _ _ _ Hp) in Hci. rewrite (Hin _ _ _ Hq) in Hcj.
      destruct (HC r) as (front & orders & Hf & Ha & Hcut); [exists p, q, i, j; split; [lia|done]|].
      exists front, orders. split; [done|]. split; [done|]. clear i j Hi Hj p q Hp Hq Hci Hcj. intros i j Hi Hj Hci Hcj.
      apply Hf in Hi, Hj. destruct (Hpos _ _ Hi) as [p Hp]. destruct (Hpos _ _ Hj) as [q Hq].
      rewrite (Hin _ _ _ Hp) in Hci. rewrite (Hin _ _ _ Hq) in Hcj. apply (Hcut p q); [lia|done|done].
  - rewrite app_length, fmap_length, drop_length. lia.
  - intros k i Hk. rewrite list_lookup_fmap in Hk. destruct (L3 !! k) as [e|] eqn:Ek; [|done]. injection Hk as <-. exists e.2. split.
    + rewrite lookup_app_l by (rewrite fmap_length; by eapply lookup_lt_Some). by rewrite list_lookup_fmap, Ek.
    + apply elem_of_list_lookup_2 in Ek. rewrite P3 in Ek. rewrite <- P2, <- (take_drop popsize L2). apply elem_of_app. left. by destruct e.
Qed.

(** C45, for any tolerances: everything except non-dominance, relative to the computed ranks. *)
Theorem C45_next_population_ranks_partial (t : tolerances) sort (d : nat) (m : list (list b64)) (popsize : nat) (ranks : list nat) :
  (forall A, sort_contract (sort A)) -> matrix d m -> moderate m -> 0 < popsize <= length m -> popsize <= length ranks ->
  exists L chosen ranks' dists', nonDominatedSort t m sort = Some L /\ nsga2_next t sort m d popsize ranks = Some (chosen, (ranks', dists')) /\
    crowded_choice d (obj_value m) (length m) popsize L chosen.
Proof.
  intros Hs Hm Hmod Hsz Hr. assert (Hne : m <> []) by (intros ->; cbn in Hsz; lia).
  destruct (C24_ens_terminates_partial t sort d m Hs Hm) as (L & E & HL1 & HL2).
  assert (EL : nonDominatedSort t m sort = Some L) by (unfold nonDominatedSort; by rewrite decide_False).
  destruct (next_choice t sort d m popsize ranks L Hs Hm Hmod Hne Hsz Hr EL) as (c & r' & d' & H1 & H2 & _); [split; done|].
  by exists L, c, r', d'.
Qed.
Print Assumptions C45_next_population_ranks_partial.

(** C45, exact comparison. *)
Theorem C45_next_population_partial (t : tolerances) sort (d : nat) (m : list (list b64)) (popsize : nat) (ranks : list nat) :
  exact t -> (forall A, sort_contract (sort A)) -> matrix d m -> moderate m -> 0 < popsize <= length m -> popsize <= length ranks ->
  exists L chosen ranks' dists', nd_ranking (length m) (row_dominated m) L /\ nsga2_next t sort m d popsize ranks = Some (chosen, (ranks', dists')) /\
    crowded_choice d (obj_value m) (length m) popsize L chosen /\
    (forall i j, i ∈ chosen -> j < length m -> j ∉ chosen -> ~ row_dominated m i j).
Proof.
  intros Hex Hs Hm Hmod Hsz Hr. assert (Hne : m <> []) by (intros ->; cbn in Hsz; lia).
  destruct (C22_nondominated_sort_ranks t sort d m Hex Hs Hm Hne) as (L & E & HL).
  destruct (next_choice t sort d m popsize ranks L Hs Hm Hmod Hne Hsz Hr E) as (c & r' & d' & H1 & H2 & _).
  { split; [apply HL|]. exact (nr_sorted _ _ _ HL). }
  exists L, c, r', d'. split; [done|]. split; [done|]. split; [done|]. intros i j Hi Hj Hnj Hdom.
  assert (Hex' : forall i, i < length m -> exists r, (i, r) ∈ L).
  { intros k Hk. assert (G : k ∈ L.*1) by (rewrite (nr_once _ _ _ HL); apply elem_of_seq; lia). apply elem_of_list_fmap in G as ([k' r] & -> & G). by exists r. }
  destruct (Hex' i) as [r Hir]; [by eapply cc_members|]. destruct (Hex' j Hj) as [s Hjs].
  pose proof (cc_rank _ _ _ _ _ _ H2 i j r s Hi Hnj Hir Hjs) as Hrs. destruct r as [|r].
  - apply (nr_zero _ _ _ HL) in Hir as [_ G]. by apply (G j).
  - apply (nr_succ _ _ _ HL) in Hir as (_ & _ & G). specialize (G j s Hjs Hdom). lia.
Qed.
Print Assumptions C45_next_population_partial.

Definition fz' (z : Z) : b64 := fmk z 0.
Definition m_cut : list (list b64) := [[fz' 0; fz' 9]; [fz' 1; fz' 8]; [fz' 1; fz' 1]; [fz' 2; fz' 7]; [fz' 9; fz' 0]; [fz' 5; fz' 5]].
Lemma fz'_moderate z : (Z.abs z <= 2 ^ 53)%Z -> (Rabs (B2R (fz' z)) <= bpow radix2 1022)%R.
Proof.
  intros H. destruct (fmk_val z 0) as (_ & H2 & _); [done|lia|]. unfold fz'. rewrite H2. change (bpow radix2 0) with 1%R. rewrite Rmult_1_r, <- abs_IZR.
  apply Rle_trans with (IZR (2 ^ 53)); [by apply IZR_le|]. change (IZR (2 ^ 53)) with (bpow radix2 53). apply bpow_le. lia.
Qed.
Ltac moderate_tac := unfold moderate; repeat (apply Forall_cons_2 || apply Forall_nil_2 || (apply fz'_moderate; lia)).
(** A front of five of which three are chosen: the ends and the least crowded. *)
Example C45_nonvacuous :
  exact zero_tolerances /\ matrix 2 m_cut /\ moderate m_cut /\ 0 < 3 <= length m_cut /\
  fst <$> nsga2_next zero_tolerances isorts m_cut 2 3 [0; 0; 0] = Some [4; 5; 0].
Proof.
  split; [apply zero_exact|]. split; [repeat constructor|]. split.
  - moderate_tac.
  - split; [cbn; lia|]. vm_compute. reflexivity.
Qed.

(** Fitness values whose differences overflow make the distances NaN, so that std::sort is
    called with an ordering that is no strict weak ordering. *)
Definition m_huge : list (list b64) := [[fneg flarge; flarge]; [fzero; fzero]; [flarge; fneg flarge]].
Theorem C45_overflow_refuted :
  matrix 2 m_huge /\ nonDominatedSort zero_tolerances m_huge isorts = Some [(0, 0); (1, 0); (2, 0)] /\
  (fun r : list (nat * nat) * list b64 => map (fun w : b64 => B2SF w) r.2) <$> crowdingDistances isorts m_huge 2 [(0, 3)] [(0, 0); (1, 0); (2, 0)] =
    Some [SpecFloat.S754_infinity false; SpecFloat.S754_nan; SpecFloat.S754_infinity false] .
Proof. split; [repeat constructor|]. split; vm_compute; reflexivity. Qed.
Print Assumptions C45_overflow_refuted.
(** C46: how a parent is selected from the arrays. *)
Theorem C46_select_compares (n : nat) (ranks : list nat) (dists : list b64) (s : stream) :
  n = length ranks -> n = length dists -> 0 < n ->
  exists w l s', nsga2_select n ranks dists s = Some (w, s') /\ w < n /\ l < n /\
    (exists i1 i2, randomInt 0 (Z.of_nat n - 1) s = Some (Z.of_nat i1, stail s) /\ randomInt 0 (Z.of_nat n - 1) (stail s) = Some (Z.of_nat i2, s') /\
       (w = i1 /\ l = i2 \/ w = i2 /\ l = i1)) /\
    exists rw rl dw dl, ranks !! w = Some rw /\ ranks !! l = Some rl /\ dists !! w = Some dw /\ dists !! l = Some dl /\
      (rw < rl \/ rw = rl /\ (is_nan dw = false -> is_nan dl = false -> flt dw dl = false)).
Proof.
  intros H1 H2 Hp. unfold nsga2_select. rewrite rassert_true.
  2:{ apply andb_true_intro. split; [apply negb_true_iff, Nat.eqb_neq; lia|by apply Nat.eqb_eq]. }
  destruct (randomInt_ok 0 (Z.of_nat n - 1) s) as (a & Ea & Ba); [lia|]. destruct (randomInt_ok 0 (Z.of_nat n - 1) (stail s)) as (b & Eb & Bb); [lia|].
  rewrite (rbind_eq _ _ _ _ _ Ea). cbv beta. rewrite (rbind_eq _ _ _ _ _ Eb). cbv beta.
  remember (Z.to_nat a) as i1 eqn:E1. remember (Z.to_nat b) as i2 eqn:E2. assert (a = Z.of_nat i1) as -> by lia. assert (b = Z.of_nat i2) as -> by lia.
  destruct (lookup_lt_is_Some_2 ranks i1) as [r1 R1]; [lia|]. destruct (lookup_lt_is_Some_2 ranks i2) as [r2 R2]; [lia|].
  destruct (lookup_lt_is_Some_2 dists i1) as [d1 D1]; [lia|]. destruct (lookup_lt_is_Some_2 dists i2) as [d2 D2]; [lia|].
  assert (Hasym : flt d2 d1 = true -> is_nan d1 = false -> is_nan d2 = false -> flt d1 d2 = false).
  { intros G N1 N2. rewrite flt_fval in * by done. revert G. repeat case Rlt_bool_spec; try done; lra. }
  cbv zeta. rewrite R1, R2, D1, D2. cbn [rlift mbind option_bind rbind].
  unfold rbind, rlift. cbn [mbind option_bind].
  destruct (Nat.ltb_spec r1 r2) as [Hlt|Hge].
  { exists i1, i2, (stail (stail s)). split; [done|]. split; [lia|]. split; [lia|]. split; [exists i1, i2; split; [done|]; split; [done|]; by left|].
    exists r1, r2, d1, d2. repeat split; try done. by left. }
  destruct (Nat.ltb_spec r2 r1) as [Hlt|Hge'].
  { exists i2, i1, (stail (stail s)). split; [done|]. split; [lia|]. split; [lia|]. split; [exists i1, i2; split; [done|]; split; [done|]; by right|].
    exists r2, r1, d2, d1. repeat split; try done. by left. }
  destruct (flt d2 d1) eqn:Ed.
  { exists i1, i2, (stail (stail s)). split; [done|]. split; [lia|]. split; [lia|]. split; [exists i1, i2; split; [done|]; split; [done|]; by left|].
    exists r1, r2, d1, d2. repeat split; try done. right. split; [lia|]. auto. }
  { exists i2, i1, (stail (stail s)). split; [done|]. split; [lia|]. split; [lia|]. split; [exists i1, i2; split; [done|]; split; [done|]; by right|].
    exists r2, r1, d2, d1. repeat split; try done. right. split; [lia|]. done. }
Qed.
Print Assumptions C46_select_compares.

(** After initialize the arrays hold every candidate's own rank and crowding distance. *)
Theorem C46_initial_partial (t : tolerances) sort (d : nat) (m : list (list b64)) :
  exact t -> (forall A, sort_contract (sort A)) -> matrix d m -> m <> [] ->
  exists L ranks dists, nd_ranking (length m) (row_dominated m) L /\ nsga2_initialize t sort m d = Some (ranks, dists) /\
    length ranks = length m /\ length dists = length m /\
    (forall i r, (i, r) ∈ L <-> ranks !! i = Some r) /\
    forall r, (exists i, (i, r) ∈ L) -> exists front orders, front_of L r front /\ ascending_all d (obj_value m) front orders /\
      forall i, i ∈ front -> dists !! i = Some (crowding f1em8 (obj_value m) 0 orders i fzero).
Proof.
  intros Hex Hs Hm Hne. destruct (C22_nondominated_sort_ranks t sort d m Hex Hs Hm Hne) as (L & E & HL).
  destruct (initialize_ok t sort m d Hs Hm Hne L E) as (rs & ds & H); [split; [apply HL|exact (nr_sorted _ _ _ HL)]|].
  exists L, rs, ds. split; [done|]. destruct H as (? & ? & ? & ? & ?). done.
Qed.
Print Assumptions C46_initial_partial.

(** After nextPopulation the ranks are those of the chosen candidates. *)
Theorem C46_next_ranks_partial (t : tolerances) sort (d : nat) (m : list (list b64)) (popsize : nat) (ranks : list nat) :
  exact t -> (forall A, sort_contract (sort A)) -> matrix d m -> moderate m -> 0 < popsize <= length m -> popsize <= length ranks ->
  exists L chosen ranks' dists', nd_ranking (length m) (row_dominated m) L /\ nsga2_next t sort m d popsize ranks = Some (chosen, (ranks', dists')) /\
    length ranks' = length ranks /\ forall k i, chosen !! k = Some i -> exists r, ranks' !! k = Some r /\ (i, r) ∈ L.
Proof.
  intros Hex Hs Hm Hmod Hsz Hr. assert (Hne : m <> []) by (intros ->; cbn in Hsz; lia).
  destruct (C22_nondominated_sort_ranks t sort d m Hex Hs Hm Hne) as (L & E & HL).
  destruct (next_choice t sort d m popsize ranks L Hs Hm Hmod Hne Hsz Hr E) as (c & r' & d' & H1 & _ & H2 & H3).
  { split; [apply HL|]. exact (nr_sorted _ _ _ HL). }
  by exists L, c, r', d'.
Qed.
Print Assumptions C46_next_ranks_partial.

(** The distances are not: they stay indexed by the combined population and are cut off.
    Below, the parents 0-2 are dominated by the children 3-5.  The next population is the
    children, but the distances kept are those of the parents.  Candidate 5 is extreme, so
    its distance is infinite whatever way ties are ordered; the array says 0. *)
Definition m_shift : list (list b64) := [[fz' 0; fz' 0]; [fz' 0; fz' 0]; [fz' 0; fz' 0]; [fz' 1; fz' 4]; [fz' 2; fz' 2]; [fz' 4; fz' 1]].
Theorem C46_distances_refuted :
  exact zero_tolerances /\ matrix 2 m_shift /\ moderate m_shift /\
  (fun r : list nat * (list nat * list b64) => (r.1, r.2.1, map (fun w : b64 => B2SF w) r.2.2)) <$> nsga2_next zero_tolerances isorts m_shift 2 3 [0; 0; 0] =
    Some ([5; 4; 3], [0; 0; 0], [B2SF fzero; B2SF fzero; B2SF fzero]) /\
  (forall orders, ascending_all 2 (obj_value m_shift) [3; 4; 5] orders -> crowding f1em8 (obj_value m_shift) 0 orders 5 fzero = finf) /\
  (** so drawing positions 0 and 1 selects the crowded candidate 4 instead of 5 *)
  (forall s, bits (s 0) = 0%Z -> bits (s 1) = 1%Z -> fst <$> nsga2_select 3 [0; 0; 0] [fzero; fzero; fzero] s = Some 1).
Proof.
  split; [apply zero_exact|]. split; [repeat constructor|]. split; [moderate_tac|]. split; [vm_compute; reflexivity|]. split.
  - intros orders [Hl Ha]. destruct orders as [|o1 [|o2 [|]]]; try done. cbn [crowding].
    destruct (Ha 1 o2 eq_refl) as [Hp Hasc]. clear Ha Hl.
    assert (Hn : NoDup o2) by (rewrite Hp; repeat constructor; set_solver).
    assert (H5 : 5 ∈ o2) by (rewrite Hp; set_solver). apply elem_of_list_lookup in H5 as [p H5].
    destruct (decide (p = 0)) as [->|Hne].
    { unfold crowd_step at 1. rewrite (list_find_nodup o2 0 5 Hn H5). rewrite decide_True by (by left). done. }
    exfalso. destruct (lookup_lt_is_Some_2 o2 0) as [j Hj]; [apply lookup_lt_Some in H5; lia|].
    pose proof (Hasc 0 p j 5 ltac:(lia) Hj H5) as G.
    assert (Hj5 : j <> 5) by (intros ->; pose proof (NoDup_lookup _ _ _ _ Hn Hj H5); lia).
    assert (Hjin : j ∈ [3; 4; 5]) by (rewrite <- Hp; by eapply elem_of_list_lookup_2).
    assert (Hv : forall z, (Z.abs z <= 2 ^ 53)%Z -> B2R (fz' z) = IZR z).
    { intros z Hz. destruct (fmk_val z 0) as (_ & H2 & _); [done|lia|]. unfold fz'. rewrite H2. change (bpow radix2 0) with 1%R. lra. }
    assert (Hcase : j = 3 \/ j = 4) by (clear -Hjin Hj5; set_solver). destruct Hcase as [-> | ->].
    + change (obj_value m_shift 1 3) with (fz' 4) in G. change (obj_value m_shift 1 5) with (fz' 1) in G. rewrite !Hv in G by lia. lra.
    + change (obj_value m_shift 1 4) with (fz' 2) in G. change (obj_value m_shift 1 5) with (fz' 1) in G. rewrite !Hv in G by lia. lra.
  - intros s H0 H1. unfold nsga2_select, rassert. change (negb (Nat.eqb 3 0) && Nat.eqb 3 (length [0; 0; 0])) with true. cbv iota. unfold randomInt, rassert. change (0 <=? Z.of_nat 3 - 1)%Z with true. cbv iota. unfold rbind, rnext, rret, rlift, stail. cbn [mbind option_bind]. rewrite H0, H1. reflexivity.
Qed.
Print Assumptions C46_distances_refuted.

Example C46_nonvacuous :
  exact zero_tolerances /\ matrix 2 m_cut /\
  (fun r : list nat * list b64 => (r.1, map (fun w : b64 => B2SF w) r.2)) <$> nsga2_initialize zero_tolerances isorts m_cut 2 =
    Some ([0; 0; 1; 0; 0; 0], map (fun w : b64 => B2SF w) [finf; fdiv (fz' 4) (fz' 9); finf; fadd (fdiv (fz' 4) (fz' 9)) (fdiv (fz' 3) (fz' 9)); finf; fadd (fdiv (fz' 7) (fz' 9)) (fdiv (fz' 7) (fz' 9))]).
Proof. split; [apply zero_exact|]. split; [repeat constructor|]. vm_compute. reflexivity. Qed.
