(** Properties of NSGA-III (C47, C48). *)
From Coq Require Import Reals ZArith Lra Lia.
From stdpp Require Import list list_numbers sets.
From Flocq Require Import Core BinarySingleNaN.
From Verif Require Import StdSort FloatBase FloatModel FloatSpec FloatProofs FloatProps FrontSpec FrontProps NdSortSpec NdSortModel NdFloatModel NdSortProps.
From Verif Require Import RealProofs RandModel RandProofs RandProps Nsga2Model Nsga2Proofs Nsga3Model Nsga3Spec Nsga3Proofs Nsga3Niche.
Local Open Scope nat_scope.

Section core.
Variable t : tolerances.
Variable sort : forall A, (A -> A -> bool) -> list A -> list A.
Variable reduce : list b64 -> b64.
Variable square : b64 -> b64.
Hypothesis Hs : forall A, sort_contract (sort A).
Variable d popsize : nat.
Variable m : list (list b64).
Variable st : nsga3.
Hypothesis Hm : matrix d m.
Hypothesis Hd : 0 < d.
Hypothesis Hst : nsga3_ok d st.
Hypothesis Hsz : 0 < popsize < length m.
Variable L : list element.
Hypothesis EL : nonDominatedSort t m sort = Some L.
Hypothesis Hperm : L.*1 ≡ₚ seq 0 (length m).
Hypothesis Hsorted : sorted_ranks L.

(** The parts of one call of nextPopulation. *)
Record next_run (s : stream) (a b : nat) (info0 : list cinfo) (st1 : nsga3) (niche refs : list nat) (sts : list nstate) (ns : nstate) (st' : nsga3) (s' : stream) : Prop := {
  nx_front : pf_partialFront L popsize = Some (Some (a, b)) /\ a <= popsize <= b /\ b <= length L;
  nx_rank : exists r, forall e, e ∈ range (a, b) L -> e.2 = r;
  nx_assoc : set_ranks L (resize_info (length m) (sol_info st)) = Some info0 /\
    associatePopWithRefs reduce square m (take b L) (Nsga3 (ref_lines st) info0 (niche_counts st) (ideal_point st) (nadir_point st) (extreme_points st)) = Some st1;
  nx_counts : forall r, nth r niche 0 = length (filter (fun e => ref_of (sol_info st1) e = r) (take a L));
  nx_start : a < popsize -> ninv (sol_info st1) a b L niche refs 0 (NState L niche refs) /\ NoDup refs /\ (forall r, r ∈ refs <-> exists e, e ∈ range (a, b) L /\ ref_of (sol_info st1) e = r);
  nx_steps : steps (sol_info st1) a b L niche refs 0 (NState L niche refs) sts ns /\ length sts = popsize - a;
  nx_loop : niche_loop (sol_info st1) (a, b) (seq 0 (popsize - a)) (NState L niche refs) s = Some (ns, s');
  nx_result : nsga3_next t sort reduce square d popsize m st s = Some (((take popsize (n_elements ns)).*1, st'), s');
  nx_perm : n_elements ns ≡ₚ L /\ (n_elements ns).*2 = L.*2;
  nx_ok : nsga3_ok d st' /\ length (sol_info st') = popsize /\ forall k e, take popsize (n_elements ns) !! k = Some e -> exists x, sol_info st' !! k = Some x /\ c_rank x = e.2;
  nx_state : ref_lines st' = ref_lines st1 /\ ideal_point st' = ideal_point st1 /\ nadir_point st' = nadir_point st1 /\ extreme_points st' = extreme_points st1 /\
    niche_counts st' = n_counts ns /\ forall k e, take popsize (n_elements ns) !! k = Some e -> sol_info st' !! k = sol_info st1 !! e.1;
}.

Lemma next_core s : exists a b info0 st1 niche refs sts ns st' s', next_run s a b info0 st1 niche refs sts ns st' s'.
Proof.
  assert (Hrow : Forall (fun r : list b64 => length r = d) m) by (eapply Forall_impl; [apply Hm|]; by intros ? []).
  assert (Hne : m <> []) by (intros ->; cbn in Hsz; lia).
  assert (HlenL : length L = length m) by (rewrite <- (fmap_length fst L), Hperm; apply seq_length).
  assert (HnL : NoDup L.*1) by (rewrite Hperm; apply NoDup_seq).
  assert (HbL : forall e, e ∈ L -> e.1 < length m).
  { intros e He. assert (G : e.1 ∈ L.*1) by (apply elem_of_list_fmap; eauto). rewrite Hperm in G. apply elem_of_seq in G. lia. }
  destruct (partial_front_ok L popsize Hsorted ltac:(lia)) as (a & b & Epf & Hab & HbL' & Hcut & Hrank).
  destruct (set_ranks_ok L (resize_info (length m) (sol_info st))) as (info & Einfo & Linfo & _ & Hrk).
  { intros e He. unfold resize_info. rewrite app_length, take_length, replicate_length. specialize (HbL e He). lia. }
  { done. }
  assert (Linfo' : length info = length m) by (rewrite Linfo; unfold resize_info; rewrite app_length, take_length, replicate_length; lia).
  destruct (associatePop_ok reduce square d m (take b L) (Nsga3 (ref_lines st) info (niche_counts st) (ideal_point st) (nadir_point st) (extreme_points st)))
    as (st1 & Ea & Ok1 & L1 & Href & Hrk1); try done.
  { intros e He. apply HbL. by eapply elem_of_take in He as (? & ? & _); eapply elem_of_list_lookup_2. }
  destruct (recalc_ok (sol_info st1) (take a L) (niche_counts st1)) as (niche & En & Ln & Cn).
  { intros e He. apply Href. apply elem_of_take in He as (i & He & Hi). apply elem_of_take. exists i. split; [done|lia]. }
  assert (Hrange : forall e, e ∈ range (a, b) L -> ref_of (sol_info st1) e < length niche).
  { intros e He. rewrite Ln. apply Href. apply range_in in He as (p & Hp & He). apply elem_of_take. exists p. split; [done|lia]. }
  destruct (refset_ok sort (sol_info st1) niche (range (a, b) L) Hs Hrange) as (refs & Er & Nr & Sr & Ir).
  assert (Hbound : forall r, r ∈ refs -> r < length niche) by (intros r Hr; apply Ir in Hr as (e & He & <-); by apply Hrange).
  assert (Hloop : exists sts ns s', niche_loop (sol_info st1) (a, b) (seq 0 (popsize - a)) (NState L niche refs) s = Some (ns, s') /\
    steps (sol_info st1) a b L niche refs 0 (NState L niche refs) sts ns /\ length sts = popsize - a /\
    n_elements ns ≡ₚ L /\ (forall p, ~ (a <= p < b) -> n_elements ns !! p = L !! p) /\ (range (a, b) (n_elements ns) ≡ₚ range (a, b) L) /\ length (n_counts ns) = length niche).
  { destruct (decide (a < popsize)) as [Hlt|Hge].
    - assert (Hab' : a < b) by lia. destruct (loop_ok (sol_info st1) a b L niche refs Hab' HbL' Ir Hbound (popsize - a) 0 (NState L niche refs) s) as (sts & ns & s' & E & HI & HS & HL).
      + by apply ninv_init.
      + lia.
      + exists sts, ns, s'. split; [done|]. split; [done|]. split; [done|]. destruct HI. done.
    - replace (popsize - a) with 0 by lia. exists [], (NState L niche refs), s. split; [done|]. split; [constructor|done]. }
  destruct Hloop as (sts & ns & s' & E & HS & HL & HP & Ho & HR & Lc).
  assert (Hl2 : length (n_elements ns) = length L) by (by rewrite HP).
  assert (Hk2 : (n_elements ns).*2 = L.*2).
  { apply list_eq. intros p. rewrite !list_lookup_fmap. destruct (decide (a <= p < b)) as [Hp|Hp]; [|by rewrite Ho].
    destruct (lookup_lt_is_Some_2 (n_elements ns) p) as [x Hx]; [lia|]. destruct (lookup_lt_is_Some_2 L p) as [y Hy]; [lia|]. rewrite Hx, Hy. cbn. f_equal.
    destruct Hrank as [r Hr]. rewrite (Hr y) by (apply range_in; eauto). apply Hr. rewrite <- HR. apply range_in. eauto. }
  destruct (mapM_len (fun e : element => sol_info st1 !! e.1) (take popsize (n_elements ns))) as (ninfo & Eni & Lni & Hni).
  { intros e He. apply lookup_lt_is_Some_2. rewrite L1. apply HbL. rewrite <- HP. apply elem_of_take in He as (i & He & _). by eapply elem_of_list_lookup_2. }
  exists a, b, info, st1, niche, refs, sts, ns, (Nsga3 (ref_lines st1) ninfo (n_counts ns) (ideal_point st1) (nadir_point st1) (extreme_points st1)), s'.
  split; try done.
  - intros Hlt. split; [apply ninv_init; (done || lia)|]. done.
  - unfold nsga3_next. rewrite rassert_true.
    2:{ apply forallb_forall. intros r Hr. apply Nat.eqb_eq. rewrite Forall_forall in Hrow. apply Hrow. by apply elem_of_list_In. }
    rewrite (rbind_eq _ _ _ _ _ (rlift_eq _ _ s EL)). cbv beta. rewrite (rbind_eq _ _ _ _ _ (rlift_eq _ _ s Epf)). cbv beta.
    rewrite (rbind_eq _ _ _ (a, b) s) by done. cbn [fst snd]. rewrite (rbind_eq _ _ _ _ _ (rlift_eq _ _ s Einfo)). cbv beta.
    rewrite (rbind_eq _ _ _ _ _ (rlift_eq _ _ s Ea)). cbv beta. rewrite (rbind_eq _ _ _ _ _ (rlift_eq _ _ s En)). cbv beta.
    rewrite (rbind_eq _ _ _ _ _ (rlift_eq _ _ s Er)). cbv beta. rewrite (rbind_eq _ _ _ _ _ E). cbv beta.
    assert (Ers : pf_resize (n_elements ns) popsize = Some (take popsize (n_elements ns))) by (unfold pf_resize; rewrite decide_True by lia; done).
    rewrite (rbind_eq _ _ _ _ _ (rlift_eq _ _ s' Ers)). cbv beta.
    assert (Ecp : createPopulation (sol_info st1) (take popsize (n_elements ns)) = Some ((take popsize (n_elements ns)).*1, ninfo)) by (unfold createPopulation; by rewrite Eni).
    rewrite (rbind_eq _ _ _ _ _ (rlift_eq _ _ s' Ecp)). done.
  - destruct Ok1 as (O1 & O2 & O3 & O4 & O5). split; [|split].
    + split; [done|]. split; [done|]. split; [|done]. cbn. lia.
    + cbn. rewrite Lni, take_length. lia.
    + intros k e Hk. cbn. apply mapM_Some in Eni. destruct (Forall2_lookup_l _ _ _ _ _ Eni Hk) as (x & Hx & Ex). exists x. split; [done|].
      assert (He : e ∈ L). { rewrite <- HP. apply elem_of_list_lookup_2 in Hk. apply elem_of_take in Hk as (i & ? & _). by eapply elem_of_list_lookup_2. }
      destruct e as [i r]. destruct (Hrk i r He) as (y & Hy & Ey). destruct (Hrk1 i y Hy) as (z & Hz & Ez). cbn in *. congruence.
  - cbn [ref_lines ideal_point nadir_point extreme_points niche_counts sol_info]. repeat (split; [done|]). intros k e Hk. apply mapM_Some in Eni.
    destruct (Forall2_lookup_l _ _ _ _ _ Eni Hk) as (x & Hx & Ex). by rewrite Hx, Ex.
Qed.
End core.

(** C47: any tolerances; [L] is the list of (index, rank) the sort returns.  The last part
    says that the stored ranks belong to the chosen candidates. *)
Theorem C47_next_population (t : tolerances) sort reduce square (d popsize : nat) (m : list (list b64)) (st : nsga3) (s : stream) :
  (forall A, sort_contract (sort A)) -> matrix d m -> 0 < d -> nsga3_ok d st -> 0 < popsize < length m ->
  exists L chosen st' s', nonDominatedSort t m sort = Some L /\ nsga3_next t sort reduce square d popsize m st s = Some ((chosen, st'), s') /\
    ranked_choice (length m) popsize L chosen /\ nsga3_ok d st' /\
    (exact t -> nd_ranking (length m) (row_dominated m) L /\ forall i j, i ∈ chosen -> j < length m -> j ∉ chosen -> ~ row_dominated m i j) /\
    (length (sol_info st') = popsize /\ forall k i, chosen !! k = Some i -> exists x, sol_info st' !! k = Some x /\ (i, c_rank x) ∈ L).
Proof.
  intros Hs Hm Hd Hst Hsz. assert (Hne : m <> []) by (intros ->; cbn in Hsz; lia).
  destruct (C24_ens_terminates_partial t sort d m Hs Hm) as (L & E & HL1 & HL2).
  assert (EL : nonDominatedSort t m sort = Some L) by (unfold nonDominatedSort; by rewrite decide_False).
  destruct (next_core t sort reduce square Hs d popsize m st Hm Hd Hst Hsz L EL HL1 HL2 s) as (a & b & info0 & st1 & niche & refs & sts & ns & st' & s' & []).
  exists L, (take popsize (n_elements ns)).*1, st', s'. split; [done|]. split; [done|].
  assert (HC : ranked_choice (length m) popsize L (take popsize (n_elements ns)).*1) by (apply choice_ok; (done || lia || apply nx_perm0)).
  split; [done|]. split; [apply nx_ok0|]. split.
  - intros Hex. destruct (C22_nondominated_sort_ranks t sort d m Hex Hs Hm Hne) as (L' & E' & HL). assert (L' = L) as -> by congruence. split; [done|].
    intros i j Hi Hj Hnj Hdom.
    assert (Hex' : forall i, i < length m -> exists r, (i, r) ∈ L).
    { intros k Hk. assert (G : k ∈ L.*1) by (rewrite (nr_once _ _ _ HL); apply elem_of_seq; lia). apply elem_of_list_fmap in G as ([k' r] & -> & G). by exists r. }
    destruct (Hex' i) as [r Hir]; [by eapply rc_members|]. destruct (Hex' j Hj) as [q Hjs].
    pose proof (rc_rank _ _ _ _ HC i j r q Hi Hnj Hir Hjs) as Hrs. destruct r as [|r].
    + apply (nr_zero _ _ _ HL) in Hir as [_ G]. by apply (G j).
    + apply (nr_succ _ _ _ HL) in Hir as (_ & _ & G). specialize (G j q Hjs Hdom). lia.
  - destruct nx_ok0 as (_ & G1 & G2). split; [done|]. intros k i Hk. rewrite list_lookup_fmap in Hk.
    destruct (take popsize (n_elements ns) !! k) as [e|] eqn:Ek; [|done]. injection Hk as <-. destruct (G2 k e Ek) as (x & Hx & Er). exists x. split; [done|].
    rewrite Er. apply elem_of_list_lookup_2 in Ek. apply elem_of_take in Ek as (q & Ek & _). apply elem_of_list_lookup_2 in Ek. rewrite (proj1 nx_perm0) in Ek. by destruct e.
Qed.
Print Assumptions C47_next_population.

(** C48, without "not yet chosen": a pick may take a member picked before (see below). *)
Theorem C48_niching_partial (t : tolerances) sort reduce square (d popsize : nat) (m : list (list b64)) (st : nsga3) (s : stream) :
  (forall A, sort_contract (sort A)) -> matrix d m -> 0 < d -> nsga3_ok d st -> 0 < popsize < length m ->
  exists L a b st1 niche refs sts ns st' s',
    nonDominatedSort t m sort = Some L /\ pf_partialFront L popsize = Some (Some (a, b)) /\ a <= popsize <= b /\
    (forall r, nth r niche 0 = length (filter (fun e => ref_of (sol_info st1) e = r) (take a L))) /\
    nsga3_next t sort reduce square d popsize m st s = Some (((take popsize (n_elements ns)).*1, st'), s') /\
    last (NState L niche refs :: sts) = Some ns /\ length sts = popsize - a /\
    ((forall e, e ∈ range (a, b) L -> is_finite (dist_of (sol_info st1) e) = true) ->
      forall i u v, (NState L niche refs :: sts) !! i = Some u -> sts !! i = Some v ->
        exists ref, niche_pick (ref_of (sol_info st1)) (dist_of (sol_info st1)) a b i u v ref).
Proof.
  intros Hs Hm Hd Hst Hsz. assert (Hne : m <> []) by (intros ->; cbn in Hsz; lia).
  destruct (C24_ens_terminates_partial t sort d m Hs Hm) as (L & E & HL1 & HL2).
  assert (EL : nonDominatedSort t m sort = Some L) by (unfold nonDominatedSort; by rewrite decide_False).
  destruct (next_core t sort reduce square Hs d popsize m st Hm Hd Hst Hsz L EL HL1 HL2 s) as (a & b & info0 & st1 & niche & refs & sts & ns & st' & s' & []).
  exists L, a, b, st1, niche, refs, sts, ns, st', s'. destruct nx_front0 as (F1 & F2 & F3). destruct nx_steps0 as [HS HL].
  split; [done|]. split; [done|]. split; [done|]. split; [done|]. split; [done|]. split; [by eapply steps_last|]. split; [done|].
  intros Hfin i u v Hu Hv. assert (Hi : i < length sts) by (by eapply lookup_lt_Some). assert (Hab' : a < b) by lia. destruct (nx_start0 ltac:(lia)) as (_ & Nr & Ir).
  destruct (listed_steps (sol_info st1) a b L niche refs Hab' F3 Hfin 0 _ sts ns HS) with (k := i) (u := u) (v := v) as (HI & HLi & ref & pos & HP); try done.
  { lia. }
  { by apply listed_init. }
  cbn [plus] in *. exists ref. destruct HP as [K1 K2 K3 [K4 K4'] K5 K6]. split; try done.
  - exact (ni_sorted _ _ _ _ _ _ _ _ HI).
  - intros p e Hp He. apply K2. by apply (HLi p).
  - intros p Hp. destruct (decide (p = a + pos)) as [->|Hn].
    + exists (a + i). split; [lia|]. rewrite K5. by rewrite decide_True.
    + exists p. split; [lia|]. rewrite K5. by rewrite !decide_False by lia.
  - assert (Hlen : length (n_elements u) = length L) by (by rewrite (ni_perm _ _ _ _ _ _ _ _ HI)).
    destruct (lookup_lt_is_Some_2 (n_elements u) (a + pos)) as [e He]; [lia|]. exists (a + pos), e. split; [lia|]. split; [done|]. split; [rewrite K5; by rewrite decide_True|].
    intros (q & f & Hq & Hf & Hrf).
    destruct (closest_ok (sol_info st1) a b L Hfin (range (a, b) (n_elements u)) ref) as (c & Hc & Hrc & Hmin); [apply HI| |].
    { exists f. split; [|done]. apply range_in. eauto. }
    rewrite <- K4' in Hc. rewrite lookup_range, decide_True in Hc by lia. assert (c = e) as -> by congruence. split; [done|].
    intros q' f' Hq' Hf' Hrf'. apply Hmin; [|done]. apply range_in. eauto.
Qed.
Print Assumptions C48_niching_partial.

(** C48 is false: the second line has one member and the first three, so the first pick is
    candidate [5], the closest to the second line.  The second pick takes the same line,
    finds candidate [5] again because findClosestAssociated also searches the picked ones,
    and the swap puts candidate [4] of the first line (count 3) into the population although
    candidate [6] of the second line (count 2) has not been chosen. *)
Definition sum_left (l : list b64) : b64 := foldl fadd fzero l.
Definition sq (x : b64) : b64 := fmul x x.
Definition fh2 (z : Z) : b64 := fmk z (-1).
Definition m_niche : list (list b64) :=
  [[fh2 18; fh2 4]; [fh2 18; fh2 4]; [fh2 18; fh2 4]; [fh2 20; fh2 2]; [fh2 12; fh2 3]; [fh2 14; fh2 (-4)]; [fh2 16; fh2 (-16)]].
Definition st_niche : nsga3 :=
  Nsga3 [[fh2 2; fh2 0]; [fmk 5404319552844595 (-53); fmk 3602879701896397 (-52)]] [] [0; 0] [fh2 20; fh2 4] [] [].
Definition line_niche (i : nat) : nat := nth i [0; 0; 0; 1; 0; 1; 1] 0.

Lemma m_niche_matrix : matrix 2 m_niche.
Proof.
  assert (G : forallb (fun r => Nat.eqb (length r) 2 && forallb is_finite r) m_niche = true) by (vm_compute; reflexivity).
  apply Forall_forall. intros r Hr. rewrite forallb_forall in G. apply elem_of_list_In in Hr. specialize (G r Hr). apply andb_prop in G as [G1 G2]. split.
  - by apply Nat.eqb_eq.
  - apply Forall_forall. intros x Hx. rewrite forallb_forall in G2. apply G2. by apply elem_of_list_In.
Qed.
Lemma st_niche_ok : nsga3_ok 2 st_niche.
Proof. split; [done|]. split; [by repeat constructor|]. split; [done|]. split; [done|constructor]. Qed.
Lemma m_niche_next : (fun o : (list nat * nsga3) * stream => o.1.1) <$> nsga3_next zero_tolerances isorts sum_left sq 2 6 m_niche st_niche (stream_of []) = Some [2; 1; 0; 3; 4; 5].
Proof. vm_compute. reflexivity. Qed.
Lemma m_niche_lines : (fun o : nsga3 => c_ref <$> sol_info o) <$> associatePopWithRefs sum_left sq m_niche ((fun i => (i, 0)) <$> seq 0 7) st_niche = Some (line_niche <$> seq 0 7).
Proof. vm_compute. reflexivity. Qed.
Theorem C48_niching_refuted : exists L chosen o,
  (forall A, sort_contract (isorts A)) /\ matrix 2 m_niche /\ nsga3_ok 2 st_niche /\
  nonDominatedSort zero_tolerances m_niche isorts = Some L /\ nsga3_next zero_tolerances isorts sum_left sq 2 6 m_niche st_niche (stream_of []) = Some o /\ o.1.1 = chosen /\
  (* the lines of the candidates *)
  (fun o : nsga3 => c_ref <$> sol_info o) <$> associatePopWithRefs sum_left sq m_niche ((fun i => (i, 0)) <$> seq 0 7) st_niche = Some (line_niche <$> seq 0 7) /\
  (* the counts of the first front, and the cut front *)
  let count r := length (filter (fun e : nat * nat => e.2 = 0 /\ line_niche e.1 = r) L) in
  let cut := (filter (fun e : nat * nat => e.2 = 1) L).*1 in
  forall picks, picks ≡ₚ filter (fun i => i ∈ cut) chosen -> ~ niched_picks line_niche count cut picks.
Proof.
  pose proof m_niche_next as E. destruct (nsga3_next zero_tolerances isorts sum_left sq 2 6 m_niche st_niche (stream_of [])) as [o|] eqn:Eo; [|done].
  cbn [fmap option_fmap option_map] in E. apply (inj Some) in E.
  eexists _, [2; 1; 0; 3; 4; 5], o. split; [exact isorts_contract|]. split; [exact m_niche_matrix|]. split; [exact st_niche_ok|]. split; [vm_compute; reflexivity|].
  split; [done|]. split; [exact E|]. split; [exact m_niche_lines|]. clear E Eo o. cbn zeta. intros picks Hp.
  assert (Hc : filter (fun i : nat => i ∈ (filter (fun e : nat * nat => e.2 = 1) [(2, 0); (1, 0); (0, 0); (3, 0); (4, 1); (5, 1); (6, 1)]).*1) [2; 1; 0; 3; 4; 5] = [4; 5]) by (vm_compute; reflexivity).
  rewrite Hc in Hp. clear Hc.
  assert (Hcut : (filter (fun e : nat * nat => e.2 = 1) [(2, 0); (1, 0); (0, 0); (3, 0); (4, 1); (5, 1); (6, 1)]).*1 = [4; 5; 6]) by (vm_compute; reflexivity).
  rewrite Hcut. clear Hcut.
  assert (H45 : picks = [4; 5] \/ picks = [5; 4]).
  { destruct picks as [|x [|y [|z l]]]; apply Permutation_length in Hp as Hl; try done. assert (Hx : x ∈ [4; 5]) by (rewrite <- Hp; set_solver).
    apply elem_of_cons in Hx as [->|Hx].
    - apply Permutation_cons_inv in Hp. apply Permutation_singleton_r in Hp. left. congruence.
    - apply elem_of_list_singleton in Hx as ->. rewrite (Permutation_swap 5 4) in Hp. apply Permutation_cons_inv in Hp. apply Permutation_singleton_r in Hp. right. congruence. }
  intros H. destruct H45 as [-> | ->]; cbn [niched_picks] in H.
  - destruct H as (_ & H & _). specialize (H 5 ltac:(set_solver)). vm_compute in H. lia.
  - destruct H as (_ & _ & _ & H & _). specialize (H 6). assert (G : 6 ∈ filter (fun q : nat => q <> 5) [4; 5; 6]) by (apply elem_of_list_filter; split; [done|set_solver]).
    specialize (H G). vm_compute in H. lia.
Qed.
Print Assumptions C48_niching_refuted.

(** The hypotheses of C47 and C48 are met by this population, and a run of C47. *)
Example C47_C48_example : exists st s, nsga3_ok 2 st /\ matrix 2 m_niche /\ (forall A, sort_contract (isorts A)) /\ exact zero_tolerances /\ 0 < 6 < length m_niche /\
  (fun o : (list nat * nsga3) * stream => o.1.1) <$> nsga3_next zero_tolerances isorts sum_left sq 2 6 m_niche st s = Some [2; 1; 0; 3; 4; 5].
Proof.
  exists st_niche, (stream_of []). split; [exact st_niche_ok|]. split; [exact m_niche_matrix|]. split; [exact isorts_contract|]. split; [exact zero_exact|]. split; [cbn; lia|]. exact m_niche_next.
Qed.
