(** Properties of the reference lines and the selection of NSGA-III, and of the optimal
    solutions of NSGA-II and NSGA-III (C94, C95). *)
From Coq Require Import Reals ZArith Lra Lia.
From stdpp Require Import list list_numbers sets.
From Flocq Require Import Core BinarySingleNaN.
From Verif Require Import StdSort FloatBase FloatModel FloatSpec FloatProofs FloatProps AlgorithmModel AlgorithmSpec AlgorithmProps FrontModel FrontSpec FrontProps NdSortSpec NdSortModel NdFloatModel NdSortProps.
From Verif Require Import RealProofs RealErrorProofs RandModel RandProofs RandProps Nsga2Model Nsga2Spec Nsga2Proofs Nsga2Props Nsga3Model Nsga3Spec Nsga3Proofs Nsga3Niche Nsga3Props Nsga3MoreSpec Nsga3MoreProofs Nsga3LineProofs.
Local Open Scope nat_scope.

(** C94: what the reference points and the lines of the candidates are. *)
Theorem C94_association reduce square (d : nat) (m : list (list b64)) (els : list (nat * nat)) (st : nsga3) :
  0 < d -> nsga3_ok d st -> finite_vec (ideal_point st) -> matrix d (extreme_points st) -> matrix d m -> m <> [] ->
  length (sol_info st) = length m -> NoDup els.*1 -> (forall e, e ∈ els -> e.1 < length m) ->
  exists st', associatePopWithRefs reduce square m els st = Some st' /\ associated reduce square d m els st st'.
Proof. apply association_ok. Qed.
Print Assumptions C94_association.

(** The line with the largest inner product is the closest one, in exact arithmetic. *)
Theorem C94_closest_exact (x lc lj : list R) (t : R) : length lc = length x -> length lj = length x -> rdot lc lc = 1%R -> rdot lj lj = 1%R ->
  (0 <= rdot x lj <= rdot x lc)%R -> (rdist2 x (rdot x lc) lc <= rdist2 x t lj)%R.
Proof. apply closest_exact. Qed.
Print Assumptions C94_closest_exact.

Lemma rdot_le (K : R) x : forall l, nn x -> nn l -> Forall (fun p : b64 => B2R p <= K)%R x -> Forall (fun q : b64 => B2R q <= 2)%R l -> (0 <= K)%R ->
  (rdot (reals x) (reals l) <= IZR (Z.of_nat (length x)) * (2 * K))%R.
Proof.
  induction x as [|p x IH]; intros [|q l] Hx Hl Bx Bl HK.
  - change (0 <= 0 * (2 * K))%R. lra.
  - change (0 <= 0 * (2 * K))%R. lra.
  - cbn [length]. assert (0 <= IZR (Z.of_nat (S (length x))))%R by (apply IZR_le; lia). change (rdot (reals (p :: x)) (reals [])) with 0%R. apply Rmult_le_pos; lra.
  - inversion Hx as [|? ? [_ ?] ?]; subst. inversion Hl as [|? ? [_ ?] ?]; subst. inversion Bx; subst. inversion Bl; subst.
    specialize (IH l ltac:(done) ltac:(done) ltac:(done) ltac:(done) HK). cbn [length]. rewrite Nat2Z.inj_succ, succ_IZR.
    change (rdot (reals (p :: x)) (reals (q :: l))) with (B2R p * B2R q + rdot (reals x) (reals l))%R.
    assert (B2R p * B2R q <= K * 2)%R by (apply Rmult_le_compat; lra). lra.
Qed.
Lemma unit_entries (l : list b64) delta : nn l -> (delta <= / 4)%R -> near_unit delta l -> Forall (fun q : b64 => B2R q <= 2)%R l.
Proof.
  intros Hn Hd Hu. unfold near_unit in Hu. apply Rabs_le_inv in Hu. assert (H : (rdot (reals l) (reals l) <= 2)%R) by lra. clear Hu Hd. revert H.
  induction l as [|q l IH]; intros H; [constructor|]. inversion Hn as [|? ? [_ Hq] Hn']; subst.
  change (rdot (reals (q :: l)) (reals (q :: l))) with (B2R q * B2R q + rdot (reals l) (reals l))%R in H. pose proof (rdot_sq (reals l)).
  pose proof (Rle_0_sqr (B2R q)) as G. unfold Rsqr in G.
  constructor; [|apply IH; [done|lra]]. destruct (Rle_dec (B2R q) 2) as [?|Hgt]; [done|]. assert (2 * 2 < B2R q * B2R q)%R by (apply Rmult_le_0_lt_compat; lra). lra.
Qed.

Definition bounded_900 (l : list b64) : Prop := Forall (fun x => Rabs (B2R x) <= bpow radix2 900)%R l.
Lemma normalized_range d (S : list b64 -> Prop) (T : list b64 -> Prop) f ideal nadir x : length f = d -> finite_vec f -> S f ->
  finite_vec ideal -> finite_vec nadir -> componentwise_max d S ideal -> componentwise_min d T nadir ->
  (forall r, S r -> bounded_900 r) -> (forall r, T r -> bounded_900 r) ->
  normalized f ideal nadir x -> nn x /\ Forall (fun p : b64 => B2R p <= bpow radix2 928)%R x /\ length x = d.
Proof.
  intros Lf Ff Sf Fi Fn [Li Hi] [Ln Hnd] BS BT [Lx Hx]. unfold finite_vec in Ff, Fi, Fn. rewrite Forall_forall in Ff, Fi, Fn.
  assert (G : forall j p, x !! j = Some p -> is_finite p = true /\ (0 <= B2R p <= bpow radix2 928)%R).
  { intros j p Hp. assert (Hj : j < d) by (apply lookup_lt_Some in Hp; lia).
    destruct (lookup_lt_is_Some_2 f j ltac:(lia)) as [a Ha]. destruct (lookup_lt_is_Some_2 ideal j ltac:(lia)) as [i Hii]. destruct (lookup_lt_is_Some_2 nadir j ltac:(lia)) as [n Hnn].
    rewrite (Hx j a i n Ha Hii Hnn) in Hp. apply (inj Some) in Hp as <-. clear Hx.
    destruct (Hi j i Hii) as [(r1 & Sr1 & Hr1) Hmax]. specialize (Hmax f a Sf Ha).
    destruct (Hnd j n Hnn) as [(r2 & y2 & Tr2 & Hr2 & Ey2) _].
    pose proof (BS r1 Sr1) as B1. pose proof (BS f Sf) as B2. pose proof (BT r2 Tr2) as B3. unfold bounded_900 in B1, B2, B3. rewrite Forall_forall in B1, B2, B3.
    specialize (B1 i (elem_of_list_lookup_2 _ _ _ Hr1)). specialize (B2 a (elem_of_list_lookup_2 _ _ _ Ha)). specialize (B3 y2 (elem_of_list_lookup_2 _ _ _ Hr2)). rewrite Ey2 in B3.
    assert (F1 : is_finite a = true) by (apply Ff; by eapply elem_of_list_lookup_2). assert (F2 : is_finite i = true) by (apply Fi; by eapply elem_of_list_lookup_2).
    assert (F3 : is_finite n = true) by (apply Fn; by eapply elem_of_list_lookup_2).
    apply Rabs_le_inv in B1, B2, B3. assert (Hb : (bpow radix2 901 = 2 * bpow radix2 900)%R).
    { change 901%Z with (1 + 900)%Z. rewrite bpow_plus. change (bpow radix2 1) with 2%R. done. }
    destruct (fsub_le i a 901 F2 F1 ltac:(lia)) as (N1 & N2 & N3); [apply Rabs_le; lra|].
    destruct (fsub_le i n 901 F2 F3 ltac:(lia)) as (D1 & D2 & D3); [apply Rabs_le; lra|].
    assert (Hnum : (0 <= B2R (fsub i a))%R) by (rewrite N2; apply srnd_ge_0; lra).
    pose proof f1em8_val as [E1 E2]. change (fmk 6044629098073146 (-79)) with f1em8.
    assert (Hlow : (bpow radix2 (-27) <= B2R f1em8)%R).
    { destruct (fmk_val 6044629098073146 (-79)) as (_ & Q & _); [lia|lia|]. unfold f1em8. rewrite Q.
      replace (bpow radix2 (-27)) with (bpow radix2 52 * bpow radix2 (-79))%R by (rewrite <- bpow_plus; done).
      apply Rmult_le_compat_r; [apply bpow_ge_0|]. change (bpow radix2 52) with (IZR (2 ^ 52)). apply IZR_le. lia. }
    pose proof (fmax_fin _ _ D1 E1) as Fden. assert (Hden : (bpow radix2 (-27) <= B2R (fmax (fsub i n) f1em8))%R).
    { rewrite <- fval_finite by done. rewrite fmax_val by (by apply is_finite_not_nan). rewrite (fval_finite f1em8) by done. pose proof (Rmax_r (fval (fsub i n)) (B2R f1em8)). lra. }
    pose proof (bpow_gt_0 radix2 (-27)) as Hp0.
    assert (Hq : (0 <= B2R (fsub i a) / B2R (fmax (fsub i n) f1em8) <= bpow radix2 928)%R).
    { split; [apply Rmult_le_pos; [lra|left; apply Rinv_0_lt_compat; lra]|]. apply Rmult_le_reg_r with (B2R (fmax (fsub i n) f1em8)); [lra|].
      unfold Rdiv. rewrite Rmult_assoc, Rinv_l, Rmult_1_r by lra. apply Rabs_le_inv in N3. eapply Rle_trans; [apply N3|].
      change 901%Z with (928 + -27)%Z. rewrite bpow_plus. apply Rmult_le_compat_l; [apply bpow_ge_0|done]. }
    destruct (op_le _ _ 928 (fdiv_finite _ _ N1 Fden ltac:(lra)) ltac:(lia)) as (P1 & P2 & P3); [rewrite Rabs_pos_eq; lra|].
    split; [done|]. apply Rabs_le_inv in P3. split; [rewrite P2; apply srnd_ge_0; lra|lra]. }
  split; [|split; [|lia]]; apply Forall_lookup; intros j p Hp; destruct (G j p Hp) as [? []]; done.
Qed.

(** C94: the chosen line is the closest one up to rounding.  [delta] is how far the lines are
    from having length one (they are normalized); the entries are at most 2^900. *)
Theorem C94_closest_line reduce square (d : nat) (delta : R) (m : list (list b64)) (els : list (nat * nat)) (st : nsga3) :
  0 < d -> (Z.of_nat d <= 2 ^ 40)%Z -> nsga3_ok d st -> finite_vec (ideal_point st) -> matrix d (extreme_points st) -> matrix d m -> m <> [] ->
  length (sol_info st) = length m -> NoDup els.*1 -> (forall e, e ∈ els -> e.1 < length m) ->
  Forall bounded_900 (ideal_point st :: m ++ extreme_points st) ->
  Forall (fun l => nn l /\ near_unit delta l) (ref_lines st) -> (delta <= / 4)%R ->
  exists st', associatePopWithRefs reduce square m els st = Some st' /\
    forall idx rk f, (idx, rk) ∈ els -> m !! idx = Some f -> exists x c line,
      normalized f (ideal_point st') (nadir_point st') x /\ sol_info st' !! idx = Some c /\ ref_lines st !! c_ref c = Some line /\
      first_max flt (inner x <$> ref_lines st) (c_ref c) /\
      forall l t, l ∈ ref_lines st ->
        (rdist2 (reals x) (rdot (reals x) (reals line) / rdot (reals line) (reals line)) (reals line) <=
         rdist2 (reals x) t (reals l) + (3 * delta + 48 * (IZR (Z.of_nat d) * bpow radix2 (-53))) * rdot (reals x) (reals x) + 16 * (IZR (Z.of_nat d) * bpow radix2 (-1075)))%R.
Proof.
  intros Hd Hd40 Hok Fi He Hm Hne Hlen Hnd Hels HB HL Hdelta.
  destruct (association_ok reduce square d m els st) as (st' & E & HA); try done. exists st'. split; [done|]. intros idx rk f Hin Hf.
  destruct HA as [_ Ai Ae An Af Am _]. destruct (Am idx rk f Hin Hf) as (x & c & line & Hx & Hc & _ & Hline & _ & Hfm). exists x, c, line.
  split; [done|]. split; [done|]. split; [done|]. inversion HB as [|? ? B0 B1]; subst. rewrite Forall_forall in B1.
  assert (Hfr : length f = d /\ finite_vec f) by (unfold matrix in Hm; rewrite Forall_forall in Hm; apply Hm; by eapply elem_of_list_lookup_2). destruct Hfr as [Lf Ff].
  destruct (normalized_range d _ _ f (ideal_point st') (nadir_point st') x Lf Ff (or_intror (elem_of_list_lookup_2 _ _ _ Hf)) (proj1 Af) (proj2 (proj2 Af)) Ai An) as (Nx & Bx & Lx); [..|done|].
  { intros r [->|Hr]; [done|]. apply B1, elem_of_app. by left. }
  { intros r Hr. apply elem_of_list_lookup in Hr as [k Hk]. destruct Ae as [_ Ae]. destruct (Ae k r Hk) as [G _]. by apply B1. }
  assert (Hlines : forall l, l ∈ ref_lines st -> nn l /\ near_unit delta l /\ length l = d).
  { intros l Hl. rewrite Forall_forall in HL. destruct (HL l Hl). split; [done|]. split; [done|]. destruct Hok as (_ & O2 & _). rewrite Forall_forall in O2. by apply O2. }
  assert (HP : forall l, l ∈ ref_lines st -> (rdot (reals x) (reals l) <= bpow radix2 1000)%R).
  { intros l Hl. destruct (Hlines l Hl) as (N1 & N2 & N3). eapply Rle_trans; [apply (rdot_le (bpow radix2 928)); try done; [by eapply unit_entries|apply bpow_ge_0]|].
    rewrite Lx. apply Rle_trans with (bpow radix2 40 * (2 * bpow radix2 928))%R.
    - apply Rmult_le_compat_r; [pose proof (bpow_ge_0 radix2 928); lra|]. change (bpow radix2 40) with (IZR (2 ^ 40)). by apply IZR_le.
    - change 2%R with (bpow radix2 1). rewrite <- !bpow_plus. apply bpow_le. lia. }
  assert (Hfin : forall l, l ∈ ref_lines st -> is_finite (inner x l) = true).
  { intros l Hl. destruct (Hlines l Hl) as (N1 & N2 & N3). apply inner_err; try done; [by rewrite N3|by rewrite Lx|by apply HP]. }
  specialize (Hfm ltac:(intros l Hl; by apply is_finite_not_nan, Hfin)). split; [done|]. intros l t Hl.
  assert (Hlin : line ∈ ref_lines st) by (by eapply elem_of_list_lookup_2).
  destruct (Hlines l Hl) as (N1 & N2 & N3). destruct (Hlines line Hlin) as (M1 & M2 & M3). rewrite <- Lx. change (bpow radix2 (-53)) with uu. change (bpow radix2 (-1075)) with hh.
  apply closest_float; try done; try lia; [by apply HP|by apply HP|].
  destruct Hfm as (v & Hv & Hmax & _). rewrite list_lookup_fmap, Hline in Hv. cbn [fmap option_fmap option_map] in Hv. apply (inj Some) in Hv as <-.
  apply elem_of_list_lookup in Hl as [j Hj]. apply (Hmax j). by rewrite list_lookup_fmap, Hj.
Qed.
Print Assumptions C94_closest_line.

(** C94: the lines that the next population is chosen by are these. *)
Theorem C94_next_population (t : tolerances) sort reduce square (d popsize : nat) (m : list (list b64)) (st : nsga3) (s : stream) :
  (forall A, sort_contract (sort A)) -> matrix d m -> 0 < d -> nsga3_ok d st -> 0 < popsize < length m ->
  finite_vec (ideal_point st) -> matrix d (extreme_points st) ->
  exists L a b st0 st1 niche refs sts ns st' s',
    nonDominatedSort t m sort = Some L /\ pf_partialFront L popsize = Some (Some (a, b)) /\ a <= popsize <= b /\
    nsga3_next t sort reduce square d popsize m st s = Some (((take popsize (n_elements ns)).*1, st'), s') /\
    (* the state with the new ranks, and after the association *)
    ref_lines st0 = ref_lines st /\ ideal_point st0 = ideal_point st /\ extreme_points st0 = extreme_points st /\
    (forall i r, (i, r) ∈ L -> exists c, sol_info st0 !! i = Some c /\ c_rank c = r) /\
    associated reduce square d m (take b L) st0 st1 /\
    (* the niching *)
    (forall r, nth r niche 0 = length (filter (fun e => ref_of (sol_info st1) e = r) (take a L))) /\
    last (NState L niche refs :: sts) = Some ns /\ length sts = popsize - a /\
    ((forall e, e ∈ range (a, b) L -> is_finite (dist_of (sol_info st1) e) = true) ->
      forall i u v, (NState L niche refs :: sts) !! i = Some u -> sts !! i = Some v ->
        exists ref, niche_pick (ref_of (sol_info st1)) (dist_of (sol_info st1)) a b i u v ref) /\
    (* the state afterwards *)
    ref_lines st' = ref_lines st /\ ideal_point st' = ideal_point st1 /\ nadir_point st' = nadir_point st1 /\ extreme_points st' = extreme_points st1 /\
    finite_vec (ideal_point st') /\ matrix d (extreme_points st') /\ niche_counts st' = n_counts ns /\
    forall k e, take popsize (n_elements ns) !! k = Some e -> sol_info st' !! k = sol_info st1 !! e.1.
Proof.
  intros Hs Hm Hd Hst Hsz Fi He. assert (Hne : m <> []) by (intros ->; cbn in Hsz; lia).
  destruct (C24_ens_terminates_partial t sort d m Hs Hm) as (L & E & HL1 & HL2).
  assert (EL : nonDominatedSort t m sort = Some L) by (unfold nonDominatedSort; by rewrite decide_False).
  destruct (next_core t sort reduce square Hs d popsize m st Hm Hd Hst Hsz L EL HL1 HL2 s) as (a & b & info0 & st1 & niche & refs & sts & ns & st' & s' & []).
  destruct nx_assoc as [E0 E1]. destruct nx_state as (S1 & S2 & S3 & S4 & S5 & S6).
  assert (HnL : NoDup L.*1) by (rewrite HL1; apply NoDup_seq).
  assert (HbL : forall e, e ∈ L -> e.1 < length m).
  { intros e Hin. assert (G : e.1 ∈ L.*1) by (apply elem_of_list_fmap; eauto). rewrite HL1 in G. apply elem_of_seq in G. lia. }
  assert (HlenL : length L = length m) by (rewrite <- (fmap_length fst L), HL1; apply seq_length).
  destruct (set_ranks_ok L (resize_info (length m) (sol_info st))) as (info & Einfo & Linfo & _ & Hrk).
  { intros e Hin. unfold resize_info. rewrite app_length, take_length, replicate_length. specialize (HbL e Hin). lia. }
  { done. }
  assert (info = info0) as -> by congruence.
  assert (Linfo' : length info0 = length m) by (rewrite Linfo; unfold resize_info; rewrite app_length, take_length, replicate_length; lia).
  pose (st0 := Nsga3 (ref_lines st) info0 (niche_counts st) (ideal_point st) (nadir_point st) (extreme_points st)).
  destruct (association_ok reduce square d m (take b L) st0) as (st1' & E1' & HA); try done.
  { rewrite fmap_take. rewrite <- (take_drop b L.*1) in HnL. by apply NoDup_app in HnL as (? & _). }
  { intros e Hin. apply HbL. apply elem_of_take in Hin as (i & Hin & _). by eapply elem_of_list_lookup_2. }
  assert (st1' = st1) as -> by (unfold st0 in E1'; congruence).
  destruct nx_front as (F1 & F2 & F3). destruct nx_steps as [HS HLs].
  exists L, a, b, st0, st1, niche, refs, sts, ns, st', s'. split; [done|]. split; [done|]. split; [done|]. split; [done|]. do 3 (split; [done|]). split; [done|]. split; [done|].
  split; [done|]. split; [by eapply steps_last|]. split; [done|]. split.
  { intros Hfin i u v Hu Hv. assert (Hi : i < length sts) by (by eapply lookup_lt_Some). assert (Hab' : a < b) by lia. destruct (nx_start ltac:(lia)) as (_ & Nr & Ir).
    destruct (listed_steps (sol_info st1) a b L niche refs Hab' F3 Hfin 0 _ sts ns HS) with (k := i) (u := u) (v := v) as (HI & HLi & ref & pos & HP); try done.
    { lia. }
    { by apply listed_init. }
    cbn [plus] in *. exists ref. destruct HP as [K1 K2 K3 [K4 K4'] K5 K6]. split; try done.
    - exact (ni_sorted _ _ _ _ _ _ _ _ HI).
    - intros p e Hp Hpe. apply K2. by apply (HLi p).
    - intros p Hp. destruct (decide (p = a + pos)) as [->|Hn].
      + exists (a + i). split; [lia|]. rewrite K5. by rewrite decide_True.
      + exists p. split; [lia|]. rewrite K5. by rewrite !decide_False by lia.
    - assert (Hlen : length (n_elements u) = length L) by (by rewrite (ni_perm _ _ _ _ _ _ _ _ HI)).
      destruct (lookup_lt_is_Some_2 (n_elements u) (a + pos)) as [e Hpe]; [lia|]. exists (a + pos), e. split; [lia|]. split; [done|]. split; [rewrite K5; by rewrite decide_True|].
      intros (q & f & Hq & Hf & Hrf).
      destruct (closest_ok (sol_info st1) a b L Hfin (range (a, b) (n_elements u)) ref) as (c & Hc & Hrc & Hmin); [apply HI| |].
      { exists f. split; [|done]. apply range_in. eauto. }
      rewrite <- K4' in Hc. rewrite lookup_range, decide_True in Hc by lia. assert (c = e) as -> by congruence. split; [done|].
      intros q' f' Hq' Hf' Hrf'. apply Hmin; [|done]. apply range_in. eauto. }
  destruct HA as [A1 A2 A3 A4 A5 A6 A7]. split; [rewrite S1; apply A1|]. split; [done|]. split; [done|]. split; [done|].
  split; [rewrite S2; apply A5|]. split; [rewrite S4; apply A5|]. done.
Qed.
Print Assumptions C94_next_population.

(** ** Initialization, selection and optimal solutions *)
(** C95: initialize stores every candidate's own rank and line, and how many candidates each
    line has. *)
Theorem C95_initialize (t : tolerances) sort reduce square (d : nat) (m lines : list (list b64)) (st : nsga3) :
  (forall A, sort_contract (sort A)) -> matrix d m -> 1 < d -> m <> [] -> lines <> [] -> Forall (fun l => length l = d) lines ->
  exists L st0 st', nonDominatedSort t m sort = Some L /\ nsga3_initialize t sort reduce square d (length m) m lines st = Some st' /\ nsga3_ok d st' /\
    ref_lines st0 = lines /\ componentwise_max d (fun r => r ∈ m) (ideal_point st0) /\ extreme_points st0 = [] /\
    (exists st1, associated reduce square d m L st0 st1 /\ sol_info st' = sol_info st1 /\ ref_lines st' = lines /\ ideal_point st' = ideal_point st1 /\ nadir_point st' = nadir_point st1 /\ extreme_points st' = extreme_points st1) /\
    (forall i r, (i, r) ∈ L -> exists c, sol_info st' !! i = Some c /\ c_rank c = r) /\ length (sol_info st') = length m /\
    (forall r, r < length lines -> niche_counts st' !! r = Some (length (filter (fun c => c_ref c = r) (sol_info st')))) /\
    (exact t -> nd_ranking (length m) (row_dominated m) L).
Proof.
  intros Hs Hm Hd Hne Hl Hld.
  destruct (C24_ens_terminates_partial t sort d m Hs Hm) as (L & E & HL1 & HL2).
  assert (EL : nonDominatedSort t m sort = Some L) by (unfold nonDominatedSort; by rewrite decide_False).
  assert (HnL : NoDup L.*1) by (rewrite HL1; apply NoDup_seq).
  assert (HbL : forall e, e ∈ L -> e.1 < length m).
  { intros e Hin. assert (G : e.1 ∈ L.*1) by (apply elem_of_list_fmap; eauto). rewrite HL1 in G. apply elem_of_seq in G. lia. }
  assert (HlenL : length L = length m) by (rewrite <- (fmap_length fst L), HL1; apply seq_length).
  destruct (maxFitness_ok d m Hm Hne) as (ideal & Ei & Fi & Hi).
  destruct (set_ranks_ok L (resize_info (length m) (sol_info st))) as (info & Einfo & Linfo & _ & Hrk).
  { intros e Hin. unfold resize_info. rewrite app_length, take_length, replicate_length. specialize (HbL e Hin). lia. }
  { done. }
  assert (Linfo' : length info = length m) by (rewrite Linfo; unfold resize_info; rewrite app_length, take_length, replicate_length; lia).
  set (niche := take (length lines) (niche_counts st) ++ replicate (length lines - length (niche_counts st)) 0).
  assert (Ln : length niche = length lines) by (unfold niche; rewrite app_length, take_length, replicate_length; lia).
  pose (st0 := Nsga3 lines info niche ideal (nadir_point st) []).
  assert (Hok0 : nsga3_ok d st0) by (split; [done|]; split; [done|]; split; [done|]; split; [apply Hi|constructor]).
  destruct (association_ok reduce square d m L st0) as (st1 & E1 & HA); try done; [lia|constructor|].
  assert (Hrow : Forall (fun r : list b64 => length r = d) m) by (eapply Forall_impl; [apply Hm|]; by intros ? []).
  destruct (associatePop_ok reduce square d m L st0) as (st1' & E1' & Hok1 & Ls & Href & _); try done; [lia|].
  assert (st1' = st1) as -> by congruence. clear E1'.
  destruct (recalc_ok (sol_info st1) L (niche_counts st1) Href) as (nc & En & Lnc & Cn).
  exists L, st0, (Nsga3 (ref_lines st1) (sol_info st1) nc (ideal_point st1) (nadir_point st1) (extreme_points st1)).
  destruct (as_lines _ _ _ _ _ _ _ HA) as [Al Anc].
  split; [done|]. split.
  { unfold nsga3_initialize. rewrite decide_True by (split; [by destruct m|lia]). rewrite Ei. cbn [mbind option_bind]. fold niche. rewrite EL. cbn [mbind option_bind].
    rewrite Einfo. cbn [mbind option_bind]. fold st0. rewrite E1. cbn [mbind option_bind]. rewrite En. done. }
  destruct Hok1 as (O1 & O2 & O3 & O4 & O5).
  split; [split; [done|]; split; [done|]; split; [cbn; lia|]; done|].
  split; [done|]. split; [done|]. split; [done|]. split.
  { exists st1. split; [done|]. cbn [sol_info ref_lines ideal_point nadir_point extreme_points]. done. }
  cbn [sol_info niche_counts]. split.
  { intros i r Hin. destruct (lookup_lt_is_Some_2 m i (HbL _ Hin)) as [f Hf]. destruct (as_members _ _ _ _ _ _ _ HA i r f Hin Hf) as (x & c & line & _ & Hc & (c0 & Hc0 & Hr) & _).
    exists c. split; [done|]. destruct (Hrk i r Hin) as (c' & Hc' & Hr'). cbn [sol_info st0] in Hc0. assert (c0 = c') as -> by congruence. congruence. }
  split; [done|]. split.
  { intros r Hr. assert (Hrl : r < length nc) by (rewrite Lnc, Anc; cbn; lia). destruct (lookup_lt_is_Some_2 nc r Hrl) as [k Hk]. rewrite Hk. f_equal.
    specialize (Cn r). unfold count_of in Cn. rewrite (nth_lookup_Some _ _ _ _ Hk) in Cn. rewrite Cn. unfold members.
    assert (G : forall (l : list element) is, l.*1 = is -> length (filter (fun e => ref_of (sol_info st1) e = r) l) = length (filter (fun i => c_ref (nth i (sol_info st1) (CInfo 0 0 fzero)) = r) is)).
    { clear. intros l is <-. induction l as [|e l IH]; [done|]. rewrite fmap_cons, !filter_cons. unfold ref_of at 1. repeat case_decide; cbn; try done. by rewrite IH. }
    rewrite (G L _ eq_refl), HL1, <- Ls. clear. generalize (sol_info st1). intros l. clear st1.
    assert (G : forall k pre, k = length l -> length (filter (fun i => c_ref (nth i (pre ++ l) (CInfo 0 0 fzero)) = r) (seq (length pre) k)) = length (filter (fun c => c_ref c = r) l)).
    { induction l as [|c l IH]; intros k pre ->; [done|]. cbn [length seq]. rewrite !filter_cons.
      assert (En : nth (length pre) (pre ++ c :: l) (CInfo 0 0 fzero) = c) by (rewrite app_nth2, Nat.sub_diag by lia; done). rewrite En.
      specialize (IH (length l) (pre ++ [c]) eq_refl). rewrite app_length in IH. cbn [length] in IH. rewrite Nat.add_1_r, <- app_assoc in IH. cbn [app] in IH.
      case_decide; cbn [length]; by rewrite IH. }
    exact (G (length l) [] eq_refl). }
  intros Hex. destruct (C22_nondominated_sort_ranks t sort d m Hex Hs Hm Hne) as (L' & E' & HL). by assert (L' = L) as -> by congruence.
Qed.
Print Assumptions C95_initialize.

(** C95: two candidates are drawn.  Of two candidates of the same line the one of lower rank is
    selected, or if the ranks are equal one that is not farther from the line; otherwise a
    coin decides. *)
Theorem C95_select (n : nat) (info : list cinfo) (s : stream) : 0 < n -> n = length info ->
  exists i1 i2 c1 c2 w s', randomInt 0 (Z.of_nat n - 1) s = Some (Z.of_nat i1, stail s) /\ randomInt 0 (Z.of_nat n - 1) (stail s) = Some (Z.of_nat i2, stail (stail s)) /\
    info !! i1 = Some c1 /\ info !! i2 = Some c2 /\ nsga3_select n info s = Some (w, s') /\
    (c_ref c1 <> c_ref c2 -> exists coin, randomBool (stail (stail s)) = Some (coin, s') /\ w = if (coin : bool) then i1 else i2) /\
    (c_ref c1 = c_ref c2 -> s' = stail (stail s) /\
      (c_rank c1 < c_rank c2 -> w = i1) /\ (c_rank c2 < c_rank c1 -> w = i2) /\
      (c_rank c1 = c_rank c2 -> w = if flt (c_dist c1) (c_dist c2) then i1 else i2)).
Proof.
  intros Hn Hl. destruct (randomInt_ok 0 (Z.of_nat n - 1) s) as (a & Ea & Ba); [lia|]. destruct (randomInt_ok 0 (Z.of_nat n - 1) (stail s)) as (b & Eb & Bb); [lia|].
  remember (Z.to_nat a) as i1 eqn:E1. remember (Z.to_nat b) as i2 eqn:E2. assert (a = Z.of_nat i1) as -> by lia. assert (b = Z.of_nat i2) as -> by lia.
  destruct (lookup_lt_is_Some_2 info i1 ltac:(lia)) as [c1 H1]. destruct (lookup_lt_is_Some_2 info i2 ltac:(lia)) as [c2 H2].
  assert (Hsel : nsga3_select n info s = ((rlet b <- nichedCompare info i1 i2; rret (if (b : bool) then i1 else i2)) : rand nat) (stail (stail s))).
  { unfold nsga3_select. rewrite rassert_true by (apply negb_true_iff, Nat.eqb_neq; lia). rewrite (rbind_eq _ _ _ _ _ Ea). cbv beta. rewrite (rbind_eq _ _ _ _ _ Eb). cbv beta.
    by rewrite !Nat2Z.id. }
  assert (Hcmp : nichedCompare info i1 i2 = (if Nat.eqb (c_ref c1) (c_ref c2) then rret (if Nat.eqb (c_rank c1) (c_rank c2) then flt (c_dist c1) (c_dist c2) else Nat.ltb (c_rank c1) (c_rank c2)) else randomBool) \/ True) by (by right).
  clear Hcmp.
  assert (Hcmp : forall q, nichedCompare info i1 i2 q = (if Nat.eqb (c_ref c1) (c_ref c2) then rret (if Nat.eqb (c_rank c1) (c_rank c2) then flt (c_dist c1) (c_dist c2) else Nat.ltb (c_rank c1) (c_rank c2)) else randomBool) q).
  { intros q. unfold nichedCompare. rewrite (rbind_eq _ _ _ _ _ (rlift_eq _ _ q H1)). cbv beta. rewrite (rbind_eq _ _ _ _ _ (rlift_eq _ _ q H2)). done. }
  exists i1, i2, c1, c2. destruct (Nat.eqb_spec (c_ref c1) (c_ref c2)) as [Hr|Hr].
  - eexists _, (stail (stail s)). split; [done|]. split; [done|]. split; [done|]. split; [done|]. split.
    { rewrite Hsel. erewrite rbind_eq by (rewrite Hcmp; reflexivity). reflexivity. }
    split; [done|]. intros _. split; [done|]. destruct (Nat.eqb_spec (c_rank c1) (c_rank c2)) as [Hk|Hk]; [split; [lia|]; split; [lia|]; done|].
    split; [intros Hlt; apply Nat.ltb_lt in Hlt; by rewrite Hlt|]. split; [|lia]. intros Hlt. destruct (Nat.ltb_spec (c_rank c1) (c_rank c2)); [lia|done].
  - assert (Hb : exists coin, randomBool (stail (stail s)) = Some (coin, stail (stail (stail s)))) by (eexists; reflexivity). destruct Hb as [coin Hb].
    exists (if (coin : bool) then i1 else i2), (stail (stail (stail s))). split; [done|]. split; [done|]. split; [done|]. split; [done|]. split.
    { rewrite Hsel. erewrite rbind_eq by (rewrite Hcmp; exact Hb). reflexivity. }
    split; [|done]. intros _. by exists coin.
Qed.
Print Assumptions C95_select.

(** Members of a population chosen by rank are undominated within it exactly if their rank is
    zero. *)
Lemma chosen_front (m : list (list b64)) (L : list (nat * nat)) (chosen : list nat) (k i r : nat) : nd_ranking (length m) (row_dominated m) L ->
  (forall i j r s, i ∈ chosen -> j ∉ chosen -> (i, r) ∈ L -> (j, s) ∈ L -> r <= s) -> (forall i, i ∈ chosen -> i < length m) ->
  chosen !! k = Some i -> (i, r) ∈ L -> (r = 0 <-> forall j, j ∈ chosen -> ~ row_dominated m i j).
Proof.
  intros HL Hrank Hmem Hk Hi. pose proof (elem_of_list_lookup_2 _ _ _ Hk) as Hc. split.
  - intros -> j Hj. apply (nr_zero _ _ _ HL) in Hi as [_ G]. apply G. by apply Hmem.
  - intros H. destruct r as [|r]; [done|]. exfalso. pose proof Hi as Hi'. apply (nr_succ _ _ _ HL) in Hi' as (_ & (j & Hj & Hdom) & _).
    destruct (decide (j ∈ chosen)) as [Hjc|Hjc]; [by apply (H j)|]. pose proof (Hrank i j (S r) r Hc Hjc Hi Hj). lia.
Qed.
Lemma optimal_mem {A} (p : A -> bool) (l : list A) k : k ∈ find_indices p l <-> exists x, l !! k = Some x /\ p x = true.
Proof. apply C13_find_indices. Qed.

(** C95: the optimal solutions NSGA-II and NSGA-III report after the population was chosen are
    the members that no member dominates, each once. *)
Theorem C95_optimal_nsga2 (t : tolerances) sort (d : nat) (m : list (list b64)) (popsize : nat) (ranks : list nat) :
  exact t -> (forall A, sort_contract (sort A)) -> matrix d m -> moderate m -> 0 < popsize <= length m -> popsize = length ranks ->
  exists chosen ranks' dists', nsga2_next t sort m d popsize ranks = Some (chosen, (ranks', dists')) /\
    NoDup (nsga2_optimal ranks') /\ forall k, k ∈ nsga2_optimal ranks' <-> exists i, chosen !! k = Some i /\ forall j, j ∈ chosen -> ~ row_dominated m i j.
Proof.
  intros Hex Hs Hm Hmod Hsz Hr. assert (Hne : m <> []) by (intros ->; cbn in Hsz; lia).
  destruct (C22_nondominated_sort_ranks t sort d m Hex Hs Hm Hne) as (L & E & HL).
  destruct (next_choice t sort d m popsize ranks L Hs Hm Hmod Hne Hsz ltac:(lia) E) as (c & r' & d' & H1 & HC & Hlen & Hrk).
  { split; [apply HL|]. exact (nr_sorted _ _ _ HL). }
  exists c, r', d'. split; [done|]. split.
  { apply NoDup_alt. intros a b x Ha Hb. destruct (C13_find_indices nat (fun r => Nat.eqb r 0) r') as [_ Hsorted].
    destruct (Nat.lt_trichotomy a b) as [Hab|[Hab|Hab]]; [|done|]; [pose proof (Hsorted a b x x Hab Ha Hb)|pose proof (Hsorted b a x x Hab Hb Ha)]; lia. }
  intros k. unfold nsga2_optimal. rewrite optimal_mem. split.
  - intros (r & Hk & Hr0). apply Nat.eqb_eq in Hr0 as ->. destruct (lookup_lt_is_Some_2 c k) as [i Hi]; [rewrite (cc_size _ _ _ _ _ _ HC); apply lookup_lt_Some in Hk; lia|].
    exists i. split; [done|]. destruct (Hrk k i Hi) as (r & Hk' & HiL). assert (r = 0) as -> by congruence.
    apply (chosen_front m L c k i 0 HL (cc_rank _ _ _ _ _ _ HC) (cc_members _ _ _ _ _ _ HC) Hi HiL). done.
  - intros (i & Hi & H). destruct (Hrk k i Hi) as (r & Hk & HiL). exists r. split; [done|]. apply Nat.eqb_eq.
    apply (chosen_front m L c k i r HL (cc_rank _ _ _ _ _ _ HC) (cc_members _ _ _ _ _ _ HC) Hi HiL). done.
Qed.
Print Assumptions C95_optimal_nsga2.
Theorem C95_optimal_nsga3 (t : tolerances) sort reduce square (d popsize : nat) (m : list (list b64)) (st : nsga3) (s : stream) :
  exact t -> (forall A, sort_contract (sort A)) -> matrix d m -> 0 < d -> nsga3_ok d st -> 0 < popsize < length m ->
  exists chosen st' s', nsga3_next t sort reduce square d popsize m st s = Some ((chosen, st'), s') /\
    NoDup (nsga3_optimal (sol_info st')) /\ forall k, k ∈ nsga3_optimal (sol_info st') <-> exists i, chosen !! k = Some i /\ forall j, j ∈ chosen -> ~ row_dominated m i j.
Proof.
  intros Hex Hs Hm Hd Hok Hsz. destruct (C47_next_population t sort reduce square d popsize m st s Hs Hm Hd Hok Hsz) as (L & c & st' & s' & E & H1 & HC & _ & Hdom & Hlen & Hrk).
  destruct (Hdom Hex) as [HL _]. clear Hdom. exists c, st', s'. split; [done|]. split.
  { apply NoDup_alt. intros a b x Ha Hb. destruct (C13_find_indices cinfo (fun i => Nat.eqb (c_rank i) 0) (sol_info st')) as [_ Hsorted].
    destruct (Nat.lt_trichotomy a b) as [Hab|[Hab|Hab]]; [|done|]; [pose proof (Hsorted a b x x Hab Ha Hb)|pose proof (Hsorted b a x x Hab Hb Ha)]; lia. }
  intros k. unfold nsga3_optimal. rewrite optimal_mem. split.
  - intros (x & Hk & Hr0). apply Nat.eqb_eq in Hr0. destruct (lookup_lt_is_Some_2 c k) as [i Hi]; [rewrite (rc_size _ _ _ _ HC); apply lookup_lt_Some in Hk; lia|].
    exists i. split; [done|]. destruct (Hrk k i Hi) as (x' & Hk' & HiL). assert (x' = x) as -> by congruence.
    apply (chosen_front m L c k i (c_rank x) HL (rc_rank _ _ _ _ HC) (rc_members _ _ _ _ HC) Hi HiL). done.
  - intros (i & Hi & H). destruct (Hrk k i Hi) as (x & Hk & HiL). exists x. split; [done|]. apply Nat.eqb_eq.
    apply (chosen_front m L c k i (c_rank x) HL (rc_rank _ _ _ _ HC) (rc_members _ _ _ _ HC) Hi HiL). done.
Qed.
Print Assumptions C95_optimal_nsga3.
(** The same after initialization. *)
Theorem C95_optimal_initial (t : tolerances) sort reduce square (d : nat) (m lines : list (list b64)) (st : nsga3) :
  exact t -> (forall A, sort_contract (sort A)) -> matrix d m -> 1 < d -> m <> [] -> lines <> [] -> Forall (fun l => length l = d) lines ->
  (exists ranks dists, nsga2_initialize t sort m d = Some (ranks, dists) /\ forall i, i ∈ nsga2_optimal ranks <-> i < length m /\ forall j, j < length m -> ~ row_dominated m i j) /\
  (exists st', nsga3_initialize t sort reduce square d (length m) m lines st = Some st' /\
    forall i, i ∈ nsga3_optimal (sol_info st') <-> i < length m /\ forall j, j < length m -> ~ row_dominated m i j).
Proof.
  intros Hex Hs Hm Hd Hne Hl Hld. split.
  - destruct (C46_initial_partial t sort d m Hex Hs Hm Hne) as (L & ranks & dists & HL & E & _ & _ & Hr & _). exists ranks, dists. split; [done|]. intros i.
    unfold nsga2_optimal. rewrite optimal_mem, <- (nr_zero _ _ _ HL), Hr. split; [intros (x & Hx & Ex); apply Nat.eqb_eq in Ex as ->; done|intros H; by exists 0].
  - destruct (C95_initialize t sort reduce square d m lines st Hs Hm Hd Hne Hl Hld) as (L & st0 & st' & EL & E & _ & _ & _ & _ & _ & Hrk & Hlen & _ & HL). specialize (HL Hex).
    exists st'. split; [done|]. intros i. unfold nsga3_optimal. rewrite optimal_mem, <- (nr_zero _ _ _ HL). split.
    + intros (x & Hx & Ex). apply Nat.eqb_eq in Ex. assert (Hi : i ∈ L.*1) by (rewrite (nr_once _ _ _ HL); apply elem_of_seq; apply lookup_lt_Some in Hx; lia).
      apply elem_of_list_fmap in Hi as ([i' r] & -> & Hi). destruct (Hrk _ _ Hi) as (c & Hc & Hr). cbn [fst] in *. assert (c = x) as -> by congruence. congruence.
    + intros H. destruct (Hrk i 0 H) as (c & Hc & Hr). exists c. split; [done|]. by apply Nat.eqb_eq.
Qed.
Print Assumptions C95_optimal_initial.

(** ** Concrete cases *)
Lemma fh2_val z : (Z.abs z <= 2 ^ 53)%Z -> is_finite (fh2 z) = true /\ B2R (fh2 z) = (IZR z / 2)%R.
Proof. intros H. destruct (fmk_val z (-1)) as (F & V & _); [lia|lia|]. split; [exact F|]. unfold fh2. rewrite V. change (bpow radix2 (-1)) with (/ 2)%R. done. Qed.
Lemma fh2_bound z : (Z.abs z <= 2 ^ 53)%Z -> (Rabs (B2R (fh2 z)) <= bpow radix2 900)%R.
Proof.
  intros H. destruct (fh2_val z H) as [_ ->]. apply Rle_trans with (bpow radix2 53); [|apply bpow_le; lia]. change (bpow radix2 53) with (IZR (2 ^ 53)).
  unfold Rdiv. rewrite Rabs_mult, (Rabs_pos_eq (/ 2)) by lra. rewrite <- abs_IZR. assert (IZR (Z.abs z) <= IZR (2 ^ 53))%R by (by apply IZR_le). assert (0 <= IZR (Z.abs z))%R by (apply IZR_le; lia). lra.
Qed.
Definition st_assoc : nsga3 := Nsga3 (ref_lines st_niche) (replicate 7 (CInfo 0 0 fzero)) [0; 0] (ideal_point st_niche) [] [].
Lemma line2_val : is_finite (fmk 5404319552844595 (-53)) = true /\ is_finite (fmk 3602879701896397 (-52)) = true /\
  B2R (fmk 5404319552844595 (-53)) = (5404319552844595 / 9007199254740992)%R /\ B2R (fmk 3602879701896397 (-52)) = (7205759403792794 / 9007199254740992)%R.
Proof.
  destruct (fmk_val 5404319552844595 (-53)) as (F1 & V1 & _); [lia|lia|]. destruct (fmk_val 3602879701896397 (-52)) as (F2 & V2 & _); [lia|lia|].
  split; [done|]. split; [done|]. rewrite V1, V2. change (bpow radix2 (-53)) with (/ 9007199254740992)%R. change (bpow radix2 (-52)) with (/ 4503599627370496)%R. split; [done|lra].
Qed.

(** The seven candidates and two lines of the C48 case meet every hypothesis of the C94
    theorems; the association computes lines for all of them. *)
Example C94_nonvacuous :
  0 < 2 /\ (Z.of_nat 2 <= 2 ^ 40)%Z /\ nsga3_ok 2 st_assoc /\ finite_vec (ideal_point st_assoc) /\ matrix 2 (extreme_points st_assoc) /\ matrix 2 m_niche /\ m_niche <> [] /\
  length (sol_info st_assoc) = length m_niche /\ NoDup ((fun i => (i, 0)) <$> seq 0 7).*1 /\ (forall e, e ∈ (fun i => (i, 0)) <$> seq 0 7 -> e.1 < length m_niche) /\
  Forall bounded_900 (ideal_point st_assoc :: m_niche ++ extreme_points st_assoc) /\ Forall (fun l => nn l /\ near_unit (/ 1000) l) (ref_lines st_assoc) /\ (/ 1000 <= / 4)%R /\
  (fun o : nsga3 => c_ref <$> sol_info o) <$> associatePopWithRefs sum_left sq m_niche ((fun i => (i, 0)) <$> seq 0 7) st_assoc = Some [0; 0; 0; 1; 0; 1; 1].
Proof.
  split; [lia|]. split; [lia|]. split; [split; [done|]; split; [by repeat constructor|]; split; [done|]; split; [done|constructor]|]. split; [by repeat constructor|]. split; [constructor|].
  split; [exact m_niche_matrix|]. split; [done|]. split; [done|]. split.
  { apply NoDup_ListNoDup. repeat constructor; cbn; intuition discriminate. }
  split. { intros e He. apply elem_of_list_fmap in He as (i & -> & Hi). apply elem_of_seq in Hi. cbn. lia. }
  split. { cbn [ideal_point st_assoc st_niche extreme_points app m_niche]. repeat (apply Forall_cons_2 || apply Forall_nil_2 || (apply fh2_bound; lia)). }
  split.
  { destruct line2_val as (F1 & F2 & V1 & V2). destruct (fh2_val 2) as [G1 W1]; [lia|]. destruct (fh2_val 0) as [G2 W2]; [lia|].
    cbn [ref_lines st_assoc st_niche]. repeat apply Forall_cons_2; try apply Forall_nil_2; (split; [|unfold near_unit, reals; cbn [fmap list_fmap rdot]; rewrite ?V1, ?V2, ?W1, ?W2; apply Rabs_le; lra]).
    - repeat apply Forall_cons_2; try apply Forall_nil_2; (split; [done|]); rewrite ?W1, ?W2; lra.
    - repeat apply Forall_cons_2; try apply Forall_nil_2; (split; [done|]); rewrite ?V1, ?V2; lra. }
  split; [lra|]. vm_compute. reflexivity.
Qed.

(** Initialization of the same candidates, the optimal ones, and a selection. *)
Example C95_nonvacuous :
  exact zero_tolerances /\ (forall A, sort_contract (isorts A)) /\ matrix 2 m_niche /\ 1 < 2 /\ m_niche <> [] /\ ref_lines st_niche <> [] /\ Forall (fun l => length l = 2) (ref_lines st_niche) /\
  (fun o : nsga3 => (c_ref <$> sol_info o, c_rank <$> sol_info o, niche_counts o, nsga3_optimal (sol_info o))) <$> nsga3_initialize zero_tolerances isorts sum_left sq 2 7 m_niche (ref_lines st_niche) st_niche =
    Some ([0; 0; 0; 1; 0; 1; 1], [0; 0; 0; 0; 1; 1; 1], [4; 3], [0; 1; 2; 3]) /\
  (fun o : (list nat * nsga3) * stream => (o.1.1, nsga3_optimal (sol_info o.1.2))) <$> nsga3_next zero_tolerances isorts sum_left sq 2 6 m_niche st_niche (stream_of []) = Some ([2; 1; 0; 3; 4; 5], [0; 1; 2; 3]) /\
  matrix 2 m_cut /\ moderate m_cut /\
  (fun o : list nat * (list nat * list b64) => (o.1, nsga2_optimal o.2.1)) <$> nsga2_next zero_tolerances isorts m_cut 2 3 [0; 0; 0] = Some ([4; 5; 0], [0; 1; 2]) /\
  fst <$> nsga3_select 2 [CInfo 1 3 fzero; CInfo 0 3 fzero] (stream_of [0; 1]%Z) = Some 1 /\
  fst <$> nsga3_select 2 [CInfo 0 3 (fh2 1); CInfo 0 3 (fh2 3)] (stream_of [0; 1]%Z) = Some 0 /\
  fst <$> nsga3_select 2 [CInfo 1 2 fzero; CInfo 0 3 fzero] (stream_of [0; 1; 1]%Z) = Some 0.
Proof.
  split; [exact zero_exact|]. split; [exact isorts_contract|]. split; [exact m_niche_matrix|]. split; [lia|]. split; [done|]. split; [done|]. split; [by repeat constructor|].
  split; [vm_compute; reflexivity|]. split; [vm_compute; reflexivity|]. split; [repeat constructor|]. split; [moderate_tac|]. split; [vm_compute; reflexivity|]. split; [vm_compute; reflexivity|]. split; vm_compute; reflexivity.
Qed.
