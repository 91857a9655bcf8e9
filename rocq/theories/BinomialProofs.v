(** Lemmas about randomBinomial and sampleCdf. *)
From Coq Require Import Reals ZArith Lra Lia.
From stdpp Require Import list list_numbers.
From Flocq Require Import Core BinarySingleNaN.
From Verif Require Import FloatBase FloatProofs RealCrossoverModel RealSpec RealProofs RandModel RandSpec RandProofs AlgorithmModel AlgorithmSpec AlgorithmProofs.

Local Open Scope Z_scope.
#[local] Existing Instance fexp_valid.

Lemma is_probability_ok p : is_probability p = true <-> probability p.
Proof.
  destruct fone_val as [F1 V1]. unfold is_probability, probability. split.
  - intros [H1 H2]%andb_prop. assert (Hn : is_nan p = false) by (by destruct p).
    rewrite fle_fval in H1, H2 by (done || by apply is_finite_not_nan). apply Rle_bool_iff in H1, H2.
    rewrite (fval_finite fone), V1 in H2 by done. cbn [fval fzero B2R] in H1.
    assert (F : is_finite p = true). { apply finite_of_val; [done|]. assert (1 < femax)%R by (apply (bpow_lt radix2 0 1024); lia). apply Rabs_def1; lra. }
    rewrite fval_finite in H1, H2 by done. done.
  - intros [F H]. apply andb_true_intro. rewrite !fle_fval by (done || by apply is_finite_not_nan).
    rewrite !fval_finite, V1 by done. cbn [fzero B2R]. rewrite !Rle_bool_true by lra. done.
Qed.

(** A double above [n] by at least a half is not below the double [n + 0.5]. *)
Lemma rnd_int_large (x : R) : generic_format radix2 (SpecFloat.fexp 53 1024) x -> (bpow radix2 52 <= x)%R -> exists k, x = IZR k.
Proof.
  intros F Hx. unfold generic_format in F. pose proof (bpow_gt_0 radix2 52).
  exists (Ztrunc (scaled_mantissa radix2 (SpecFloat.fexp 53 1024) x) * 2 ^ (cexp radix2 (SpecFloat.fexp 53 1024) x)).
  assert (Hm : 52 < mag radix2 x) by (apply mag_gt_bpow; rewrite Rabs_pos_eq; lra).
  assert (He : 0 <= cexp radix2 (SpecFloat.fexp 53 1024) x). { unfold cexp, SpecFloat.fexp, SpecFloat.emin. lia. }
  rewrite mult_IZR, <- bpow_IZR by done. exact F.
Qed.
Lemma round_below (x : b64) n : 0 <= n <= 2 ^ 64 -> is_finite x = true -> (B2R x < rnd (rnd (IZR n) + /2))%R -> (B2R x < IZR n + /2)%R.
Proof.
  intros Hn Fx Hx. destruct (Rlt_or_le (B2R x) (IZR n + /2)) as [H|H]; [done|]. exfalso.
  assert (Hhalf : bpow radix2 (-1) = (/2)%R) by reflexivity.
  destruct (Z.lt_ge_cases n (2 ^ 52)) as [Hs|Hl].
  - assert (E1 : rnd (IZR n) = IZR n). { destruct (fofZ_exact n) as [_ V]; [lia|]. rewrite <- V. apply rnd_id. }
    assert (E2 : rnd (IZR n + /2) = (IZR n + /2)%R).
    { destruct (fmk_val (2 * n + 1) (-1)) as (_ & V & _); [lia|lia|]. replace (IZR n + /2)%R with (B2R (fmk (2 * n + 1) (-1))); [apply rnd_id|].
      rewrite V, Hhalf, plus_IZR, mult_IZR. field. }
    rewrite E1, E2 in Hx. lra.
  - assert (Hnb : (bpow radix2 52 <= IZR n)%R) by (rewrite bpow_IZR by lia; by apply IZR_le).
    destruct (rnd_int_large (B2R x) (generic_format_B2R _ _ _)) as [k Hk]; [lra|].
    assert (Hrn : (bpow radix2 52 <= rnd (IZR n))%R) by (rewrite <- (bpow_fmt 52) by lia; by apply rnd_mono).
    destruct (rnd_int_large (rnd (IZR n))) as [j Hj]; [apply generic_format_round; [apply fexp_valid|apply valid_rnd_N]|done|].
    assert (Hkn : n < k). { apply lt_IZR. lra. }
    assert (Hjk : (rnd (IZR n) <= B2R x)%R). { rewrite <- (rnd_id x). apply rnd_mono. lra. }
    rewrite Hk, Hj in Hjk. apply le_IZR in Hjk.
    destruct (Z.eq_dec j k) as [->|Hne].
    + (* the double nearest to n is x itself *)
      assert (Hbig : 2 ^ 53 < n).
      { destruct (Z.lt_ge_cases (2 ^ 53) n) as [?|Hle]; [done|]. destruct (fofZ_exact n) as [_ V]; [lia|].
        assert (E : rnd (IZR n) = IZR n) by (rewrite <- V; apply rnd_id). rewrite E in Hj. apply eq_IZR in Hj. lia. }
      assert (Hle : (rnd (rnd (IZR n) + /2) <= B2R x)%R); [|lra].
      apply round_N_le_midp; [apply fexp_valid|apply generic_format_B2R|]. rewrite Hj, <- Hk.
      assert (Hxp : (bpow radix2 53 <= B2R x)%R). { rewrite Hk, bpow_IZR by lia. apply IZR_le. lia. }
      pose proof (bpow_gt_0 radix2 53) as Hpos. rewrite succ_eq_pos by lra. rewrite ulp_neq_0 by lra.
      assert (Hm : 53 < mag radix2 (B2R x)) by (apply mag_gt_bpow; rewrite Rabs_pos_eq; lra).
      assert (Hu : (bpow radix2 1 <= bpow radix2 (cexp radix2 (SpecFloat.fexp 53 1024) (B2R x)))%R).
      { apply bpow_le. unfold cexp, SpecFloat.fexp, SpecFloat.emin. lia. }
      change (bpow radix2 1) with 2%R in Hu. lra.
    + assert (Hle : (rnd (rnd (IZR n) + /2) <= B2R x)%R); [|lra]. rewrite <- (rnd_id x). apply rnd_mono. rewrite Hj, Hk.
      assert (j + 1 <= k) as Hjk'%IZR_le by lia. rewrite plus_IZR in Hjk'. lra.
Qed.
Lemma fround_bounds x n : 0 <= n <= 2 ^ 64 -> is_finite x = true -> (- / 2 < B2R x)%R -> (B2R x < IZR n + /2)%R ->
  exists v, fround x = Some v /\ 0 <= v <= n.
Proof.
  intros Hn Fx H1 H2. rewrite (fround_val x Fx). eexists. split; [reflexivity|]. destruct (Rlt_dec (B2R x) 0) as [Hneg|Hpos].
  - assert (E : Zfloor (- B2R x + / 2) = 0) by (apply Zfloor_imp; rewrite plus_IZR; lra). rewrite E. lia.
  - assert (Hfl : 0 <= Zfloor (B2R x + /2)) by (apply Zfloor_lub; lra). split; [done|].
    assert (Zfloor (B2R x + /2) < n + 1); [|lia]. apply lt_IZR. rewrite plus_IZR. apply Rle_lt_trans with (B2R x + /2)%R; [apply Zfloor_lb|lra].
Qed.
(** The acceptance test of the normal approximation. *)
Lemma accepted_round x n : 0 <= n <= 2 ^ 64 -> flt (fneg fhalf) x = true -> flt x (fadd (fofZ n) fhalf) = true ->
  exists v, fround x = Some v /\ 0 <= v <= n.
Proof.
  intros Hn H1 H2. destruct fhalf_val as [Fh Vh]. destruct (fofZ_val n) as [Fn Vn]; [lia|].
  assert (Nx : is_nan x = false) by (by destruct x).
  assert (Hrn : (0 <= rnd (IZR n) <= bpow radix2 64)%R).
  { split; [rewrite <- rnd_0; apply rnd_mono, IZR_le; lia|]. rewrite <- (bpow_fmt 64) by lia. apply rnd_mono. rewrite bpow_IZR by lia. apply IZR_le; lia. }
  assert (H64 : (bpow radix2 64 + /2 <= bpow radix2 65)%R).
  { change 65 with (64 + 1). rewrite bpow_plus. change (bpow radix2 1) with 2%R. pose proof (bpow_le radix2 0 64 ltac:(lia)) as H. cbn [bpow] in H |- *. lra. }
  destruct (fadd_le (fofZ n) fhalf 65 Fn Fh) as (Fs & Vs & Bs); [lia|rewrite Vn, Vh; rewrite Rabs_pos_eq by lra; lra|].
  assert (Es : B2R (fadd (fofZ n) fhalf) = rnd (rnd (IZR n) + /2)).
  { rewrite Vs, Vn, Vh. unfold srnd. apply sat_id. assert (0 <= rnd (rnd (IZR n) + /2))%R by (rewrite <- rnd_0; apply rnd_mono; lra).
    assert (rnd (rnd (IZR n) + /2) <= bpow radix2 65)%R. { rewrite <- (bpow_fmt 65) by lia. apply rnd_mono. lra. }
    pose proof (bpow_lt_femax 65 ltac:(lia)). pose proof femax_pos. lra. }
  assert (Fneg : is_finite (fneg fhalf) = true) by done.
  rewrite flt_fval in H1, H2 by (done || by apply is_finite_not_nan). apply Rlt_bool_iff in H1, H2.
  rewrite (fval_finite (fadd _ _)) in H2 by done. rewrite fneg_val, fval_finite, Vh in H1 by done.
  assert (Fx : is_finite x = true).
  { apply finite_of_val; [done|]. apply Rabs_le_inv in Bs. pose proof (bpow_lt_femax 65 ltac:(lia)). pose proof (bpow_gt_0 radix2 65).
    assert (1 < femax)%R by (apply (bpow_lt radix2 0 1024); lia). apply Rabs_def1; lra. }
  rewrite fval_finite in H1, H2 by done. apply fround_bounds; [done|done|done|]. apply round_below; [done|done|]. by rewrite <- Es.
Qed.

Lemma normal_loop_accepts fuel lo hi mean sd s x s' : normal_loop fuel lo hi mean sd s = Some (x, s') -> flt lo x = true /\ flt x hi = true.
Proof.
  revert s. induction fuel as [|fuel IH]; intros s H; [done|]. cbn [normal_loop] in H. apply rbind_Some in H as (y & s1 & _ & H).
  destruct (flt lo y && flt y hi) eqn:E; [|by apply IH in H]. injection H as <- _. by apply andb_prop in E.
Qed.
Lemma poisson_loop_le fuel n mean s x s' : poisson_loop fuel n mean s = Some (x, s') -> 0 <= x <= n.
Proof.
  revert s. induction fuel as [|fuel IH]; intros s H; [done|]. cbn [poisson_loop] in H. apply rbind_Some in H as (y & s1 & Hy & H).
  unfold randomPoisson in Hy. apply rassert_Some in Hy as [_ Hy]. unfold rbind, rnext, rret in Hy. cbn [mbind option_bind] in Hy. injection Hy as <- _.
  destruct (Z.ltb_spec n (std_poisson (s 0%nat) mod 2 ^ 64)); [by apply IH in H|]. injection H as <- _.
  pose proof (Z.mod_pos_bound (std_poisson (s 0%nat)) (2 ^ 64) ltac:(lia)). lia.
Qed.
Lemma exact_loop_ok p : forall n res s, exists v s', exact_loop n p res s = Some (v, s') /\ res <= v <= res + Z.of_nat n.
Proof.
  induction n as [|n IH]; intros res s; [exists res, s; split; [done|lia]|]. cbn [exact_loop].
  destruct (randomReal_draw s) as (r & Hr & _). rewrite (rbind_eq _ _ _ _ _ Hr).
  destruct (IH (if fle r p then res + 1 else res) (stail s)) as (v & s' & Hv & Bv). exists v, s'. split; [done|]. destruct (fle r p); lia.
Qed.

Lemma randomBinomial_range fuel n p s v s' : 0 <= n <= 2 ^ 64 -> randomBinomial fuel n p s = Some (v, s') -> 0 <= v <= n.
Proof.
  intros Hn H. unfold randomBinomial in H. apply rassert_Some in H as [_ H]. apply rassert_Some in H as [_ H]. cbn zeta in H.
  destruct ((50 <? n) && _ || _).
  - unfold randomBinomialApproxPoisson in H. apply rassert_Some in H as [_ H]. apply rassert_Some in H as [_ H].
    destruct (feq p fzero); [injection H as <- _; lia|]. destruct (feq p fone); [injection H as <- _; lia|]. by apply poisson_loop_le in H.
  - cbn [negb andb] in H. destruct (5 <? n).
    + unfold randomBinomialApproxNormal in H. apply rassert_Some in H as [_ H]. apply rassert_Some in H as [_ H]. cbn zeta in H.
      apply rbind_Some in H as (x & s1 & Hx & H). apply normal_loop_accepts in Hx as [H1 H2].
      destruct (accepted_round x n Hn H1 H2) as (w & Hw & Bw). unfold rlift in H. rewrite Hw in H. cbn [mbind option_bind] in H. by injection H as <- _.
    + unfold randomBinomialExact in H. apply rassert_Some in H as [_ H]. apply rassert_Some in H as [_ H].
      destruct (exact_loop_ok p (Z.to_nat n) 0 s) as (w & s1 & Hw & Bw). rewrite Hw in H. injection H as <- _. lia.
Qed.

(** ** The loops end at the first acceptable draw *)
Definition sdrop (k : nat) (s : stream) : stream := fun n => s (k + n)%nat.
Lemma poisson_loop_ends fuel n mean s k : flt fzero mean = true -> (k < fuel)%nat -> std_poisson (s k) mod 2 ^ 64 <= n ->
  exists v s', poisson_loop fuel n mean s = Some (v, s').
Proof.
  intros Hm. revert fuel s. induction k as [|k IH]; intros [|fuel] s Hk Hs; try lia; cbn [poisson_loop];
    unfold randomPoisson; rewrite rassert_true by done; unfold rbind, rnext, rret; cbn [mbind option_bind].
  - destruct (Z.ltb_spec n (std_poisson (s 0%nat) mod 2 ^ 64)); [lia|eauto].
  - destruct (Z.ltb_spec n (std_poisson (s 0%nat) mod 2 ^ 64)); [|eauto]. apply IH; [lia|]. exact Hs.
Qed.
Lemma normal_loop_ends fuel lo hi mean sd s k : fle fzero sd = true -> (k < fuel)%nat ->
  flt lo (fadd (fmul sd (std_normal (s k))) mean) = true -> flt (fadd (fmul sd (std_normal (s k))) mean) hi = true ->
  exists v s', normal_loop fuel lo hi mean sd s = Some (v, s').
Proof.
  intros Hm. revert fuel s. induction k as [|k IH]; intros [|fuel] s Hk H1 H2; try lia; cbn [normal_loop];
    unfold randomNormal; rewrite rassert_true by done; unfold rbind, rnext, rret; cbn [mbind option_bind].
  - rewrite H1, H2. eauto.
  - destruct (_ && _); [eauto|]. apply IH; [lia|done|done].
Qed.

(** Mean and deviation of the normal approximation. *)
Lemma fsqrt_nonneg x : is_finite x = true -> (0 <= B2R x)%R -> is_finite (fsqrt x) = true /\ (0 <= B2R (fsqrt x))%R.
Proof.
  intros Fx Hx. unfold fsqrt. pose proof (Bsqrt_correct 53 1024 _ _ mode_NE x) as (H1 & H2 & _). split.
  - rewrite H2. destruct x as [| | |s m e Hb]; try done. destruct s; [|done]. exfalso. cbn -[F2R] in Hx.
    pose proof (F2R_lt_0 radix2 (Float radix2 (Z.neg m) e) ltac:(done)). change (- Z.pos m) with (Z.neg m) in Hx. lra.
  - rewrite H1. rewrite <- (rnd_0). apply rnd_mono. apply sqrt_pos.
Qed.
Lemma prob_mean n p : 0 <= n <= 2 ^ 64 -> probability p ->
  is_finite (fmul (fofZ n) p) = true /\ B2R (fmul (fofZ n) p) = rnd (rnd (IZR n) * B2R p) /\ (0 <= B2R (fmul (fofZ n) p) <= rnd (IZR n))%R /\
  (rnd (IZR n) <= bpow radix2 64)%R.
Proof.
  intros Hn [Fp Hp]. destruct (fofZ_val n) as [Fn Vn]; [lia|].
  assert (Hrn : (0 <= rnd (IZR n) <= bpow radix2 64)%R).
  { split; [rewrite <- rnd_0; apply rnd_mono, IZR_le; lia|]. rewrite <- (bpow_fmt 64) by lia. apply rnd_mono. rewrite bpow_IZR by lia. apply IZR_le; lia. }
  assert (Hx : (0 <= rnd (IZR n) * B2R p <= rnd (IZR n))%R) by nra.
  destruct (fmul_le (fofZ n) p 64 Fn Fp) as (F & V & B); [lia|rewrite Vn, Rabs_pos_eq by lra; lra|].
  assert (Hr : (0 <= rnd (rnd (IZR n) * B2R p) <= rnd (IZR n))%R).
  { split; [rewrite <- rnd_0; apply rnd_mono; lra|]. rewrite <- Vn at 2. rewrite <- (rnd_id (fofZ n)). rewrite Vn. apply rnd_mono. lra. }
  assert (E : B2R (fmul (fofZ n) p) = rnd (rnd (IZR n) * B2R p)).
  { rewrite V, Vn. unfold srnd. apply sat_id. pose proof (bpow_lt_femax 64 ltac:(lia)). pose proof femax_pos. lra. }
  split; [done|]. split; [done|]. rewrite E. split; [done|]. lra.
Qed.
Lemma normal_dev n p : 0 <= n <= 2 ^ 64 -> probability p ->
  let sd := fsqrt (fmul (fmul (fofZ n) p) (fsub fone p)) in is_finite sd = true /\ fle fzero sd = true.
Proof.
  intros Hn Hp sd. destruct (prob_mean n p Hn Hp) as (Fm & _ & Hm & Hb). destruct Hp as [Fp Hp]. destruct fone_val as [F1 V1].
  destruct (fsub_le fone p 0 F1 Fp) as (Fs & Vs & Bs); [lia|rewrite V1; cbn [bpow]; apply Rabs_le; lra|]. cbn [bpow] in Bs.
  assert (Hs : (0 <= B2R (fsub fone p))%R) by (rewrite Vs, V1; apply srnd_ge_0; lra).
  rewrite Rabs_pos_eq in Bs by done.
  destruct (fmul_le (fmul (fofZ n) p) (fsub fone p) 64 Fm Fs) as (Fv & Vv & _); [lia|rewrite Rabs_pos_eq by nra; nra|].
  assert (Hv : (0 <= B2R (fmul (fmul (fofZ n) p) (fsub fone p)))%R) by (rewrite Vv; apply srnd_ge_0; nra).
  destruct (fsqrt_nonneg _ Fv Hv) as [Fq Hq]. split; [done|].
  rewrite fle_fval by (done || by apply is_finite_not_nan). rewrite fval_finite by done. rewrite (fval_finite sd) by done. cbn [B2R fzero]. by apply Rle_bool_true.
Qed.
(** With p = 0 the Poisson branch returns 0, with p = 1 the normal branch has no deviation. *)
Lemma fmul_zero_l sd z : is_finite sd = true -> is_finite z = true -> B2R z = 0%R -> is_finite (fmul sd z) = true /\ B2R (fmul sd z) = 0%R.
Proof.
  intros F1 F2 Hz. destruct (fmul_le sd z 0 F1 F2) as (F & V & _); [lia|rewrite Hz, Rmult_0_r, Rabs_R0; apply bpow_ge_0|].
  split; [done|]. by rewrite V, Hz, Rmult_0_r, srnd_0.
Qed.
Lemma randomBinomial_ends fuel n p s k : 0 <= n < 2 ^ 52 -> probability p -> (k < fuel)%nat ->
  std_poisson (s k) mod 2 ^ 64 <= n -> is_finite (std_normal (s k)) = true -> B2R (std_normal (s k)) = 0%R ->
  exists v s', randomBinomial fuel n p s = Some (v, s').
Proof.
  intros Hn Hp Hk Hpoi Fz Hz. assert (Hpb : is_probability p = true) by (by apply is_probability_ok).
  unfold randomBinomial. rewrite !rassert_true by (lia || done). cbn zeta.
  destruct (prob_mean n p ltac:(lia) Hp) as (Fm & Vm & Hm & _).
  assert (En : rnd (IZR n) = IZR n). { destruct (fofZ_exact n) as [_ V]; [lia|]. rewrite <- V. apply rnd_id. }
  destruct ((50 <? n) && _ || _) eqn:Epoi.
  - unfold randomBinomialApproxPoisson. rewrite !rassert_true by (lia || done).
    destruct (feq p fzero) eqn:E0; [eauto|]. destruct (feq p fone) eqn:E1; [eauto|].
    destruct Hp as [Fp Hp]. apply (poisson_loop_ends fuel n _ s k); [|done|done].
    rewrite feq_fval in E0 by (done || by apply is_finite_not_nan). rewrite !fval_finite in E0 by done. cbn [fzero B2R] in E0.
    revert E0. case Req_bool_spec; [done|]. intros Hpne _.
    rewrite flt_fval by (done || by apply is_finite_not_nan). rewrite !fval_finite by done. cbn [fzero B2R]. apply Rlt_bool_true.
    rewrite Vm, En. assert (Hn1 : 1 <= n). { apply orb_prop in Epoi as [E|E]; apply andb_prop in E as [E _]; [|apply andb_prop in E as [E _]]; lia. }
    apply Rlt_le_trans with (B2R p); [lra|]. rewrite <- (rnd_id p) at 1. apply rnd_mono. apply IZR_le in Hn1. nra.
  - cbn [negb andb]. destruct (5 <? n) eqn:E5.
    + unfold randomBinomialApproxNormal. rewrite !rassert_true by (lia || done). cbn zeta.
      destruct (normal_dev n p ltac:(lia) Hp) as [Fs Hs]. destruct (fmul_zero_l _ _ Fs Fz Hz) as [Fzz Vzz].
      destruct fhalf_val as [Fh Vh]. destruct (fofZ_val n) as [Fn Vn]; [lia|].
      destruct (fadd_le (fmul (fsqrt (fmul (fmul (fofZ n) p) (fsub fone p))) (std_normal (s k))) (fmul (fofZ n) p) 64 Fzz Fm) as (Fx & Vx & _); [lia| |].
      { rewrite Vzz, Rplus_0_l, Rabs_pos_eq by lra. rewrite En in Hm. rewrite bpow_IZR by lia. assert (n <= 2 ^ 64) as H%IZR_le by lia. lra. }
      rewrite Vzz, Rplus_0_l, srnd_id in Vx by done.
      destruct (fadd_le (fofZ n) fhalf 65 Fn Fh) as (Fa & Va & _); [lia| |].
      { rewrite Vn, Vh, En, Rabs_pos_eq by (apply Rplus_le_le_0_compat; [apply IZR_le; lia|lra]). rewrite bpow_IZR by lia.
        assert (n + 1 <= 2 ^ 65) as H%IZR_le by lia. rewrite plus_IZR in H. lra. }
      assert (Ea : B2R (fadd (fofZ n) fhalf) = (IZR n + /2)%R).
      { destruct (fmk_val (2 * n + 1) (-1)) as (F & V & _); [lia|lia|].
        assert (E : (IZR n + /2)%R = B2R (fmk (2 * n + 1) (-1))).
        { rewrite V, plus_IZR, mult_IZR. change (bpow radix2 (-1)) with (/2)%R. field. }
        rewrite Va, Vn, Vh, En, E. by apply srnd_id. }
      destruct (normal_loop_ends fuel (fneg fhalf) (fadd (fofZ n) fhalf) (fmul (fofZ n) p) _ s k Hs Hk) as (x & s' & Hx).
      * rewrite flt_fval by (done || by apply is_finite_not_nan). rewrite fneg_val, !fval_finite, Vh, Vx by done. apply Rlt_bool_true. lra.
      * rewrite flt_fval by (done || by apply is_finite_not_nan). rewrite !fval_finite, Vx, Ea by done. apply Rlt_bool_true. lra.
      * rewrite (rbind_eq _ _ _ _ _ Hx). apply normal_loop_accepts in Hx as [H1 H2].
        destruct (accepted_round x n ltac:(lia) H1 H2) as (w & Hw & _). rewrite (rlift_eq _ _ _ Hw). eauto.
    + unfold randomBinomialExact. rewrite !rassert_true by (lia || done).
      destruct (exact_loop_ok p (Z.to_nat n) 0 s) as (w & s1 & Hw & _). eauto.
Qed.

(** ** sampleCdf *)
Lemma head_lookup_0 {A} (l : list A) : head l = l !! 0%nat. Proof. by destruct l. Qed.
Lemma scaled_le back r : is_finite back = true -> (0 <= B2R back)%R -> draw r ->
  is_finite (fadd fzero (fmul (fsub back fzero) r)) = true /\ B2R (fadd fzero (fmul (fsub back fzero) r)) = rnd (B2R back * B2R r).
Proof.
  intros Fb Hb (Fr & _ & Hr). assert (F0 : is_finite fzero = true) by done.
  pose proof (fval_finite_bound _ Fb) as Bb. rewrite fval_finite in Bb by done.
  destruct (fsub_finite back fzero Fb F0) as [N1 V1]. cbn [fzero B2R] in V1. rewrite Rminus_0_r, srnd_id in V1 by done.
  assert (F1 : is_finite (fsub back fzero) = true) by (apply finite_of_val; [done|]; rewrite V1; apply Rabs_def1; lra).
  rewrite fval_finite in V1 by done.
  destruct (fmul_finite _ _ F1 Fr) as [N2 V2]. rewrite V1 in V2.
  assert (Hr2 : (0 <= rnd (B2R back * B2R r) <= B2R back)%R).
  { split; [rewrite <- rnd_0; apply rnd_mono; nra|]. rewrite <- (rnd_id back) at 2. apply rnd_mono. nra. }
  assert (E2 : fval (fmul (fsub back fzero) r) = rnd (B2R back * B2R r)). { rewrite V2. unfold srnd. apply sat_id. lra. }
  assert (F2 : is_finite (fmul (fsub back fzero) r) = true) by (apply finite_of_val; [done|]; rewrite E2; apply Rabs_def1; lra).
  destruct (fadd_finite fzero _ F0 F2) as [N3 V3]. cbn [fzero B2R] in V3. rewrite Rplus_0_l, srnd_id in V3 by done.
  rewrite fval_finite in E2 by done. rewrite E2 in V3.
  assert (F3 : is_finite (fadd fzero (fmul (fsub back fzero) r)) = true) by (apply finite_of_val; [done|]; cbn [fzero]; rewrite V3; apply Rabs_def1; lra).
  split; [done|]. rewrite <- fval_finite by done. exact V3.
Qed.
Lemma sampleCdf_ok cdf back s : is_cdf cdf -> last cdf = Some back ->
  exists i r, sampleCdf cdf s = Some (i, stail s) /\ randomReal s = Some (r, stail s) /\ (i < length cdf)%nat /\
    (exists x, cdf !! i = Some x /\ (rnd (B2R back * B2R r) <= B2R x)%R) /\
    forall j y, (j < i)%nat -> cdf !! j = Some y -> (B2R y < rnd (B2R back * B2R r))%R.
Proof.
  intros [Hall Hord] Hback. rewrite Forall_forall in Hall.
  assert (Hbl : cdf !! Nat.pred (length cdf) = Some back) by (by rewrite <- last_lookup).
  destruct (Hall back) as [Fb Hb]; [by eapply elem_of_list_lookup_2|].
  assert (Hlen : (0 < length cdf)%nat) by (destruct cdf; [done|cbn; lia]).
  destruct (lookup_lt_is_Some_2 cdf 0 Hlen) as [front Hfront].
  destruct (Hall front) as [Ff Hf]; [by eapply elem_of_list_lookup_2|].
  destruct (randomReal_draw s) as (r & Hr & Dr). destruct (scaled_le back r Fb Hb Dr) as [Ft Vt].
  unfold sampleCdf. rewrite head_lookup_0. rewrite (rbind_eq _ _ _ _ _ (rlift_eq _ _ _ Hfront)), (rbind_eq _ _ _ _ _ (rlift_eq _ _ _ Hback)).
  rewrite rassert_true. 2: { rewrite fle_fval by (done || by apply is_finite_not_nan). rewrite !fval_finite by done. by apply Rle_bool_true. }
  unfold randomReal_between. rewrite rassert_true. 2: { rewrite fle_fval by (done || by apply is_finite_not_nan). rewrite !fval_finite by done. by apply Rle_bool_true. }
  remember (fadd fzero (fmul (fsub back fzero) r)) as t eqn:Et.
  assert (Hbt : rbind randomReal (λ r0, rret (fadd fzero (fmul (fsub back fzero) r0))) s = Some (t, stail s)).
  { rewrite (rbind_eq _ _ _ _ _ Hr). unfold rret. by rewrite Et. }
  rewrite (rbind_eq _ _ _ _ _ Hbt). clear Hbt.
  assert (Hcmp : forall x, x ∈ cdf -> flt x t = Rlt_bool (B2R x) (rnd (B2R back * B2R r))).
  { intros x Hx. destruct (Hall x Hx) as [Fx _]. rewrite flt_fval by (by apply is_finite_not_nan). by rewrite !fval_finite, Vt by done. }
  assert (Hpart : partitioned (fun x => flt x t) cdf).
  { intros i j x y Hij Hx Hy. rewrite !Hcmp by (by eapply elem_of_list_lookup_2). intros H.
    pose proof (Hord i j x y ltac:(lia) Hx Hy). revert H. case Rlt_bool_spec; [done|]. intros H1 _. apply Rlt_bool_false. lra. }
  destruct (lower_bound_ok flt cdf t Hpart) as (i & Hi & Hle & Hbefore & Hat).
  exists i, r. rewrite (rlift_eq _ _ _ Hi). split; [done|]. split; [done|].
  assert (Hthr : (rnd (B2R back * B2R r) <= B2R back)%R).
  { destruct Dr as (_ & _ & Hr1). rewrite <- (rnd_id back) at 2. apply rnd_mono. nra. }
  assert (Hilt : (i < length cdf)%nat).
  { destruct (decide (i = length cdf)) as [->|]; [|lia]. exfalso. pose proof (Hbefore (Nat.pred (length cdf)) back ltac:(lia) Hbl) as H.
    rewrite Hcmp in H by (by eapply elem_of_list_lookup_2). apply Rlt_bool_iff in H. lra. }
  split; [done|]. destruct (lookup_lt_is_Some_2 cdf i Hilt) as [x Hx]. split.
  - exists x. split; [done|]. pose proof (Hat x Hx) as H. rewrite Hcmp in H by (by eapply elem_of_list_lookup_2). revert H. by case Rlt_bool_spec.
  - intros j y Hj Hy. pose proof (Hbefore j y Hj Hy) as H. rewrite Hcmp in H by (by eapply elem_of_list_lookup_2). by apply Rlt_bool_iff in H.
Qed.
