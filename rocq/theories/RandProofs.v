(** Lemmas about the random number helpers. *)
From Coq Require Import Reals ZArith Lra Lia.
From stdpp Require Import list list_numbers.
From Flocq Require Import Core BinarySingleNaN.
From Verif Require Import FloatBase FloatProofs RealCrossoverModel RealSpec RealProofs RandModel RandSpec AlgorithmModel AlgorithmSpec AlgorithmProofs.

Local Open Scope Z_scope.

(** ** Integers and doubles *)
Lemma fexp_valid : Valid_exp (SpecFloat.fexp 53 1024). Proof. apply fexp_correct; reflexivity. Qed.
#[local] Existing Instance fexp_valid.
Lemma bpow_IZR (e : Z) : 0 <= e -> bpow radix2 e = IZR (2 ^ e).
Proof. intros H. rewrite <- (IZR_Zpower radix2 e H). done. Qed.

Lemma fofZ_val z : Z.abs z <= 2 ^ 64 -> is_finite (fofZ z) = true /\ B2R (fofZ z) = rnd (IZR z).
Proof.
  intros Hz. pose proof (binary_normalize_correct 53 1024 b64_prec b64_emax mode_NE z 0 false) as H. cbn zeta in H. cbn [round_mode] in H.
  assert (Hf : F2R (Float radix2 z 0) = IZR z) by (unfold F2R; cbn; lra). rewrite Hf in H.
  rewrite Rlt_bool_true in H.
  - destruct H as (H1 & H2 & _). done.
  - assert (Hb : (Rabs (IZR z) <= bpow radix2 64)%R). { rewrite <- abs_IZR, bpow_IZR by lia. by apply IZR_le. }
    apply Rabs_le_inv in Hb. apply Rle_lt_trans with (bpow radix2 64); [|apply bpow_lt; lia].
    apply Rabs_le. split.
    + rewrite <- (bpow_fmt 64), <- rnd_opp by lia. apply rnd_mono. lra.
    + rewrite <- (bpow_fmt 64) by lia. apply rnd_mono. lra.
Qed.
Lemma fofZ_exact z : Z.abs z <= 2 ^ 53 -> is_finite (fofZ z) = true /\ B2R (fofZ z) = IZR z.
Proof.
  intros Hz. destruct (fmk_val z 0) as (H1 & H2 & _); [done|lia|]. split; [done|]. unfold fofZ. rewrite H2. cbn. lra.
Qed.

Lemma F2R_neg_exp m e : e < 0 -> F2R (Float radix2 m e) = (IZR m / IZR (2 ^ (- e)))%R.
Proof. intros He. unfold F2R. cbn [Fnum Fexp]. rewrite <- bpow_IZR by lia. unfold Rdiv. rewrite <- bpow_opp. do 2 f_equal. lia. Qed.
Lemma Zfloor_div_IZR m d : 0 < d -> Zfloor (IZR m / IZR d) = m / d.
Proof. intros H. apply Zfloor_div. lia. Qed.
Lemma fmag_floor_val m e : fmag_floor m e = Zfloor (F2R (Float radix2 (Zpos m) e)).
Proof.
  unfold fmag_floor. destruct (Z.leb_spec 0 e) as [He|He].
  - unfold F2R. cbn [Fnum Fexp]. rewrite bpow_IZR by done. rewrite <- mult_IZR. by rewrite Zfloor_IZR.
  - rewrite F2R_neg_exp by lia. rewrite Zfloor_div_IZR by (apply Z.pow_pos_nonneg; lia). done.
Qed.
Lemma fmag_round_val m e : fmag_round m e = Zfloor (F2R (Float radix2 (Zpos m) e) + /2).
Proof.
  unfold fmag_round. destruct (Z.leb_spec 0 e) as [He|He].
  - unfold F2R. cbn [Fnum Fexp]. rewrite bpow_IZR by done. rewrite <- mult_IZR. symmetry. apply Zfloor_imp. rewrite plus_IZR. lra.
  - rewrite F2R_neg_exp by lia. assert (Hp : 0 < 2 ^ (- e)) by (apply Z.pow_pos_nonneg; lia).
    replace (IZR (Zpos m) / IZR (2 ^ (- e)) + / 2)%R with (IZR (2 * Zpos m + 2 ^ (- e)) / IZR (2 ^ (1 - e)))%R.
    + rewrite Zfloor_div_IZR; [done|]. apply Z.pow_pos_nonneg; lia.
    + replace (1 - e) with (- e + 1) by lia. rewrite Z.pow_add_r by lia. rewrite plus_IZR, !mult_IZR. apply IZR_lt in Hp. change (2 ^ 1) with 2. field. lra.
Qed.
Lemma ftrunc_val x : is_finite x = true -> (0 <= B2R x)%R -> ftrunc x = Some (Zfloor (B2R x)).
Proof.
  intros Hf Hx. destruct x as [s| | |s m e Hb]; try done; cbn -[F2R] in *.
  - by rewrite (Zfloor_IZR 0).
  - destruct s.
    + exfalso. pose proof (F2R_lt_0 radix2 (Float radix2 (Z.neg m) e) ltac:(done)). cbn [cond_Zopp] in Hx. change (- Z.pos m) with (Z.neg m) in Hx. lra.
    + by rewrite fmag_floor_val.
Qed.
Lemma ftrunc_some x : is_finite x = true -> exists z, ftrunc x = Some z.
Proof. destruct x; try done; cbn; eauto. Qed.
Lemma fround_val x : is_finite x = true ->
  fround x = Some (if Rlt_dec (B2R x) 0 then - Zfloor (- B2R x + /2) else Zfloor (B2R x + /2)).
Proof.
  intros Hf. assert (Hhalf : Zfloor (0 + / 2) = 0) by (apply Zfloor_imp; rewrite plus_IZR; lra).
  destruct x as [s| | |s m e Hb]; try done.
  - cbn -[F2R Rlt_dec]. destruct (Rlt_dec 0 0); [lra|]. by rewrite Hhalf.
  - cbn -[F2R Rlt_dec]. destruct s.
    + cbn [cond_Zopp]. change (- Z.pos m) with (Z.neg m). pose proof (F2R_lt_0 radix2 (Float radix2 (Z.neg m) e) ltac:(done)).
      destruct (Rlt_dec _ 0); [|lra]. rewrite fmag_round_val. change (Z.neg m) with (- Z.pos m). by rewrite F2R_Zopp, Ropp_involutive.
    + cbn [cond_Zopp]. pose proof (F2R_gt_0 radix2 (Float radix2 (Z.pos m) e) ltac:(done)).
      destruct (Rlt_dec _ 0); [lra|]. by rewrite fmag_round_val.
Qed.

(** ** Draws *)
Lemma rbind_eq {A B} (x : rand A) (f : A -> rand B) s a s' : x s = Some (a, s') -> rbind x f s = f a s'.
Proof. unfold rbind. by intros ->. Qed.
Lemma rlift_eq {A} (x : option A) a s : x = Some a -> rlift x s = Some (a, s).
Proof. intros ->. done. Qed.
Lemma rassert_true {A} b (k : rand A) : b = true -> rassert b k = k.
Proof. by intros ->. Qed.
Lemma rbind_Some {A B} (x : rand A) (f : A -> rand B) s r : rbind x f s = Some r -> exists a s', x s = Some (a, s') /\ f a s' = Some r.
Proof. unfold rbind. destruct (x s) as [[a s']|]; [|done]. eauto. Qed.
Lemma rassert_Some {A} b (k : rand A) s r : rassert b k s = Some r -> b = true /\ k s = Some r.
Proof. destruct b; done. Qed.

Lemma randomInt_ok lb ub s : lb <= ub -> exists n, randomInt lb ub s = Some (n, stail s) /\ lb <= n <= ub.
Proof.
  intros H. unfold randomInt. rewrite rassert_true by lia. eexists. split; [reflexivity|].
  pose proof (Z.mod_pos_bound (bits (s 0%nat)) (ub - lb + 1) ltac:(lia)). lia.
Qed.
Lemma randomReal_val s : exists r, randomReal s = Some (r, stail s) /\ is_finite r = true /\ Bsign r = false /\
  B2R r = (IZR ((bits (s 0%nat) mod 2 ^ 64) / 2 ^ 11) * bpow radix2 (-53))%R /\ 0 <= (bits (s 0%nat) mod 2 ^ 64) / 2 ^ 11 <= 2 ^ 53 - 1.
Proof.
  unfold randomReal, prng, rbind, rnext, rret. cbn [mbind option_bind]. eexists. split; [reflexivity|].
  rewrite Z.shiftr_div_pow2 by lia. pose proof (Z.mod_pos_bound (bits (s 0%nat)) (2 ^ 64) ltac:(lia)) as Hm.
  remember (bits (s 0%nat) mod 2 ^ 64) as w eqn:Ew. clear Ew.
  assert (Hk : 0 <= w / 2 ^ 11 <= 2 ^ 53 - 1).
  { split; [apply Z.div_pos; lia|]. assert (w / 2 ^ 11 < 2 ^ 53); [|lia]. apply Z.div_lt_upper_bound; lia. }
  remember (w / 2 ^ 11) as k eqn:Ek. clear Ek.
  destruct (fmk_val k 0) as (F1 & V1 & S1); [lia|lia|]. destruct (fmk_val 1 (-53)) as (F2 & V2 & S2); [lia|lia|].
  destruct (fmul_finite (fofZ k) (fmk 1 (-53)) F1 F2) as [Hn Hv].
  assert (Hx : (B2R (fofZ k) * B2R (fmk 1 (-53)) = B2R (fmk k (-53)))%R).
  { unfold fofZ. rewrite V1, V2. destruct (fmk_val k (-53)) as (_ & -> & _); [lia|lia|]. cbn [bpow]. lra. }
  destruct (fmk_val k (-53)) as (F3 & V3 & _); [lia|lia|].
  rewrite Hx, srnd_id in Hv by done.
  assert (Hfin : is_finite (fmul (fofZ k) (fmk 1 (-53))) = true).
  { apply finite_of_val; [done|]. rewrite Hv. rewrite <- fval_finite by done. pose proof (fval_finite_bound _ F3). apply Rabs_def1; lra. }
  split; [done|]. split.
  { pose proof (Bmult_correct 53 1024 _ _ mode_NE (fofZ k) (fmk 1 (-53))) as H. destruct Rlt_bool.
    - destruct H as (_ & _ & H). unfold fmul. rewrite H by exact (is_finite_not_nan _ Hfin). unfold fofZ. rewrite S1, S2.
      destruct (Z.ltb_spec k 0); [lia|done].
    - exfalso. unfold fmul in Hfin. clear - H Hfin. destruct (Bmult mode_NE (fofZ k) (fmk 1 (-53))); done. }
  split; [|done]. rewrite <- fval_finite by done. rewrite Hv. done.
Qed.
Lemma randomReal_draw s : exists r, randomReal s = Some (r, stail s) /\ draw r.
Proof.
  destruct (randomReal_val s) as (r & Hr & Hf & Hs & Hv & Hk). exists r. split; [done|]. split; [done|]. split; [done|]. rewrite Hv.
  remember (bits _ mod _ / _) as k eqn:Ek. clear Ek. pose proof (bpow_gt_0 radix2 (-53)) as Hp.
  assert (H1 : (IZR (2 ^ 53) * bpow radix2 (-53) = 1)%R) by (rewrite <- bpow_IZR, <- bpow_plus by lia; reflexivity).
  destruct Hk as [H2 H3]. assert (k < 2 ^ 53) as H4%IZR_lt by lia. apply IZR_le in H2. split; nra.
Qed.
(** The largest draw. *)
Lemma randomReal_le s r s' : randomReal s = Some (r, s') -> (B2R r <= 1 - bpow radix2 (-53))%R.
Proof.
  intros H. destruct (randomReal_val s) as (r' & Hr & _ & _ & Hv & Hk). rewrite Hr in H. injection H as -> _. rewrite Hv.
  remember (bits _ mod _ / _) as k eqn:Ek. clear Ek. pose proof (bpow_gt_0 radix2 (-53)) as Hp.
  assert (H1 : (IZR (2 ^ 53) * bpow radix2 (-53) = 1)%R) by (rewrite <- bpow_IZR, <- bpow_plus by lia; reflexivity).
  destruct Hk as [H2 H3]. apply IZR_le in H3. rewrite minus_IZR in H3. nra.
Qed.

(** ** randomReal(lbound, ubound) *)
Lemma fmt_multiple x : generic_format radix2 (SpecFloat.fexp 53 1024) x -> exists k, x = (IZR k * bpow radix2 (-1074))%R.
Proof.
  intros H. apply (FLT_format_generic radix2 (3 - 1024 - 53) 53) in H. destruct H as [[m e] H1 _ H3]. cbn in H3. unfold F2R in H1. cbn [Fnum Fexp] in H1.
  exists (m * 2 ^ (e + 1074)). rewrite mult_IZR, <- bpow_IZR by lia. rewrite Rmult_assoc, <- bpow_plus. rewrite H1. do 2 f_equal. lia.
Qed.
Lemma small_multiple_fmt k : Z.abs k <= 2 ^ 53 -> rnd (IZR k * bpow radix2 (-1074)) = (IZR k * bpow radix2 (-1074))%R.
Proof.
  intros Hk. destruct (fmk_val k (-1074)) as (_ & H & _); [lia|lia|]. rewrite <- H. apply rnd_id.
Qed.
(** A product with a number below 1 by at least 2^-53 is below the exact difference. *)
Lemma pred_gap d : generic_format radix2 (SpecFloat.fexp 53 1024) d -> (bpow radix2 (-1021) <= d)%R ->
  (d - pred radix2 (SpecFloat.fexp 53 1024) d < d * bpow radix2 (-52))%R.
Proof.
  intros Fd Hd. pose proof (bpow_gt_0 radix2 (-1021)). assert (H0 : (0 < d)%R) by lra.
  rewrite pred_eq_pos by lra. unfold pred_pos.
  assert (Hm : (mag radix2 d > -1021)%Z). { apply Z.lt_gt. apply mag_gt_bpow. rewrite Rabs_pos_eq by lra. done. }
  destruct (mag radix2 d) as [m Hmag]. cbn [mag_val] in *. specialize (Hmag ltac:(lra)). rewrite Rabs_pos_eq in Hmag by lra.
  assert (Hulp : forall x, x = (m - 53)%Z -> (bpow radix2 x = bpow radix2 (m - 1) * bpow radix2 (-52))%R).
  { intros x ->. rewrite <- bpow_plus. f_equal. lia. }
  pose proof (bpow_gt_0 radix2 (-52)).
  case Req_bool_spec; intros E.
  - unfold SpecFloat.fexp, SpecFloat.emin. rewrite Z.max_l by lia. replace (d - (d - bpow radix2 (m - 1 - 53)))%R with (bpow radix2 (m - 1 - 53)) by ring.
    rewrite E at 1. rewrite <- bpow_plus. apply bpow_lt. lia.
  - rewrite ulp_neq_0 by lra. unfold cexp. rewrite (mag_unique_pos radix2 d m) by done. unfold SpecFloat.fexp, SpecFloat.emin. rewrite Z.max_l by lia.
    replace (d - (d - bpow radix2 (m - 53)))%R with (bpow radix2 (m - 53)) by ring. rewrite (Hulp (m - 53)) by done.
    apply Rmult_lt_compat_r; [done|]. destruct Hmag as [G1 G2]. destruct (Rle_lt_or_eq_dec _ _ G1) as [G3|G3]; [done|]. by rewrite G3 in E.
Qed.
Lemma scaled_difference_le (l u : b64) (r : R) : (B2R l <= B2R u)%R -> (0 <= r <= 1 - bpow radix2 (-53))%R ->
  (0 <= rnd (rnd (B2R u - B2R l) * r) <= B2R u - B2R l)%R.
Proof.
  intros Hlu Hr. remember (B2R u - B2R l)%R as x eqn:Ex. assert (Hx : (0 <= x)%R) by lra.
  pose proof (bpow_gt_0 radix2 (-53)) as Hp53.
  assert (Hd0 : (0 <= rnd x)%R) by (rewrite <- rnd_0; by apply rnd_mono).
  split. { rewrite <- rnd_0. apply rnd_mono. nra. }
  destruct (Rle_or_lt (bpow radix2 (-1021)) (rnd x)) as [Hbig|Hsmall].
  - assert (Fd : generic_format radix2 (SpecFloat.fexp 53 1024) (rnd x)) by (apply generic_format_round; [apply fexp_valid|apply valid_rnd_N]).
    pose proof (pred_gap _ Fd Hbig) as Hgap. remember (rnd x) as d eqn:Ed.
    pose proof (bpow_gt_0 radix2 (-1021)). remember (pred radix2 (SpecFloat.fexp 53 1024) d) as q eqn:Eq.
    assert (Hq : (q < d)%R) by (subst q; apply pred_lt_id; lra).
    assert (Fq : generic_format radix2 (SpecFloat.fexp 53 1024) q) by (subst q; apply generic_format_pred; [apply fexp_valid|done]).
    apply Rle_trans with q.
    + apply round_N_le_midp; [apply fexp_valid|done|]. subst q. rewrite succ_pred; [|apply fexp_valid|done].
      assert (H52 : (bpow radix2 (-52) = 2 * bpow radix2 (-53))%R) by (change (-52) with (1 + -53); rewrite bpow_plus; reflexivity).
      rewrite H52 in Hgap. nra.
    + destruct (Rle_or_lt q x) as [H1|H1]; [done|]. exfalso. apply Rlt_le, rnd_mono in H1.
      rewrite (round_generic radix2 (SpecFloat.fexp 53 1024) ZnearestE q) in H1 by done. lra.
  - destruct (fmt_multiple (B2R u) (generic_format_B2R 53 1024 u)) as [ku Hku].
    destruct (fmt_multiple (B2R l) (generic_format_B2R 53 1024 l)) as [kl Hkl].
    assert (Hxk : x = (IZR (ku - kl) * bpow radix2 (-1074))%R) by (rewrite minus_IZR, Ex, Hku, Hkl; ring).
    assert (Hsm : (x <= bpow radix2 (-1021))%R).
    { destruct (Rle_or_lt x (bpow radix2 (-1021))) as [H1|H1]; [done|]. exfalso. apply Rlt_le, rnd_mono in H1. rewrite bpow_fmt in H1 by lia. lra. }
    assert (Hk : 0 <= ku - kl <= 2 ^ 53).
    { pose proof (bpow_gt_0 radix2 (-1074)). split.
      - apply le_IZR. nra.
      - apply le_IZR. rewrite <- bpow_IZR by lia. apply Rmult_le_reg_r with (bpow radix2 (-1074)); [done|]. rewrite <- Hxk, <- bpow_plus. exact Hsm. }
    assert (Hex : rnd x = x) by (rewrite Hxk; apply small_multiple_fmt; lia). rewrite Hex.
    apply Rle_trans with (rnd x); [apply rnd_mono; nra|lra].
Qed.
Lemma randomReal_between_ok lb ub s : is_finite lb = true -> is_finite ub = true -> (B2R lb <= B2R ub)%R -> is_finite (fsub ub lb) = true ->
  exists v, randomReal_between lb ub s = Some (v, stail s) /\ is_finite v = true /\ (B2R lb <= B2R v <= B2R ub)%R.
Proof.
  intros Hl Hu Hlu Hd. unfold randomReal_between. rewrite rassert_true.
  2: { rewrite fle_fval by (by apply is_finite_not_nan). rewrite !fval_finite by done. by rewrite Rle_bool_true. }
  destruct (randomReal_draw s) as (r & Hr & Fr & Sr & Br). rewrite (rbind_eq _ _ _ _ _ Hr). eexists. split; [reflexivity|].
  pose proof (randomReal_le _ _ _ Hr) as Hr1.
  destruct (fsub_finite ub lb Hu Hl) as [_ Vd]. rewrite fval_finite in Vd by done.
  assert (Ed : B2R (fsub ub lb) = rnd (B2R ub - B2R lb)).
  { rewrite Vd. unfold srnd, sat. pose proof (fval_finite_bound _ Hd) as Hb. rewrite fval_finite, Vd in Hb by done. unfold srnd, sat in Hb.
    unfold Rmax, Rmin in *. repeat destruct Rle_dec; lra. }
  destruct (scaled_difference_le lb ub (B2R r) Hlu ltac:(lra)) as [Hp0 Hp1]. rewrite <- Ed in Hp0, Hp1.
  destruct (fmul_finite (fsub ub lb) r Hd Fr) as [Np Vp].
  pose proof (fval_finite_bound _ Hd) as Bd. rewrite fval_finite in Bd by done.
  assert (Hpd : (rnd (B2R (fsub ub lb) * B2R r) <= B2R (fsub ub lb))%R).
  { rewrite <- (rnd_id (fsub ub lb)) at 2. apply rnd_mono. assert (0 <= B2R (fsub ub lb))%R; [|nra]. rewrite Ed, <- rnd_0. apply rnd_mono. lra. }
  pose proof (bpow_gt_0 radix2 1024) as Hpos.
  assert (Ep : fval (fmul (fsub ub lb) r) = rnd (B2R (fsub ub lb) * B2R r)).
  { rewrite Vp. unfold srnd. apply sat_id. lra. }
  assert (Fp : is_finite (fmul (fsub ub lb) r) = true). { apply finite_of_val; [done|]. rewrite Ep. apply Rabs_def1; lra. }
  rewrite fval_finite in Ep by done.
  destruct (fadd_finite lb _ Hl Fp) as [Ns Vs]. rewrite Ep in Vs.
  remember (rnd (B2R (fsub ub lb) * B2R r)) as p eqn:Epp.
  assert (Hlow : (B2R lb <= srnd (B2R lb + p))%R). { rewrite <- (srnd_id lb) at 1 by done. apply srnd_mono. lra. }
  assert (Hhigh : (srnd (B2R lb + p) <= B2R ub)%R). { rewrite <- (srnd_id ub) by done. apply srnd_mono. lra. }
  pose proof (fval_finite_bound _ Hl) as Bl. pose proof (fval_finite_bound _ Hu) as Bu. rewrite fval_finite in Bl, Bu by done.
  assert (Fs : is_finite (fadd lb (fmul (fsub ub lb) r)) = true). { apply finite_of_val; [done|]. rewrite Vs. apply Rabs_def1; lra. }
  rewrite fval_finite in Vs by done. rewrite Vs. done.
Qed.

(** ** sampleUnique *)
Lemma set_loop_ok lb ub k : forall limit selected s, lb <= limit -> limit + Z.of_nat k = ub ->
  exists l s', set_loop lb limit k selected s = Some (l, s') /\ length l = k /\ Forall (fun x => lb <= x < ub) l.
Proof.
  induction k as [|k IH]; intros limit selected s H1 H2; [by exists [], s|].
  destruct (randomInt_ok lb limit s H1) as (n & Hn & Bn). cbn [set_loop]. rewrite (rbind_eq _ _ _ _ _ Hn). cbv beta.
  destruct (IH (limit + 1) (n :: selected) (stail s)) as (l & s' & Hl & Ll & Fl); [lia|lia|].
  rewrite (rbind_eq _ _ _ _ _ Hl). eexists _, _. split; [reflexivity|]. split; [cbn; lia|]. constructor; [|done]. case_decide; lia.
Qed.
Lemma set_loop_small lb limit k s l s' : (k <= 2)%nat -> lb <= limit -> set_loop lb limit k [] s = Some (l, s') -> NoDup l.
Proof.
  intros Hk Hl H. destruct k as [|[|[|k]]]; [..|lia]; cbn [set_loop] in H.
  - injection H as <- _. constructor.
  - apply rbind_Some in H as (n & s1 & _ & H). apply rbind_Some in H as (r & s2 & Hr & H). injection Hr as <- <-. injection H as <- _. apply NoDup_singleton.
  - destruct (randomInt_ok lb limit s Hl) as (n & Hn & Bn). rewrite (rbind_eq _ _ _ _ _ Hn) in H.
    destruct (randomInt_ok lb (limit + 1) (stail s) ltac:(lia)) as (n2 & Hn2 & Bn2). unfold rbind at 1 in H. rewrite (rbind_eq _ _ _ _ _ Hn2) in H.
    unfold rret, rbind in H. cbn [mbind option_bind] in H. injection H as <- _.
    apply NoDup_cons. split; [|apply NoDup_singleton].
    intros E%elem_of_list_singleton. case_decide as D; [lia|]. apply D. rewrite E. left.
Qed.

Lemma few_loop_ok lb ub k : forall limit sel s, lb <= limit -> limit + Z.of_nat k = ub -> Z.of_nat (length sel) = ub - lb ->
  (forall i, sel !! i = Some true -> Z.of_nat i < limit - lb) ->
  exists l s', few_loop lb limit k sel s = Some (l, s') /\ length l = k /\ NoDup l /\
    Forall (fun x => lb <= x < ub /\ sel !! Z.to_nat (x - lb) = Some false) l.
Proof.
  induction k as [|k IH]; intros limit sel s H1 H2 H3 H4; [exists [], s; repeat constructor|].
  destruct (randomInt_ok lb limit s H1) as (n & Hn & Bn). cbn [few_loop]. rewrite (rbind_eq _ _ _ _ _ Hn). cbv beta.
  destruct (lookup_lt_is_Some_2 sel (Z.to_nat (n - lb))) as [b Hb]; [lia|].
  rewrite (rbind_eq _ _ _ _ _ (rlift_eq _ _ _ Hb)). cbv beta. cbn zeta.
  remember (if b then limit else n) as number eqn:En.
  assert (Hnum : lb <= number <= limit) by (subst number; destruct b; lia).
  assert (Hsel : sel !! Z.to_nat (number - lb) = Some false).
  { subst number. destruct b; [|done]. destruct (lookup_lt_is_Some_2 sel (Z.to_nat (limit - lb))) as [c Hc]; [lia|].
    destruct c; [|done]. apply H4 in Hc. lia. }
  rewrite (rbind_eq _ _ _ _ _ (rlift_eq _ _ _ Hsel)). cbv beta.
  destruct (IH (limit + 1) (<[Z.to_nat (number - lb) := true]> sel) (stail s)) as (l & s' & Hl & Ll & Nl & Fl); [lia|lia|by rewrite insert_length| |].
  { intros i Hi. destruct (decide (i = Z.to_nat (number - lb))) as [->|Hne]; [lia|]. rewrite list_lookup_insert_ne in Hi by done. apply H4 in Hi. lia. }
  rewrite (rbind_eq _ _ _ _ _ Hl). eexists _, _. split; [reflexivity|]. split; [cbn; lia|]. rewrite Forall_forall in Fl. split.
  - constructor; [|done]. intros Hin. apply Fl in Hin as [_ Hin]. rewrite list_lookup_insert in Hin by (apply lookup_lt_Some in Hsel; done). done.
  - constructor; [split; [lia|done]|]. apply Forall_forall. intros x Hx. apply Fl in Hx as [Bx Hx]. split; [done|].
    destruct (decide (Z.to_nat (x - lb) = Z.to_nat (number - lb))) as [E|Hne]; [by rewrite E|]. by rewrite list_lookup_insert_ne in Hx.
Qed.

(** The number of set bits. *)
Fixpoint popcount (l : list bool) : nat := match l with [] => 0 | b :: l => ((if b : bool then 1 else 0) + popcount l)%nat end.
Lemma popcount_replicate n : popcount (replicate n true) = n.
Proof. induction n; cbn; lia. Qed.
Lemma popcount_clear l i : l !! i = Some true -> popcount l = S (popcount (<[i := false]> l)).
Proof.
  revert i. induction l as [|b l IH]; intros [|i] H; try done; cbn in *.
  - by injection H as ->.
  - specialize (IH _ H). destruct b; rewrite IH; done.
Qed.
Lemma many_loop_ok lb ub k : forall limit sel s, lb <= limit -> limit + Z.of_nat k = ub -> Z.of_nat (length sel) = ub - lb ->
  (forall i, limit - lb <= Z.of_nat i < ub - lb -> sel !! i = Some true) ->
  exists sel' s', many_loop lb limit k sel s = Some (sel', s') /\ length sel' = length sel /\ popcount sel = (popcount sel' + k)%nat.
Proof.
  induction k as [|k IH]; intros limit sel s H1 H2 H3 H4; [exists sel, s; split; [done|]; split; [done|lia]|].
  destruct (randomInt_ok lb limit s H1) as (n & Hn & Bn). cbn [many_loop]. rewrite (rbind_eq _ _ _ _ _ Hn). cbv beta.
  destruct (lookup_lt_is_Some_2 sel (Z.to_nat (n - lb))) as [b Hb]; [lia|].
  rewrite (rbind_eq _ _ _ _ _ (rlift_eq _ _ _ Hb)). cbv beta. cbn zeta.
  remember (Z.to_nat ((if b then n else limit) - lb)) as c eqn:Ec.
  assert (Hc : sel !! c = Some true) by (subst c; destruct b; [done|apply H4; lia]).
  assert (Bc : Z.of_nat c <= limit - lb) by (subst c; destruct b; lia).
  rewrite (rbind_eq _ _ _ _ _ (rlift_eq _ _ _ Hc)). cbv beta.
  destruct (IH (limit + 1) (<[c := false]> sel) (stail s)) as (sel' & s' & Hl & Ll & Pl); [lia|lia|by rewrite insert_length| |].
  { intros i Hi. rewrite list_lookup_insert_ne by lia. apply H4. lia. }
  exists sel', s'. split; [done|]. split; [by rewrite Ll, insert_length|]. rewrite (popcount_clear _ _ Hc). lia.
Qed.
Lemma collect_length lb n l : length (collect lb n l) = popcount l.
Proof. revert n. induction l as [|[] l IH]; intros n; cbn; rewrite ?IH; done. Qed.
Lemma collect_range lb n l : Forall (fun x => lb + n <= x < lb + n + Z.of_nat (length l)) (collect lb n l).
Proof.
  revert n. induction l as [|b l IH]; intros n; cbn; [constructor|].
  assert (H : Forall (fun x => lb + n <= x < lb + n + Z.of_nat (S (length l))) (collect lb (n + 1) l)).
  { eapply Forall_impl; [apply IH|]. cbn. intros x Hx. lia. }
  destruct b; [constructor; [lia|done]|done].
Qed.
Lemma collect_NoDup lb n l : NoDup (collect lb n l).
Proof.
  revert n. induction l as [|b l IH]; intros n; cbn; [constructor|]. destruct b; [|done]. constructor; [|done].
  intros H. pose proof (collect_range lb (n + 1) l) as HF. rewrite Forall_forall in HF. apply HF in H. lia.
Qed.

Lemma sampleUnique_ok lb ub count s : 0 <= count <= ub - lb -> ub - lb < 2 ^ 64 ->
  exists l s', sampleUnique lb ub count s = Some (l, s') /\ Z.of_nat (length l) = count /\ Forall (fun x => lb <= x < ub) l /\
    (ub - lb < 65536 \/ count <= 2 -> NoDup l).
Proof.
  intros Hc Hr. unfold sampleUnique. rewrite !rassert_true by lia.
  assert (Hfin : is_finite (fmul f06 (fofZ (ub - lb))) = true).
  { destruct (fofZ_val (ub - lb)) as [F1 V1]; [lia|]. destruct (fmk_val 5404319552844595 (-53)) as (F2 & V2 & _); [lia|lia|].
    destruct (fmul_le f06 (fofZ (ub - lb)) 64 F2 F1) as (H & _); [lia| |done]. unfold f06. rewrite V1, V2, Rabs_mult.
    pose proof (bpow_gt_0 radix2 (-53)) as Hp.
    assert (H1 : (IZR (2 ^ 53) * bpow radix2 (-53) = 1)%R) by (rewrite <- bpow_IZR, <- bpow_plus by lia; reflexivity).
    rewrite (Rabs_pos_eq (_ * _)); [|apply Rmult_le_pos; [apply IZR_le; lia|lra]].
    assert (H2 : (IZR 5404319552844595 * bpow radix2 (-53) <= 1)%R). { rewrite <- H1. apply Rmult_le_compat_r; [lra|]. apply IZR_le. lia. }
    assert (H3 : (Rabs (rnd (IZR (ub - lb))) <= bpow radix2 64)%R).
    { rewrite Rabs_pos_eq; [|rewrite <- rnd_0; apply rnd_mono, IZR_le; lia]. rewrite <- (bpow_fmt 64) by lia. apply rnd_mono. rewrite bpow_IZR by lia. apply IZR_le. lia. }
    pose proof (Rabs_pos (rnd (IZR (ub - lb)))) as H4. assert (0 <= IZR 5404319552844595 * bpow radix2 (-53))%R by (apply Rmult_le_pos; [apply IZR_le; lia|lra]). nra. }
  destruct (ftrunc_some _ Hfin) as [th Hth]. cbn zeta. rewrite (rbind_eq _ _ _ _ _ (rlift_eq _ _ _ Hth)). cbv beta.
  destruct (Z.leb_spec 65536 (ub - lb)) as [Hhuge|Hhuge].
  - unfold sampleUniqueSet. destruct (set_loop_ok lb ub (Z.to_nat count) (ub - count) [] s) as (l & s' & Hl & Ll & Fl); [lia|lia|].
    exists l, s'. split; [done|]. split; [lia|]. split; [done|]. intros [?|H2]; [lia|].
    apply (set_loop_small lb (ub - count) (Z.to_nat count) s l s'); [lia|lia|done].
  - destruct (Z.leb_spec th count) as [Hm|Hm]; cbn [negb].
    + destruct (many_loop_ok lb ub (Z.to_nat (ub - lb - count)) (ub - (ub - lb - count)) (replicate (Z.to_nat (ub - lb)) true) s) as (sel & s' & Hl & Ll & Pl).
      * lia.
      * lia.
      * rewrite replicate_length. lia.
      * intros i Hi. apply lookup_replicate. split; [done|lia].
      * rewrite (rbind_eq _ _ _ _ _ Hl). cbv beta. cbn zeta. rewrite popcount_replicate in Pl. rewrite rassert_true by (rewrite collect_length; lia).
        eexists _, _. split; [reflexivity|]. split; [rewrite collect_length; lia|]. rewrite replicate_length in Ll. split.
        -- eapply Forall_impl; [apply collect_range|]. cbn. intros x Hx. lia.
        -- intros _. apply collect_NoDup.
    + destruct (few_loop_ok lb ub (Z.to_nat count) (ub - count) (replicate (Z.to_nat (ub - lb)) false) s) as (l & s' & Hl & Ll & Nl & Fl).
      * lia.
      * lia.
      * rewrite replicate_length. lia.
      * intros i Hi. apply lookup_replicate in Hi as [? _]. done.
      * exists l, s'. split; [done|]. split; [lia|]. split; [|done]. eapply Forall_impl; [apply Fl|]. by intros x [? _].
Qed.
