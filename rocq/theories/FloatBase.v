(** IEEE 754 binary64 numbers (Flocq, one NaN) and facts about their arithmetic in
    round-to-nearest-even mode, stated through an order embedding into the reals. *)
From Coq Require Import Reals ZArith Bool Lra Lia.
From Flocq Require Import Core BinarySingleNaN Plus_error.
Import SpecFloat.

Local Open Scope R_scope.

Notation b64 := (binary_float 53 1024).
Definition b64_prec : Prec_gt_0 53 := eq_refl.
Definition b64_emax : Prec_lt_emax 53 1024 := eq_refl.
#[global] Existing Instance b64_prec.
#[global] Existing Instance b64_emax.

(** The operations of the C++ double type used by the code. *)
Definition fadd (a b : b64) : b64 := Bplus mode_NE a b.
Definition fsub (a b : b64) : b64 := Bminus mode_NE a b.
Definition fmul (a b : b64) : b64 := Bmult mode_NE a b.
Definition fdiv (a b : b64) : b64 := Bdiv mode_NE a b.
Definition fabs (a : b64) : b64 := Babs a.
Definition fneg (a : b64) : b64 := Bopp a.
Definition flt (a b : b64) : bool := Bltb a b.
Definition fle (a b : b64) : bool := Bleb a b.
Definition feq (a b : b64) : bool := Beqb a b.
Definition finf : b64 := B754_infinity false.
Definition fzero : b64 := B754_zero false.
Definition flarge : b64 := Bmax_float.
(** std::max(a, b) and std::min(a, b). *)
Definition fmax (a b : b64) : b64 := if flt a b then b else a.
Definition fmin (a b : b64) : b64 := if flt b a then b else a.
(** m * 2^e. *)
Definition fmk (m e : Z) : b64 := BinarySingleNaN.binary_normalize 53 1024 b64_prec b64_emax mode_NE m e false.

Notation femax := (bpow radix2 1024).
Notation rnd := (round radix2 (fexp 53 1024) ZnearestE).

(** The value, with the infinities mapped to the ends of an interval that contains
    every finite value. *)
Definition fval (a : b64) : R :=
  match a with
  | B754_infinity false => femax
  | B754_infinity true => - femax
  | _ => B2R a
  end.
Definition sat (x : R) : R := Rmax (- femax) (Rmin femax x).
Definition srnd (x : R) : R := sat (rnd x).

Lemma femax_pos : 0 < femax. Proof. apply bpow_gt_0. Qed.

Lemma fval_finite a : is_finite a = true -> fval a = B2R a.
Proof. destruct a as [|[]| |]; easy. Qed.
Lemma fval_finite_bound a : is_finite a = true -> - femax < fval a < femax.
Proof. intros H. rewrite fval_finite by easy. apply Rabs_lt_inv. apply abs_B2R_lt_emax. Qed.
Lemma fval_bound a : - femax <= fval a <= femax.
Proof.
  pose proof femax_pos. destruct (is_finite a) eqn:E.
  - pose proof (fval_finite_bound a E). lra.
  - destruct a as [|[]| |]; cbn -[bpow] in *; try easy; lra.
Qed.

Lemma flt_fval a b : is_nan a = false -> is_nan b = false -> flt a b = Rlt_bool (fval a) (fval b).
Proof.
  intros Ha Hb. unfold flt. pose proof femax_pos as Hp.
  destruct (is_finite a) eqn:Fa; destruct (is_finite b) eqn:Fb.
  - rewrite Bltb_correct by easy. rewrite !fval_finite by easy. reflexivity.
  - pose proof (fval_finite_bound a Fa) as Hba. destruct b as [|[]| |]; try easy; cbn [fval].
    + rewrite Rlt_bool_false by lra. destruct a as [|[]| |[]]; easy.
    + rewrite Rlt_bool_true by lra. destruct a as [|[]| |[]]; easy.
  - pose proof (fval_finite_bound b Fb) as Hbb. destruct a as [|[]| |]; try easy; cbn [fval].
    + rewrite Rlt_bool_true by lra. destruct b as [|[]| |[]]; easy.
    + rewrite Rlt_bool_false by lra. destruct b as [|[]| |[]]; easy.
  - destruct a as [|[]| |]; try easy; destruct b as [|[]| |]; try easy; cbn [fval];
      [rewrite Rlt_bool_false by lra|rewrite Rlt_bool_true by lra|rewrite Rlt_bool_false by lra|rewrite Rlt_bool_false by lra]; easy.
Qed.
Lemma flt_fle a b : is_nan a = false -> is_nan b = false -> fle a b = negb (flt b a).
Proof.
  intros Ha Hb. unfold fle, flt, Bleb, Bltb, SFleb, SFltb.
  change (SFcompare (B2SF a) (B2SF b)) with (Bcompare a b). change (SFcompare (B2SF b) (B2SF a)) with (Bcompare b a).
  rewrite (Bcompare_swap 53 1024 a b). destruct (Bcompare a b) as [[]|] eqn:E; try easy.
  exfalso. destruct a as [|[]| |[]]; destruct b as [|[]| |[]]; easy.
Qed.
Lemma fle_fval a b : is_nan a = false -> is_nan b = false -> fle a b = Rle_bool (fval a) (fval b).
Proof.
  intros Ha Hb. rewrite flt_fle by easy. rewrite flt_fval by easy. rewrite <- negb_Rle_bool. reflexivity.
Qed.
Lemma feq_fval a b : is_nan a = false -> is_nan b = false -> feq a b = Req_bool (fval a) (fval b).
Proof.
  intros Ha Hb.
  assert (feq a b = (fle a b && fle b a)%bool) as ->.
  { unfold feq, fle, Beqb, Bleb, SFeqb, SFleb.
    change (SFcompare (B2SF a) (B2SF b)) with (Bcompare a b). change (SFcompare (B2SF b) (B2SF a)) with (Bcompare b a).
    rewrite (Bcompare_swap 53 1024 a b). destruct (Bcompare a b) as [[]|]; easy. }
  rewrite !fle_fval by easy.
  case Rle_bool_spec; intros H1; case Rle_bool_spec; intros H2; cbn; symmetry;
    [apply Req_bool_true; lra|apply Req_bool_false; lra..].
Qed.

Lemma sat_mono x y : x <= y -> sat x <= sat y.
Proof.
  intros H. unfold sat. apply Rle_max_compat_l. apply Rle_min_compat_l. exact H.
Qed.
Lemma sat_id x : - femax <= x <= femax -> sat x = x.
Proof. intros H. unfold sat. rewrite Rmin_right by lra. rewrite Rmax_right by lra. reflexivity. Qed.
Lemma sat_opp x : sat (- x) = - sat x.
Proof.
  pose proof femax_pos. unfold sat, Rmax, Rmin.
  repeat destruct (Rle_dec _ _); lra.
Qed.
Lemma sat_bound x : - femax <= sat x <= femax.
Proof. pose proof femax_pos. unfold sat, Rmax, Rmin. repeat destruct (Rle_dec _ _); lra. Qed.
Lemma rnd_mono x y : x <= y -> rnd x <= rnd y.
Proof. intros H. apply round_le; [apply fexp_correct; reflexivity|apply valid_rnd_N|exact H]. Qed.
Lemma rnd_opp x : rnd (- x) = - rnd x.
Proof. apply round_NE_opp. Qed.
Lemma rnd_0 : rnd 0 = 0.
Proof. apply round_0. apply valid_rnd_N. Qed.
Lemma rnd_id a : rnd (B2R (a : b64)) = B2R a.
Proof. apply round_generic; [apply valid_rnd_N|]. apply generic_format_B2R. Qed.
Lemma srnd_mono x y : x <= y -> srnd x <= srnd y.
Proof. intros H. apply sat_mono, rnd_mono, H. Qed.
Lemma srnd_opp x : srnd (- x) = - srnd x.
Proof. unfold srnd. rewrite rnd_opp. apply sat_opp. Qed.
Lemma sat_0 : sat 0 = 0.
Proof. apply sat_id. pose proof femax_pos. lra. Qed.
Lemma srnd_0 : srnd 0 = 0.
Proof. unfold srnd. rewrite rnd_0. apply sat_0. Qed.
Lemma srnd_bound x : - femax <= srnd x <= femax.
Proof. apply sat_bound. Qed.
Lemma srnd_ge_0 x : 0 <= x -> 0 <= srnd x.
Proof. intros H. rewrite <- srnd_0. apply srnd_mono, H. Qed.
Lemma srnd_id (a : b64) : is_finite a = true -> srnd (B2R a) = B2R a.
Proof.
  intros H. unfold srnd. rewrite rnd_id. apply sat_id.
  pose proof (fval_finite_bound a H). rewrite fval_finite in * by exact H. lra.
Qed.

Lemma sat_of_overflow x : femax <= Rabs x -> sat x = if Rlt_bool x 0 then - femax else femax.
Proof.
  pose proof femax_pos as Hp. intros H. case Rlt_bool_spec; intros Hx.
  - rewrite Rabs_left in H by exact Hx. unfold sat. rewrite Rmin_right by lra. apply Rmax_left. lra.
  - rewrite Rabs_pos_eq in H by exact Hx. unfold sat. rewrite Rmin_left by lra. apply Rmax_right. lra.
Qed.

Lemma fval_of_B2SF_inf (a : b64) s : B2SF a = S754_infinity s -> a = B754_infinity s.
Proof. destruct a; cbn; congruence. Qed.

Lemma is_finite_not_nan (a : b64) : is_finite a = true -> is_nan a = false.
Proof. destruct a; easy. Qed.
Lemma fval_inf s : fval (B754_infinity s) = if s then - femax else femax.
Proof. destruct s; reflexivity. Qed.

Lemma Bsign_pos (a : b64) : 0 < B2R a -> Bsign a = false.
Proof.
  destruct a as [| | |s m e H]; cbn; try lra. intros Hp. destruct s; [|reflexivity].
  exfalso. assert (F2R (Float radix2 (cond_Zopp true (Z.pos m)) e) < 0); [|unfold F2R in *; cbn in *; lra].
  apply F2R_lt_0. easy.
Qed.
Lemma Bsign_neg (a : b64) : B2R a < 0 -> Bsign a = true.
Proof.
  destruct a as [| | |s m e H]; cbn; try lra. intros Hp. destruct s; [reflexivity|].
  exfalso. assert (0 < F2R (Float radix2 (cond_Zopp false (Z.pos m)) e)); [|unfold F2R in *; cbn in *; lra].
  apply F2R_gt_0. easy.
Qed.

Lemma rnd_sign_neg x : rnd x < 0 -> x < 0.
Proof. intros H. destruct (Rlt_or_le x 0) as [|Hx]; [assumption|]. apply rnd_mono in Hx. rewrite rnd_0 in Hx. lra. Qed.
Lemma rnd_sign_pos x : 0 < rnd x -> 0 < x.
Proof. intros H. destruct (Rlt_or_le 0 x) as [|Hx]; [assumption|]. apply rnd_mono in Hx. rewrite rnd_0 in Hx. lra. Qed.

Lemma fadd_finite a b : is_finite a = true -> is_finite b = true ->
  is_nan (fadd a b) = false /\ fval (fadd a b) = srnd (B2R a + B2R b).
Proof.
  intros Ha Hb. pose proof (Bplus_correct 53 1024 _ _ mode_NE a b Ha Hb) as H. cbn [round_mode] in H.
  unfold fadd. revert H. case Rlt_bool_spec; intros Hlt H.
  - destruct H as (H1&H2&_). split; [apply is_finite_not_nan, H2|]. rewrite fval_finite by exact H2. rewrite H1.
    unfold srnd. rewrite sat_id; [reflexivity|]. apply Rabs_lt_inv in Hlt. lra.
  - destruct H as (H1&H2). cbn in H1. apply fval_of_B2SF_inf in H1 as ->. split; [reflexivity|].
    rewrite fval_inf. unfold srnd. rewrite sat_of_overflow by exact Hlt.
    pose proof femax_pos as Hp. case Rlt_bool_spec; intros Hr.
    + apply rnd_sign_neg in Hr. destruct (Bsign a) eqn:Es; [reflexivity|]. exfalso.
      destruct (Rlt_or_le (B2R a) 0) as [Hx|Hx]; [rewrite Bsign_neg in Es by exact Hx; discriminate|].
      destruct (Rlt_or_le (B2R b) 0) as [Hy|Hy]; [rewrite (Bsign_neg b) in H2 by exact Hy; discriminate|]. lra.
    + assert (0 < rnd (B2R a + B2R b)) as Hr' by (rewrite Rabs_pos_eq in Hlt by exact Hr; lra).
      apply rnd_sign_pos in Hr'. destruct (Bsign a) eqn:Es; [|reflexivity]. exfalso.
      destruct (Rlt_or_le 0 (B2R a)) as [Hx|Hx]; [rewrite Bsign_pos in Es by exact Hx; discriminate|].
      destruct (Rlt_or_le 0 (B2R b)) as [Hy|Hy]; [rewrite (Bsign_pos b) in H2 by exact Hy; discriminate|]. lra.
Qed.
Lemma fsub_fadd a b : is_finite a = true -> is_finite b = true -> fsub a b = fadd a (fneg b).
Proof. intros Ha Hb. destruct a, b; try easy. Qed.
Lemma fsub_finite a b : is_finite a = true -> is_finite b = true ->
  is_nan (fsub a b) = false /\ fval (fsub a b) = srnd (B2R a - B2R b).
Proof.
  intros Ha Hb. rewrite fsub_fadd by easy. unfold Rminus. unfold fneg. rewrite <- (B2R_Bopp 53 1024 b).
  apply fadd_finite; [exact Ha|]. rewrite is_finite_Bopp. exact Hb.
Qed.
Lemma fmul_finite a b : is_finite a = true -> is_finite b = true ->
  is_nan (fmul a b) = false /\ fval (fmul a b) = srnd (B2R a * B2R b).
Proof.
  intros Ha Hb. pose proof (Bmult_correct 53 1024 _ _ mode_NE a b) as H. cbn [round_mode] in H.
  unfold fmul. revert H. case Rlt_bool_spec; intros Hlt H.
  - destruct H as (H1&H2&_). rewrite Ha, Hb in H2. cbn in H2. split; [apply is_finite_not_nan, H2|].
    rewrite fval_finite by exact H2. rewrite H1. unfold srnd. rewrite sat_id; [reflexivity|]. apply Rabs_lt_inv in Hlt. lra.
  - cbn in H. apply fval_of_B2SF_inf in H as ->. split; [reflexivity|]. rewrite fval_inf. unfold srnd.
    rewrite sat_of_overflow by exact Hlt. pose proof femax_pos as Hp.
    assert (Hcase : forall x : b64, B2R x < 0 /\ Bsign x = true \/ B2R x = 0 \/ 0 < B2R x /\ Bsign x = false).
    { intros x. destruct (Rtotal_order (B2R x) 0) as [Hx|[Hx|Hx]].
      - left. split; [exact Hx|]. apply Bsign_neg, Hx.
      - auto.
      - right; right. split; [exact Hx|]. apply Bsign_pos. lra. }
    assert (Hnz : B2R a * B2R b <> 0).
    { intros E. rewrite E, rnd_0, Rabs_R0 in Hlt. lra. }
    destruct (Hcase a) as [[Hx ->]|[Hx|[Hx ->]]]; [|exfalso; apply Hnz; rewrite Hx; ring|];
    (destruct (Hcase b) as [[Hy ->]|[Hy|[Hy ->]]]; [|exfalso; apply Hnz; rewrite Hy; ring|]); cbn [xorb].
    + rewrite Rlt_bool_false; [reflexivity|]. rewrite <- rnd_0. apply rnd_mono. nra.
    + rewrite Rlt_bool_true; [reflexivity|].
      assert (rnd (B2R a * B2R b) <= 0) as Hle by (rewrite <- rnd_0; apply rnd_mono; nra).
      rewrite Rabs_left1 in Hlt by exact Hle. lra.
    + rewrite Rlt_bool_true; [reflexivity|].
      assert (rnd (B2R a * B2R b) <= 0) as Hle by (rewrite <- rnd_0; apply rnd_mono; nra).
      rewrite Rabs_left1 in Hlt by exact Hle. lra.
    + rewrite Rlt_bool_false; [reflexivity|]. rewrite <- rnd_0. apply rnd_mono. nra.
Qed.

Lemma rnd_minus_eq_0 (a b : b64) : rnd (B2R a - B2R b) = 0 -> B2R a = B2R b.
Proof.
  intros H. destruct (Req_dec (B2R a - B2R b) 0) as [E|E]; [lra|]. exfalso. revert H.
  unfold Rminus. rewrite <- (B2R_Bopp 53 1024 b). apply round_plus_neq_0.
  - apply fexp_correct; reflexivity.
  - apply monotone_exp_not_FTZ; [apply fexp_correct; reflexivity|apply (FLT_exp_monotone (3 - 1024 - 53) 53)].
  - apply valid_rnd_N.
  - apply generic_format_B2R.
  - apply generic_format_B2R.
  - rewrite B2R_Bopp. exact E.
Qed.

Lemma fabs_val a : fval (fabs a) = Rabs (fval a).
Proof.
  pose proof femax_pos. unfold fabs. destruct a as [|[]| |s m e H1]; cbn -[bpow F2R]; rewrite ?Rabs_R0; try reflexivity.
  - rewrite Rabs_left by lra. lra.
  - rewrite Rabs_pos_eq by lra. reflexivity.
  - rewrite <- F2R_Zabs. destruct s; reflexivity.
Qed.
Lemma fabs_nan a : is_nan (fabs a) = is_nan a.
Proof. apply is_nan_Babs. Qed.
Lemma fabs_fin a : is_finite (fabs a) = is_finite a.
Proof. apply is_finite_Babs. Qed.
Lemma fneg_val a : fval (fneg a) = - fval a.
Proof.
  unfold fneg. destruct a as [|[]| |s m e H1]; cbn -[bpow F2R]; try lra. rewrite <- F2R_Zopp. destruct s; reflexivity.
Qed.
Lemma fneg_nan a : is_nan (fneg a) = is_nan a.
Proof. apply is_nan_Bopp. Qed.

Lemma fmax_val a b : is_nan a = false -> is_nan b = false -> fval (fmax a b) = Rmax (fval a) (fval b).
Proof.
  intros Ha Hb. unfold fmax. rewrite flt_fval by easy. case Rlt_bool_spec; intros H.
  - rewrite Rmax_right by lra. reflexivity.
  - rewrite Rmax_left by lra. reflexivity.
Qed.
Lemma fmax_nan a b : is_nan a = false -> is_nan b = false -> is_nan (fmax a b) = false.
Proof. intros Ha Hb. unfold fmax. destruct (flt a b); assumption. Qed.
Lemma fmax_fin a b : is_finite a = true -> is_finite b = true -> is_finite (fmax a b) = true.
Proof. intros Ha Hb. unfold fmax. destruct (flt a b); assumption. Qed.
Lemma fmin_val a b : is_nan a = false -> is_nan b = false -> fval (fmin a b) = Rmin (fval a) (fval b).
Proof.
  intros Ha Hb. unfold fmin. rewrite flt_fval by easy. case Rlt_bool_spec; intros H.
  - rewrite Rmin_right by lra. reflexivity.
  - rewrite Rmin_left by lra. reflexivity.
Qed.
Lemma fmin_fin a b : is_finite a = true -> is_finite b = true -> is_finite (fmin a b) = true.
Proof. intros Ha Hb. unfold fmin. destruct (flt b a); assumption. Qed.

Lemma fval_inj_inf a : is_nan a = false -> fval a = femax -> a = finf.
Proof.
  intros Hn H. destruct (is_finite a) eqn:E.
  - pose proof (fval_finite_bound a E). lra.
  - destruct a as [|[]| |]; try easy. cbn -[bpow] in H. pose proof femax_pos. lra.
Qed.
Lemma feq_inf_finite a : is_finite a = true -> feq a finf = false.
Proof. destruct a as [|[]| |[]]; easy. Qed.
Lemma flarge_fin : is_finite flarge = true.
Proof. reflexivity. Qed.
Lemma flarge_max a : is_finite a = true -> fval a <= fval flarge.
Proof.
  intros H. rewrite !fval_finite by easy.
  apply Rle_trans with (bpow radix2 1024 - bpow radix2 (1024 - 53)).
  - pose proof (abs_B2R_le_emax_minus_prec 53 1024 b64_prec a) as H1. apply Rabs_le_inv in H1. lra.
  - apply Req_le. symmetry. change (B2R flarge) with (F2R (Float radix2 9007199254740991 971)).
    unfold F2R. cbn [Fnum Fexp]. 
    replace (bpow radix2 1024) with (bpow radix2 53 * bpow radix2 971) by (rewrite <- bpow_plus; reflexivity).
    change (1024 - 53)%Z with 971%Z. replace (bpow radix2 53) with (IZR 9007199254740992) by (cbn; lra).
    replace 9007199254740992%Z with (9007199254740991 + 1)%Z by reflexivity. rewrite plus_IZR. ring.
Qed.
