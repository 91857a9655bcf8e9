(** Lemmas about binary64 arithmetic for the real coded operators. *)
From Coq Require Import Reals Lra Lia Psatz.
From stdpp Require Import list.
From Flocq Require Import Core BinarySingleNaN.
From Verif Require Import FloatBase FloatModel FloatSpec FloatProofs RealCrossoverModel RealSpec.
Local Open Scope R_scope.

Lemma finite_of_val (a : b64) : is_nan a = false -> Rabs (fval a) < femax -> is_finite a = true.
Proof.
  intros Hn H. destruct a as [|[]| |]; try done; cbn -[bpow] in H; pose proof femax_pos.
  - rewrite Rabs_Ropp, Rabs_pos_eq in H by lra. lra.
  - rewrite Rabs_pos_eq in H by lra. lra.
Qed.
Lemma bpow_fmt (e : Z) : (-1074 <= e)%Z -> rnd (bpow radix2 e) = bpow radix2 e.
Proof.
  intros He. apply round_generic; [apply valid_rnd_N|]. apply generic_format_bpow'.
  - apply fexp_correct; reflexivity.
  - unfold SpecFloat.fexp, SpecFloat.emin. lia.
Qed.
Lemma bpow_lt_femax (e : Z) : (e <= 1023)%Z -> bpow radix2 e < femax.
Proof. intros H. apply bpow_lt. lia. Qed.
Lemma srnd_bpow (e : Z) : (-1074 <= e <= 1023)%Z -> srnd (bpow radix2 e) = bpow radix2 e.
Proof.
  intros He. unfold srnd. rewrite bpow_fmt by lia. apply sat_id.
  pose proof (bpow_lt_femax e ltac:(lia)). pose proof (bpow_gt_0 radix2 e). pose proof femax_pos. lra.
Qed.
Lemma srnd_abs_le x (e : Z) : (-1074 <= e <= 1023)%Z -> Rabs x <= bpow radix2 e -> Rabs (srnd x) <= bpow radix2 e.
Proof.
  intros He H. apply Rabs_le_inv in H. apply Rabs_le. split.
  - rewrite <- (srnd_bpow e He), <- srnd_opp. apply srnd_mono. lra.
  - rewrite <- (srnd_bpow e He). apply srnd_mono. lra.
Qed.

(** An operation whose exact result is at most 2^e in absolute value is finite. *)
Lemma op_le (r : b64) x (e : Z) : is_nan r = false /\ fval r = srnd x -> (-1074 <= e <= 1023)%Z -> Rabs x <= bpow radix2 e ->
  is_finite r = true /\ B2R r = srnd x /\ Rabs (B2R r) <= bpow radix2 e.
Proof.
  intros [H1 H2] He Hx. pose proof (srnd_abs_le x e He Hx) as H3. rewrite <- H2 in H3.
  assert (Hf : is_finite r = true).
  { apply finite_of_val; [done|]. pose proof (bpow_lt_femax e ltac:(lia)). lra. }
  split; [done|]. rewrite fval_finite in H2, H3 by done. done.
Qed.
Definition fadd_le a b e Ha Hb := op_le (fadd a b) _ e (fadd_finite a b Ha Hb).
Definition fsub_le a b e Ha Hb := op_le (fsub a b) _ e (fsub_finite a b Ha Hb).
Definition fmul_le a b e Ha Hb := op_le (fmul a b) _ e (fmul_finite a b Ha Hb).

Lemma fdiv_finite a b : is_finite a = true -> is_finite b = true -> B2R b <> 0 ->
  is_nan (fdiv a b) = false /\ fval (fdiv a b) = srnd (B2R a / B2R b).
Proof.
  intros Ha Hb Hnz0. pose proof (Bdiv_correct 53 1024 _ _ mode_NE a b Hnz0) as H. cbn [round_mode] in H.
  unfold fdiv. revert H. case Rlt_bool_spec; intros Hlt H.
  - destruct H as (H1&H2&_). rewrite Ha in H2. split; [apply is_finite_not_nan, H2|].
    rewrite fval_finite by exact H2. rewrite H1. unfold srnd. rewrite sat_id; [reflexivity|]. apply Rabs_lt_inv in Hlt. lra.
  - cbn in H. apply fval_of_B2SF_inf in H as ->. split; [reflexivity|]. rewrite fval_inf. unfold srnd.
    rewrite sat_of_overflow by exact Hlt. pose proof femax_pos as Hp.
    assert (Hcase : forall x : b64, B2R x < 0 /\ Bsign x = true \/ B2R x = 0 \/ 0 < B2R x /\ Bsign x = false).
    { intros x. destruct (Rtotal_order (B2R x) 0) as [Hx|[Hx|Hx]].
      - left. split; [exact Hx|]. apply Bsign_neg, Hx.
      - auto.
      - right; right. split; [exact Hx|]. apply Bsign_pos. lra. }
    assert (Hnz : B2R a / B2R b <> 0).
    { intros E. rewrite E, rnd_0, Rabs_R0 in Hlt. lra. }
    destruct (Hcase a) as [[Hx ->]|[Hx|[Hx ->]]]; [|exfalso; apply Hnz; rewrite Hx; unfold Rdiv; ring|];
    (destruct (Hcase b) as [[Hy ->]|[Hy|[Hy ->]]]; [|done|]); cbn [xorb];
      pose proof (Rinv_lt_0_compat (B2R b)) as Hi1; pose proof (Rinv_0_lt_compat (B2R b)) as Hi2; unfold Rdiv in *.
    + rewrite Rlt_bool_false; [reflexivity|]. rewrite <- rnd_0. apply rnd_mono. specialize (Hi1 Hy). nra.
    + rewrite Rlt_bool_true; [reflexivity|].
      assert (rnd (B2R a * / B2R b) <= 0) as Hle by (rewrite <- rnd_0; apply rnd_mono; specialize (Hi2 Hy); nra).
      rewrite Rabs_left1 in Hlt by exact Hle. lra.
    + rewrite Rlt_bool_true; [reflexivity|].
      assert (rnd (B2R a * / B2R b) <= 0) as Hle by (rewrite <- rnd_0; apply rnd_mono; specialize (Hi1 Hy); nra).
      rewrite Rabs_left1 in Hlt by exact Hle. lra.
    + rewrite Rlt_bool_false; [reflexivity|]. rewrite <- rnd_0. apply rnd_mono. specialize (Hi2 Hy). nra.
Qed.

(** Not a NaN, with infinite operands. *)
Lemma fadd_not_nan a b : is_nan a = false -> is_nan b = false -> is_finite a = true \/ is_finite b = true ->
  is_nan (fadd a b) = false.
Proof.
  intros Ha Hb Hf. destruct (is_finite a) eqn:Fa; destruct (is_finite b) eqn:Fb.
  - by apply fadd_finite.
  - destruct a as [|[]| |], b as [|[]| |]; try done.
  - destruct a as [|[]| |], b as [|[]| |]; try done.
  - by destruct Hf.
Qed.
Lemma fsub_not_nan a b : is_nan a = false -> is_nan b = false -> is_finite a = true \/ is_finite b = true ->
  is_nan (fsub a b) = false.
Proof.
  intros Ha Hb Hf. destruct (is_finite a) eqn:Fa; destruct (is_finite b) eqn:Fb.
  - by apply fsub_finite.
  - destruct a as [|[]| |], b as [|[]| |]; try done.
  - destruct a as [|[]| |], b as [|[]| |]; try done.
  - by destruct Hf.
Qed.
Lemma fmul_not_nan a b : is_nan a = false -> is_nan b = false ->
  (is_finite a = true \/ fval b <> 0) -> (is_finite b = true \/ fval a <> 0) -> is_nan (fmul a b) = false.
Proof.
  intros Ha Hb H1 H2. destruct (is_finite a) eqn:Fa; destruct (is_finite b) eqn:Fb.
  - by apply fmul_finite.
  - destruct H2 as [H2|H2]; [done|]. destruct a as [[]|[]| |], b as [|[]| |]; try done; by cbn in H2.
  - destruct H1 as [H1|H1]; [done|]. destruct b as [[]|[]| |], a as [|[]| |]; try done; by cbn in H1.
  - destruct a as [|[]| |], b as [|[]| |]; try done.
Qed.

Lemma nonneg_val x : nonneg x -> 0 <= fval x.
Proof.
  pose proof femax_pos. intros [Hn Hs]. destruct x as [[]|[]| |[] m e H1]; try done; cbn -[bpow F2R] in *; try lra.
  apply F2R_ge_0. done.
Qed.
Lemma nonneg_pos x : is_nan x = false -> 0 < fval x -> nonneg x.
Proof.
  intros Hn Hx. split; [done|]. destruct (is_finite x) eqn:F.
  - apply Bsign_pos. by rewrite fval_finite in Hx.
  - pose proof femax_pos. destruct x as [|[]| |]; try done. cbn -[bpow] in Hx. lra.
Qed.

(** The constants. *)
Lemma fmk_val m e : (Z.abs m <= 2 ^ 53)%Z -> (-1074 <= e <= 970)%Z ->
  is_finite (fmk m e) = true /\ B2R (fmk m e) = IZR m * bpow radix2 e /\ Bsign (fmk m e) = (m <? 0)%Z.
Proof.
  intros Hm He. pose proof (binary_normalize_correct 53 1024 b64_prec b64_emax mode_NE m e false) as H. cbn zeta in H.
  assert (Hr : rnd (F2R (Float radix2 m e)) = IZR m * bpow radix2 e).
  { destruct (Z.eq_dec (Z.abs m) (2 ^ 53)%Z) as [E|E].
    - destruct (Z_le_dec 0 m).
      + replace (F2R (Float radix2 m e)) with (bpow radix2 (53 + e)).
        * rewrite bpow_fmt by lia. rewrite bpow_plus. f_equal. rewrite <- IZR_Zpower by lia. f_equal. cbn. lia.
        * unfold F2R. cbn [Fnum Fexp]. rewrite bpow_plus. f_equal. rewrite <- IZR_Zpower by lia. f_equal. cbn. lia.
      + replace (F2R (Float radix2 m e)) with (- bpow radix2 (53 + e)).
        * rewrite rnd_opp, bpow_fmt by lia. rewrite bpow_plus. rewrite Ropp_mult_distr_l. f_equal.
          rewrite <- IZR_Zpower, <- opp_IZR by lia. f_equal. cbn. lia.
        * unfold F2R. cbn [Fnum Fexp]. rewrite bpow_plus. rewrite Ropp_mult_distr_l. f_equal.
          rewrite <- IZR_Zpower, <- opp_IZR by lia. f_equal. cbn. lia.
    - apply round_generic; [apply valid_rnd_N|].
      apply (generic_format_FLT radix2 (3 - 1024 - 53) 53). exists (Float radix2 m e); [done| |cbn; lia].
      cbn [Fnum]. change (radix2 ^ 53)%Z with (2 ^ 53)%Z. lia. }
  rewrite Rlt_bool_true in H.
  - destruct H as (H1 & H2 & H3). split; [done|]. cbn [round_mode] in H1. unfold fmk. split; [by rewrite H1|]. rewrite H3.
    unfold F2R. cbn [Fnum Fexp]. pose proof (bpow_gt_0 radix2 e) as Hp. destruct (Z.ltb_spec m 0) as [Hlt|Hge].
    + rewrite Rcompare_Lt; [done|]. apply IZR_lt in Hlt. nra.
    + apply IZR_le in Hge. destruct (Req_dec (IZR m) 0) as [E|E].
      * rewrite Rcompare_Eq; [done|]. rewrite E. ring.
      * rewrite Rcompare_Gt; [done|]. nra.
  - cbn [round_mode]. rewrite Hr, Rabs_mult, (Rabs_pos_eq (bpow _ _)) by apply bpow_ge_0. rewrite <- abs_IZR.
    apply Rle_lt_trans with (bpow radix2 53 * bpow radix2 e).
    + apply Rmult_le_compat_r; [apply bpow_ge_0|]. rewrite <- IZR_Zpower by lia. apply IZR_le. cbn. lia.
    + rewrite <- bpow_plus. apply bpow_lt. lia.
Qed.
Lemma fone_val : is_finite fone = true /\ B2R fone = 1.
Proof. destruct (fmk_val 1 0) as (H1 & H2 & _); [lia|lia|]. split; [done|]. unfold fone. rewrite H2. change (bpow radix2 0) with 1. lra. Qed.
Lemma ftwo_val : is_finite ftwo = true /\ B2R ftwo = 2.
Proof. destruct (fmk_val 2 0) as (H1 & H2 & _); [lia|lia|]. split; [done|]. unfold ftwo. rewrite H2. change (bpow radix2 0) with 1. lra. Qed.
Lemma fhalf_val : is_finite fhalf = true /\ B2R fhalf = /2.
Proof. destruct (fmk_val 1 (-1)%Z) as (H1 & H2 & _); [lia|lia|]. split; [done|]. unfold fhalf. rewrite H2. change (bpow radix2 (-1)) with (/2). lra. Qed.

(** Clamping a number gives a number within the bounds. *)
Lemma clamp_in b v : bounds_ok b -> is_nan v = false -> exists u, clamp v (lower b) (upper b) = Some u /\ in_bound b u.
Proof.
  intros (Hl & Hu & Hb) Hv. unfold clamp.
  rewrite flt_fval by (by apply is_finite_not_nan). rewrite !fval_finite by done. rewrite Rlt_bool_false by lra.
  rewrite !flt_fval by (try done; by apply is_finite_not_nan). rewrite (fval_finite (lower b)), (fval_finite (upper b)) by done.
  case Rlt_bool_spec; intros H1; [exists (lower b); unfold in_bound; split_and!; try done; lra|].
  case Rlt_bool_spec; intros H2; [exists (upper b); unfold in_bound; split_and!; try done; lra|].
  exists v. split; [done|].
  assert (Hf : is_finite v = true).
  { apply finite_of_val; [done|]. pose proof (fval_finite_bound _ Hl) as B1. pose proof (fval_finite_bound _ Hu) as B2.
    rewrite fval_finite in B1, B2 by done. apply Rabs_def1; lra. }
  unfold in_bound. rewrite fval_finite in H1, H2 by done. done.
Qed.
Lemma clamp2_in b u v : bounds_ok b -> is_nan u = false -> is_nan v = false ->
  exists u' v', clamp2 b u v = Some (u', v') /\ in_bound b u' /\ in_bound b v'.
Proof.
  intros Hb Hu Hv. unfold clamp2. destruct (clamp_in b u Hb Hu) as (u' & -> & H1). cbn [mbind option_bind].
  destruct (clamp_in b v Hb Hv) as (v' & -> & H2). cbn [mbind option_bind]. eauto.
Qed.

(** The loop. *)
Lemma real_loop_in {D} (f : bounds -> b64 -> b64 -> D -> option (b64 * b64)) (P : bounds -> Prop) (Q : D -> Prop) :
  (forall b x y d, P b -> bounds_ok b -> in_bound b x -> in_bound b y -> Q d ->
     exists u v, f b x y d = Some (u, v) /\ in_bound b u /\ in_bound b v) ->
  forall bs p1 p2 ds, Forall P bs -> Forall bounds_ok bs -> in_bounds bs p1 -> in_bounds bs p2 -> length ds = length bs -> Forall Q ds ->
  exists c1 c2, real_loop f bs p1 p2 ds = Some (c1, c2) /\ in_bounds bs c1 /\ in_bounds bs c2.
Proof.
  intros Hf. induction bs as [|b bs IH]; intros p1 p2 ds HP Hb H1 H2 Hl HQ.
  - apply Forall2_nil_inv_l in H1 as ->. apply Forall2_nil_inv_l in H2 as ->. exists [], []. split; [by destruct ds|]. split; constructor.
  - apply Forall2_cons_inv_l in H1 as (x & p1' & Hx & H1 & ->). apply Forall2_cons_inv_l in H2 as (y & p2' & Hy & H2 & ->).
    destruct ds as [|d ds]; [done|]. injection Hl as Hl. apply Forall_cons in HP as [HP1 HP2]. apply Forall_cons in Hb as [Hb1 Hb2].
    apply Forall_cons in HQ as [HQ1 HQ2]. cbn [real_loop].
    destruct (Hf b x y d HP1 Hb1 Hx Hy HQ1) as (u & v & -> & Hu & Hv). cbn [mbind option_bind].
    destruct (IH p1' p2' ds HP2 Hb2 H1 H2 Hl HQ2) as (c1 & c2 & -> & Hc1 & Hc2). cbn [mbind option_bind].
    exists (u :: c1), (v :: c2). split; [done|]. split; by constructor.
Qed.
