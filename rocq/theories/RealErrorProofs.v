(** Rounding errors of the real coded crossovers. *)
From Coq Require Import Reals Lra Lia Psatz.
From stdpp Require Import list.
From Flocq Require Import Core Relative BinarySingleNaN.
From Verif Require Import FloatBase FloatModel FloatSpec FloatProofs RealCrossoverModel RealSpec RealProofs RealCrossoverProofs.
Local Open Scope R_scope.

Definition uu : R := bpow radix2 (-53).
Definition hh : R := bpow radix2 (-1075).
Lemma uu_pos : 0 < uu <= / 1048576.
Proof. split; [apply bpow_gt_0|]. change (/ 1048576) with (bpow radix2 (-20)). apply bpow_le. lia. Qed.
Lemma hh_pos : 0 < hh <= uu.
Proof. split; [apply bpow_gt_0|]. apply bpow_le. lia. Qed.
Lemma rnd_err x : Rabs (rnd x - x) <= uu * Rabs x + hh.
Proof.
  destruct (error_N_FLT radix2 (3 - 1024 - 53) 53 eq_refl (fun n => negb (Z.even n)) x) as (eps & eta & H1 & H2 & _ & H4).
  change (rnd x) with (round radix2 (FLT_exp (3 - 1024 - 53) 53) ZnearestE x). rewrite H4.
  replace (x * (1 + eps) + eta - x) with (eps * x + eta) by ring.
  eapply Rle_trans; [apply Rabs_triang|]. rewrite Rabs_mult.
  change (- (53) + 1)%Z with (-53 + 1)%Z in H1. replace (/ 2 * bpow radix2 (-53 + 1)) with uu in H1 by (unfold uu; rewrite bpow_plus; change (bpow radix2 1) with 2; lra).
  replace (/ 2 * bpow radix2 (3 - 1024 - 53)) with hh in H2.
  - pose proof (Rabs_pos x). apply Rplus_le_compat; [|done]. apply Rmult_le_compat_r; [done|]. exact H1.
  - unfold hh. change (bpow radix2 (3 - 1024 - 53)) with (bpow radix2 (-1075 + 1)). rewrite bpow_plus. change (bpow radix2 1) with 2. lra.
Qed.
Lemma op_err (r : b64) v : is_nan r = false /\ fval r = srnd v -> Rabs v <= bpow radix2 1023 ->
  is_finite r = true /\ Rabs (B2R r - v) <= uu * Rabs v + hh.
Proof.
  intros H Hv. destruct (op_le r v 1023 H) as (Hf & He & Hle); [lia|done|]. split; [done|]. rewrite He.
  assert (E : srnd v = rnd v).
  { unfold srnd. apply sat_id. assert (Hr : Rabs (rnd v) <= bpow radix2 1023).
    { apply Rabs_le_inv in Hv. apply Rabs_le. split.
      - rewrite <- (bpow_fmt 1023), <- rnd_opp by lia. apply rnd_mono. lra.
      - rewrite <- (bpow_fmt 1023) by lia. apply rnd_mono. lra. }
    pose proof (bpow_lt_femax 1023 ltac:(lia)). apply Rabs_le_inv in Hr. lra. }
  rewrite E. apply rnd_err.
Qed.

(** Clamping. *)
Lemma Rclamp_in b v : B2R (lower b) <= v <= B2R (upper b) -> Rclamp b v = v.
Proof. intros H. unfold Rclamp. rewrite Rmin_right by lra. apply Rmax_right. lra. Qed.
Lemma Rclamp_lip b u v : Rabs (Rclamp b u - Rclamp b v) <= Rabs (u - v).
Proof. unfold Rclamp, Rmax, Rmin, Rabs. repeat destruct (Rle_dec _ _); repeat destruct (Rcase_abs _); lra. Qed.
Lemma clamp_val b v : bounds_ok b -> is_finite v = true ->
  exists u, clamp v (lower b) (upper b) = Some u /\ is_finite u = true /\ B2R u = Rclamp b (B2R v).
Proof.
  intros (Hl & Hu & Hb) Hv. unfold clamp.
  rewrite !flt_fval by (by apply is_finite_not_nan). rewrite !fval_finite by done. rewrite Rlt_bool_false by lra.
  unfold Rclamp.
  case Rlt_bool_spec; intros H1; [exists (lower b); split_and!; try done; rewrite Rmin_right by lra; rewrite Rmax_left; lra|].
  case Rlt_bool_spec; intros H2; [exists (upper b); split_and!; try done; rewrite Rmin_left by lra; rewrite Rmax_right; lra|].
  exists v. split_and!; try done. rewrite Rmin_right by lra. rewrite Rmax_right; lra.
Qed.
Lemma clamp2_near b u v e s t : bounds_ok b -> near e u s -> near e v t ->
  exists u' v', clamp2 b u v = Some (u', v') /\ near e u' (Rclamp b s) /\ near e v' (Rclamp b t).
Proof.
  intros Hb [Hu Eu] [Hv Ev]. unfold clamp2.
  destruct (clamp_val b u Hb Hu) as (u' & -> & F1 & V1). cbn [mbind option_bind].
  destruct (clamp_val b v Hb Hv) as (v' & -> & F2 & V2). cbn [mbind option_bind].
  exists u', v'. split; [done|]. unfold near. rewrite V1, V2.
  pose proof (Rclamp_lip b (B2R u) s). pose proof (Rclamp_lip b (B2R v) t). split; (split; [done|lra]).
Qed.

(** The loop. *)
Lemma real_loop_genewise {D} (f : bounds -> b64 -> b64 -> D -> option (b64 * b64)) (P : D -> bounds -> b64 -> b64 -> b64 -> b64 -> Prop) :
  forall bs p1 p2 ds,
  length p1 = length bs -> length p2 = length bs -> length ds = length bs ->
  (forall i d b x y, ds !! i = Some d -> bs !! i = Some b -> p1 !! i = Some x -> p2 !! i = Some y ->
     exists u v, f b x y d = Some (u, v) /\ P d b x y u v) ->
  exists c1 c2, real_loop f bs p1 p2 ds = Some (c1, c2) /\ genewise P bs ds p1 p2 c1 c2.
Proof.
  induction bs as [|b bs IH]; intros p1 p2 ds L1 L2 L3 Hf.
  - destruct p1, p2; try done. exists [], []. split; [by destruct ds|]. split; [done|]. split; [done|]. intros i ? ? ? ? ? ? _ Hb. by rewrite lookup_nil in Hb.
  - destruct p1 as [|x p1], p2 as [|y p2], ds as [|d ds]; try done. injection L1 as L1. injection L2 as L2. injection L3 as L3.
    cbn [real_loop]. destruct (Hf 0%nat d b x y eq_refl eq_refl eq_refl eq_refl) as (u & v & -> & HP). cbn [mbind option_bind].
    destruct (IH p1 p2 ds L1 L2 L3) as (c1 & c2 & -> & G1 & G2 & G3).
    { intros i d' b' x' y' H1 H2 H3 H4. by apply (Hf (S i)). }
    cbn [mbind option_bind]. exists (u :: c1), (v :: c2). split; [done|]. split; [cbn; lia|]. split; [cbn; lia|].
    intros [|i] d' b' x' y' u' v' H1 H2 H3 H4 H5 H6; cbn [lookup list_lookup] in *.
    + congruence.
    + by apply (G3 i).
Qed.

Ltac rab := repeat match goal with H : Rabs _ <= _ |- _ => apply Rabs_le_inv in H end.

(** Arithmetic crossover of two genes. *)
Lemma combination_near a b x y e : is_finite a = true -> is_finite b = true -> is_finite x = true -> is_finite y = true ->
  Rabs (B2R a) <= 1 -> Rabs (B2R b) <= 1 -> Rabs (B2R x) <= bpow radix2 1021 -> Rabs (B2R y) <= bpow radix2 1021 ->
  Rabs (B2R a - e) <= 2 * uu -> forall g, Rabs (B2R b - g) <= 2 * uu ->
  near (rounding x y) (fadd (fmul a x) (fmul b y)) (e * B2R x + g * B2R y).
Proof.
  intros Fa Fb Fx Fy Ha Hb Hx Hy Ea g Eb.
  pose proof uu_pos as Hu. pose proof hh_pos as Hh.
  assert (Bp : bpow radix2 1023 = 4 * bpow radix2 1021) by (rewrite (bpow_plus radix2 2 1021 : bpow radix2 1023 = _); reflexivity).
  assert (B1 : 1 <= bpow radix2 1021) by (change 1 with (bpow radix2 0); apply bpow_le; lia).
  assert (P1 : Rabs (B2R a * B2R x) <= Rabs (B2R x)) by (rewrite Rabs_mult; pose proof (Rabs_pos (B2R x)); nra).
  assert (P2 : Rabs (B2R b * B2R y) <= Rabs (B2R y)) by (rewrite Rabs_mult; pose proof (Rabs_pos (B2R y)); nra).
  destruct (op_err (fmul a x) _ (fmul_finite a x Fa Fx)) as (F1 & E1); [lra|].
  destruct (op_err (fmul b y) _ (fmul_finite b y Fb Fy)) as (F2 & E2); [lra|].
  assert (D1 : Rabs (B2R a * B2R x - e * B2R x) <= 2 * uu * Rabs (B2R x)).
  { rewrite <- Rmult_minus_distr_r, Rabs_mult. apply Rmult_le_compat_r; [apply Rabs_pos|done]. }
  assert (D2 : Rabs (B2R b * B2R y - g * B2R y) <= 2 * uu * Rabs (B2R y)).
  { rewrite <- Rmult_minus_distr_r, Rabs_mult. apply Rmult_le_compat_r; [apply Rabs_pos|done]. }
  pose proof (Rabs_pos (B2R x)) as Px. pose proof (Rabs_pos (B2R y)) as Py.
  set (X := Rabs (B2R x)) in *. set (Y := Rabs (B2R y)) in *.
  set (p := B2R (fmul a x)) in *. set (q := B2R (fmul b y)) in *.
  assert (E1' : Rabs (p - B2R a * B2R x) <= uu * X + hh) by nra.
  assert (E2' : Rabs (q - B2R b * B2R y) <= uu * Y + hh) by nra.
  assert (Q1 : Rabs p <= 2 * X + hh).
  { replace p with ((p - B2R a * B2R x) + B2R a * B2R x) by ring. eapply Rle_trans; [apply Rabs_triang|]. nra. }
  assert (Q2 : Rabs q <= 2 * Y + hh).
  { replace q with ((q - B2R b * B2R y) + B2R b * B2R y) by ring. eapply Rle_trans; [apply Rabs_triang|]. nra. }
  assert (Q : Rabs (p + q) <= 2 * (X + Y) + 2 * hh) by (eapply Rle_trans; [apply Rabs_triang|]; lra).
  assert (Hsafe : Rabs (p + q) <= bpow radix2 1023).
  { destruct (op_le (fmul a x) _ 1021 (fmul_finite a x Fa Fx)) as (_ & _ & L1); [lia|lra|].
    destruct (op_le (fmul b y) _ 1021 (fmul_finite b y Fb Fy)) as (_ & _ & L2); [lia|lra|].
    eapply Rle_trans; [apply Rabs_triang|]. fold p q in L1, L2. lra. }
  destruct (op_err (fadd (fmul a x) (fmul b y)) _ (fadd_finite _ _ F1 F2) Hsafe) as (F3 & E3).
  fold p q in E3. split; [done|]. unfold rounding. fold X Y.
  assert (R1 : bpow radix2 (-50) = 8 * uu).
  { unfold uu. change 8 with (bpow radix2 3). rewrite <- bpow_plus. reflexivity. }
  assert (R2 : bpow radix2 (-1072) = 8 * hh).
  { unfold hh. change 8 with (bpow radix2 3). rewrite <- bpow_plus. reflexivity. }
  rewrite R1, R2. set (s := B2R (fadd _ _)) in *.
  assert (E3' : Rabs (s - (p + q)) <= uu * (2 * (X + Y) + 2 * hh) + hh) by nra.
  replace (s - (e * B2R x + g * B2R y)) with
    ((s - (p + q)) + ((p - B2R a * B2R x) + (B2R a * B2R x - e * B2R x)) + ((q - B2R b * B2R y) + (B2R b * B2R y - g * B2R y))) by ring.
  assert (uu * hh <= hh) by nra. assert (0 <= uu * X) by nra. assert (0 <= uu * Y) by nra.
  clear - E3' E1' E2' D1 D2 H H0 H1 Hu Hh. rab. apply Rabs_le. split; lra.
Qed.
Lemma arithmetic_gene_near alpha b x y d : draw alpha -> bounded_by (bpow radix2 1021) b -> bounds_ok b -> in_bound b x -> in_bound b y ->
  exists u v, arithmetic_gene alpha b x y d = Some (u, v) /\
    near (rounding x y) u (B2R alpha * B2R x + (1 - B2R alpha) * B2R y) /\
    near (rounding x y) v ((1 - B2R alpha) * B2R x + B2R alpha * B2R y).
Proof.
  intros (Fa & _ & Ha) [M1 M2] Hb [Fx Hx] [Fy Hy]. destruct (one_minus alpha Fa) as [F1 H1]; [lra|].
  destruct fone_val as [Fo Vo]. pose proof uu_pos as Hu. pose proof hh_pos as Hh.
  destruct (op_err (fsub fone alpha) _ (fsub_finite fone alpha Fo Fa)) as (_ & E1).
  { rewrite Vo. apply Rle_trans with 1; [apply Rabs_le; lra|]. change 1 with (bpow radix2 0). apply bpow_le. lia. }
  rewrite Vo in E1.
  assert (E1' : Rabs (B2R (fsub fone alpha) - (1 - B2R alpha)) <= 2 * uu).
  { assert (Rabs (1 - B2R alpha) <= 1) by (apply Rabs_le; lra). nra. }
  assert (E0 : Rabs (B2R alpha - B2R alpha) <= 2 * uu) by (rewrite Rminus_diag_eq, Rabs_R0; [lra|done]).
  apply Rabs_le_inv in M1, M2.
  assert (Bx : Rabs (B2R x) <= bpow radix2 1021) by (apply Rabs_le; lra).
  assert (By : Rabs (B2R y) <= bpow radix2 1021) by (apply Rabs_le; lra).
  assert (A1 : Rabs (B2R alpha) <= 1) by (apply Rabs_le; lra).
  assert (A2 : Rabs (B2R (fsub fone alpha)) <= 1) by (apply Rabs_le; lra).
  unfold arithmetic_gene.
  destruct (clamp2_near b (fadd (fmul alpha x) (fmul (fsub fone alpha) y)) (fadd (fmul (fsub fone alpha) x) (fmul alpha y)) (rounding x y)
    (B2R alpha * B2R x + (1 - B2R alpha) * B2R y) ((1 - B2R alpha) * B2R x + B2R alpha * B2R y) Hb) as (u & v & -> & N1 & N2).
  - by apply combination_near.
  - by apply combination_near.
  - exists u, v. split; [done|]. rewrite !Rclamp_in in N1, N2 by nra. done.
Qed.

(** Wright's crossover of two genes: which side, and by how much. *)
Lemma clamp_beyond b g h v u : in_bound b g -> in_bound b h -> is_finite v = true -> is_finite u = true ->
  B2R u = Rclamp b (B2R v) -> beyond g h v -> beyond g h u.
Proof.
  intros [_ Hg] _ _ _ E [B1 B2]. unfold beyond, Rclamp in *. rewrite E. split; intros H.
  - specialize (B1 H). apply Rmax_Rle. right. apply Rmin_glb; lra.
  - specialize (B2 H). apply Rmax_lub; [lra|]. eapply Rle_trans; [apply Rmin_r|done].
Qed.
Lemma wright_step_beyond w x y : draw w -> is_finite x = true -> is_finite y = true ->
  Rabs (B2R x) <= bpow radix2 1021 -> Rabs (B2R y) <= bpow radix2 1021 ->
  is_finite (fadd (fmul w (fsub x y)) x) = true /\ beyond x y (fadd (fmul w (fsub x y)) x).
Proof.
  intros (Fw & _ & Hw) Fx Fy Hx Hy.
  assert (Bp : bpow radix2 1023 = 2 * bpow radix2 1022) by apply bp1023.
  pose proof bp1022 as Bp'.
  rab. destruct (fsub_le x y 1022 Fx Fy) as (F1 & V1 & L1); [lia|apply Rabs_le; lra|]. rab.
  destruct (fmul_le w (fsub x y) 1022 Fw F1) as (F2 & V2 & L2); [lia|apply Rabs_le; nra|]. rab.
  destruct (fadd_le (fmul w (fsub x y)) x 1023 F2 Fx) as (F3 & V3 & L3); [lia|apply Rabs_le; lra|].
  split; [done|]. unfold beyond. rewrite V3. split; intros H.
  - assert (0 <= B2R (fsub x y)) by (rewrite V1; apply srnd_ge_0; lra).
    assert (0 <= B2R (fmul w (fsub x y))) by (rewrite V2; apply srnd_ge_0; nra).
    rewrite <- (srnd_id x) by done. apply srnd_mono. rewrite srnd_id by done. lra.
  - assert (B2R (fsub x y) <= 0) by (rewrite V1, <- srnd_0; apply srnd_mono; lra).
    assert (B2R (fmul w (fsub x y)) <= 0) by (rewrite V2, <- srnd_0; apply srnd_mono; nra).
    rewrite <- (srnd_id x) by done. apply srnd_mono. rewrite srnd_id by done. lra.
Qed.
Lemma wright_step_near w x y : draw w -> is_finite x = true -> is_finite y = true ->
  Rabs (B2R x) <= bpow radix2 1021 -> Rabs (B2R y) <= bpow radix2 1021 ->
  near (rounding x y) (fadd (fmul w (fsub x y)) x) (B2R w * (B2R x - B2R y) + B2R x).
Proof.
  intros (Fw & _ & Hw) Fx Fy Hx Hy. pose proof uu_pos as Hu. pose proof hh_pos as Hh.
  assert (Bp : bpow radix2 1023 = 2 * bpow radix2 1022) by apply bp1023.
  pose proof bp1022 as Bp'.
  pose proof (Rabs_pos (B2R x)) as Px. pose proof (Rabs_pos (B2R y)) as Py.
  assert (T1 : Rabs (B2R x - B2R y) <= Rabs (B2R x) + Rabs (B2R y)).
  { unfold Rminus. eapply Rle_trans; [apply Rabs_triang|]. rewrite Rabs_Ropp. lra. }
  destruct (fsub_le x y 1022 Fx Fy) as (F1 & _ & L1); [lia|lra|].
  destruct (op_err _ _ (fsub_finite x y Fx Fy)) as (_ & E1); [lra|].
  assert (Aw : Rabs (B2R w) <= 1) by (apply Rabs_le; lra).
  assert (P1 : Rabs (B2R w * B2R (fsub x y)) <= Rabs (B2R (fsub x y))) by (rewrite Rabs_mult; pose proof (Rabs_pos (B2R (fsub x y))); nra).
  destruct (fmul_le w (fsub x y) 1022 Fw F1) as (F2 & _ & L2); [lia|lra|].
  destruct (op_err _ _ (fmul_finite w (fsub x y) Fw F1)) as (_ & E2); [lra|].
  destruct (op_err _ _ (fadd_finite (fmul w (fsub x y)) x F2 Fx)) as (F3 & E3).
  { eapply Rle_trans; [apply Rabs_triang|]. lra. }
  split; [done|]. unfold rounding.
  assert (R1 : bpow radix2 (-50) = 8 * uu).
  { unfold uu. change 8 with (bpow radix2 3). rewrite <- bpow_plus. reflexivity. }
  assert (R2 : bpow radix2 (-1072) = 8 * hh).
  { unfold hh. change 8 with (bpow radix2 3). rewrite <- bpow_plus. reflexivity. }
  rewrite R1, R2. set (s := B2R (fadd _ _)) in *. set (p := B2R (fmul _ _)) in *. set (d := B2R (fsub _ _)) in *.
  set (X := Rabs (B2R x)) in *. set (Y := Rabs (B2R y)) in *. set (D := B2R x - B2R y) in *.
  assert (E1' : Rabs (d - D) <= uu * (X + Y) + hh) by nra.
  assert (Q1 : Rabs d <= (1 + uu) * (X + Y) + hh).
  { replace d with ((d - D) + D) by ring. eapply Rle_trans; [apply Rabs_triang|]. nra. }
  assert (E2' : Rabs (p - B2R w * d) <= uu * ((1 + uu) * (X + Y) + hh) + hh) by nra.
  assert (Q2 : Rabs p <= (1 + uu) * ((1 + uu) * (X + Y) + hh) + hh).
  { replace p with ((p - B2R w * d) + B2R w * d) by ring. eapply Rle_trans; [apply Rabs_triang|]. nra. }
  assert (Q3 : Rabs (p + B2R x) <= Rabs p + X) by apply Rabs_triang.
  assert (K1 : uu * (X + Y) <= (X + Y) / 8) by (clear - Hu Px Py; nra).
  assert (K2 : uu * (uu * (X + Y)) <= uu * (X + Y) / 8) by (clear - Hu Px Py; assert (0 <= uu * (X + Y)) by nra; nra).
  assert (K3 : uu * hh <= hh / 8) by (clear - Hu Hh; nra).
  assert (Q4 : Rabs (p + B2R x) <= 4 * (X + Y) + 4 * hh) by (clear - K1 K2 K3 Q2 Q3 Hh Px Py; lra).
  assert (K0 : 0 <= uu * (X + Y)) by (clear - Hu Px Py; nra).
  assert (Q5 : uu * ((1 + uu) * (X + Y) + hh) <= uu * (5/4 * (X + Y)) + hh) by (clear - K0 K2 K3 Hh; lra).
  assert (E3' : Rabs (s - (p + B2R x)) <= uu * (4 * (X + Y)) + 2 * hh).
  { assert (uu * Rabs (p + B2R x) <= uu * (4 * (X + Y) + 4 * hh)) by (apply Rmult_le_compat_l; lra). clear - E3 K3 Hh H. lra. }
  assert (D1 : Rabs (B2R w * d - B2R w * D) <= uu * (X + Y) + hh).
  { rewrite <- Rmult_minus_distr_l, Rabs_mult. pose proof (Rabs_pos (d - D)). nra. }
  replace (s - (B2R w * D + B2R x)) with ((s - (p + B2R x)) + (p - B2R w * d) + (B2R w * d - B2R w * D)) by ring.
  clear - E3' E2' D1 Q5 Hh K0. rab. apply Rabs_le. split; lra.
Qed.

(** BLX-alpha: sampling the extended interval. *)
Lemma step_err (r : b64) v K : is_nan r = false /\ fval r = srnd v -> Rabs v <= K -> K <= bpow radix2 1023 ->
  is_finite r = true /\ Rabs (B2R r - v) <= uu * K + hh /\ B2R r = srnd v.
Proof.
  intros H H1 H2. destruct (op_err r v H) as [Hf He]; [lra|]. split; [done|]. pose proof uu_pos. split; [nra|].
  destruct H as [_ H]. by rewrite fval_finite in H.
Qed.
Lemma blx_sample_near alpha lo hi r : is_finite alpha = true -> 0 <= B2R alpha -> draw r ->
  is_finite lo = true -> is_finite hi = true -> B2R lo <= B2R hi ->
  (1 + B2R alpha) * (Rabs (B2R lo) + Rabs (B2R hi)) <= bpow radix2 1019 ->
  let ext := fmul alpha (fsub hi lo) in let D := B2R hi - B2R lo in
  exists v, randomReal_in (fsub lo ext) (fadd hi ext) r = Some v /\
    near ((1 + B2R alpha) * (bpow radix2 (-47) * (Rabs (B2R lo) + Rabs (B2R hi)) + bpow radix2 (-1069))) v
      (B2R lo - B2R alpha * D + (D + 2 * (B2R alpha * D)) * B2R r).
Proof.
  intros Fa Ha (Fr & _ & Hr) Fl Fh Hlh HT ext D. pose proof uu_pos as Hu. pose proof hh_pos as Hh.
  assert (Pl : Rabs (B2R lo) <= Rabs (B2R lo)) by lra. assert (Ph : Rabs (B2R hi) <= Rabs (B2R hi)) by lra.
  set (S := Rabs (B2R lo) + Rabs (B2R hi)) in *. set (A := 1 + B2R alpha) in *.
  assert (S0 : 0 <= S) by (unfold S; pose proof (Rabs_pos (B2R lo)); pose proof (Rabs_pos (B2R hi)); lra).
  assert (Bl : - S <= B2R lo <= S) by (unfold S; pose proof (Rabs_pos (B2R hi)); rab; lra).
  assert (Bh : - S <= B2R hi <= S) by (unfold S; pose proof (Rabs_pos (B2R lo)); rab; lra).
  assert (BD : 0 <= D <= S).
  { unfold D, S. rab. split; [lra|]. unfold Rabs. repeat destruct (Rcase_abs _); lra. }
  set (T := A * S) in *. set (W := A * hh).
  assert (HA : 1 <= A) by (unfold A; lra).
  assert (ST : S <= T) by (unfold T; nra). assert (hW : hh <= W) by (unfold W; nra).
  assert (W1 : W <= bpow radix2 1018 / 64).
  { pose proof (finite_abs_lt alpha Fa) as H. rab. rewrite Rabs_pos_eq in H by done.
    assert (HA2 : A <= bpow radix2 1025).
    { unfold A. replace (bpow radix2 1025) with (femax + femax) by (rewrite (bpow_plus radix2 1 1024 : bpow radix2 1025 = _); change (bpow radix2 1) with 2; change (bpow radix2 1024) with femax; ring).
      pose proof (bpow_lt_femax 0 ltac:(lia)) as H1. change (bpow radix2 0) with 1 in H1. lra. }
    unfold W. apply Rle_trans with (bpow radix2 1025 * hh); [nra|]. unfold hh. replace (bpow radix2 1018 / 64) with (bpow radix2 1012) by (rewrite (bpow_plus radix2 6 1012 : bpow radix2 1018 = _); change (bpow radix2 6) with 64; field). rewrite <- bpow_plus. apply bpow_le. lia. }
  assert (X1 : B2R alpha * S <= T) by (unfold T, A; nra). assert (X2 : B2R alpha * hh <= W) by (unfold W, A; nra).
  assert (T0 : 0 <= T) by lra. assert (W0 : 0 <= W) by lra.
  assert (U1 : 0 <= uu * T) by nra. assert (U2 : uu * T <= T / 64) by nra. assert (U3 : 0 <= uu * W) by nra. assert (U4 : uu * W <= W / 64) by nra.
  assert (U5 : uu * S <= uu * T) by nra.
  assert (U6 : B2R alpha * (uu * S) <= uu * T) by (clear - X1 Hu; nra).
  assert (Bp : bpow radix2 1023 = 32 * bpow radix2 1018) by (rewrite (bpow_plus radix2 5 1018 : bpow radix2 1023 = _); reflexivity).
  assert (Bq : bpow radix2 1019 = 2 * bpow radix2 1018) by (rewrite (bpow_plus radix2 1 1018 : bpow radix2 1019 = _); reflexivity).
  pose proof (bpow_gt_0 radix2 1018) as B0.
  (* the difference *)
  assert (K1 : Rabs (B2R hi - B2R lo) <= S) by (fold D; apply Rabs_le; lra).
  assert (K2 : S <= bpow radix2 1018 * 32) by lra.
  destruct (step_err (fsub hi lo) _ S (fsub_finite hi lo Fh Fl) K1) as (F1 & E1 & V1); [lra|]. fold D in E1, V1.
  set (d := B2R (fsub hi lo)) in *.
  assert (d0 : 0 <= d) by (rewrite V1; apply srnd_ge_0; lra).
  assert (d1 : d <= 2 * S + hh) by (clear - E1 BD U5 U2 ST S0 Hu; rab; assert (uu * S <= S) by nra; lra).
  assert (ad : B2R alpha * d <= 2 * T + W) by (clear - d1 X1 X2 Ha; nra).
  assert (ad0 : 0 <= B2R alpha * d) by nra.
  assert (E1a : Rabs (B2R alpha * d - B2R alpha * D) <= uu * T + W).
  { rewrite <- Rmult_minus_distr_l, Rabs_mult, (Rabs_pos_eq (B2R alpha)) by done. clear - E1 U6 X2 Ha. nra. }
  (* the extension *)
  assert (K3 : Rabs (B2R alpha * d) <= 2 * T + W) by (rewrite Rabs_pos_eq by done; done).
  destruct (step_err ext _ _ (fmul_finite alpha (fsub hi lo) Fa F1) K3) as (F2 & E2 & V2); [lra|].
  fold d in E2. set (e := B2R ext) in *. set (aD := B2R alpha * D) in *.
  assert (aD0 : 0 <= aD <= T) by (unfold aD; clear - BD X1 Ha; split; nra).
  assert (E2a : Rabs (e - aD) <= 3 * (uu * T) + 3 * W) by (clear - E1a E2 U1 U2 U3 U4 hW Hh; rab; apply Rabs_le; lra).
  assert (e0 : 0 <= e) by (rewrite V2; apply srnd_ge_0; fold d; lra).
  assert (e1 : e <= 2 * T + 3 * W) by (clear - E2a aD0 U2 U1 W0; rab; lra).
  (* the ends of the interval *)
  assert (K4 : Rabs (B2R lo - e) <= 3 * T + 3 * W) by (clear - Bl e0 e1 ST W0; apply Rabs_le; lra).
  destruct (step_err (fsub lo ext) _ _ (fsub_finite lo ext Fl F2) K4) as (F3 & E3 & V3); [lra|].
  assert (K5 : Rabs (B2R hi + e) <= 3 * T + 3 * W) by (clear - Bh e0 e1 ST W0; apply Rabs_le; lra).
  destruct (step_err (fadd hi ext) _ _ (fadd_finite hi ext Fh F2) K5) as (F4 & E4 & V4); [lra|].
  fold e in E3, V3, E4, V4.
  set (l := B2R (fsub lo ext)) in *. set (h := B2R (fadd hi ext)) in *.
  assert (E3a : Rabs (l - (B2R lo - aD)) <= 6 * (uu * T) + 5 * W) by (clear - E3 E2a U1 U2 U3 U4 hW Hh; rab; apply Rabs_le; lra).
  assert (E4a : Rabs (h - (B2R hi + aD)) <= 6 * (uu * T) + 5 * W) by (clear - E4 E2a U1 U2 U3 U4 hW Hh; rab; apply Rabs_le; lra).
  assert (l1 : Rabs l <= 4 * T + 5 * W) by (clear - E3 K4 U2 U4 hW Hh T0; rab; apply Rabs_le; lra).
  assert (h1 : Rabs h <= 4 * T + 5 * W) by (clear - E4 K5 U2 U4 hW Hh T0; rab; apply Rabs_le; lra).
  assert (lh : l <= h) by (rewrite V3, V4; apply srnd_mono; lra).
  (* sampling *)
  unfold randomReal_in. rewrite fle_fval by (by apply is_finite_not_nan). rewrite !fval_finite by done. fold l h. rewrite Rle_bool_true by done.
  eexists. split; [done|].
  assert (K6 : Rabs (h - l) <= 8 * T + 10 * W) by (clear - l1 h1; rab; apply Rabs_le; lra).
  destruct (step_err (fsub (fadd hi ext) (fsub lo ext)) _ _ (fsub_finite _ _ F4 F3) K6) as (F5 & E5 & _); [lra|].
  fold h l in E5. set (s := B2R (fsub (fadd hi ext) (fsub lo ext))) in *.
  assert (s1 : Rabs s <= 9 * T + 12 * W) by (clear - E5 K6 U2 U4 hW Hh T0 W0; rab; apply Rabs_le; lra).
  assert (E5a : Rabs (s - (D + 2 * aD)) <= 20 * (uu * T) + 12 * W) by (clear - E5 E3a E4a U1 U4 hW Hh; unfold D; rab; apply Rabs_le; lra).
  assert (K7 : Rabs (s * B2R r) <= 9 * T + 12 * W) by (rewrite Rabs_mult, (Rabs_pos_eq (B2R r)) by lra; pose proof (Rabs_pos s); clear - s1 H Hr; nra).
  destruct (step_err _ _ _ (fmul_finite _ _ F5 Fr) K7) as (F6 & E6 & _); [lra|]. fold s in E6.
  set (p := B2R (fmul (fsub (fadd hi ext) (fsub lo ext)) r)) in *.
  assert (E6b : Rabs (s * B2R r - (D + 2 * aD) * B2R r) <= 20 * (uu * T) + 12 * W).
  { rewrite <- Rmult_minus_distr_r, Rabs_mult, (Rabs_pos_eq (B2R r)) by lra. pose proof (Rabs_pos (s - (D + 2 * aD))). clear - E5a H Hr. nra. }
  assert (p1 : Rabs p <= 10 * T + 14 * W) by (clear - E6 K7 U2 U4 hW Hh T0 W0; rab; apply Rabs_le; lra).
  assert (K8 : Rabs (l + p) <= 14 * T + 19 * W) by (clear - l1 p1; rab; apply Rabs_le; lra).
  destruct (op_err _ _ (fadd_finite _ _ F3 F6)) as (F7 & E7).
  { fold l p. clear - K8 W1 HT Bp Bq E5a p1 l1 W0 B0.
    lra. }
  fold l p in E7. split; [done|].
  assert (R1 : bpow radix2 (-47) = 64 * uu).
  { unfold uu. change 64 with (bpow radix2 6). rewrite <- bpow_plus. reflexivity. }
  assert (R2 : bpow radix2 (-1069) = 64 * hh).
  { unfold hh. change 64 with (bpow radix2 6). rewrite <- bpow_plus. reflexivity. }
  rewrite R1, R2. replace (A * (64 * uu * S + 64 * hh)) with (64 * (uu * T) + 64 * W) by (unfold T, W; ring).
  set (c := B2R (fadd (fsub lo ext) (fmul (fsub (fadd hi ext) (fsub lo ext)) r))) in *.
  assert (E7a : Rabs (c - (l + p)) <= 14 * (uu * T) + 19 * (uu * W) + hh) by (clear - E7 K8 Hu; nra).
  clear - E7a E3a E6 E6b U1 U4 hW Hh W0. rab. apply Rabs_le. split; lra.
Qed.
