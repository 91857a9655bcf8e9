(** C85-C88: which genes the real coded crossovers produce. *)
From Coq Require Import Reals Lra Lia Psatz.
From stdpp Require Import list.
From Flocq Require Import Core BinarySingleNaN.
From Verif Require Import FloatBase FloatModel FloatSpec FloatProofs FloatProps CrossoverModel RealCrossoverModel RealSpec RealProofs RealCrossoverProofs RealErrorProofs.
Local Open Scope R_scope.

Lemma in_bounds_length bs p : in_bounds bs p -> length p = length bs.
Proof. intros H. symmetry. by apply Forall2_length in H. Qed.
Lemma in_bounds_lookup bs p i b x : in_bounds bs p -> bs !! i = Some b -> p !! i = Some x -> in_bound b x.
Proof. intros H H1 H2. by apply (Forall2_lookup_lr _ _ _ i b x H). Qed.
Lemma in_bound_abs M b x : bounded_by M b -> in_bound b x -> Rabs (B2R x) <= M.
Proof. intros [H1 H2] [_ H]. rab. apply Rabs_le. lra. Qed.

(** C85: both children are clamped points of the half line that starts at the better
    parent and leads away from the other one, as far as their random numbers say.  The
    second parent is the better one exactly if it dominates the first. *)
Definition wright_point (w : b64 * b64) (b : bounds) (better worse u v : b64) : Prop :=
  in_bound b u /\ in_bound b v /\ beyond better worse u /\ beyond better worse v /\
  near (rounding better worse) u (Rclamp b (B2R w.1 * (B2R better - B2R worse) + B2R better)) /\
  near (rounding better worse) v (Rclamp b (B2R w.2 * (B2R better - B2R worse) + B2R better)).
Theorem C85_wright (t : tolerances) (w : b64 * b64) (bs : list bounds) (f1 f2 p1 p2 : list b64) :
  draw w.1 -> draw w.2 -> Forall (bounded_by (bpow radix2 1021)) bs -> Forall bounds_ok bs ->
  in_bounds bs p1 -> in_bounds bs p2 -> length f1 = length f2 ->
  exists c1 c2, Wright t w bs f1 f2 p1 p2 = Some (c1, c2) /\
    (paretoCompareLess t f1 f2 = true -> genewise (fun _ : unit => wright_point w) bs (replicate (length bs) ()) p2 p1 c1 c2) /\
    (paretoCompareLess t f1 f2 = false -> genewise (fun _ : unit => wright_point w) bs (replicate (length bs) ()) p1 p2 c1 c2).
Proof.
  intros W1 W2 HM Hb H1 H2 Hf. unfold Wright, CrossoverModel.check. rewrite decide_True by done.
  assert (H : forall q1 q2, in_bounds bs q1 -> in_bounds bs q2 ->
    exists c1 c2, real_loop (wright_gene w) bs q1 q2 (replicate (length bs) ()) = Some (c1, c2) /\
      genewise (fun _ : unit => wright_point w) bs (replicate (length bs) ()) q1 q2 c1 c2).
  { intros q1 q2 Hq1 Hq2. apply real_loop_genewise.
    - by apply in_bounds_length.
    - by apply in_bounds_length.
    - apply replicate_length.
    - intros i d b x y _ Lb Lx Ly.
      pose proof (in_bounds_lookup bs q1 i b x Hq1 Lb Lx) as Ix. pose proof (in_bounds_lookup bs q2 i b y Hq2 Lb Ly) as Iy.
      rewrite Forall_lookup in HM, Hb. specialize (HM i b Lb). specialize (Hb i b Lb).
      pose proof (in_bound_abs _ _ _ HM Ix) as Ax. pose proof (in_bound_abs _ _ _ HM Iy) as Ay.
      destruct (wright_step_beyond w.1 x y W1 (proj1 Ix) (proj1 Iy) Ax Ay) as [Fu Bu].
      destruct (wright_step_beyond w.2 x y W2 (proj1 Ix) (proj1 Iy) Ax Ay) as [Fv Bv].
      pose proof (wright_step_near w.1 x y W1 (proj1 Ix) (proj1 Iy) Ax Ay) as Nu.
      pose proof (wright_step_near w.2 x y W2 (proj1 Ix) (proj1 Iy) Ax Ay) as Nv.
      unfold wright_gene, clamp2.
      set (s := fadd (fmul w.1 (fsub x y)) x) in *. set (r := fadd (fmul w.2 (fsub x y)) x) in *.
      destruct (clamp_in b s Hb (is_finite_not_nan _ Fu)) as (u' & Eu & Iu). destruct (clamp_val b s Hb Fu) as (u & Eu' & Fu' & Vu).
      destruct (clamp_in b r Hb (is_finite_not_nan _ Fv)) as (v' & Ev & Iv). destruct (clamp_val b r Hb Fv) as (v & Ev' & Fv' & Vv).
      rewrite Eu' in Eu. injection Eu as <-. rewrite Ev' in Ev. injection Ev as <-.
      rewrite Eu'. cbn [mbind option_bind]. rewrite Ev'. cbn [mbind option_bind]. exists u, v. split; [done|].
      unfold wright_point.
      refine (conj Iu (conj Iv (conj _ (conj _ (conj (conj Fu' _) (conj Fv' _)))))).
      + by apply (clamp_beyond b x y s u).
      + by apply (clamp_beyond b x y r v).
      + rewrite Vu. destruct Nu as [_ Nu]. eapply Rle_trans; [apply Rclamp_lip|]. exact Nu.
      + rewrite Vv. destruct Nv as [_ Nv]. eapply Rle_trans; [apply Rclamp_lip|]. exact Nv. }
  destruct (paretoCompareLess t f1 f2).
  - destruct (H p2 p1 H2 H1) as (c1 & c2 & E & G). exists c1, c2. split; [done|]. split; [done|discriminate].
  - destruct (H p1 p2 H1 H2) as (c1 & c2 & E & G). exists c1, c2. split; [done|]. split; [discriminate|done].
Qed.
Print Assumptions C85_wright.

(** C86: the children of arithmetic crossover are the two convex combinations, up to rounding. *)
Definition combinations (alpha : b64) (x y u v : b64) : Prop :=
  near (rounding x y) u (B2R alpha * B2R x + (1 - B2R alpha) * B2R y) /\
  near (rounding x y) v ((1 - B2R alpha) * B2R x + B2R alpha * B2R y).
Theorem C86_arithmetic (alpha : b64) (bs : list bounds) (p1 p2 : list b64) :
  draw alpha -> Forall (bounded_by (bpow radix2 1021)) bs -> Forall bounds_ok bs -> in_bounds bs p1 -> in_bounds bs p2 ->
  exists c1 c2, Arithmetic alpha bs p1 p2 = Some (c1, c2) /\
    genewise (fun (_ : unit) (_ : bounds) => combinations alpha) bs (replicate (length bs) ()) p1 p2 c1 c2.
Proof.
  intros Ha HM Hb H1 H2. apply real_loop_genewise.
  - by apply in_bounds_length.
  - by apply in_bounds_length.
  - apply replicate_length.
  - intros i d b x y _ Lb Lx Ly. rewrite Forall_lookup in HM, Hb.
    apply arithmetic_gene_near; [done|by apply (HM i)|by apply (Hb i)|by apply (in_bounds_lookup bs p1 i)|by apply (in_bounds_lookup bs p2 i)].
Qed.
Print Assumptions C86_arithmetic.

(** C87: BLX-alpha samples the interval between the genes, extended by alpha times its
    length on both sides, and clamps the result; up to rounding. *)
Definition blx_point (alpha : R) (b : bounds) (x y : b64) (r u : b64) : Prop :=
  let lo := Rmin (B2R x) (B2R y) in let len := Rabs (B2R x - B2R y) in
  near ((1 + alpha) * (bpow radix2 (-47) * (Rabs (B2R x) + Rabs (B2R y)) + bpow radix2 (-1069))) u
    (Rclamp b (lo - alpha * len + (1 + 2 * alpha) * len * B2R r)).
Theorem C87_blx (M : R) (alpha : b64) (rs : list (b64 * b64)) (bs : list bounds) (p1 p2 : list b64) :
  is_finite alpha = true -> 0 <= B2R alpha -> (1 + B2R alpha) * M <= bpow radix2 1018 ->
  Forall (bounded_by M) bs -> Forall bounds_ok bs -> in_bounds bs p1 -> in_bounds bs p2 ->
  length rs = length bs -> Forall (fun r => draw r.1 /\ draw r.2) rs ->
  exists c1 c2, BLXa alpha rs bs p1 p2 = Some (c1, c2) /\
    genewise (fun r b x y u v => blx_point (B2R alpha) b x y r.1 u /\ blx_point (B2R alpha) b x y r.2 v) bs rs p1 p2 c1 c2.
Proof.
  intros Fa Ha HA HM Hb H1 H2 Hl Hr. apply real_loop_genewise; [by apply in_bounds_length|by apply in_bounds_length|done|].
  intros i d b x y Ld Lb Lx Ly. rewrite Forall_lookup in HM. rewrite Forall_lookup in Hb. rewrite Forall_lookup in Hr. specialize (HM i b Lb). specialize (Hb i b Lb).
  destruct (Hr i d Ld) as [D1 D2].
  pose proof (in_bounds_lookup bs p1 i b x H1 Lb Lx) as Ix. pose proof (in_bounds_lookup bs p2 i b y H2 Lb Ly) as Iy.
  pose proof (in_bound_abs _ _ _ HM Ix) as Ax. pose proof (in_bound_abs _ _ _ HM Iy) as Ay.
  destruct Ix as [Fx _]. destruct Iy as [Fy _].
  assert (Bq : bpow radix2 1019 = 2 * bpow radix2 1018) by (rewrite (bpow_plus radix2 1 1018 : bpow radix2 1019 = _); reflexivity).
  unfold blx_gene, blx_point. cbv zeta.
  assert (Hfin : forall lo hi, is_finite lo = true -> is_finite hi = true -> Rabs (B2R lo) <= M -> Rabs (B2R hi) <= M -> B2R lo <= B2R hi ->
    exists u v, ('(range_min, range_max) ← Some (lo, hi);
      u ← randomReal_in (fsub range_min (fmul alpha (fsub range_max range_min))) (fadd range_max (fmul alpha (fsub range_max range_min))) d.1;
      v ← randomReal_in (fsub range_min (fmul alpha (fsub range_max range_min))) (fadd range_max (fmul alpha (fsub range_max range_min))) d.2;
      clamp2 b u v) = Some (u, v) /\
      forall r c, (r, c) = (d.1, u) \/ (r, c) = (d.2, v) ->
      near ((1 + B2R alpha) * (bpow radix2 (-47) * (Rabs (B2R lo) + Rabs (B2R hi)) + bpow radix2 (-1069))) c
       (Rclamp b (B2R lo - B2R alpha * (B2R hi - B2R lo) + (1 + 2 * B2R alpha) * (B2R hi - B2R lo) * B2R r))).
  { intros lo hi Fl Fh Al Ah Hle. cbn [mbind option_bind].
    assert (HT : (1 + B2R alpha) * (Rabs (B2R lo) + Rabs (B2R hi)) <= bpow radix2 1019) by nra.
    destruct (blx_sample_near alpha lo hi d.1 Fa Ha D1 Fl Fh Hle HT) as (u & -> & Nu). cbn [mbind option_bind].
    destruct (blx_sample_near alpha lo hi d.2 Fa Ha D2 Fl Fh Hle HT) as (v & -> & Nv). cbn [mbind option_bind].
    destruct (clamp2_near b u v _ _ _ Hb Nu Nv) as (u' & v' & -> & Nu' & Nv'). exists u', v'. split; [done|].
    intros r c [[= -> ->]|[= -> ->]].
    - match goal with |- near _ _ (Rclamp b ?z) => replace z with (B2R lo - B2R alpha * (B2R hi - B2R lo) + (B2R hi - B2R lo + 2 * (B2R alpha * (B2R hi - B2R lo))) * B2R d.1) by ring end. done.
    - match goal with |- near _ _ (Rclamp b ?z) => replace z with (B2R lo - B2R alpha * (B2R hi - B2R lo) + (B2R hi - B2R lo + 2 * (B2R alpha * (B2R hi - B2R lo))) * B2R d.2) by ring end. done. }
  destruct (minmax_cases x y Fx Fy) as [[-> Hxy]|[-> Hxy]].
  - destruct (Hfin x y Fx Fy Ax Ay Hxy) as (u & v & E & G). exists u, v. split; [exact E|].
    rewrite Rmin_left by lra. rewrite Rabs_minus_sym, (Rabs_pos_eq (B2R y - B2R x)) by lra. split; apply G; auto.
  - destruct (Hfin y x Fy Fx Ay Ax ltac:(lra)) as (u & v & E & G). exists u, v. split; [exact E|].
    rewrite Rmin_right by lra. rewrite (Rabs_pos_eq (B2R x - B2R y)) by lra. rewrite (Rplus_comm (Rabs (B2R x))). split; apply G; auto.
Qed.
Print Assumptions C87_blx.

(** C88: the spread factor of simulated binary crossover is meant to be limited by the
    distance to the bounds, so that the children are within the bounds without clamping.
    With the exponent of the code they are not. *)
Theorem C88_sbx_spread_limited_refuted :
  let eta := 1 in let l := 0 in let g1 := 4 in let g2 := 6 in let u := / 10 in
  l <= g1 < g2 /\ 0 <= eta /\ 0 <= u < 1 /\ sbx_low (- (eta + 1)) eta l g1 g2 u < l - 20.
Proof.
  cbv zeta. split; [lra|]. split; [lra|]. split; [lra|]. unfold sbx_low, sbx_spread, sbx_alpha.
  assert (H : forall x, 0 < x -> Rpower x (- (1 + 1)) = / (x * x)).
  { intros x Hx. rewrite Rpower_Ropp. replace (1 + 1) with (INR 2) by (cbn; lra). rewrite Rpower_pow by done. cbn. by rewrite Rmult_1_r. }
  replace (1 + 2 * (4 - 0) / (6 - 4)) with 5 by lra. rewrite (H 5) by lra.
  replace (2 - / (5 * 5)) with (49 / 25) by field. replace (1 / (49 / 25)) with (25 / 49) by field.
  destruct (Rle_dec _ _) as [_|N]; [|exfalso; apply N; lra].
  rewrite H by lra. replace (/ (/ 10 * (49 / 25) * (/ 10 * (49 / 25)))) with (62500 / 2401) by field. lra.
Qed.
(** With the reciprocal of the exponent the children would never need the clamping. *)
Theorem C88_sbx_reciprocal_exponent (eta l h g1 g2 u : R) :
  0 <= eta -> l <= g1 -> g1 < g2 -> g2 <= h -> 0 < u < 1 ->
  l <= sbx_low (1 / (eta + 1)) eta l g1 g2 u /\ sbx_high (1 / (eta + 1)) eta h g1 g2 u <= h.
Proof.
  intros He Hl Hg Hh Hu.
  assert (Hs : forall beta, 1 <= beta -> 0 < sbx_spread (1 / (eta + 1)) (sbx_alpha eta beta) u <= beta).
  { intros beta Hb. unfold sbx_spread, sbx_alpha. set (q := Rpower beta (- (eta + 1))).
    assert (Hq : 0 < q <= 1).
    { split; [apply exp_pos|]. unfold q. rewrite Rpower_Ropp.
      assert (H1 : 1 <= Rpower beta (eta + 1)) by (rewrite <- (Rpower_O beta) at 1 by lra; apply Rle_Rpower; lra).
      apply Rinv_le_contravar in H1; [|lra]. by rewrite Rinv_1 in H1. }
    assert (Hroot : Rpower (/ q) (1 / (eta + 1)) = beta).
    { unfold q. rewrite Rpower_Ropp, Rinv_inv. rewrite Rpower_mult. replace ((eta + 1) * (1 / (eta + 1))) with 1 by (field; lra). apply Rpower_1. lra. }
    assert (Hex : 0 <= 1 / (eta + 1)) by (apply Rlt_le, Rdiv_lt_0_compat; lra).
    destruct (Rle_dec u (1 / (2 - q))) as [Hle|Hgt]; (split; [apply exp_pos|]).
    - apply Rle_trans with 1; [|done]. rewrite <- (Rpower_O (u * (2 - q))) by nra.
      assert (Hx : u * (2 - q) <= 1).
      { apply (Rmult_le_compat_r (2 - q)) in Hle; [|lra]. unfold Rdiv in Hle. rewrite Rmult_1_l, Rinv_l in Hle by lra. done. }
      rewrite Rpower_O by nra. apply Rle_trans with (Rpower 1 (1 / (eta + 1))); [apply Rle_Rpower_l; [done|split; nra]|].
      unfold Rpower. rewrite ln_1, Rmult_0_r, exp_0. lra.
    - apply Rle_trans with (Rpower (/ q) (1 / (eta + 1))); [|rewrite Hroot; lra]. apply Rle_Rpower_l; [done|]. assert (0 < 2 - u * (2 - q)) by nra. unfold Rdiv. rewrite Rmult_1_l.
      split; [by apply Rinv_0_lt_compat|]. apply Rinv_le_contravar; [lra|nra]. }
  unfold sbx_low, sbx_high.
  assert (B1 : 1 <= 1 + 2 * (g1 - l) / (g2 - g1)).
  { assert (0 <= 2 * (g1 - l) / (g2 - g1)); [|lra]. apply Rmult_le_pos; [lra|]. apply Rlt_le, Rinv_0_lt_compat. lra. }
  assert (B2 : 1 <= 1 + 2 * (h - g2) / (g2 - g1)).
  { assert (0 <= 2 * (h - g2) / (g2 - g1)); [|lra]. apply Rmult_le_pos; [lra|]. apply Rlt_le, Rinv_0_lt_compat. lra. }
  destruct (Hs _ B1) as [S1 S2]. destruct (Hs _ B2) as [S3 S4].
  set (s1 := sbx_spread _ (sbx_alpha eta (1 + 2 * (g1 - l) / (g2 - g1))) u) in *.
  set (s2 := sbx_spread _ (sbx_alpha eta (1 + 2 * (h - g2) / (g2 - g1))) u) in *.
  split.
  - assert (s1 * (g2 - g1) <= (1 + 2 * (g1 - l) / (g2 - g1)) * (g2 - g1)) as H by (apply Rmult_le_compat_r; lra).
    replace ((1 + 2 * (g1 - l) / (g2 - g1)) * (g2 - g1)) with (g2 - g1 + 2 * (g1 - l)) in H by (field; lra). lra.
  - assert (s2 * (g2 - g1) <= (1 + 2 * (h - g2) / (g2 - g1)) * (g2 - g1)) as H by (apply Rmult_le_compat_r; lra).
    replace ((1 + 2 * (h - g2) / (g2 - g1)) * (g2 - g1)) with (g2 - g1 + 2 * (h - g2)) in H by (field; lra). lra.
Qed.
Print Assumptions C88_sbx_spread_limited_refuted.
Print Assumptions C88_sbx_reciprocal_exponent.

(** Examples: bounds [0, 16], genes 2 and 4, the second parent is fitter. *)
Definition ex_bounds : bounds := Bounds fzero (fmk 16 0).
Definition show (r : option (list b64 * list b64)) : option (list SpecFloat.spec_float * list SpecFloat.spec_float) :=
  option_map (fun r => (map B2SF r.1, map B2SF r.2)) r.
Lemma ex_hyps : Forall (bounded_by (bpow radix2 1021)) [ex_bounds] /\ Forall bounds_ok [ex_bounds] /\
  in_bounds [ex_bounds] [fmk 2 0] /\ in_bounds [ex_bounds] [fmk 4 0] /\ draw fhalf /\ draw fzero.
Proof.
  destruct (fmk_val 16 0) as (F16 & V16 & _); [lia|lia|]. destruct (fmk_val 2 0) as (F2 & V2 & _); [lia|lia|].
  destruct (fmk_val 4 0) as (F4 & V4 & _); [lia|lia|]. destruct fhalf_val as [Fh Vh].
  change (bpow radix2 0) with 1 in *. assert (V0 : B2R fzero = 0) by done.
  assert (B : 16 <= bpow radix2 1021) by (change 16 with (bpow radix2 4); apply bpow_le; lia).
  unfold in_bounds.
  repeat match goal with |- bounded_by _ _ => unfold bounded_by | |- bounds_ok _ => unfold bounds_ok | |- in_bound _ _ => unfold in_bound | |- draw _ => unfold draw | |- _ /\ _ => split | |- Forall _ [_] => apply Forall_singleton | |- Forall2 _ [_] [_] => constructor; [|constructor] end;
    cbn [ex_bounds lower upper]; try done; rewrite ?V16, ?V2, ?V4, ?V0, ?Vh; try lra; apply Rabs_le; lra.
Qed.
Example C85_nonvacuous :
  (Forall (bounded_by (bpow radix2 1021)) [ex_bounds] /\ Forall bounds_ok [ex_bounds] /\
   in_bounds [ex_bounds] [fmk 2 0] /\ in_bounds [ex_bounds] [fmk 4 0] /\ draw fhalf /\ draw fzero) /\
  paretoCompareLess default_tolerances [fone] [ftwo] = true /\
  show (Wright default_tolerances (fhalf, fzero) [ex_bounds] [fone] [ftwo] [fmk 2 0] [fmk 4 0]) = show (Some ([fmk 5 0], [fmk 4 0])).
Proof. split; [apply ex_hyps|]. split; vm_compute; reflexivity. Qed.
Example C86_nonvacuous :
  show (Arithmetic (fmk 1 (-2)) [ex_bounds] [fmk 2 0] [fmk 4 0]) = show (Some ([fmk 7 (-1)], [fmk 5 (-1)])).
Proof. vm_compute. reflexivity. Qed.
(** The extended interval [1, 5] is sampled at 1/2 and at 0. *)
Example C87_nonvacuous :
  (1 + B2R fhalf) * 16 <= bpow radix2 1018 /\ Forall (bounded_by 16) [ex_bounds] /\
  show (BLXa fhalf [(fhalf, fzero)] [ex_bounds] [fmk 2 0] [fmk 4 0]) = show (Some ([fmk 3 0], [fone])).
Proof.
  destruct fhalf_val as [Fh Vh]. split; [|split].
  - rewrite Vh. assert (32 <= bpow radix2 1018) by (change 32 with (bpow radix2 5); apply bpow_le; lia). lra.
  - destruct (fmk_val 16 0) as (F16 & V16 & _); [lia|lia|]. change (bpow radix2 0) with 1 in *. assert (V0 : B2R fzero = 0) by done.
    apply Forall_singleton. unfold bounded_by. cbn [ex_bounds lower upper]. rewrite V16, V0. split; apply Rabs_le; lra.
  - vm_compute. reflexivity.
Qed.
