(** C104: the quasi random sequence is the additive recurrence of the generalized golden ratio. *)
From stdpp Require Import list list_numbers.
From Coq Require Import ZArith Reals Lia Lra.
From Flocq Require Import Core BinarySingleNaN.
From Verif Require Import FloatBase RealCrossoverModel RealSpec RealProofs RandModel RandProofs QrngModel QrngProps.
Local Open Scope R_scope.

(** ** The operations *)
(** Discarding is drawing without looking. *)
Theorem C104_discard (n : nat) (ops : list quasi_op) (q : quasi) :
  quasi_run (QDiscard n :: ops) q = option_map (drop n) (quasi_run (replicate n QNext ++ ops) q).
Proof.
  revert q. induction n as [|n IH]; intros q; cbn [replicate app].
  - cbn [quasi_run quasi_discard mbind option_bind]. by destruct (quasi_run ops q).
  - cbn [quasi_run quasi_discard]. destruct (quasi_next q) as [[q' p]|]; [|done]. cbn [mbind option_bind]. specialize (IH q'). cbn [quasi_run] in IH. rewrite IH.
    by destruct (quasi_run (replicate n QNext ++ ops) q').
Qed.
Print Assumptions C104_discard.
(** The points after a reset are those of a new generator with the seed. *)
Definition same_kind (pow : b64 -> b64 -> b64) (dim : nat) (q : quasi) : Prop := q_dim q = dim /\ q_alpha q = q_alpha (quasi_new pow dim fzero) /\ length (q_point q) = dim.
Lemma coordinates_length point : forall alpha p, coordinates point alpha = Some p -> length p = length point.
Proof.
  induction point as [|x point IH]; intros [|a alpha] p H; cbn [coordinates] in H; try done; [by injection H as <-|by injection H as <-|].
  destruct (coordinate x a); [|done]. cbn [mbind option_bind] in H. destruct (coordinates point alpha) eqn:E; [|done]. cbn [mbind option_bind] in H. injection H as <-. cbn. f_equal. by eapply IH.
Qed.
Lemma next_kind pow dim q q' p : same_kind pow dim q -> quasi_next q = Some (q', p) -> same_kind pow dim q'.
Proof.
  intros (H1 & H2 & H3) H. unfold quasi_next in H. destruct (coordinates (q_point q) (q_alpha q)) eqn:E; [|done]. cbn [mbind option_bind] in H. injection H as <- <-.
  split; [done|]. split; [done|]. cbn. rewrite (coordinates_length _ _ _ E). done.
Qed.
Lemma discard_kind pow dim n : forall q q', same_kind pow dim q -> quasi_discard n q = Some q' -> same_kind pow dim q'.
Proof.
  induction n as [|n IH]; intros q q' Hq H; cbn [quasi_discard] in H; [by injection H as <-|]. destruct (quasi_next q) as [[q1 p]|] eqn:E; [|done]. cbn [mbind option_bind] in H.
  eapply IH; [|exact H]. by eapply next_kind.
Qed.
Lemma reset_new pow dim s q : same_kind pow dim q -> quasi_reset s q = quasi_new pow dim s.
Proof. intros (H1 & H2 & H3). unfold quasi_reset, quasi_new. cbn zeta. rewrite H1, H2, H3. done. Qed.
Theorem C104_reset pow (dim : nat) (seed s : b64) (ops1 ops2 : list quasi_op) points :
  quasi_run (ops1 ++ QReset s :: ops2) (quasi_new pow dim seed) = Some points ->
  exists points1 points2, points = points1 ++ points2 /\ quasi_run ops1 (quasi_new pow dim seed) = Some points1 /\ quasi_run ops2 (quasi_new pow dim s) = Some points2.
Proof.
  assert (Hk : same_kind pow dim (quasi_new pow dim seed)) by (split; [done|]; split; [done|]; cbn; by rewrite replicate_length).
  revert Hk points. generalize (quasi_new pow dim seed). induction ops1 as [|[|n|s1] ops1 IH]; intros q Hk points H; cbn [app quasi_run] in H |- *.
  - rewrite (reset_new _ _ _ _ Hk) in H. exists [], points. done.
  - destruct (quasi_next q) as [[q' p]|] eqn:E; [|done]. cbn [mbind option_bind] in H |- *. destruct (quasi_run (ops1 ++ _) q') as [ps|] eqn:E2; [|done]. cbn [mbind option_bind] in H. injection H as <-.
    destruct (IH q' (next_kind _ _ _ _ _ Hk E) ps E2) as (p1 & p2 & -> & -> & E3). exists (p :: p1), p2. done.
  - destruct (quasi_discard n q) as [q'|] eqn:E; [|done]. cbn [mbind option_bind] in H |- *. apply IH; [|done]. by eapply discard_kind.
  - apply IH; [|done]. rewrite (reset_new _ _ _ _ Hk). split; [done|]. split; [done|]. cbn. by rewrite replicate_length.
Qed.
Print Assumptions C104_reset.

(** ** The points *)
Lemma rnd_half x (e : Z) : (-1000 <= e <= 1000)%Z -> Rabs x <= bpow radix2 e -> Rabs (rnd x - x) <= bpow radix2 (e - 54).
Proof.
  intros He Hx. assert (Hpos : 0 <= bpow radix2 (e - 54)) by apply bpow_ge_0. destruct (Req_dec x 0) as [->|Hn]; [rewrite rnd_0, Rminus_diag_eq, Rabs_R0 by done; done|].
  destruct (Rle_lt_or_eq_dec _ _ Hx) as [Hlt|Heq].
  - eapply Rle_trans; [apply error_le_half_ulp; apply fexp_correct; done|]. rewrite ulp_neq_0 by done. replace (bpow radix2 (e - 54)) with (/ 2 * bpow radix2 (e - 53)).
    + apply Rmult_le_compat_l; [lra|]. apply bpow_le. unfold cexp, SpecFloat.fexp, SpecFloat.emin. pose proof (mag_le_bpow radix2 x e Hn Hlt). lia.
    + replace (e - 53)%Z with (1 + (e - 54))%Z by lia. rewrite bpow_plus. change (bpow radix2 1) with 2. lra.
  - assert (Hr : rnd x = x). { destruct (Rle_dec 0 x) as [H0|H0].
      - rewrite Rabs_pos_eq in Heq by done. rewrite Heq. apply bpow_fmt. lia.
      - rewrite Rabs_left in Heq by lra. replace x with (- bpow radix2 e) by lra. rewrite rnd_opp. by rewrite bpow_fmt by lia. }
    rewrite Hr, Rminus_diag_eq, Rabs_R0 by done. done.
Qed.
Lemma coordinate_val p a x : unit_closed p -> unit_closed a -> coordinate p a = Some x -> in_unit x /\ exists k : Z, Rabs (B2R x - (B2R p + B2R a - IZR k)) <= bpow radix2 (-53).
Proof.
  intros [P1 P2] [A1 A2]. unfold coordinate. destruct (fadd_finite p a P1 A1) as [S1 S2]. pose proof femax_1 as Hm.
  assert (H2 : bpow radix2 1 = 2) by done. assert (Hm2 : 2 < femax) by (rewrite <- H2; apply bpow_lt; lia).
  assert (Hb : 0 <= rnd (B2R p + B2R a) <= 2). { split; [rewrite <- rnd_0; apply rnd_mono; lra|]. rewrite <- H2, <- (bpow_fmt 1) by lia. apply rnd_mono. lra. }
  unfold srnd in S2. rewrite sat_id in S2 by lra.
  assert (Hf : is_finite (fadd p a) = true). { apply finite_of_val; [done|]. rewrite S2, Rabs_pos_eq by lra. lra. }
  rewrite fval_finite in S2 by done. assert (H64 : 2 < bpow radix2 64) by (rewrite <- H2; apply bpow_lt; lia).
  destruct (fraction (fadd p a) Hf) as (z & E & Hu & Hv); [lra|]. rewrite E. cbn [mbind option_bind]. intros [= <-]. split; [done|]. exists z. rewrite Hv, S2.
  replace (_ - _ - _) with (rnd (B2R p + B2R a) - (B2R p + B2R a)) by ring. apply (rnd_half _ 1); [lia|]. rewrite Rabs_pos_eq by lra. lra.
Qed.
Lemma coordinates_lookup point : forall alpha r i x, coordinates point alpha = Some r -> r !! i = Some x -> exists p a, point !! i = Some p /\ alpha !! i = Some a /\ coordinate p a = Some x.
Proof.
  induction point as [|p point IH]; intros [|a alpha] r i x H Hi; cbn [coordinates] in H; try done; [by injection H as <-|by injection H as <-|].
  destruct (coordinate p a) as [y|] eqn:E; [|done]. cbn [mbind option_bind] in H. destruct (coordinates point alpha) as [r'|] eqn:E2; [|done]. cbn [mbind option_bind] in H. injection H as <-.
  destruct i as [|i]; [injection Hi as <-; by exists p, a|]. cbn in Hi. by apply (IH alpha r').
Qed.
(** Coordinate [i] of the n-th point is seed + n * alpha_i up to a whole number, and n roundings. *)
Theorem C104_points pow (dim : nat) (seed : b64) (n : nat) points :
  pow_ge_1 pow -> (Z.of_nat dim < 2 ^ 64)%Z -> unit_closed seed ->
  quasi_run (replicate n QNext) (quasi_new pow dim seed) = Some points ->
  length points = n /\
  forall m point i x a, points !! m = Some point -> point !! i = Some x -> q_alpha (quasi_new pow dim seed) !! i = Some a ->
    exists k : Z, Rabs (B2R x - (B2R seed + INR (S m) * B2R a - IZR k)) <= INR (S m) * bpow radix2 (-53).
Proof.
  intros Hpow Hd Hs. set (q0 := quasi_new pow dim seed).
  assert (Ha : Forall unit_closed (q_alpha q0)). { pose proof (phi_ge1 pow Hpow dim Hd) as Hp. by destruct (alpha_ok dim _ _ Hp Hp) as [A1 _]. }
  set (ok := fun (m : nat) (i : nat) (x : b64) => unit_closed x /\ forall a, q_alpha q0 !! i = Some a -> exists k : Z, Rabs (B2R x - (B2R seed + INR m * B2R a - IZR k)) <= INR m * bpow radix2 (-53)).
  assert (H : forall n m q points, q_alpha q = q_alpha q0 -> (forall i x, q_point q !! i = Some x -> ok m i x) -> quasi_run (replicate n QNext) q = Some points ->
    length points = n /\ forall j point i x, points !! j = Some point -> point !! i = Some x -> ok (S m + j)%nat i x).
  { clear points n. induction n as [|n IH]; intros m q points Hq Hm H; cbn [replicate quasi_run] in H; [injection H as <-; done|].
    destruct (quasi_next q) as [[q' p]|] eqn:E; [|done]. cbn [mbind option_bind] in H. destruct (quasi_run _ q') as [ps|] eqn:E2; [|done]. cbn [mbind option_bind] in H. injection H as <-.
    unfold quasi_next in E. destruct (coordinates (q_point q) (q_alpha q)) as [r|] eqn:Ec; [|done]. cbn [mbind option_bind] in E. injection E as <- <-.
    assert (Hr : forall i x, r !! i = Some x -> ok (S m) i x).
    { intros i x Hi. destruct (coordinates_lookup _ _ _ _ _ Ec Hi) as (y & a & Hy & Hya & Hxy). destruct (Hm i y Hy) as [Hu Hk]. rewrite Hq in Hya. assert (Hau : unit_closed a) by (by eapply Forall_lookup_1).
      destruct (coordinate_val y a x Hu Hau Hxy) as ([X1 X2] & k & Hkx). split; [split; [done|lra]|]. intros a' Ha'. assert (a' = a) as -> by congruence. destruct (Hk a Hya) as [k' Hk']. exists (k + k')%Z.
      rewrite S_INR, plus_IZR. replace (_ - _) with ((B2R x - (B2R y + B2R a - IZR k)) + (B2R y - (B2R seed + INR m * B2R a - IZR k'))) by ring. eapply Rle_trans; [apply Rabs_triang|]. lra. }
    destruct (IH (S m) (Quasi (q_dim q) (q_seed q) (q_alpha q) r) ps Hq Hr E2) as [L IHp]. split; [cbn; by rewrite L|]. intros [|j] point i x Hj Hi.
    - injection Hj as <-. rewrite Nat.add_0_r. by apply Hr.
    - cbn in Hj. replace (S m + S j)%nat with (S (S m) + j)%nat by lia. by apply (IHp j point). }
  intros Hrun. destruct (H n 0%nat q0 points eq_refl) as [L Hp]; [|done|].
  - intros i x Hx. cbn in Hx. apply lookup_replicate in Hx as [-> _]. split; [done|]. intros a _. exists 0%Z. cbn [INR]. replace (B2R seed - (B2R seed + 0 * B2R a - 0)) with 0 by ring. rewrite Rabs_R0. lra.
  - split; [done|]. intros m point i x a Hm Hi Hai. destruct (Hp m point i x Hm Hi) as [_ Hk]. exact (Hk a Hai).
Qed.
Print Assumptions C104_points.

(** ** The golden ratio *)
(** What is assumed about std::pow for a base in [1, 4] and an exponent in [0, 1]. *)
Definition pow_accurate (pow : b64 -> b64 -> b64) : Prop := forall x y, is_finite x = true -> is_finite y = true -> 1 <= B2R x <= 4 -> 0 <= B2R y <= 1 ->
  is_finite (pow x y) = true /\ 1 <= B2R (pow x y) /\ Rabs (B2R (pow x y) - Rpower (B2R x) (B2R y)) <= bpow radix2 (-50) * Rpower (B2R x) (B2R y).
(** The generalized golden ratio. *)
Definition golden (d : nat) (r : R) : Prop := 0 < r /\ r ^ (d + 1) = r + 1.

Lemma golden_bounds d r : (1 <= d)%nat -> golden d r -> 1 <= r <= 1619 / 1000.
Proof.
  intros Hd [H0 H]. assert (H1 : 1 <= r). { destruct (Rle_dec 1 r) as [|Hn]; [done|exfalso]. assert (r ^ (d + 1) <= 1 ^ (d + 1)) by (apply pow_incr; lra). rewrite pow1 in *. lra. }
  split; [done|]. assert (r ^ 2 <= r ^ (d + 1)) by (apply Rle_pow; [done|lia]). cbn [pow] in *. destruct (Rle_dec r (1619 / 1000)); [done|]. nra.
Qed.
Lemma Rpower_half4 : Rpower 4 (/ 2) = 2.
Proof. rewrite Rpower_sqrt by lra. replace 4 with (2 * 2) by lra. apply sqrt_square. lra. Qed.
Lemma Rpower_le2 a y : 1 <= a <= 4 -> 0 <= y <= / 2 -> Rpower a y <= 2.
Proof.
  intros Ha Hy. rewrite <- Rpower_half4. eapply Rle_trans; [apply Rle_Rpower; [lra|apply Hy]|]. apply Rle_Rpower_l; lra.
Qed.
(** The iteration is a contraction. *)
Definition q0 : R := 354 / 1000.
Lemma contraction_lt a b y : 2 <= a -> a < b -> 0 <= y <= / 2 -> 0 <= Rpower b y - Rpower a y <= q0 * (b - a).
Proof.
  intros Ha Hab Hy. destruct (MVT_cor2 (fun x => Rpower x y) (fun x => y * Rpower x (y - 1)) a b Hab) as (c & Hc & Hac). { intros c Hc. apply derivable_pt_lim_power. lra. }
  cbv beta in Hc. rewrite Hc. assert (Hp : 0 < Rpower c (y - 1)) by apply exp_pos.
  assert (Hp2 : Rpower c (y - 1) <= 708 / 1000).
  { replace (y - 1) with (- (1 - y)) by ring. rewrite Rpower_Ropp. assert (Hs : 1 / (708 / 1000) <= Rpower c (1 - y)).
    { apply Rle_trans with (Rpower c (/ 2)); [|apply Rle_Rpower; lra]. apply Rle_trans with (Rpower 2 (/ 2)); [|apply Rle_Rpower_l; lra]. rewrite Rpower_sqrt by lra.
      assert (sqrt ((1 / (708 / 1000)) * (1 / (708 / 1000))) <= sqrt 2) by (apply sqrt_le_1_alt; lra). rewrite sqrt_square in * by lra. done. }
    replace (708 / 1000) with (/ (1 / (708 / 1000))) by lra. apply Rinv_le; lra. }
  unfold q0. split; [apply Rmult_le_pos; [apply Rmult_le_pos|]; lra|]. apply Rmult_le_compat_r; [lra|]. nra.
Qed.
Lemma contraction a b y : 2 <= a -> 2 <= b -> 0 <= y <= / 2 -> Rabs (Rpower a y - Rpower b y) <= q0 * Rabs (a - b).
Proof.
  intros Ha Hb Hy. destruct (Rtotal_order a b) as [H|[->|H]].
  - pose proof (contraction_lt a b y Ha H Hy). rewrite Rabs_minus_sym, (Rabs_minus_sym a). rewrite !Rabs_pos_eq by lra. lra.
  - rewrite !Rminus_diag_eq, !Rabs_R0 by done. unfold q0. lra.
  - pose proof (contraction_lt b a y Hb H Hy). rewrite !Rabs_pos_eq by lra. lra.
Qed.
Lemma exp_near t : Rabs t <= / 2 -> Rabs (exp t - 1) <= 2 * Rabs t.
Proof.
  intros Ht. apply Rabs_le_inv in Ht as Ht'. assert (L : forall s, 1 + s <= exp s). { intros s. destruct (Req_dec s 0) as [->|]; [rewrite exp_0; lra|]. left. by apply exp_ineq1. }
  pose proof (L t) as L1. pose proof (L (- t)) as L2. rewrite exp_Ropp in L2. pose proof (exp_pos t) as Hp.
  assert (L3 : exp t * (1 + - t) <= 1). { apply Rmult_le_reg_l with (/ exp t); [by apply Rinv_0_lt_compat|]. rewrite <- Rmult_assoc, Rinv_l by lra. lra. }
  destruct (Rle_dec 0 t) as [H0|H0].
  - rewrite (Rabs_pos_eq t) in * by done. rewrite Rabs_pos_eq by lra. nra.
  - assert (exp t <= 1). { rewrite <- exp_0. left. apply exp_increasing. lra. } rewrite (Rabs_left t) by lra. rewrite Rabs_left1 by lra. lra.
Qed.
Lemma exponent_near a y z : 2 <= a <= 4 -> 0 <= y <= / 2 -> Rabs (z - y) <= bpow radix2 (-55) -> Rabs (Rpower a z - Rpower a y) <= bpow radix2 (-51).
Proof.
  intros Ha Hy Hz. assert (Hl : 0 <= ln a <= 3).
  { split; [rewrite <- ln_1; apply Rlt_le, ln_increasing; lra|]. assert (ln a <= a - 1); [|lra]. assert (1 + ln a <= exp (ln a)); [|rewrite exp_ln in * by lra; lra]. destruct (Req_dec (ln a) 0) as [->|]; [rewrite exp_0; lra|]. left. by apply exp_ineq1. }
  replace (Rpower a z) with (Rpower a y * exp ((z - y) * ln a)) by (unfold Rpower; rewrite <- exp_plus; f_equal; ring).
  replace (Rpower a y * exp ((z - y) * ln a) - Rpower a y) with (Rpower a y * (exp ((z - y) * ln a) - 1)) by ring. rewrite Rabs_mult.
  assert (Hp : 0 < Rpower a y) by apply exp_pos. rewrite (Rabs_pos_eq (Rpower a y)) by lra. pose proof (Rpower_le2 a y ltac:(lra) Hy) as H2.
  assert (Ht : Rabs ((z - y) * ln a) <= 3 * bpow radix2 (-55)). { rewrite Rabs_mult, (Rabs_pos_eq (ln a)) by lra. pose proof (Rabs_pos (z - y)). nra. }
  assert (Hb : bpow radix2 (-51) = 16 * bpow radix2 (-55)). { replace (-51)%Z with (4 + -55)%Z by lia. rewrite bpow_plus. done. }
  assert (Hsm : bpow radix2 (-55) <= / 6). { apply Rle_trans with (bpow radix2 (-3)); [apply bpow_le; lia|]. change (bpow radix2 (-3)) with (/ 8). lra. }
  pose proof (bpow_gt_0 radix2 (-55)). pose proof (exp_near ((z - y) * ln a) ltac:(lra)) as He. pose proof (Rabs_pos (exp ((z - y) * ln a) - 1)). rewrite Hb. nra.
Qed.

Section phi.
Context (pow : b64 -> b64 -> b64) (Hpow : pow_accurate pow).
Variable d : nat.
Hypothesis Hd : (1 <= d)%nat.
Hypothesis Hd2 : (Z.of_nat d < 2 ^ 53)%Z.
Variable r : R.
Hypothesis Hr : golden d r.
Let ex := fdiv fone (fadd (fofZ (Z.of_nat d)) fone).
Let y := / INR (d + 1).
Lemma y_bounds : 0 < y <= / 2.
Proof.
  unfold y. assert (2 <= INR (d + 1)) by (change 2 with (INR 2); apply le_INR; lia). split; [apply Rinv_0_lt_compat; lra|]. apply Rinv_le; lra.
Qed.
Lemma ex_ok : is_finite ex = true /\ 0 <= B2R ex <= / 2 /\ Rabs (B2R ex - y) <= bpow radix2 (-55).
Proof.
  destruct fone_val as [O1 O2]. destruct (fofZ_exact (Z.of_nat d)) as [D1 D2]; [lia|]. destruct (fadd_finite _ _ D1 O1) as [A1 A2].
  assert (Es : B2R (fofZ (Z.of_nat d)) + B2R fone = IZR (Z.of_nat d + 1)) by (rewrite D2, O2, plus_IZR; done).
  destruct (fofZ_exact (Z.of_nat d + 1)) as [E1 E2]; [lia|]. rewrite Es, <- E2, srnd_id in A2 by done.
  assert (Hn : 0 < IZR (Z.of_nat d + 1)) by (apply IZR_lt; lia).
  assert (Hf : is_finite (fadd (fofZ (Z.of_nat d)) fone) = true). { apply finite_of_val; [done|]. rewrite A2, E2, Rabs_pos_eq by lra. apply Rle_lt_trans with (bpow radix2 53); [rewrite bpow_IZR by lia; apply IZR_le; lia|apply bpow_lt; lia]. }
  rewrite fval_finite in A2 by done. destruct (fdiv_finite fone _ O1 Hf) as [B1 B2]; [rewrite A2, E2; lra|]. fold ex in B1, B2. rewrite A2, E2, O2 in B2.
  replace (1 / IZR (Z.of_nat d + 1)) with y in B2. 2:{ unfold y. rewrite INR_IZR_INZ. replace (Z.of_nat (d + 1)) with (Z.of_nat d + 1)%Z by lia. field. lra. }
  pose proof y_bounds as Hy. assert (Hh : bpow radix2 (-1) = / 2) by done. assert (Hb : 0 <= rnd y <= / 2). { split; [rewrite <- rnd_0; apply rnd_mono; lra|]. rewrite <- Hh, <- (bpow_fmt (-1)) by lia. apply rnd_mono. lra. }
  pose proof femax_1. unfold srnd in B2. rewrite sat_id in B2 by lra. assert (Hfe : is_finite ex = true). { apply finite_of_val; [done|]. rewrite B2, Rabs_pos_eq by lra. lra. }
  rewrite fval_finite in B2 by done. split; [done|]. rewrite B2. split; [done|]. apply (rnd_half y (-1)); [lia|]. rewrite Rabs_pos_eq by lra. lra.
Qed.
Lemma golden_fixed : Rpower (1 + r) y = r.
Proof.
  destruct Hr as [H0 H]. rewrite Rplus_comm, <- H, <- Rpower_pow by done. rewrite Rpower_mult. unfold y. rewrite Rinv_r; [by apply Rpower_1|]. apply not_0_INR. lia.
Qed.
Lemma phi_step x : is_finite x = true -> 1 <= B2R x <= 2 ->
  let x' := pow (fadd fone x) ex in is_finite x' = true /\ 1 <= B2R x' <= 2 /\ Rabs (B2R x' - r) <= q0 * Rabs (B2R x - r) + bpow radix2 (-48).
Proof.
  intros Fx Hx x'. destruct fone_val as [O1 O2]. destruct ex_ok as (X1 & X2 & X3). pose proof y_bounds as Hy. pose proof (golden_bounds d r Hd Hr) as Hrb.
  destruct (fadd_finite fone x O1 Fx) as [A1 A2]. rewrite O2 in A2. set (a := fadd fone x) in *.
  assert (H1 : bpow radix2 1 = 2) by done. assert (H2 : bpow radix2 2 = 4) by done.
  assert (Hb : 2 <= rnd (1 + B2R x) <= 4). { rewrite <- H1 at 1. rewrite <- (bpow_fmt 1) by lia. rewrite <- H2, <- (bpow_fmt 2) by lia. split; apply rnd_mono; lra. }
  assert (Hm4 : 4 < femax) by (rewrite <- H2; apply bpow_lt; lia). unfold srnd in A2. rewrite sat_id in A2 by lra. assert (Fa : is_finite a = true). { apply finite_of_val; [done|]. rewrite A2, Rabs_pos_eq by lra. lra. }
  rewrite fval_finite in A2 by done. rewrite <- A2 in Hb. assert (Ha : Rabs (B2R a - (1 + B2R x)) <= bpow radix2 (-52)). { rewrite A2. apply (rnd_half _ 2); [lia|]. rewrite Rabs_pos_eq by lra. lra. }
  destruct (Hpow a ex Fa X1 ltac:(lra) ltac:(lra)) as (P1 & P2 & P3). fold x' in P1, P2, P3. split; [done|].
  pose proof (Rpower_le2 (B2R a) (B2R ex) ltac:(lra) X2) as Hp2. assert (Hp0 : 0 < Rpower (B2R a) (B2R ex)) by apply exp_pos.
  pose proof (exponent_near (B2R a) y (B2R ex) ltac:(lra) ltac:(lra) X3) as E1. pose proof (contraction (B2R a) (1 + r) y ltac:(lra) ltac:(lra) ltac:(lra)) as E2. rewrite golden_fixed in E2.
  assert (B : bpow radix2 (-48) = 16 * bpow radix2 (-52) /\ bpow radix2 (-51) = 2 * bpow radix2 (-52) /\ bpow radix2 (-50) = 4 * bpow radix2 (-52)).
  { split; [|split]; [replace (-48)%Z with (4 + -52)%Z by lia|replace (-51)%Z with (1 + -52)%Z by lia|replace (-50)%Z with (2 + -52)%Z by lia]; rewrite bpow_plus; done. }
  destruct B as (B1 & B2 & B3). rewrite B3 in P3. rewrite B2 in E1. pose proof (bpow_gt_0 radix2 (-52)) as Hu. set (u := bpow radix2 (-52)) in *.
  assert (E3 : Rabs (B2R a - (1 + r)) <= Rabs (B2R x - r) + u). { replace (B2R a - (1 + r)) with ((B2R a - (1 + B2R x)) + (B2R x - r)) by ring. eapply Rle_trans; [apply Rabs_triang|]. lra. }
  assert (E : Rabs (B2R x' - r) <= q0 * Rabs (B2R x - r) + 16 * u).
  { replace (B2R x' - r) with ((B2R x' - Rpower (B2R a) (B2R ex)) + ((Rpower (B2R a) (B2R ex) - Rpower (B2R a) y) + (Rpower (B2R a) y - r))) by ring.
    eapply Rle_trans; [apply Rabs_triang|]. eapply Rle_trans; [apply Rplus_le_compat_l, Rabs_triang|]. assert (P4 : Rabs (B2R x' - Rpower (B2R a) (B2R ex)) <= 8 * u) by nra. unfold q0 in *. lra. }
  split; [|rewrite B1; done]. split; [done|]. assert (Hx1 : Rabs (B2R x - r) <= 1) by (apply Rabs_le; lra). apply Rabs_le_inv in E. assert (u <= / 1000). { unfold u. apply Rle_trans with (bpow radix2 (-10)); [apply bpow_le; lia|]. change (bpow radix2 (-10)) with (/ 1024). lra. } unfold q0 in *. lra.
Qed.
(** Thirty iterations. *)
Theorem C104_phi : is_finite (phi pow (Z.of_nat d)) = true /\ 1 <= B2R (phi pow (Z.of_nat d)) <= 2 /\ Rabs (B2R (phi pow (Z.of_nat d)) - r) <= bpow radix2 (-44).
Proof.
  pose proof (golden_bounds d r Hd Hr) as Hrb. assert (Hq0 : 0 < q0 <= / 2) by (unfold q0; lra). pose proof (bpow_gt_0 radix2 (-48)) as Hb. assert (H : forall n x, is_finite x = true -> 1 <= B2R x <= 2 ->
    is_finite (phi_loop pow n (Z.of_nat d) x) = true /\ 1 <= B2R (phi_loop pow n (Z.of_nat d) x) <= 2 /\
    Rabs (B2R (phi_loop pow n (Z.of_nat d) x) - r) <= q0 ^ n * Rabs (B2R x - r) + 2 * bpow radix2 (-48) * (1 - q0 ^ n)).
  { induction n as [|n IH]; intros x Fx Hx; cbn [phi_loop].
    - split; [done|]. split; [done|]. cbn [Rpow_def.pow]. lra.
    - destruct (phi_step x Fx Hx) as (S1 & S2 & S3). fold ex. set (x' := pow (fadd fone x) ex) in *. destruct (IH x' S1 S2) as (I1 & I2 & I3). split; [done|]. split; [done|].
      eapply Rle_trans; [exact I3|]. cbn [Rpow_def.pow]. assert (Hqn : 0 < q0 ^ n) by (apply pow_lt; lra). set (c := bpow radix2 (-48)) in *. set (e := Rabs (B2R x - r)) in *.
      assert (q0 ^ n * Rabs (B2R x' - r) <= q0 ^ n * (q0 * e + c)) by (apply Rmult_le_compat_l; lra).
      assert (q0 * (q0 ^ n * c) <= / 2 * (q0 ^ n * c)) by (apply Rmult_le_compat_r; [apply Rmult_le_pos; lra|lra]). lra. }
  unfold phi. destruct fone_val as [O1 O2]. destruct (H 30%nat fone O1 ltac:(lra)) as (G1 & G2 & G3). split; [done|]. split; [done|]. eapply Rle_trans; [exact G3|].
  rewrite O2. assert (Hx1 : Rabs (1 - r) <= 1) by (apply Rabs_le; lra). assert (Hqn : 0 < q0 ^ 30) by (apply pow_lt; lra).
  assert (B : bpow radix2 (-44) = 16 * bpow radix2 (-48)) by (replace (-44)%Z with (4 + -48)%Z by lia; rewrite bpow_plus; done).
  assert (Hs : q0 ^ 30 <= 14 * bpow radix2 (-48)). { unfold q0. change (bpow radix2 (-48)) with (/ 281474976710656). cbn [Rpow_def.pow]. lra. }
  rewrite B. pose proof (Rabs_pos (1 - r)). nra.
Qed.
End phi.
Print Assumptions C104_phi.

(** ** The steps *)
Section alpha.
Context (pow : b64 -> b64 -> b64) (Hpow : pow_accurate pow).
Variable d : nat.
Hypothesis Hd : (1 <= d)%nat.
Hypothesis Hd2 : (Z.of_nat d <= 2 ^ 40)%Z.
Variable r : R.
Hypothesis Hr : golden d r.
Let w := bpow radix2 (-43).
Let phid := phi pow (Z.of_nat d).
Lemma w_pos : 0 < w.
Proof. apply bpow_gt_0. Qed.
Lemma grow_le n : (n <= d)%nat -> (1 + w) ^ n - 1 <= 2 * (INR n * w) /\ 2 * (INR n * w) <= / 4.
Proof.
  intros Hn. pose proof w_pos as Hw. assert (Hnw : 0 <= INR n * w <= / 8).
  { pose proof (pos_INR n). split; [apply Rmult_le_pos; lra|]. assert (INR n <= bpow radix2 40). { rewrite INR_IZR_INZ, <- IZR_Zpower by lia. apply IZR_le. cbn. lia. }
    apply Rle_trans with (bpow radix2 40 * w); [apply Rmult_le_compat_r; lra|]. unfold w. rewrite <- bpow_plus. change (bpow radix2 (40 + -43)) with (/ 8). lra. }
  split; [|lra]. assert (He : (1 + w) ^ n <= exp (INR n * w)).
  { clear Hnw Hn. induction n as [|n IH]; [cbn; rewrite Rmult_0_l, exp_0; lra|]. rewrite S_INR, Rmult_plus_distr_r, Rmult_1_l, exp_plus. cbn [Rpow_def.pow]. rewrite Rmult_comm. apply Rmult_le_compat; [apply pow_le; lra|lra|done|]. left. apply exp_ineq1. lra. }
  pose proof (exp_near (INR n * w)) as H. rewrite (Rabs_pos_eq (INR n * w)) in H by lra. pose proof (Rle_abs (exp (INR n * w) - 1)). specialize (H ltac:(lra)). lra.
Qed.
Lemma power_bounds n : (n <= d)%nat -> 1 <= r ^ n <= 2619 / 1000.
Proof.
  intros Hn. pose proof (golden_bounds d r Hd Hr) as Hb. destruct Hr as [_ E]. split; [apply pow_R1_Rle; lra|]. apply Rle_trans with (r ^ (d + 1)); [apply Rle_pow; [lra|lia]|]. lra.
Qed.
(** [p] is the [n]th power up to [n] relative errors of [w]. *)
Definition near_power (n : nat) (p : b64) : Prop := is_finite p = true /\ Rabs (B2R p - r ^ n) <= ((1 + w) ^ n - 1) * r ^ n.
Lemma near_range n p : (1 <= n <= d)%nat -> near_power n p -> 3 / 4 <= B2R p <= 4.
Proof.
  intros Hn [_ H]. destruct (grow_le n ltac:(lia)) as [G1 G2]. pose proof (power_bounds n ltac:(lia)) as Hb. apply Rabs_le_inv in H. set (g := (1 + w) ^ n - 1) in *. nra.
Qed.
Lemma near_first : near_power 1 phid.
Proof.
  destruct (C104_phi pow Hpow d Hd ltac:(lia) r Hr) as (P1 & P2 & P3). split; [done|]. pose proof (golden_bounds d r Hd Hr) as Hb. pose proof w_pos as Hw. cbn [Rpow_def.pow]. rewrite !Rmult_1_r. eapply Rle_trans; [exact P3|].
  assert (bpow radix2 (-44) <= w) by (apply bpow_le; lia). nra.
Qed.
Lemma near_next n p : (1 <= n)%nat -> (n < d)%nat -> near_power n p -> near_power (S n) (fmul p phid).
Proof.
  intros Hn Hnd Hp. pose proof (near_range n p ltac:(lia) Hp) as Hpr. destruct Hp as [F H]. destruct (C104_phi pow Hpow d Hd ltac:(lia) r Hr) as (P1 & P2 & P3). fold phid in P1, P2, P3. pose proof (golden_bounds d r Hd Hr) as Hb. pose proof w_pos as Hw.
  destruct (fmul_finite p phid F P1) as [M1 M2]. set (v := B2R p * B2R phid) in *. assert (Hv : 3 / 4 <= v <= 8) by (unfold v; nra).
  assert (H3 : bpow radix2 3 = 8) by done. assert (Hm8 : 8 < femax) by (rewrite <- H3; apply bpow_lt; lia).
  assert (Hb8 : 0 <= rnd v <= 8). { split; [rewrite <- rnd_0; apply rnd_mono; lra|]. rewrite <- H3, <- (bpow_fmt 3) by lia. apply rnd_mono. lra. }
  unfold srnd in M2. rewrite sat_id in M2 by lra. assert (Ff : is_finite (fmul p phid) = true). { apply finite_of_val; [done|]. rewrite M2, Rabs_pos_eq by lra. lra. }
  rewrite fval_finite in M2 by done. split; [done|]. rewrite M2. pose proof (rnd_half v 3 ltac:(lia) ltac:(rewrite Rabs_pos_eq; lra)) as Hrd.
  destruct (grow_le n ltac:(lia)) as [G1 G2]. pose proof (power_bounds n ltac:(lia)) as Hrn. cbn [Rpow_def.pow] in *. set (g := (1 + w) ^ n) in *. assert (Hg1 : 1 <= g) by (apply pow_R1_Rle; lra). set (x := r ^ n) in *.
  assert (B1 : bpow radix2 (-44) = / 2 * w). { unfold w. replace (-43)%Z with (1 + -44)%Z by lia. rewrite bpow_plus. change (bpow radix2 1) with 2. lra. }
  assert (B2 : bpow radix2 (3 - 54) <= / 4 * w). { replace (/ 4 * w) with (bpow radix2 (-45)); [apply bpow_le; lia|]. unfold w. replace (-43)%Z with (2 + -45)%Z by lia. rewrite bpow_plus. change (bpow radix2 2) with 4. lra. }
  rewrite B1 in P3. replace (rnd v - r * x) with ((rnd v - v) + ((B2R p - x) * B2R phid + x * (B2R phid - r))) by (unfold v; ring).
  eapply Rle_trans; [apply Rabs_triang|]. eapply Rle_trans; [apply Rplus_le_compat_l, Rabs_triang|]. rewrite !Rabs_mult, (Rabs_pos_eq (B2R phid)), (Rabs_pos_eq x) by lra.
  apply Rle_trans with (/ 4 * w + ((g - 1) * x * (r + / 2 * w) + x * (/ 2 * w))).
  - apply Rplus_le_compat; [lra|]. apply Rplus_le_compat; [|apply Rmult_le_compat_l; lra]. apply Rabs_le_inv in P3. apply Rmult_le_compat; [apply Rabs_pos|lra|done|lra].
  - assert (X1 : 0 <= (g - 1) * x) by (apply Rmult_le_pos; lra). assert (X2 : 0 <= (g - 1) * x * w) by (apply Rmult_le_pos; lra). assert (X3 : w <= w * x) by nra. assert (X4 : w * x <= w * x * r) by (assert (0 <= w * x) by (apply Rmult_le_pos; lra); nra).
    assert (X5 : (g - 1) * x * w <= (g - 1) * x * w * r) by nra. replace (((1 + w) * g - 1) * (r * x)) with ((g - 1) * x * r + (g - 1) * x * w * r + w * x * r) by ring. lra.
Qed.
Lemma alpha_near k : forall n p, (1 <= n)%nat -> (n + k <= d + 1)%nat -> near_power n p -> forall i a, alpha_loop k phid p !! i = Some a ->
  is_finite a = true /\ Rabs (B2R a - / r ^ (n + i)) <= INR (n + i) * bpow radix2 (-41).
Proof.
  induction k as [|k IH]; intros n p Hn Hk Hp i a Ha; cbn [alpha_loop] in Ha; [done|]. destruct i as [|i].
  - apply (inj Some) in Ha as <-. rewrite Nat.add_0_r. pose proof (near_range n p ltac:(lia) Hp) as Hpr. destruct Hp as [F H]. destruct fone_val as [O1 O2]. destruct (fdiv_finite fone p O1 F) as [D1 D2]; [lra|]. rewrite O2 in D2. unfold Rdiv in D2. rewrite Rmult_1_l in D2.
    assert (Hv : 0 < / B2R p <= 2). { split; [apply Rinv_0_lt_compat; lra|]. replace 2 with (/ / 2) by lra. apply Rinv_le; lra. }
    assert (H1 : bpow radix2 1 = 2) by done. assert (Hm2 : 2 < femax) by (rewrite <- H1; apply bpow_lt; lia).
    assert (Hb2 : 0 <= rnd (/ B2R p) <= 2). { split; [rewrite <- rnd_0; apply rnd_mono; lra|]. rewrite <- H1, <- (bpow_fmt 1) by lia. apply rnd_mono. lra. }
    unfold srnd in D2. rewrite sat_id in D2 by lra. assert (Ff : is_finite (fdiv fone p) = true). { apply finite_of_val; [done|]. rewrite D2, Rabs_pos_eq by lra. lra. }
    rewrite fval_finite in D2 by done. split; [done|]. rewrite D2. pose proof (rnd_half (/ B2R p) 1 ltac:(lia) ltac:(rewrite Rabs_pos_eq; lra)) as Hrd.
    destruct (grow_le n ltac:(lia)) as [G1 G2]. pose proof (power_bounds n ltac:(lia)) as Hrn. set (x := r ^ n) in *. set (g := (1 + w) ^ n - 1) in *. pose proof w_pos as Hw.
    assert (Hn1 : 1 <= INR n) by (change 1 with (INR 1); apply le_INR; lia).
    assert (B1 : bpow radix2 (-41) = 4 * w). { unfold w. replace (-41)%Z with (2 + -43)%Z by lia. rewrite bpow_plus. done. }
    assert (B2 : bpow radix2 (1 - 54) <= / 4 * w). { replace (/ 4 * w) with (bpow radix2 (-45)); [apply bpow_le; lia|]. unfold w. replace (-43)%Z with (2 + -45)%Z by lia. rewrite bpow_plus. change (bpow radix2 2) with 4. lra. }
    replace (rnd (/ B2R p) - / x) with ((rnd (/ B2R p) - / B2R p) + (/ B2R p - / x)) by ring. eapply Rle_trans; [apply Rabs_triang|].
    assert (E : Rabs (/ B2R p - / x) <= 4 / 3 * (2 * (INR n * w))).
    { replace (/ B2R p - / x) with (- ((B2R p - x) * (/ B2R p * / x))) by (field; lra). rewrite Rabs_Ropp, Rabs_mult. assert (Hx : 0 < / x) by (apply Rinv_0_lt_compat; lra). rewrite (Rabs_pos_eq (/ B2R p * / x)) by (apply Rmult_le_pos; lra).
      apply Rle_trans with (g * x * (/ B2R p * / x)); [apply Rmult_le_compat_r; [apply Rmult_le_pos; lra|done]|]. replace (g * x * (/ B2R p * / x)) with (/ B2R p * g) by (field; lra).
      assert (0 <= g). { unfold g. assert (1 <= (1 + w) ^ n) by (apply pow_R1_Rle; lra). lra. }
      apply Rmult_le_compat; [lra|lra| |done]. replace (4 / 3) with (/ (3 / 4)) by lra. apply Rinv_le; lra. }
    rewrite B1. assert (w <= INR n * w) by nra. lra.
  - change (alpha_loop k phid (fmul p phid) !! i = Some a) in Ha. destruct k as [|k]; [done|]. rewrite Nat.add_succ_r, <- Nat.add_succ_l. apply (IH (S n) (fmul p phid)); [lia|lia| |done]. apply near_next; [done|lia|done].
Qed.
(** The step of coordinate [i] is the (i + 1)st power of the inverse of the generalized golden ratio. *)
Theorem C104_alpha (seed : b64) i a : q_alpha (quasi_new pow d seed) !! i = Some a ->
  is_finite a = true /\ Rabs (B2R a - / r ^ (i + 1)) <= INR (i + 1) * bpow radix2 (-41).
Proof. cbn [quasi_new q_alpha]. fold phid. intros Ha. rewrite (Nat.add_comm i 1). apply (alpha_near d 1%nat phid); [lia|lia|apply near_first|done]. Qed.
End alpha.
Print Assumptions C104_alpha.

(** ** Examples *)
(** The golden ratio, for one dimension. *)
Example golden_1 : golden 1 ((1 + sqrt 5) / 2).
Proof.
  pose proof (sqrt_sqrt 5 ltac:(lra)) as H. pose proof (sqrt_pos 5). split; [lra|]. cbn [Nat.add Rpow_def.pow]. nra.
Qed.
(** Some pow. *)
Definition pow_real (x y : b64) : b64 := fmk (Zfloor (Rpower (B2R x) (B2R y) * bpow radix2 50)) (-50).
Lemma pow_real_accurate : pow_accurate pow_real.
Proof.
  intros x y _ _ Hx Hy. unfold pow_real. set (v := Rpower (B2R x) (B2R y)).
  assert (Hv : 1 <= v <= 4). { unfold v. split; [rewrite <- (Rpower_O (B2R x)) at 1 by lra; apply Rle_Rpower; lra|]. apply Rle_trans with (Rpower (B2R x) 1); [apply Rle_Rpower; lra|rewrite Rpower_1; lra]. }
  pose proof (bpow_gt_0 radix2 50) as Hb. pose proof (Zfloor_lb (v * bpow radix2 50)) as L. pose proof (Zfloor_ub (v * bpow radix2 50)) as U. set (m := Zfloor (v * bpow radix2 50)) in *.
  assert (E50 : bpow radix2 50 = IZR (2 ^ 50)) by (rewrite bpow_IZR by lia; done). assert (Hm1 : (2 ^ 50 <= m)%Z). { apply Zfloor_lub. rewrite <- E50. nra. }
  assert (Hm2 : (m <= 2 ^ 52)%Z). { apply le_IZR. eapply Rle_trans; [exact L|]. replace (IZR (2 ^ 52)) with (4 * bpow radix2 50); [nra|]. rewrite E50, <- mult_IZR. done. }
  destruct (fmk_val m (-50)) as (V1 & V2 & _); [lia|lia|]. split; [done|]. rewrite V2. pose proof (bpow_gt_0 radix2 (-50)) as Hc.
  assert (Hbc : bpow radix2 50 * bpow radix2 (-50) = 1) by (rewrite <- bpow_plus; done). set (b := bpow radix2 50) in *. set (c := bpow radix2 (-50)) in *.
  apply IZR_le in Hm1. rewrite <- E50 in Hm1. split; [rewrite <- Hbc; apply Rmult_le_compat_r; lra|]. replace v with (v * b * c) at 1 by (rewrite Rmult_assoc, Hbc; ring).
  rewrite <- Rmult_minus_distr_r, Rabs_mult, (Rabs_pos_eq c) by lra. rewrite Rabs_left1 by lra. nra.
Qed.
Example C104_nonvacuous : pow_accurate pow_real /\ golden 1 ((1 + sqrt 5) / 2) /\ Rabs (B2R (phi pow_real 1) - (1 + sqrt 5) / 2) <= bpow radix2 (-44) /\
  length (q_alpha (quasi_new pow_real 1 fzero)) = 1%nat.
Proof.
  split; [apply pow_real_accurate|]. split; [apply golden_1|]. split; [|done]. apply (C104_phi pow_real pow_real_accurate 1 ltac:(lia) ltac:(lia) _ golden_1).
Qed.
(** A run with steps of five eighths and a sixteenth: the sequence wraps around. *)
Example C104_wraps : option_map (map (map B2SF)) (quasi_run [QNext; QNext; QNext] (Quasi 2 fzero [fmk 5 (-3); fmk 1 (-4)] [fmk 1 (-1); fzero])) =
  Some [map B2SF [fmk 1 (-3); fmk 1 (-4)]; map B2SF [fmk 3 (-2); fmk 1 (-3)]; map B2SF [fmk 3 (-3); fmk 3 (-4)]].
Proof. vm_compute. reflexivity. Qed.
