(** C72: the quasi random points stay in the unit cube. *)
From Coq Require Import ZArith Reals Lia Lra.
From Flocq Require Import Core BinarySingleNaN.
From stdpp Require Import list.
From Verif Require Import FloatBase RealCrossoverModel RealSpec RealProofs RandModel RandProofs QrngModel.
Local Open Scope R_scope.

(** What is assumed about std::pow: the power of a number >= 1 to a non-negative exponent is not
    a NaN and at least 1. *)
Definition pow_ge_1 (pow : b64 -> b64 -> b64) : Prop :=
  forall x y, is_nan x = false -> 1 <= fval x -> nonneg y -> is_nan (pow x y) = false /\ 1 <= fval (pow x y).
Definition in_unit (x : b64) : Prop := is_finite x = true /\ 0 <= B2R x < 1.
(** A seed: NonNegative in the code; here also at most 2^63. *)
Definition seed_ok (x : b64) : Prop := is_finite x = true /\ 0 <= B2R x <= bpow radix2 63.
Definition seeds_ok (ops : list quasi_op) : Prop := Forall (fun op => match op with QReset seed => seed_ok seed | _ => True end) ops.

Lemma rnd_fmt n e : (Z.abs n < 2 ^ 53)%Z -> (-1074 <= e)%Z -> rnd (IZR n * bpow radix2 e) = IZR n * bpow radix2 e.
Proof.
  intros Hn He. apply round_generic; [apply valid_rnd_N|]. apply (generic_format_FLT radix2 (3 - 1024 - 53) 53). exists (Float radix2 n e); [done| |cbn; lia]. cbn [Fnum]. change (radix2 ^ 53)%Z with (2 ^ 53)%Z. done.
Qed.
Lemma srnd_small x : rnd x = x -> Rabs x < femax -> srnd x = x.
Proof. intros H Hx. unfold srnd. rewrite H. apply sat_id. apply Rabs_lt_inv in Hx. lra. Qed.
Lemma fraction x : is_finite x = true -> 0 <= B2R x < bpow radix2 64 -> exists z, to_size x = Some z /\ in_unit (fsub x (fofZ z)) /\ B2R (fsub x (fofZ z)) = B2R x - IZR z.
Proof.
  intros Hf Hx. assert (Hz : (0 <= Zfloor (B2R x) < 2 ^ 64)%Z).
  { split; [apply Zfloor_lub; apply Hx|]. apply lt_IZR. eapply Rle_lt_trans; [apply Zfloor_lb|]. rewrite <- (bpow_IZR 64) by lia. apply Hx. }
  exists (Zfloor (B2R x)). split.
  { unfold to_size. rewrite ftrunc_val by (done || apply Hx). cbn [mbind option_bind]. rewrite (proj2 (Z.leb_le _ _)), (proj2 (Z.ltb_lt _ _)) by lia. done. }
  assert (Hx' : exists n e, B2R x = IZR n * bpow radix2 e /\ (0 <= n < 2 ^ 53)%Z /\ (-1074 <= e)%Z).
  { pose proof (generic_format_B2R 53 1024 x) as Hg. apply (FLT_format_generic radix2 (3 - 1024 - 53) 53) in Hg. destruct Hg as [[n e] E1 E2 E3]. cbn [Fnum Fexp] in *. exists n, e. split; [exact E1|]. split; [|lia].
    change (radix2 ^ 53)%Z with (2 ^ 53)%Z in E2. assert (0 <= n)%Z; [|lia]. apply (ge_0_F2R radix2 n e). rewrite <- E1. apply Hx. }
  destruct Hx' as (n & e & Ex & Hn & He).
  assert (H : is_finite (fofZ (Zfloor (B2R x))) = true /\ B2R (fofZ (Zfloor (B2R x))) = IZR (Zfloor (B2R x)) /\ rnd (B2R x - IZR (Zfloor (B2R x))) = B2R x - IZR (Zfloor (B2R x))).
  { destruct (Z.le_gt_cases 0 e) as [H0 | H0].
    - assert (Ei : B2R x = IZR (n * 2 ^ e)) by (by rewrite Ex, mult_IZR, <- bpow_IZR). assert (Ef : IZR (Zfloor (B2R x)) = B2R x). { rewrite Ei. by rewrite Zfloor_IZR. }
      destruct (fofZ_val (Zfloor (B2R x))) as [F1 F2]; [lia|]. split; [done|]. split.
      + rewrite F2. rewrite Ef. apply round_generic; [apply valid_rnd_N|]. apply generic_format_B2R.
      + rewrite Ef, Rminus_diag_eq by done. apply round_0. apply valid_rnd_N.
    - set (d := (2 ^ (- e))%Z). assert (Hd : (0 < d)%Z) by (apply Z.pow_pos_nonneg; lia).
      assert (Eb : bpow radix2 e * IZR d = 1). { unfold d. rewrite <- bpow_IZR by lia. rewrite <- bpow_plus. replace (e + - e)%Z with 0%Z by lia. done. }
      assert (Ed : B2R x = IZR n / IZR d). { apply IZR_lt in Hd. rewrite Ex. field_simplify_eq; [|lra]. rewrite Rmult_assoc, Eb. lra. }
      assert (Efl : Zfloor (B2R x) = (n / d)%Z) by (rewrite Ed; apply Zfloor_div; lia).
      assert (0 <= n / d <= n)%Z as Hq. { split; [apply Z.div_pos; lia|]. apply Z.div_le_upper_bound; nia. }
      destruct (fofZ_exact (Zfloor (B2R x))) as [F1 F2]; [rewrite Efl; lia|]. split; [done|]. split; [done|].
      assert (Es : B2R x - IZR (Zfloor (B2R x)) = IZR (n mod d) * bpow radix2 e).
      { rewrite Efl, Ex. rewrite (Z.div_mod n d) at 1 by lia. rewrite plus_IZR, mult_IZR. rewrite Rmult_plus_distr_r. replace (IZR d * IZR (n / d) * bpow radix2 e) with (IZR (n / d) * (bpow radix2 e * IZR d)) by ring. rewrite Eb. ring. }
      rewrite Es. pose proof (Z.mod_pos_bound n d Hd). apply rnd_fmt; [|done]. pose proof (Z.mod_le n d ltac:(lia) Hd). lia. }
  destruct H as (F1 & F2 & F3). pose proof (Zfloor_lb (B2R x)) as Hlo. pose proof (Zfloor_ub (B2R x)) as Hhi.
  destruct (fsub_finite x _ Hf F1) as [G1 G2]. rewrite F2 in G2. assert (Hb : 1 < femax) by (change 1 with (bpow radix2 0); apply bpow_lt; lia).
  rewrite srnd_small in G2; [|done|rewrite Rabs_pos_eq by lra; lra].
  assert (Hfin : is_finite (fsub x (fofZ (Zfloor (B2R x)))) = true). { apply finite_of_val; [done|]. rewrite G2, Rabs_pos_eq by lra. lra. }
  rewrite fval_finite in G2 by done. split; [|done]. split; [done|]. rewrite G2. lra.
Qed.

(** ** The step sizes *)
Definition ge1 (x : b64) : Prop := is_nan x = false /\ 1 <= fval x.
Definition unit_closed (x : b64) : Prop := is_finite x = true /\ 0 <= B2R x <= 1.
Lemma femax_1 : 1 < femax.
Proof. change 1 with (bpow radix2 0). apply bpow_lt. lia. Qed.
Lemma ge1_cases x : ge1 x -> x = B754_infinity false \/ is_finite x = true /\ 1 <= B2R x.
Proof.
  intros [H1 H2]. pose proof femax_1. destruct x as [s|[]| |s m e Hb]; cbn [fval is_nan] in *; try done; [cbn in H2; lra|lra|by left|by right].
Qed.
Lemma srnd_1 x : 1 <= x -> 1 <= srnd x.
Proof. intros H. apply srnd_mono in H. change 1 with (bpow radix2 0) in H at 1. rewrite srnd_bpow in H by lia. exact H. Qed.
Lemma ge1_add x : ge1 x -> ge1 (fadd fone x).
Proof.
  intros H. destruct (ge1_cases x H) as [-> | [Hf Hx]].
  - split; [done|]. pose proof femax_1. change (1 <= femax). lra.
  - destruct fone_val as [O1 O2]. destruct (fadd_finite fone x O1 Hf) as [A1 A2]. split; [done|]. rewrite A2. apply srnd_1. lra.
Qed.
Lemma ge1_mul x y : ge1 x -> ge1 y -> ge1 (fmul x y).
Proof.
  intros Hx Hy. pose proof femax_1 as Hm. destruct (ge1_cases x Hx) as [-> | [Fx Lx]], (ge1_cases y Hy) as [-> | [Fy Ly]].
  - split; [done|]. change (1 <= femax). lra.
  - destruct y as [s|s| |[] m e Hb]; [cbn in Ly; lra|done|done| |split; [done|change (1 <= femax); lra]]. exfalso. pose proof (F2R_lt_0 radix2 (Float radix2 (Z.neg m) e) ltac:(done)) as Hn. assert (L2 : 1 <= F2R (Float radix2 (Z.neg m) e)) by exact Ly. lra.
  - destruct x as [s|s| |[] m e Hb]; [cbn in Lx; lra|done|done| |split; [done|change (1 <= femax); lra]]. exfalso. pose proof (F2R_lt_0 radix2 (Float radix2 (Z.neg m) e) ltac:(done)) as Hn. assert (L2 : 1 <= F2R (Float radix2 (Z.neg m) e)) by exact Lx. lra.
  - destruct (fmul_finite x y Fx Fy) as [A1 A2]. split; [done|]. rewrite A2. apply srnd_1. nra.
Qed.
Lemma ge1_inv x : ge1 x -> unit_closed (fdiv fone x).
Proof.
  intros H. destruct (ge1_cases x H) as [-> | [Hf Hx]]; [split; [done|]; change (B2R (fdiv fone (B754_infinity false))) with 0; lra|]. destruct fone_val as [O1 O2]. destruct (fdiv_finite fone x O1 Hf) as [A1 A2]; [lra|].
  rewrite O2 in A2. assert (Hd : 0 <= 1 / B2R x <= 1). { split; [apply Rlt_le, Rdiv_lt_0_compat; lra|]. apply Rmult_le_reg_r with (B2R x); [lra|]. field_simplify; lra. }
  assert (Hv : 0 <= fval (fdiv fone x) <= 1). { rewrite A2. split; [apply srnd_ge_0; apply Hd|]. destruct Hd as [_ Hd]. apply srnd_mono in Hd. change 1 with (bpow radix2 0) in Hd at 2. rewrite srnd_bpow in Hd by lia. exact Hd. }
  assert (Hfin : is_finite (fdiv fone x) = true). { apply finite_of_val; [done|]. pose proof femax_1. rewrite Rabs_pos_eq by lra. lra. }
  split; [done|]. by rewrite <- fval_finite.
Qed.

Section proofs.
Context (pow : b64 -> b64 -> b64) (Hpow : pow_ge_1 pow).
Lemma exponent_nonneg (dim : nat) : (Z.of_nat dim < 2 ^ 64)%Z -> nonneg (fdiv fone (fadd (fofZ (Z.of_nat dim)) fone)).
Proof.
  intros Hd. destruct fone_val as [O1 O2]. destruct (fofZ_val (Z.of_nat dim)) as [D1 D2]; [lia|].
  assert (Hd0 : 0 <= B2R (fofZ (Z.of_nat dim))). { rewrite D2. rewrite <- (round_0 radix2 (SpecFloat.fexp 53 1024) ZnearestE). apply rnd_mono. apply IZR_le. lia. }
  destruct (fadd_finite _ _ D1 O1) as [A1 A2]. assert (Hg : ge1 (fadd (fofZ (Z.of_nat dim)) fone)) by (split; [done|]; rewrite A2; apply srnd_1; lra).
  destruct (ge1_cases _ Hg) as [-> | [Hf Hx]]; [done|]. destruct (fdiv_finite fone _ O1 Hf) as [B1 B2]; [lra|]. apply nonneg_pos; [done|]. rewrite B2, O2.
  assert (Hle : B2R (fadd (fofZ (Z.of_nat dim)) fone) <= bpow radix2 66).
  { rewrite <- fval_finite, A2 by done. assert (Hdm : B2R (fofZ (Z.of_nat dim)) <= bpow radix2 64). { rewrite D2, <- (bpow_fmt 64) by lia. apply rnd_mono. rewrite bpow_IZR by lia. apply IZR_le. lia. }
    rewrite <- (srnd_bpow 66) by lia. apply srnd_mono. rewrite O2. assert (bpow radix2 64 + 1 <= bpow radix2 66); [|lra]. rewrite !bpow_IZR by lia. rewrite <- plus_IZR. apply IZR_le. done. }
  apply Rlt_le_trans with (srnd (bpow radix2 (-66))). { rewrite srnd_bpow by lia. apply bpow_gt_0. } apply srnd_mono. change (-66)%Z with (- (66))%Z. rewrite bpow_opp. unfold Rdiv. rewrite Rmult_1_l. apply Rinv_le; lra.
Qed.
Lemma phi_ge1 (dim : nat) : (Z.of_nat dim < 2 ^ 64)%Z -> ge1 (phi pow (Z.of_nat dim)).
Proof.
  intros Hd. unfold phi. assert (H : ge1 fone). { destruct fone_val as [O1 O2]. split; [done|]. rewrite fval_finite, O2 by done. lra. }
  revert H. generalize fone at 1 2. generalize 30%nat. intros k. induction k as [|n IH]; intros x Hx; [done|]. cbn [phi_loop]. apply IH. destruct (ge1_add x Hx) as [A1 A2]. by apply Hpow; [| |apply exponent_nonneg].
Qed.
Lemma alpha_ok k phid p : ge1 phid -> ge1 p -> Forall unit_closed (alpha_loop k phid p) /\ length (alpha_loop k phid p) = k.
Proof. intros Hp. revert p. induction k as [|k IH]; intros p H; [split; [constructor|done]|]. cbn [alpha_loop length]. destruct (IH (fmul p phid)) as [I1 I2]; [by apply ge1_mul|]. split; [constructor; [by apply ge1_inv|done]|by rewrite I2]. Qed.
End proofs.

Definition quasi_ok (q : quasi) : Prop := length (q_point q) = q_dim q /\ length (q_alpha q) = q_dim q /\ Forall unit_closed (q_alpha q) /\ Forall seed_ok (q_point q).
Lemma coordinate_ok p a : seed_ok p -> unit_closed a -> exists x, coordinate p a = Some x /\ in_unit x.
Proof.
  intros [P1 P2] [A1 A2]. unfold coordinate. destruct (fadd_finite p a P1 A1) as [S1 S2].
  assert (Hb : 0 <= fval (fadd p a) <= bpow radix2 63).
  { rewrite S2. split; [apply srnd_ge_0; lra|]. assert (Hr : rnd (bpow radix2 63 + 1) = bpow radix2 63).
    { apply Rle_antisym.
      - apply Rle_trans with (rnd (bpow radix2 63 + IZR (2 ^ 10))). { apply rnd_mono. apply Rplus_le_compat_l. apply IZR_le. done. }
        (* half way between 2^63 and the next double, to even *)
        rewrite bpow_IZR by lia. rewrite <- plus_IZR. assert (E : B2R (fofZ (2 ^ 63 + 2 ^ 10)) = bpow radix2 63).
        { replace (fofZ (2 ^ 63 + 2 ^ 10)) with (fmk 1 63). { destruct (fmk_val 1 63) as (_ & V & _); [lia|lia|]. rewrite V. lra. } apply B2SF_inj. vm_compute. reflexivity. }
        destruct (fofZ_val (2 ^ 63 + 2 ^ 10)) as [_ V]; [lia|]. rewrite <- V, E. rewrite bpow_IZR by lia. lra.
      - rewrite <- (bpow_fmt 63) at 1 by lia. apply rnd_mono. lra. }
    apply Rle_trans with (srnd (bpow radix2 63 + 1)); [apply srnd_mono; lra|]. unfold srnd. rewrite Hr. rewrite sat_id; [lra|]. pose proof (bpow_gt_0 radix2 63). assert (bpow radix2 63 < femax) by (apply bpow_lt; lia). lra. }
  assert (Hlt : bpow radix2 63 < bpow radix2 64) by (apply bpow_lt; lia). assert (Hlt' : bpow radix2 63 < femax) by (apply bpow_lt; lia).
  assert (Hf : is_finite (fadd p a) = true). { apply finite_of_val; [done|]. rewrite Rabs_pos_eq by lra. lra. }
  rewrite fval_finite in Hb by done. destruct (fraction (fadd p a) Hf) as (z & E & H & _); [lra|]. exists (fsub (fadd p a) (fofZ z)). rewrite E. done.
Qed.
Lemma unit_seed x : in_unit x -> seed_ok x.
Proof. intros [H1 H2]. split; [done|]. assert (1 < bpow radix2 63) by (change 1 with (bpow radix2 0); apply bpow_lt; lia). lra. Qed.
Lemma coordinates_ok point alpha : length point = length alpha -> Forall seed_ok point -> Forall unit_closed alpha -> exists p, coordinates point alpha = Some p /\ length p = length point /\ Forall in_unit p.
Proof.
  revert alpha. induction point as [|p point IH]; intros [|a alpha] Hl Hp Ha; try done.
  - by exists [].
  - apply Forall_cons in Hp as [Hp1 Hp], Ha as [Ha1 Ha]. cbn in Hl. destruct (coordinate_ok p a Hp1 Ha1) as (x & E & Hx). destruct (IH alpha ltac:(lia) Hp Ha) as (ps & E' & L & Hps).
    exists (x :: ps). cbn [coordinates]. rewrite E. cbn [mbind option_bind]. rewrite E'. split; [done|]. split; [cbn; lia|]. by constructor.
Qed.
Lemma next_ok q : quasi_ok q -> exists q' p, quasi_next q = Some (q', p) /\ quasi_ok q' /\ q_dim q' = q_dim q /\ length p = q_dim q /\ Forall in_unit p.
Proof.
  intros (H1 & H2 & H3 & H4). destruct (coordinates_ok (q_point q) (q_alpha q)) as (p & E & L & Hp); [lia|done|done|]. unfold quasi_next. rewrite E. eexists _, p. split; [reflexivity|]. cbn.
  split; [|split; [done|split; [lia|done]]]. split; [cbn; lia|]. split; [done|]. split; [done|]. cbn. eapply Forall_impl; [exact Hp|]. apply unit_seed.
Qed.
(** Every coordinate of every returned point is in [0,1), for any dimension below 2^64, seeds up
    to 2^63 and any sequence of calls; no conversion is out of range. *)
Theorem C72_unit_cube pow (dim : nat) (seed : b64) (ops : list quasi_op) : pow_ge_1 pow -> (Z.of_nat dim < 2 ^ 64)%Z -> seed_ok seed -> seeds_ok ops ->
  exists points, quasi_run ops (quasi_new pow dim seed) = Some points /\ Forall (fun p => length p = dim /\ Forall in_unit p) points.
Proof.
  intros Hpow Hd Hs Hops. assert (Hq : quasi_ok (quasi_new pow dim seed)).
  { pose proof (phi_ge1 pow Hpow dim Hd) as Hp. destruct (alpha_ok dim _ _ Hp Hp) as [A1 A2]. split; [cbn; by rewrite replicate_length|]. split; [exact A2|]. split; [exact A1|]. cbn. by apply Forall_replicate. }
  assert (Hdim : q_dim (quasi_new pow dim seed) = dim) by done. revert Hq Hdim. generalize (quasi_new pow dim seed). clear Hs. induction ops as [|op ops IH]; intros q Hq Hdim.
  - by exists [].
  - apply Forall_cons in Hops as [Ho Hops]. specialize (IH Hops). destruct op as [|n|s]; cbn [quasi_run].
    + destruct (next_ok q Hq) as (q' & p & E & Hq' & D & L & Hp). rewrite E. cbn [mbind option_bind]. destruct (IH q' Hq' ltac:(congruence)) as (ps & E' & H). rewrite E'. exists (p :: ps). split; [done|]. constructor; [|done]. by rewrite <- Hdim.
    + assert (H : exists q', quasi_discard n q = Some q' /\ quasi_ok q' /\ q_dim q' = q_dim q).
      { clear -Hq. revert q Hq. induction n as [|n IH]; intros q Hq; [by exists q|]. cbn [quasi_discard]. destruct (next_ok q Hq) as (q' & p & E & Hq' & D & _ & _). rewrite E. cbn [mbind option_bind]. destruct (IH q' Hq') as (q2 & E2 & H2 & D2). exists q2. split; [done|]. split; [done|congruence]. }
      destruct H as (q' & E & Hq' & D). rewrite E. cbn [mbind option_bind]. apply IH; [done|congruence].
    + apply IH; [|done]. destruct Hq as (H1 & H2 & H3 & H4). split; [cbn; by rewrite replicate_length|]. split; [done|]. split; [done|]. cbn. by apply Forall_replicate.
Qed.
Print Assumptions C72_unit_cube.
(** Some pow; a run in three dimensions. *)
Definition pow_id (x y : b64) : b64 := x.
Example C72_nonvacuous : pow_ge_1 pow_id /\ seed_ok (fmk 1 (-1)) /\ seeds_ok [QNext; QDiscard 2; QReset (fmk 3 0); QNext; QNext] /\
  option_map (map length) (quasi_run [QNext; QDiscard 2; QReset (fmk 3 0); QNext; QNext] (quasi_new pow_id 3 (fmk 1 (-1)))) = Some [3; 3; 3]%nat /\
  option_map B2SF (coordinate (fmk 3 (-2)) (fmk 5 (-3))) = Some (B2SF (fmk 3 (-3))).
Proof.
  split; [intros x y H1 H2 _; by split|]. split; [|split; [|split; vm_compute; reflexivity]].
  - destruct (fmk_val 1 (-1)) as (V1 & V2 & _); [lia|lia|]. split; [done|]. rewrite V2. change (bpow radix2 (-1)) with (/ 2). assert (1 < bpow radix2 63) by (change 1 with (bpow radix2 0); apply bpow_lt; lia). lra.
  - apply Forall_cons; split; [exact I|]. apply Forall_cons; split; [exact I|]. apply Forall_cons; split; [|repeat (apply Forall_cons; split; [exact I|]); apply Forall_nil; exact I].
    destruct (fmk_val 3 0) as (V1 & V2 & _); [lia|lia|]. split; [done|]. rewrite V2. change (bpow radix2 0) with 1. assert (bpow radix2 2 <= bpow radix2 63) by (apply bpow_le; lia). change (bpow radix2 2) with 4 in *. lra.
Qed.
