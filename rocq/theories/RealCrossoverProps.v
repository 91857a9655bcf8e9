(** C34: the real coded crossovers keep genes within the bounds. *)
From Coq Require Import Reals Lra Lia.
From stdpp Require Import list.
From Flocq Require Import Core BinarySingleNaN.
From Verif Require Import FloatBase FloatModel FloatSpec FloatProofs FloatProps RealCrossoverModel RealSpec RealProofs RealCrossoverProofs.

(** Arithmetic crossover: for all finite bounds. *)
Theorem C34_arithmetic_in_bounds (alpha : b64) (bs : list bounds) (p1 p2 : list b64) :
  draw alpha -> Forall bounds_ok bs -> in_bounds bs p1 -> in_bounds bs p2 ->
  exists c1 c2, Arithmetic alpha bs p1 p2 = Some (c1, c2) /\ in_bounds bs c1 /\ in_bounds bs c2.
Proof.
  intros Ha Hb H1 H2. apply (real_loop_in (arithmetic_gene alpha) (fun _ => True) (fun _ => True)); try done.
  - intros. by apply arithmetic_gene_in.
  - by apply Forall_true.
  - apply replicate_length.
  - by apply Forall_true.
Qed.
(** BLX-alpha: for bounds small enough that the sampled interval does not overflow. *)
Theorem C34_blx_in_bounds_partial (M : R) (alpha : b64) (rs : list (b64 * b64)) (bs : list bounds) (p1 p2 : list b64) :
  is_finite alpha = true -> (0 <= B2R alpha)%R -> ((1 + B2R alpha) * M <= bpow radix2 1018)%R ->
  Forall (bounded_by M) bs -> Forall bounds_ok bs -> in_bounds bs p1 -> in_bounds bs p2 ->
  length rs = length bs -> Forall (fun r => draw r.1 /\ draw r.2) rs ->
  exists c1 c2, BLXa alpha rs bs p1 p2 = Some (c1, c2) /\ in_bounds bs c1 /\ in_bounds bs c2.
Proof.
  intros Ha Ha0 HM HMb Hb H1 H2 Hl Hr. apply (real_loop_in (blx_gene alpha) (bounded_by M) (fun r => draw r.1 /\ draw r.2)); try done.
  intros b x y d Hm Hbo Hx Hy [D1 D2]. by apply (blx_gene_in M).
Qed.
(** Simulated binary crossover: for bounds up to 2^1020. *)
Theorem C34_sbx_in_bounds_partial (t : tolerances) (pow : b64 -> b64 -> b64) (eta : b64) (us : list (b64 * b64)) (bs : list bounds)
    (p1 p2 : list b64) :
  tol_ok t -> pow_contract pow -> nonneg eta ->
  Forall (bounded_by (bpow radix2 1020)) bs -> Forall bounds_ok bs -> in_bounds bs p1 -> in_bounds bs p2 ->
  length us = length bs -> Forall (fun u => draw u.1 /\ draw u.2) us ->
  exists c1 c2, SimulatedBinary t pow eta us bs p1 p2 = Some (c1, c2) /\ in_bounds bs c1 /\ in_bounds bs c2.
Proof.
  intros Ht Hp He HMb Hb H1 H2 Hl Hr.
  apply (real_loop_in (sbx_gene t pow eta) (bounded_by (bpow radix2 1020)) (fun r => draw r.1 /\ draw r.2)); try done.
  intros b x y d Hm Hbo Hx Hy [D1 D2]. by apply sbx_gene_in.
Qed.
(** Wright's crossover: for bounds up to 2^1022, or if neither random number is 0. *)
Theorem C34_wright_in_bounds_partial (t : tolerances) (w : b64 * b64) (bs : list bounds) (f1 f2 p1 p2 : list b64) :
  draw w.1 -> draw w.2 -> Forall (bounded_by (bpow radix2 1022)) bs \/ (B2R w.1 <> 0%R /\ B2R w.2 <> 0%R) ->
  Forall bounds_ok bs -> in_bounds bs p1 -> in_bounds bs p2 -> length f1 = length f2 ->
  exists c1 c2, Wright t w bs f1 f2 p1 p2 = Some (c1, c2) /\ in_bounds bs c1 /\ in_bounds bs c2.
Proof.
  intros W1 W2 Hc Hb H1 H2 Hf. unfold Wright, CrossoverModel.check. rewrite decide_True by done.
  assert (H : forall q1 q2, in_bounds bs q1 -> in_bounds bs q2 ->
    exists c1 c2, real_loop (wright_gene w) bs q1 q2 (replicate (length bs) ()) = Some (c1, c2) /\ in_bounds bs c1 /\ in_bounds bs c2).
  { intros q1 q2 Hq1 Hq2.
    apply (real_loop_in (wright_gene w) (fun b => bounded_by (bpow radix2 1022) b \/ (B2R w.1 <> 0%R /\ B2R w.2 <> 0%R)) (fun _ => True)); try done.
    - intros. by apply wright_gene_in.
    - destruct Hc as [Hc|Hc]; [|by apply Forall_true; right]. eapply Forall_impl; [exact Hc|]. intros b Hbb. by left.
    - apply replicate_length.
    - by apply Forall_true. }
  destruct (paretoCompareLess t f1 f2); by apply H.
Qed.
Print Assumptions C34_arithmetic_in_bounds.
Print Assumptions C34_blx_in_bounds_partial.
Print Assumptions C34_sbx_in_bounds_partial.
Print Assumptions C34_wright_in_bounds_partial.

(** With huge (but valid) bounds the clamped value can be a NaN, which std::clamp
    lets through. *)
Definition fhuge : b64 := fmk 1 1023.
Definition huge : bounds := Bounds (fneg fhuge) fhuge.
Lemma fhuge_val : is_finite fhuge = true /\ B2R fhuge = bpow radix2 1023.
Proof.
  split; [reflexivity|]. change (B2R fhuge) with (F2R (Float radix2 4503599627370496 971)). unfold F2R. cbn [Fnum Fexp].
  rewrite (bpow_plus radix2 52 971 : bpow radix2 1023 = _). reflexivity.
Qed.
Lemma huge_ok : bounds_ok huge /\ in_bound huge fhuge /\ in_bound huge (fneg fhuge) /\ in_bound huge fzero.
Proof.
  destruct fhuge_val as [F V]. pose proof (bpow_gt_0 radix2 1023) as Hp.
  assert (F' : is_finite (fneg fhuge) = true) by reflexivity. assert (V' : B2R (fneg fhuge) = (- B2R fhuge)%R) by apply B2R_Bopp.
  assert (V0 : B2R fzero = 0%R) by reflexivity.
  unfold bounds_ok, in_bound, huge. cbn [lower upper]. rewrite V0, V', V. split_and!; (reflexivity || lra).
Qed.
Lemma nan_not_in b : ~ in_bounds [b] [B754_nan].
Proof. intros H. apply Forall2_cons_1 in H as [[H _] _]. done. Qed.

Theorem C34_blx_refuted :
  exists alpha r, is_finite alpha = true /\ (0 <= B2R alpha)%R /\ draw r /\ Forall bounds_ok [huge] /\
    in_bounds [huge] [fhuge] /\ in_bounds [huge] [fneg fhuge] /\
    exists c1 c2, BLXa alpha [(r, r)] [huge] [fhuge] [fneg fhuge] = Some (c1, c2) /\ ~ in_bounds [huge] c1 /\ ~ in_bounds [huge] c2.
Proof.
  destruct huge_ok as (H1 & H2 & H3 & _). destruct fhalf_val as [Fh Vh].
  assert (D : draw fhalf) by (unfold draw; split_and!; (done || lra)).
  exists fhalf, fhalf. split; [done|]. split; [lra|]. split; [done|].
  split; [constructor; [done|constructor]|]. split; [constructor; [done|constructor]|]. split; [constructor; [done|constructor]|].
  exists [B754_nan], [B754_nan]. split; [vm_compute; reflexivity|]. split; apply nan_not_in.
Qed.
Theorem C34_wright_refuted :
  exists w, draw w /\ Forall bounds_ok [huge] /\ in_bounds [huge] [fhuge] /\ in_bounds [huge] [fneg fhuge] /\
    exists c1 c2, Wright default_tolerances (w, w) [huge] [] [] [fhuge] [fneg fhuge] = Some (c1, c2) /\
      ~ in_bounds [huge] c1 /\ ~ in_bounds [huge] c2.
Proof.
  destruct huge_ok as (H1 & H2 & H3 & _). exists fzero.
  split; [unfold draw; split_and!; (done || cbn; lra)|].
  split; [constructor; [done|constructor]|]. split; [constructor; [done|constructor]|]. split; [constructor; [done|constructor]|].
  exists [B754_nan], [B754_nan]. split; [vm_compute; reflexivity|]. split; apply nan_not_in.
Qed.
(** The power of a NaN is a NaN, whatever the exponent (it is not 0). *)
Definition widest : bounds := Bounds (fneg flarge) flarge.
Theorem C34_sbx_refuted (pow : b64 -> b64 -> b64) (eta : b64) (u : b64 * b64) :
  pow B754_nan (sbx_exponent eta) = B754_nan ->
  let x := fmk (-1) 1022 in
  Forall bounds_ok [widest] /\ in_bounds [widest] [x] /\ in_bounds [widest] [flarge] /\
  exists c1 c2, SimulatedBinary default_tolerances pow eta [u] [widest] [x] [flarge] = Some (c1, c2) /\ ~ in_bounds [widest] c1.
Proof.
  intros Hpow x.
  assert (Hle : forall a b, is_finite a = true -> is_finite b = true -> fle a b = true -> (B2R a <= B2R b)%R).
  { intros a b Fa Fb H. rewrite fle_fval, !fval_finite in H by (try done; by apply is_finite_not_nan). by apply Rle_bool_iff. }
  assert (Hin : in_bound widest x /\ in_bound widest flarge).
  { unfold in_bound. split_and!; try reflexivity; apply Hle; vm_compute; reflexivity. }
  destruct Hin as [Hx Hy]. split; [constructor; [unfold bounds_ok; split_and!; [done|done|apply Hle; vm_compute; reflexivity]|constructor]|].
  split; [constructor; [done|constructor]|]. split; [constructor; [done|constructor]|].
  unfold SimulatedBinary. cbn [real_loop].
  assert (E : exists v, sbx_gene default_tolerances pow eta widest x flarge u = Some (B754_nan, v)).
  { unfold sbx_gene. assert (E1 : fminmax x flarge = (x, flarge)) by (unfold fminmax; replace (flt flarge x) with false by (vm_compute; reflexivity); done).
    rewrite E1. replace (floatIsEqual default_tolerances flarge x) with false by (vm_compute; reflexivity).
    cbn zeta. replace (fadd fone (fdiv (fmul ftwo (fsub x (lower widest))) (fsub flarge x))) with (B754_nan : b64) by (vm_compute; reflexivity).
    rewrite Hpow. unfold clamp2.
    assert (E2 : alphaToBetaPrime pow eta (fsub ftwo B754_nan) u.1 = B754_nan).
    { unfold alphaToBetaPrime. change (fsub ftwo B754_nan) with (B754_nan : b64). change (fdiv fone B754_nan) with (B754_nan : b64).
      assert (E3 : fle u.1 B754_nan = false) by (by destruct u.1 as [[]|[]| |[]]). rewrite E3.
      assert (E4 : fdiv fone (fsub ftwo (fmul u.1 B754_nan)) = B754_nan) by (by destruct u.1). by rewrite E4. }
    rewrite E2. assert (E5 : forall z, fmul fhalf (fsub z (fmul B754_nan (fabs (fsub x flarge)))) = B754_nan) by (by intros []). rewrite E5.
    assert (E6 : forall z, exists v, clamp z (lower widest) (upper widest) = Some v).
    { intros z. unfold clamp. replace (flt (upper widest) (lower widest)) with false by (vm_compute; reflexivity). eauto. }
    assert (E7 : clamp B754_nan (lower widest) (upper widest) = Some B754_nan) by (vm_compute; reflexivity). rewrite E7. cbn [mbind option_bind].
    destruct (E6 (fmul fhalf (fadd (fadd x flarge) (fmul (alphaToBetaPrime pow eta (fsub ftwo (pow (fadd fone (fdiv (fmul ftwo (fsub (upper widest) flarge)) (fsub flarge x))) (sbx_exponent eta))) u.2)
      (fabs (fsub x flarge)))))) as [v ->]. cbn [mbind option_bind]. eauto. }
  destruct E as [v ->]. cbn [mbind option_bind]. exists [B754_nan], [v]. split; [done|]. apply nan_not_in.
Qed.
Print Assumptions C34_blx_refuted.
Print Assumptions C34_wright_refuted.
Print Assumptions C34_sbx_refuted.

(** Concrete cases: genes outside the parents' interval, and clamped ones. *)
Definition small : bounds := Bounds (fmk (-1) 0) (fmk 3 0).
(** A function that meets the contract of pow. *)
Definition pow_one (x y : b64) : b64 := match x with B754_nan => B754_nan | _ => fone end.
Lemma pow_one_contract : pow_contract pow_one.
Proof.
  destruct fone_val as [F V]. split.
  - intros x y [Hn Hs] _. destruct x; try done; split; reflexivity.
  - intros x y [Hn Hs] _ _ _. assert (E : pow_one x y = fone) by (by destruct x). rewrite E, fval_finite by done. lra.
  - intros x y [Hn Hs] _ _. assert (E : pow_one x y = fone) by (by destruct x). rewrite E, fval_finite by done. lra.
Qed.
Lemma in_small x : is_finite x = true -> fle (fmk (-1) 0) x = true -> fle x (fmk 3 0) = true -> in_bound small x.
Proof.
  intros F H1 H2. rewrite fle_fval, !fval_finite in H1, H2 by (try done; by apply is_finite_not_nan).
  split; [done|]. cbn [lower upper small]. split; by apply Rle_bool_iff.
Qed.
Example C34_nonvacuous :
  let p1 := [fmk 1 0] in let p2 := [fmk 2 0] in let r := fmk (2 ^ 53 - 1) (-53) in
  draw r /\ Forall bounds_ok [small] /\ Forall (bounded_by 4) [small] /\ in_bounds [small] p1 /\ in_bounds [small] p2 /\
  pow_contract pow_one /\ nonneg fone /\ (((1 + B2R fone) * 4 <= bpow radix2 1018)%R) /\
  option_map (fun c => (B2SF <$> c.1, B2SF <$> c.2)) (BLXa (fmk 3 0) [(r, fzero)] [small] p1 p2) =
    Some ([B2SF (fmk 3 0)], [B2SF (fmk (-1) 0)]) /\
  option_map (fun c => (B2SF <$> c.1, B2SF <$> c.2)) (SimulatedBinary default_tolerances pow_one fone [(r, fzero)] [small] p1 p2) =
    Some ([B2SF (fmk 1 0)], [B2SF (fmk 2 0)]).
Proof.
  cbn zeta. destruct fone_val as [F V].
  destruct (fmk_val (2 ^ 53 - 1) (-53)) as (F1 & V1 & S1); [lia|lia|].
  assert (D : draw (fmk (2 ^ 53 - 1) (-53))).
  { split; [exact F1|]. split; [exact S1|]. rewrite V1. split.
    - apply Rmult_le_pos; [apply IZR_le; lia|apply bpow_ge_0].
    - apply Rlt_le_trans with (IZR (2 ^ 53) * bpow radix2 (-53))%R.
      + apply Rmult_lt_compat_r; [apply bpow_gt_0|]. apply IZR_lt. lia.
      + change (2 ^ 53)%Z with (radix_val radix2 ^ 53)%Z. rewrite IZR_Zpower by lia. rewrite <- bpow_plus. right. reflexivity. }
  split_and!.
  - exact D.
  - assert (H : in_bound small (fmk (-1) 0)) by (apply in_small; vm_compute; reflexivity).
    constructor; [|constructor]. unfold bounds_ok. split_and!; [done|done|apply H].
  - destruct (fmk_val (-1) 0) as (_ & V2 & _); [lia|lia|]. destruct (fmk_val 3 0) as (_ & V3 & _); [lia|lia|].
    constructor; [|constructor]. unfold bounded_by, small. cbn [lower upper]. rewrite V2, V3. change (bpow radix2 0) with 1%R.
    split; apply Rabs_le; lra.
  - constructor; [|constructor]. apply in_small; vm_compute; reflexivity.
  - constructor; [|constructor]. apply in_small; vm_compute; reflexivity.
  - apply pow_one_contract.
  - done.
  - rewrite V. apply Rle_trans with (bpow radix2 3); [change (bpow radix2 3) with 8%R; lra|]. apply bpow_le. lia.
  - vm_compute. reflexivity.
  - vm_compute. reflexivity.
Qed.
