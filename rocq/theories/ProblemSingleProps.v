(** Properties of the single-objective benchmark functions (C96). *)
From stdpp Require Import list list_numbers.
From Coq Require Import Reals Lra Lia.
From Verif Require Import ProblemModel ProblemSpec ProblemProofs.
Local Open Scope R_scope.

(** C96: the functions are the documented ones. *)
Theorem C96_formulas (v : list R) : let d := length v in let x := entry v in
  Sphere v = Some [- big_sum d (fun i => x i ^ 2)] /\
  Rastrigin v = Some [- (10 * INR d + big_sum d (fun i => x i ^ 2 - 10 * cos (2 * PI * x i)))] /\
  (v <> [] -> Rosenbrock v = Some [- big_sum (d - 1) (fun i => 100 * (x (i + 1)%nat - x i ^ 2) ^ 2 + (x i - 1) ^ 2)]) /\
  Schwefel v = Some [- (41898288727215591 / 100000000000000 * INR d - big_sum d (fun i => x i * sin (sqrt (Rabs (x i)))))] /\
  Griewank v = Some [- (1 + big_sum d (fun i => x i ^ 2 / 4000) - big_prod d (fun i => cos (x i / sqrt (INR i + 1))))] /\
  (v <> [] -> Ackley v = Some [- (20 + exp 1 - 20 * exp (- (2 / 10) * sqrt (1 / INR d * big_sum d (fun i => x i ^ 2))) - exp (1 / INR d * big_sum d (fun i => cos (2 * PI * x i))))]) /\
  (v <> [] -> let w i := 1 + (x i - 1) / 4 in
    Levy v = Some [- (sin (PI * w 0%nat) ^ 2 + (w (d - 1)%nat - 1) ^ 2 * (1 + sin (2 * PI * w (d - 1)%nat) ^ 2) + big_sum (d - 1) (fun i => (w i - 1) ^ 2 * (1 + 10 * sin (PI * w i + 1) ^ 2)))]).
Proof.
  cbn zeta. split; [|split; [|split; [|split; [|split; [|split]]]]].
  - unfold Sphere. rewrite (foldl_add _ (fun x => x ^ 2) 0) by (intros; lra). rewrite Rplus_0_l. done.
  - unfold Rastrigin. rewrite (foldl_add _ (fun x => x ^ 2 - 10 * cos (2 * PI * x)) 0) by done. done.
  - intros Hv. unfold Rosenbrock. rewrite decide_False by done. cbn zeta. rewrite (for_to_add _ (fun i => 100 * (entry v (i + 1) - entry v i ^ 2) ^ 2 + (entry v i - 1) ^ 2)) by done. by rewrite Rplus_0_l.
  - unfold Schwefel. rewrite (foldl_add _ (fun x => - (x * sin (sqrt (Rabs x)))) 0) by (intros; lra). rewrite big_sum_opp. done.
  - unfold Griewank.
    assert (E : for_to (length v) (fun i (s : R * R) => let '(fx, fm) := s in (fx + v.[i] ^ 2, fm * cos (v.[i] / sqrt (INR i + 1)))) (4000, 1) =
      (4000 + big_sum (length v) (fun i => entry v i ^ 2), big_prod (length v) (fun i => cos (entry v i / sqrt (INR i + 1))))).
    { generalize (length v). intros n. induction n as [|n IH]; [cbn; f_equal; lra|]. rewrite for_to_step, IH. cbn [big_sum big_prod]. unfold entry. f_equal. lra. }
    rewrite E. do 2 f_equal. rewrite (big_sum_ext _ (fun i => entry v i ^ 2 / 4000) (fun i => / 4000 * entry v i ^ 2)) by (intros; lra). rewrite big_sum_scal. lra.
  - intros Hv. unfold Ackley. rewrite decide_False by done. rewrite (foldl_pair (fun f1 x => f1 + x ^ 2) (fun f2 x => f2 + cos (2 * PI * x))).
    rewrite (foldl_add _ (fun x => x ^ 2) 0) by done. rewrite (foldl_add _ (fun x => cos (2 * PI * x)) 0) by done. rewrite !Rplus_0_l. do 2 f_equal.
    replace (big_sum (length v) (fun i => nth i v 0 ^ 2) / INR (length v)) with (1 / INR (length v) * big_sum (length v) (fun i => entry v i ^ 2)) by (unfold entry; lra).
    replace (big_sum (length v) (fun i => cos (2 * PI * nth i v 0)) / INR (length v)) with (1 / INR (length v) * big_sum (length v) (fun i => cos (2 * PI * entry v i))) by (unfold entry; lra). lra.
  - intros Hv. unfold Levy. rewrite decide_False by done. cbn zeta. unfold entry.
    assert (W : forall x, levy_fw x = 1 + (x - 1) / 4) by (intros; unfold levy_fw; lra). rewrite !W.
    rewrite (for_to_add _ (fun i => (1 + (nth i v 0 - 1) / 4 - 1) ^ 2 * (1 + 10 * sin (PI * (1 + (nth i v 0 - 1) / 4) + 1) ^ 2))) by (intros; by rewrite !W). do 2 f_equal. lra.
Qed.
Print Assumptions C96_formulas.


(** C96: optimum() attains optimal_value(), which is the largest value within the bounds, and
    it is the only point that does. *)
Theorem C96_sphere (n : nat) : let t := Sphere_traits n in
  global_max Sphere (lower t) (upper t) (optimum t) 0 /\ only_max Sphere (lower t) (upper t) (optimum t) 0 /\ optimal_value t = [0].
Proof.
  cbn zeta. unfold Sphere_traits, single. cbn [lower upper optimum optimal_value]. rewrite replicate_length.
  assert (F : forall v, Sphere v = Some [- big_sum (length v) (fun i => entry v i ^ 2)]) by (intros v; apply (C96_formulas v)).
  split; [|split; [|done]].
  - split.
    + apply in_box_uniform. rewrite replicate_length. split; [done|]. intros i Hi. rewrite entry_replicate by done. lra.
    + rewrite F, replicate_length. rewrite (big_sum_ext _ _ (fun _ => 0)) by (intros; rewrite entry_replicate by done; lra). rewrite big_sum_const. do 2 f_equal. lra.
    + intros v _. eexists. split; [apply F|]. pose proof (big_sum_nonneg (length v) (fun i => entry v i ^ 2) (fun i _ => sq_nonneg _)). lra.
  - intros v Hv E. apply in_box_uniform in Hv as [Hl _]. rewrite F in E. apply some1_inj in E. rewrite Hl in E. apply eq_replicate; [done|]. intros i Hi. apply sq0.
    apply (big_sum_zero n (fun i => entry v i ^ 2)); [intros; apply sq_nonneg|lra|done].
Qed.
Print Assumptions C96_sphere.
Theorem C96_rastrigin (n : nat) : let t := Rastrigin_traits n in
  global_max Rastrigin (lower t) (upper t) (optimum t) 0 /\ only_max Rastrigin (lower t) (upper t) (optimum t) 0 /\ optimal_value t = [0].
Proof.
  cbn zeta. unfold Rastrigin_traits, single. cbn [lower upper optimum optimal_value]. rewrite replicate_length.
  assert (F : forall v, Rastrigin v = Some [- big_sum (length v) (fun i => entry v i ^ 2 + 10 * (1 - cos (2 * PI * entry v i)))]).
  { intros v. destruct (C96_formulas v) as (_ & -> & _). do 3 f_equal. rewrite Rmult_comm, <- (big_sum_const (length v) 10), <- big_sum_plus. apply big_sum_ext. intros. lra. }
  assert (G : forall x, 0 <= x ^ 2 + 10 * (1 - cos (2 * PI * x))) by (intros x; pose proof (sq_nonneg x); pose proof (cos_le_1 (2 * PI * x)); lra).
  split; [|split; [|done]].
  - split.
    + apply in_box_uniform. rewrite replicate_length. split; [done|]. intros i Hi. rewrite entry_replicate by done. lra.
    + rewrite F, replicate_length. rewrite (big_sum_ext _ _ (fun _ => 0)) by (intros; rewrite entry_replicate, Rmult_0_r, cos_0 by done; lra). rewrite big_sum_const. do 2 f_equal. lra.
    + intros v _. eexists. split; [apply F|]. pose proof (big_sum_nonneg (length v) _ (fun i _ => G (entry v i))). lra.
  - intros v Hv E. apply in_box_uniform in Hv as [Hl _]. rewrite F in E. apply some1_inj in E. rewrite Hl in E. apply eq_replicate; [done|]. intros i Hi. apply sq0.
    assert (Z : entry v i ^ 2 + 10 * (1 - cos (2 * PI * entry v i)) = 0) by (apply (big_sum_zero n (fun i => entry v i ^ 2 + 10 * (1 - cos (2 * PI * entry v i)))); [intros; apply G|lra|done]).
    pose proof (sq_nonneg (entry v i)). pose proof (cos_le_1 (2 * PI * entry v i)). lra.
Qed.
Print Assumptions C96_rastrigin.
(** With a single variable the Rosenbrock function is constant. *)
Theorem C96_rosenbrock (n : nat) : (1 <= n)%nat -> let t := Rosenbrock_traits n in
  global_max Rosenbrock (lower t) (upper t) (optimum t) 0 /\ ((2 <= n)%nat -> only_max Rosenbrock (lower t) (upper t) (optimum t) 0) /\ optimal_value t = [0].
Proof.
  intros Hn. cbn zeta. unfold Rosenbrock_traits, single. cbn [lower upper optimum optimal_value]. rewrite replicate_length.
  assert (F : forall v, (1 <= length v)%nat -> Rosenbrock v = Some [- big_sum (length v - 1) (fun i => 100 * (entry v (i + 1)%nat - entry v i ^ 2) ^ 2 + (entry v i - 1) ^ 2)]).
  { intros v Hv. apply (C96_formulas v). by destruct v; [cbn in Hv; lia|]. }
  assert (G : forall a b, 0 <= 100 * (b - a ^ 2) ^ 2 + (a - 1) ^ 2) by (intros a b; pose proof (sq_nonneg (b - a ^ 2)); pose proof (sq_nonneg (a - 1)); lra).
  split; [|split; [|done]].
  - split.
    + apply in_box_uniform. rewrite replicate_length. split; [done|]. intros i Hi. rewrite entry_replicate by done. lra.
    + rewrite F by (by rewrite replicate_length). rewrite replicate_length. rewrite (big_sum_ext _ _ (fun _ => 0)) by (intros; rewrite !entry_replicate by lia; lra). rewrite big_sum_const. do 2 f_equal. lra.
    + intros v Hv. apply in_box_uniform in Hv as [Hl _]. eexists. split; [apply F; lia|]. pose proof (big_sum_nonneg (length v - 1) _ (fun i _ => G (entry v i) (entry v (i + 1)))). lra.
  - intros Hn2 v Hv E. apply in_box_uniform in Hv as [Hl _]. rewrite F in E by lia. apply some1_inj in E. rewrite Hl in E.
    assert (Z : forall i, (i < n - 1)%nat -> 100 * (entry v (i + 1)%nat - entry v i ^ 2) ^ 2 + (entry v i - 1) ^ 2 = 0).
    { intros i Hi. apply (big_sum_zero (n - 1) (fun i => 100 * (entry v (i + 1)%nat - entry v i ^ 2) ^ 2 + (entry v i - 1) ^ 2)); [intros; apply G|lra|done]. }
    assert (Z1 : forall i, (i < n - 1)%nat -> entry v i = 1 /\ entry v (i + 1)%nat = 1).
    { intros i Hi. specialize (Z i Hi). pose proof (sq_nonneg (entry v (i + 1)%nat - entry v i ^ 2)) as A. pose proof (sq_nonneg (entry v i - 1)) as B.
      assert (C : entry v i - 1 = 0) by (apply sq0; lra). assert (D : entry v (i + 1)%nat - entry v i ^ 2 = 0) by (apply sq0; lra). split; [lra|]. replace (entry v i) with 1 in D by lra. lra. }
    apply eq_replicate; [done|]. intros i Hi. destruct (decide (i < n - 1)%nat) as [Hi'|Hi']; [by apply Z1|]. replace i with (n - 2 + 1)%nat by lia. apply Z1. lia.
Qed.
Print Assumptions C96_rosenbrock.
(** The documentation of the class names the point (0, ..., 0) as the optimum. *)
Theorem C96_rosenbrock_documented_refuted : Rosenbrock [0; 0] = Some [-1] /\ Rosenbrock [1; 1] = Some [0].
Proof. split; unfold Rosenbrock; rewrite decide_False by done; cbn; do 2 f_equal; lra. Qed.
Print Assumptions C96_rosenbrock_documented_refuted.
Theorem C96_griewank (n : nat) : let t := Griewank_traits n in
  global_max Griewank (lower t) (upper t) (optimum t) 0 /\ only_max Griewank (lower t) (upper t) (optimum t) 0 /\ optimal_value t = [0].
Proof.
  cbn zeta. unfold Griewank_traits, single. cbn [lower upper optimum optimal_value]. rewrite replicate_length.
  assert (F : forall v, Griewank v = Some [- (1 + big_sum (length v) (fun i => entry v i ^ 2 / 4000) - big_prod (length v) (fun i => cos (entry v i / sqrt (INR i + 1))))]) by (intros v; apply (C96_formulas v)).
  assert (P : forall v, big_prod (length v) (fun i => cos (entry v i / sqrt (INR i + 1))) <= 1).
  { intros v. pose proof (big_prod_abs (length v) (fun i => cos (entry v i / sqrt (INR i + 1))) (fun i _ => cos_abs _)) as H. pose proof (Rle_abs (big_prod (length v) (fun i => cos (entry v i / sqrt (INR i + 1))))). lra. }
  assert (G : forall x, 0 <= x ^ 2 / 4000) by (intros x; pose proof (sq_nonneg x); lra).
  split; [|split; [|done]].
  - split.
    + apply in_box_uniform. rewrite replicate_length. split; [done|]. intros i Hi. rewrite entry_replicate by done. lra.
    + rewrite F, replicate_length. rewrite (big_sum_ext _ _ (fun _ => 0)) by (intros; rewrite entry_replicate by done; lra).
      rewrite (big_prod_ext _ _ (fun _ => 1)) by (intros; rewrite entry_replicate by done; unfold Rdiv; by rewrite Rmult_0_l, cos_0). rewrite big_sum_const, big_prod_one. do 2 f_equal. lra.
    + intros v _. eexists. split; [apply F|]. pose proof (big_sum_nonneg (length v) _ (fun i _ => G (entry v i))). specialize (P v). lra.
  - intros v Hv E. apply in_box_uniform in Hv as [Hl _]. rewrite F in E. apply some1_inj in E. specialize (P v). rewrite Hl in *. pose proof (big_sum_nonneg n _ (fun i _ => G (entry v i))).
    apply eq_replicate; [done|]. intros i Hi. apply sq0. assert (entry v i ^ 2 / 4000 = 0) by (apply (big_sum_zero n (fun i => entry v i ^ 2 / 4000)); [intros; apply G|lra|done]). lra.
Qed.
Print Assumptions C96_griewank.
Theorem C96_ackley (n : nat) : (1 <= n)%nat -> let t := Ackley_traits n in
  global_max Ackley (lower t) (upper t) (optimum t) 0 /\ only_max Ackley (lower t) (upper t) (optimum t) 0 /\ optimal_value t = [0].
Proof.
  intros Hn. cbn zeta. unfold Ackley_traits, single. cbn [lower upper optimum optimal_value]. rewrite replicate_length.
  assert (F : forall v, (1 <= length v)%nat -> Ackley v = Some [- (20 + exp 1 - 20 * exp (- (2 / 10) * sqrt (1 / INR (length v) * big_sum (length v) (fun i => entry v i ^ 2))) - exp (1 / INR (length v) * big_sum (length v) (fun i => cos (2 * PI * entry v i))))]).
  { intros v Hv. apply (C96_formulas v). by destruct v; [cbn in Hv; lia|]. }
  assert (A : forall v, (1 <= length v)%nat -> exp (1 / INR (length v) * big_sum (length v) (fun i => cos (2 * PI * entry v i))) <= exp 1).
  { intros v Hv. apply exp_le. assert (Hp : 0 < INR (length v)) by (apply lt_0_INR; lia).
    pose proof (big_sum_le (length v) (fun i => cos (2 * PI * entry v i)) (fun _ => 1) (fun i _ => cos_le_1 _)) as H. rewrite big_sum_const in H.
    apply Rmult_le_reg_l with (INR (length v)); [done|]. unfold Rdiv. rewrite Rmult_1_l, <- Rmult_assoc, Rinv_r, Rmult_1_l by lra. lra. }
  assert (B : forall s, exp (- (2 / 10) * sqrt s) <= 1).
  { intros s. rewrite <- exp_0. apply exp_le. pose proof (sqrt_pos s). lra. }
  split; [|split; [|done]].
  - split.
    + apply in_box_uniform. rewrite replicate_length. split; [done|]. intros i Hi. rewrite entry_replicate by done. lra.
    + rewrite F by (by rewrite replicate_length). rewrite replicate_length. rewrite (big_sum_ext _ (fun i => entry _ i ^ 2) (fun _ => 0)) by (intros; rewrite entry_replicate by done; lra).
      rewrite (big_sum_ext _ (fun i => cos _) (fun _ => 1)) by (intros; rewrite entry_replicate by done; by rewrite Rmult_0_r, cos_0). rewrite !big_sum_const, !Rmult_0_r, sqrt_0, Rmult_0_r, exp_0.
      assert (Hp : 0 < INR n) by (apply lt_0_INR; lia). replace (1 / INR n * (INR n * 1)) with 1 by (field; lra). do 2 f_equal. lra.
    + intros v Hv. apply in_box_uniform in Hv as [Hl _]. eexists. split; [apply F; lia|]. specialize (A v ltac:(lia)). specialize (B (1 / INR (length v) * big_sum (length v) (fun i => entry v i ^ 2))). lra.
  - intros v Hv E. apply in_box_uniform in Hv as [Hl _]. rewrite F in E by lia. apply some1_inj in E. specialize (A v ltac:(lia)).
    set (s := 1 / INR (length v) * big_sum (length v) (fun i => entry v i ^ 2)) in *. specialize (B s). assert (Hexp : exp (- (2 / 10) * sqrt s) = exp 0) by (rewrite exp_0; lra).
    apply exp_inv in Hexp. assert (Hs : sqrt s = 0) by lra. assert (Hp : 0 < INR (length v)) by (apply lt_0_INR; lia).
    pose proof (big_sum_nonneg (length v) (fun i => entry v i ^ 2) (fun i _ => sq_nonneg _)) as G.
    assert (Hs0 : 0 <= s) by (unfold s; apply Rmult_le_pos; [|done]; unfold Rdiv; rewrite Rmult_1_l; left; by apply Rinv_0_lt_compat).
    apply sqrt_eq_0 in Hs; [|done]. unfold s in Hs. apply Rmult_integral in Hs as [Hs|Hs]; [unfold Rdiv in Hs; rewrite Rmult_1_l in Hs; pose proof (Rinv_0_lt_compat _ Hp); lra|].
    rewrite Hl in Hs. apply eq_replicate; [done|]. intros i Hi. apply sq0. apply (big_sum_zero n (fun i => entry v i ^ 2)); [intros; apply sq_nonneg|lra|done].
Qed.
Print Assumptions C96_ackley.
Theorem C96_levy (n : nat) : (1 <= n)%nat -> let t := Levy_traits n in
  global_max Levy (lower t) (upper t) (optimum t) 0 /\ only_max Levy (lower t) (upper t) (optimum t) 0 /\ optimal_value t = [0].
Proof.
  intros Hn. cbn zeta. unfold Levy_traits, single. cbn [lower upper optimum optimal_value]. rewrite replicate_length.
  pose (w v i := 1 + (entry v i - 1) / 4).
  assert (F : forall v, (1 <= length v)%nat -> Levy v = Some [- (sin (PI * w v 0%nat) ^ 2 + (w v (length v - 1)%nat - 1) ^ 2 * (1 + sin (2 * PI * w v (length v - 1)%nat) ^ 2) + big_sum (length v - 1) (fun i => (w v i - 1) ^ 2 * (1 + 10 * sin (PI * w v i + 1) ^ 2)))]).
  { intros v Hv. apply (C96_formulas v). by destruct v; [cbn in Hv; lia|]. }
  assert (G : forall a b, 0 <= a ^ 2 * (1 + b ^ 2)) by (intros a b; apply Rmult_le_pos; [|pose proof (sq_nonneg b)]; [apply sq_nonneg|lra]).
  assert (G' : forall a b, 0 <= a ^ 2 * (1 + 10 * b ^ 2)) by (intros a b; apply Rmult_le_pos; [|pose proof (sq_nonneg b)]; [apply sq_nonneg|lra]).
  split; [|split; [|done]].
  - split.
    + apply in_box_uniform. rewrite replicate_length. split; [done|]. intros i Hi. rewrite entry_replicate by done. lra.
    + rewrite F by (by rewrite replicate_length). rewrite replicate_length. assert (W : forall i, (i < n)%nat -> w (replicate n 1) i = 1) by (intros i Hi; unfold w; rewrite entry_replicate by done; lra).
      rewrite !W by lia. rewrite (big_sum_ext _ _ (fun _ => 0)) by (intros; rewrite W by lia; lra). rewrite big_sum_const, Rmult_1_r, sin_PI. do 2 f_equal. lra.
    + intros v Hv. apply in_box_uniform in Hv as [Hl _]. eexists. split; [apply F; lia|].
      pose proof (big_sum_nonneg (length v - 1) _ (fun i _ => G' (w v i - 1) (sin (PI * w v i + 1)))). pose proof (G (w v (length v - 1)%nat - 1) (sin (2 * PI * w v (length v - 1)%nat))). pose proof (sq_nonneg (sin (PI * w v 0%nat))). lra.
  - intros v Hv E. apply in_box_uniform in Hv as [Hl _]. rewrite F in E by lia. apply some1_inj in E. rewrite Hl in E.
    pose proof (big_sum_nonneg (n - 1) _ (fun i _ => G' (w v i - 1) (sin (PI * w v i + 1)))) as A. pose proof (G (w v (n - 1)%nat - 1) (sin (2 * PI * w v (n - 1)%nat))) as B. pose proof (sq_nonneg (sin (PI * w v 0%nat))) as C.
    apply eq_replicate; [done|]. intros i Hi. assert (Hw : w v i - 1 = 0); [|unfold w in Hw; lra]. apply sq0.
    destruct (decide (i < n - 1)%nat) as [Hi'|Hi'].
    + assert (Z : (w v i - 1) ^ 2 * (1 + 10 * sin (PI * w v i + 1) ^ 2) = 0) by (apply (big_sum_zero (n - 1) (fun i => (w v i - 1) ^ 2 * (1 + 10 * sin (PI * w v i + 1) ^ 2))); [intros; apply G'|lra|done]).
      apply Rmult_integral in Z as [Z|Z]; [done|]. pose proof (sq_nonneg (sin (PI * w v i + 1))). lra.
    + replace i with (n - 1)%nat by lia. assert (Z : (w v (n - 1)%nat - 1) ^ 2 * (1 + sin (2 * PI * w v (n - 1)%nat) ^ 2) = 0) by lra.
      apply Rmult_integral in Z as [Z|Z]; [done|]. pose proof (sq_nonneg (sin (2 * PI * w v (n - 1)%nat))). lra.
Qed.
Print Assumptions C96_levy.
(** C96, partial: the value at optimum() is within n/100 below and n/50 above optimal_value(),
    and no point has a value above n/50; the exact optimum is not determined. *)
Theorem C96_schwefel_partial (n : nat) : let t := Schwefel_traits n in
  in_box (lower t) (upper t) (optimum t) /\ optimal_value t = [0] /\
  (exists y, Schwefel (optimum t) = Some [y] /\ - (INR n / 100) <= y <= INR n / 50) /\
  forall v, in_box (lower t) (upper t) v -> exists y, Schwefel v = Some [y] /\ y <= INR n / 50.
Proof.
  cbn zeta. unfold Schwefel_traits, single. cbn [lower upper optimum optimal_value]. rewrite replicate_length.
  assert (F : forall v, Schwefel v = Some [big_sum (length v) (fun i => entry v i * sin (sqrt (Rabs (entry v i))) - cS)]).
  { intros v. destruct (C96_formulas v) as (_ & _ & _ & -> & _). do 2 f_equal. fold cS. unfold Rminus at 2. rewrite (big_sum_plus _ _ (fun _ => - cS)), big_sum_const.
 lra. }
  assert (HB : in_box (replicate n (-500)) (replicate n 500) (replicate n (4209687 / 10000))).
  { apply in_box_uniform. rewrite replicate_length. split; [done|]. intros i Hi. rewrite entry_replicate by done. lra. }
  assert (HU : forall v, in_box (replicate n (-500)) (replicate n 500) v -> exists y, Schwefel v = Some [y] /\ y <= INR n / 50).
  { intros v Hv. apply in_box_uniform in Hv as [Hl Hv]. eexists. split; [apply F|]. rewrite Hl. eapply Rle_trans; [apply (big_sum_le _ _ (fun _ => 2 / 100))|rewrite big_sum_const; lra].
    intros i Hi. specialize (Hv i Hi). pose proof (schwefel_term (entry v i) ltac:(apply Rabs_le; lra)). cbn beta. lra. }
  split; [done|]. split; [done|]. split; [|done]. destruct (HU _ HB) as (y & E & Hy). exists y. split; [done|]. split; [|done].
  rewrite F in E. apply some1_inj in E as <-. rewrite replicate_length. eapply Rle_trans; [|apply (big_sum_le _ (fun _ => - (1 / 100)))]; [rewrite big_sum_const; lra|].
  intros i Hi. cbn beta. rewrite entry_replicate by done. pose proof schwefel_opt as H. cbn zeta in H. lra.
Qed.
Print Assumptions C96_schwefel_partial.
(** The documented formula of the Levy function sums up to the last variable, the function
    only up to the one before it. *)
Theorem C96_levy_documented_refuted : let w := 1 + (5 - 1) / 4 in
  Levy [5] = Some [-1] /\ -1 <> - (sin (PI * w) ^ 2 + (w - 1) ^ 2 * (1 + sin (2 * PI * w) ^ 2) + (w - 1) ^ 2 * (1 + 10 * sin (PI * w + 1) ^ 2)).
Proof.
  cbn zeta. replace (1 + (5 - 1) / 4) with 2 by lra. assert (S2 : sin (PI * 2) = 0) by (rewrite Rmult_comm; apply sin_2PI).
  assert (S4 : sin (2 * PI * 2) = 0) by (replace (2 * PI * 2) with (0 + 2 * INR 2 * PI) by (cbn [INR]; lra); rewrite sin_period; apply sin_0). split.
  - destruct (C96_formulas [5]) as (_ & _ & _ & _ & _ & _ & H). rewrite H by done. cbn [length Nat.sub big_sum entry nth]. replace (1 + (5 - 1) / 4) with 2 by lra. rewrite S2, S4. do 2 f_equal. lra.
  - rewrite S2, S4. pose proof (sq_nonneg (sin (PI * 2 + 1))). lra.
Qed.
Print Assumptions C96_levy_documented_refuted.

(** Concrete cases: other points of the boxes and their values. *)
Example C96_nonvacuous : (1 <= 2)%nat /\
  in_box (lower (Sphere_traits 2)) (upper (Sphere_traits 2)) [1; 2] /\ Sphere [1; 2] = Some [-5] /\ Rastrigin [1; 2] = Some [-5] /\ Rosenbrock [2; 1] = Some [-901] /\ Levy [5] = Some [-1] /\
  in_box (lower (Schwefel_traits 2)) (upper (Schwefel_traits 2)) [0; 0].
Proof.
  split; [lia|]. split; [|split; [|split; [|split; [|split]]]].
  - apply in_box_uniform. split; [done|]. intros [|[|i]] Hi; [cbn [entry nth]; lra|cbn [entry nth]; lra|]. cbn [length replicate] in Hi. lia.
  - destruct (C96_formulas [1; 2]) as (-> & _). cbn. do 2 f_equal. lra.
  - destruct (C96_formulas [1; 2]) as (_ & -> & _). cbn [length big_sum entry nth INR].
    replace (2 * PI * 1) with (0 + 2 * INR 1 * PI) by (cbn [INR]; lra). replace (2 * PI * 2) with (0 + 2 * INR 2 * PI) by (cbn [INR]; lra). rewrite !cos_period, cos_0. do 2 f_equal. lra.
  - destruct (C96_formulas [2; 1]) as (_ & _ & H & _). rewrite H by done. cbn. do 2 f_equal. lra.
  - apply C96_levy_documented_refuted.
  - apply in_box_uniform. split; [done|]. intros [|[|i]] Hi; [cbn [entry nth]; lra|cbn [entry nth]; lra|]. cbn [length replicate] in Hi. lia.
Qed.

(** The functions are evaluated on the documented hypercubes. *)
Theorem C96_boxes (n : nat) (v : list R) : let box (t : traits R) := in_box (lower t) (upper t) v in let within (b : R) := length v = n /\ forall i, (i < n)%nat -> - b <= entry v i <= b in
  (box (Sphere_traits n) <-> within 5.12) /\ (box (Rastrigin_traits n) <-> within 5.12) /\ (box (Rosenbrock_traits n) <-> within 2.048) /\ (box (Schwefel_traits n) <-> within 500) /\
  (box (Griewank_traits n) <-> within 600) /\ (box (Ackley_traits n) <-> within 32.768) /\ (box (Levy_traits n) <-> within 10).
Proof.
  assert (H : forall l u b (opt : list R) x, length opt = n -> l = - b -> u = b -> in_box (lower (single l u opt x)) (upper (single l u opt x)) v <-> length v = n /\ forall i, (i < n)%nat -> - b <= entry v i <= b).
  { intros l u b opt x Hl -> ->. unfold single. cbn [lower upper]. rewrite Hl. apply in_box_uniform. }
  cbn zeta. split_and!; (apply H; [apply replicate_length|lra|lra]).
Qed.
Print Assumptions C96_boxes.
