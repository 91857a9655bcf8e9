(** C98: the DTLZ problems. *)
From stdpp Require Import list list_numbers.
From Coq Require Import Reals Lra Lia.
From Verif Require Import ProblemModel ProblemSpec ProblemProofs ProblemMultiProofs ProblemManyProofs.
Local Open Scope R_scope.

(** C98: the formulas of the literature: with L = M - 1 the entry k is - (1 + g) times the
    product of the first L - k factors and of the other factor of variable L - k, if k is not 0. *)
Theorem C98_formulas (M K : nat) (v : list R) : (2 <= M)%nat -> (1 <= K)%nat -> length v = (M + K - 1)%nat ->
  let x := entry v in let L := (M - 1)%nat in
  let r i := x (L + i)%nat in
  let ga := 100 * (INR K + big_sum K (fun i => (r i - 1 / 2) ^ 2 - cos (20 * PI * (r i - 1 / 2)))) in
  let gb := big_sum K (fun i => (r i - 1 / 2) ^ 2) in
  let gc := big_sum K (fun i => rpow (r i) (1 / 10)) in
  let value f c g before self := exists y, f v M = Some y /\ length y = M /\ forall k, (k < M)%nat ->
    entry y k = - ((1 + g) * (c * big_prod (L - k) before * if decide (k = 0%nat) then 1 else self (L - k)%nat)) in
  let theta g i := if decide (i = 0%nat) then x 0%nat * PI / 2 else PI / (4 * (1 + g)) * (1 + 2 * g * x i) in
  value DTLZ1 (1 / 2) ga x (fun i => 1 - x i) /\
  value DTLZ2 1 gb (fun i => cos (x i * PI / 2)) (fun i => sin (x i * PI / 2)) /\
  value DTLZ3 1 ga (fun i => cos (x i * PI / 2)) (fun i => sin (x i * PI / 2)) /\
  value DTLZ4 1 gb (fun i => cos (x i ^ 100 * PI / 2)) (fun i => sin (x i ^ 100 * PI / 2)) /\
  value DTLZ5 1 gb (fun i => cos (theta gb i)) (fun i => sin (theta gb i)) /\
  ((forall i, (i < M + K - 1)%nat -> 0 <= x i) -> value DTLZ6 1 gc (fun i => cos (theta gc i)) (fun i => sin (theta gc i))) /\
  ((forall i, (i < M + K - 1)%nat -> 0 <= x i) -> let g := 1 + 9 / INR K * big_sum K r in
    exists y, DTLZ7 v M = Some y /\ length y = M /\ (forall k, (k < M - 1)%nat -> entry y k = - x k) /\
    entry y (M - 1) = - ((1 + g) * (INR M - big_sum (M - 1) (fun i => x i / (1 + g) * (1 + sin (3 * PI * x i)))))).
Proof.
  intros HM HK Hl. cbn zeta. set (L := (M - 1)%nat).
  assert (GA : tail_sum M K h1 v = 100 * (INR K + big_sum K (fun i => (entry v (L + i) - 1 / 2) ^ 2 - cos (20 * PI * (entry v (L + i) - 1 / 2))))) by (unfold tail_sum, h1; rewrite big_sum_scal, (big_sum_plus _ (fun _ => 1)), big_sum_const; fold L; lra).
  assert (NE : forall first : list R, length first = L -> first <> []) by (intros first Hf ->; cbn in Hf; unfold L in Hf; lia).
  assert (TH : forall g i, 0 <= g -> angle g v i * PI / 2 = if decide (i = 0%nat) then entry v 0 * PI / 2 else PI / (4 * (1 + g)) * (1 + 2 * g * entry v i)) by (intros g i Hg; unfold angle; destruct (decide (i = 0%nat)); [done|field; lra]).
  split; [|split; [|split; [|split; [|split; [|split]]]]].
  - rewrite <- GA. apply (dtlz_computes dtlz1_f dtlz1_g M K (tail_sum M K h1) (1 / 2) (fun x => x) (fun x => 1 - x)); [done|intros; apply dtlz1_g_val; [lia|done|done]| |done]. intros first g Hf. unfold dtlz1_f. rewrite decide_False by (by apply NE). by rewrite Hf.
  - apply (dtlz_computes dtlz2_f dtlz2_g M K (tail_sum M K h2) 1 (fun x => cos (x * PI / 2)) (fun x => sin (x * PI / 2))); [done|intros; apply dtlz2_g_val; [lia|done|done]| |done]. intros first g Hf. unfold dtlz2_f. rewrite decide_False by (by apply NE). by rewrite Hf.
  - rewrite <- GA. apply (dtlz_computes dtlz2_f dtlz1_g M K (tail_sum M K h1) 1 (fun x => cos (x * PI / 2)) (fun x => sin (x * PI / 2))); [done|intros; apply dtlz1_g_val; [lia|done|done]| |done]. intros first g Hf. unfold dtlz2_f. rewrite decide_False by (by apply NE). by rewrite Hf.
  - apply (dtlz_computes dtlz4_f dtlz2_g M K (tail_sum M K h2) 1 (fun x => cos (x ^ 100 * PI / 2)) (fun x => sin (x ^ 100 * PI / 2))); [done|intros; apply dtlz2_g_val; [lia|done|done]| |done]. intros first g Hf. unfold dtlz4_f. rewrite decide_False by (by apply NE). by rewrite Hf.
  - destruct (dtlz5_computes dtlz2_g M K (tail_sum M K h2) HM) with (v := v) as (y & Hy & Ly & Ey); [intros; apply dtlz2_g_val; [lia|done|done]|done|]. exists y. split; [done|]. split; [done|]. intros k Hk. rewrite Ey by done. unfold shape5, hyper.
    change (big_sum K (fun i => (entry v (L + i) - 1 / 2) ^ 2)) with (tail_sum M K h2 v). set (g := tail_sum M K h2 v). assert (Hg : 0 <= g) by (apply big_sum_nonneg; intros; apply h2_ok).
    do 3 f_equal; [f_equal; apply big_prod_ext; intros i Hi; by rewrite TH|]. fold L. destruct (decide (k = 0%nat)); [done|]. by rewrite TH.
  - intros Hp. destruct (dtlz5_computes dtlz6_g M K (tail_sum M K h6) HM) with (v := v) as (y & Hy & Ly & Ey); [intros; apply dtlz6_g_val; [lia|done|done]|done|]. exists y. split; [done|]. split; [done|]. intros k Hk. rewrite Ey by done. unfold shape5, hyper.
    change (big_sum K (fun i => rpow (entry v (L + i)) (1 / 10))) with (tail_sum M K h6 v). set (g := tail_sum M K h6 v). assert (Hg : 0 <= g) by (apply big_sum_nonneg; intros; apply rpow_nonneg).
    do 3 f_equal; [f_equal; apply big_prod_ext; intros i Hi; by rewrite TH|]. fold L. destruct (decide (k = 0%nat)); [done|]. by rewrite TH.
  - intros Hp. assert (Hg : 0 <= 9 / INR K * big_sum K (fun i => entry v (L + i))). { apply Rmult_le_pos; [left; apply Rdiv_lt_0_compat; [lra|apply lt_0_INR; lia]|]. apply big_sum_nonneg. intros i Hi. apply Hp. unfold L. lia. }
    destruct (dtlz7_value M K v HM HK Hl) as (y & Hy & Ly & E1 & E2); [unfold g7; fold L; lra|]. exists y. split; [done|]. split; [done|]. split; [done|]. fold L in E2. rewrite E2. unfold g7. fold L. set (g := 1 + 9 / INR K * _) in *. f_equal.
    rewrite (big_sum_ext L (fun i => entry v i / (1 + g) * (1 + sin (3 * PI * entry v i))) (fun i => / (1 + g) * q7 (entry v i))) by (intros; unfold q7; field; unfold g; lra). rewrite big_sum_scal. field. unfold g. lra.
Qed.
Print Assumptions C98_formulas.

(** C98: DTLZ1: the optimal points are those with the last variables 1/2, which are those whose
    objectives add up to -1/2. *)
Theorem C98_dtlz1 (M : nat) : (2 <= M)%nat -> let t := DTLZ1_traits M in let f v := DTLZ1 v M in let box := in_box (lower t) (upper t) in
  (forall v, pareto f box v <-> box v /\ forall i, (M - 1 <= i < M + 4)%nat -> entry v i = 1 / 2) /\
  (forall v y, box v -> f v = Some y -> (pareto f box v <-> big_sum M (entry y) = - (1 / 2))) /\
  points_correct f box (optimum t) (optimal_value t) (ideal_pt t) (nadir_pt t).
Proof.
  intros HM. cbn zeta. cbn [DTLZ1_traits DTLZ_traits lower upper optimum optimal_value ideal_pt nadir_pt].
  destruct (simple_ok (fun v => DTLZ1 v M) 1 (1 / 2) (fun x => x) (fun x => 1 - x) M 5 h1 _ (1 / 2) 1 0 HM ltac:(lia) (or_introl eq_refl) ltac:(lra) ltac:(lra) ltac:(lra) ltac:(lra) ltac:(intros; lra) ltac:(lra) ltac:(lra) (fun x _ => h1_ok x) eq_refl) as (S & P & C & Q).
  { apply computes_box, dtlz_computes; [done|intros; apply dtlz1_g_val; lia|]. intros first g Hf. unfold dtlz1_f. rewrite decide_False by (intros ->; cbn in Hf; lia). by rewrite Hf. }
  fold (dbox M 5). replace (M + 5 - 1)%nat with (M + 4)%nat in P by lia.
  assert (Eo : replicate (M - 1) 0 ++ replicate 5 (1 / 2) = corner M 5 1 0 (1 / 2) (M - 1)) by (unfold corner; by rewrite Nat.sub_diag).
  split; [done|]. split.
  - intros v y Hv Hy. specialize (S v y Hv Hy). rewrite (big_sum_ext _ _ (fun k => - entry y k)), big_sum_opp in S by (intros; lra). rewrite P.
    pose proof (tail_sum_zero M 5 h1 (1 / 2) v ltac:(lia) Hv (fun x _ => h1_ok x)) as Z. replace (M + 5 - 1)%nat with (M + 4)%nat in Z by lia. rewrite <- Z. split; [intros [_ E]; rewrite E in S; lra|intros E; split; [done|lra]].
  - apply Q; rewrite Eo; [|apply C; lia]. apply P. split; [apply corner_box; lra || lia|]. intros i Hi. apply corner_t; lia.
Qed.
Print Assumptions C98_dtlz1.
(** C98: DTLZ2 and DTLZ3: the same on the sphere. *)
Theorem C98_dtlz23 (M : nat) (f : list R -> nat -> option (list R)) : (2 <= M)%nat -> f = DTLZ2 \/ f = DTLZ3 -> let t := DTLZ2_traits M in let box := in_box (lower t) (upper t) in
  (forall v, pareto (fun v => f v M) box v <-> box v /\ forall i, (M - 1 <= i < M + 9)%nat -> entry v i = 1 / 2) /\
  (forall v y, box v -> f v M = Some y -> (pareto (fun v => f v M) box v <-> big_sum M (fun k => entry y k ^ 2) = 1)) /\
  points_correct (fun v => f v M) box (optimum t) (optimal_value t) (ideal_pt t) (nadir_pt t) /\ DTLZ3_traits M = t.
Proof.
  intros HM Hf. cbn zeta. cbn [DTLZ2_traits DTLZ_traits lower upper optimum optimal_value ideal_pt nadir_pt].
  assert (X : exists h, (forall x, 0 <= x <= 1 -> 0 <= h x /\ (h x = 0 <-> x = 1 / 2)) /\ computes (fun v => f v M) (dbox M 10) M (shape 1 (fun x => cos (x * PI / 2)) (fun x => sin (x * PI / 2)) M) (tail_sum M 10 h)).
  { assert (F2 : forall first (g : R), length first = (M - 1)%nat -> dtlz2_f first g = Some (dtlz_loop (fun x => cos (x * PI / 2)) (fun x => sin (x * PI / 2)) first 0 (M - 1) (replicate (M - 1 + 1) 1))) by (intros first g Hl; unfold dtlz2_f; rewrite decide_False by (intros ->; cbn in Hl; lia); by rewrite Hl).
    destruct Hf as [-> | ->]; [exists h2|exists h1]; (split; [intros; apply h2_ok || apply h1_ok|]); apply computes_box, dtlz_computes; try done; intros; [apply dtlz2_g_val; lia|apply dtlz1_g_val; lia]. }
  destruct X as (h & Hh & F). pose proof PI_RGT_0 as HPI.
  destruct (simple_ok (fun v => f v M) 2 1 (fun x => cos (x * PI / 2)) (fun x => sin (x * PI / 2)) M 10 h _ (1 / 2) 0 1 HM ltac:(lia) (or_intror eq_refl) ltac:(lra) ltac:(lra) ltac:(lra) ltac:(lra) cos_sin_unit ltac:(cbn beta; replace (0 * PI / 2) with 0 by lra; exact cos_0) ltac:(cbn beta; replace (1 * PI / 2) with (PI / 2) by lra; exact sin_PI2) Hh eq_refl F) as (S & P & C & Q).
  fold (dbox M 10). replace (M + 10 - 1)%nat with (M + 9)%nat in P by lia.
  assert (Eo : replicate (M - 1) 0 ++ replicate 10 (1 / 2) = corner M 10 0 1 (1 / 2) 0) by (unfold corner; by rewrite Nat.sub_0_r).
  split; [done|]. split; [|split; [|done]].
  - intros v y Hv Hy. specialize (S v y Hv Hy). rewrite (big_sum_ext _ _ (fun k => entry y k ^ 2)) in S by (intros; lra). rewrite P.
    pose proof (tail_sum_zero M 10 h (1 / 2) v ltac:(lia) Hv Hh) as Z. replace (M + 10 - 1)%nat with (M + 9)%nat in Z by lia. rewrite <- Z. pose proof (tail_sum_nonneg M 10 h v ltac:(lia) Hv ltac:(intros; by apply Hh)) as N. split; [intros [_ E]; rewrite E in S; rewrite S; lra|intros E; split; [done|nra]].
  - apply Q; rewrite Eo; [|apply C; lia]. apply P. split; [apply corner_box; lra || lia|]. intros i Hi. apply corner_t; lia.
Qed.
Print Assumptions C98_dtlz23.
(** C98: DTLZ4; the value at optimum() differs from optimal_value(). *)
Theorem C98_dtlz4 (M : nat) : (2 <= M)%nat -> let t := DTLZ4_traits M in let f v := DTLZ4 v M in let box := in_box (lower t) (upper t) in
  (forall v, pareto f box v <-> box v /\ forall i, (M - 1 <= i < M + 9)%nat -> entry v i = 1 / 2) /\
  (forall v y, box v -> f v = Some y -> (pareto f box v <-> big_sum M (fun k => entry y k ^ 2) = 1)) /\
  (exists y, points_correct f box (optimum t) y (ideal_pt t) (nadir_pt t) /\ y <> optimal_value t).
Proof.
  intros HM. cbn zeta. cbn [DTLZ4_traits DTLZ_traits lower upper optimum optimal_value ideal_pt nadir_pt]. pose proof PI_bounds as [HP1 HP2].
  set (b := fun x => cos (x ^ 100 * PI / 2)). set (s := fun x => sin (x ^ 100 * PI / 2)).
  assert (F : computes (fun v => DTLZ4 v M) (dbox M 10) M (shape 1 b s M) (tail_sum M 10 h2)).
  { apply computes_box, dtlz_computes; [done|intros; apply dtlz2_g_val; lia|]. intros first g Hl. unfold dtlz4_f. rewrite decide_False by (intros ->; cbn in Hl; lia). by rewrite Hl. }
  destruct (simple_ok (fun v => DTLZ4 v M) 2 1 b s M 10 h2 (tail_sum M 10 h2) (1 / 2) 0 1 HM ltac:(lia) (or_intror eq_refl) ltac:(lra) ltac:(lra) ltac:(lra) ltac:(lra)) as (S & P & C & Q).
  { intros x Hx. apply cos_sin_unit. split; [apply pow_le; lra|]. rewrite <- (pow1 100). apply pow_incr. lra. }
  { unfold b. rewrite pow_i by lia. replace (0 * PI / 2) with 0 by lra. apply cos_0. }
  { unfold s. rewrite pow1. replace (1 * PI / 2) with (PI / 2) by lra. apply sin_PI2. }
  { intros x _. apply h2_ok. } { done. } { done. }
  fold (dbox M 10). replace (M + 10 - 1)%nat with (M + 9)%nat in * by lia.
  split; [done|]. split.
  - intros v y Hv Hy. specialize (S v y Hv Hy). rewrite (big_sum_ext _ _ (fun k => entry y k ^ 2)) in S by (intros; lra). rewrite P.
    pose proof (tail_sum_zero M 10 h2 (1 / 2) v ltac:(lia) Hv ltac:(intros; apply h2_ok)) as Z. replace (M + 10 - 1)%nat with (M + 9)%nat in Z by lia. rewrite <- Z. pose proof (tail_sum_nonneg M 10 h2 v ltac:(lia) Hv ltac:(intros; by apply h2_ok)) as N. split; [intros [_ E]; rewrite E in S; rewrite S; lra|intros E; split; [done|nra]].
  - set (o := replicate (M + 9) (1 / 2)). assert (Ho : dbox M 10 o). { apply dbox_spec. unfold o. rewrite replicate_length. split; [lia|]. intros i Hi. rewrite entry_replicate by lia. lra. }
    destruct (F o Ho) as (y & Hy & Ly & Ey). exists y. split; [apply Q; [|done]; apply P; split; [done|]; intros i Hi; apply entry_replicate; lia|]. intros ->.
    specialize (Ey (M - 1)%nat ltac:(lia)). rewrite entry_unit in Ey by lia. rewrite decide_False in Ey by lia. unfold shape, hyper in Ey. rewrite Nat.sub_diag in Ey. cbn [big_prod] in Ey. rewrite decide_False in Ey by lia. unfold o in Ey at 2. rewrite entry_replicate in Ey by lia.
    pose proof (tail_sum_nonneg M 10 h2 o ltac:(lia) Ho ltac:(intros; by apply h2_ok)) as N.
    assert (0 < s (1 / 2)). { unfold s. assert (0 < (1 / 2) ^ 100) by (apply pow_lt; lra). assert ((1 / 2) ^ 100 <= 1) by (rewrite <- (pow1 100); apply pow_incr; lra). assert (0 < (1 / 2) ^ 100 * PI) by (apply Rmult_lt_0_compat; lra). assert ((1 / 2) ^ 100 * PI <= 1 * PI) by (apply Rmult_le_compat_r; lra). apply sin_gt_0; lra. }
    assert (0 < (1 + tail_sum M 10 h2 o) * (1 * 1 * s (1 / 2))) by (apply Rmult_lt_0_compat; lra). lra.
Qed.
Print Assumptions C98_dtlz4.

(** ** DTLZ5 and DTLZ6 *)
(** DTLZ5 and DTLZ6 differ in g only: [h] is 0 at [x0] alone and largest at 1. *)
Lemma dtlz56 (f : list R -> option (list R)) (M : nat) (h : R -> R) (x0 : R) : (2 <= M)%nat -> 0 <= x0 <= 1 ->
  (forall x, 0 <= x <= 1 -> 0 <= h x /\ (h x = 0 <-> x = x0)) -> computes f (dbox M 10) M (shape5 M (tail_sum M 10 h)) (tail_sum M 10 h) ->
  let o := replicate (M - 1) 0 ++ replicate 10 x0 in
  let set v := dbox M 10 v /\ forall i, (M - 1 <= i < M + 9)%nat -> entry v i = x0 in
  (forall v, set v -> pareto f (dbox M 10) v) /\
  (forall v, set v -> exists y, f v = Some y /\ length y = M /\ entry y (M - 1) = - sin (entry v 0 * PI / 2) /\
     forall k, (k < M - 1)%nat -> entry y k = cos (entry v 0 * PI / 2) * entry (DTLZ5_nadir M) k) /\
  set o /\ f o = Some (<[(M - 1)%nat := 0]> (DTLZ5_nadir M)) /\ bounded_by_ideal f (dbox M 10) (replicate M 0) /\ attained f (dbox M 10) (replicate M 0) /\ attained f (dbox M 10) (DTLZ5_nadir M) /\
  ((M <= 3)%nat -> (forall v, pareto f (dbox M 10) v <-> set v) /\ points_correct f (dbox M 10) o (<[(M - 1)%nat := 0]> (DTLZ5_nadir M)) (replicate M 0) (DTLZ5_nadir M)) /\
  (M = 4%nat -> (forall x, 0 <= x <= 1 -> h x <= h 1) -> pareto f (dbox M 10) (stray 10) /\ exists y, f (stray 10) = Some y /\ entry y 2 < entry (DTLZ5_nadir M) 2).
Proof.
  intros HM Hx0 Hh F. set (g := tail_sum M 10 h) in *. cbn zeta. set (o := replicate (M - 1) 0 ++ replicate 10 x0). pose proof PI_bounds as [HP1 HP2].
  assert (G : forall v, dbox M 10 v -> 0 <= g v) by (intros v Hv; apply tail_sum_nonneg; [lia|done|intros; by apply Hh]).
  assert (Z : forall v, dbox M 10 v -> g v = 0 <-> forall i, (M - 1 <= i < M + 9)%nat -> entry v i = x0).
  { intros v Hv. pose proof (tail_sum_zero M 10 h x0 v ltac:(lia) Hv Hh) as Z. by replace (M + 10 - 1)%nat with (M + 9)%nat in Z by lia. }
  assert (LN : length (DTLZ5_nadir M) = M) by (unfold DTLZ5_nadir; rewrite insert_length, fmap_length; apply seq_length).
  assert (EN : forall k, (k < M)%nat -> entry (DTLZ5_nadir M) k = -1 / sqrt 2 ^ (M - 1 - (if decide (k = 0%nat) then 1 else k))).
  { intros k Hk. unfold DTLZ5_nadir. set (nd := (fun i : nat => -1 / sqrt 2 ^ (M - 1 - i)) <$> seq 0 M). assert (Ln : length nd = M) by (unfold nd; rewrite fmap_length; apply seq_length).
    assert (En : forall i, (i < M)%nat -> entry nd i = -1 / sqrt 2 ^ (M - 1 - i)). { intros i Hi. unfold entry. apply nth_lookup_Some. unfold nd. rewrite list_lookup_fmap, lookup_seq_lt by done. done. }
    destruct (decide (k = 0%nat)) as [->|Hk0]; [rewrite entry_insert_eq by lia; apply En; lia|rewrite entry_insert_ne by done; by apply En]. }
  destruct half_angle as [CH SH]. assert (S2 : 0 < sqrt 2) by (apply sqrt_lt_R0; lra).
  assert (CU : forall v, dbox M 10 v -> g v = 0 -> exists y, f v = Some y /\ length y = M /\ entry y (M - 1) = - sin (entry v 0 * PI / 2) /\
     forall k, (k < M - 1)%nat -> entry y k = cos (entry v 0 * PI / 2) * entry (DTLZ5_nadir M) k).
  { intros v Hv Hg. destruct (F v Hv) as (y & Hy & Ly & Ey). exists y. split; [done|]. split; [done|].
    assert (A0 : angle 0 v 0 = entry v 0) by (unfold angle; by rewrite decide_True by done). assert (A1 : forall i, (0 < i)%nat -> angle 0 v i = 1 / 2) by (intros i Hi; unfold angle; rewrite decide_False by lia; lra).
    assert (BP : forall n, big_prod (S n) (fun i => cos (angle 0 v i * PI / 2)) = cos (entry v 0 * PI / 2) * / sqrt 2 ^ n).
    { induction n as [|n IH]; [cbn [big_prod pow]; rewrite A0, Rinv_1; lra|]. cbn [big_prod] in IH |- *. rewrite IH. rewrite A1, CH by lia. cbn [pow]. rewrite Rinv_mult by (try apply pow_nonzero; lra). lra. }
    split.
    - rewrite Ey by lia. unfold shape5, hyper. rewrite Hg, Nat.sub_diag, decide_False by lia. cbn [big_prod]. rewrite A0. lra.
    - intros k Hk. rewrite Ey, EN by lia. unfold shape5, hyper. rewrite Hg. replace (M - 1 - k)%nat with (S (M - 2 - k)) by lia. rewrite BP. destruct (decide (k = 0%nat)) as [->|Hk0].
      + replace (M - 1 - 1)%nat with (M - 2 - 0)%nat by lia. unfold Rdiv. lra.
      + rewrite A1, SH by lia. replace (M - 1 - k)%nat with (S (M - 2 - k)) by lia. cbn [pow]. unfold Rdiv. rewrite Rinv_mult by (try apply pow_nonzero; lra). lra. }
  assert (NN : forall k, (k < M)%nat -> entry (DTLZ5_nadir M) k < 0) by (intros k Hk; rewrite EN by done; unfold Rdiv; assert (0 < / sqrt 2 ^ (M - 1 - (if decide (k = 0%nat) then 1 else k))) by (apply Rinv_0_lt_compat, pow_lt; done); lra).
  assert (PO : forall v, dbox M 10 v /\ (forall i, (M - 1 <= i < M + 9)%nat -> entry v i = x0) -> pareto f (dbox M 10) v) by (intros v [Hv Ht]; apply (dtlz5_optimal f M 10 g v HM G F Hv), Z; done).
  set (cr := fun a : R => corner M 10 a a x0 0).
  assert (CR : forall a, 0 <= a <= 1 -> (dbox M 10 (cr a) /\ forall i, (M - 1 <= i < M + 9)%nat -> entry (cr a) i = x0) /\ entry (cr a) 0 = a) by (intros a Ha; unfold cr; split; [split; [apply corner_box; lra || lia|intros i Hi; apply corner_t; lia]|apply corner_x; lia]).
  assert (Eo : o = cr 0) by (unfold o, cr, corner; by rewrite Nat.sub_0_r).
  assert (Vo : f o = Some (<[(M - 1)%nat := 0]> (DTLZ5_nadir M))).
  { rewrite Eo. destruct (CR 0 ltac:(lra)) as [[B T] E0]. destruct (CU (cr 0) B ltac:(by apply Z)) as (y & Hy & Ly & E1 & E2). rewrite Hy. f_equal. apply list_eq_entries; [rewrite insert_length; lia|]. intros k Hk. rewrite E0 in *. replace (0 * PI / 2) with 0 in * by lra. rewrite cos_0, sin_0 in *. destruct (decide (k = M - 1)%nat) as [->|Hne]; [rewrite entry_insert_eq by lia; lra|rewrite entry_insert_ne by lia; rewrite E2 by lia; lra]. }
  assert (BI : bounded_by_ideal f (dbox M 10) (replicate M 0)).
  { intros v y Hv Hy. destruct (F v Hv) as (y' & Hy' & Ly & Ey). rewrite Hy in Hy'. apply (inj Some) in Hy'; subst y'. rewrite replicate_length. split; [done|]. intros k Hk. rewrite entry_replicate, Ey by done.
    destruct (shape5_facts M 10 g v HM Hv (G v Hv)) as [_ N]. pose proof (Rmult_le_pos (1 + g v) (shape5 M g v k) ltac:(specialize (G v Hv); lra) (N k Hk)). lra. }
  assert (AI : attained f (dbox M 10) (replicate M 0)).
  { intros k Hk. rewrite replicate_length in Hk. rewrite entry_replicate by done. destruct (decide (k = M - 1)%nat) as [->|Hne].
    - destruct (CR 0 ltac:(lra)) as [[B T] E0]. destruct (CU (cr 0) B ltac:(by apply Z)) as (y & Hy & Ly & E1 & E2). exists (cr 0), y. split; [by apply PO|]. split; [done|]. rewrite E1, E0. replace (0 * PI / 2) with 0 by lra. rewrite sin_0. lra.
    - destruct (CR 1 ltac:(lra)) as [[B T] E0]. destruct (CU (cr 1) B ltac:(by apply Z)) as (y & Hy & Ly & E1 & E2). exists (cr 1), y. split; [by apply PO|]. split; [done|]. rewrite E2, E0 by lia. replace (1 * PI / 2) with (PI / 2) by lra. rewrite cos_PI2. lra. }
  assert (AN : attained f (dbox M 10) (DTLZ5_nadir M)).
  { intros k Hk. rewrite LN in Hk. destruct (decide (k = M - 1)%nat) as [->|Hne].
    - destruct (CR 1 ltac:(lra)) as [[B T] E0]. destruct (CU (cr 1) B ltac:(by apply Z)) as (y & Hy & Ly & E1 & E2). exists (cr 1), y. split; [by apply PO|]. split; [done|]. rewrite E1, E0, EN by lia. replace (1 * PI / 2) with (PI / 2) by lra. rewrite sin_PI2. destruct (decide (M - 1 = 0)%nat) as [|_]; [lia|]. rewrite Nat.sub_diag. cbn [pow]. lra.
    - destruct (CR 0 ltac:(lra)) as [[B T] E0]. destruct (CU (cr 0) B ltac:(by apply Z)) as (y & Hy & Ly & E1 & E2). exists (cr 0), y. split; [by apply PO|]. split; [done|]. rewrite E2, E0 by lia. replace (0 * PI / 2) with 0 by lra. rewrite cos_0. lra. }
  split; [done|]. split; [intros v [Hv Ht]; apply CU; [done|by apply Z]|]. split; [rewrite Eo; apply CR; lra|]. split; [done|]. split; [done|]. split; [done|]. split; [done|]. split.
  - intros HM3. assert (I : forall v, pareto f (dbox M 10) v <-> dbox M 10 v /\ forall i, (M - 1 <= i < M + 9)%nat -> entry v i = x0).
    { intros v. split; [|apply PO]. intros Hp. pose proof Hp as [Hv _]. split; [done|]. apply Z; [done|]. apply (dtlz5_only f M 10 g h x0 v); try done; lia. }
    split; [done|]. split; [apply PO; rewrite Eo; apply CR; lra|]. split; [done|]. split; [done|]. split; [|done].
    intros v y Hp Hy. apply I in Hp as [Hv Ht]. rewrite LN. destruct (CU v Hv ltac:(by apply Z)) as (y' & Hy' & Ly & E1 & E2). rewrite Hy in Hy'. apply (inj Some) in Hy'; subst y'. split; [done|]. intros k Hk. destruct (decide (k = M - 1)%nat) as [->|Hne].
    + rewrite E1, EN by lia. destruct (decide (M - 1 = 0)%nat) as [|_]; [lia|]. rewrite Nat.sub_diag. cbn [pow]. pose proof (SIN_bound (entry v 0 * PI / 2)). lra.
    + rewrite E2 by lia. specialize (NN k Hk). pose proof (COS_bound (entry v 0 * PI / 2)) as [_ C1]. assert ((1 - cos (entry v 0 * PI / 2)) * - entry (DTLZ5_nadir M) k >= 0) by (apply Rle_ge, Rmult_le_pos; lra). lra.
  - intros -> Hmax. assert (Bs : dbox 4 10 (stray 10)). { apply dbox_spec. split; [done|]. intros i Hi. unfold stray, entry. do 13 (destruct i as [|i]; [cbn; lra|]). lia. }
    assert (Gs : g (stray 10) = 10 * h 1) by (unfold g, tail_sum; cbn [big_sum]; unfold entry, stray; cbn [replicate app nth Nat.sub Nat.add]; lra).
    split.
    + apply (stray_optimal f 10 g); [lia|done|]. intros w Hw. split; [by apply G|]. rewrite Gs. pose proof (big_sum_le 10 (fun i => h (entry w (4 - 1 + i))) (fun _ => h 1)) as B. rewrite big_sum_const in B. replace (INR 10) with 10 in B by (rewrite INR_IZR_INZ; done). apply B. intros i Hi. apply Hmax. apply dbox_spec in Hw as [_ Hw]. apply Hw. lia.
    + destruct (F (stray 10) Bs) as (y & Hy & Ly & Ey). exists y. split; [done|]. rewrite Ey, EN by lia. rewrite decide_False by lia. unfold shape5, hyper. rewrite decide_False by lia. cbn [Nat.sub big_prod pow]. pose proof (G (stray 10) Bs) as Gp. rewrite Gs in *. set (q := 10 * h 1) in *.
      assert (Hq : 0 < q). { destruct (Hh 1 ltac:(lra)) as [H0 H1]. destruct (Req_dec (h 1) 0) as [E|]; [|unfold q; lra]. exfalso. destruct (Hh 0 ltac:(lra)) as [H2 H3]. pose proof (Hmax 0 ltac:(lra)) as H4. assert (h 0 = 0) by lra. apply H1 in E. apply H3 in H. lra. }
      unfold angle. rewrite (decide_True (P := 0%nat = 0%nat)) by done. rewrite (decide_False (P := 1%nat = 0%nat)) by lia. replace (entry (stray 10) 0) with 0 by done. replace (entry (stray 10) 1) with 1 by done. replace (0 * PI / 2) with 0 by lra. rewrite cos_0.
      assert (S1 : sin (1 / 2 * PI / 2) <= sin ((q * 1 + 1 / 2) / (1 + q) * PI / 2)).
      { assert (D : 0 < / (1 + q)) by (apply Rinv_0_lt_compat; lra). assert (D1 : (1 + q) * / (1 + q) = 1) by (apply Rinv_r; lra). set (u := / (1 + q)) in *. assert (U : (q * 1 + 1 / 2) / (1 + q) = 1 - u / 2) by (unfold Rdiv; fold u; lra). assert (u <= 1) by nra. rewrite U. apply sin_incr_1; nra. }
      rewrite SH in S1. assert (Hs : 0 < / sqrt 2) by (by apply Rinv_0_lt_compat). set (sn := sin ((q * 1 + 1 / 2) / (1 + q) * PI / 2)) in *. assert (q * sn > 0) by (apply Rmult_lt_0_compat; lra). replace (sqrt 2 * 1) with (sqrt 2) by lra. unfold Rdiv. lra.
Qed.
Lemma dtlz5_both (M : nat) (f : list R -> nat -> option (list R)) (t : traits R) (h : R -> R) (x0 : R) : (2 <= M)%nat ->
  (f = DTLZ5 /\ t = DTLZ5_traits M /\ h = h2 /\ x0 = 1 / 2) \/ (f = DTLZ6 /\ t = DTLZ6_traits M /\ h = h6 /\ x0 = 0) ->
  0 <= x0 <= 1 /\ (forall x, 0 <= x <= 1 -> (0 <= h x /\ (h x = 0 <-> x = x0)) /\ h x <= h 1) /\
  computes (fun v => f v M) (dbox M 10) M (shape5 M (tail_sum M 10 h)) (tail_sum M 10 h) /\
  t = Traits (replicate (M + 10 - 1) 0) (replicate (M + 10 - 1) 1) (replicate (M - 1) 0 ++ replicate 10 x0) (<[(M - 1)%nat := 0]> (DTLZ5_nadir M)) (replicate M 0) (DTLZ5_nadir M).
Proof.
  intros HM [(-> & -> & -> & ->)|(-> & -> & -> & ->)].
  - split; [lra|]. split; [intros x Hx; split; [apply h2_ok|unfold h2; nra]|]. split; [|done]. apply computes_box, dtlz5_computes; [done|]. intros; apply dtlz2_g_val; lia.
  - split; [lra|]. split; [intros x Hx; split; [apply h6_ok; lra|]|].
    { unfold h6, rpow. destruct (Rlt_dec 0 1) as [_|]; [|lra]. destruct (Rlt_dec 0 x) as [Hp|_]; [|left; apply exp_pos]. destruct (proj2 Hx) as [Hlt|E1]; [|rewrite E1; right; done]. left. apply exp_increasing. assert (ln x < ln 1) by (apply ln_increasing; lra). rewrite ln_1 in *. lra. }
    split; [|unfold DTLZ6_traits, DTLZ_traits; f_equal; rewrite <- replicate_add; f_equal; lia]. apply computes_box, dtlz5_computes; [done|]. intros; apply dtlz6_g_val; lia.
Qed.

(** C98: DTLZ5 and DTLZ6: the points with the stated last variables are optimal and form the
    stated curve. *)
Theorem C98_dtlz56_partial (M : nat) (f : list R -> nat -> option (list R)) (t : traits R) (x0 : R) : (2 <= M)%nat ->
  (f = DTLZ5 /\ t = DTLZ5_traits M /\ x0 = 1 / 2) \/ (f = DTLZ6 /\ t = DTLZ6_traits M /\ x0 = 0) -> let box := in_box (lower t) (upper t) in
  let set v := box v /\ forall i, (M - 1 <= i < M + 9)%nat -> entry v i = x0 in
  (forall v, set v -> pareto (fun v => f v M) box v) /\
  (forall v, set v -> exists y, f v M = Some y /\ length y = M /\ entry y (M - 1) = - sin (entry v 0 * PI / 2) /\
     forall k, (k < M - 1)%nat -> entry y k = - (cos (entry v 0 * PI / 2) / sqrt 2 ^ (M - 1 - (if decide (k = 0%nat) then 1 else k)))) /\
  set (optimum t) /\ f (optimum t) M = Some (optimal_value t) /\
  bounded_by_ideal (fun v => f v M) box (ideal_pt t) /\ attained (fun v => f v M) box (ideal_pt t) /\ attained (fun v => f v M) box (nadir_pt t) /\
  ((M <= 3)%nat -> (forall v, pareto (fun v => f v M) box v <-> set v) /\ points_correct (fun v => f v M) box (optimum t) (optimal_value t) (ideal_pt t) (nadir_pt t)).
Proof.
  intros HM Hf. cbn zeta. assert (X : exists h, (f = DTLZ5 /\ t = DTLZ5_traits M /\ h = h2 /\ x0 = 1 / 2) \/ (f = DTLZ6 /\ t = DTLZ6_traits M /\ h = h6 /\ x0 = 0)) by (destruct Hf as [(? & ? & ?)|(? & ? & ?)]; eauto 10).
  destruct X as [h X]. destruct (dtlz5_both M f t h x0 HM X) as (H0 & Hh & F & ->). cbn [lower upper optimum optimal_value ideal_pt nadir_pt]. fold (dbox M 10).
  destruct (dtlz56 (fun v => f v M) M h x0 HM H0 (fun x Hx => proj1 (Hh x Hx)) F) as (P1 & P2 & P3 & P4 & P5 & P6 & P7 & P8 & _).
  split; [done|]. split; [|split; [done|split; [done|split; [done|split; [done|split; [done|done]]]]]].
  intros v Hv. destruct (P2 v Hv) as (y & Hy & Ly & E1 & E2). exists y. split; [done|]. split; [done|]. split; [done|]. intros k Hk. rewrite E2 by done. unfold DTLZ5_nadir.
  set (nd := (fun i : nat => -1 / sqrt 2 ^ (M - 1 - i)) <$> seq 0 M). assert (Ln : length nd = M) by (unfold nd; rewrite fmap_length; apply seq_length).
  assert (En : forall i, (i < M)%nat -> entry nd i = -1 / sqrt 2 ^ (M - 1 - i)). { intros i Hi. unfold entry. apply nth_lookup_Some. unfold nd. rewrite list_lookup_fmap, lookup_seq_lt by done. done. }
  destruct (decide (k = 0%nat)) as [->|Hk0]; [rewrite entry_insert_eq by lia; change (nd.[1]) with (entry nd 1); rewrite En by lia; unfold Rdiv; lra|rewrite entry_insert_ne by done; rewrite En by lia; unfold Rdiv; lra].
Qed.
Print Assumptions C98_dtlz56_partial.
(** C98: with 4 objectives there are more optimal points, with values below the nadir point. *)
Theorem C98_dtlz56_refuted (f : list R -> nat -> option (list R)) (t : traits R) (x0 : R) :
  (f = DTLZ5 /\ t = DTLZ5_traits 4 /\ x0 = 1 / 2) \/ (f = DTLZ6 /\ t = DTLZ6_traits 4 /\ x0 = 0) -> let box := in_box (lower t) (upper t) in
  exists v y, pareto (fun v => f v 4%nat) box v /\ f v 4%nat = Some y /\ (forall i, (3 <= i < 13)%nat -> entry v i <> x0) /\ entry y 2 < entry (nadir_pt t) 2.
Proof.
  intros Hf. cbn zeta. assert (X : exists h, (f = DTLZ5 /\ t = DTLZ5_traits 4 /\ h = h2 /\ x0 = 1 / 2) \/ (f = DTLZ6 /\ t = DTLZ6_traits 4 /\ h = h6 /\ x0 = 0)) by (destruct Hf as [(? & ? & ?)|(? & ? & ?)]; eauto 10).
  destruct X as [h X]. destruct (dtlz5_both 4 f t h x0 ltac:(lia) X) as (H0 & Hh & F & ->). cbn [lower upper optimum optimal_value ideal_pt nadir_pt]. fold (dbox 4 10).
  destruct (dtlz56 (fun v => f v 4%nat) 4 h x0 ltac:(lia) H0 (fun x Hx => proj1 (Hh x Hx)) F) as (_ & _ & _ & _ & _ & _ & _ & _ & P).
  destruct (P eq_refl (fun x Hx => proj2 (Hh x Hx))) as (P1 & y & Hy & Hn). exists (stray 10), y. split; [done|]. split; [done|]. split; [|done]. intros i Hi.
  replace (entry (stray 10) i) with 1; [destruct Hf as [(_ & _ & ->)|(_ & _ & ->)]; lra|]. unfold stray, entry. do 13 (destruct i as [|i]; [first [lia|done]|]). lia.
Qed.
Print Assumptions C98_dtlz56_refuted.

(** ** DTLZ7 *)
(** C98: DTLZ7: a point is optimal when the last variables are 0 and no smaller value of a first
    variable gives x (1 + sin (3 pi x)) as large. *)
Theorem C98_dtlz7_partial (M : nat) : (2 <= M)%nat -> let t := DTLZ7_traits M in let f v := DTLZ7 v M in let box := in_box (lower t) (upper t) in let q x := x * (1 + sin (3 * PI * x)) in
  (forall v, pareto f box v <-> box v /\ (forall i, (M - 1 <= i < M + 19)%nat -> entry v i = 0) /\ forall i x, (i < M - 1)%nat -> 0 <= x < entry v i -> q x < q (entry v i)) /\
  pareto f box (optimum t) /\ f (optimum t) = Some (optimal_value t) /\ bounded_by_ideal f box (ideal_pt t) /\ bounded_by_nadir f box (nadir_pt t) /\
  (exists v y, box v /\ f v = Some y /\ entry (ideal_pt t) (M - 1) - INR (M - 1) / 1000000 <= entry y (M - 1)).
Proof.
  intros HM. cbn zeta. cbn [DTLZ7_traits DTLZ_traits lower upper optimum optimal_value ideal_pt nadir_pt]. fold (dbox M 20). change (fun x : R => x * (1 + sin (3 * PI * x))) with q7.
  assert (V : forall v, dbox M 20 v -> exists y, DTLZ7 v M = Some y /\ length y = M /\ (forall k, (k < M - 1)%nat -> entry y k = - entry v k) /\ entry y (M - 1) = - ((1 + g7 M 20 v) * INR M - big_sum (M - 1) (fun i => q7 (entry v i)))).
  { intros v Hv. apply dtlz7_value; [done|lia|by apply dbox_spec|]. destruct (g7_ok M 20 v HM ltac:(lia) Hv). lra. }
  assert (G : forall v, dbox M 20 v -> 1 <= g7 M 20 v /\ (g7 M 20 v = 1 <-> forall i, (M - 1 <= i < M + 19)%nat -> entry v i = 0)) by (intros v Hv; pose proof (g7_ok M 20 v HM ltac:(lia) Hv) as G; by replace (M + 20 - 1)%nat with (M + 19)%nat in G by lia).
  assert (IM : 2 <= INR M) by (rewrite <- (INR_IZR_INZ 2) || (change 2 with (INR 2)); apply le_INR; done). assert (IM1 : INR (M - 1) = INR M - 1) by (rewrite minus_INR by lia; done).
  assert (I : forall v, pareto (fun v => DTLZ7 v M) (dbox M 20) v <-> dbox M 20 v /\ (forall i, (M - 1 <= i < M + 19)%nat -> entry v i = 0) /\ forall i x, (i < M - 1)%nat -> 0 <= x < entry v i -> q7 x < q7 (entry v i)).
  { intros v. split.
    - intros (Hv & y & Hy & Hd). destruct (V v Hv) as (y' & Hy' & Ly & E1 & E2). rewrite Hy in Hy'. apply (inj Some) in Hy'; subst y'. split; [done|]. destruct (G v Hv) as [G1 G2]. pose proof Hv as Hv'. apply dbox_spec in Hv' as [Lv Bv]. split.
      + apply G2. destruct (Req_dec (g7 M 20 v) 1) as [|Hne]; [done|]. exfalso. set (w := retail M 20 0 v). assert (Hw : dbox M 20 w) by (apply retail_box; [lia|done|lra]).
        assert (Gw : g7 M 20 w = 1) by (apply G; [done|]; intros i Hi; apply retail_rest; [lia|done|lia]). assert (Fw : forall i, (i < M - 1)%nat -> entry w i = entry v i) by (intros i Hi; apply retail_first; [done|done]).
        destruct (V w Hw) as (z & Hz & Lz & F1 & F2). apply (Hd w z Hw Hz). rewrite (big_sum_ext _ _ (fun i => q7 (entry v i))) in F2 by (intros i Hi; by rewrite Fw). assert (0 < (g7 M 20 v - 1) * INR M) by (apply Rmult_lt_0_compat; lra).
        split; [lia|]. rewrite Ly. split; [|exists (M - 1)%nat; split; [lia|]; rewrite E2, F2, Gw; lra]. intros k Hk. destruct (decide (k = M - 1)%nat) as [->|Hn]; [rewrite E2, F2, Gw; lra|]. rewrite E1, F1, Fw by lia. lra.
      + intros i x Hi Hx. apply Rnot_le_lt. intros Hq. set (w := <[i := x]> v). assert (Wi : entry w i = x) by (apply entry_insert_eq; lia). assert (Wj : forall j, j <> i -> entry w j = entry v j) by (intros j Hj; by apply entry_insert_ne).
        assert (Hw : dbox M 20 w). { apply dbox_spec. unfold w at 1. rewrite insert_length. split; [done|]. intros j Hj. destruct (decide (j = i)) as [->|Hn]; [rewrite Wi; specialize (Bv i ltac:(lia)); lra|rewrite Wj by done; by apply Bv]. }
        assert (Gw : g7 M 20 w = g7 M 20 v) by (unfold g7; do 2 f_equal; apply big_sum_ext; intros j Hj; apply Wj; lia). destruct (V w Hw) as (z & Hz & Lz & F1 & F2). apply (Hd w z Hw Hz).
        assert (S : big_sum (M - 1) (fun j => q7 (entry v j)) <= big_sum (M - 1) (fun j => q7 (entry w j))) by (apply big_sum_le; intros j Hj; destruct (decide (j = i)) as [->|Hn]; [by rewrite Wi|rewrite Wj by done; lra]).
        split; [lia|]. rewrite Ly. split; [|exists i; split; [lia|]; rewrite E1, F1, Wi by lia; lra]. intros k Hk. destruct (decide (k = M - 1)%nat) as [->|Hn]; [rewrite E2, F2, Gw; lra|]. rewrite E1, F1 by lia. destruct (decide (k = i)) as [->|Hn']; [rewrite Wi; lra|rewrite Wj by done; lra].
    - intros (Hv & Ht & Hq). split; [done|]. destruct (V v Hv) as (y & Hy & Ly & E1 & E2). exists y. split; [done|]. intros w z Hw Hz (_ & Hb & k & Hk & Hbk). destruct (V w Hw) as (z' & Hz' & Lz & F1 & F2). rewrite Hz in Hz'. apply (inj Some) in Hz'; subst z'. rewrite Ly in *.
      assert (Gv : g7 M 20 v = 1) by (by apply G). destruct (G w Hw) as [Gw _]. rewrite Gv in E2. apply dbox_spec in Hw as [Lw Bw]. apply dbox_spec in Hv as [Lv Bv].
      assert (D : forall i, (i < M - 1)%nat -> entry w i <= entry v i) by (intros i Hi; specialize (Hb i ltac:(lia)); rewrite E1, F1 in Hb by done; lra).
      assert (Q : forall i, (i < M - 1)%nat -> q7 (entry w i) <= q7 (entry v i)). { intros i Hi. destruct (D i Hi) as [Hlt|Heq]; [left; apply Hq; [done|]; split; [apply Bw; lia|done]|rewrite Heq; lra]. }
      pose proof (big_sum_le (M - 1) _ _ Q) as S. assert (GM : 0 <= (g7 M 20 w - 1) * INR M) by (apply Rmult_le_pos; lra). pose proof (Hb (M - 1)%nat ltac:(lia)) as HL. rewrite E2, F2 in HL.
      destruct (decide (k = M - 1)%nat) as [->|Hn]; [rewrite E2, F2 in Hbk; lra|]. rewrite E1, F1 in Hbk by lia.
      assert (S' : big_sum (M - 1) (fun i => q7 (entry w i)) < big_sum (M - 1) (fun i => q7 (entry v i))); [|lra]. apply big_sum_lt with (j := k); [done|lia|]. apply Hq; [lia|]. split; [apply Bw; lia|lra]. }
  assert (Ho : dbox M 20 (replicate (M + 20 - 1) 0)) by (apply dbox_spec; rewrite replicate_length; split; [done|]; intros i Hi; rewrite entry_replicate by done; lra).
  split; [done|]. split; [|split; [|split; [|split]]].
  - apply I. split; [done|]. split; [intros i Hi; apply entry_replicate; lia|]. intros i x Hi. rewrite entry_replicate by lia. lra.
  - destruct (V _ Ho) as (y & Hy & Ly & E1 & E2). rewrite Hy. f_equal. assert (g7 M 20 (replicate (M + 20 - 1) 0) = 1) as Hg by (apply G; [done|]; intros i Hi; apply entry_replicate; lia). rewrite Hg in E2.
    rewrite (big_sum_ext _ _ (fun _ => 0)), big_sum_const in E2 by (intros i Hi; rewrite entry_replicate by lia; unfold q7; lra). apply list_eq_entries; [by rewrite insert_length, replicate_length|]. intros k Hk. rewrite Ly in Hk. rewrite entry_unit by lia. destruct (decide (k = M - 1)%nat) as [->|Hn]; [rewrite E2; lra|]. rewrite E1, entry_replicate by lia. lra.
  - intros v y Hv Hy. destruct (V v Hv) as (y' & Hy' & Ly & E1 & E2). rewrite Hy in Hy'. apply (inj Some) in Hy'; subst y'. rewrite insert_length, replicate_length. split; [done|]. intros k Hk. rewrite entry_unit by lia. destruct (G v Hv) as [Gv _]. pose proof Hv as Hv'. apply dbox_spec in Hv' as [Lv Bv]. destruct (decide (k = M - 1)%nat) as [->|Hn]; [|rewrite E1 by lia; specialize (Bv k ltac:(lia)); lra].
    rewrite E2. pose proof (big_sum_le (M - 1) (fun i => q7 (entry v i)) (fun _ => 1692996 / 1000000)) as S. rewrite big_sum_const, IM1 in S. specialize (S ltac:(intros i Hi; left; apply q7_high, Bv; lia)). assert (0 <= (g7 M 20 v - 1) * INR M) by (apply Rmult_le_pos; lra). lra.
  - intros v y Hp Hy. apply I in Hp as (Hv & Ht & _). destruct (V v Hv) as (y' & Hy' & Ly & E1 & E2). rewrite Hy in Hy'. apply (inj Some) in Hy'; subst y'. rewrite insert_length, replicate_length. split; [done|]. intros k Hk. assert (Gv : g7 M 20 v = 1) by (by apply G). pose proof Hv as Hv'. apply dbox_spec in Hv' as [Lv Bv]. destruct (decide (k = M - 1)%nat) as [->|Hn].
    + rewrite entry_insert_eq by (rewrite replicate_length; lia). rewrite E2, Gv. pose proof (big_sum_nonneg (M - 1) (fun i => q7 (entry v i)) ltac:(intros i Hi; apply q7_nonneg, Bv; lia)). lra.
    + rewrite entry_insert_ne by lia. rewrite entry_replicate, E1 by lia. specialize (Bv k ltac:(lia)). lra.
  - set (p := corner M 20 (8594 / 10000) 0 0 0). assert (Hp : dbox M 20 p) by (apply corner_box; lra || lia). destruct (V p Hp) as (y & Hy & Ly & E1 & E2). exists p, y. split; [done|]. split; [done|]. rewrite entry_unit, decide_True by lia. rewrite E2.
    assert (Gp : g7 M 20 p = 1) by (apply G; [done|]; intros i Hi; apply corner_t; lia). rewrite Gp. rewrite (big_sum_ext _ _ (fun _ => q7 (8594 / 10000))), big_sum_const, IM1 by (intros i Hi; unfold p; rewrite corner_x by lia; done). pose proof q7_near as N. assert ((INR M - 1) * (1692995 / 1000000) <= (INR M - 1) * q7 (8594 / 10000)) by (apply Rmult_le_compat_l; lra). lra.
Qed.
Print Assumptions C98_dtlz7_partial.
(** C98: the optimal points are not all the points with the last variables 0, and neither the
    ideal nor the nadir point is attained. *)
Theorem C98_dtlz7_refuted (M : nat) : (2 <= M)%nat -> let t := DTLZ7_traits M in let f v := DTLZ7 v M in let box := in_box (lower t) (upper t) in
  (exists v, box v /\ (forall i, (M - 1 <= i < M + 19)%nat -> entry v i = 0) /\ ~ pareto f box v) /\
  (forall v y, box v -> f v = Some y -> entry y (M - 1) < entry (ideal_pt t) (M - 1)) /\ ~ attained f box (ideal_pt t) /\ ~ attained f box (nadir_pt t).
Proof.
  intros HM. destruct (C98_dtlz7_partial M HM) as (I & _ & _ & B & _). revert I B. cbn zeta. cbn [DTLZ7_traits DTLZ_traits lower upper optimum optimal_value ideal_pt nadir_pt]. fold (dbox M 20). intros I B.
  assert (IM1 : INR (M - 1) = INR M - 1) by (rewrite minus_INR by lia; done). assert (IM : 0 < INR M - 1) by (rewrite <- IM1; apply lt_0_INR; lia).
  assert (Hb : forall v y, dbox M 20 v -> DTLZ7 v M = Some y -> entry y (M - 1) < - (307004 / 1000000) * INR M - 1692996 / 1000000).
  { intros v y Hv Hy. destruct (g7_ok M 20 v HM ltac:(lia) Hv) as [Gv _]. destruct (dtlz7_value M 20 v HM ltac:(lia)) as (y' & Hy' & Ly & E1 & E2); [by apply dbox_spec|lra|]. rewrite Hy in Hy'. apply (inj Some) in Hy'; subst y'. apply dbox_spec in Hv as [Lv Bv].
    assert (S : big_sum (M - 1) (fun i => q7 (entry v i)) < big_sum (M - 1) (fun _ => 1692996 / 1000000)) by (apply big_sum_lt with (j := 0%nat); [intros i Hi; left; apply q7_high, Bv; lia|lia|apply q7_high, Bv; lia]). rewrite big_sum_const, IM1 in S. rewrite E2. assert (0 <= (g7 M 20 v - 1) * INR M) by (apply Rmult_le_pos; lra). lra. }
  split; [|split; [|split]].
  - exists (corner M 20 (1 / 2) 0 0 0). split; [apply corner_box; lra || lia|]. split; [intros i Hi; apply corner_t; lia|]. intros Hp. apply I in Hp as (_ & _ & H). specialize (H 0%nat 0 ltac:(lia)). rewrite corner_x in H by lia. specialize (H ltac:(lra)).
    replace (3 * PI * (1 / 2)) with (3 * (PI / 2)) in H by lra. rewrite sin_3PI2 in H. lra.
  - intros v y Hv Hy. rewrite entry_unit, decide_True by lia. by apply (Hb v).
  - intros A. destruct (A (M - 1)%nat) as (v & y & Hp & Hy & E); [rewrite insert_length, replicate_length; lia|]. rewrite entry_unit, decide_True in E by lia. pose proof (Hb v y (proj1 Hp) Hy). lra.
  - intros A. destruct (A 0%nat) as (v & y & Hp & Hy & E); [rewrite insert_length, replicate_length; lia|]. rewrite entry_insert_ne in E by lia. rewrite entry_replicate in E by lia. apply I in Hp as (Hv & _ & H).
    destruct (g7_ok M 20 v HM ltac:(lia) Hv) as [Gv _]. destruct (dtlz7_value M 20 v HM ltac:(lia)) as (y' & Hy' & Ly & E1 & E2); [by apply dbox_spec|lra|]. rewrite Hy in Hy'. apply (inj Some) in Hy'; subst y'. rewrite E1 in E by lia.
    specialize (H 0%nat (8594 / 10000) ltac:(lia)). replace (entry v 0) with 1 in H by lra. specialize (H ltac:(lra)). pose proof q7_near as N. unfold q7 in N.
    replace (3 * PI * 1) with (PI + 2 * INR 1 * PI) in H by (cbn [INR]; lra). rewrite sin_period, sin_PI in H. lra.
Qed.
Print Assumptions C98_dtlz7_refuted.

Example C98_nonvacuous :
  (exists v, in_box (lower (DTLZ1_traits 3)) (upper (DTLZ1_traits 3)) v /\ ~ pareto (fun v => DTLZ1 v 3) (in_box (lower (DTLZ1_traits 3)) (upper (DTLZ1_traits 3))) v) /\
  (exists v, pareto (fun v => DTLZ2 v 4) (in_box (lower (DTLZ2_traits 4)) (upper (DTLZ2_traits 4))) v) /\
  (exists v, in_box (lower (DTLZ5_traits 3)) (upper (DTLZ5_traits 3)) v /\ ~ pareto (fun v => DTLZ5 v 3) (in_box (lower (DTLZ5_traits 3)) (upper (DTLZ5_traits 3))) v) /\
  DTLZ1 [1 / 4; 1 / 2; 1 / 2; 1 / 2; 1 / 2; 1 / 2] 2 = Some [- (1 / 8); - (3 / 8)].
Proof.
  split; [|split; [|split]].
  - exists (replicate 7 0). assert (B : in_box (lower (DTLZ1_traits 3)) (upper (DTLZ1_traits 3)) (replicate 7 0)) by (apply (dbox_spec 3 5); split; [done|]; intros i Hi; rewrite entry_replicate by lia; lra).
    split; [done|]. intros Hp. destruct (C98_dtlz1 3 ltac:(lia)) as (I & _). apply I in Hp as [_ H]. specialize (H 2%nat ltac:(lia)). unfold entry in H. cbn in H. lra.
  - destruct (C98_dtlz23 4 DTLZ2 ltac:(lia) (or_introl eq_refl)) as (_ & _ & (P & _) & _). by eexists.
  - exists (replicate 12 0). assert (B : in_box (lower (DTLZ5_traits 3)) (upper (DTLZ5_traits 3)) (replicate 12 0)) by (apply (dbox_spec 3 10); split; [done|]; intros i Hi; rewrite entry_replicate by lia; lra).
    split; [done|]. intros Hp. destruct (C98_dtlz56_partial 3 DTLZ5 (DTLZ5_traits 3) (1 / 2) ltac:(lia) (or_introl (conj eq_refl (conj eq_refl eq_refl)))) as (_ & _ & _ & _ & _ & _ & _ & I). destruct (I ltac:(lia)) as [J _]. apply J in Hp as [_ H]. specialize (H 2%nat ltac:(lia)). unfold entry in H. cbn in H. lra.
  - destruct (C98_formulas 2 5 [1 / 4; 1 / 2; 1 / 2; 1 / 2; 1 / 2; 1 / 2] ltac:(lia) ltac:(lia) eq_refl) as ((y & Hy & Ly & Ey) & _). rewrite Hy. f_equal. apply list_eq_entries; [done|]. intros k Hk. rewrite Ly in Hk. rewrite Ey by done.
    cbn [big_sum big_prod Nat.sub Nat.add]. unfold entry. cbn [nth]. replace (20 * PI * (1 / 2 - 1 / 2)) with 0 by lra. rewrite cos_0. replace (INR 5) with 5 by (rewrite INR_IZR_INZ; done).
    destruct k as [|[|k]]; [| |lia]; cbn [Nat.sub big_prod nth]; [rewrite decide_True by done|rewrite decide_False by done]; lra.
Qed.

(** All of them are evaluated on the unit hypercube, with 5, 10 or 20 variables more than
    objectives but one. *)
Theorem C98_boxes (M : nat) (v : list R) : let box (t : traits R) := in_box (lower t) (upper t) v in let within (n : nat) := length v = n /\ forall i, (i < n)%nat -> 0 <= entry v i <= 1 in
  (box (DTLZ1_traits M) <-> within (M + 4)%nat) /\ (box (DTLZ2_traits M) <-> within (M + 9)%nat) /\ (box (DTLZ3_traits M) <-> within (M + 9)%nat) /\ (box (DTLZ4_traits M) <-> within (M + 9)%nat) /\
  (box (DTLZ5_traits M) <-> within (M + 9)%nat) /\ (box (DTLZ6_traits M) <-> within (M + 9)%nat) /\ (box (DTLZ7_traits M) <-> within (M + 19)%nat).
Proof.
  assert (H : forall n k, n = k -> in_box (replicate n 0) (replicate n 1) v <-> length v = k /\ forall i, (i < k)%nat -> 0 <= entry v i <= 1).
  { intros n k ->. rewrite in_box_uniform. split; intros [H1 H2]; (split; [done|]); intros i Hi; apply H2; lia. }
  cbn zeta. split; [apply H; lia|]. split; [apply H; lia|]. split; [apply H; lia|]. split; [apply H; lia|]. split; [apply H; lia|]. split; apply H; lia.
Qed.
Print Assumptions C98_boxes.
