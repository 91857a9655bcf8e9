(** C97: the functions with two objectives: Kursawe and ZDT1 to ZDT6. *)
From stdpp Require Import list list_numbers.
From Coq Require Import Reals Lra Lia.
From Verif Require Import ProblemModel ProblemSpec ProblemProofs ProblemMultiProofs.
Local Open Scope R_scope.

(** C97: the formulas of the literature. *)
Theorem C97_formulas (v : list R) : let d := length v in let x := entry v in (2 <= d)%nat ->
  Kursawe v = Some [big_sum (d - 1) (fun i => 10 * exp (- (2 / 10) * sqrt (x i ^ 2 + x (i + 1)%nat ^ 2))); - big_sum d (fun i => rpow (Rabs (x i)) (8 / 10) + 5 * sin (x i ^ 3))] /\
  ((forall i, (i < d)%nat -> 0 <= x i <= 1) ->
    let g := 1 + 9 / INR (d - 1) * big_sum (d - 1) (fun i => x (i + 1)%nat) in
    ZDT1 v = Some [- x 0%nat; - (g * (1 - sqrt (x 0%nat / g)))] /\
    ZDT2 v = Some [- x 0%nat; - (g * (1 - (x 0%nat / g) ^ 2))] /\
    ZDT3 v = Some [- x 0%nat; - (g * (1 - sqrt (x 0%nat / g) - x 0%nat / g * sin (10 * PI * x 0%nat)))] /\
    let f1 := 1 - exp (- 4 * x 0%nat) * sin (6 * PI * x 0%nat) ^ 6 in
    let g6 := 1 + 9 * rpow (big_sum (d - 1) (fun i => x (i + 1)%nat) / INR (d - 1)) (1 / 4) in
    ZDT6 v = Some [- f1; - (g6 * (1 - (f1 / g6) ^ 2))]) /\
  (let g4 := 1 + 10 * INR (d - 1) + big_sum (d - 1) (fun i => x (i + 1)%nat ^ 2 - 10 * cos (4 * PI * x (i + 1)%nat)) in
    ZDT4 v = Some [- x 0%nat; - (g4 * (1 - sqrt (x 0%nat / g4)))]).
Proof.
  cbn zeta. intros Hd. split; [|split].
  - unfold Kursawe. rewrite decide_True by done. unfold for_to.
    rewrite (foldl_pair (fun f1 i => f1 - 10 * exp (- (2 / 10) * sqrt (v.[i] ^ 2 + v.[i + 1] ^ 2))) (fun f2 i => f2 + (rpow (Rabs v.[i]) (8 / 10) + 5 * sin (cube v.[i])))).
    fold (for_to (length v - 1) (fun i f1 => f1 - 10 * exp (- (2 / 10) * sqrt (v.[i] ^ 2 + v.[i + 1] ^ 2))) 0). fold (for_to (length v - 1) (fun i f2 => f2 + (rpow (Rabs v.[i]) (8 / 10) + 5 * sin (cube v.[i]))) 0).
    rewrite (for_to_add _ (fun i => - (10 * exp (- (2 / 10) * sqrt (v.[i] ^ 2 + v.[i + 1] ^ 2))))) by (intros; lra). rewrite big_sum_opp.
    rewrite (for_to_add _ (fun i => rpow (Rabs v.[i]) (8 / 10) + 5 * sin (cube v.[i]))) by done.
    f_equal. f_equal; [unfold entry; lra|]. f_equal. rewrite (big_sum_last (length v)) by lia. unfold entry, cube. lra.
  - intros Hx. assert (HB : in_box (replicate (length v) 0) (replicate (length v) 1) v) by (apply in_box_uniform; done).
    destruct (zdt_g_ok _ v Hd HB) as [Hg _]. pose proof (zdt_g_rest v Hd) as Eg. unfold ZDT1, ZDT2, ZDT3, ZDT6. rewrite !decide_True by done. cbn zeta. rewrite Eg. fold (zdt_g v). set (g := zdt_g v) in *.
    change (v.[0]) with (entry v 0). set (x0 := entry v 0). repeat split.
    + f_equal. f_equal. f_equal. lra.
    + f_equal. f_equal. f_equal. field. lra.
    + f_equal. f_equal. f_equal. field. lra.
    + rewrite reduce_rest, minus1 by lia. set (g6 := 1 + 9 * rpow _ _). assert (0 < g6). { unfold g6, rpow. destruct (Rlt_dec _ _); [|lra]. pose proof (exp_pos (1 / 4 * ln (big_sum (length v - 1) (fun i => entry v (i + 1)) / INR (length v - 1)))). unfold Rpower. lra. }
      f_equal. f_equal. f_equal. field. lra.
  - unfold ZDT4. rewrite decide_True by done. cbn zeta. rewrite reduce_rest_map, minus1 by lia. f_equal. f_equal. f_equal. unfold entry. lra.
Qed.
Print Assumptions C97_formulas.

(** C97: the optimal points are those whose variables but the first are zero, and the stated
    points are correct. *)
Theorem C97_zdt1 (n : nat) : (2 <= n)%nat -> let t := ZDT1_traits n in let box := in_box (lower t) (upper t) in
  (forall v, pareto ZDT1 box v <-> box v /\ forall i, (1 <= i < n)%nat -> entry v i = 0) /\
  points_correct ZDT1 box (optimum t) (optimal_value t) (ideal_pt t) (nadir_pt t).
Proof.
  intros Hn. cbn zeta. cbn [ZDT1_traits ZDT_traits lower upper optimum optimal_value ideal_pt nadir_pt]. set (box := in_box _ _).
  assert (F : forall v, box v -> ZDT1 v = Some [- entry v 0; - (zdt_g v - zdt_g v * sqrt (entry v 0 / zdt_g v))]).
  { intros v Hv. apply in_box_uniform in Hv as [Hl Hv]. destruct (C97_formulas v ltac:(lia)) as (_ & H & _). destruct (H ltac:(intros; apply Hv; lia)) as [-> _]. fold (zdt_g v). do 3 f_equal. lra. }
  assert (A : forall v, box v -> 0 <= entry v 0 <= 1) by (intros v Hv; apply in_box_uniform in Hv as [_ Hv]; apply Hv; lia).
  assert (G : forall v, box v -> 1 <= zdt_g v /\ (zdt_g v = 1 <-> rest_zero v)) by (intros v Hv; by apply (zdt_g_ok n)).
  assert (P : forall v, pareto ZDT1 box v <-> box v /\ rest_zero v).
  { apply (front_decreasing _ _ _ (fun v => entry v 0) (fun v => zdt_g v - zdt_g v * sqrt (entry v 0 / zdt_g v)) (fun a => 1 - sqrt a)); [done| | | |].
    - intros v Hv. apply convex_front; [by apply A|by apply G].
    - intros v Hv. destruct (G v Hv) as [G1 <-]. symmetry. apply convex_front; [by apply A|done].
    - intros v Hv. exists (first_only n (entry v 0)). split; [apply first_only_box; [lia|by apply A]|]. split; [apply first_only_zero; lia|done].
    - intros v w Hv Hw Hlt. assert (sqrt (entry w 0) < sqrt (entry v 0)); [|lra]. apply sqrt_lt_1_alt. split; [apply (A w Hw)|done]. }
  assert (E : forall v, box v -> rest_zero v -> ZDT1 v = Some [- entry v 0; - (1 - sqrt (entry v 0))]).
  { intros v Hv Hr. rewrite (F v Hv). destruct (G v Hv) as [_ G2]. rewrite (proj2 G2 Hr). do 3 f_equal. rewrite Rdiv_1_r || unfold Rdiv. replace (entry v 0 * / 1) with (entry v 0) by lra. lra. }
  split.
  { intros v. rewrite P. split; intros [H1 H2]; (split; [done|]); apply in_box_uniform in H1 as [Hl _]; [intros i Hi; apply H2; lia|intros i Hi; apply H2; lia]. }
  assert (B : forall x, 0 <= x <= 1 -> pareto ZDT1 box (first_only n x) /\ ZDT1 (first_only n x) = Some [- x; - (1 - sqrt x)]).
  { intros x Hx. assert (Hb : box (first_only n x)) by (apply first_only_box; [lia|done]). assert (Hz : rest_zero (first_only n x)) by (apply first_only_zero; lia). split; [by apply P|]. by rewrite (E _ Hb Hz). }
  assert (B0 : ZDT1 (first_only n 0) = Some [0; -1]) by (rewrite (proj2 (B 0 ltac:(lra))), sqrt_0; do 2 f_equal; [lra|f_equal; lra]).
  assert (B1 : ZDT1 (first_only n 1) = Some [-1; 0]) by (rewrite (proj2 (B 1 ltac:(lra))), sqrt_1; do 2 f_equal; f_equal; lra).
  rewrite replicate_first_only by lia. apply (points2 _ _ _ _ (first_only n 0) (first_only n 1) 0 (-1) (-1) 0); [apply B; lra|done|apply B; lra|done|apply B; lra|done| |].
  - intros v Hv. eexists _, _. split; [by apply F|]. pose proof (A v Hv). destruct (G v Hv) as [G1 _]. pose proof (proj1 (convex_front (entry v 0) (zdt_g v) ltac:(lra) G1)). pose proof (sqrt_le1 (entry v 0) ltac:(lra)). lra.
  - intros v Hv. apply P in Hv as [Hb Hr]. eexists _, _. split; [by apply E|]. pose proof (A v Hb). pose proof (sqrt_pos (entry v 0)). lra.
Qed.
Print Assumptions C97_zdt1.
Theorem C97_zdt2 (n : nat) : (2 <= n)%nat -> let t := ZDT2_traits n in let box := in_box (lower t) (upper t) in
  (forall v, pareto ZDT2 box v <-> box v /\ forall i, (1 <= i < n)%nat -> entry v i = 0) /\
  points_correct ZDT2 box (optimum t) (optimal_value t) (ideal_pt t) (nadir_pt t).
Proof.
  intros Hn. cbn zeta. cbn [ZDT2_traits ZDT_traits lower upper optimum optimal_value ideal_pt nadir_pt]. set (box := in_box _ _).
  assert (F : forall v, box v -> ZDT2 v = Some [- entry v 0; - (zdt_g v - entry v 0 * entry v 0 / zdt_g v)]).
  { intros v Hv. apply in_box_uniform in Hv as [Hl Hv]. destruct (C97_formulas v ltac:(lia)) as (_ & H & _). destruct (zdt_g_ok n v Hn ltac:(by apply in_box_uniform)) as [G1 _]. destruct (H ltac:(intros; apply Hv; lia)) as (_ & -> & _). fold (zdt_g v). do 3 f_equal. field. lra. }
  assert (A : forall v, box v -> 0 <= entry v 0 <= 1) by (intros v Hv; apply in_box_uniform in Hv as [_ Hv]; apply Hv; lia).
  assert (G : forall v, box v -> 1 <= zdt_g v /\ (zdt_g v = 1 <-> rest_zero v)) by (intros v Hv; by apply (zdt_g_ok n)).
  assert (P : forall v, pareto ZDT2 box v <-> box v /\ rest_zero v).
  { apply (front_decreasing _ _ _ (fun v => entry v 0) (fun v => zdt_g v - entry v 0 * entry v 0 / zdt_g v) (fun a => 1 - a * a)); [done| | | |].
    - intros v Hv. apply concave_front; [apply (A v Hv)|by apply G].
    - intros v Hv. destruct (G v Hv) as [G1 <-]. symmetry. apply concave_front; [apply (A v Hv)|done].
    - intros v Hv. exists (first_only n (entry v 0)). split; [apply first_only_box; [lia|by apply A]|]. split; [apply first_only_zero; lia|done].
    - intros v w Hv Hw Hlt. pose proof (A w Hw). assert (entry w 0 * entry w 0 < entry v 0 * entry v 0); [|lra]. apply Rmult_le_0_lt_compat; lra. }
  assert (E : forall v, box v -> rest_zero v -> ZDT2 v = Some [- entry v 0; - (1 - entry v 0 * entry v 0)]).
  { intros v Hv Hr. rewrite (F v Hv). destruct (G v Hv) as [_ G2]. rewrite (proj2 G2 Hr). do 3 f_equal. field. }
  split.
  { intros v. rewrite P. split; intros [H1 H2]; (split; [done|]); apply in_box_uniform in H1 as [Hl _]; [intros i Hi; apply H2; lia|intros i Hi; apply H2; lia]. }
  assert (B : forall x, 0 <= x <= 1 -> pareto ZDT2 box (first_only n x) /\ ZDT2 (first_only n x) = Some [- x; - (1 - x * x)]).
  { intros x Hx. assert (Hb : box (first_only n x)) by (apply first_only_box; [lia|done]). assert (Hz : rest_zero (first_only n x)) by (apply first_only_zero; lia). split; [by apply P|]. by rewrite (E _ Hb Hz). }
  assert (B0 : ZDT2 (first_only n 0) = Some [0; -1]) by (rewrite (proj2 (B 0 ltac:(lra)));  do 2 f_equal; [lra|f_equal; lra]).
  assert (B1 : ZDT2 (first_only n 1) = Some [-1; 0]) by (rewrite (proj2 (B 1 ltac:(lra))); do 2 f_equal; f_equal; lra).
  rewrite replicate_first_only by lia. apply (points2 _ _ _ _ (first_only n 0) (first_only n 1) 0 (-1) (-1) 0); [apply B; lra|done|apply B; lra|done|apply B; lra|done| |].
  - intros v Hv. eexists _, _. split; [by apply F|]. pose proof (A v Hv). destruct (G v Hv) as [G1 _]. pose proof (proj1 (concave_front (entry v 0) (zdt_g v) ltac:(lra) G1)). assert (entry v 0 * entry v 0 <= 1 * 1) by (apply Rmult_le_compat; lra). lra.
  - intros v Hv. apply P in Hv as [Hb Hr]. eexists _, _. split; [by apply E|]. pose proof (A v Hb). assert (0 <= entry v 0 * entry v 0) by (apply Rmult_le_pos; lra). lra.
Qed.
Print Assumptions C97_zdt2.
Theorem C97_zdt4 (n : nat) : (2 <= n)%nat -> let t := ZDT4_traits n in let box := in_box (lower t) (upper t) in
  (forall v, pareto ZDT4 box v <-> box v /\ forall i, (1 <= i < n)%nat -> entry v i = 0) /\
  points_correct ZDT4 box (optimum t) (optimal_value t) (ideal_pt t) (nadir_pt t).
Proof.
  intros Hn. cbn zeta. cbn [ZDT4_traits lower upper optimum optimal_value ideal_pt nadir_pt]. set (box := in_box _ _).
  assert (FB : forall x, 0 <= x <= 1 -> box (first_only n x)) by (intros x Hx; apply zdt4_box; [lia|]; split; [apply first_only_length; lia|]; split; [exact Hx|]; intros i Hi; rewrite first_only_rest by lia; lra).
  assert (F : forall v, box v -> ZDT4 v = Some [- entry v 0; - (zdt4_g v - zdt4_g v * sqrt (entry v 0 / zdt4_g v))]).
  { intros v Hv. apply zdt4_box in Hv as [Hl Hv]; [|lia]. destruct (C97_formulas v ltac:(lia)) as (_ & _ & H). cbn zeta in H. rewrite H. fold (zdt4_g v). do 3 f_equal. lra. }
  assert (A : forall v, box v -> 0 <= entry v 0 <= 1) by (intros v Hv; apply zdt4_box in Hv as (_ & Hv & _); [done|lia]).
  assert (G : forall v, box v -> 1 <= zdt4_g v /\ (zdt4_g v = 1 <-> rest_zero v)) by (intros v Hv; apply zdt4_g_ok).
  assert (P : forall v, pareto ZDT4 box v <-> box v /\ rest_zero v).
  { apply (front_decreasing _ _ _ (fun v => entry v 0) (fun v => zdt4_g v - zdt4_g v * sqrt (entry v 0 / zdt4_g v)) (fun a => 1 - sqrt a)); [done| | | |].
    - intros v Hv. apply convex_front; [by apply A|by apply G].
    - intros v Hv. destruct (G v Hv) as [G1 <-]. symmetry. apply convex_front; [by apply A|done].
    - intros v Hv. exists (first_only n (entry v 0)). split; [apply FB, A, Hv|]. split; [apply first_only_zero; lia|done].
    - intros v w Hv Hw Hlt. assert (sqrt (entry w 0) < sqrt (entry v 0)); [|lra]. apply sqrt_lt_1_alt. split; [apply (A w Hw)|done]. }
  assert (E : forall v, box v -> rest_zero v -> ZDT4 v = Some [- entry v 0; - (1 - sqrt (entry v 0))]).
  { intros v Hv Hr. rewrite (F v Hv). destruct (G v Hv) as [_ G2]. rewrite (proj2 G2 Hr). do 3 f_equal. rewrite Rdiv_1_r || unfold Rdiv. replace (entry v 0 * / 1) with (entry v 0) by lra. lra. }
  split.
  { intros v. rewrite P. split; intros [H1 H2]; (split; [done|]); (apply zdt4_box in H1 as [Hl _]; [|lia]); (intros i Hi; apply H2; lia). }
  assert (B : forall x, 0 <= x <= 1 -> pareto ZDT4 box (first_only n x) /\ ZDT4 (first_only n x) = Some [- x; - (1 - sqrt x)]).
  { intros x Hx. assert (Hb : box (first_only n x)) by (by apply FB). assert (Hz : rest_zero (first_only n x)) by (apply first_only_zero; lia). split; [by apply P|]. by rewrite (E _ Hb Hz). }
  assert (B0 : ZDT4 (first_only n 0) = Some [0; -1]) by (rewrite (proj2 (B 0 ltac:(lra))), sqrt_0; do 2 f_equal; [lra|f_equal; lra]).
  assert (B1 : ZDT4 (first_only n 1) = Some [-1; 0]) by (rewrite (proj2 (B 1 ltac:(lra))), sqrt_1; do 2 f_equal; f_equal; lra).
  rewrite replicate_first_only by lia. apply (points2 _ _ _ _ (first_only n 0) (first_only n 1) 0 (-1) (-1) 0); [apply B; lra|done|apply B; lra|done|apply B; lra|done| |].
  - intros v Hv. eexists _, _. split; [by apply F|]. pose proof (A v Hv). destruct (G v Hv) as [G1 _]. pose proof (proj1 (convex_front (entry v 0) (zdt4_g v) ltac:(lra) G1)). pose proof (sqrt_le1 (entry v 0) ltac:(lra)). lra.
  - intros v Hv. apply P in Hv as [Hb Hr]. eexists _, _. split; [by apply E|]. pose proof (A v Hb). pose proof (sqrt_pos (entry v 0)). lra.
Qed.
Print Assumptions C97_zdt4.

(** C97: the front of ZDT3 has gaps; the optimal points are those where the second objective is
    smaller than for all smaller first variables.  The ideal point is a bound. *)
Theorem C97_zdt3 (n : nat) : (2 <= n)%nat -> let t := ZDT3_traits n in let box := in_box (lower t) (upper t) in
  let phi a := 1 - sqrt a - a * sin (10 * PI * a) in
  (forall v, pareto ZDT3 box v <-> box v /\ (forall i, (1 <= i < n)%nat -> entry v i = 0) /\ forall a, 0 <= a < entry v 0 -> phi (entry v 0) < phi a) /\
  pareto ZDT3 box (optimum t) /\ ZDT3 (optimum t) = Some (optimal_value t) /\ bounded_by_ideal ZDT3 box (ideal_pt t) /\
  (forall v y, pareto ZDT3 box v -> ZDT3 v = Some y -> -1 <= entry y 1) /\
  (* the nadir point is not a bound of the first objective *)
  ~ bounded_by_nadir ZDT3 box (nadir_pt t).
Proof.
  intros Hn. cbn zeta. cbn [ZDT3_traits ZDT_traits lower upper optimum optimal_value ideal_pt nadir_pt]. set (box := in_box _ _).
  assert (F : forall v, box v -> ZDT3 v = Some [- entry v 0; - (zdt_g v - zdt_g v * sqrt (entry v 0 / zdt_g v) - entry v 0 * sin (10 * PI * entry v 0))]).
  { intros v Hv. apply in_box_uniform in Hv as [Hl Hv]. destruct (C97_formulas v ltac:(lia)) as (_ & H & _). destruct (zdt_g_ok n v Hn ltac:(by apply in_box_uniform)) as [G1 _]. destruct (H ltac:(intros; apply Hv; lia)) as (_ & _ & -> & _). fold (zdt_g v). do 3 f_equal. field. lra. }
  assert (A : forall v, box v -> 0 <= entry v 0 <= 1) by (intros v Hv; apply in_box_uniform in Hv as [_ Hv]; apply Hv; lia).
  assert (G : forall v, box v -> 1 <= zdt_g v /\ (zdt_g v = 1 <-> rest_zero v)) by (intros v Hv; by apply (zdt_g_ok n)).
  assert (P : forall v, pareto ZDT3 box v <-> box v /\ rest_zero v /\ forall w, box w -> entry w 0 < entry v 0 -> zdt3_phi (entry v 0) < zdt3_phi (entry w 0)).
  { apply (front_pareto _ _ _ (fun v => entry v 0) (fun v => zdt_g v - zdt_g v * sqrt (entry v 0 / zdt_g v) - entry v 0 * sin (10 * PI * entry v 0)) zdt3_phi); [done| | |].
    - intros v Hv. unfold zdt3_phi. pose proof (proj1 (convex_front (entry v 0) (zdt_g v) (A v Hv) (proj1 (G v Hv)))). lra.
    - intros v Hv. destruct (G v Hv) as [G1 <-]. unfold zdt3_phi. pose proof (proj2 (convex_front (entry v 0) (zdt_g v) (A v Hv) G1)) as [C1 C2]. split; [intros E; apply C2 in E; lra|intros E; apply C1; lra].
    - intros v Hv. exists (first_only n (entry v 0)). split; [apply first_only_box; [lia|by apply A]|]. split; [apply first_only_zero; lia|done]. }
  assert (P' : forall v, pareto ZDT3 box v <-> box v /\ rest_zero v /\ forall a, 0 <= a < entry v 0 -> zdt3_phi (entry v 0) < zdt3_phi a).
  { intros v. rewrite P. split; intros (Hb & Hr & H); (split; [done|]); (split; [done|]).
    - intros a Ha. pose proof (A v Hb). apply (H (first_only n a)); [apply first_only_box; [lia|lra]|exact (proj2 Ha)].
    - intros w Hw Hlt. apply H. split; [apply (A w Hw)|done]. }
  assert (E : forall v, box v -> rest_zero v -> ZDT3 v = Some [- entry v 0; - zdt3_phi (entry v 0)]).
  { intros v Hv Hr. rewrite (F v Hv). destruct (G v Hv) as [_ G2]. rewrite (proj2 G2 Hr). do 3 f_equal. unfold zdt3_phi. replace (entry v 0 / 1) with (entry v 0) by lra. lra. }
  split; [|split; [|split; [|split; [|split]]]].
  - intros v. rewrite P'. split; intros (H1 & H2 & H3); (split; [done|]); apply in_box_uniform in H1 as [Hl _]; (split; [intros i Hi; apply H2; lia|done]).
  - apply P'. rewrite replicate_first_only by lia. split; [apply first_only_box; [lia|lra]|]. split; [apply first_only_zero; lia|]. cbn. intros a Ha. lra.
  - rewrite replicate_first_only by lia. rewrite E; [|apply first_only_box; [lia|lra]|apply first_only_zero; lia]. cbn [first_only entry nth]. unfold zdt3_phi. rewrite sqrt_0. do 2 f_equal; [lra|f_equal; lra].
  - intros v y Hv Hy. rewrite (F v Hv) in Hy. injection Hy as <-. split; [done|]. pose proof (A v Hv). intros [|[|i]] Hi; cbn [entry nth length] in *; [lra| |lia].
    pose proof (zdt3_low (entry v 0) ltac:(lra)) as L. unfold zdt3_phi, entry in L. pose proof (proj1 (convex_front (entry v 0) (zdt_g v) (A v Hv) (proj1 (G v Hv)))) as C. unfold entry in *. lra.
  - intros v y Hv Hy. apply P' in Hv as (Hb & Hr & H). rewrite (E v Hb Hr) in Hy. injection Hy as <-. cbn [entry nth]. destruct (Req_dec (entry v 0) 0) as [E0|E0].
    + rewrite E0. unfold zdt3_phi. rewrite sqrt_0. lra.
    + pose proof (A v Hb). specialize (H 0 ltac:(lra)). replace (zdt3_phi 0) with 1 in H by (unfold zdt3_phi; rewrite sqrt_0; lra). lra.
  - intros N. set (v := first_only n (851 / 1000)). assert (Hb : box v) by (apply first_only_box; [lia|lra]). assert (Hr : rest_zero v) by (apply first_only_zero; lia).
    assert (Hp : pareto ZDT3 box v) by (apply P'; split; [done|]; split; [done|]; apply zdt3_far).
    destruct (N v _ Hp (E v Hb Hr)) as [_ H]. specialize (H 0%nat ltac:(cbn; lia)). unfold v in H. cbn [entry nth first_only] in H. lra.
Qed.
Print Assumptions C97_zdt3.

(** C97: ZDT6.  The ideal point is a bound but not tight, and the nadir point is not a bound. *)
Theorem C97_zdt6 (n : nat) : (2 <= n)%nat -> let t := ZDT6_traits n in let box := in_box (lower t) (upper t) in
  (forall v, pareto ZDT6 box v <-> box v /\ forall i, (1 <= i < n)%nat -> entry v i = 0) /\
  pareto ZDT6 box (optimum t) /\ ZDT6 (optimum t) = Some (optimal_value t) /\ bounded_by_ideal ZDT6 box (ideal_pt t) /\
  (forall v y, box v -> ZDT6 v = Some y -> entry y 0 < 0) /\ ~ bounded_by_nadir ZDT6 box (nadir_pt t).
Proof.
  intros Hn. cbn zeta. cbn [ZDT6_traits ZDT_traits lower upper optimum optimal_value ideal_pt nadir_pt]. set (box := in_box _ _).
  set (a := fun v => zdt6_f (entry v 0)). set (b := fun v => zdt6_g v - a v * a v / zdt6_g v).
  assert (F : forall v, box v -> ZDT6 v = Some [- a v; - b v]).
  { intros v Hv. pose proof (zdt6_g_ok n v Hn Hv) as [G1 _]. apply in_box_uniform in Hv as [Hl Hv]. destruct (C97_formulas v ltac:(lia)) as (_ & H & _). destruct (H ltac:(intros; apply Hv; lia)) as (_ & _ & _ & ->). fold (zdt6_g v) (zdt6_f (entry v 0)). unfold b, a. do 3 f_equal. field. lra. }
  assert (A : forall v, box v -> 0 < a v <= 1) by (intros v Hv; apply in_box_uniform in Hv as [_ Hv]; apply zdt6_f_range; apply Hv; lia).
  assert (G : forall v, box v -> 1 <= zdt6_g v /\ (zdt6_g v = 1 <-> rest_zero v)) by (intros v Hv; by apply (zdt6_g_ok n)).
  assert (P : forall v, pareto ZDT6 box v <-> box v /\ rest_zero v).
  { apply (front_decreasing _ _ _ a b (fun a => 1 - a * a)); [done| | | |].
    - intros v Hv. pose proof (A v Hv). apply concave_front; [lra|by apply G].
    - intros v Hv. destruct (G v Hv) as [G1 <-]. pose proof (A v Hv). symmetry. apply concave_front; [lra|done].
    - intros v Hv. exists (first_only n (entry v 0)). split; [apply first_only_box; [lia|]|]. { apply in_box_uniform in Hv as [_ Hv]. apply Hv. lia. } split; [apply first_only_zero; lia|done].
    - intros v w Hv Hw Hlt. pose proof (A w Hw). assert (a w * a w < a v * a v); [|lra]. apply Rmult_le_0_lt_compat; lra. }
  assert (E : forall v, box v -> rest_zero v -> ZDT6 v = Some [- a v; - (1 - a v * a v)]).
  { intros v Hv Hr. rewrite (F v Hv). destruct (G v Hv) as [_ G2]. unfold b. rewrite (proj2 G2 Hr). do 3 f_equal. field. }
  assert (B : forall x, 0 <= x <= 1 -> box (first_only n x) /\ rest_zero (first_only n x)) by (intros x Hx; split; [apply first_only_box; [lia|done]|apply first_only_zero; lia]).
  split; [|split; [|split; [|split; [|split]]]].
  - intros v. rewrite P. split; intros [H1 H2]; (split; [done|]); apply in_box_uniform in H1 as [Hl _]; intros i Hi; apply H2; lia.
  - rewrite replicate_first_only by lia. apply P, B. lra.
  - rewrite replicate_first_only by lia. rewrite E by (apply B; lra). unfold a, zdt6_f. cbn [first_only entry nth]. rewrite !Rmult_0_r, sin_0, exp_0. rewrite pow_i by lia. do 2 f_equal; [lra|f_equal; lra].
  - intros v y Hv Hy. rewrite (F v Hv) in Hy. injection Hy as <-. split; [done|]. pose proof (A v Hv) as Av. intros [|[|i]] Hi; cbn [entry nth length] in *; [lra| |lia].
    pose proof (proj1 (concave_front (a v) (zdt6_g v) ltac:(lra) (proj1 (G v Hv)))) as C. fold (b v) in C. assert (a v * a v <= 1 * 1) by (apply Rmult_le_compat; lra). lra.
  - intros v y Hv Hy. rewrite (F v Hv) in Hy. injection Hy as <-. cbn [entry nth]. pose proof (A v Hv). lra.
  - intros N. destruct (B (815 / 10000) ltac:(lra)) as [Hb Hr]. destruct (N _ _ (proj2 (P _) (conj Hb Hr)) (E _ Hb Hr)) as [_ H]. specialize (H 1%nat ltac:(cbn; lia)). cbn [entry nth] in H.
    pose proof zdt6_low as L. unfold a in H. cbn [first_only entry nth] in H. lra.
Qed.
Print Assumptions C97_zdt6.

(** C97: ZDT5: the value of the documented formula; the optimal points are those whose bits but
    the first 30 are all ones. *)
Theorem C97_zdt5 (n : nat) : (2 <= n)%nat -> let t := ZDT5_traits n in let box v := length v = length (lower t) in
  (forall v, box v -> let u j := trues (take 5 (drop (30 + 5 * j) v)) in
    let f1 := 1 + INR (trues (take 30 v)) in let g := big_sum (n - 1) (fun j => if decide (u j = 5%nat) then 1 else 2 + INR (u j)) in
    ZDT5 v = Some [- f1; - (g / f1)]) /\
  (forall v, pareto ZDT5 box v <-> box v /\ forall i, (30 <= i < length v)%nat -> v !! i = Some true) /\
  points_correct ZDT5 box (optimum t) (optimal_value t) (ideal_pt t) (nadir_pt t).
Proof.
  intros Hn. cbn zeta. cbn [ZDT5_traits lower upper optimum optimal_value ideal_pt nadir_pt]. rewrite replicate_length. change FIRST_BITS with 30%nat. change REST_BITS with 5%nat. set (m := (n - 1)%nat). replace (30 + m * 5)%nat with (30 + 5 * m)%nat by lia.
  set (box := fun v : list bool => length v = (30 + 5 * m)%nat).
  assert (I30 : INR 30 = 30) by (rewrite INR_IZR_INZ; done).
  set (a := fun v : list bool => 1 + INR (trues (take 30 v))). set (g := fun v : list bool => zdt5_sum m (drop 30 v)). set (b := fun v => g v / a v).
  assert (F : forall v, box v -> ZDT5 v = Some [- a v; - b v]).
  { intros v Hv. unfold ZDT5. change FIRST_BITS with 30%nat. change REST_BITS with 5%nat. unfold box in Hv. rewrite decide_True. 2:{ rewrite Hv. split; [lia|]. replace (30 + 5 * m)%nat with ((6 + m) * 5)%nat by lia. apply Nat.mod_mul. lia. }
    cbn zeta. rewrite count_ones_trues. rewrite (zdt5_loop_sum m) by (rewrite ?drop_length; lia). fold (zdt5_sum m (drop 30 v)). fold (g v) (a v). unfold b. rewrite Rplus_0_l. done. }
  assert (A : forall v, box v -> 1 <= a v <= 31).
  { intros v Hv. unfold a. pose proof (pos_INR (trues (take 30 v))). pose proof (trues_le (take 30 v)) as H1. rewrite take_length, Hv in H1. assert (INR (trues (take 30 v)) <= INR 30) by (apply le_INR; lia). lra. }
  assert (G : forall v, box v -> INR m <= g v /\ (g v = INR m <-> drop 30 v = replicate (5 * m) true)) by (intros v Hv; apply zdt5_sum_ge; rewrite drop_length, Hv; lia).
  assert (M : 1 <= INR m) by (apply INR_pos1; lia).
  assert (P : forall v, pareto ZDT5 box v <-> box v /\ drop 30 v = replicate (5 * m) true).
  { apply (front_decreasing _ _ _ a b (fun a => INR m / a)); [done| | | |].
    - intros v Hv. pose proof (A v Hv). apply Rmult_le_compat_r; [left; apply Rinv_0_lt_compat; lra|by apply G].
    - intros v Hv. destruct (G v Hv) as [_ <-]. pose proof (A v Hv) as Av. unfold b. split; [by intros ->|]. intros E. apply (Rmult_eq_reg_r (/ a v)); [exact E|]. apply Rinv_neq_0_compat. lra.
    - intros v Hv. exists (take 30 v ++ replicate (5 * m) true). unfold box in *. split; [rewrite app_length, take_length, replicate_length; lia|]. split; [rewrite drop_app_alt; [done|rewrite take_length; lia]|]. unfold a. rewrite take_app_alt; [done|rewrite take_length; lia].
    - intros v w Hv Hw Hlt. pose proof (A w Hw). pose proof (A v Hv). apply Rmult_lt_compat_l; [lra|]. apply Rinv_lt_contravar; [apply Rmult_lt_0_compat; lra|done]. }
  assert (E : forall v, box v -> drop 30 v = replicate (5 * m) true -> ZDT5 v = Some [- a v; - (INR m / a v)]).
  { intros v Hv Hr. rewrite (F v Hv). unfold b. by rewrite (proj2 (proj2 (G v Hv)) Hr). }
  split; [|split].
  - intros v Hv. rewrite (F v Hv). unfold b, g, zdt5_sum. fold (a v). do 4 f_equal. f_equal. apply big_sum_ext. intros j Hj. rewrite drop_drop. done.
  - intros v. rewrite P. split; intros [Hb Hr]; (split; [done|]).
    + intros i Hi. assert (K : drop 30 v !! (i - 30)%nat = Some true) by (rewrite Hr; apply lookup_replicate_2; unfold box in Hb; lia). rewrite lookup_drop in K. by replace (30 + (i - 30))%nat with i in K by lia.
    + apply list_eq. intros i. unfold box in Hb. rewrite lookup_drop. destruct (decide (i < 5 * m)%nat) as [Hi|Hi]; [rewrite Hr by lia; by rewrite lookup_replicate_2|]. rewrite !lookup_ge_None_2; [done|rewrite replicate_length; lia|lia].
  - set (v0 := replicate 30 false ++ replicate (5 * m) true). set (v1 := replicate (30 + 5 * m) true).
    assert (B0 : box v0 /\ drop 30 v0 = replicate (5 * m) true /\ a v0 = 1). { unfold v0, box, a. rewrite app_length, !replicate_length. split; [lia|]. split; [by rewrite drop_app_alt|]. rewrite take_app_alt by done. rewrite trues_replicate. cbn; lra. }
    assert (B1 : box v1 /\ drop 30 v1 = replicate (5 * m) true /\ a v1 = 31). { unfold v1, box, a. rewrite replicate_length, drop_replicate, take_replicate, trues_replicate. split; [done|]. split; [f_equal; lia|]. replace (30 `min` (30 + 5 * m))%nat with 30%nat by lia. rewrite I30. lra. }
    destruct B0 as (Hb0 & Hr0 & Ha0). destruct B1 as (Hb1 & Hr1 & Ha1). rewrite minus1 by lia. fold m. rewrite I30. replace (30 + 1) with 31 by lra. replace (- INR m / 31) with (- (INR m / 31)) by lra.
    apply (points2 _ _ _ _ v0 v1 (-1) (- INR m) (-31) (- (INR m / 31))); [by apply P| |by apply P| |by apply P| | |].
    + rewrite (E v1 Hb1 Hr1), Ha1. done.
    + rewrite (E v0 Hb0 Hr0), Ha0. do 3 f_equal. lra.
    + rewrite (E v1 Hb1 Hr1), Ha1. done.
    + intros v Hv. exists (- a v), (- b v). split; [by apply F|]. pose proof (A v Hv) as Av. split; [lra|]. unfold b. apply Ropp_le_contravar. apply Rmult_le_compat; [lra|lra|by apply G|]. apply Rinv_le_contravar; lra.
    + intros v Hv. apply P in Hv as [Hb Hr]. exists (- a v), (- (INR m / a v)). split; [by apply E|]. pose proof (A v Hb) as Av. split; [lra|]. apply Ropp_le_contravar. rewrite <- (Rmult_1_r (INR m)) at 2. apply Rmult_le_compat_l; [lra|]. rewrite <- Rinv_1. apply Rinv_le_contravar; lra.
Qed.
Print Assumptions C97_zdt5.

(** C97, partial: Kursawe: optimum() is optimal and attains optimal_value(), which bounds the
    first objective; the second entry of the nadir point is right.  Whether the first entry of
    the nadir point is a bound is not decided. *)
Theorem C97_kursawe_partial (n : nat) : (2 <= n)%nat -> let t := Kursawe_traits n in let box := in_box (lower t) (upper t) in
  pareto Kursawe box (optimum t) /\ Kursawe (optimum t) = Some (optimal_value t) /\
  (forall v y, box v -> Kursawe v = Some y -> length y = 2%nat /\ entry y 0 <= entry (ideal_pt t) 0) /\
  (forall v y, pareto Kursawe box v -> Kursawe v = Some y -> entry (nadir_pt t) 1 <= entry y 1).
Proof.
  intros Hn. cbn zeta. cbn [Kursawe_traits lower upper optimum optimal_value ideal_pt nadir_pt]. set (box := in_box _ _).
  assert (F : forall v, box v -> Kursawe v = Some [big_sum (n - 1) (fun i => 10 * exp (- (2 / 10) * sqrt (entry v i ^ 2 + entry v (i + 1) ^ 2))); - big_sum n (fun i => rpow (Rabs (entry v i)) (8 / 10) + 5 * sin (entry v i ^ 3))]).
  { intros v Hv. apply in_box_uniform in Hv as [Hl _]. destruct (C97_formulas v ltac:(lia)) as [H _]. rewrite H, Hl. done. }
  assert (HB : box (replicate n 0)) by (apply in_box_uniform; rewrite replicate_length; split; [done|]; intros i Hi; rewrite entry_replicate by done; lra).
  assert (V : Kursawe (replicate n 0) = Some [10 * INR (n - 1); 0]).
  { rewrite (F _ HB). rewrite (big_sum_ext _ _ (fun _ => 10)), big_sum_const. 2:{ intros i Hi. rewrite !entry_replicate by lia. replace (0 ^ 2 + 0 ^ 2) with 0 by ring. rewrite sqrt_0, Rmult_0_r, exp_0. lra. }
    rewrite (big_sum_ext _ _ (fun _ => 0)), big_sum_const. 2:{ intros i Hi. rewrite entry_replicate by lia. rewrite Rabs_R0. unfold rpow. destruct (Rlt_dec 0 0); [lra|]. rewrite pow_i by lia. rewrite sin_0. lra. }
    do 2 f_equal; [lra|f_equal; lra]. }
  assert (T : forall v i, 10 * exp (- (2 / 10) * sqrt (entry v i ^ 2 + entry v (i + 1) ^ 2)) <= 10).
  { intros v i. pose proof (sqrt_pos (entry v i ^ 2 + entry v (i + 1) ^ 2)). assert (exp (- (2 / 10) * sqrt (entry v i ^ 2 + entry v (i + 1) ^ 2)) <= 1) by (rewrite <- exp_0; apply exp_le; lra). lra. }
  assert (U : forall v, big_sum (n - 1) (fun i => 10 * exp (- (2 / 10) * sqrt (entry v i ^ 2 + entry v (i + 1) ^ 2))) <= 10 * INR (n - 1)).
  { intros v. rewrite (Rmult_comm 10), <- big_sum_const. apply big_sum_le. intros i _. apply T. }
  split; [|split; [done|split]].
  - split; [done|]. eexists. split; [exact V|]. intros w z Hw Hz Hbet. rewrite (F w Hw) in Hz. apply (inj Some) in Hz; subst z. apply better2 in Hbet as (H1 & H2 & H3). pose proof (U w) as Uw.
    assert (Z : big_sum (n - 1) (fun i => 10 - 10 * exp (- (2 / 10) * sqrt (entry w i ^ 2 + entry w (i + 1) ^ 2))) = 0).
    { unfold Rminus. rewrite (big_sum_plus _ (fun _ => 10)), big_sum_const, big_sum_opp. lra. }
    assert (Hz : forall i, (i < n - 1)%nat -> entry w i = 0 /\ entry w (i + 1) = 0).
    { intros i Hi. pose proof (big_sum_zero _ _ (fun i _ => Rge_le _ _ (Rge_minus _ _ (Rle_ge _ _ (T w i)))) Z i Hi) as Ei. cbn beta in Ei.
      assert (E1 : exp (- (2 / 10) * sqrt (entry w i ^ 2 + entry w (i + 1) ^ 2)) = exp 0) by (rewrite exp_0; lra). apply exp_inv in E1. pose proof (sq_nonneg (entry w i)). pose proof (sq_nonneg (entry w (i + 1))).
      assert (E2 : sqrt (entry w i ^ 2 + entry w (i + 1) ^ 2) = 0) by lra. apply sqrt_eq_0 in E2; [|lra]. split; apply sq0; lra. }
    assert (Ew : w = replicate n 0). { apply in_box_uniform in Hw as [Hl _]. apply eq_replicate; [done|]. intros i Hi. destruct (decide (i < n - 1)%nat); [by apply Hz|]. replace i with (n - 2 + 1)%nat by lia. apply Hz. lia. }
    subst w. rewrite (F _ HB) in V. apply some2_inj in V as [V1 V2]. lra.
  - intros v y Hv Hy. rewrite (F v Hv) in Hy. apply (inj Some) in Hy; subst y. split; [done|]. cbn [entry nth]. apply U.
  - intros v y (Hv & y' & Hy' & Hd) Hy. rewrite Hy in Hy'. apply (inj Some) in Hy'; subst y'. rewrite (F v Hv) in Hy. apply (inj Some) in Hy; subst y. cbn [entry nth] in *. apply Rnot_lt_le. intros Hlt. apply (Hd _ _ HB V). apply better2. split; [apply U|]. split; [lra|by right].
Qed.
Print Assumptions C97_kursawe_partial.
(** The ideal point of Kursawe is exceeded with ten and more variables. *)
Theorem C97_kursawe_ideal_refuted (n : nat) : (10 <= n)%nat -> let t := Kursawe_traits n in ~ bounded_by_ideal Kursawe (in_box (lower t) (upper t)) (ideal_pt t).
Proof.
  intros Hn. cbn zeta. cbn [Kursawe_traits lower upper ideal_pt]. intros H. set (v := replicate n kursawe_x).
  assert (Hb : in_box (replicate n (-5)) (replicate n 5) v). { apply in_box_uniform. unfold v. rewrite replicate_length. split; [done|]. intros i Hi. rewrite entry_replicate by done. apply kursawe_x_box. }
  assert (Hl : length v = n) by apply replicate_length. destruct (C97_formulas v ltac:(lia)) as [E _]. destruct (H v _ Hb E) as [_ K]. specialize (K 1%nat ltac:(cbn; lia)). cbn [entry nth] in K. rewrite Hl in K.
  assert (S : big_sum n (fun i => rpow (Rabs (entry v i)) (8 / 10) + 5 * sin (entry v i ^ 3)) <= INR n * - (3866 / 1000)).
  { rewrite <- big_sum_const. apply big_sum_le. intros i Hi. unfold v. rewrite entry_replicate by done. apply kursawe_x_value. }
  assert (N : 10 <= INR n) by (replace 10 with (INR 10) by (rewrite INR_IZR_INZ; done); by apply le_INR). rewrite <- minus1 in K by lia. unfold entry in *. lra.
Qed.
Print Assumptions C97_kursawe_ideal_refuted.

(** Concrete cases. *)
Example C97_nonvacuous : (2 <= 2)%nat /\ (10 <= 10)%nat /\
  pareto ZDT1 (in_box (lower (ZDT1_traits 3)) (upper (ZDT1_traits 3))) [1 / 4; 0; 0] /\ ~ pareto ZDT1 (in_box (lower (ZDT1_traits 3)) (upper (ZDT1_traits 3))) [1 / 4; 1; 0] /\
  in_box (lower (ZDT1_traits 3)) (upper (ZDT1_traits 3)) [1 / 4; 1; 0].
Proof.
  split; [lia|]. split; [lia|]. destruct (C97_zdt1 3 ltac:(lia)) as [P _]. cbn zeta in P. split; [|split].
  - apply P. split; [|by intros [|[|[|i]]] Hi; [lia| | |lia]]. apply (in_box_uniform 0 1 3). split; [done|]. intros [|[|[|i]]] Hi; [cbn; lra|cbn; lra|cbn; lra|lia].
  - intros C. apply P in C as [_ C]. specialize (C 1%nat ltac:(lia)). cbn in C. lra.
  - apply (in_box_uniform 0 1 3). split; [done|]. intros [|[|[|i]]] Hi; [cbn; lra|cbn; lra|cbn; lra|lia].
Qed.

(** The functions are evaluated on the documented boxes. *)
Theorem C97_boxes (n : nat) (v : list R) : (1 <= n)%nat -> let box (t : traits R) := in_box (lower t) (upper t) v in let within (a b : R) := length v = n /\ forall i, (i < n)%nat -> a <= entry v i <= b in
  (box (Kursawe_traits n) <-> within (-5) 5) /\ (box (ZDT1_traits n) <-> within 0 1) /\ (box (ZDT2_traits n) <-> within 0 1) /\ (box (ZDT3_traits n) <-> within 0 1) /\ (box (ZDT6_traits n) <-> within 0 1) /\
  (box (ZDT4_traits n) <-> length v = n /\ 0 <= entry v 0 <= 1 /\ forall i, (1 <= i < n)%nat -> -5 <= entry v i <= 5).
Proof.
  intros Hn. cbn zeta. assert (H : forall a b, in_box (replicate n a) (replicate n b) v <-> length v = n /\ forall i, (i < n)%nat -> a <= entry v i <= b).
  { intros a b. rewrite in_box_uniform. split; intros [H1 H2]; (split; [done|]); intros i Hi; apply H2; lia. }
  split; [apply H|]. split; [apply H|]. split; [apply H|]. split; [apply H|]. split; [apply H|]. unfold ZDT4_traits. cbn [lower upper].
  assert (He : forall a b i, (i < n)%nat -> entry (<[0%nat := a]> (replicate n b)) i = if decide (i = 0%nat) then a else b).
  { intros a b i Hi. unfold entry. rewrite nth_lookup. destruct (decide (i = 0%nat)) as [-> | Hne]; [rewrite list_lookup_insert by (rewrite replicate_length; lia); done|]. rewrite list_lookup_insert_ne by done. by rewrite lookup_replicate_2. }
  unfold in_box. rewrite !insert_length, !replicate_length. split.
  - intros (Hl & _ & Hv). split; [done|]. split; [specialize (Hv 0%nat ltac:(lia)); rewrite !He in Hv by lia; done|]. intros i Hi. specialize (Hv i ltac:(lia)). rewrite !He in Hv by lia. destruct (decide (i = 0%nat)); [lia|done].
  - intros (Hl & H0 & Hv). split; [done|]. split; [done|]. intros i Hi. rewrite !He by lia. destruct (decide (i = 0%nat)) as [-> | ?]; [done|]. apply Hv. lia.
Qed.
Print Assumptions C97_boxes.
