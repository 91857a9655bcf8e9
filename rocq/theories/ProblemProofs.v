(** Lemmas about sums, products and loops over the real numbers, for the benchmark functions. *)
From stdpp Require Import list list_numbers.
From Coq Require Import Reals Lra Lia.
From Verif Require Import ProblemModel ProblemSpec.
Local Open Scope R_scope.

Lemma big_sum_ext n h k : (forall i, (i < n)%nat -> h i = k i) -> big_sum n h = big_sum n k.
Proof. induction n as [|n IH]; [done|]. intros H. cbn [big_sum]. rewrite IH, H; auto with lia. Qed.
Lemma big_prod_ext n h k : (forall i, (i < n)%nat -> h i = k i) -> big_prod n h = big_prod n k.
Proof. induction n as [|n IH]; [done|]. intros H. cbn [big_prod]. rewrite IH, H; auto with lia. Qed.
Lemma big_sum_nonneg n h : (forall i, (i < n)%nat -> 0 <= h i) -> 0 <= big_sum n h.
Proof. induction n as [|n IH]; cbn [big_sum]; [lra|]. intros H. pose proof (IH (fun i Hi => H i (Nat.lt_lt_succ_r _ _ Hi))). pose proof (H n (Nat.lt_succ_diag_r n)). lra. Qed.
Lemma big_sum_zero n h : (forall i, (i < n)%nat -> 0 <= h i) -> big_sum n h = 0 -> forall i, (i < n)%nat -> h i = 0.
Proof.
  induction n as [|n IH]; cbn [big_sum]; [lia|]. intros H E i Hi. pose proof (big_sum_nonneg n h (fun i Hi => H i (Nat.lt_lt_succ_r _ _ Hi))) as G. pose proof (H n (Nat.lt_succ_diag_r n)).
  destruct (decide (i = n)) as [->|Hn]; [lra|]. apply IH; [auto with lia|lra|lia].
Qed.
Lemma big_sum_const n c : big_sum n (fun _ => c) = INR n * c.
Proof. induction n as [|n IH]; cbn [big_sum]; [cbn; lra|]. rewrite S_INR, IH. lra. Qed.
Lemma big_sum_le n h k : (forall i, (i < n)%nat -> h i <= k i) -> big_sum n h <= big_sum n k.
Proof. induction n as [|n IH]; cbn [big_sum]; [lra|]. intros H. pose proof (IH (fun i Hi => H i (Nat.lt_lt_succ_r _ _ Hi))). pose proof (H n (Nat.lt_succ_diag_r n)). lra. Qed.
Lemma big_sum_plus n h k : big_sum n (fun i => h i + k i) = big_sum n h + big_sum n k.
Proof. induction n as [|n IH]; cbn [big_sum]; [lra|]. rewrite IH. lra. Qed.
Lemma big_sum_scal n c h : big_sum n (fun i => c * h i) = c * big_sum n h.
Proof. induction n as [|n IH]; cbn [big_sum]; [lra|]. rewrite IH. lra. Qed.
Lemma big_sum_opp n h : big_sum n (fun i => - h i) = - big_sum n h.
Proof. induction n as [|n IH]; cbn [big_sum]; [lra|]. rewrite IH. lra. Qed.
Lemma big_sum_member n h i : (forall j, (j < n)%nat -> 0 <= h j) -> (i < n)%nat -> h i <= big_sum n h.
Proof.
  induction n as [|n IH]; cbn [big_sum]; [lia|]. intros H Hi. pose proof (big_sum_nonneg n h (fun i Hi => H i (Nat.lt_lt_succ_r _ _ Hi))) as G. pose proof (H n (Nat.lt_succ_diag_r n)).
  destruct (decide (i = n)) as [->|Hn]; [lra|]. assert (h i <= big_sum n h) by (apply IH; [auto with lia|lia]). lra.
Qed.
Lemma big_sum_front n h : big_sum (S n) h = h O + big_sum n (fun i => h (S i)).
Proof. induction n as [|n IH]; [cbn; lra|]. cbn [big_sum] in *. rewrite IH. lra. Qed.
Lemma big_prod_one n : big_prod n (fun _ => 1) = 1.
Proof. induction n as [|n IH]; cbn [big_prod]; [lra|]. rewrite IH. lra. Qed.
Lemma big_prod_abs n h : (forall i, (i < n)%nat -> Rabs (h i) <= 1) -> Rabs (big_prod n h) <= 1.
Proof.
  induction n as [|n IH]; cbn [big_prod]; [rewrite Rabs_R1; lra|]. intros H. rewrite Rabs_mult. pose proof (IH (fun i Hi => H i (Nat.lt_lt_succ_r _ _ Hi))). pose proof (H n (Nat.lt_succ_diag_r n)).
  replace 1 with (1 * 1) by lra. apply Rmult_le_compat; auto using Rabs_pos.
Qed.

Lemma foldl_add {A} (f : R -> A -> R) (h : A -> R) (d : A) : (forall acc x, f acc x = acc + h x) -> forall l z, foldl f z l = z + big_sum (length l) (fun i => h (nth i l d)).
Proof.
  intros H l. induction l as [|x l IH]; intros z; [cbn; lra|]. cbn [foldl length]. rewrite IH, H, big_sum_front. cbn [nth]. lra.
Qed.
Lemma for_to_add (f : nat -> R -> R) (h : nat -> R) n z : (forall i acc, f i acc = acc + h i) -> for_to n f z = z + big_sum n h.
Proof.
  intros H. unfold for_to. induction n as [|n IH]; [cbn; lra|]. rewrite seq_S, foldl_app. cbn [foldl plus big_sum]. rewrite IH, H. lra.
Qed.
Lemma for_to_step {A} n (f : nat -> A -> A) z : for_to (S n) f z = f n (for_to n f z).
Proof. unfold for_to. rewrite seq_S, foldl_app. done. Qed.
Lemma foldl_pair {A B C} (f : B -> A -> B) (g : C -> A -> C) l : forall b c, foldl (fun (s : B * C) x => let '(p, q) := s in (f p x, g q x)) (b, c) l = (foldl f b l, foldl g c l).
Proof. induction l as [|x l IH]; intros b c; [done|]. cbn [foldl]. apply IH. Qed.
Lemma reduce_sum l : reduce l = big_sum (length l) (entry l).
Proof. induction l as [|x l IH]; [done|]. cbn [reduce foldr length]. fold (reduce l). rewrite big_sum_front, IH. done. Qed.

Lemma entry_replicate n x i : (i < n)%nat -> entry (replicate n x) i = x.
Proof. intros H. unfold entry. apply nth_lookup_Some. by apply lookup_replicate. Qed.
Lemma list_eq_entries (v w : list R) : length v = length w -> (forall i, (i < length v)%nat -> entry v i = entry w i) -> v = w.
Proof.
  intros Hl H. apply list_eq. intros i. destruct (decide (i < length v)%nat) as [Hi|Hi].
  - destruct (lookup_lt_is_Some_2 v i Hi) as [x Hx]. destruct (lookup_lt_is_Some_2 w i ltac:(lia)) as [y Hy]. rewrite Hx, Hy. f_equal.
    specialize (H i Hi). unfold entry in H. by rewrite (nth_lookup_Some _ _ _ _ Hx), (nth_lookup_Some _ _ _ _ Hy) in H.
  - rewrite !lookup_ge_None_2 by lia. done.
Qed.
Lemma eq_replicate v n x : length v = n -> (forall i, (i < n)%nat -> entry v i = x) -> v = replicate n x.
Proof. intros Hl H. apply list_eq_entries; [by rewrite replicate_length|]. intros i Hi. rewrite entry_replicate by lia. apply H. lia. Qed.
Lemma in_box_uniform l u n v : in_box (replicate n l) (replicate n u) v <-> length v = n /\ forall i, (i < n)%nat -> l <= entry v i <= u.
Proof.
  unfold in_box. rewrite !replicate_length. split.
  - intros (H & _ & G). split; [done|]. intros i Hi. specialize (G i ltac:(lia)). by rewrite !entry_replicate in G by lia.
  - intros [H G]. split; [done|]. split; [done|]. intros i Hi. rewrite !entry_replicate by lia. apply G. lia.
Qed.
Lemma sq0 x : x ^ 2 = 0 -> x = 0.
Proof. intros H. nra. Qed.
Lemma sq_nonneg x : 0 <= x ^ 2.
Proof. nra. Qed.
Lemma cos_le_1 x : cos x <= 1. Proof. apply COS_bound. Qed.
Lemma cos_abs x : Rabs (cos x) <= 1. Proof. apply Rabs_le. apply COS_bound. Qed.
Lemma exp_le x y : x <= y -> exp x <= exp y.
Proof. intros [H| ->]; [left; by apply exp_increasing|lra]. Qed.
Lemma some1_inj (a b : R) : Some [a] = Some [b] -> a = b.
Proof. intros H. by injection H. Qed.
Lemma some2_inj (a b c d : R) : Some [a; b] = Some [c; d] -> a = c /\ b = d.
Proof. intros H. by injection H. Qed.

(** ** Numerical bounds *)
Lemma PI_bounds : 314159 / 100000 <= PI <= 31416 / 10000.
Proof.
  pose proof (PI_2_3_7_ineq 3) as [H1 H2]. unfold PI_2_3_7_tg, tg_alt, Ratan_seq in *.
  cbn [Nat.mul Nat.add sum_f_R0] in *. rewrite ?INR_IZR_INZ in *. cbn [pow] in *.
  change (Z.of_nat 1) with 1%Z in *. change (Z.of_nat 3) with 3%Z in *. change (Z.of_nat 5) with 5%Z in *. change (Z.of_nat 7) with 7%Z in *. change (Z.of_nat 9) with 9%Z in *.
  change (Z.of_nat 11) with 11%Z in *. change (Z.of_nat 13) with 13%Z in *. change (Z.of_nat 15) with 15%Z in *. split; lra.
Qed.
Lemma cos_upper t : -2 <= t <= 2 -> cos t <= 1 - t ^ 2 / 2 + t ^ 4 / 24.
Proof.
  intros [H1 H2]. destruct (pre_cos_bound t 0 H1 H2) as [_ H]. eapply Rle_trans; [exact H|]. right.
  unfold cos_approx, cos_term. cbn [Nat.mul Nat.add sum_f_R0]. replace (INR (fact 0)) with 1 by (cbn; lra). replace (INR (fact 2)) with 2 by (cbn; lra). replace (INR (fact 4)) with 24 by (cbn; lra). cbn [pow]. lra.
Qed.
Lemma cos_lower t : -2 <= t <= 2 -> 1 - t ^ 2 / 2 <= cos t.
Proof.
  intros [H1 H2]. destruct (pre_cos_bound t 0 H1 H2) as [H _]. eapply Rle_trans; [|exact H]. right.
  unfold cos_approx, cos_term. cbn [Nat.mul Nat.add sum_f_R0]. replace (INR (fact 0)) with 1 by (cbn; lra). replace (INR (fact 2)) with 2 by (cbn; lra). cbn [pow]. lra.
Qed.
Lemma sin_upper y : 0 <= y <= 1 -> sin y <= y.
Proof.
  intros [H1 H2]. destruct (pre_sin_bound y 0 H1 ltac:(lra)) as [_ H]. eapply Rle_trans; [exact H|].
  unfold sin_approx, sin_term. cbn [Nat.mul Nat.add sum_f_R0]. replace (INR (fact 1)) with 1 by (cbn; lra). replace (INR (fact 3)) with 6 by (cbn; lra). replace (INR (fact 5)) with 120 by (cbn; lra).
  assert (0 <= y ^ 3) by (apply pow_le; lra). replace (y ^ 5) with (y ^ 3 * (y * y)) by ring. assert (y * y <= 1) by nra. assert (y ^ 3 * (y * y) <= y ^ 3 * 1) by (apply Rmult_le_compat_l; lra).
  replace ((-1) ^ 0) with 1 by ring. replace ((-1) ^ 1) with (-1) by ring. replace ((-1) ^ 2) with 1 by ring. replace (y ^ 1) with y by ring. lra.
Qed.

(** The Schwefel terms. *)
Definition cS : R := 41898288727215591 / 100000000000000.
Lemma sin_13 t : sin (13 * PI / 2 + t) = cos t.
Proof. rewrite cos_sin. rewrite <- (sin_period (PI / 2 + t) 3). f_equal. cbn [INR]. lra. Qed.
Lemma schwefel_poly t : 0 <= t <= 1 / 2 -> (204204 / 10000 + t) ^ 2 * (1 - t ^ 2 / 2 + t ^ 4 / 24) <= cS + 2 / 100.
Proof.
  intros [H0 H1]. unfold cS. set (A := 204204 / 10000).
  assert (T3 : 0 <= t ^ 3) by (apply pow_le; lra). assert (T4 : t ^ 4 <= t ^ 3 * (1 / 2)) by (replace (t ^ 4) with (t ^ 3 * t) by ring; apply Rmult_le_compat_l; lra).
  assert (T40 : 0 <= t ^ 4) by (apply pow_le; lra).
  assert (T5 : t ^ 5 <= t ^ 4 * (1 / 2)) by (replace (t ^ 5) with (t ^ 4 * t) by ring; apply Rmult_le_compat_l; lra).
  assert (T50 : 0 <= t ^ 5) by (apply pow_le; lra).
  assert (T6 : t ^ 6 <= t ^ 5 * (1 / 2)) by (replace (t ^ 6) with (t ^ 5 * t) by ring; apply Rmult_le_compat_l; lra).
  assert (C : 0 <= (t - 975 / 10000) ^ 2 * (t + 195 / 1000)) by (apply Rmult_le_pos; [apply sq_nonneg|lra]).
  replace ((A + t) ^ 2 * (1 - t ^ 2 / 2 + t ^ 4 / 24)) with (A ^ 2 + 2 * A * t + t ^ 2 - A ^ 2 / 2 * t ^ 2 - A * t ^ 3 - t ^ 4 / 2 + A ^ 2 / 24 * t ^ 4 + A / 12 * t ^ 5 + t ^ 6 / 24) by field.
  assert (Q : 0 <= (t - 976 / 10000) ^ 2) by apply sq_nonneg.
  replace ((t - 975 / 10000) ^ 2 * (t + 195 / 1000)) with (t ^ 3 - 3 * (975 / 10000) ^ 2 * t + 2 * (975 / 10000) ^ 3) in C by field.
  replace ((t - 976 / 10000) ^ 2) with (t ^ 2 - 2 * (976 / 10000) * t + (976 / 10000) ^ 2) in Q by field.
  unfold A. lra.
Qed.
Lemma schwefel_term x : Rabs x <= 500 -> x * sin (sqrt (Rabs x)) <= cS + 2 / 100.
Proof.
  intros Hx. pose proof PI_bounds as [P1 P2]. set (s := sqrt (Rabs x)). assert (Hs : s * s = Rabs x) by (apply sqrt_sqrt, Rabs_pos). assert (Hs0 : 0 <= s) by apply sqrt_pos.
  pose proof (SIN_bound s) as [S1 S2]. assert (HcS : 418 <= cS <= 419) by (unfold cS; lra).
  destruct (Rle_dec (Rabs x) 418) as [Hsm|Hbig].
  { pose proof (Rle_abs x). pose proof (Rle_abs (- x)) as Hn. rewrite Rabs_Ropp in Hn. assert (x * sin s <= Rabs x); [|lra].
    destruct (Rle_dec 0 x); [rewrite Rabs_pos_eq by lra; rewrite <- (Rmult_1_r x) at 2; apply Rmult_le_compat_l; lra|].
    replace (x * sin s) with ((- x) * (- sin s)) by ring. rewrite Rabs_left by lra. rewrite <- (Rmult_1_r (- x)) at 2. apply Rmult_le_compat_l; lra. }
  assert (Hs1 : 2044 / 100 <= s) by (apply Rnot_lt_le; intros H; assert (s * s <= 2044 / 100 * (2044 / 100)) by (apply Rmult_le_compat; lra); lra).
  assert (Hs2 : s <= 22361 / 1000) by (apply Rnot_lt_le; intros H; assert (22361 / 1000 * (22361 / 1000) <= s * s) by (apply Rmult_le_compat; lra); lra).
  destruct (Rle_dec 0 x) as [Hp|Hn].
  - rewrite Rabs_pos_eq in Hs, Hbig by lra. set (t := s - 13 * PI / 2). assert (Ht : 0 <= t <= 195 / 100) by (unfold t; lra).
    replace s with (13 * PI / 2 + t) by (unfold t; lra). rewrite sin_13. pose proof (cos_upper t ltac:(lra)) as C.
    destruct (Rle_dec (cos t) 0) as [Hc|Hc]; [assert (x * cos t <= x * 0) by (apply Rmult_le_compat_l; lra); lra|].
    assert (Hxs : x <= (204204 / 10000 + t) ^ 2).
    { replace ((204204 / 10000 + t) ^ 2) with ((204204 / 10000 + t) * (204204 / 10000 + t)) by ring. rewrite <- Hs. apply Rmult_le_compat; unfold t; lra. }
    eapply Rle_trans; [apply Rmult_le_compat; [lra|lra|exact Hxs|exact C]|].
    destruct (Rle_dec t (1 / 2)) as [Hl|Hl]; [apply schwefel_poly; lra|].
    assert (Hq : 1 - t ^ 2 / 2 + t ^ 4 / 24 <= 1 - t ^ 2 / 3).
    { assert (t * t <= 4) by nra. assert (t ^ 4 <= t ^ 2 * 4) by (replace (t ^ 4) with (t ^ 2 * (t * t)) by ring; apply Rmult_le_compat_l; [apply sq_nonneg|lra]). lra. }
    assert (Hb : (204204 / 10000 + t) ^ 2 <= 501) by (replace ((204204 / 10000 + t) ^ 2) with ((204204 / 10000 + t) * (204204 / 10000 + t)) by ring; assert ((204204 / 10000 + t) * (204204 / 10000 + t) <= (2238 / 100) * (2238 / 100)) by (apply Rmult_le_compat; unfold t; lra); lra).
    destruct (Rle_dec t (75 / 100)) as [Hm|Hm].
    + assert (Hb2 : (204204 / 10000 + t) ^ 2 <= 449) by (replace ((204204 / 10000 + t) ^ 2) with ((204204 / 10000 + t) * (204204 / 10000 + t)) by ring; assert ((204204 / 10000 + t) * (204204 / 10000 + t) <= (2118 / 100) * (2118 / 100)) by (apply Rmult_le_compat; lra); lra).
      assert (1 / 4 <= t ^ 2) by nra. assert (0 <= (204204 / 10000 + t) ^ 2) by apply sq_nonneg. eapply Rle_trans; [apply Rmult_le_compat; [done|lra|exact Hb2|exact Hq]|]. lra.
    + assert (9 / 16 <= t ^ 2) by nra. assert (0 <= (204204 / 10000 + t) ^ 2) by apply sq_nonneg. eapply Rle_trans; [apply Rmult_le_compat; [done|lra|exact Hb|exact Hq]|]. lra.
  - rewrite Rabs_left in Hs, Hbig, Hx by lra. destruct (Rle_dec s (7 * PI)) as [Hl|Hl].
    + assert (0 <= sin s). { rewrite <- (Rplus_0_r s). replace (s + 0) with ((s - 6 * PI) + 2 * INR 3 * PI) by (cbn [INR]; lra). rewrite sin_period. apply sin_ge_0; lra. }
      assert (0 <= (- x) * sin s) by (apply Rmult_le_pos; lra). lra.
    + assert (E : sin s = - sin (s - 7 * PI)). { rewrite <- neg_sin, <- (sin_period (s - 7 * PI + PI) 3). f_equal. cbn [INR]. lra. }
      rewrite E. assert (0 <= sin (s - 7 * PI)) by (apply sin_ge_0; lra). assert (sin (s - 7 * PI) <= 38 / 100) by (eapply Rle_trans; [apply sin_upper; lra|lra]).
      assert ((- x) * sin (s - 7 * PI) <= 500 * (38 / 100)) by (apply Rmult_le_compat; lra). lra.
Qed.
Lemma schwefel_opt : let x := 4209687 / 10000 in cS - 1 / 100 <= x * sin (sqrt (Rabs x)).
Proof.
  cbn zeta. pose proof PI_bounds as [P1 P2]. rewrite Rabs_pos_eq by lra. set (x := 4209687 / 10000). set (s := sqrt x). assert (Hs : s * s = x) by (apply sqrt_sqrt; unfold x; lra). assert (Hs0 : 0 <= s) by apply sqrt_pos.
  assert (Hs1 : 205175 / 10000 <= s) by (apply Rnot_lt_le; intros H; assert (s * s <= 205175 / 10000 * (205175 / 10000)) by (apply Rmult_le_compat; lra); unfold x in Hs; lra).
  assert (Hs2 : s <= 205176 / 10000) by (apply Rnot_lt_le; intros H; assert (205176 / 10000 * (205176 / 10000) <= s * s) by (apply Rmult_le_compat; lra); unfold x in Hs; lra).
  set (t := s - 13 * PI / 2). assert (Ht : 0 <= t <= 973 / 10000) by (unfold t; lra). replace s with (13 * PI / 2 + t) by (unfold t; lra). rewrite sin_13.
  pose proof (cos_lower t ltac:(lra)) as C. assert (t ^ 2 <= (973 / 10000) ^ 2) by (apply pow_incr; lra). assert (x * (1 - (973 / 10000) ^ 2 / 2) <= x * cos t) by (apply Rmult_le_compat_l; [unfold x; lra|lra]). unfold x, cS in *. lra.
Qed.
