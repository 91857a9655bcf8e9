(** Lemmas about problems with two objectives. *)
From stdpp Require Import list list_numbers.
From Coq Require Import Reals Lra Lia.
From Verif Require Import ProblemModel ProblemSpec ProblemProofs.
Local Open Scope R_scope.

Lemma better2 (a b c d : R) : better [a; b] [c; d] <-> c <= a /\ d <= b /\ (c < a \/ d < b).
Proof.
  unfold better. cbn [length]. split.
  - intros (_ & H & i & Hi & G). pose proof (H 0%nat ltac:(lia)) as H0. pose proof (H 1%nat ltac:(lia)) as H1. cbn in H0, H1. repeat split; [done|done|]. destruct i as [|[|i]]; cbn in G; [by left|by right|lia].
  - intros (H0 & H1 & G). split; [done|]. split; [intros [|[|i]] Hi; cbn; [done|done|lia]|]. destruct G as [G|G]; [exists 0%nat|exists 1%nat]; (split; [lia|exact G]).
Qed.
(** If the second objective is at least a function of the first, and the points where it is
    equal attain all values of the first, then only those points can be optimal, and they are
    if no smaller first objective has a smaller second one. *)
Lemma front_pareto {X} (f : list X -> option (list R)) (box good : list X -> Prop) (a b : list X -> R) (phi : R -> R) :
  (forall v, box v -> f v = Some [- a v; - b v]) ->
  (forall v, box v -> phi (a v) <= b v) -> (forall v, box v -> good v <-> b v = phi (a v)) ->
  (forall v, box v -> exists w, box w /\ good w /\ a w = a v) ->
  forall v, pareto f box v <-> box v /\ good v /\ forall w, box w -> a w < a v -> phi (a v) < phi (a w).
Proof.
  intros F L G W v. split.
  - intros (Hv & y & Hy & Hd). rewrite F in Hy by done. injection Hy as <-. split; [done|]. split.
    + apply G; [done|]. destruct (Req_dec (b v) (phi (a v))) as [|Hne]; [done|]. exfalso. destruct (W v Hv) as (w & Hw & Hg & Ha). apply (Hd w _ Hw (F w Hw)).
      apply better2. apply G in Hg; [|done]. rewrite Hg, Ha. pose proof (L v Hv). split; [lra|]. split; lra.
    + intros w Hw Hlt. destruct (Rlt_dec (phi (a v)) (phi (a w))) as [|Hn]; [done|]. exfalso. destruct (W w Hw) as (w' & Hw' & Hg & Ha). apply (Hd w' _ Hw' (F w' Hw')).
      apply better2. apply G in Hg; [|done]. rewrite Hg, Ha. pose proof (L v Hv). split; [lra|]. split; lra.
  - intros (Hv & Hg & Hs). split; [done|]. exists [- a v; - b v]. split; [by apply F|]. intros w z Hw Hz Hb. rewrite F in Hz by done. injection Hz as <-. apply better2 in Hb as (H1 & H2 & H3).
    apply G in Hg; [|done]. pose proof (L w Hw). destruct (Req_dec (a w) (a v)) as [E|E]; [rewrite E in *; lra|]. specialize (Hs w Hw ltac:(lra)). lra.
Qed.
Lemma front_decreasing {X} (f : list X -> option (list R)) (box good : list X -> Prop) (a b : list X -> R) (phi : R -> R) :
  (forall v, box v -> f v = Some [- a v; - b v]) ->
  (forall v, box v -> phi (a v) <= b v) -> (forall v, box v -> good v <-> b v = phi (a v)) ->
  (forall v, box v -> exists w, box w /\ good w /\ a w = a v) ->
  (forall v w, box v -> box w -> a w < a v -> phi (a v) < phi (a w)) ->
  forall v, pareto f box v <-> box v /\ good v.
Proof.
  intros F L G W D v. rewrite (front_pareto f box good a b phi F L G W). split; [by intros (? & ? & _)|]. intros [H1 H2]. split; [done|]. split; [done|]. intros w Hw. by apply D.
Qed.

Lemma big_sum_last n h : (1 <= n)%nat -> big_sum n h = big_sum (n - 1) h + h (n - 1)%nat.
Proof. intros H. destruct n; [lia|]. cbn [big_sum]. by replace (S n - 1)%nat with n by lia. Qed.
Definition rest_zero (v : list R) : Prop := forall i, (1 <= i < length v)%nat -> entry v i = 0.
(** Sums over all variables but the first. *)
Lemma reduce_rest v : reduce (drop 1 v) = big_sum (length v - 1) (fun i => entry v (i + 1)).
Proof. destruct v as [|x v]; [done|]. cbn [drop length]. rewrite drop_0, reduce_sum. replace (S (length v) - 1)%nat with (length v) by lia. apply big_sum_ext. intros i Hi. by replace (i + 1)%nat with (S i) by lia. Qed.
Lemma reduce_rest_map h v : reduce (h <$> drop 1 v) = big_sum (length v - 1) (fun i => h (entry v (i + 1))).
Proof.
  destruct v as [|x v]; [done|]. cbn [drop length]. rewrite drop_0, reduce_sum, fmap_length. replace (S (length v) - 1)%nat with (length v) by lia. apply big_sum_ext. intros i Hi. replace (i + 1)%nat with (S i) by lia.
  unfold entry. cbn [nth]. destruct (lookup_lt_is_Some_2 v i Hi) as [y Hy]. rewrite (nth_lookup_Some v i 0 y Hy). apply nth_lookup_Some. by rewrite list_lookup_fmap, Hy.
Qed.
Lemma minus1 n : (1 <= n)%nat -> INR n - 1 = INR (n - 1).
Proof. intros H. rewrite minus_INR by lia. cbn. lra. Qed.
Lemma INR_pos1 n : (2 <= n)%nat -> 1 <= INR (n - 1).
Proof. intros H. replace 1 with (INR 1) by (cbn; lra). apply le_INR. lia. Qed.

(** A point with another first variable and the rest zero. *)
Definition first_only (n : nat) (x : R) : list R := x :: replicate (n - 1) 0.
Lemma first_only_length n x : (1 <= n)%nat -> length (first_only n x) = n.
Proof. intros. unfold first_only. cbn [length]. rewrite replicate_length. lia. Qed.
Lemma first_only_rest n x i : (1 <= i < n)%nat -> entry (first_only n x) i = 0.
Proof. intros [H1 H2]. unfold first_only. destruct i as [|i]; [lia|]. unfold entry. cbn [nth]. apply entry_replicate. lia. Qed.
Lemma first_only_zero n x : (1 <= n)%nat -> rest_zero (first_only n x).
Proof. intros Hn i Hi. rewrite first_only_length in Hi by done. by apply first_only_rest. Qed.
Lemma first_only_box n x : (1 <= n)%nat -> 0 <= x <= 1 -> in_box (replicate n 0) (replicate n 1) (first_only n x).
Proof.
  intros Hn Hx. apply in_box_uniform. split; [by apply first_only_length|]. intros [|i] Hi; [exact Hx|]. rewrite first_only_rest by lia. lra.
Qed.
Lemma replicate_first_only n : (1 <= n)%nat -> replicate n 0 = first_only n 0.
Proof. intros H. destruct n; [lia|]. unfold first_only. cbn [replicate]. by replace (S n - 1)%nat with n by lia. Qed.

(** The sum of the variables but the first, in a box of variables that are not negative. *)
Lemma rest_sum_nonneg v : (forall i, (i < length v)%nat -> 0 <= entry v i) -> 0 <= big_sum (length v - 1) (fun i => entry v (i + 1)).
Proof. intros H. apply big_sum_nonneg. intros i Hi. apply H. lia. Qed.
Lemma rest_sum_zero v : (forall i, (i < length v)%nat -> 0 <= entry v i) -> (big_sum (length v - 1) (fun i => entry v (i + 1)) = 0 <-> rest_zero v).
Proof.
  intros H. split.
  - intros E i Hi. assert (H' : forall i, (i < length v - 1)%nat -> 0 <= entry v (i + 1)) by (intros j Hj; apply H; lia). pose proof (big_sum_zero _ _ H' E (i - 1)%nat ltac:(lia)) as Z. cbn beta in Z. by replace (i - 1 + 1)%nat with i in Z by lia.
  - intros Z. rewrite (big_sum_ext _ _ (fun _ => 0)); [rewrite big_sum_const; lra|]. intros i Hi. apply Z. lia.
Qed.

(** g * sqrt (a / g) is sqrt a * sqrt g. *)
Lemma g_sqrt a g : 0 <= a -> 1 <= g -> g - g * sqrt (a / g) = sqrt g * sqrt g - sqrt a * sqrt g.
Proof.
  intros Ha Hg. rewrite sqrt_sqrt by lra. rewrite sqrt_div_alt by lra. assert (sqrt g <> 0) by (apply Rgt_not_eq, sqrt_lt_R0; lra). replace (g * (sqrt a / sqrt g)) with (sqrt a * (g / sqrt g)) by (field; done).
  replace (g / sqrt g) with (sqrt g); [done|]. replace g with (sqrt g * sqrt g) at 2 by (apply sqrt_sqrt; lra). field. done.
Qed.
Lemma sqrt_ge1 g : 1 <= g -> 1 <= sqrt g.
Proof. intros H. rewrite <- sqrt_1 at 1. by apply sqrt_le_1_alt. Qed.
Lemma sqrt_le1 a : a <= 1 -> sqrt a <= 1.
Proof. intros H. rewrite <- sqrt_1. by apply sqrt_le_1_alt. Qed.
(** The functions of the fronts: convex, and not convex. *)
Lemma convex_front a g : 0 <= a <= 1 -> 1 <= g -> 1 - sqrt a <= g - g * sqrt (a / g) /\ (g - g * sqrt (a / g) = 1 - sqrt a <-> g = 1).
Proof.
  intros [Ha1 Ha2] Hg. rewrite g_sqrt by done. pose proof (sqrt_ge1 g Hg) as Hs. pose proof (sqrt_le1 a Ha2). pose proof (sqrt_pos a).
  assert (E : sqrt g * sqrt g - sqrt a * sqrt g - (1 - sqrt a) = (sqrt g - 1) * (sqrt g + 1 - sqrt a)) by ring. assert (0 <= (sqrt g - 1) * (sqrt g + 1 - sqrt a)) by (apply Rmult_le_pos; lra). split; [lra|]. split.
  - intros Eq. assert (Z : (sqrt g - 1) * (sqrt g + 1 - sqrt a) = 0) by lra. apply Rmult_integral in Z as [Z|Z]; [|lra]. rewrite <- (sqrt_sqrt g) by lra. replace (sqrt g) with 1 by lra. lra.
  - intros ->. rewrite sqrt_1. lra.
Qed.
Lemma concave_front a g : 0 <= a -> 1 <= g -> 1 - a * a <= g - a * a / g /\ (g - a * a / g = 1 - a * a <-> g = 1).
Proof.
  intros Ha Hg. assert (E : g - a * a / g - (1 - a * a) = (g - 1) * (1 + a * a / g)) by (field; lra). assert (0 <= a * a / g) by (apply Rmult_le_pos; [nra|left; apply Rinv_0_lt_compat; lra]).
  assert (0 <= (g - 1) * (1 + a * a / g)) by (apply Rmult_le_pos; lra). split; [lra|]. split.
  - intros Eq. assert (Z : (g - 1) * (1 + a * a / g) = 0) by lra. apply Rmult_integral in Z as [Z|Z]; lra.
  - intros ->. field.
Qed.

(** g of ZDT1 to ZDT3. *)
Definition zdt_g (v : list R) : R := 1 + 9 / INR (length v - 1) * big_sum (length v - 1) (fun i => entry v (i + 1)).
Lemma zdt_g_ok n v : (2 <= n)%nat -> in_box (replicate n 0) (replicate n 1) v -> 1 <= zdt_g v /\ (zdt_g v = 1 <-> rest_zero v).
Proof.
  intros Hn Hv. apply in_box_uniform in Hv as [Hl Hv]. assert (Hp : forall i, (i < length v)%nat -> 0 <= entry v i) by (intros i Hi; apply Hv; lia).
  unfold zdt_g. pose proof (rest_sum_nonneg v Hp). rewrite <- (rest_sum_zero v Hp). pose proof (INR_pos1 (length v) ltac:(lia)). assert (0 < 9 / INR (length v - 1)) by (apply Rdiv_lt_0_compat; lra).
  set (s := big_sum _ _) in *. split; [assert (0 <= 9 / INR (length v - 1) * s) by (apply Rmult_le_pos; lra); lra|]. split.
  - intros E. assert (Z : 9 / INR (length v - 1) * s = 0) by lra. apply Rmult_integral in Z as [Z|Z]; lra.
  - intros ->. lra.
Qed.
Lemma zdt_g_rest v : (2 <= length v)%nat -> 1 + 9 * reduce (drop 1 v) / (INR (length v) - 1) = zdt_g v.
Proof. intros H. unfold zdt_g. rewrite minus1 by lia. pose proof (INR_pos1 (length v) H). rewrite reduce_rest. field. lra. Qed.

Lemma points2 {X} (f : list X -> option (list R)) (box : list X -> Prop) opt value v0 v1 (p0 q0 p1 q1 : R) :
  pareto f box opt -> f opt = Some value -> pareto f box v0 -> f v0 = Some [p0; q0] -> pareto f box v1 -> f v1 = Some [p1; q1] ->
  (forall v, box v -> exists p q, f v = Some [p; q] /\ p <= p0 /\ q <= q1) ->
  (forall v, pareto f box v -> exists p q, f v = Some [p; q] /\ p1 <= p /\ q0 <= q) ->
  points_correct f box opt value [p0; q1] [p1; q0].
Proof.
  intros Ho Hv P0 E0 P1 E1 I N. split; [done|]. split; [done|]. split; [|split; [|split]].
  - intros v y Hb Hy. destruct (I v Hb) as (p & q & E & H1 & H2). rewrite E in Hy. injection Hy as <-. split; [done|]. intros [|[|i]] Hi; cbn in *; [done|done|lia].
  - intros v y Hb Hy. destruct (N v Hb) as (p & q & E & H1 & H2). rewrite E in Hy. injection Hy as <-. split; [done|]. intros [|[|i]] Hi; cbn in *; [done|done|lia].
  - intros [|[|i]] Hi; [exists v0, [p0; q0]|exists v1, [p1; q1]|cbn in Hi; lia]; done.
  - intros [|[|i]] Hi; [exists v1, [p1; q1]|exists v0, [p0; q0]|cbn in Hi; lia]; done.
Qed.

(** ** ZDT4 *)
Lemma zdt4_box n v : (1 <= n)%nat -> in_box (<[0%nat := 0]> (replicate n (-5))) (<[0%nat := 1]> (replicate n 5)) v <-> length v = n /\ 0 <= entry v 0 <= 1 /\ forall i, (1 <= i < n)%nat -> -5 <= entry v i <= 5.
Proof.
  intros Hn. unfold in_box. rewrite !insert_length, !replicate_length.
  assert (E0 : forall x y, entry (<[0%nat := x]> (replicate n y)) 0 = x) by (intros; unfold entry; apply nth_lookup_Some, list_lookup_insert; rewrite replicate_length; lia).
  assert (E1 : forall x y i, (1 <= i < n)%nat -> entry (<[0%nat := x]> (replicate n y)) i = y) by (intros x y i Hi; unfold entry; apply nth_lookup_Some; rewrite list_lookup_insert_ne by lia; apply lookup_replicate; split; [done|lia]).
  split.
  - intros (Hl & _ & H). split; [done|]. split; [specialize (H 0%nat ltac:(lia)); by rewrite !E0 in H|]. intros i Hi. specialize (H i ltac:(lia)). by rewrite !E1 in H by done.
  - intros (Hl & H0 & H). split; [done|]. split; [done|]. intros i Hi. destruct i as [|i]; [by rewrite !E0|]. rewrite !E1 by lia. apply H. lia.
Qed.
Definition zdt4_g (v : list R) : R := 1 + 10 * INR (length v - 1) + big_sum (length v - 1) (fun i => entry v (i + 1) ^ 2 - 10 * cos (4 * PI * entry v (i + 1))).
Lemma zdt4_g_ok v : 1 <= zdt4_g v /\ (zdt4_g v = 1 <-> rest_zero v).
Proof.
  assert (E : zdt4_g v = 1 + big_sum (length v - 1) (fun i => 10 + (entry v (i + 1) ^ 2 - 10 * cos (4 * PI * entry v (i + 1))))).
  { unfold zdt4_g. rewrite (big_sum_plus _ (fun _ => 10)), big_sum_const. lra. }
  assert (N : forall i, (i < length v - 1)%nat -> 0 <= 10 + (entry v (i + 1) ^ 2 - 10 * cos (4 * PI * entry v (i + 1)))).
  { intros i _. pose proof (sq_nonneg (entry v (i + 1))). pose proof (cos_le_1 (4 * PI * entry v (i + 1))). lra. }
  rewrite E. pose proof (big_sum_nonneg _ _ N) as P. split; [lra|]. split.
  - intros Eq i Hi. assert (Z : big_sum (length v - 1) (fun i => 10 + (entry v (i + 1) ^ 2 - 10 * cos (4 * PI * entry v (i + 1)))) = 0) by lra.
    pose proof (big_sum_zero _ _ N Z (i - 1)%nat ltac:(lia)) as H. cbn beta in H. replace (i - 1 + 1)%nat with i in H by lia. apply sq0. pose proof (sq_nonneg (entry v i)). pose proof (cos_le_1 (4 * PI * entry v i)). lra.
  - intros Z. rewrite (big_sum_ext _ _ (fun _ => 0)); [rewrite big_sum_const; lra|]. intros i Hi. rewrite Z by lia. rewrite Rmult_0_r, cos_0. lra.
Qed.

(** ** ZDT6 *)
Lemma rpow_nonneg x y : 0 <= rpow x y.
Proof. unfold rpow. destruct (Rlt_dec 0 x); [|lra]. left. apply exp_pos. Qed.
Lemma rpow_zero x y : 0 <= x -> (rpow x y = 0 <-> x = 0).
Proof.
  intros Hx. unfold rpow. destruct (Rlt_dec 0 x); [|split; intros; lra]. split; [|lra]. intros H. pose proof (exp_pos (y * ln x)). unfold Rpower in H. lra.
Qed.
Definition zdt6_g (v : list R) : R := 1 + 9 * rpow (big_sum (length v - 1) (fun i => entry v (i + 1)) / INR (length v - 1)) (1 / 4).
Lemma zdt6_g_ok n v : (2 <= n)%nat -> in_box (replicate n 0) (replicate n 1) v -> 1 <= zdt6_g v /\ (zdt6_g v = 1 <-> rest_zero v).
Proof.
  intros Hn Hv. apply in_box_uniform in Hv as [Hl Hv]. assert (Hp : forall i, (i < length v)%nat -> 0 <= entry v i) by (intros i Hi; apply Hv; lia).
  unfold zdt6_g. pose proof (rest_sum_nonneg v Hp). rewrite <- (rest_sum_zero v Hp). pose proof (INR_pos1 (length v) ltac:(lia)).
  set (s := big_sum _ _) in *. assert (0 <= s / INR (length v - 1)) by (apply Rmult_le_pos; [lra|left; apply Rinv_0_lt_compat; lra]). pose proof (rpow_nonneg (s / INR (length v - 1)) (1 / 4)). split; [lra|]. split.
  - intros E. assert (Z : rpow (s / INR (length v - 1)) (1 / 4) = 0) by lra. apply rpow_zero in Z; [|done]. unfold Rdiv in Z. apply Rmult_integral in Z as [Z|Z]; [done|]. pose proof (Rinv_0_lt_compat (INR (length v - 1)) ltac:(lra)). lra.
  - intros ->. replace (0 / INR (length v - 1)) with 0 by (unfold Rdiv; lra). rewrite (proj2 (rpow_zero 0 _ ltac:(lra))) by done. lra.
Qed.
Definition zdt6_f (x : R) : R := 1 - exp (- 4 * x) * sin (6 * PI * x) ^ 6.
Lemma sin6 x : 0 <= sin x ^ 6 <= 1.
Proof. replace (sin x ^ 6) with ((sin x ^ 2) ^ 3) by ring. pose proof (sq_nonneg (sin x)). pose proof (sin2_cos2 x) as H'. unfold Rsqr in H'. assert (sin x ^ 2 <= 1) by (pose proof (sq_nonneg (cos x)); lra). split; [apply pow_le; lra|]. replace 1 with (1 ^ 3) by ring. apply pow_incr. lra. Qed.
Lemma zdt6_f_range x : 0 <= x -> 0 < zdt6_f x <= 1.
Proof.
  intros Hx. unfold zdt6_f. pose proof (sin6 (6 * PI * x)). pose proof (exp_pos (-4 * x)). assert (E : exp (-4 * x) <= 1) by (rewrite <- exp_0; apply exp_le; lra).
  split; [|assert (0 <= exp (-4 * x) * sin (6 * PI * x) ^ 6) by (apply Rmult_le_pos; lra); lra]. destruct (Req_dec x 0) as [->|Hn].
  - rewrite !Rmult_0_r, sin_0. rewrite pow_i by lia. lra.
  - assert (exp (-4 * x) < 1) by (rewrite <- exp_0; apply exp_increasing; lra). assert (exp (-4 * x) * sin (6 * PI * x) ^ 6 <= exp (-4 * x) * 1) by (apply Rmult_le_compat_l; lra). lra.
Qed.
(** A point of the front with a first objective below sqrt 0.08. *)
Lemma zdt6_low : zdt6_f (815 / 10000) * zdt6_f (815 / 10000) < 8 / 100.
Proof.
  pose proof PI_bounds as [P1 P2]. pose proof (zdt6_f_range (815 / 10000) ltac:(lra)) as [R1 _]. assert (H : zdt6_f (815 / 10000) <= 2828 / 10000).
  { unfold zdt6_f. set (c := PI / 2 - 6 * PI * (815 / 10000)). replace (6 * PI * (815 / 10000)) with (PI / 2 - c) by (unfold c; lra). rewrite sin_shift.
    assert (Hc : 0 <= c <= 346 / 10000) by (unfold c; lra). pose proof (cos_lower c ltac:(lra)) as C. assert (c ^ 2 <= (346 / 10000) ^ 2) by (apply pow_incr; lra).
    assert (C6 : (9994 / 10000) ^ 6 <= cos c ^ 6) by (apply pow_incr; lra).
    set (e := exp (- (326 / 64000))). assert (E : exp (-4 * (815 / 10000)) = ((((((e * e) * (e * e)) * ((e * e) * (e * e))) * (((e * e) * (e * e)) * ((e * e) * (e * e))))
      * ((((e * e) * (e * e)) * ((e * e) * (e * e))) * (((e * e) * (e * e)) * ((e * e) * (e * e)))))
      * (((((e * e) * (e * e)) * ((e * e) * (e * e))) * (((e * e) * (e * e)) * ((e * e) * (e * e))))
      * ((((e * e) * (e * e)) * ((e * e) * (e * e))) * (((e * e) * (e * e)) * ((e * e) * (e * e))))))) by (unfold e; rewrite <- !exp_plus; f_equal; lra).
    assert (S : forall a b x : R, 0 <= a -> b <= a * a -> a <= x -> b <= x * x) by (intros a b x H1 H2 H3; assert (a * a <= x * x) by (apply Rmult_le_compat; lra); lra).
    assert (E1 : 99490 / 100000 <= e) by (unfold e; pose proof (exp_ineq1_le (- (326 / 64000))); lra).
    assert (E2 : 98982 / 100000 <= e * e) by (apply (S (99490 / 100000)); lra).
    assert (E3 : 97974 / 100000 <= (e * e) * (e * e)) by (apply (S (98982 / 100000)); lra). set (e4 := (e * e) * (e * e)) in *.
    assert (E4 : 95988 / 100000 <= e4 * e4) by (apply (S (97974 / 100000)); lra). set (e8 := e4 * e4) in *.
    assert (E5 : 92136 / 100000 <= e8 * e8) by (apply (S (95988 / 100000)); lra). set (e16 := e8 * e8) in *.
    assert (E6 : 84890 / 100000 <= e16 * e16) by (apply (S (92136 / 100000)); lra). set (e32 := e16 * e16) in *.
    assert (E7 : 72063 / 100000 <= e32 * e32) by (apply (S (84890 / 100000)); lra). rewrite E.
    assert (72063 / 100000 * (9994 / 10000) ^ 6 <= e32 * e32 * cos c ^ 6) by (apply Rmult_le_compat; lra). lra. }
  assert (zdt6_f (815 / 10000) * zdt6_f (815 / 10000) <= 2828 / 10000 * (2828 / 10000)) by (apply Rmult_le_compat; lra). lra.
Qed.

(** ** ZDT3 *)
Definition zdt3_phi (a : R) : R := 1 - sqrt a - a * sin (10 * PI * a).
Lemma zdt3_turn x : sin (10 * PI * x) = cos (10 * PI * (x - 85 / 100)).
Proof. rewrite cos_sin, <- (sin_period (PI / 2 + 10 * PI * (x - 85 / 100)) 4). f_equal. cbn [INR]. lra. Qed.
Lemma zdt3_low x : 0 <= x <= 1 -> - (8 / 10) <= zdt3_phi x.
Proof.
  intros [H0 H1]. pose proof PI_bounds as [P1 P2]. unfold zdt3_phi. pose proof (SIN_bound (10 * PI * x)) as [S1 S2]. assert (Hb : x * sin (10 * PI * x) <= x * 1) by (apply Rmult_le_compat_l; lra).
  assert (Q : forall y z, 0 <= z -> 0 <= y -> y <= z * z -> sqrt y <= z) by (intros y z Hz Hy Hyz; rewrite <- (sqrt_square z) by done; by apply sqrt_le_1_alt).
  destruct (Rle_dec x (868 / 1000)) as [Ha|Ha]; [pose proof (Q x (932 / 1000) ltac:(lra) H0 ltac:(lra)); lra|].
  set (t := 10 * PI * (x - 85 / 100)). pose proof (zdt3_turn x) as E. fold t in E. rewrite E in *.
  destruct (Rle_dec x (9 / 10)) as [Hc|Hc].
  - pose proof (Q x (949 / 1000) ltac:(lra) H0 ltac:(lra)).
    assert (T1 : 565 / 1000 <= t). { unfold t. assert (10 * (314159 / 100000) * (18 / 1000) <= 10 * PI * (x - 85 / 100)) by (apply Rmult_le_compat; lra). lra. }
    assert (T2 : t <= 16 / 10). { unfold t. assert (10 * PI * (x - 85 / 100) <= 10 * (31416 / 10000) * (5 / 100)) by (apply Rmult_le_compat; lra). lra. }
    pose proof (cos_upper t ltac:(lra)) as C. assert (t * t <= 256 / 100) by (assert (t * t <= 16 / 10 * (16 / 10)) by (apply Rmult_le_compat; lra); lra). assert (565 / 1000 * (565 / 1000) <= t * t) by (apply Rmult_le_compat; lra).
    assert (t ^ 4 <= t ^ 2 * (256 / 100)) by (replace (t ^ 4) with (t ^ 2 * (t * t)) by ring; apply Rmult_le_compat_l; [apply sq_nonneg|lra]).
    assert (Ct : cos t <= 88 / 100) by lra. assert (x * cos t <= x * (88 / 100)) by (apply Rmult_le_compat_l; lra). lra.
  - pose proof (Q x 1 ltac:(lra) H0 ltac:(lra)). assert (Ct : cos t <= 0).
    { apply cos_le_0; unfold t; assert (HP : 0 < PI) by lra.
      - assert (10 * PI * (5 / 100) <= 10 * PI * (x - 85 / 100)) by (apply Rmult_le_compat_l; lra). lra.
      - assert (10 * PI * (x - 85 / 100) <= 10 * PI * (15 / 100)) by (apply Rmult_le_compat_l; lra). lra. }
    assert (x * cos t <= x * 0) by (apply Rmult_le_compat_l; lra). lra.
Qed.
(** 0.851 is a point of the front. *)
Lemma zdt3_far a : 0 <= a < 851 / 1000 -> zdt3_phi (851 / 1000) < zdt3_phi a.
Proof.
  intros [H0 H1]. pose proof PI_bounds as [P1 P2]. unfold zdt3_phi. rewrite !zdt3_turn. set (b := 851 / 1000) in *. assert (Hs : sqrt a < sqrt b) by (apply sqrt_lt_1_alt; lra).
  set (be := 10 * PI * (b - 85 / 100)). assert (Hbe : 314 / 10000 <= be <= 3142 / 100000) by (unfold be, b; lra). pose proof (cos_lower be ltac:(lra)) as Cb. assert (be ^ 2 <= (3142 / 100000) ^ 2) by (apply pow_incr; lra).
  destruct (Rle_dec a (85 / 100)) as [Ha|Ha].
  - assert (a * cos (10 * PI * (a - 85 / 100)) <= a * 1) by (apply Rmult_le_compat_l; [done|apply COS_bound]). assert (b * (1 - (3142 / 100000) ^ 2 / 2) <= b * cos be) by (apply Rmult_le_compat_l; unfold b; lra). unfold b in *. lra.
  - set (al := 10 * PI * (a - 85 / 100)). assert (Hal : 0 <= al) by (unfold al; apply Rmult_le_pos; lra). assert (Hd : be - al = 10 * PI * (b - a)) by (unfold be, al; ring).
    assert (Hd2 : be - al <= 31416 / 1000 * (b - a)) by (rewrite Hd; apply Rmult_le_compat_r; lra). assert (Hd0 : 0 <= be - al) by (rewrite Hd; apply Rmult_le_pos; lra).
    assert (C : cos al - cos be <= be * (be - al)).
    { rewrite form2. replace (-2 * sin ((al - be) / 2) * sin ((al + be) / 2)) with (2 * (sin ((be - al) / 2) * sin ((al + be) / 2))) by (replace ((al - be) / 2) with (- ((be - al) / 2)) by lra; rewrite sin_neg; ring).
      assert (sin ((be - al) / 2) <= (be - al) / 2) by (apply sin_upper; lra). assert (sin ((al + be) / 2) <= (al + be) / 2) by (apply sin_upper; lra).
      assert (0 <= sin ((be - al) / 2)) by (apply sin_ge_0; lra). assert (0 <= sin ((al + be) / 2)) by (apply sin_ge_0; lra).
      assert (sin ((be - al) / 2) * sin ((al + be) / 2) <= (be - al) / 2 * ((al + be) / 2)) by (apply Rmult_le_compat; lra).
      assert ((be - al) / 2 * ((al + be) / 2) <= (be - al) / 2 * be) by (apply Rmult_le_compat_l; lra). lra. }
    assert (be * (be - al) <= 3142 / 100000 * (31416 / 1000 * (b - a))) by (apply Rmult_le_compat; lra).
    assert (D : cos al - cos be <= 99 / 100 * (b - a)) by lra. assert (a * (cos al - cos be) <= a * (99 / 100 * (b - a))) by (apply Rmult_le_compat_l; lra).
    assert (a * (99 / 100 * (b - a)) <= 851 / 1000 * (99 / 100 * (b - a))) by (apply Rmult_le_compat_r; unfold b in *; lra).
    assert ((b - a) * (99 / 100) <= (b - a) * cos be) by (apply Rmult_le_compat_l; lra).
    assert (a * cos al - b * cos be = a * (cos al - cos be) - (b - a) * cos be) by ring. lra.
Qed.

(** ** ZDT5 *)
Lemma count_ones_trues l : count_ones l = trues l.
Proof. unfold count_ones. induction l as [|b l IH]; [done|]. rewrite filter_cons. destruct b; cbn [trues]; [rewrite decide_True by done; cbn [length]; by rewrite IH|rewrite decide_False by done; by rewrite IH]. Qed.
Lemma trues_le l : (trues l <= length l)%nat.
Proof. induction l as [|b l IH]; cbn [trues length]; [lia|]. destruct b; lia. Qed.
Lemma trues_all l : trues l = length l <-> l = replicate (length l) true.
Proof.
  induction l as [|b l IH]; cbn [trues length replicate]; [done|]. pose proof (trues_le l). destruct b.
  - split; [intros E; f_equal; apply IH; lia|]. intros E. injection E as E. apply IH in E. lia.
  - split; [lia|]. intros E. discriminate.
Qed.
Lemma trues_replicate n b : trues (replicate n b) = if b then n else 0%nat.
Proof. induction n as [|n IH]; cbn [replicate trues]; [by destruct b|]. rewrite IH. by destruct b. Qed.
(** The value of one of the short variables. *)
Definition zdt5_v (ones : nat) : R := if decide (ones = 5%nat) then 1 else 2 + INR ones.
Lemma zdt5_loop_sum m : forall fuel vars g, (m <= fuel)%nat -> length vars = (5 * m)%nat -> zdt5_loop fuel vars g = g + big_sum m (fun j => zdt5_v (trues (take 5 (drop (5 * j) vars)))).
Proof.
  induction m as [|m IH]; intros fuel vars g Hf Hl.
  - cbn [big_sum]. destruct fuel; cbn [zdt5_loop]; [lra|]. rewrite decide_False by (unfold REST_BITS; lia). lra.
  - destruct fuel as [|fuel]; [lia|]. cbn [zdt5_loop]. rewrite decide_True by (unfold REST_BITS; lia). cbn zeta. rewrite (IH fuel) by (rewrite ?drop_length; unfold REST_BITS; lia).
    rewrite big_sum_front. change (drop (5 * 0) vars) with vars. rewrite count_ones_trues. unfold REST_BITS. fold (zdt5_v (trues (take 5 vars))).
    rewrite (big_sum_ext _ (fun j => zdt5_v (trues (take 5 (drop (5 * j) (drop 5 vars))))) (fun j => zdt5_v (trues (take 5 (drop (5 * S j) vars))))); [lra|].
    intros i _. rewrite drop_drop. do 4 f_equal. lia.
Qed.
Lemma zdt5_v_ge k : 1 <= zdt5_v k /\ (zdt5_v k = 1 <-> k = 5%nat).
Proof. unfold zdt5_v. pose proof (pos_INR k). destruct (decide (k = 5%nat)); (split; [lra|]); split; intros; try done; lra. Qed.
Definition zdt5_sum (m : nat) (l : list bool) : R := big_sum m (fun j => zdt5_v (trues (take 5 (drop (5 * j) l)))).
Lemma zdt5_sum_ge m l : length l = (5 * m)%nat -> INR m <= zdt5_sum m l /\ (zdt5_sum m l = INR m <-> l = replicate (5 * m) true).
Proof.
  intros Hl. unfold zdt5_sum. assert (N : forall j, (j < m)%nat -> 0 <= zdt5_v (trues (take 5 (drop (5 * j) l))) - 1) by (intros j _; pose proof (proj1 (zdt5_v_ge (trues (take 5 (drop (5 * j) l))))); lra).
  assert (E : big_sum m (fun j => zdt5_v (trues (take 5 (drop (5 * j) l)))) = INR m + big_sum m (fun j => zdt5_v (trues (take 5 (drop (5 * j) l))) - 1)).
  { unfold Rminus. rewrite (big_sum_plus _ _ (fun _ => - (1))), big_sum_const. lra. }
  rewrite E. pose proof (big_sum_nonneg _ _ N). split; [lra|]. split.
  - intros Eq. assert (Z : big_sum m (fun j => zdt5_v (trues (take 5 (drop (5 * j) l))) - 1) = 0) by lra. pose proof (big_sum_zero _ _ N Z) as H'. cbn beta in H'.
    apply list_eq. intros i. destruct (decide (i < 5 * m)%nat) as [Hi|Hi]; [|rewrite !lookup_ge_None_2; [done|rewrite replicate_length; lia|lia]].
    rewrite (lookup_replicate_2 (5 * m) true i) by done. set (j := (i / 5)%nat). pose proof (Nat.div_mod i 5 ltac:(lia)) as Ed. pose proof (Nat.mod_upper_bound i 5 ltac:(lia)) as Hm. assert (Hj : (j < m)%nat) by (apply Nat.div_lt_upper_bound; lia).
    specialize (H' j Hj). assert (T : trues (take 5 (drop (5 * j) l)) = 5%nat) by (apply zdt5_v_ge; lra). assert (L : length (take 5 (drop (5 * j) l)) = 5%nat) by (rewrite take_length, drop_length; lia).
    assert (R5 : take 5 (drop (5 * j) l) = replicate 5 true) by (pose proof (proj1 (trues_all (take 5 (drop (5 * j) l))) ltac:(lia)) as Q; by rewrite L in Q). assert (K : take 5 (drop (5 * j) l) !! (i mod 5)%nat = Some true) by (rewrite R5; by apply lookup_replicate_2).
    rewrite lookup_take, lookup_drop in K by done. by replace (5 * j + i mod 5)%nat with i in K by (unfold j; lia).
  - intros ->. rewrite (big_sum_ext _ _ (fun _ => 0)); [rewrite big_sum_const; lra|]. intros j Hj. rewrite drop_replicate, take_replicate, trues_replicate. replace (5 `min` (5 * m - 5 * j))%nat with 5%nat by lia. unfold zdt5_v. rewrite decide_True by done. lra.
Qed.

(** ** Kursawe *)
Lemma kursawe_low y : 0 < y -> y ^ 15 <= 61 / 10 -> y <= 1134 / 1000.
Proof.
  intros Hy H. apply Rnot_lt_le. intros C. assert ((1134 / 1000) ^ 15 <= y ^ 15) by (apply pow_incr; lra). lra.
Qed.
(** The variable with cube - pi / 2. *)
Definition kursawe_x : R := - Rpower (PI / 2) (/ 3).
Lemma kursawe_x_cube : kursawe_x ^ 3 = - (PI / 2).
Proof.
  unfold kursawe_x. pose proof PI_RGT_0. replace ((- Rpower (PI / 2) (/ 3)) ^ 3) with (- Rpower (PI / 2) (/ 3) ^ 3) by ring. f_equal. rewrite <- Rpower_pow by apply exp_pos. rewrite Rpower_mult. replace (/ 3 * INR 3) with 1 by (cbn; lra). apply Rpower_1. lra.
Qed.
Lemma kursawe_x_value : rpow (Rabs kursawe_x) (8 / 10) + 5 * sin (kursawe_x ^ 3) <= - (3866 / 1000).
Proof.
  pose proof PI_bounds as [P1 P2]. rewrite kursawe_x_cube, sin_neg, sin_PI2. unfold kursawe_x. rewrite Rabs_Ropp. assert (Hp : 0 < Rpower (PI / 2) (/ 3)) by apply exp_pos. rewrite Rabs_pos_eq by lra.
  unfold rpow. destruct (Rlt_dec 0 (Rpower (PI / 2) (/ 3))); [|lra]. rewrite Rpower_mult. assert (Rpower (PI / 2) (/ 3 * (8 / 10)) <= 1134 / 1000); [|lra]. apply kursawe_low; [apply exp_pos|].
  rewrite <- Rpower_pow by apply exp_pos. rewrite Rpower_mult. replace (INR 15) with 15 by (rewrite INR_IZR_INZ; done). replace (/ 3 * (8 / 10) * 15) with (INR 4) by (replace (INR 4) with 4 by (rewrite INR_IZR_INZ; done); lra). rewrite Rpower_pow by lra.
  eapply Rle_trans; [apply (pow_incr _ (157081 / 100000)); lra|lra].
Qed.
Lemma kursawe_x_box : -5 <= kursawe_x <= 5.
Proof.
  pose proof PI_bounds as [P1 P2]. pose proof kursawe_x_cube as C. assert (kursawe_x <= 0) by (unfold kursawe_x; pose proof (exp_pos (/ 3 * ln (PI / 2))); unfold Rpower; lra). split; [|lra]. apply Rnot_lt_le. intros Hc.
  assert (5 ^ 3 <= (- kursawe_x) ^ 3) by (apply pow_incr; lra). replace ((- kursawe_x) ^ 3) with (- kursawe_x ^ 3) in * by ring. lra.
Qed.
