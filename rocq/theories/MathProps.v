(** C112: the vector functions and the statistics compute what their names say, in exact arithmetic. *)
From stdpp Require Import list list_numbers.
From Coq Require Import Reals Lra Lia.
From Verif Require Import MathModel MathSpec.
Local Open Scope R_scope.

(** ** Sums *)
Lemma total_app a b : total (a ++ b) = total a + total b.
Proof. unfold total. induction a as [|x a IH]; cbn in *; lra. Qed.
Lemma foldl_total {A} (f : A -> R) l z : foldl (fun acc p => acc + f p) z l = z + total (f <$> l).
Proof. revert z. unfold total. induction l as [|p l IH]; intros z; cbn in *; [lra|]. rewrite IH. lra. Qed.
Lemma inner_dot a b : inner_product a b = dot a b.
Proof. unfold inner_product, dot. rewrite (foldl_total (fun p => p.1 * p.2)). rewrite Rplus_0_l. f_equal. revert b. induction a as [|x a IH]; intros [|y b]; cbn; [done..|]. by rewrite IH. Qed.
Lemma zip_total (f : R -> R -> R) a b : total ((fun p => f p.1 p.2) <$> zip a b) = total (zip_with f a b).
Proof. f_equal. revert b. induction a as [|x a IH]; intros [|y b]; cbn; [done..|]. by rewrite IH. Qed.
Lemma total_nonneg l : Forall (fun x => 0 <= x) l -> 0 <= total l.
Proof. unfold total. induction 1; cbn in *; lra. Qed.
Lemma total_zero l : Forall (fun x => 0 <= x) l -> total l = 0 -> Forall (fun x => x = 0) l.
Proof.
  induction 1 as [|x l Hx Hl IH]; intros Ht; [constructor|]. cbn in Ht. pose proof (total_nonneg l Hl) as Hn. unfold total in *. constructor; [lra|]. apply IH. lra.
Qed.
Lemma total_fmap_scale {A} (f : A -> R) c l : total ((fun x => c * f x) <$> l) = c * total (f <$> l).
Proof. unfold total. induction l as [|x l IH]; cbn in *; lra. Qed.
Lemma total_fmap_plus {A} (f g : A -> R) l : total ((fun x => f x + g x) <$> l) = total (f <$> l) + total (g <$> l).
Proof. unfold total. induction l as [|x l IH]; cbn in *; lra. Qed.
Lemma total_fmap_const {A} c (l : list A) : total ((fun _ => c) <$> l) = INR (length l) * c.
Proof. unfold total. induction l as [|x l IH]; [cbn; lra|]. cbn [length]. rewrite S_INR. cbn in *. lra. Qed.
Lemma total_ext {A} (f g : A -> R) l : (forall x, f x = g x) -> total (f <$> l) = total (g <$> l).
Proof. intros H. unfold total. induction l as [|x l IH]; cbn in *; [done|]. by rewrite IH, H. Qed.
Lemma sq_nonneg x : 0 <= x ^ 2. Proof. cbn. rewrite Rmult_1_r. apply Rle_0_sqr. Qed.
Lemma sq_zero x : x ^ 2 = 0 -> x = 0. Proof. intros H. cbn in H. rewrite Rmult_1_r in H. by apply Rsqr_0_uniq. Qed.

(** ** Vectors *)
Lemma dot_self v : dot v v = total ((fun x => x ^ 2) <$> v).
Proof. unfold dot. f_equal. induction v as [|x v IH]; cbn; [done|]. rewrite IH. f_equal. lra. Qed.
Lemma squares_nonneg {A} (f : A -> R) l : Forall (fun x => 0 <= x) ((fun x => f x ^ 2) <$> l).
Proof. apply Forall_fmap, Forall_true. intros x. apply sq_nonneg. Qed.
Lemma dot_nonneg v : 0 <= dot v v.
Proof. rewrite dot_self. apply total_nonneg, (squares_nonneg id). Qed.
Lemma dot_zero v : dot v v = 0 <-> zeros v.
Proof.
  rewrite dot_self. split.
  - intros H. apply total_zero in H; [|apply (squares_nonneg id)]. apply Forall_fmap in H. eapply Forall_impl; [exact H|]. intros x Hx. by apply sq_zero.
  - induction 1 as [|x v Hx Hv IH]; [done|]. unfold total in *. cbn in *. subst. lra.
Qed.
Theorem C112_norm v : 0 <= euclideanNorm v /\ euclideanNorm v ^ 2 = dot v v /\ (euclideanNorm v = 0 <-> zeros v).
Proof.
  unfold euclideanNorm. rewrite inner_dot. pose proof (dot_nonneg v) as Hn. split; [apply sqrt_pos|]. split; [rewrite <- Rsqr_pow2; by apply Rsqr_sqrt|].
  rewrite <- dot_zero. split; [by apply sqrt_eq_0|]. intros ->. apply sqrt_0.
Qed.
Lemma dot_scale a b v : dot (scale a v) (scale b v) = a * b * dot v v.
Proof. unfold dot, scale, total. induction v as [|x v IH]; cbn in *; [lra|]. rewrite IH. lra. Qed.
Lemma fmap_div c v : (fun x => x / c) <$> v = scale (/ c) v.
Proof. apply list_fmap_ext. intros i x _. unfold Rdiv. apply Rmult_comm. Qed.
(** A unit vector of the same direction. *)
Theorem C112_normalize v : ~ zeros v -> exists w c, normalizeVector v = Some w /\ euclideanNorm w = 1 /\ 0 < c /\ v = scale c w.
Proof.
  intros Hv. unfold normalizeVector. destruct (C112_norm v) as (Hp & Hsq & Hz). destruct (Req_EM_T (euclideanNorm v) 0) as [E|E]; [by apply Hz in E|]. set (n := euclideanNorm v) in *. assert (0 < n) by lra.
  exists (scale (/ n) v), n. rewrite fmap_div. split_and!; [done| |done|].
  - unfold euclideanNorm. rewrite inner_dot, dot_scale, <- Hsq. replace (/ n * / n * n ^ 2) with 1 by (field; lra). apply sqrt_1.
  - unfold scale. rewrite <- list_fmap_compose. rewrite <- (list_fmap_id v) at 1. apply list_fmap_ext. intros i x _. cbn. field. lra.
Qed.
Theorem C112_normalize_zero v : zeros v -> normalizeVector v = None.
Proof. intros H. unfold normalizeVector. destruct (C112_norm v) as (_ & _ & Hz). destruct (Req_EM_T _ _) as [|E]; [done|]. by destruct E; apply Hz. Qed.

Lemma zip_squares_nonneg (f : R -> R -> R) a b : Forall (fun x => 0 <= x) (zip_with (fun x y => f x y ^ 2) a b).
Proof. revert b. induction a as [|x a IH]; intros [|y b]; cbn; constructor; [apply sq_nonneg|apply IH]. Qed.
Theorem C112_distance v1 v2 : length v1 = length v2 ->
  euclideanDistanceSq v1 v2 = Some (dist2 v1 v2) /\ 0 <= dist2 v1 v2 /\ (dist2 v1 v2 = 0 <-> v1 = v2) /\ dist2 v1 v2 = dist2 v2 v1.
Proof.
  intros Hl. split_and!.
  - unfold euclideanDistanceSq. destruct (decide _); [|done]. rewrite (foldl_total (fun p => (p.1 - p.2) ^ 2)), Rplus_0_l. by rewrite (zip_total (fun x y => (x - y) ^ 2)).
  - apply total_nonneg, zip_squares_nonneg.
  - split.
    + intros H. apply total_zero in H; [|apply zip_squares_nonneg]. revert v2 Hl H. induction v1 as [|x v1 IH]; intros [|y v2] Hl H; cbn in *; [done..|]. inversion H as [|? ? Hx Ht]; subst. apply sq_zero in Hx. f_equal; [lra|]. apply IH; [lia|done].
    + intros ->. clear Hl. unfold dist2, total. induction v2 as [|x v IH]; cbn in *; lra.
  - revert v2 Hl. unfold dist2, total. induction v1 as [|x v1 IH]; intros [|y v2] Hl; cbn in *; [done..|]. rewrite (IH v2) by lia. lra.
Qed.

(** The squared distance of a point from the line through the origin: the least over all points of the line. *)
Lemma dist2_line t l p : length l = length p -> dist2 (scale t l) p = t * t * dot l l - 2 * t * dot l p + dot p p.
Proof. revert p. unfold dist2, dot, scale, total. induction l as [|x l IH]; intros [|y p] Hl; cbn in *; [lra|done..|]. rewrite (IH p) by lia. lra. Qed.
Theorem C112_perpendicular line point : length line = length point -> ~ zeros line ->
  exists d, perpendicularDistanceSq line point = Some d /\ (exists t, d = dist2 (scale t line) point) /\ forall t, d <= dist2 (scale t line) point.
Proof.
  intros Hl Hz. unfold perpendicularDistanceSq. destruct (decide _); [|done]. rewrite !inner_dot. destruct (Req_EM_T (dot line line) 0) as [E|E]; [by apply dot_zero in E|].
  pose proof (dot_nonneg line) as Hn. set (k := dot line point / dot line line). rewrite (foldl_total (fun p => (p.2 - k * p.1) ^ 2)), Rplus_0_l.
  assert (Ek : total ((fun p => (p.2 - k * p.1) ^ 2) <$> zip line point) = dist2 (scale k line) point).
  { clear. unfold dist2, scale, total. clearbody k. revert point. induction line as [|x l IH]; intros [|y p]; cbn; [done..|]. cbn in IH. rewrite IH. lra. }
  rewrite Ek. eexists. split; [done|]. split; [by exists k|]. intros t. rewrite !dist2_line by done.
  assert (Hk : dot line point = k * dot line line) by (unfold k; field; done). rewrite Hk. assert (0 <= (t - k) ^ 2 * dot line line) by (apply Rmult_le_pos; [apply sq_nonneg|done]). cbn in *. lra.
Qed.
Theorem C112_perpendicular_zero line point : zeros line -> perpendicularDistanceSq line point = None.
Proof. intros H. unfold perpendicularDistanceSq. rewrite inner_dot. destruct (decide _); [|done]. destruct (Req_EM_T _ _) as [|E]; [done|]. by destruct E; apply dot_zero. Qed.

Theorem C112_volume p1 p2 : length p1 = length p2 ->
  volumeBetween p1 p2 = Some (foldr Rmult 1 (zip_with (fun x y => Rabs (x - y)) p1 p2)).
Proof.
  intros Hl. unfold volumeBetween. destruct (decide _); [|done]. f_equal.
  assert (G : forall z, Rabs (foldl (fun acc p => acc * (p.1 - p.2)) z (zip p1 p2)) = Rabs z * foldr Rmult 1 (zip_with (fun x y => Rabs (x - y)) p1 p2)).
  { clear. revert p2. induction p1 as [|x p1 IH]; intros [|y p2] z; cbn; [lra..|]. rewrite IH, Rabs_mult. lra. }
  rewrite G, Rabs_R1. lra.
Qed.

(** Vectors of different lengths are caught by the assertions. *)
Theorem C112_lengths a b : length a <> length b -> euclideanDistanceSq a b = None /\ perpendicularDistanceSq a b = None /\ volumeBetween a b = None.
Proof. intros H. unfold euclideanDistanceSq, perpendicularDistanceSq, volumeBetween. by destruct (decide (length a = length b)). Qed.

(** ** Statistics *)
Lemma mean_total v : v <> [] -> exists m, mean v = Some m /\ INR (length v) * m = total v.
Proof.
  intros Hv. unfold mean. destruct (decide (v = [])) as [|_]; [done|]. assert (Hn : 0 < INR (length v)) by (apply lt_0_INR; destruct v; [done|cbn; lia]). set (n := INR (length v)) in *. clearbody n.
  rewrite (foldl_total (fun x => x / n)), Rplus_0_l. eexists. split; [done|]. rewrite (total_ext _ (fun x => / n * x)) by (intros; unfold Rdiv; lra). rewrite (total_fmap_scale (fun x => x)). rewrite list_fmap_id. field. lra.
Qed.
Theorem C112_mean v : v <> [] -> exists m, mean v = Some m /\ INR (length v) * m = total v /\ (forall a b, Forall (fun x => a <= x <= b) v -> a <= m <= b).
Proof.
  intros Hv. destruct (mean_total v Hv) as (m & Em & Hm). exists m. split_and!; [done|done|]. intros a b Hab. assert (Hn : 0 < INR (length v)) by (apply lt_0_INR; destruct v; [done|cbn; lia]).
  assert (G : INR (length v) * a <= total v <= INR (length v) * b).
  { clear -Hab. induction Hab as [|x l Hx Hl IH]; [cbn; lra|]. cbn [length]. rewrite S_INR. unfold total in *. cbn. lra. }
  rewrite <- Hm in G. split; eapply Rmult_le_reg_l; try exact Hn; lra.
Qed.
Lemma total_sq_dev v m : total ((fun x => (x - m) ^ 2) <$> v) = total ((fun x => x ^ 2) <$> v) - 2 * m * total v + INR (length v) * m ^ 2.
Proof.
  rewrite (total_ext _ (fun x => x ^ 2 + (- (2 * m) * x + m ^ 2))) by (intros; cbn; lra). rewrite total_fmap_plus, (total_fmap_plus (fun x => - (2 * m) * x)), total_fmap_const, (total_fmap_scale (fun x => x)), list_fmap_id. lra.
Qed.
Lemma spread_dev v m : INR (length v) * m = total v -> spread v = 2 * INR (length v) * total ((fun x => (x - m) ^ 2) <$> v).
Proof.
  intros Hm. unfold spread. rewrite (total_ext _ (fun x => INR (length v) * x ^ 2 + (- (2 * total v) * x + total ((fun y => y ^ 2) <$> v)))).
  - rewrite total_fmap_plus, (total_fmap_plus (fun x => - (2 * total v) * x)), total_fmap_const, (total_fmap_scale (fun x => x ^ 2)), (total_fmap_scale (fun x => x)), list_fmap_id. rewrite total_sq_dev, <- Hm. cbn. lra.
  - intros x. rewrite (total_ext _ (fun y => (y - x) ^ 2)) by (intros; cbn; lra). rewrite total_sq_dev. lra.
Qed.
Lemma spread_zero v : spread v = 0 <-> (forall x y, x ∈ v -> y ∈ v -> x = y).
Proof.
  unfold spread. split.
  - intros H x y Hx Hy. apply total_zero in H; [|apply Forall_fmap, Forall_true; intros; apply total_nonneg, Forall_fmap, Forall_true; intros; apply sq_nonneg]. rewrite Forall_fmap, Forall_forall in H. specialize (H x Hx). cbn beta in H.
    apply total_zero in H; [|apply Forall_fmap, Forall_true; intros; apply sq_nonneg]. rewrite Forall_fmap, Forall_forall in H. specialize (H y Hy). apply sq_zero in H. lra.
  - intros H. assert (G : forall l, Forall (fun x => x = 0) l -> total l = 0) by (induction 1 as [|x l -> _ IH]; [done|]; unfold total in *; cbn; lra). apply G. apply Forall_fmap, Forall_forall. intros x Hx. cbn. apply G. apply Forall_fmap, Forall_forall. intros y Hy. cbn. rewrite (H x y) by done. lra.
Qed.
Theorem C112_stdDev_of v m : (2 <= length v)%nat -> exists s, stdDev_of v m = Some s /\ 0 <= s /\ INR (length v) * s ^ 2 = total ((fun x => (x - m) ^ 2) <$> v).
Proof.
  intros Hl. unfold stdDev_of. destruct (decide (v = [])) as [->|_]; [cbn in Hl; lia|]. destruct (decide _) as [|_]; [lia|]. assert (Hn : 0 < INR (length v)) by (apply lt_0_INR; lia). eexists. split; [done|]. split; [apply sqrt_pos|].
  set (n := INR (length v)) in *. assert (Hs : 0 < sqrt n) by (by apply sqrt_lt_R0). rewrite (foldl_total (fun x => (1 / sqrt n * (x - m)) ^ 2)), Rplus_0_l.
  rewrite (total_ext _ (fun x => / n * (x - m) ^ 2)).
  - rewrite (total_fmap_scale (fun x => (x - m) ^ 2)). rewrite <- Rsqr_pow2, Rsqr_sqrt; [field; lra|]. apply Rmult_le_pos; [left; by apply Rinv_0_lt_compat|]. apply total_nonneg, squares_nonneg.
  - intros x. rewrite Rpow_mult_distr. f_equal. unfold Rdiv. rewrite Rmult_1_l, pow_inv. f_equal. rewrite <- Rsqr_pow2. apply Rsqr_sqrt. lra.
Qed.
(** A single value: 0, whatever mean is passed. No value: an assertion. *)
Theorem C112_stdDev_one x m : stdDev_of [x] m = Some 0.
Proof. done. Qed.
Theorem C112_empty m : mean [] = None /\ stdDev [] = None /\ stdDev_of [] m = None /\ fitnessMean [] = None /\ fitnessVariance [] = None /\ fitnessStdDev [] = None.
Proof. done. Qed.
(** The deviation divided by n, not n - 1. *)
Theorem C112_stdDev v : v <> [] -> exists s, stdDev v = Some s /\ 0 <= s /\ 2 * INR (length v) ^ 2 * s ^ 2 = spread v /\ (s = 0 <-> forall x y, x ∈ v -> y ∈ v -> x = y).
Proof.
  intros Hv. destruct (mean_total v Hv) as (m & Em & Hm). unfold stdDev. rewrite Em. cbn [mbind option_bind]. assert (Hn : 0 < INR (length v)) by (apply lt_0_INR; destruct v; [done|cbn; lia]).
  assert (G : exists s, stdDev_of v m = Some s /\ 0 <= s /\ 2 * INR (length v) ^ 2 * s ^ 2 = spread v).
  { rewrite (spread_dev v m Hm). destruct (decide (2 <= length v)%nat) as [Hl|Hl].
    - destruct (C112_stdDev_of v m Hl) as (s & Es & Hs & Hq). exists s. split_and!; [done|done|]. rewrite <- Hq. lra.
    - destruct v as [|x [|y v]]; [done| |cbn in Hl; lia]. exists 0. split_and!; [done|lra|]. cbn in Hm. unfold total in *. cbn in *. replace m with x by lra. lra. }
  destruct G as (s & Es & Hs & Hq). exists s. split_and!; [done|done|done|]. rewrite <- spread_zero, <- Hq. split; [intros ->; cbn; lra|]. intros H. apply sq_zero. apply Rmult_integral in H as [H|H]; [|done]. exfalso. assert (0 < INR (length v) ^ 2) by (by apply pow_lt). lra.
Qed.

(** The statistics of the columns of a fitness matrix. *)
Lemma add_row_nth f acc row k : length row = length acc -> (k < length acc)%nat -> length (add_row f acc row) = length acc /\ nth k (add_row f acc row) 0 = f k (nth k acc 0) (nth k row 0).
Proof.
  intros Hl Hk. unfold add_row. split; [rewrite imap_length, zip_with_length; lia|]. destruct (lookup_lt_is_Some_2 acc k Hk) as [a Ha]. destruct (lookup_lt_is_Some_2 row k) as [b Hb]; [lia|].
  rewrite (nth_lookup_Some acc k 0 a Ha), (nth_lookup_Some row k 0 b Hb). apply nth_lookup_Some. rewrite list_lookup_imap, lookup_zip_with, Ha. cbn. rewrite Hb. done.
Qed.
Lemma rows_fold (g : nat -> R -> R) m : forall acc, Forall (fun r => length r = length acc) m ->
  let p := foldl (add_row (fun i a x => a + g i x)) acc m in
  length p = length acc /\ forall k, (k < length acc)%nat -> nth k p 0 = nth k acc 0 + total (g k <$> column k m).
Proof.
  induction m as [|r m IH]; intros acc Hm.
  - cbn. split; [done|]. intros. unfold total. cbn. lra.
  - inversion Hm as [|? ? Hr Hm']; subst. cbn [foldl]. set (acc' := add_row (fun i a x => a + g i x) acc r).
    assert (Hl : length acc' = length acc) by (unfold acc', add_row; rewrite imap_length, zip_with_length; lia).
    destruct (IH acc') as [HL HN]; [eapply Forall_impl; [exact Hm'|]; cbn; intros; lia|]. split; [lia|]. intros k Hk. rewrite HN by lia. unfold acc'. destruct (add_row_nth (fun i a x => a + g i x) acc r k Hr Hk) as [_ ->]. unfold total, column. cbn. lra.
Qed.
Lemma nth_zeros d k : nth k (replicate d 0) 0 = 0.
Proof. revert k. induction d as [|d IH]; intros [|k]; cbn; auto. Qed.
Lemma rows_pos d m : rectangle d m -> 0 < INR (length m).
Proof. intros [H _]. apply lt_0_INR. destruct m; [done|cbn; lia]. Qed.
Theorem C112_fitness_mean d m : rectangle d m ->
  exists p, fitnessMean m = Some p /\ length p = d /\ forall k, (k < d)%nat -> INR (length m) * nth k p 0 = total (column k m).
Proof.
  intros H. pose proof (rows_pos d m H) as Hn. destruct H as [Hne Hm]. unfold fitnessMean. destruct m as [|r m0] eqn:E; [done|]. rewrite <- E in *. assert (Hr : length r = d) by (rewrite E in Hm; by inversion Hm). set (n := INR (length m)) in *.
  destruct (rows_fold (fun _ x => x * (1 / n)) m (replicate (length r) 0)) as [HL HN]; [rewrite replicate_length, Hr; done|]. rewrite replicate_length in HL, HN. eexists. split; [done|]. split; [lia|]. intros k Hk. rewrite HN by lia. rewrite nth_zeros.
  rewrite (total_ext _ (fun x => 1 / n * x)) by (intros; lra). rewrite (total_fmap_scale (fun x => x)), list_fmap_id. field. lra.
Qed.
Theorem C112_variance d m : rectangle d m ->
  exists v, fitnessVariance m = Some v /\ length v = d /\
    forall k, (k < d)%nat -> (length m = 1%nat -> nth k v 0 = 0) /\ 2 * INR (length m) * (INR (length m) - 1) * nth k v 0 = spread (column k m).
Proof.
  intros H. pose proof (rows_pos d m H) as Hn. destruct (C112_fitness_mean d m H) as (mu & Emu & Hlmu & Hmu). unfold fitnessVariance. rewrite Emu. cbn [mbind option_bind]. destruct H as [Hne Hm]. unfold fitnessVariance_of. destruct m as [|r m0] eqn:E; [done|]. rewrite <- E in *. assert (Hr : length r = d) by (rewrite E in Hm; by inversion Hm).
  assert (Hlc : forall k, length (column k m) = length m) by (intros; apply fmap_length).
  assert (Hsp : forall k, (k < d)%nat -> spread (column k m) = 2 * INR (length m) * total ((fun x => (x - nth k mu 0) ^ 2) <$> column k m)) by (intros k Hk; rewrite (spread_dev (column k m) (nth k mu 0)), Hlc; [done|rewrite Hlc; by apply Hmu]).
  destruct (decide (length r = length mu)); [|lia]. destruct (decide (length m = 1%nat)) as [E1|E1].
  - eexists. split; [done|]. rewrite replicate_length. split; [done|]. intros k Hk. rewrite nth_zeros. split; [done|]. rewrite E1. cbn [INR]. assert (m0 = []) as -> by (rewrite E in E1; destruct m0; [done|discriminate E1]). subst m. unfold spread, column, total. cbn. lra.
  - assert (H1 : 0 < INR (length m) - 1) by (assert (1 < INR (length m)) by (apply lt_1_INR; rewrite E in *; destruct m0; [done|cbn; lia]); lra). set (n := INR (length m)) in *.
    destruct (rows_fold (fun i x => (x - nth i mu 0) ^ 2 * (1 / (n - 1))) m (replicate (length r) 0)) as [HL HN]; [rewrite replicate_length, Hr; done|]. rewrite replicate_length in HL, HN. eexists. split; [done|]. split; [lia|]. intros k Hk. split; [done|]. rewrite Hsp by done. rewrite HN by lia. rewrite nth_zeros.
    rewrite (total_ext _ (fun x => 1 / (n - 1) * (x - nth k mu 0) ^ 2)) by (intros; cbn; lra). rewrite (total_fmap_scale (fun x => (x - nth k mu 0) ^ 2)). field. lra.
Qed.
Theorem C112_fitness_deviation d m : rectangle d m ->
  exists v p, fitnessVariance m = Some v /\ fitnessStdDev m = Some p /\ length p = d /\ forall k, (k < d)%nat -> 0 <= nth k p 0 /\ nth k p 0 ^ 2 = nth k v 0.
Proof.
  intros H. pose proof (rows_pos d m H) as Hn. destruct (C112_variance d m H) as (v & Ev & Hl & Hv). exists v, (map sqrt v). unfold fitnessStdDev. unfold fitnessVariance in Ev. destruct (fitnessMean m) as [mu|] eqn:Emu; [|done]. cbn [mbind option_bind] in *. unfold fitnessVariance. rewrite Emu. cbn [mbind option_bind]. rewrite Ev. cbn [mbind option_bind]. split_and!; [done|done|by rewrite map_length|].
  intros k Hk. assert (En : nth k (map sqrt v) 0 = sqrt (nth k v 0)) by (rewrite <- sqrt_0 at 1; apply map_nth). rewrite En. split; [apply sqrt_pos|]. rewrite <- Rsqr_pow2. apply Rsqr_sqrt. destruct (Hv k Hk) as [H1 H2]. destruct (decide (length m = 1%nat)) as [E1|E1]; [rewrite H1 by done; lra|].
  assert (1 < INR (length m)) by (apply lt_1_INR; destruct H as [Hne _]; destruct m as [|? [|? ?]]; [done|done|cbn; lia]).
  assert (Hs : 0 <= spread (column k m)) by (apply total_nonneg, Forall_fmap, Forall_true; intros; apply total_nonneg, Forall_fmap, Forall_true; intros; apply sq_nonneg). rewrite <- H2 in Hs.
  eapply Rmult_le_reg_l; [|rewrite Rmult_0_r; exact Hs]. apply Rmult_lt_0_compat; lra.
Qed.
(** The two standard deviations of the library differ: stdDev (used by sigma scaling) divides by n, the metric by n - 1. *)
Theorem C112_two_deviations v x y : x ∈ v -> y ∈ v -> x <> y ->
  exists s p, stdDev v = Some s /\ fitnessStdDev ((fun x => [x]) <$> v) = Some [p] /\ s < p /\ INR (length v) * s ^ 2 = (INR (length v) - 1) * p ^ 2.
Proof.
  intros Hx Hy Hxy. assert (Hv : v <> []) by (intros ->; by apply elem_of_nil in Hx). set (m := (fun x => [x]) <$> v).
  assert (Hr : rectangle 1 m) by (split; [by intros E; apply fmap_nil_inv in E|]; apply Forall_fmap, Forall_true; done).
  destruct (C112_stdDev v Hv) as (s & Es & Hs & Hsp & Hz). destruct (C112_fitness_deviation 1 m Hr) as (w & p & Ew & Ep & Hl & Hp). destruct (C112_variance 1 m Hr) as (w' & Ew' & _ & Hw). rewrite Ew in Ew'. apply (inj Some) in Ew' as <-.
  destruct (Hp 0%nat ltac:(lia)) as [Hp0 Hpq]. destruct (Hw 0%nat ltac:(lia)) as [_ Hvar]. assert (Hc : column 0 m = v) by (unfold column, m; rewrite <- list_fmap_compose; cbn; apply list_fmap_id). rewrite Hc in Hvar. assert (Hlm : length m = length v) by apply fmap_length. rewrite Hlm in Hvar.
  destruct p as [|p0 [|? ?]]; [done| |done]. cbn in Hp0, Hpq. exists s, p0. assert (H2 : (2 <= length v)%nat).
  { destruct v as [|a [|b v]]; [done| |cbn; lia]. apply elem_of_list_singleton in Hx, Hy. congruence. }
  assert (1 < INR (length v)) by (apply lt_1_INR; lia). set (n := INR (length v)) in *.
  assert (He : n * s ^ 2 = (n - 1) * p0 ^ 2).
  { apply (Rmult_eq_reg_l (2 * n)); [|lra]. replace (p0 ^ 2) with (nth 0 w 0) by (cbn; lra). transitivity (2 * n ^ 2 * s ^ 2); [cbn; lra|]. rewrite Hsp, <- Hvar. lra. }
  split_and!; [done|done| |done]. assert (Hs0 : 0 < s) by (destruct (Req_dec s 0) as [E|E]; [exfalso; apply Hxy; by apply Hz|lra]).
  apply Rnot_le_lt. intros Hle. assert (p0 ^ 2 <= s ^ 2) by (apply pow_incr; lra). assert (0 < s ^ 2) by (by apply pow_lt). cut (n * s ^ 2 <= (n - 1) * s ^ 2); [lra|]. rewrite He. apply Rmult_le_compat_l; lra.
Qed.

(** ** The integral of a power of the sine *)
Fixpoint F (n : nat) (x : R) : R :=
  match n with
  | O => x
  | S O => - cos x
  | S (S k as k1) => (INR n - 1) / INR n * F k x + - cos x * sin x ^ k1 / INR n
  end.
Lemma loop_F x : forall j k fuel, (j <= fuel)%nat -> sin_pow_loop x (k + 2 * j) (k + 2) fuel (F k x) = F (k + 2 * j) x.
Proof.
  induction j as [|j IH]; intros k fuel Hf.
  - replace (k + 2 * 0)%nat with k by lia. destruct fuel; [done|]. cbn [sin_pow_loop]. destruct (decide _); [lia|done].
  - destruct fuel as [|fuel]; [lia|]. cbn [sin_pow_loop]. destruct (decide _); [|lia]. cbv zeta.
    assert (E : (INR (k + 2) - 1) / INR (k + 2) * F k x + - cos x * sin x ^ (k + 2 - 1) / INR (k + 2) = F (k + 2) x).
    { replace (k + 2)%nat with (S (S k)) by lia. replace (S (S k) - 1)%nat with (S k) by lia. reflexivity. }
    rewrite E. replace (k + 2 * S j)%nat with (k + 2 + 2 * j)%nat by lia. apply IH. lia.
Qed.
Lemma integral_F n x : integralSinPow n x = F n x.
Proof.
  unfold integralSinPow. destruct (Nat.odd n) eqn:E.
  - apply Nat.odd_spec in E as [j ->]. replace ((2 * j + 1) mod 2)%nat with 1%nat by (rewrite Nat.add_comm, Nat.mul_comm, Nat.mod_add; [done|lia]). replace (2 * j + 1)%nat with (1 + 2 * j)%nat by lia. apply (loop_F x j 1). lia.
  - rewrite <- Nat.negb_even in E. apply negb_false_iff, Nat.even_spec in E as [j ->]. replace ((2 * j) mod 2)%nat with 0%nat by (rewrite Nat.mul_comm, Nat.mod_mul; [done|lia]). apply (loop_F x j 0). lia.
Qed.
Lemma F_step n x : derivable_pt_lim (F n) x (sin x ^ n) -> derivable_pt_lim (F (S (S n))) x (sin x ^ (S (S n))).
Proof.
  intros H. set (N := INR (S (S n))). assert (HN : 0 < N) by (apply lt_0_INR; lia).
  assert (Hc : derivable_pt_lim (fun y => - cos y * sin y ^ S n / N) x ((sin x * sin x ^ S n + - cos x * (INR (S n) * sin x ^ n * cos x)) / N)).
  { unfold Rdiv. replace ((sin x * sin x ^ S n + - cos x * (INR (S n) * sin x ^ n * cos x)) * / N) with ((sin x * sin x ^ S n + - cos x * (INR (S n) * sin x ^ n * cos x)) * / N + (- cos x * sin x ^ S n) * 0) by lra.
    apply (derivable_pt_lim_mult (fun y => - cos y * sin y ^ S n) (fun _ => / N)); [|apply derivable_pt_lim_const].
    apply (derivable_pt_lim_mult (fun y => - cos y) (fun y => sin y ^ S n)).
    - replace (sin x) with (- - sin x) by lra. apply (derivable_pt_lim_opp cos), derivable_pt_lim_cos.
    - apply (derivable_pt_lim_comp sin (fun y => y ^ S n)); [apply derivable_pt_lim_sin|]. apply (derivable_pt_lim_pow (sin x) (S n)). }
  assert (Hd := derivable_pt_lim_plus _ _ _ _ _ (derivable_pt_lim_scal _ ((N - 1) / N) _ _ H) Hc).
  replace (sin x ^ S (S n)) with ((N - 1) / N * sin x ^ n + (sin x * sin x ^ S n + - cos x * (INR (S n) * sin x ^ n * cos x)) / N); [exact Hd|].
  assert (EN : INR (S n) = N - 1) by (unfold N; rewrite (S_INR (S n)); lra). rewrite EN. assert (Hcs : cos x * cos x = 1 - sin x * sin x) by (pose proof (sin2_cos2 x) as Q; unfold Rsqr in Q; lra).
  cbn [pow]. set (p := sin x ^ n). replace (- cos x * ((N - 1) * p * cos x)) with (- (N - 1) * p * (cos x * cos x)) by lra. rewrite Hcs. field. lra.
Qed.
Lemma F_derive n x : derivable_pt_lim (F n) x (sin x ^ n) /\ derivable_pt_lim (F (S n)) x (sin x ^ S n).
Proof.
  induction n as [|n [IH1 IH2]].
  - split; [apply derivable_pt_lim_id|]. cbn [pow]. rewrite Rmult_1_r. change (F 1) with (fun y => - cos y). replace (sin x) with (- - sin x) at 1 by lra. apply (derivable_pt_lim_opp cos), derivable_pt_lim_cos.
  - split; [done|]. by apply F_step.
Qed.
Theorem C112_integral n x : derivable_pt_lim (integralSinPow n) x (sin x ^ n).
Proof.
  destruct (F_derive n x) as [H _]. intros eps He. destruct (H eps He) as [d Hd]. exists d. intros h H0 Hh. rewrite !integral_F. by apply Hd.
Qed.

(** ** Examples *)
Example C112_nonvacuous : ~ zeros [3; 4] /\ rectangle 2 [[1; 2]; [3; 4]; [5; 9]] /\ perpendicularDistanceSq [2; 0] [5; 3] = Some 9 /\ integralSinPow 2 0 = 0.
Proof.
  split_and!.
  - intros H. inversion H. lra.
  - split; [done|]. repeat constructor.
  - unfold perpendicularDistanceSq, inner_product. cbn. destruct (Req_EM_T _ _); [lra|]. f_equal. field.
  - rewrite integral_F. cbn. rewrite sin_0. lra.
Qed.
Print Assumptions C112_norm.
Print Assumptions C112_normalize.
Print Assumptions C112_normalize_zero.
Print Assumptions C112_distance.
Print Assumptions C112_perpendicular.
Print Assumptions C112_perpendicular_zero.
Print Assumptions C112_volume.
Print Assumptions C112_mean.
Print Assumptions C112_stdDev_of.
Print Assumptions C112_stdDev.
Print Assumptions C112_fitness_mean.
Print Assumptions C112_variance.
Print Assumptions C112_fitness_deviation.
Print Assumptions C112_two_deviations.
Print Assumptions C112_integral.
Print Assumptions C112_lengths.
Print Assumptions C112_stdDev_one.
Print Assumptions C112_empty.
