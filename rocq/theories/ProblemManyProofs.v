(** Lemmas about the DTLZ problems. *)
From stdpp Require Import list list_numbers.
From Coq Require Import Reals Lra Lia.
From Verif Require Import ProblemModel ProblemSpec ProblemProofs ProblemMultiProofs.
Local Open Scope R_scope.

Lemma entry_insert_eq (v : list R) i x : (i < length v)%nat -> entry (<[i := x]> v) i = x.
Proof. intros H. unfold entry. apply nth_lookup_Some. by apply list_lookup_insert. Qed.
Lemma entry_insert_ne (v : list R) i j x : i <> j -> entry (<[i := x]> v) j = entry v j.
Proof. intros H. unfold entry. rewrite !nth_lookup. by rewrite list_lookup_insert_ne. Qed.
Lemma entry_map (h : R -> R) v i : (i < length v)%nat -> entry (map h v) i = h (entry v i).
Proof. intros Hi. unfold entry. destruct (lookup_lt_is_Some_2 v i Hi) as [y Hy]. rewrite (nth_lookup_Some v i 0 y Hy). apply nth_lookup_Some. change (map h v) with (h <$> v). by rewrite list_lookup_fmap, Hy. Qed.
Lemma entry_take n v i : (i < n)%nat -> entry (take n v) i = entry v i.
Proof. intros H. unfold entry. rewrite !nth_lookup. by rewrite lookup_take. Qed.
Lemma entry_drop n v i : entry (drop n v) i = entry v (n + i).
Proof. unfold entry. rewrite !nth_lookup. by rewrite lookup_drop. Qed.
Lemma entry_app_l v w i : (i < length v)%nat -> entry (v ++ w) i = entry v i.
Proof. intros H. unfold entry. rewrite !nth_lookup. by rewrite lookup_app_l. Qed.
Lemma entry_app_r v w i : (length v <= i)%nat -> entry (v ++ w) i = entry w (i - length v).
Proof. intros H. unfold entry. rewrite !nth_lookup. by rewrite lookup_app_r. Qed.
Lemma better_irrefl_entries (a b : list R) : better a b -> ~ (forall i, (i < length b)%nat -> entry a i = entry b i).
Proof. intros (_ & _ & i & Hi & H) E. rewrite E in H by done. lra. Qed.

(** The entries of the points on a simplex or a sphere: the product of the first factors. *)
Definition hyper (c : R) (b s : nat -> R) (L k : nat) : R := c * big_prod (L - k) b * (if decide (k = 0%nat) then 1 else s (L - k)%nat).
Definition loop_inv (c : R) (b s : nat -> R) (L j : nat) (fx : list R) : Prop :=
  length fx = (L + 1)%nat /\ entry fx (L - j) = c * big_prod j b /\ forall i, (i < j)%nat -> entry fx (L - i) = c * big_prod i b * s i.
Lemma dtlz_loop_inv c b s before self first L m : forall a fx, (a + m <= L)%nat ->
  (forall i, (a <= i < a + m)%nat -> before (entry first i) = b i /\ self (entry first i) = s i) -> loop_inv c b s L a fx -> loop_inv c b s L (a + m) (dtlz_loop before self first a m fx).
Proof.
  induction m as [|m IH]; intros a fx Hm Hb Hi.
  - rewrite Nat.add_0_r. exact Hi.
  - unfold dtlz_loop. cbn [seq foldl]. fold (dtlz_loop before self first (S a) m). replace (a + S m)%nat with (S a + m)%nat by lia. apply IH; [lia|intros i Hi'; apply Hb; lia|].
    destruct Hi as (Hl & H1 & H2). destruct (Hb a ltac:(lia)) as [Ba Sa]. unfold loop_inv. rewrite !insert_length. split; [done|]. rewrite Hl. replace (L + 1 - 1 - a)%nat with (L - a)%nat by lia.
    change (nth (L - a) fx 0) with (entry fx (L - a)). change (nth a first 0) with (entry first a). rewrite Ba, Sa, H1. split.
    + rewrite entry_insert_ne by lia. replace (L - S a)%nat with (L - a - 1)%nat by lia. rewrite entry_insert_eq by lia. cbn [big_prod]. lra.
    + intros i Hi. destruct (decide (i = a)) as [->|Hn]; [rewrite entry_insert_eq by (rewrite insert_length; lia); lra|]. rewrite !entry_insert_ne by lia. apply H2. lia.
Qed.
Lemma loop_inv_entries c b s L fx : loop_inv c b s L L fx -> length fx = (L + 1)%nat /\ forall k, (k <= L)%nat -> entry fx k = hyper c b s L k.
Proof.
  intros (Hl & H1 & H2). split; [done|]. intros k Hk. unfold hyper. destruct (decide (k = 0%nat)) as [->|Hn].
  - rewrite Nat.sub_diag in H1. rewrite H1, Nat.sub_0_r. lra.
  - rewrite <- H2 by lia. f_equal. lia.
Qed.
Lemma hyper_sum c b s L : (forall i, (i < L)%nat -> b i + s i = 1) -> big_sum (S L) (hyper c b s L) = c.
Proof.
  induction L as [|L IH]; intros H.
  - cbn [big_sum]. unfold hyper. rewrite decide_True by done. cbn. lra.
  - transitivity (big_sum (S L) (hyper c b s L)); [|apply IH; intros; apply H; lia]. rewrite (big_sum_front (S L)), (big_sum_front L (fun i => hyper c b s (S L) (S i))), (big_sum_front L (hyper c b s L)).
    rewrite (big_sum_ext L (fun i => hyper c b s (S L) (S (S i))) (fun i => hyper c b s L (S i))).
    + set (Q := big_sum L _). unfold hyper. rewrite !(decide_True (P := 0%nat = 0%nat)) by done. rewrite (decide_False (P := 1%nat = 0%nat)) by lia. replace (S L - 0)%nat with (S L) by lia. replace (S L - 1)%nat with L by lia. rewrite Nat.sub_0_r. cbn [big_prod]. replace (s L) with (1 - b L) by (specialize (H L ltac:(lia)); lra). lra.
    + intros i Hi. unfold hyper. rewrite !decide_False by lia. replace (S L - S (S i))%nat with (L - S i)%nat by lia. done.
Qed.
Lemma big_prod_sq n b : big_prod n b ^ 2 = big_prod n (fun i => b i ^ 2).
Proof. induction n as [|n IH]; cbn [big_prod]; [lra|]. rewrite <- IH. lra. Qed.
Lemma hyper_sq c b s L k : hyper c b s L k ^ 2 = hyper (c ^ 2) (fun i => b i ^ 2) (fun i => s i ^ 2) L k.
Proof. unfold hyper. rewrite <- big_prod_sq. destruct (decide (k = 0%nat)); lra. Qed.
Lemma big_prod_nonneg n b : (forall i, (i < n)%nat -> 0 <= b i) -> 0 <= big_prod n b.
Proof. induction n as [|n IH]; cbn [big_prod]; intros H; [lra|]. apply Rmult_le_pos; [apply IH; intros; apply H; lia|apply H; lia]. Qed.
Lemma hyper_nonneg c b s L k : 0 <= c -> (k <= L)%nat -> (forall i, (i < L)%nat -> 0 <= b i /\ 0 <= s i) -> 0 <= hyper c b s L k.
Proof.
  intros Hc Hk H. unfold hyper. apply Rmult_le_pos; [apply Rmult_le_pos; [done|apply big_prod_nonneg; intros i Hi; apply H; lia]|]. destruct (decide (k = 0%nat)); [lra|]. apply H. lia.
Qed.
(** Points with the same sum, or sum of squares, are not comparable. *)
Lemma sums_equal n h k : big_sum n h = big_sum n k -> (forall i, (i < n)%nat -> h i <= k i) -> forall i, (i < n)%nat -> h i = k i.
Proof.
  intros E H i Hi. assert (Z : big_sum n (fun i => k i + - h i) = 0) by (rewrite big_sum_plus, big_sum_opp; lra).
  assert (N : forall i, (i < n)%nat -> 0 <= k i + - h i) by (intros j Hj; specialize (H j Hj); lra). pose proof (big_sum_zero n _ N Z i Hi) as Q. cbn beta in Q. lra.
Qed.
Lemma sq_inj x y : 0 <= x -> 0 <= y -> x ^ 2 = y ^ 2 -> x = y.
Proof. intros Hx Hy H. nra. Qed.
Lemma squares_equal n h k : big_sum n (fun i => h i ^ 2) = big_sum n (fun i => k i ^ 2) -> (forall i, (i < n)%nat -> 0 <= h i <= k i) -> forall i, (i < n)%nat -> h i = k i.
Proof.
  intros E H i Hi. pose proof (H i Hi). apply sq_inj; [lra|lra|]. apply (sums_equal n (fun i => h i ^ 2) (fun i => k i ^ 2) E); [|done]. intros j Hj. apply pow_incr, H, Hj.
Qed.

(** What a DTLZ problem computes, in terms of the entries [sh v] of the shape and of [g]. *)
Definition computes (f : list R -> option (list R)) (box : list R -> Prop) (M : nat) (sh : list R -> nat -> R) (g : list R -> R) : Prop :=
  forall v, box v -> exists y, f v = Some y /\ length y = M /\ forall k, (k < M)%nat -> entry y k = - ((1 + g v) * sh v k).
Lemma dtlz_front f box M sh g : computes f box M sh g ->
  (forall v, box v -> 0 <= g v) -> (forall v k, box v -> (k < M)%nat -> 0 <= sh v k) -> (forall v, box v -> exists k, (k < M)%nat /\ 0 < sh v k) ->
  (forall v, box v -> exists w, box w /\ g w = 0 /\ forall k, (k < M)%nat -> sh w k = sh v k) ->
  (forall v w, box v -> box w -> (forall k, (k < M)%nat -> sh w k <= sh v k) -> forall k, (k < M)%nat -> sh w k = sh v k) ->
  forall v, pareto f box v <-> box v /\ g v = 0.
Proof.
  intros F G N P W A v. split.
  - intros (Hv & y & Hy & Hd). split; [done|]. destruct (Req_dec (g v) 0) as [|Hne]; [done|]. exfalso. destruct (W v Hv) as (w & Hw & Hg & Hs). destruct (F w Hw) as (z & Hz & Lz & Ez). destruct (F v Hv) as (y' & Hy' & Ly & Ey). rewrite Hy in Hy'. apply (inj Some) in Hy'; subst y'.
    apply (Hd w z Hw Hz). specialize (G v Hv). split; [lia|]. rewrite Ly. split.
    + intros k Hk. rewrite Ez, Ey, Hg, Hs by done. pose proof (Rmult_le_pos (g v) (sh v k) G (N v k Hv Hk)). lra.
    + destruct (P v Hv) as (k & Hk & Hp). exists k. split; [done|]. rewrite Ez, Ey, Hg, Hs by done. assert (0 < g v * sh v k) by (apply Rmult_lt_0_compat; lra). lra.
  - intros [Hv Hg]. split; [done|]. destruct (F v Hv) as (y & Hy & Ly & Ey). exists y. split; [done|]. intros w z Hw Hz Hb. destruct (F w Hw) as (z' & Hz' & Lz & Ez). rewrite Hz in Hz'. apply (inj Some) in Hz'; subst z'.
    assert (L : forall k, (k < M)%nat -> (1 + g w) * sh w k <= sh v k).
    { intros k Hk. destruct Hb as (_ & Hb & _). specialize (Hb k ltac:(lia)). rewrite Ey, Ez, Hg in Hb by done. lra. }
    assert (L2 : forall k, (k < M)%nat -> sh w k <= (1 + g w) * sh w k) by (intros k Hk; pose proof (Rmult_le_pos _ _ (G w Hw) (N w k Hw Hk)); lra).
    assert (E : forall k, (k < M)%nat -> sh w k = sh v k) by (apply (A v w Hv Hw); intros k Hk; specialize (L k Hk); specialize (L2 k Hk); lra).
    apply (better_irrefl_entries _ _ Hb). intros k Hk. rewrite Ly in Hk. rewrite Ez, Ey, Hg by done. specialize (L k Hk). specialize (L2 k Hk). specialize (E k Hk). lra.
Qed.
(** The stated points, if the points [p k] have the shape [c] at [k] and zero elsewhere. *)
Lemma dtlz_points f box M sh g c (p : nat -> list R) opt value : (2 <= M)%nat -> computes f box M sh g -> (forall v, pareto f box v <-> box v /\ g v = 0) ->
  (forall v, box v -> 0 <= g v) -> (forall v k, box v -> (k < M)%nat -> 0 <= sh v k <= c) ->
  (forall k, (k < M)%nat -> box (p k) /\ g (p k) = 0 /\ sh (p k) k = c /\ forall i, (i < M)%nat -> i <> k -> sh (p k) i = 0) ->
  pareto f box opt -> f opt = Some value ->
  points_correct f box opt value (replicate M 0) (replicate M (- c)).
Proof.
  intros HM F P G N Q Ho Hv. split; [done|]. split; [done|]. split; [|split; [|split]].
  - intros v y Hb Hy. destruct (F v Hb) as (y' & Hy' & Ly & Ey). rewrite Hy in Hy'. apply (inj Some) in Hy'; subst y'. rewrite replicate_length. split; [done|]. intros k Hk. rewrite entry_replicate, Ey by done.
    pose proof (Rmult_le_pos (1 + g v) (sh v k) ltac:(specialize (G v Hb); lra) (proj1 (N v k Hb Hk))). lra.
  - intros v y Hp Hy. apply P in Hp as [Hb Hg]. destruct (F v Hb) as (y' & Hy' & Ly & Ey). rewrite Hy in Hy'. apply (inj Some) in Hy'; subst y'. rewrite replicate_length. split; [done|]. intros k Hk. rewrite entry_replicate, Ey, Hg by done.
    pose proof (N v k Hb Hk). lra.
  - intros k Hk. rewrite replicate_length in Hk. set (j := if decide (k = 0%nat) then 1%nat else 0%nat). assert (Hj : (j < M)%nat /\ k <> j) by (unfold j; destruct (decide (k = 0%nat)); lia). destruct (Q j ltac:(lia)) as (Hb & Hg & _ & H0). destruct (F _ Hb) as (y & Hy & Ly & Ey).
    exists (p j), y. split; [by apply P|]. split; [done|]. rewrite entry_replicate, Ey, H0 by lia. lra.
  - intros k Hk. rewrite replicate_length in Hk. destruct (Q k Hk) as (Hb & Hg & H1 & _). destruct (F _ Hb) as (y & Hy & Ly & Ey). exists (p k), y. split; [by apply P|]. split; [done|]. rewrite entry_replicate, Ey, H1, Hg by lia. lra.
Qed.

(** The box of the DTLZ problems. *)
Definition dbox (M K : nat) : list R -> Prop := in_box (replicate (M + K - 1) 0) (replicate (M + K - 1) 1).
Lemma dbox_spec M K v : dbox M K v <-> length v = (M + K - 1)%nat /\ forall i, (i < M + K - 1)%nat -> 0 <= entry v i <= 1.
Proof. unfold dbox. apply in_box_uniform. Qed.
(** The same first variables and the others all [x]. *)
Definition retail (M K : nat) (x : R) (v : list R) : list R := take (M - 1) v ++ replicate K x.
Lemma retail_first M K x v i : length v = (M + K - 1)%nat -> (i < M - 1)%nat -> entry (retail M K x v) i = entry v i.
Proof. intros Hl Hi. unfold retail. rewrite entry_app_l by (rewrite take_length; lia). by apply entry_take. Qed.
Lemma retail_rest M K x v i : (1 <= M)%nat -> length v = (M + K - 1)%nat -> (M - 1 <= i < M + K - 1)%nat -> entry (retail M K x v) i = x.
Proof. intros HM Hl Hi. unfold retail. rewrite entry_app_r by (rewrite take_length; lia). rewrite take_length. apply entry_replicate. lia. Qed.
Lemma retail_box M K x v : (1 <= M)%nat -> dbox M K v -> 0 <= x <= 1 -> dbox M K (retail M K x v).
Proof.
  intros HM Hb Hx. apply dbox_spec in Hb as [Hl Hb]. apply dbox_spec. split; [unfold retail; rewrite app_length, take_length, replicate_length; lia|]. intros i Hi. destruct (decide (i < M - 1)%nat); [rewrite retail_first by done; by apply Hb|]. rewrite retail_rest by lia. done.
Qed.

(** The functions g. *)
Definition tail_sum (M K : nat) (h : R -> R) (v : list R) : R := big_sum K (fun i => h (entry v (M - 1 + i))).
Lemma tail_sum_drop M K h v : length v = (M + K - 1)%nat -> (1 <= M)%nat -> big_sum (length (drop (M - 1) v)) (fun i => h (nth i (drop (M - 1) v) 0)) = tail_sum M K h v.
Proof.
  intros Hl HM. unfold tail_sum. rewrite drop_length. replace (length v - (M - 1))%nat with K by lia. apply big_sum_ext. intros i Hi. change (nth i (drop (M - 1) v) 0) with (entry (drop (M - 1) v) i). by rewrite entry_drop.
Qed.
Lemma tail_sum_nonneg M K h v : (1 <= M)%nat -> dbox M K v -> (forall x, 0 <= x <= 1 -> 0 <= h x) -> 0 <= tail_sum M K h v.
Proof. intros HM Hb H. apply dbox_spec in Hb as [Hl Hb]. apply big_sum_nonneg. intros i Hi. apply H, Hb. lia. Qed.
Lemma tail_sum_zero M K h x0 v : (1 <= M)%nat -> dbox M K v -> (forall x, 0 <= x <= 1 -> 0 <= h x /\ (h x = 0 <-> x = x0)) -> (tail_sum M K h v = 0 <-> forall i, (M - 1 <= i < M + K - 1)%nat -> entry v i = x0).
Proof.
  intros HM Hb H. apply dbox_spec in Hb as [Hl Hb]. unfold tail_sum. split.
  - intros E i Hi. assert (N : forall i, (i < K)%nat -> 0 <= h (entry v (M - 1 + i))) by (intros j Hj; apply H, Hb; lia). pose proof (big_sum_zero K _ N E (i - (M - 1))%nat ltac:(lia)) as Z. cbn beta in Z. replace (M - 1 + (i - (M - 1)))%nat with i in Z by lia. apply H; [apply Hb; lia|done].
  - intros E. rewrite (big_sum_ext _ _ (fun _ => 0)); [rewrite big_sum_const; lra|]. intros i Hi. apply H; [apply Hb; lia|]. apply E. lia.
Qed.
Definition h1 (x : R) : R := 100 * (1 + ((x - 1 / 2) ^ 2 - cos (20 * PI * (x - 1 / 2)))).
Definition h2 (x : R) : R := (x - 1 / 2) ^ 2.
Definition h6 (x : R) : R := rpow x (1 / 10).
Lemma h1_ok x : 0 <= h1 x /\ (h1 x = 0 <-> x = 1 / 2).
Proof.
  unfold h1. pose proof (sq_nonneg (x - 1 / 2)). pose proof (cos_le_1 (20 * PI * (x - 1 / 2))). split; [lra|]. split.
  - intros E. assert (Z : (x - 1 / 2) ^ 2 = 0) by lra. apply sq0 in Z. lra.
  - intros ->. replace (1 / 2 - 1 / 2) with 0 by lra. rewrite Rmult_0_r, cos_0. lra.
Qed.
Lemma h2_ok x : 0 <= h2 x /\ (h2 x = 0 <-> x = 1 / 2).
Proof. unfold h2. pose proof (sq_nonneg (x - 1 / 2)). split; [lra|]. split; [intros E; apply sq0 in E; lra|intros ->; lra]. Qed.
Lemma h6_ok x : 0 <= x -> 0 <= h6 x /\ (h6 x = 0 <-> x = 0).
Proof. intros Hx. unfold h6. split; [apply rpow_nonneg|by apply rpow_zero]. Qed.
Lemma dtlz1_g_val M K v : (1 <= M)%nat -> (1 <= K)%nat -> length v = (M + K - 1)%nat -> dtlz1_g (drop (M - 1) v) = Some (tail_sum M K h1 v).
Proof.
  intros HM HK Hl. unfold dtlz1_g. rewrite decide_False by (intros E; apply (f_equal length) in E; rewrite drop_length in E; cbn in E; lia).
  rewrite (foldl_add _ (fun x => (x - 1 / 2) ^ 2 - cos (20 * PI * (x - 1 / 2))) 0) by done. f_equal. rewrite (tail_sum_drop M K (fun x => (x - 1 / 2) ^ 2 - cos (20 * PI * (x - 1 / 2)))) by done. rewrite drop_length. replace (length v - (M - 1))%nat with K by lia.
  unfold tail_sum, h1. rewrite big_sum_scal, (big_sum_plus _ (fun _ => 1)), big_sum_const. lra.
Qed.
Lemma dtlz2_g_val M K v : (1 <= M)%nat -> (1 <= K)%nat -> length v = (M + K - 1)%nat -> dtlz2_g (drop (M - 1) v) = Some (tail_sum M K h2 v).
Proof.
  intros HM HK Hl. unfold dtlz2_g. rewrite decide_False by (intros E; apply (f_equal length) in E; rewrite drop_length in E; cbn in E; lia).
  rewrite (foldl_add _ h2 0) by done. f_equal. rewrite (tail_sum_drop M K h2) by done. lra.
Qed.
Lemma dtlz6_g_val M K v : (1 <= M)%nat -> (1 <= K)%nat -> length v = (M + K - 1)%nat -> dtlz6_g (drop (M - 1) v) = Some (tail_sum M K h6 v).
Proof.
  intros HM HK Hl. unfold dtlz6_g. rewrite decide_False by (intros E; apply (f_equal length) in E; rewrite drop_length in E; cbn in E; lia).
  rewrite (foldl_add _ h6 0) by done. f_equal. rewrite (tail_sum_drop M K h6) by done. lra.
Qed.

(** The shapes. *)
Definition shape (c : R) (before self : R -> R) (M : nat) (v : list R) (k : nat) : R := hyper c (fun i => before (entry v i)) (fun i => self (entry v i)) (M - 1) k.
Lemma simple_f_entries c before self M v : (2 <= M)%nat -> (M - 1 <= length v)%nat ->
  let fx := dtlz_loop before self (take (M - 1) v) 0 (M - 1) (replicate (M - 1 + 1) c) in length fx = M /\ forall k, (k < M)%nat -> entry fx k = shape c before self M v k.
Proof.
  intros HM Hl. cbn zeta. pose proof (dtlz_loop_inv c (fun i => before (entry v i)) (fun i => self (entry v i)) before self (take (M - 1) v) (M - 1) (M - 1) 0 (replicate (M - 1 + 1) c)) as I.
  destruct (loop_inv_entries c (fun i => before (entry v i)) (fun i => self (entry v i)) (M - 1) _ (I ltac:(lia) ltac:(intros i Hi; rewrite entry_take by lia; done) ltac:(split; [by rewrite replicate_length|]; split; [rewrite entry_replicate by lia; cbn [big_prod]; lra|intros i Hi; lia]))) as [H1 H2].
  split; [rewrite H1; lia|]. intros k Hk. apply H2. lia.
Qed.
Lemma dtlz_computes F G M K g c before self : (2 <= M)%nat -> (forall v, length v = (M + K - 1)%nat -> G (drop (M - 1) v) = Some (g v)) ->
  (forall first g, length first = (M - 1)%nat -> F first g = Some (dtlz_loop before self first 0 (M - 1) (replicate (M - 1 + 1) c))) ->
  computes (fun v => dtlz F G v M) (fun v => length v = (M + K - 1)%nat) M (shape c before self M) g.
Proof.
  intros HM HG HF v Hl. unfold dtlz. rewrite (HG v Hl), HF by (rewrite take_length; lia). eexists. split; [done|]. destruct (simple_f_entries c before self M v HM ltac:(lia)) as [H1 H2]. cbn zeta in H1, H2. rewrite map_length. split; [done|].
  intros k Hk. rewrite entry_map by lia. rewrite H2 by done. lra.
Qed.
Lemma computes_box f M K sh g : computes f (fun v => length v = (M + K - 1)%nat) M sh g -> computes f (dbox M K) M sh g.
Proof. intros H v Hv. apply H. by apply dbox_spec in Hv as [Hl _]. Qed.
Lemma big_prod_pow n b e : big_prod n b ^ e = big_prod n (fun i => b i ^ e).
Proof. induction n as [|n IH]; cbn [big_prod]; [apply pow1|]. rewrite <- IH. apply Rpow_mult_distr. Qed.
Lemma hyper_pow c b s L k e : hyper c b s L k ^ e = hyper (c ^ e) (fun i => b i ^ e) (fun i => s i ^ e) L k.
Proof. unfold hyper. rewrite <- big_prod_pow. destruct (decide (k = 0%nat)); rewrite !Rpow_mult_distr, ?pow1; done. Qed.
Lemma pow_e_inj e x y : (e = 1 \/ e = 2)%nat -> 0 <= x -> 0 <= y -> x ^ e = y ^ e -> x = y.
Proof. intros [-> | ->] Hx Hy H; [lra|by apply sq_inj]. Qed.
Lemma pow_e_zero e x : (e = 1 \/ e = 2)%nat -> x ^ e = 0 -> x = 0.
Proof. intros [-> | ->] H; [lra|by apply sq0]. Qed.
Lemma pow_e_pos e c : 0 < c -> 0 < c ^ e.
Proof. apply pow_lt. Qed.

(** A corner: the first variables [x], then [k] variables [y], then the last variables [t]. *)
Definition corner (M K : nat) (x y t : R) (k : nat) : list R := replicate (M - 1 - k) x ++ replicate k y ++ replicate K t.
Lemma corner_length M K x y t k : (k < M)%nat -> length (corner M K x y t k) = (M + K - 1)%nat.
Proof. intros H. unfold corner. rewrite !app_length, !replicate_length. lia. Qed.
Lemma corner_x M K x y t k i : (i < M - 1 - k)%nat -> entry (corner M K x y t k) i = x.
Proof. intros H. unfold corner. rewrite entry_app_l by (rewrite replicate_length; lia). by apply entry_replicate. Qed.
Lemma corner_y M K x y t k i : (M - 1 - k <= i < M - 1)%nat -> (k < M)%nat -> entry (corner M K x y t k) i = y.
Proof. intros H Hk. unfold corner. rewrite entry_app_r by (rewrite replicate_length; lia). rewrite entry_app_l by (rewrite !replicate_length; lia). apply entry_replicate. rewrite replicate_length. lia. Qed.
Lemma corner_t M K x y t k i : (M - 1 <= i < M + K - 1)%nat -> (k < M)%nat -> entry (corner M K x y t k) i = t.
Proof. intros H Hk. unfold corner. rewrite !entry_app_r by (rewrite ?replicate_length; lia). rewrite !replicate_length. apply entry_replicate. lia. Qed.
Lemma corner_box M K x y t k : (k < M)%nat -> 0 <= x <= 1 -> 0 <= y <= 1 -> 0 <= t <= 1 -> dbox M K (corner M K x y t k).
Proof.
  intros Hk Hx Hy Ht. apply dbox_spec. split; [by apply corner_length|]. intros i Hi. destruct (decide (i < M - 1 - k)%nat); [by rewrite corner_x|]. destruct (decide (i < M - 1)%nat); [rewrite corner_y by lia; done|rewrite corner_t by lia; done].
Qed.
Lemma entry_unit M k c i : (k < M)%nat -> (i < M)%nat -> entry (<[k := c]> (replicate M 0)) i = if decide (i = k) then c else 0.
Proof.
  intros Hk Hi. destruct (decide (i = k)) as [->|Hn]; [apply entry_insert_eq; by rewrite replicate_length|]. rewrite entry_insert_ne by done. by apply entry_replicate.
Qed.
(** The problems with a shape on a simplex (e = 1) or a sphere (e = 2). *)
Lemma simple_ok f e c b s M K h g x0 x y : (2 <= M)%nat -> (1 <= K)%nat -> (e = 1 \/ e = 2)%nat -> 0 < c -> 0 <= x <= 1 -> 0 <= y <= 1 -> 0 <= x0 <= 1 ->
  (forall x, 0 <= x <= 1 -> 0 <= b x /\ 0 <= s x /\ b x ^ e + s x ^ e = 1) -> b x = 1 -> s y = 1 ->
  (forall x, 0 <= x <= 1 -> 0 <= h x /\ (h x = 0 <-> x = x0)) -> g = tail_sum M K h ->
  computes f (dbox M K) M (shape c b s M) g ->
  (forall v y, dbox M K v -> f v = Some y -> big_sum M (fun k => (- entry y k) ^ e) = ((1 + g v) * c) ^ e) /\
  (forall v, pareto f (dbox M K) v <-> dbox M K v /\ forall i, (M - 1 <= i < M + K - 1)%nat -> entry v i = x0) /\
  (forall k, (k < M)%nat -> f (corner M K x y x0 k) = Some (<[k := - c]> (replicate M 0))) /\
  (forall opt value, pareto f (dbox M K) opt -> f opt = Some value -> points_correct f (dbox M K) opt value (replicate M 0) (replicate M (- c))).
Proof.
  intros HM HK He Hc Hx Hy Hx0 Hbs Bx Sy Hh -> F. set (g := tail_sum M K h) in *. set (sh := shape c b s M) in *.
  assert (X : forall v i, dbox M K v -> (i < M - 1)%nat -> 0 <= entry v i <= 1) by (intros v i Hv Hi; apply dbox_spec in Hv as [_ Hv]; apply Hv; lia).
  assert (G : forall v, dbox M K v -> 0 <= g v) by (intros v Hv; apply tail_sum_nonneg; [lia|done|intros; by apply Hh]).
  assert (N : forall v k, dbox M K v -> (k < M)%nat -> 0 <= sh v k) by (intros v k Hv Hk; apply hyper_nonneg; [lra|lia|intros i Hi; split; apply Hbs, (X v i Hv Hi)]).
  assert (S : forall v, dbox M K v -> big_sum M (fun k => sh v k ^ e) = c ^ e).
  { intros v Hv. rewrite (big_sum_ext _ _ (hyper (c ^ e) (fun i => b (entry v i) ^ e) (fun i => s (entry v i) ^ e) (M - 1))) by (intros k _; apply hyper_pow).
    replace M with (Datatypes.S (M - 1)) at 1 by lia. apply hyper_sum. intros i Hi. apply Hbs, (X v i Hv Hi). }
  assert (NP : forall v k, dbox M K v -> (k < M)%nat -> 0 <= sh v k ^ e) by (intros; apply pow_le; by apply N).
  assert (A : forall v w, dbox M K v -> dbox M K w -> (forall k, (k < M)%nat -> sh w k <= sh v k) -> forall k, (k < M)%nat -> sh w k = sh v k).
  { intros v w Hv Hw H k Hk. apply (pow_e_inj e); [done|by apply N|by apply N|]. apply (sums_equal M (fun k => sh w k ^ e) (fun k => sh v k ^ e)); [by rewrite !S| |done]. intros j Hj. apply pow_incr. split; [by apply N|by apply H]. }
  assert (P0 : forall v, pareto f (dbox M K) v <-> dbox M K v /\ g v = 0).
  { apply (dtlz_front f (dbox M K) M sh g F G N); [| |done].
    - intros v Hv. destruct (Classical_Pred_Type.not_all_ex_not _ (fun k => (k < M)%nat -> sh v k = 0)) as [k Hk].
      + intros Hz. assert (E : big_sum M (fun k => sh v k ^ e) = 0). { rewrite (big_sum_ext _ _ (fun _ => 0)); [rewrite big_sum_const; lra|]. intros k Hk. rewrite Hz by done. apply pow_i. destruct He; lia. } rewrite (S v Hv) in E. pose proof (pow_e_pos e c Hc). lra.
      + exists k. destruct (decide (k < M)%nat) as [Hlt|]; [|by destruct Hk]. split; [done|]. pose proof (N v k Hv Hlt). destruct (Req_dec (sh v k) 0); [by destruct Hk|lra].
    - intros v Hv. exists (retail M K x0 v). pose proof (retail_box M K x0 v ltac:(lia) Hv Hx0) as Hb. split; [done|]. apply dbox_spec in Hv as [Hl _]. split.
      + apply (tail_sum_zero M K h x0); [lia|done|done|]. intros i Hi. apply retail_rest; [lia|done|done].
      + intros k Hk. unfold sh, shape, hyper. f_equal; [f_equal; apply big_prod_ext; intros i Hi; rewrite retail_first by lia; done|]. destruct (decide (k = 0%nat)); [done|]. rewrite retail_first by lia. done. }
  assert (GZ : forall v, dbox M K v -> (g v = 0 <-> forall i, (M - 1 <= i < M + K - 1)%nat -> entry v i = x0)) by (intros v Hv; apply tail_sum_zero; [lia|done|done]).
  assert (CB : forall k, (k < M)%nat -> dbox M K (corner M K x y x0 k)) by (intros; by apply corner_box).
  assert (CG : forall k, (k < M)%nat -> g (corner M K x y x0 k) = 0) by (intros k Hk; apply GZ; [by apply CB|]; intros i Hi; by apply corner_t).
  assert (CC : forall k, (k < M)%nat -> sh (corner M K x y x0 k) k = c).
  { intros k Hk. unfold sh, shape, hyper. rewrite (big_prod_ext _ _ (fun _ => 1)), big_prod_one by (intros i Hi; rewrite corner_x by lia; done). destruct (decide (k = 0%nat)); [lra|]. rewrite corner_y by lia. rewrite Sy. lra. }
  assert (CO : forall k i, (k < M)%nat -> (i < M)%nat -> i <> k -> sh (corner M K x y x0 k) i = 0).
  { intros k i Hk Hi Hne. pose proof (S _ (CB k Hk)) as E. apply (pow_e_zero e _ He).
    assert (D : forall j, (j < M)%nat -> (if decide (j = k) then c ^ e else 0) <= sh (corner M K x y x0 k) j ^ e).
    { intros j Hj. destruct (decide (j = k)) as [->|]; [rewrite CC by done; lra|]. apply NP; [by apply CB|done]. }
    pose proof (sums_equal M (fun j => if decide (j = k) then c ^ e else 0) (fun j => sh (corner M K x y x0 k) j ^ e)) as Q. rewrite <- Q; [by rewrite decide_False| |done|done]. rewrite E.
    clear -Hk. induction M as [|m IH]; [lia|]. cbn [big_sum]. destruct (decide (m = k)) as [->|Hn]; [|rewrite IH by lia; lra]. rewrite (big_sum_ext _ _ (fun _ => 0)), big_sum_const; [lra|]. intros i Hi. rewrite decide_False by lia. done. }
  split; [|split; [|split]].
  - intros v z Hv Hz. destruct (F v Hv) as (z' & Hz' & Lz & Ez). rewrite Hz in Hz'. apply (inj Some) in Hz'; subst z'. rewrite (big_sum_ext _ _ (fun k => (1 + g v) ^ e * sh v k ^ e)).
    + rewrite big_sum_scal, (S v Hv). by rewrite Rpow_mult_distr.
    + intros k Hk. rewrite Ez by done. rewrite Ropp_involutive. apply Rpow_mult_distr.
  - intros v. rewrite P0. split; intros [Hb H]; (split; [done|]); by apply GZ.
  - intros k Hk. destruct (F _ (CB k Hk)) as (z & -> & Lz & Ez). f_equal. apply list_eq_entries; [by rewrite insert_length, replicate_length|]. intros i Hi. rewrite Lz in Hi. rewrite Ez, CG by done. rewrite entry_unit by done. destruct (decide (i = k)) as [->|Hn]; [rewrite CC by done; lra|rewrite CO by done; lra].
  - intros opt value Ho Hv. apply (dtlz_points f (dbox M K) M sh g c (corner M K x y x0)); try done.
    + intros v k Hv' Hk. split; [by apply N|]. destruct (Rle_dec (sh v k) c) as [|Hgt]; [done|]. exfalso. pose proof (big_sum_member M (fun k => sh v k ^ e) k (fun j Hj => NP v j Hv' Hj) Hk) as B. cbn beta in B. rewrite (S v Hv') in B.
      destruct He as [-> | ->]; [lra|]. assert (c * c < sh v k * sh v k) by (apply Rmult_le_0_lt_compat; lra). lra.
    + intros k Hk. split; [by apply CB|]. split; [by apply CG|]. split; [by apply CC|]. intros i Hi Hne. by apply CO.
Qed.

(** ** DTLZ5 and DTLZ6 *)
Definition angle (g : R) (v : list R) (i : nat) : R := if decide (i = 0%nat) then entry v 0 else (g * entry v i + 1 / 2) / (1 + g).
Definition shape5 (M : nat) (g : list R -> R) (v : list R) (k : nat) : R := hyper 1 (fun i => cos (angle (g v) v i * PI / 2)) (fun i => sin (angle (g v) v i * PI / 2)) (M - 1) k.
Lemma dtlz5_computes G M K g : (2 <= M)%nat -> (forall v, length v = (M + K - 1)%nat -> G (drop (M - 1) v) = Some (g v)) ->
  computes (fun v => dtlz dtlz5_f G v M) (fun v => length v = (M + K - 1)%nat) M (shape5 M g) g.
Proof.
  intros HM HG v Hl. unfold dtlz. rewrite (HG v Hl). unfold dtlz5_f. assert (Lf : length (take (M - 1) v) = (M - 1)%nat) by (rewrite take_length; lia).
  rewrite decide_False by (intros E; apply (f_equal length) in E; cbn in E; lia). cbn zeta. eexists. split; [done|]. rewrite map_length, Lf.
  set (b := fun i => cos (angle (g v) v i * PI / 2)). set (s := fun i => sin (angle (g v) v i * PI / 2)).
  set (fx0 := <[(M - 1 - 1)%nat := _]> _). assert (I0 : loop_inv 1 b s (M - 1) 1 fx0).
  { unfold fx0, loop_inv. rewrite !insert_length, replicate_length. split; [done|]. change (nth 0 (take (M - 1) v) 0) with (entry (take (M - 1) v) 0). rewrite entry_take by lia. split.
    - rewrite entry_insert_eq by (rewrite insert_length, replicate_length; lia). cbn [big_prod]. unfold b, angle. rewrite decide_True by done. lra.
    - intros i Hi. replace i with 0%nat by lia. rewrite Nat.sub_0_r. rewrite entry_insert_ne by lia. rewrite entry_insert_eq by (rewrite replicate_length; lia). cbn [big_prod]. unfold s, angle. rewrite decide_True by done. lra. }
  pose proof (dtlz_loop_inv 1 b s (fun x => cos ((g v * x + 1 / 2) / (1 + g v) * PI / 2)) (fun x => sin ((g v * x + 1 / 2) / (1 + g v) * PI / 2)) (take (M - 1) v) (M - 1) (M - 1 - 1) 1 fx0 ltac:(lia)) as I.
  assert (I' : forall i, (1 <= i < 1 + (M - 1 - 1))%nat -> cos ((g v * entry (take (M - 1) v) i + 1 / 2) / (1 + g v) * PI / 2) = b i /\ sin ((g v * entry (take (M - 1) v) i + 1 / 2) / (1 + g v) * PI / 2) = s i).
  { intros i Hi. rewrite entry_take by lia. unfold b, s, angle. rewrite !decide_False by lia. done. }
  specialize (I I' I0). replace (1 + (M - 1 - 1))%nat with (M - 1)%nat in I by lia. apply loop_inv_entries in I as [H1 H2]. split; [rewrite H1; lia|]. intros k Hk. rewrite entry_map by lia. rewrite H2 by lia. unfold shape5. fold b s. lra.
Qed.
Lemma PI2_range x : 0 <= x <= 1 -> 0 <= x * PI / 2 <= PI / 2.
Proof. intros [H0 H1]. pose proof PI_RGT_0. assert (0 <= x * PI) by (apply Rmult_le_pos; lra). assert (x * PI <= 1 * PI) by (apply Rmult_le_compat_r; lra). lra. Qed.
Lemma cos_sin_unit x : 0 <= x <= 1 -> 0 <= cos (x * PI / 2) /\ 0 <= sin (x * PI / 2) /\ cos (x * PI / 2) ^ 2 + sin (x * PI / 2) ^ 2 = 1.
Proof.
  intros Hx. apply PI2_range in Hx as [H0 H1]. pose proof PI_RGT_0. split; [apply cos_ge_0; lra|]. split; [apply sin_ge_0; lra|]. pose proof (sin2_cos2 (x * PI / 2)) as E. unfold Rsqr in E. lra.
Qed.
Lemma angle_range g v i : 0 <= g -> 0 <= entry v 0 <= 1 -> 0 <= entry v i <= 1 -> 0 <= angle g v i <= 1.
Proof.
  intros Hg H0 Hi. unfold angle. destruct (decide (i = 0%nat)); [done|]. assert (0 <= g * entry v i) by (apply Rmult_le_pos; lra). assert (g * entry v i <= g * 1) by (apply Rmult_le_compat_l; lra). split.
  - apply Rmult_le_pos; [lra|left; apply Rinv_0_lt_compat; lra].
  - apply (Rmult_le_reg_r (1 + g)); [lra|]. unfold Rdiv. rewrite Rmult_assoc, Rinv_l by lra. lra.
Qed.
(** All points have distance 1 + g from the origin, so the points with g = 0 are optimal. *)
Lemma shape5_facts M K g v : (2 <= M)%nat -> dbox M K v -> 0 <= g v -> big_sum M (fun k => shape5 M g v k ^ 2) = 1 /\ forall k, (k < M)%nat -> 0 <= shape5 M g v k.
Proof.
  intros HM Hv Hg. apply dbox_spec in Hv as [Hl Hv]. assert (A : forall i, (i < M - 1)%nat -> 0 <= angle (g v) v i <= 1) by (intros i Hi; apply angle_range; [done|apply Hv; lia|apply Hv; lia]). split.
  - rewrite (big_sum_ext _ _ (hyper (1 ^ 2) (fun i => cos (angle (g v) v i * PI / 2) ^ 2) (fun i => sin (angle (g v) v i * PI / 2) ^ 2) (M - 1))) by (intros k _; apply hyper_pow).
    replace M with (S (M - 1)) at 1 by lia. rewrite hyper_sum; [lra|]. intros i Hi. apply cos_sin_unit, A, Hi.
  - intros k Hk. apply hyper_nonneg; [lra|lia|]. intros i Hi. split; apply cos_sin_unit, A, Hi.
Qed.
Lemma dtlz5_optimal f M K g v : (2 <= M)%nat -> (forall v, dbox M K v -> 0 <= g v) -> computes f (dbox M K) M (shape5 M g) g -> dbox M K v -> g v = 0 -> pareto f (dbox M K) v.
Proof.
  intros HM G F Hv Hg. split; [done|]. destruct (F v Hv) as (y & Hy & Ly & Ey). exists y. split; [done|]. intros w z Hw Hz Hb. destruct (F w Hw) as (z' & Hz' & Lz & Ez). rewrite Hz in Hz'. apply (inj Some) in Hz'; subst z'.
  destruct (shape5_facts M K g v HM Hv (G v Hv)) as [Sv Nv]. destruct (shape5_facts M K g w HM Hw (G w Hw)) as [Sw Nw]. pose proof (G w Hw) as Gw.
  assert (L : forall k, (k < M)%nat -> 0 <= (1 + g w) * shape5 M g w k <= shape5 M g v k).
  { intros k Hk. split; [apply Rmult_le_pos; [lra|by apply Nw]|]. destruct Hb as (_ & Hb & _). specialize (Hb k ltac:(lia)). rewrite Ey, Ez, Hg in Hb by done. lra. }
  assert (D : (1 + g w) ^ 2 <= 1). { pose proof (big_sum_scal M ((1 + g w) ^ 2) (fun k => shape5 M g w k ^ 2)) as B. rewrite Sw, Rmult_1_r in B. rewrite <- B. eapply Rle_trans; [|right; exact Sv]. apply big_sum_le. intros k Hk. rewrite <- Rpow_mult_distr. apply pow_incr, L, Hk. }
  assert (Z : g w = 0) by nra. apply (better_irrefl_entries _ _ Hb). intros k Hk. rewrite Ly in Hk. rewrite Ez, Ey, Hg, Z by done. rewrite Z in L.
  rewrite (squares_equal M (shape5 M g w) (shape5 M g v)); [done|by rewrite Sv, Sw| |done]. intros j Hj. specialize (L j Hj). split; [by apply Nw|lra].
Qed.
(** At the optimal points the angles but the first are 1/2. *)
Lemma half_angle : cos (1 / 2 * PI / 2) = / sqrt 2 /\ sin (1 / 2 * PI / 2) = / sqrt 2.
Proof. replace (1 / 2 * PI / 2) with (PI / 4) by lra. rewrite cos_PI4, sin_PI4. unfold Rdiv. lra. Qed.

(** ** DTLZ7 *)
Definition q7 (x : R) : R := x * (1 + sin (3 * PI * x)).
Definition g7 (M K : nat) (v : list R) : R := 1 + 9 / INR K * big_sum K (fun i => entry v (M - 1 + i)).
Lemma dtlz7_value M K v : (2 <= M)%nat -> (1 <= K)%nat -> length v = (M + K - 1)%nat -> 1 + g7 M K v <> 0 -> exists y, DTLZ7 v M = Some y /\ length y = M /\
  (forall k, (k < M - 1)%nat -> entry y k = - entry v k) /\ entry y (M - 1) = - ((1 + g7 M K v) * INR M - big_sum (M - 1) (fun i => q7 (entry v i))).
Proof.
  intros HM HK Hl Hg. unfold DTLZ7, dtlz, dtlz7_g. rewrite decide_False by (intros E; apply (f_equal length) in E; rewrite drop_length in E; cbn in E; lia).
  assert (Eg : 1 + 9 / INR (length (drop (M - 1) v)) * reduce (drop (M - 1) v) = g7 M K v).
  { unfold g7. rewrite reduce_sum, drop_length. replace (length v - (M - 1))%nat with K by lia. do 2 f_equal. apply big_sum_ext. intros i Hi. by rewrite entry_drop. }
  rewrite Eg. set (g := g7 M K v) in *. unfold dtlz7_f. assert (Lf : length (take (M - 1) v) = (M - 1)%nat) by (rewrite take_length; lia). rewrite decide_False by (intros E; apply (f_equal length) in E; cbn in E; lia). cbn zeta.
  rewrite (foldl_add _ (fun x => - q7 x) 0) by (intros; unfold q7; lra). rewrite Lf. replace (M - 1 + 1)%nat with M by lia. eexists. split; [done|]. rewrite map_length, app_length, fmap_length, Lf. cbn [length]. split; [lia|].
  split.
  - intros k Hk. rewrite entry_map by (rewrite app_length, fmap_length, Lf; lia). rewrite entry_app_l by (rewrite fmap_length; lia). change ((fun x => x / (1 + g)) <$> take (M - 1) v) with (map (fun x => x / (1 + g)) (take (M - 1) v)). rewrite entry_map by lia. rewrite entry_take by lia. field. done.
  - rewrite entry_map by (rewrite app_length, fmap_length, Lf; cbn; lia). rewrite entry_app_r by (rewrite fmap_length; lia). rewrite fmap_length, Lf, Nat.sub_diag. cbn [entry nth].
    rewrite (big_sum_ext _ _ (fun i => - q7 (entry v i))) by (intros i Hi; change (nth i (take (M - 1) v) 0) with (entry (take (M - 1) v) i); rewrite entry_take by lia; done). rewrite big_sum_opp. field. done.
Qed.
Lemma g7_ok M K v : (2 <= M)%nat -> (1 <= K)%nat -> dbox M K v -> 1 <= g7 M K v /\ (g7 M K v = 1 <-> forall i, (M - 1 <= i < M + K - 1)%nat -> entry v i = 0).
Proof.
  intros HM HK Hv. assert (HK' : 0 < INR K) by (apply lt_0_INR; lia). assert (0 < 9 / INR K) by (apply Rdiv_lt_0_compat; lra).
  assert (Hh : forall x, 0 <= x <= 1 -> 0 <= x /\ (x = 0 <-> x = 0)) by (intros; split; [lra|done]). pose proof (tail_sum_zero M K (fun x => x) 0 v ltac:(lia) Hv Hh) as Z. pose proof (tail_sum_nonneg M K (fun x => x) v ltac:(lia) Hv ltac:(intros; lra)) as N. unfold tail_sum in Z, N. rewrite <- Z. unfold g7.
  set (t := big_sum K _) in *. split; [assert (0 <= 9 / INR K * t) by (apply Rmult_le_pos; lra); lra|]. split; [|intros ->; lra]. intros E. assert (P : 9 / INR K * t = 0) by lra. apply Rmult_integral in P as [P|P]; lra.
Qed.
Lemma q7_nonneg x : 0 <= x -> 0 <= q7 x.
Proof. intros H. unfold q7. apply Rmult_le_pos; [done|]. pose proof (SIN_bound (3 * PI * x)). lra. Qed.
(** q7 on [0, 1] is below 1.692996, and 1.692995 is attained. *)
Lemma q7_turn x : sin (3 * PI * x) = cos (3 * PI * (x - 5 / 6)).
Proof. rewrite cos_sin, <- (sin_period (PI / 2 + 3 * PI * (x - 5 / 6)) 1). f_equal. cbn [INR]. lra. Qed.
Lemma big_sum_lt n h k j : (forall i, (i < n)%nat -> h i <= k i) -> (j < n)%nat -> h j < k j -> big_sum n h < big_sum n k.
Proof.
  induction n as [|n IH]; intros H Hj Hl; [lia|]. cbn [big_sum]. destruct (decide (j = n)) as [->|Hn].
  - assert (big_sum n h <= big_sum n k) by (apply big_sum_le; intros; apply H; lia). lra.
  - assert (big_sum n h < big_sum n k) by (apply IH; [intros; apply H; lia|lia|done]). specialize (H n ltac:(lia)). lra.
Qed.
Lemma PI_sharp : 314159265 / 100000000 <= PI <= 314159266 / 100000000 /\ 1 <= 1061032955 / 10000000000 * (3 * PI).
Proof.
  pose proof (PI_2_3_7_ineq 7) as [H1 H2]. unfold PI_2_3_7_tg, tg_alt, Ratan_seq in *.
  cbn [Nat.mul Nat.add sum_f_R0] in *. rewrite ?INR_IZR_INZ in *. cbn [pow] in *.
  repeat match goal with H : context [IZR (Z.of_nat ?n)] |- _ => let z := eval vm_compute in (Z.of_nat n) in change (Z.of_nat n) with z in H end. split; lra.
Qed.
Lemma q7_high x : 0 <= x <= 1 -> q7 x < 1692996 / 1000000.
Proof.
  intros [H0 H1]. pose proof PI_sharp as [[P1 P2] P3]. unfold q7. pose proof (SIN_bound (3 * PI * x)) as [S1 S2]. destruct (Rle_dec x (84 / 100)) as [Ha|Ha].
  - assert (x * (1 + sin (3 * PI * x)) <= x * 2) by (apply Rmult_le_compat_l; lra). lra.
  - rewrite q7_turn. set (t := 3 * PI * (x - 5 / 6)). assert (T0 : 0 < t) by (unfold t; apply Rmult_lt_0_compat; lra).
    assert (T1 : t <= 158 / 100) by (unfold t; assert (3 * PI * (x - 5 / 6) <= 3 * (31416 / 10000) * (1 / 6)) by (apply Rmult_le_compat; lra); lra).
    set (c := 1061032955 / 10000000000) in *. assert (Hx : x <= 5 / 6 + c * t).
    { unfold t. assert (1 * (x - 5 / 6) <= c * (3 * PI) * (x - 5 / 6)) by (apply Rmult_le_compat_r; lra). lra. }
    pose proof (cos_upper t ltac:(lra)) as C. assert (C0 : 0 <= 1 + cos t) by (pose proof (COS_bound t); lra).
    assert (U : x * (1 + cos t) <= (5 / 6 + c * t) * (2 - t ^ 2 / 2 + t ^ 4 / 24)) by (apply Rmult_le_compat; lra).
    set (a := 2456879 / 10000000). set (Q := (5234219272673877922935354257551 / 12000000000000000000000000000000) + (506727430842883840196521 / 14400000000000000000000000) * t + (-26564097751268467 / 720000000000000000) * t ^ 2 + (-212206591 / 48000000000) * t ^ 3).
    assert (T2 : t ^ 2 <= 25 / 10) by (assert (t ^ 2 <= (158 / 100) ^ 2) by (apply pow_incr; lra); lra). assert (T3 : t ^ 3 <= 395 / 100) by (assert (t ^ 3 <= (158 / 100) ^ 3) by (apply pow_incr; lra); lra).
    assert (HQ : 0 <= (t - a) ^ 2 * Q) by (apply Rmult_le_pos; [apply sq_nonneg|unfold Q; lra]).
    assert (I : 1692996 / 1000000 - (5 / 6 + c * t) * (2 - t ^ 2 / 2 + t ^ 4 / 24) = (t - a) ^ 2 * Q + (3032755994845812130698812929987 / 288000000000000000000000000000000000000) * t + (40258905994871785697579996798598496603 / 400000000000000000000000000000000000000000000)) by (unfold c, a, Q; field). lra.
Qed.
Lemma q7_near : 1692995 / 1000000 <= q7 (8594 / 10000).
Proof.
  pose proof PI_sharp as [[P1 P2] _]. unfold q7. rewrite q7_turn. set (t := 3 * PI * (8594 / 10000 - 5 / 6)). set (u := 2456726 / 10000000). assert (T : 0 <= t <= u) by (unfold t, u; lra).
  assert (C : cos u <= cos t) by (apply cos_decr_1; unfold u in *; lra). destruct (pre_cos_bound u 1 ltac:(unfold u; lra) ltac:(unfold u; lra)) as [C2 _].
  unfold cos_approx, cos_term in C2. cbn [Nat.mul Nat.add sum_f_R0] in C2. replace (INR (fact 0)) with 1 in C2 by (cbn; lra). replace (INR (fact 2)) with 2 in C2 by (cbn; lra). replace (INR (fact 4)) with 24 in C2 by (cbn; lra). replace (INR (fact 6)) with 720 in C2 by (rewrite INR_IZR_INZ; done). cbn [pow] in C2. unfold u in *.
  assert (8594 / 10000 * (1 + cos (2456726 / 10000000)) <= 8594 / 10000 * (1 + cos t)) by (apply Rmult_le_compat_l; lra). lra.
Qed.

(** ** The optimal points of DTLZ5 and DTLZ6 *)
Lemma tan_ge d : 0 <= d <= 1 -> d * cos d <= sin d.
Proof.
  intros [H0 H1]. destruct (pre_sin_bound d 0 H0 ltac:(lra)) as [S _]. pose proof (cos_upper d ltac:(lra)) as C.
  assert (S' : d - d ^ 3 / 6 <= sin d). { eapply Rle_trans; [|exact S]. right. unfold sin_approx, sin_term. cbn [Nat.mul Nat.add sum_f_R0]. replace (INR (fact 1)) with 1 by (cbn; lra). replace (INR (fact 3)) with 6 by (cbn; lra). replace ((-1) ^ 0) with 1 by ring. replace ((-1) ^ 1) with (-1) by ring. replace (d ^ 1) with d by ring. lra. }
  assert (d * cos d <= d * (1 - d ^ 2 / 2 + d ^ 4 / 24)) by (apply Rmult_le_compat_l; lra). assert (0 <= d ^ 3) by (apply pow_le; lra). assert (d ^ 2 <= 1 ^ 2) by (apply pow_incr; lra).
  assert (d ^ 3 * d ^ 2 <= d ^ 3 * 1) by (apply Rmult_le_compat_l; lra). replace (d * (1 - d ^ 2 / 2 + d ^ 4 / 24)) with (d - d ^ 3 / 2 + d ^ 3 * d ^ 2 / 24) in * by field. lra.
Qed.
(** sin x / x decreases and sin^2 x / x increases. *)
Lemma sinc_decr a b : 0 <= a <= b -> b <= 1 -> a * sin b <= b * sin a.
Proof.
  intros [H0 H1] H2. replace b with (a + (b - a)) at 1 by lra. rewrite sin_plus. pose proof (tan_ge a ltac:(lra)) as T. pose proof PI_bounds.
  assert (0 <= sin a) by (apply sin_ge_0; lra). assert (0 <= cos a) by (apply cos_ge_0; lra). pose proof (sin_upper (b - a) ltac:(lra)). pose proof (cos_le_1 (b - a)).
  assert (sin a * cos (b - a) <= sin a * 1) by (apply Rmult_le_compat_l; lra). assert (cos a * sin (b - a) <= cos a * (b - a)) by (apply Rmult_le_compat_l; lra).
  assert (a * (sin a * cos (b - a) + cos a * sin (b - a)) <= a * (sin a * 1 + cos a * (b - a))) by (apply Rmult_le_compat_l; lra).
  assert ((b - a) * (a * cos a) <= (b - a) * sin a) by (apply Rmult_le_compat_l; lra). lra.
Qed.
Lemma sin2c_incr a b : 0 < a < b -> b <= PI / 4 -> b * sin a ^ 2 < a * sin b ^ 2.
Proof.
  intros [H0 H1] H2. pose proof PI_bounds as [P1 P2]. set (d := b - a).
  assert (E : sin b ^ 2 - sin a ^ 2 = sin (a + b) * sin d).
  { unfold d. rewrite sin_plus, sin_minus. pose proof (sin2_cos2 a) as A. pose proof (sin2_cos2 b) as B. unfold Rsqr in A, B.
    replace ((sin a * cos b + cos a * sin b) * (sin b * cos a - cos b * sin a)) with (sin b * sin b * (cos a * cos a) - sin a * sin a * (cos b * cos b)) by ring. replace (cos a * cos a) with (1 - sin a * sin a) by lra. replace (cos b * cos b) with (1 - sin b * sin b) by lra. ring. }
  assert (F : sin (a + b) * cos d = (sin (2 * a) + sin (2 * b)) / 2).
  { unfold d. rewrite sin_plus, cos_minus, !sin_2a. pose proof (sin2_cos2 a) as A. pose proof (sin2_cos2 b) as B. unfold Rsqr in A, B.
    replace ((sin a * cos b + cos a * sin b) * (cos b * cos a + sin b * sin a)) with (sin a * cos a * (sin b * sin b + cos b * cos b) + sin b * cos b * (sin a * sin a + cos a * cos a)) by ring. rewrite A, B. field. }
  assert (Sa : 0 < sin a) by (apply sin_gt_0; lra). assert (M : sin (2 * a) <= sin (2 * b)) by (apply sin_incr_1; lra).
  assert (Ca : 1 / 2 < cos a). { pose proof (cos_lower a ltac:(lra)). assert (a * a <= 8 / 10 * (8 / 10)) by (apply Rmult_le_compat; lra). lra. }
  assert (G : sin a < sin (a + b) * cos d). { rewrite F. rewrite sin_2a in M at 1. rewrite (sin_2a a). assert (sin a * (1 / 2) < sin a * cos a) by (apply Rmult_lt_compat_l; lra). lra. }
  pose proof (tan_ge d ltac:(unfold d; lra)) as T. assert (0 <= sin (a + b)) by (apply sin_ge_0; lra). pose proof (sin_upper a ltac:(lra)) as U.
  assert (sin (a + b) * (d * cos d) <= sin (a + b) * sin d) by (apply Rmult_le_compat_l; lra). assert (d * sin a < d * (sin (a + b) * cos d)) by (apply Rmult_lt_compat_l; [unfold d; lra|lra]).
  assert (K : d * sin a < sin (a + b) * sin d) by lra. assert (a * (d * sin a) < a * (sin (a + b) * sin d)) by (apply Rmult_lt_compat_l; lra).
  assert (d * sin a * sin a <= d * sin a * a) by (apply Rmult_le_compat_l; [apply Rmult_le_pos; unfold d; lra|lra]). rewrite <- E in *. unfold d in *. lra.
Qed.
(** The angles but the first stay away from 0 and 1. *)
Lemma angle_inner g v i : 0 <= g -> 0 <= entry v i <= 1 -> i <> 0%nat -> let u := / (1 + g) in 0 < u <= 1 /\ sin (u * (PI / 4)) <= cos (angle g v i * PI / 2) /\ sin (u * (PI / 4)) <= sin (angle g v i * PI / 2) /\ u / 2 <= angle g v i <= 1 - u / 2.
Proof.
  intros Hg Hi Hn. cbn zeta. set (u := / (1 + g)). pose proof PI_bounds as [P1 P2]. assert (U : 0 < u) by (apply Rinv_0_lt_compat; lra). assert (U1 : u <= 1) by (unfold u; rewrite <- Rinv_1; apply Rinv_le_contravar; lra).
  assert (Ug : u * g = 1 - u) by (unfold u; field; lra). assert (E : angle g v i = u * g * entry v i + u / 2) by (unfold angle; rewrite decide_False by done; unfold u; field; lra).
  assert (0 <= u * g * entry v i) by (apply Rmult_le_pos; [apply Rmult_le_pos; lra|lra]). assert (u * g * entry v i <= u * g * 1) by (apply Rmult_le_compat_l; [apply Rmult_le_pos; lra|lra]).
  assert (A : u / 2 <= angle g v i <= 1 - u / 2) by (rewrite E; lra). split; [done|]. set (t := angle g v i) in *.
  assert (T1 : u / 2 * PI <= t * PI) by (apply Rmult_le_compat_r; lra). assert (T2 : t * PI <= (1 - u / 2) * PI) by (apply Rmult_le_compat_r; lra). assert (T3 : u * PI <= 1 * PI) by (apply Rmult_le_compat_r; lra). assert (T4 : 0 <= u * PI) by (apply Rmult_le_pos; lra).
  split; [|split; [|done]].
  - rewrite <- cos_shift. apply cos_decr_1; lra.
  - apply sin_incr_1; lra.
Qed.
Lemma scaled_sin g : 0 <= g -> sin (PI / 4) <= (1 + g) * sin (/ (1 + g) * (PI / 4)).
Proof.
  intros Hg. pose proof PI_bounds as [P1 P2]. set (u := / (1 + g)). assert (U : 0 < u) by (apply Rinv_0_lt_compat; lra). assert (U1 : u <= 1) by (unfold u; rewrite <- Rinv_1; apply Rinv_le_contravar; lra).
  assert (u * (PI / 4) <= 1 * (PI / 4)) by (apply Rmult_le_compat_r; lra). pose proof (sinc_decr (u * (PI / 4)) (PI / 4) ltac:(split; [apply Rmult_le_pos; lra|lra]) ltac:(lra)) as D.
  assert (D' : u * sin (PI / 4) <= sin (u * (PI / 4))) by (apply (Rmult_le_reg_l (PI / 4)); lra). assert ((1 + g) * (u * sin (PI / 4)) <= (1 + g) * sin (u * (PI / 4))) by (apply Rmult_le_compat_l; lra).
  replace ((1 + g) * (u * sin (PI / 4))) with (sin (PI / 4)) in * by (unfold u; field; lra). lra.
Qed.
Lemma hyper_expand c b s : hyper c b s 1 0 = c * b 0%nat /\ hyper c b s 1 1 = c * s 0%nat /\
  hyper c b s 2 0 = c * (b 0%nat * b 1%nat) /\ hyper c b s 2 1 = c * (b 0%nat * s 1%nat) /\ hyper c b s 2 2 = c * s 0%nat /\
  hyper c b s 3 0 = c * (b 0%nat * b 1%nat * b 2%nat) /\ hyper c b s 3 1 = c * (b 0%nat * b 1%nat * s 2%nat) /\ hyper c b s 3 2 = c * (b 0%nat * s 1%nat) /\ hyper c b s 3 3 = c * s 0%nat.
Proof. unfold hyper. repeat split; (match goal with |- context [decide ?P] => destruct (decide P) end); try lia; cbn [Nat.sub big_prod]; lra. Qed.
Lemma angle_half v i : i <> 0%nat -> angle 0 v i = 1 / 2.
Proof. intros H. unfold angle. rewrite decide_False by done. field. Qed.
(** With two or three objectives only the points with g = 0 are optimal. *)
Lemma dtlz5_only f M K g h x0 v : (2 <= M <= 3)%nat -> (1 <= K)%nat -> 0 <= x0 <= 1 -> (forall x, 0 <= x <= 1 -> 0 <= h x /\ (h x = 0 <-> x = x0)) -> g = tail_sum M K h ->
  computes f (dbox M K) M (shape5 M g) g -> pareto f (dbox M K) v -> g v = 0.
Proof.
  intros HM HK Hx0 Hh -> F (Hv & y & Hy & Hd). set (g := tail_sum M K h) in *. assert (Gv : 0 <= g v) by (apply tail_sum_nonneg; [lia|done|intros; by apply Hh]). destruct (Req_dec (g v) 0) as [|Hne]; [done|]. exfalso.
  set (w := retail M K x0 v). assert (Hw : dbox M K w) by (apply retail_box; [lia|done|done]). pose proof Hv as Hv'. apply dbox_spec in Hv' as [Hl Hb].
  assert (Gw : g w = 0) by (apply (tail_sum_zero M K h x0); [lia|done|done|]; intros i Hi; apply retail_rest; [lia|done|done]).
  destruct (F w Hw) as (z & Hz & Lz & Ez). destruct (F v Hv) as (y' & Hy' & Ly & Ey). rewrite Hy in Hy'. apply (inj Some) in Hy'; subst y'. apply (Hd w z Hw Hz).
  destruct (shape5_facts M K g v ltac:(lia) Hv Gv) as [Sv Nv]. destruct (shape5_facts M K g w ltac:(lia) Hw ltac:(lra)) as [Sw Nw].
  assert (LE : forall k, (k < M)%nat -> shape5 M g w k <= (1 + g v) * shape5 M g v k).
  { assert (A0 : angle (g w) w 0 = angle (g v) v 0) by (unfold angle; rewrite !decide_True by done; unfold w; apply retail_first; [done|lia]).
    destruct (cos_sin_unit (angle (g v) v 0)) as (C0 & S0 & _); [apply angle_range; [done|apply Hb; lia|apply Hb; lia]|].
    assert (X : forall t, 0 <= t -> t <= (1 + g v) * t) by (intros t Ht; pose proof (Rmult_le_pos _ _ Gv Ht); lra).
    destruct (decide (M = 2%nat)) as [->|Hn].
    - intros k Hk. unfold shape5. cbn [Nat.sub]. destruct (hyper_expand 1 (fun i => cos (angle (g w) w i * PI / 2)) (fun i => sin (angle (g w) w i * PI / 2))) as (E1 & E2 & _). destruct (hyper_expand 1 (fun i => cos (angle (g v) v i * PI / 2)) (fun i => sin (angle (g v) v i * PI / 2))) as (E3 & E4 & _). cbn beta in *.
      destruct k as [|[|k]]; [rewrite E1, E3, A0; specialize (X _ C0); lra|rewrite E2, E4, A0; specialize (X _ S0); lra|lia].
    - assert (M = 3%nat) as -> by lia. intros k Hk. unfold shape5. cbn [Nat.sub]. destruct (hyper_expand 1 (fun i => cos (angle (g w) w i * PI / 2)) (fun i => sin (angle (g w) w i * PI / 2))) as (_ & _ & E1 & E2 & E3 & _). destruct (hyper_expand 1 (fun i => cos (angle (g v) v i * PI / 2)) (fun i => sin (angle (g v) v i * PI / 2))) as (_ & _ & E4 & E5 & E6 & _). cbn beta in *.
      destruct (angle_inner (g v) v 1 Gv ltac:(apply Hb; lia) ltac:(lia)) as (_ & I1 & I2 & _). pose proof (scaled_sin (g v) Gv) as Q. rewrite Gw in *. rewrite (angle_half w 1) in * by lia. replace (1 / 2 * PI / 2) with (PI / 4) in * by lra.
      assert (J1 : sin (PI / 4) <= (1 + g v) * cos (angle (g v) v 1 * PI / 2)) by (eapply Rle_trans; [exact Q|]; apply Rmult_le_compat_l; lra).
      assert (J2 : sin (PI / 4) <= (1 + g v) * sin (angle (g v) v 1 * PI / 2)) by (eapply Rle_trans; [exact Q|]; apply Rmult_le_compat_l; lra).
      assert (J3 : cos (PI / 4) = sin (PI / 4)) by (rewrite cos_PI4, sin_PI4; done).
      destruct k as [|[|[|k]]]; [rewrite E1, E4, A0, J3|rewrite E2, E5, A0|rewrite E3, E6, A0; specialize (X _ S0); lra|lia].
      + pose proof (Rmult_le_compat_l _ _ _ C0 J1). lra.
      + pose proof (Rmult_le_compat_l _ _ _ C0 J2). lra. }
  split; [lia|]. rewrite Ly. split.
  - intros k Hk. rewrite Ez, Ey, Gw by done. specialize (LE k Hk). lra.
  - destruct (Classical_Pred_Type.not_all_ex_not _ (fun k => (k < M)%nat -> (1 + g v) * shape5 M g v k <= shape5 M g w k)) as [k Hk].
    + intros Hz'. assert (B : big_sum M (fun k => ((1 + g v) * shape5 M g v k) ^ 2) <= 1). { eapply Rle_trans; [|right; exact Sw]. apply big_sum_le. intros k Hk. apply pow_incr. split; [apply Rmult_le_pos; [lra|by apply Nv]|by apply Hz']. }
      rewrite (big_sum_ext _ _ (fun k => (1 + g v) ^ 2 * shape5 M g v k ^ 2)) in B by (intros; apply Rpow_mult_distr). rewrite big_sum_scal, Sv in B. nra.
    + exists k. destruct (decide (k < M)%nat) as [Hlt|]; [|by destruct Hk]. split; [done|]. rewrite Ez, Ey, Gw by done. apply Rnot_le_lt. intros Hc. apply Hk. intros _. lra.
Qed.
(** With four objectives there are others: the largest g with the angles 0, 1 - u/2 and u/2. *)
Definition stray (K : nat) : list R := [0; 1; 0] ++ replicate K 1.
Lemma stray_optimal f K g : (1 <= K)%nat -> computes f (dbox 4 K) 4 (shape5 4 g) g -> (forall w, dbox 4 K w -> 0 <= g w <= g (stray K)) -> pareto f (dbox 4 K) (stray K).
Proof.
  intros HK F Hg. set (v := stray K) in *. pose proof PI_bounds as [P1 P2].
  assert (Hv : dbox 4 K v). { apply dbox_spec. unfold v, stray. rewrite app_length, replicate_length. cbn [length]. split; [lia|]. intros i Hi. destruct i as [|[|[|i]]]; cbn [app]; unfold entry; cbn [nth]; [lra|lra|lra|]. change (nth i (replicate K 1) 0) with (entry (replicate K 1) i). rewrite entry_replicate by lia. lra. }
  split; [done|]. destruct (F v Hv) as (y & Hy & Ly & Ey). exists y. split; [done|]. intros w z Hw Hz Hb. destruct (F w Hw) as (z' & Hz' & Lz & Ez). rewrite Hz in Hz'. apply (inj Some) in Hz'; subst z'.
  pose proof (Hg v Hv) as [Gv _]. destruct (Hg w Hw) as [Gw Gwv]. pose proof Hw as Hw'. apply dbox_spec in Hw' as [Lw Bw].
  set (u := / (1 + g v)). set (u' := / (1 + g w)). assert (U : 0 < u) by (apply Rinv_0_lt_compat; lra). assert (UU : u <= u') by (apply Rinv_le_contravar; lra). assert (U1 : u' <= 1) by (unfold u'; rewrite <- Rinv_1; apply Rinv_le_contravar; lra).
  assert (D : forall k, (k < 4)%nat -> (1 + g w) * shape5 4 g w k <= (1 + g v) * shape5 4 g v k). { intros k Hk. destruct Hb as (_ & Hb & _). specialize (Hb k ltac:(lia)). rewrite Ey, Ez in Hb by done. lra. }
  unfold shape5 in *. cbn [Nat.sub] in *.
  destruct (hyper_expand 1 (fun i => cos (angle (g w) w i * PI / 2)) (fun i => sin (angle (g w) w i * PI / 2))) as (_ & _ & _ & _ & _ & W0 & W1 & W2 & W3).
  destruct (hyper_expand 1 (fun i => cos (angle (g v) v i * PI / 2)) (fun i => sin (angle (g v) v i * PI / 2))) as (_ & _ & _ & _ & _ & V0 & V1 & V2 & V3). cbn beta in *.
  assert (A0 : angle (g v) v 0 = 0) by (unfold angle; rewrite decide_True by done; done).
  assert (A1 : angle (g v) v 1 = 1 - u / 2) by (unfold angle; rewrite decide_False by lia; replace (entry v 1) with 1 by done; unfold u; field; lra).
  assert (A2 : angle (g v) v 2 = u / 2) by (unfold angle; rewrite decide_False by lia; replace (entry v 2) with 0 by done; unfold u; field; lra).
  rewrite A0, A1, A2 in *. replace (0 * PI / 2) with 0 in * by lra. rewrite cos_0, sin_0 in *. replace ((1 - u / 2) * PI / 2) with (PI / 2 - u * (PI / 4)) in * by lra. replace (u / 2 * PI / 2) with (u * (PI / 4)) in * by lra. rewrite cos_shift, sin_shift in *.
  (* the last objective forces the first variable to be 0 *)
  pose proof (D 3%nat ltac:(lia)) as D3. rewrite W3, V3 in D3. assert (R0 : 0 <= entry w 0 <= 1) by (apply Bw; lia). assert (Aw0 : angle (g w) w 0 = entry w 0) by (unfold angle; by rewrite decide_True).
  assert (Z0 : entry w 0 = 0).
  { destruct (Req_dec (entry w 0) 0) as [|Hn]; [done|]. exfalso. rewrite Aw0 in D3. destruct (PI2_range _ R0) as [_ Q]. assert (0 < entry w 0 * PI) by (apply Rmult_lt_0_compat; lra). assert (0 < sin (entry w 0 * PI / 2)) by (apply sin_gt_0; lra). assert (0 < (1 + g w) * sin (entry w 0 * PI / 2)) by (apply Rmult_lt_0_compat; lra). lra. }
  rewrite Aw0, Z0 in *. replace (0 * PI / 2) with 0 in * by lra. rewrite cos_0, sin_0 in *.
  destruct (angle_inner (g w) w 1 Gw ltac:(apply Bw; lia) ltac:(lia)) as (_ & C1 & S1 & _). destruct (angle_inner (g w) w 2 Gw ltac:(apply Bw; lia) ltac:(lia)) as (_ & C2 & S2 & _). cbn zeta in *. fold u' in C1, S1, C2, S2.
  set (p := sin (u * (PI / 4))) in *. set (p' := sin (u' * (PI / 4))) in *. assert (UP : 0 < u * (PI / 4)) by (apply Rmult_lt_0_compat; lra). assert (UP' : u * (PI / 4) <= u' * (PI / 4)) by (apply Rmult_le_compat_r; lra). assert (UP1 : u' * (PI / 4) <= 1 * (PI / 4)) by (apply Rmult_le_compat_r; lra).
  assert (Hp : 0 < p) by (apply sin_gt_0; lra). assert (Hp' : 0 < p') by (apply sin_gt_0; lra).
  pose proof (D 1%nat ltac:(lia)) as D1. rewrite W1, V1 in D1. set (c1 := cos (angle (g w) w 1 * PI / 2)) in *. set (s1 := sin (angle (g w) w 1 * PI / 2)) in *. set (c2 := cos (angle (g w) w 2 * PI / 2)) in *. set (s2 := sin (angle (g w) w 2 * PI / 2)) in *.
  assert (PP : p' * p' <= c1 * s2) by (apply Rmult_le_compat; lra).
  assert (Q1 : (1 + g w) * (p' * p') <= (1 + g v) * (p * p)) by (assert ((1 + g w) * (p' * p') <= (1 + g w) * (c1 * s2)) by (apply Rmult_le_compat_l; lra); lra).
  assert (Eu : (1 + g v) * u = 1) by (unfold u; field; lra). assert (Eu' : (1 + g w) * u' = 1) by (unfold u'; field; lra).
  assert (Q2 : u * (p' * p') <= u' * (p * p)).
  { assert (u * u' * ((1 + g w) * (p' * p')) <= u * u' * ((1 + g v) * (p * p))) by (apply Rmult_le_compat_l; [apply Rmult_le_pos; lra|done]).
    replace (u * u' * ((1 + g w) * (p' * p'))) with ((1 + g w) * u' * (u * (p' * p'))) in * by ring. replace (u * u' * ((1 + g v) * (p * p))) with ((1 + g v) * u * (u' * (p * p))) in * by ring. rewrite Eu, Eu' in *. lra. }
  assert (Ueq : u' = u).
  { destruct (Req_dec u' u) as [|Hn]; [done|]. exfalso. assert (u * (PI / 4) < u' * (PI / 4)) by (apply Rmult_lt_compat_r; lra). pose proof (sin2c_incr (u * (PI / 4)) (u' * (PI / 4)) ltac:(lra) ltac:(lra)) as I. fold p p' in I.
    assert (PI / 4 * (u' * (p * p)) < PI / 4 * (u * (p' * p'))) by lra. assert (PI / 4 * (u * (p' * p')) <= PI / 4 * (u' * (p * p))) by (apply Rmult_le_compat_l; lra). lra. }
  assert (Geq : g w = g v). { apply (f_equal Rinv) in Ueq. unfold u, u' in Ueq. rewrite !Rinv_inv in Ueq. lra. }
  assert (Peq : p' = p) by (unfold p, p'; by rewrite Ueq). rewrite Peq in *. rewrite Geq in *.
  assert (Q3 : c1 * s2 <= p * p) by (apply (Rmult_le_reg_l (1 + g v)); lra).
  assert (c1 = p). { apply Rle_antisym; [|lra]. apply Rnot_lt_le. intros Hlt. assert (p * p < c1 * s2); [|lra]. apply Rlt_le_trans with (c1 * p); [by apply Rmult_lt_compat_r|apply Rmult_le_compat_l; lra]. }
  assert (s2 = p). { apply Rle_antisym; [|lra]. apply Rnot_lt_le. intros Hlt. assert (p * p < c1 * s2); [|lra]. apply Rlt_le_trans with (p * s2); [by apply Rmult_lt_compat_l|apply Rmult_le_compat_r; lra]. }
  assert (Cu : 0 <= cos (u * (PI / 4))) by (apply cos_ge_0; lra). pose proof (sin2_cos2 (u * (PI / 4))) as T0. pose proof (sin2_cos2 (angle (g w) w 1 * PI / 2)) as T1. pose proof (sin2_cos2 (angle (g w) w 2 * PI / 2)) as T2. unfold Rsqr in T0, T1, T2. fold p in T0. fold c1 s1 in T1. fold c2 s2 in T2.
  assert (s1 = cos (u * (PI / 4))) by (apply sq_inj; [lra|done|]; replace c1 with p in T1; lra).
  assert (c2 = cos (u * (PI / 4))) by (apply sq_inj; [lra|done|]; replace s2 with p in T2; lra).
  apply (better_irrefl_entries _ _ Hb). intros k Hk. rewrite Ly in Hk. rewrite Ez, Ey by done. do 2 f_equal. destruct k as [|[|[|[|k]]]]; [rewrite W0, V0|rewrite W1, V1|rewrite W2, V2|rewrite W3, V3|lia]; congruence.
Qed.
