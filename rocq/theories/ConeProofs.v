(** Lemmas about the cone tree over the real numbers. *)
From Coq Require Import Reals Lra Lia Psatz.
From stdpp Require Import list list_numbers sets.
From Verif Require Import StdSort AlgorithmModel AlgorithmSpec AlgorithmProofs ConeModel ConeSpec.
Local Open Scope nat_scope.

(** The real numbers as numbers of the model. *)
#[global] Instance real_num : num R := Num R 0%R Rplus Rminus Rmult Rdiv R_sqrt.sqrt (fun x y => if Rlt_dec x y then true else false) INR.
Notation rpoint := (list R).

(** ** Vectors *)
Section Vectors.
Local Open Scope R_scope.
Lemma foldl_plus l : forall a : R, foldl Rplus a l = a + foldl Rplus 0 l.
Proof. induction l as [|x l IH]; intros a; cbn; [lra|]. rewrite IH, (IH (0 + x)). lra. Qed.
Lemma inner_product_dot (u v : rpoint) : inner_product (N := real_num) u v = dot u v :> R.
Proof.
  unfold inner_product. cbn [nadd nmul nzero real_num]. revert v. induction u as [|x u IH]; intros [|y v]; try done. cbn. rewrite foldl_plus. rewrite <- IH. lra.
Qed.
Definition dsq (u v : rpoint) : R := dot (zip_with Rminus u v) (zip_with Rminus u v).
Lemma distance_dsq (u v : rpoint) : euclidean_distance_sq (N := real_num) u v = dsq u v :> R.
Proof.
  unfold euclidean_distance_sq, dsq. cbn [nadd nmul nsub nzero real_num]. revert v. induction u as [|x u IH]; intros [|y v]; try done. cbn. rewrite foldl_plus. rewrite <- IH. lra.
Qed.
Lemma dot_comm u : forall v, dot u v = dot v u.
Proof. induction u as [|x u IH]; intros [|y v]; cbn; try done. rewrite IH. lra. Qed.
Lemma dot_self_nonneg u : 0 <= dot u u.
Proof. induction u as [|x u IH]; cbn; [lra|nra]. Qed.
Lemma dot_quadratic s t u : forall v, length u = length v -> 0 <= s * s * dot u u + 2 * s * t * dot u v + t * t * dot v v.
Proof.
  induction u as [|x u IH]; intros [|y v] Hl; try done; cbn; [lra|]. specialize (IH v ltac:(by injection Hl)). pose proof (Rle_0_sqr (s * x + t * y)). unfold Rsqr in *. nra.
Qed.
(** Cauchy-Schwarz. *)
Lemma cauchy_schwarz u v : length u = length v -> dot u v * dot u v <= dot u u * dot v v.
Proof.
  intros Hl. pose proof (dot_self_nonneg u) as Hu. pose proof (dot_self_nonneg v) as Hv. destruct (Rle_lt_or_eq_dec _ _ Hv) as [Hp | Hz].
  - pose proof (dot_quadratic (dot v v) (- dot u v) u v Hl) as H. assert (0 <= dot v v * (dot v v * dot u u - dot u v * dot u v)) as H' by nra.
    assert (0 <= dot v v * dot u u - dot u v * dot u v); [|lra]. apply Rmult_le_reg_l with (dot v v); [done|]. lra.
  - rewrite <- Hz, Rmult_0_r. destruct (Req_dec (dot u v) 0) as [E | E]; [rewrite E; lra|]. exfalso.
    pose proof (dot_quadratic 1 (- ((dot u u + 1) / (2 * dot u v))) u v Hl) as H. rewrite <- Hz in H.
    replace (1 * 1 * dot u u + 2 * 1 * - ((dot u u + 1) / (2 * dot u v)) * dot u v + - ((dot u u + 1) / (2 * dot u v)) * - ((dot u u + 1) / (2 * dot u v)) * 0) with (-1) in H by (field; done). lra.
Qed.
Lemma dot_sub q : forall c p, length c = length q -> length p = length q -> dot q p = dot q c - dot q (zip_with Rminus c p).
Proof.
  induction q as [|x q IH]; intros [|y c] [|z p] H1 H2; try done; cbn; [lra|]. rewrite (IH c p) by (cbn in *; lia). lra.
Qed.
Lemma bound_ok q c p r : length c = length q -> length p = length q -> 0 <= r -> dsq c p <= r * r -> dot q p <= dot q c + R_sqrt.sqrt (dot q q) * r.
Proof.
  intros H1 H2 Hr Hd. rewrite (dot_sub q c p) by done. set (w := zip_with Rminus c p). assert (Hw : length w = length q) by (unfold w; rewrite zip_with_length; lia).
  pose proof (cauchy_schwarz q w (eq_sym Hw)) as Hcs. change (dot w w <= r * r) in Hd. pose proof (dot_self_nonneg q) as Hq. pose proof (sqrt_pos (dot q q)) as Hs. pose proof (sqrt_sqrt _ Hq) as Hss.
  assert (Hx : dot q w * dot q w <= (R_sqrt.sqrt (dot q q) * r) * (R_sqrt.sqrt (dot q q) * r)) by (replace (R_sqrt.sqrt (dot q q) * r * (R_sqrt.sqrt (dot q q) * r)) with (dot q q * (r * r)) by (rewrite <- Hss at 1; lra); nra).
  assert (0 <= R_sqrt.sqrt (dot q q) * r) by (by apply Rmult_le_pos). assert (- (R_sqrt.sqrt (dot q q) * r) <= dot q w); [|lra]. nra.
Qed.
End Vectors.

Lemma rlt_true (x y : R) : nlt (num := real_num) x y = true <-> (x < y)%R.
Proof. cbn. destruct (Rlt_dec x y); split; try done; lra. Qed.
Lemma rlt_false (x y : R) : nlt (num := real_num) x y = false <-> (y <= x)%R.
Proof. cbn. destruct (Rlt_dec x y); split; try done; lra. Qed.
Lemma rlt_swo l : swo_on (nlt (num := real_num)) l.
Proof.
  split.
  - intros x _. apply rlt_false. lra.
  - intros x y z _ _ _. rewrite !rlt_true. lra.
  - intros x y z _ _ _. rewrite !rlt_false. lra.
Qed.

(** ** Ranges *)
Section Ranges.
Context {A : Type}.
(** Nothing moved into or out of [a, b) nor outside of it. *)
Record within (a b : nat) (l l' : list A) : Prop := {
  w_perm : l' ≡ₚ l;
  w_out : forall k, (k < a \/ b <= k) -> l' !! k = l !! k;
  w_in : forall k x, a <= k < b -> l' !! k = Some x -> exists k', a <= k' < b /\ l !! k' = Some x }.
Lemma within_refl a b l : within a b l l.
Proof. split; [done|done|]. eauto. Qed.
Lemma within_trans a b l1 l2 l3 : within a b l1 l2 -> within a b l2 l3 -> within a b l1 l3.
Proof.
  intros [P1 O1 I1] [P2 O2 I2]. split; [by rewrite P2|intros k Hk; by rewrite O2, O1|]. intros k x Hk Hx. destruct (I2 k x Hk Hx) as (k' & Hk' & Hx'). by apply (I1 k').
Qed.
Lemma within_mono a b a' b' l l' : within a b l l' -> a' <= a -> b <= b' -> within a' b' l l'.
Proof.
  intros [P O I] Ha Hb. split; [done|intros k Hk; apply O; lia|]. intros k x Hk Hx. destruct (decide (a <= k < b)) as [Hin | Hout].
  - destruct (I k x Hin Hx) as (k' & ? & ?). exists k'. split; [lia|done].
  - exists k. split; [done|]. rewrite <- O; [done|lia].
Qed.
Lemma swap_within (l : list A) a b i j : a <= i < b -> a <= j < b -> b <= length l -> exists l', iter_swap l i j = Some l' /\ within a b l l'.
Proof.
  intros Hi Hj Hb. unfold iter_swap. destruct (lookup_lt_is_Some_2 l i ltac:(lia)) as [x Hx]. destruct (lookup_lt_is_Some_2 l j ltac:(lia)) as [y Hy]. rewrite Hx, Hy. cbn [mbind option_bind].
  eexists. split; [done|].
  assert (Hlk : forall k, <[j:=x]> (<[i:=y]> l) !! k = if decide (k = j) then Some x else if decide (k = i) then Some y else l !! k).
  { intros k. case_decide as E1; [subst; apply list_lookup_insert; rewrite insert_length; lia|]. rewrite list_lookup_insert_ne by done.
    case_decide as E2; [subst; apply list_lookup_insert; lia|]. by apply list_lookup_insert_ne. }
  split.
  - destruct (decide (i = j)) as [-> | Hne].
    + assert (x = y) as -> by congruence. rewrite list_insert_insert. by rewrite list_insert_id.
    + apply Permutation_inj. split; [by rewrite !insert_length|].
      exists (fun k => if decide (k = i) then j else if decide (k = j) then i else k). split.
      * intros a' b'. repeat case_decide; subst; lia.
      * intros k. rewrite Hlk. repeat case_decide; subst; congruence.
  - intros k Hk. rewrite Hlk. rewrite !decide_False by lia. done.
  - intros k z Hk. rewrite Hlk. case_decide; [intros [= ->]; by exists i|]. case_decide; [intros [= ->]; by exists j|]. intros Hz. by exists k.
Qed.
End Ranges.
Lemma rows_lookup {T} (l : list (list T)) a b k : rows l a b !! k = if decide (a + k < b) then l !! (a + k) else None.
Proof.
  unfold rows. case_decide.
  - rewrite lookup_take by lia. by rewrite lookup_drop.
  - by rewrite lookup_take_ge by lia.
Qed.
Lemma rows_length {T} (l : list (list T)) a b : a <= b -> b <= length l -> length (rows l a b) = b - a.
Proof. intros H1 H2. unfold rows. rewrite take_length, drop_length. lia. Qed.

(** ** Partition *)
Lemma scan_up_ok pred a n : a <= scan_up pred a n <= a + n /\ (forall k, a <= k < scan_up pred a n -> pred k = true) /\ (scan_up pred a n < a + n -> pred (scan_up pred a n) = false).
Proof.
  revert a. induction n as [|n IH]; intros a; cbn; [split; [lia|]; split; [lia|lia]|]. destruct (pred a) eqn:E.
  - destruct (IH (S a)) as (H1 & H2 & H3). split; [lia|]. split; [|intros; apply H3; lia]. intros k Hk. destruct (decide (k = a)) as [-> | ?]; [done|]. apply H2. lia.
  - split; [lia|]. split; [lia|done].
Qed.
Lemma scan_down_ok pred a n : a <= scan_down pred a n <= a + n.
Proof. induction n as [|n IH]; cbn [scan_down]; [lia|]. destruct (negb _); lia. Qed.
Lemma partition_ok {T} (pred : list (list T) -> nat -> bool) fuel l a b : a <= b -> b <= length l -> b - a < fuel ->
  exists l' m, partition pred fuel l a b = Some (l', m) /\ within a b l l' /\ a <= m <= b /\ (m = b -> forall k, a <= k < b -> pred l k = true).
Proof.
  revert l a b. induction fuel as [|fuel IH]; intros l a b Hab Hb Hf; [lia|]. cbn [partition].
  destruct (scan_up_ok (pred l) a (b - a)) as (H1 & H2 & H3). set (f := scan_up (pred l) a (b - a)) in *.
  destruct (decide (f = b)) as [Ef | Ef]; [exists l, f; split; [done|]; split; [apply within_refl|]; split; [lia|]; intros _ k Hk; apply H2; lia|].
  pose proof (scan_down_ok (pred l) f (b - 1 - f)) as H4. set (g := scan_down (pred l) f (b - 1 - f)) in *.
  destruct (decide (f = g)) as [Eg | Eg]; [exists l, f; split; [done|]; split; [apply within_refl|]; split; [lia|lia]|].
  destruct (swap_within l a b f g) as (l1 & E1 & W1); [lia|lia|done|]. rewrite E1. cbn [mbind option_bind]. pose proof (w_perm _ _ _ _ W1) as P1. apply Permutation_length in P1.
  destruct (IH l1 (S f) g) as (l2 & m & E2 & W2 & Hm & _); [lia|lia|lia|]. exists l2, m. split; [done|]. split; [|split; [lia|lia]].
  eapply within_trans; [exact W1|]. eapply within_mono; [exact W2|lia|lia].
Qed.
Lemma scan_up_false pred a n : (forall k, a <= k < a + n -> pred k = false) -> scan_up pred a n = a.
Proof. destruct n as [|n]; [done|]. intros H. cbn. rewrite H by lia. done. Qed.
Lemma scan_down_false pred a n : (forall k, a <= k <= a + n -> pred k = false) -> scan_down pred a n = a.
Proof. induction n as [|n IH]; [done|]. intros H. cbn [scan_down]. rewrite H by lia. apply IH. intros k Hk. apply H. lia. Qed.
Lemma partition_false {T} (pred : list (list T) -> nat -> bool) fuel l a b : a <= b -> 0 < fuel -> (forall k, pred l k = false) -> partition pred fuel l a b = Some (l, a).
Proof.
  intros Hab Hf H. destruct fuel as [|fuel]; [lia|]. cbn [partition]. rewrite scan_up_false by (intros; apply H). destruct (decide (a = b)) as [-> | Hne]; [done|].
  rewrite scan_down_false by (intros; apply H). by rewrite decide_True.
Qed.

(** ** Centres and radii *)
Notation rnode := (@node R).
Notation rtree := (@tree R).
Section Geometry.
Variable d : nat.
Lemma find_center_ok (range : list rpoint) : range <> [] -> Forall (fun x => length x = d) range -> exists c : rpoint, find_center (N := real_num) range = Some c /\ length c = d.
Proof.
  intros Hne Hd. destruct range as [|p range]; [done|]. apply Forall_cons in Hd as [Hp Hd]. eexists. split; [done|]. rewrite fmap_length. clear Hne. revert p Hp. induction range as [|x range IH]; intros p Hp; [done|].
  apply Forall_cons in Hd as [Hx Hd]. cbn [foldl]. apply IH; [done|]. transitivity (@length R p `min` @length R x); [apply zip_with_length|]. rewrite Hp, Hx. apply Nat.min_id.
Qed.
Lemma find_radius_ok (range : list rpoint) (c : rpoint) : range <> [] -> exists r : R, find_radius (N := real_num) range c = Some r /\ (0 <= r)%R /\ forall x, x ∈ range -> (dsq c x <= r * r)%R.
Proof.
  intros Hne. unfold find_radius. destruct (max_element_ok (nlt (num := real_num)) (euclidean_distance_sq (N := real_num) c) range Hne (rlt_swo _)) as (v & Hv & Hmax & _).
  rewrite list_lookup_fmap in Hv. destruct (range !! max_element (nlt (num := real_num)) (euclidean_distance_sq (N := real_num) c) range) as [f|] eqn:Ef; [|done]. cbn in Hv. injection Hv as <-.
  cbn [mbind option_bind]. eexists. split; [done|]. split; [apply sqrt_pos|]. intros x Hx. cbn [nsqrt real_num]. rewrite sqrt_sqrt; [|rewrite distance_dsq; apply dot_self_nonneg].
  apply elem_of_list_lookup in Hx as [j Hj]. assert (Hj' : (euclidean_distance_sq (N := real_num) c <$> range) !! j = Some (euclidean_distance_sq (N := real_num) c x)) by (by rewrite list_lookup_fmap, Hj).
  apply Hmax in Hj'. apply rlt_false in Hj'. by rewrite !distance_dsq in *.
Qed.
Lemma find_furthest_ok (l : list rpoint) a b from : a < b -> b <= length l -> a <= find_furthest (N := real_num) l a b from < b.
Proof.
  intros Hab Hb. unfold find_furthest. assert (Hl : length (rows l a b) = b - a) by (apply rows_length; lia).
  destruct (max_element_ok (nlt (num := real_num)) (euclidean_distance_sq (N := real_num) from) (rows l a b)) as (v & Hv & _); [intros E; rewrite E in Hl; cbn in Hl; lia|apply rlt_swo|].
  apply lookup_lt_Some in Hv. rewrite fmap_length, Hl in Hv. lia.
Qed.
Lemma partition_points_ok (l : list rpoint) a b : a < b -> b <= length l -> exists p1 p2, partition_points (N := real_num) l a b = Some (p1, p2) /\ a <= p1 < b /\ a <= p2 < b.
Proof.
  intros Hab Hb. unfold partition_points. destruct (lookup_lt_is_Some_2 l a ltac:(lia)) as [x Hx]. rewrite Hx. cbn [mbind option_bind].
  pose proof (find_furthest_ok l a b x Hab Hb) as H1. destruct (lookup_lt_is_Some_2 l (find_furthest (N := real_num) l a b x) ltac:(lia)) as [y Hy]. rewrite Hy. cbn [mbind option_bind].
  eexists _, _. split; [done|]. split; [done|]. by apply find_furthest_ok.
Qed.
(** The second partition point is not closer to the first one. *)
Lemma closer_self (l : list rpoint) p1 p2 : closer (N := real_num) p1 p2 l p2 = false.
Proof.
  unfold closer. destruct (l !! p2) as [x|]; [|done]. destruct (l !! p1) as [y|]; [|done]. apply rlt_false. rewrite !distance_dsq. assert (E : dsq x x = 0%R).
  { unfold dsq. clear. induction x as [|a x IH]; [done|]. cbn. rewrite IH. lra. }
  rewrite E. apply dot_self_nonneg.
Qed.

(** ** Building *)
Definition weight (nd : rnode) : nat := 2 * (last nd - first nd) - 1.
Definition node_apart (x y : rnode) : Prop := last x <= first y \/ last y <= first x.
Definition node_over (x y : rnode) : Prop := first x <= first y /\ last y <= last x.
Record done_ok (ps : list rpoint) (ns : list rnode) (m : nat) (nd : rnode) : Prop := {
  d_len : length (center nd) = d;
  d_rad : (0 <= radius nd)%R;
  d_bound : forall k x, first nd <= k < last nd -> ps !! k = Some x -> (dsq (center nd) x <= radius nd * radius nd)%R;
  d_kids : left nd = 0 /\ right nd = 0 \/
    left nd <> 0 /\ right nd <> 0 /\ exists l r, ns !! left nd = Some l /\ ns !! right nd = Some r /\ first l = first nd /\ last l = first r /\ last r = last nd }.
Record build_inv (ps : list rpoint) (i : nat) (t : rtree) : Prop := {
  b_points : points t ≡ₚ ps;
  b_range : forall k nd, nodes t !! k = Some nd -> first nd < last nd <= length ps;
  b_open : forall k k' x y, i <= k -> i <= k' -> k <> k' -> nodes t !! k = Some x -> nodes t !! k' = Some y -> node_apart x y;
  b_laminar : forall m k x y, m < i -> i <= k -> nodes t !! m = Some x -> nodes t !! k = Some y -> node_apart x y \/ node_over x y;
  b_done : forall m nd, m < i -> nodes t !! m = Some nd -> done_ok (points t) (nodes t) m nd;
  b_root : exists nd, nodes t !! 0 = Some nd /\ first nd = 0 /\ last nd = length ps;
  b_count : i <= length (nodes t);
  b_weight : i + sum_list_with weight (drop i (nodes t)) <= 2 * length ps - 1 }.
Lemma open_count ps i t : build_inv ps i t -> length (nodes t) <= 2 * length ps - 1.
Proof.
  intros I. pose proof (b_weight _ _ _ I). pose proof (b_count _ _ _ I). assert (Hl : length (drop i (nodes t)) <= sum_list_with weight (drop i (nodes t))); [|rewrite drop_length in Hl; lia].
  assert (Hw : Forall (fun nd => 1 <= weight nd) (drop i (nodes t))). { apply Forall_forall. intros nd Hnd. apply elem_of_list_lookup in Hnd as [k Hk]. rewrite lookup_drop in Hk. apply (b_range _ _ _ I) in Hk. unfold weight. lia. }
  clear -Hw. induction Hw as [|nd l H Hw IH]; cbn [sum_list_with length]; lia.
Qed.
Lemma done_within ps ps' ns ns' m nd a b : done_ok ps ns m nd -> within a b ps ps' -> (last nd <= a \/ b <= first nd \/ first nd <= a /\ b <= last nd) ->
  (forall k x, ns !! k = Some x -> exists y, ns' !! k = Some y /\ first y = first x /\ last y = last x) -> done_ok ps' ns' m nd.
Proof.
  intros [D1 D2 D3 D4] W Hr Hns. split; [done|done| |].
  - intros k x Hk Hx. destruct Hr as [Hr | [Hr | Hr]].
    + apply (D3 k); [done|]. rewrite <- (w_out _ _ _ _ W); [done|]. lia.
    + apply (D3 k); [done|]. rewrite <- (w_out _ _ _ _ W); [done|]. lia.
    + destruct Hr as [Hr1 Hr2]. destruct (w_in _ _ _ _ (within_mono _ _ _ _ _ _ W Hr1 Hr2) k x Hk Hx) as (k' & Hk' & Hx'). by apply (D3 k').
  - destruct D4 as [D4 | (D4 & D5 & l & r & Hl & Hrr & E1 & E2 & E3)]; [by left|right]. split; [done|]. split; [done|].
    destruct (Hns _ _ Hl) as (l' & Hl' & F1 & F2). destruct (Hns _ _ Hrr) as (r' & Hr' & F3 & F4). exists l', r'. split; [done|]. split; [done|]. by rewrite F1, F2, F3, F4.
Qed.
Lemma lookup_snoc2 {A} (l : list A) x y k z : (l ++ [x; y]) !! k = Some z -> k < length l /\ l !! k = Some z \/ k = length l /\ z = x \/ k = S (length l) /\ z = y.
Proof.
  intros H. destruct (decide (k < length l)) as [Hk | Hk]; [rewrite lookup_app_l in H by done; by left|]. right. rewrite lookup_app_r in H by lia. destruct (k - length l) as [|[|j]] eqn:E; cbn in H.
  - injection H as <-. left. split; [lia|done].
  - injection H as <-. right. split; [lia|done].
  - by destruct j.
Qed.
Lemma build_step_ok ps i t : build_inv ps i t -> Forall (fun x => length x = d) ps -> i < length (nodes t) -> 2 * length ps - 1 <= capacity t \/ is_Some (build_step (N := real_num) i t) ->
  exists t', build_step (N := real_num) i t = Some t' /\ build_inv ps (S i) t' /\ capacity t' = capacity t.
Proof.
  intros I Hd Hi Hcap. destruct (lookup_lt_is_Some_2 _ _ Hi) as [nd Hnd]. pose proof (b_range _ _ _ I _ _ Hnd) as Hr. pose proof (b_points _ _ _ I) as Hp. pose proof (Permutation_length Hp) as Hpl.
  pose proof (b_weight _ _ _ I) as Hw. rewrite (drop_S _ nd i Hnd) in Hw. change (sum_list_with weight (nd :: drop (S i) (nodes t))) with (weight nd + sum_list_with weight (drop (S i) (nodes t))) in Hw.
  unfold build_step in *. rewrite Hnd in *. cbn [mbind option_bind] in *. set (range := rows (points t) (first nd) (last nd)) in *.
  assert (Hrl : length range = last nd - first nd) by (apply rows_length; lia). assert (Hne : range <> []) by (intros E; rewrite E in Hrl; cbn in Hrl; lia).
  assert (Hin : forall k x, first nd <= k < last nd -> points t !! k = Some x -> x ∈ range).
  { intros k x Hk Hx. apply elem_of_list_lookup. exists (k - first nd). unfold range. rewrite rows_lookup. replace (first nd + (k - first nd)) with k by lia. rewrite decide_True by lia. done. }
  assert (Hrd : Forall (fun x => length x = d) range).
  { apply Forall_forall. intros x Hx. apply elem_of_list_lookup in Hx as [k Hk]. unfold range in Hk. rewrite rows_lookup in Hk. case_decide; [|done]. rewrite Forall_forall in Hd. apply Hd. rewrite <- Hp. by eapply elem_of_list_lookup_2. }
  destruct (find_center_ok range Hne Hrd) as (c & Ec & Hc). rewrite Ec in *. cbn [mbind option_bind] in *.
  destruct (find_radius_ok range c Hne) as (r & Er & Hr0 & Hrb). rewrite Er in *. cbn [mbind option_bind] in *.
  assert (Hup : forall (n' : list rnode) (X : rnode), (forall k x, nodes t !! k = Some x -> k <> i -> n' !! k = Some x) -> n' !! i = Some X -> first X = first nd -> last X = last nd ->
    forall k x, nodes t !! k = Some x -> exists y, n' !! k = Some y /\ first y = first x /\ last y = last x).
  { intros n' X H1 H2 H3 H4 k x Hx. destruct (decide (k = i)) as [-> | Hk]; [|exists x; split; [by apply H1|done]]. exists X. split; [done|]. rewrite Hnd in Hx. injection Hx as <-. done. }
  destruct (decide (last nd - first nd <= max_leaf_elements)) as [Hleaf | Hinner].
  - (* a leaf *)
    set (X := Node (T := R) c r (first nd) (last nd) 0 0). eexists. split; [done|]. split; [|done]. cbn [points nodes capacity].
    assert (Hlk : forall k x, <[i:=X]> (nodes t) !! k = Some x -> k = i /\ x = X \/ k <> i /\ nodes t !! k = Some x).
    { intros k x Hx. destruct (decide (k = i)) as [-> | Hk]; [left; rewrite list_lookup_insert in Hx by done; by injection Hx as <-|right]. by rewrite list_lookup_insert_ne in Hx by done. }
    split; cbn [points nodes].
    + done.
    + intros k x Hx. apply Hlk in Hx as [[-> ->] | [_ Hx]]; [exact Hr|by apply (b_range _ _ _ I k)].
    + intros k k' x y H1 H2 H3 Hx Hy. rewrite list_lookup_insert_ne in Hx, Hy by lia. apply (b_open _ _ _ I k k'); [lia|lia|done|done|done].
    + intros m k x y H1 H2 Hx Hy. rewrite list_lookup_insert_ne in Hy by lia. apply Hlk in Hx as [[-> ->] | [Hm Hx]].
      * left. apply (b_open _ _ _ I i k nd y); [lia|lia|lia|done|done].
      * apply (b_laminar _ _ _ I m k); [lia|lia|done|done].
    + intros m x Hm Hx. apply Hlk in Hx as [[-> ->] | [Hm' Hx]].
      * split; cbn; [done|done| |by left]. intros k x Hk Hx. apply Hrb. by apply (Hin k).
      * assert (D := b_done _ _ _ I m x ltac:(lia) Hx). eapply (done_within _ _ _ _ _ _ (first x) (last x)); [exact D|apply within_refl|lia|].
        apply (Hup _ X); [intros k y Hy Hk; by rewrite list_lookup_insert_ne by done|by apply list_lookup_insert|done|done].
    + destruct (b_root _ _ _ I) as (rt & Hrt & H1 & H2). destruct (Hup (<[i:=X]> (nodes t)) X ltac:(intros k y Hy Hk; by rewrite list_lookup_insert_ne by done) ltac:(by apply list_lookup_insert) eq_refl eq_refl 0 rt Hrt) as (y & Hy & E1 & E2).
      exists y. split; [done|]. by rewrite E1, E2.
    + rewrite insert_length. lia.
    + rewrite drop_insert_gt by lia. unfold weight at 1 in Hw. lia.
  - (* an inner node *)
    destruct (partition_points_ok (points t) (first nd) (last nd)) as (p1 & p2 & Epp & Hp1 & Hp2); [lia|lia|]. rewrite Epp in *. cbn [mbind option_bind fst snd] in *.
    destruct (partition_ok (closer (N := real_num) p1 p2) (S (last nd - first nd)) (points t) (first nd) (last nd)) as (l' & m0 & Epm & W & Hm0 & Hend); [lia|lia|lia|]. rewrite Epm in *. cbn [mbind option_bind fst snd] in *.
    assert (Hmlt : m0 < last nd). { destruct (decide (m0 = last nd)) as [E | E]; [|lia]. specialize (Hend E p2 Hp2). by rewrite closer_self in Hend. }
    set (m := if decide (m0 = first nd) then S m0 else m0) in *. assert (Hm : first nd < m < last nd) by (unfold m, max_leaf_elements in *; destruct (decide (m0 = first nd)); lia). clearbody m. clear Hmlt Hend Hm0.
    assert (Hcp : length (nodes t) + 2 <= capacity t).
    { destruct Hcap as [Hcap | [t' Hcap]]; [|by destruct (decide (length (nodes t) + 2 <= capacity t))].
      pose proof (b_count _ _ _ I). assert (Hl : length (nodes t) - i + (2 * (last nd - first nd) - 2) <= weight nd + sum_list_with weight (drop (S i) (nodes t))).
      { assert (Hl : length (drop (S i) (nodes t)) <= sum_list_with weight (drop (S i) (nodes t))).
        { assert (Hw' : Forall (fun nd => 1 <= weight nd) (drop (S i) (nodes t))). { apply Forall_forall. intros x Hx. apply elem_of_list_lookup in Hx as [k Hk]. rewrite lookup_drop in Hk. apply (b_range _ _ _ I) in Hk. unfold weight. lia. }
          clear -Hw'. induction Hw' as [|x l H Hw IH]; cbn [sum_list_with length]; lia. }
        rewrite drop_length in Hl. unfold weight at 1. lia. }
      unfold max_leaf_elements in Hinner. lia. }
    rewrite decide_True by done. set (X := Node (T := R) c r (first nd) (last nd) (length (nodes t)) (S (length (nodes t)))). set (L := Node (T := R) [] nzero (first nd) m 0 0). set (Rr := Node (T := R) [] nzero m (last nd) 0 0).
    eexists. split; [done|]. split; [|done].
    assert (HlX : length (<[i:=X]> (nodes t)) = length (nodes t)) by apply insert_length.
    assert (Hlk : forall k x, (<[i:=X]> (nodes t) ++ [L; Rr]) !! k = Some x -> k = i /\ x = X \/ k <> i /\ k < length (nodes t) /\ nodes t !! k = Some x \/ k = length (nodes t) /\ x = L \/ k = S (length (nodes t)) /\ x = Rr).
    { intros k x Hx. apply lookup_snoc2 in Hx. rewrite HlX in Hx. destruct Hx as [[Hk Hx] | Hx]; [|by right; right]. destruct (decide (k = i)) as [-> | Hk']; [left; rewrite list_lookup_insert in Hx by done; by injection Hx as <-|right; left]. by rewrite list_lookup_insert_ne in Hx by done. }
    assert (Hi' : (<[i:=X]> (nodes t) ++ [L; Rr]) !! i = Some X) by (rewrite lookup_app_l by lia; by apply list_lookup_insert).
    assert (Hold : forall k x, nodes t !! k = Some x -> k <> i -> (<[i:=X]> (nodes t) ++ [L; Rr]) !! k = Some x).
    { intros k x Hx Hk. rewrite lookup_app_l by (rewrite HlX; by eapply lookup_lt_Some). by rewrite list_lookup_insert_ne by done. }
    split; cbn [points nodes].
    + rewrite (w_perm _ _ _ _ W). done.
    + intros k x Hx. apply Hlk in Hx as [[-> ->] | [(_ & _ & Hx) | [[_ ->] | [_ ->]]]]; [exact Hr|by apply (b_range _ _ _ I k)|cbn; lia|cbn; lia].
    + intros k k' x y H1 H2 H3 Hx Hy. apply Hlk in Hx, Hy.
      assert (Ho : forall j z, j <> i -> S i <= j -> nodes t !! j = Some z -> node_apart nd z) by (intros j z Hj1 Hj2 Hz; apply (b_open _ _ _ I i j nd z); [lia|lia|lia|done|done]).
      destruct Hx as [[Hx _] | [(Hx & Hxl & Hx') | [[Hx ->] | [Hx ->]]]]; [lia| | |]; (destruct Hy as [[Hy _] | [(Hy & Hyl & Hy') | [[Hy ->] | [Hy ->]]]]; [lia| | |]); try lia.
      * apply (b_open _ _ _ I k k'); [lia|lia|done|done|done].
      * specialize (Ho k x Hx H1 Hx'). unfold node_apart in *. cbn. lia.
      * specialize (Ho k x Hx H1 Hx'). unfold node_apart in *. cbn. lia.
      * specialize (Ho k' y Hy H2 Hy'). unfold node_apart in *. cbn. lia.
      * left. cbn. lia.
      * specialize (Ho k' y Hy H2 Hy'). unfold node_apart in *. cbn. lia.
      * right. cbn. lia.
    + intros j k x y H1 H2 Hx Hy. apply Hlk in Hx, Hy. pose proof (b_count _ _ _ I).
      destruct Hx as [[Hx ->] | [(Hx & Hxl & Hx') | [[Hx ->] | [Hx ->]]]]; [| |lia|lia].
      * destruct Hy as [[Hy _] | [(Hy & Hyl & Hy') | [[Hy ->] | [Hy ->]]]]; [lia| | |].
        -- left. apply (b_open _ _ _ I i k nd y); [lia|lia|lia|done|done].
        -- right. split; cbn; lia.
        -- right. split; cbn; lia.
      * assert (Hl : node_apart x nd \/ node_over x nd) by (apply (b_laminar _ _ _ I j i); [lia|lia|done|done]).
        destruct Hy as [[Hy _] | [(Hy & Hyl & Hy') | [[Hy ->] | [Hy ->]]]]; [lia| | |].
        -- apply (b_laminar _ _ _ I j k); [lia|lia|done|done].
        -- unfold node_apart, node_over in *. cbn. lia.
        -- unfold node_apart, node_over in *. cbn. lia.
    + intros j x Hj Hx. apply Hlk in Hx. destruct Hx as [[Hx ->] | [(Hx & Hxl & Hx') | [[Hx ->] | [Hx ->]]]]; [| |lia|lia].
      * split; cbn; [done|done| |].
        -- intros k x Hk Hx'. destruct (w_in _ _ _ _ W k x Hk Hx') as (k' & Hk' & Hx''). apply Hrb. by apply (Hin k').
        -- right. split; [lia|]. split; [lia|]. exists L, Rr. split; [rewrite lookup_app_r by lia; rewrite HlX, Nat.sub_diag; done|]. split; [|done].
           rewrite lookup_app_r by lia. rewrite HlX. replace (S (length (nodes t)) - length (nodes t)) with 1 by lia. done.
      * assert (D := b_done _ _ _ I j x ltac:(lia) Hx'). assert (Hl : node_apart x nd \/ node_over x nd) by (apply (b_laminar _ _ _ I j i); [lia|lia|done|done]).
        eapply (done_within _ _ _ _ _ _ (first nd) (last nd)); [exact D|exact W|unfold node_apart, node_over in Hl; lia|]. by apply (Hup _ X).
    + destruct (b_root _ _ _ I) as (rt & Hrt & H1 & H2). destruct (Hup _ X Hold Hi' eq_refl eq_refl 0 rt Hrt) as (y & Hy & E1 & E2). exists y. split; [done|]. by rewrite E1, E2.
    + rewrite app_length, HlX. cbn. lia.
    + rewrite drop_app_le by lia. rewrite drop_insert_gt by lia. rewrite sum_list_with_app. unfold weight at 1 in Hw. unfold weight at 2, L, Rr. cbn [sum_list_with first last]. lia.
Qed.
End Geometry.
