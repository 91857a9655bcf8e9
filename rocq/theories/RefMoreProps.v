(** C108: which points of the simplex the mappings give, and that the sparse subset is picked
    farthest first. *)
From stdpp Require Import list list_numbers.
From Coq Require Import Reals Lra Lia.
From Verif Require Import StdSort AlgorithmModel AlgorithmSpec AlgorithmProofs ConeModel ConeSpec ConeProofs RefModel RefSpec RefProofs RefProps.
Local Open Scope R_scope.

(** ** The mappings *)
(** The sums of the first coordinates of a point made with adjacent_difference are the values it was made of. *)
Lemma prefix_differences p : forall low k x, p !! k = Some x -> total (take (S k) (differences (N := real_num) low p)) = x - low.
Proof.
  induction p as [|y p IH]; intros low k x Hk; [by rewrite lookup_nil in Hk|]. cbn [differences nsub real_num]. destruct k as [|k]; cbn in Hk.
  - injection Hk as <-. cbn. rewrite take_0. cbn. lra.
  - change (y - low + total (take (S k) (differences (N := real_num) y p)) = x - low). rewrite (IH y k x Hk). lra.
Qed.
Lemma prefix_adjacent p k x : p !! k = Some x -> total (take (S k) (adjacent_difference (N := real_num) p)) = x.
Proof.
  intros Hk. destruct p as [|y p]; [by rewrite lookup_nil in Hk|]. cbn [adjacent_difference]. destruct k as [|k]; cbn in Hk.
  - injection Hk as <-. cbn. rewrite take_0. cbn. lra.
  - change (y + total (take (S k) (differences (N := real_num) y p)) = x). rewrite (prefix_differences p y k x Hk). lra.
Qed.
(** simplexMappingLog: the coordinates are the logarithms divided by their sum. *)
Theorem C108_log small p q : mapping_log (N := real_num) ln small 1 p = Some q ->
  let l := (fun x => ln (Rmax x small)) <$> p in total l <> 0 -> q = (fun y => y / total l) <$> l.
Proof.
  unfold mapping_log. destruct (in_cube _ _); [|done]. intros E. apply (inj Some) in E as <-. cbn zeta. intros Ht. cbn [nadd nsub ndiv nzero real_num]. rewrite foldl_total.
  set (l := (fun x => ln (Rmax x small)) <$> p) in *.
  assert (Hl : (fun x => 0 - ln (if nlt (num := real_num) x small then small else x)) <$> p = (fun y => - y) <$> l).
  { unfold l. rewrite <- list_fmap_compose. apply list_fmap_ext. intros i x _. cbn. rewrite Rminus_0_l. do 2 f_equal. unfold Rmax. destruct (Rle_dec x small), (Rlt_dec x small); lra. }
  rewrite Hl. assert (Hneg : total ((fun y => - y) <$> l) = - total l) by (clear; induction l as [|x l IH]; cbn; [lra|]; unfold total in IH; rewrite IH; lra).
  rewrite Hneg, <- list_fmap_compose. apply list_fmap_ext. intros i y _. cbn. field. done.
Qed.
(** simplexMappingSort: the sums of the first coordinates are the given ones and 1, sorted. *)
Theorem C108_sort sort p q : sort_contract sort -> mapping_sort (N := real_num) 1 sort p = Some q ->
  exists l, l ≡ₚ p ++ [1] /\ (forall i j x y, (i <= j)%nat -> l !! i = Some x -> l !! j = Some y -> x <= y) /\ forall k x, l !! k = Some x -> total (take (S k) q) = x.
Proof.
  intros Hs. unfold mapping_sort. destruct (in_cube _ _); [|done]. intros E. apply (inj Some) in E as <-. destruct (Hs (nlt (num := real_num)) (p ++ [1]) (rlt_swo _)) as [P So]. eexists. split; [symmetry; exact P|]. split.
  - intros i j x y Hij Hi Hj. destruct (decide (i = j)) as [-> | Hne]; [assert (x = y) by congruence; lra|]. apply rlt_false. by eapply (So i j); [lia| |].
  - intros k x Hk. by apply prefix_adjacent.
Qed.
(** simplexMappingRoot: the sum of the first k coordinates is the product of the j-th roots of the
    given coordinates x_j with j >= k (counted from 1). *)
Definition product (l : list R) : R := foldr Rmult 1 l.
Definition roots (pow : R -> R -> R) (p : list R) : list R := imap (fun j x => pow x (1 / INR (S j))) p.
Lemma product_snoc l w : product (l ++ [w]) = product l * w.
Proof. induction l as [|x l IH]; cbn; [lra|]. unfold product in IH. rewrite IH. lra. Qed.
Lemma roots_snoc pow p x : roots pow (p ++ [x]) = roots pow p ++ [pow x (1 / INR (S (length p)))].
Proof. unfold roots. rewrite imap_app. cbn. by rewrite Nat.add_0_r. Qed.
Lemma roots_length pow p : length (roots pow p) = length p.
Proof. apply imap_length. Qed.
Lemma root_loop_products pow p : forall y acc, root_loop (N := real_num) pow 1 (reverse p) y acc = ((fun k => product (drop k (roots pow p)) * y) <$> seq 0 (length p)) ++ acc.
Proof.
  induction p as [|x p IH] using rev_ind; intros y acc; [done|]. rewrite reverse_snoc. cbn [root_loop nmul ndiv nnat real_num]. cbn [length]. rewrite reverse_length, IH.
  rewrite app_length, roots_snoc. cbn [length]. rewrite Nat.add_1_r, seq_S, fmap_app, <- app_assoc. f_equal; [|cbn; rewrite drop_app_alt by (by rewrite roots_length); cbn; f_equal; ring].
  apply list_fmap_ext. intros i k Hk. apply lookup_seq in Hk as [-> Hk]. rewrite drop_app_le by (rewrite roots_length; lia). rewrite product_snoc. ring.
Qed.
Theorem C108_root pow p q : mapping_root (N := real_num) pow 1 p = Some q -> forall k, (k < length p)%nat -> total (take (S k) q) = product (drop k (roots pow p)).
Proof.
  unfold mapping_root. destruct (in_cube _ _); [|done]. intros E k Hk. destruct p as [|x p _] using rev_ind; [cbn in Hk; lia|]. rewrite reverse_snoc in E. apply (inj Some) in E as <-.
  rewrite root_loop_products. cbn [ndiv nnat real_num]. apply prefix_adjacent. rewrite app_length in *. cbn [length] in *. rewrite Nat.add_1_r in *. rewrite roots_snoc. destruct (decide (k = length p)) as [-> | Hne].
  - rewrite <- app_assoc. rewrite lookup_app_r by (rewrite fmap_length, seq_length; lia). rewrite fmap_length, seq_length, Nat.sub_diag. cbn. rewrite drop_app_alt by (by rewrite roots_length). cbn. f_equal. ring.
  - rewrite <- app_assoc. rewrite lookup_app_l by (rewrite fmap_length, seq_length; lia). rewrite list_lookup_fmap, lookup_seq_lt by lia. cbn. f_equal. rewrite drop_app_le by (rewrite roots_length; lia). rewrite product_snoc. done.
Qed.
Print Assumptions C108_log.
Print Assumptions C108_sort.
Print Assumptions C108_root.

(** ** pickSparseSubset *)
Definition distance2 (u v : list R) : R := total (zip_with (fun x y => (x - y) * (x - y)) u v).
Lemma distance2_ok u v : euclidean_distance_sq (N := real_num) u v = distance2 u v.
Proof. unfold euclidean_distance_sq, distance2. cbn [nadd nmul nsub nzero real_num]. apply foldl_total. Qed.
Lemma distance2_sym u v : distance2 u v = distance2 v u.
Proof. unfold distance2. revert v. induction u as [|x u IH]; intros [|y v]; try done. cbn. unfold total in IH. rewrite IH. ring. Qed.
(** [d] is the distance of [c] to the nearest of [points]. *)
Definition nearest (points : list (list R)) (c : list R) (d : R) : Prop := (exists b, b ∈ points /\ d = distance2 c b) /\ forall b, b ∈ points -> d <= distance2 c b.
Lemma swap_pop_forall2 {A B} (P : A -> B -> Prop) l k i l' k' : Forall2 P l k -> swap_pop l i = Some l' -> swap_pop k i = Some k' -> Forall2 P l' k'.
Proof.
  intros H. pose proof (Forall2_length _ _ _ H) as Hl. unfold swap_pop, iter_swap. rewrite <- Hl. destruct (l !! i) as [x|] eqn:E1; [|done]. destruct (k !! i) as [y|] eqn:E2; [|done]. cbn [mbind option_bind].
  destruct (l !! (length l - 1)%nat) as [x'|] eqn:E3; [|done]. destruct (k !! (length l - 1)%nat) as [y'|] eqn:E4; [|done]. cbn [mbind option_bind]. intros E5 E6. apply (inj Some) in E5 as <-. apply (inj Some) in E6 as <-.
  apply Forall2_take. apply Forall2_insert; [apply Forall2_insert; [done|]|]; by eapply Forall2_lookup_lr.
Qed.
(** The points are picked in the order farthest first. *)
Definition farthest_first (before picked rest : list (list R)) : Prop :=
  forall l1 q l2 c, picked = l1 ++ q :: l2 -> c ∈ l2 ++ rest -> exists b, b ∈ before ++ l1 /\ forall b', b' ∈ before ++ l1 -> distance2 c b <= distance2 q b'.
Lemma pick_loop_farthest num_points fuel : forall points cands dists ps, Forall2 (nearest points) cands dists -> pick_loop (N := real_num) fuel num_points points cands dists = Some ps ->
  exists picked rest, ps = points ++ picked /\ cands ≡ₚ picked ++ rest /\ farthest_first points picked rest.
Proof.
  induction fuel as [|fuel IH]; intros points cands dists ps Hn E; [done|]. cbn [pick_loop] in E. destruct (decide (length points < num_points)%nat) as [Hlt | Hge].
  2:{ apply (inj Some) in E as <-. exists [], cands. rewrite app_nil_r. split; [done|]. split; [done|]. intros l1 q l2 c El. by destruct l1. }
  unfold argmax in E. destruct (decide (0 < length dists)%nat) as [Hpos | ?]; [|done]. cbn [mbind option_bind] in E. assert (Hne : dists <> []) by (intros ->; cbn in Hpos; lia).
  destruct (max_element_ok (nlt (num := real_num)) Datatypes.id dists Hne (rlt_swo _)) as (v & Hv & Hmax & _). rewrite list_fmap_id in Hv, Hmax.
  set (idx := max_element (nlt (num := real_num)) Datatypes.id dists) in *. clearbody idx.
  destruct (cands !! idx) as [p|] eqn:Hp; [|done]. cbn [mbind option_bind] in E. destruct (swap_pop_ok cands idx p Hp) as (c' & E1 & P1). rewrite E1 in E. cbn [mbind option_bind] in E.
  destruct (swap_pop_ok dists idx v Hv) as (d' & E2 & P2). rewrite E2 in E. cbn [mbind option_bind] in E. pose proof (swap_pop_forall2 _ _ _ _ _ _ Hn E1 E2) as Hn'.
  pose proof (Forall2_lookup_lr _ _ _ _ _ _ Hn Hp Hv) as [Hv1 Hv2].
  apply IH in E as (picked & rest & -> & P3 & F).
  - exists (p :: picked), rest. split; [by rewrite <- app_assoc|]. split; [by rewrite P1, P3|]. intros l1 q l2 c El Hc. destruct l1 as [|x l1].
    + injection El as <- <-. rewrite app_nil_r. rewrite <- P3 in Hc.
      assert (Hc' : c ∈ cands) by (rewrite P1; by right). apply elem_of_list_lookup in Hc' as [i Hi]. destruct (Forall2_lookup_l _ _ _ _ _ Hn Hi) as (d & Hd & [(b & Hb1 & Hb2) _]).
      exists b. split; [done|]. intros b' Hb'. specialize (Hmax i d Hd). apply rlt_false in Hmax. specialize (Hv2 b' Hb'). lra.
    + injection El as <- El. destruct (F l1 q l2 c El Hc) as (b & Hb & Hall). rewrite <- app_assoc in Hb, Hall. by exists b.
  - clear -Hn'. induction Hn' as [|c d c' d' [(b & Hb1 & Hb2) H2] Hn' IHn]; [constructor|]. cbn [zip_with]. constructor; [|exact IHn]. rewrite !distance2_ok. cbn zeta.
    destruct (nlt (num := real_num) (distance2 c p) d) eqn:El; [apply rlt_true in El|apply rlt_false in El]; split.
    + exists p. split; [apply elem_of_app; right; by left|done].
    + intros b' Hb'. apply elem_of_app in Hb' as [Hb' | Hb'%elem_of_list_singleton]; [specialize (H2 b' Hb'); lra|subst; lra].
    + exists b. split; [apply elem_of_app; by left|done].
    + intros b' Hb'. apply elem_of_app in Hb' as [Hb' | Hb'%elem_of_list_singleton]; [by apply H2|by subst].
Qed.
(** The first point is the last candidate; each other one is, of those not picked before, one whose
    distance to the nearest point picked before is largest. *)
Theorem C108_pick dim num_points cands ps : pick_sparse_subset (N := real_num) dim num_points cands = Some ps -> (0 < dim)%nat -> (0 < num_points)%nat ->
  exists p picked rest, ps = p :: picked /\ list.last cands = Some p /\ cands ≡ₚ ps ++ rest /\ farthest_first [p] picked rest.
Proof.
  unfold pick_sparse_subset. intros E Hd Hn. destruct (decide (dim * num_points = 0)%nat) as [Hz | _]; [nia|]. destruct (cands !! (length cands - 1)%nat) as [p|] eqn:Hp; [|done]. cbn [mbind option_bind] in E.
  apply pick_loop_farthest in E as (picked & rest & -> & P & F).
  - exists p, picked, rest. split; [done|]. split; [rewrite last_lookup; by replace (pred (length cands)) with (length cands - 1)%nat by lia|]. split; [|done].
    cbn [app]. rewrite <- P. transitivity (take (length cands - 1) cands ++ drop (length cands - 1) cands); [by rewrite take_drop|]. rewrite (drop_S cands p (length cands - 1) Hp), (drop_ge cands) by lia. apply (Permutation_app_comm _ [p]).
  - clear. induction (take (length cands - 1) cands) as [|c l IH]; [constructor|]. constructor; [|exact IH]. rewrite distance2_ok, distance2_sym. split.
    + exists p. split; [by left|done].
    + intros b Hb%elem_of_list_singleton. subst. lra.
Qed.
Print Assumptions C108_pick.

(** Examples. *)
Example C108_root_nonvacuous : exists q, mapping_root (N := real_num) (fun x _ => x) 1 [1 / 2; 1 / 4] = Some q /\ q = [1 / 8; 1 / 8; 3 / 4] /\ product (drop 0 (roots (fun x _ => x) [1 / 2; 1 / 4])) = 1 / 8.
Proof.
  unfold mapping_root. rewrite in_cube_ok by (repeat constructor; unfold unit_closed_R; lra). eexists. split; [reflexivity|]. split; [|cbn; lra]. cbn. repeat (f_equal; try lra).
Qed.
Example C108_pick_nonvacuous : pick_sparse_subset (N := real_num) 1 2 [[0]; [1]; [5]; [4]] = Some [[4]; [0]].
Proof.
  assert (T : forall x y : R, x < y -> nlt (num := real_num) x y = true) by (intros; by apply rlt_true). assert (F : forall x y : R, y <= x -> nlt (num := real_num) x y = false) by (intros; by apply rlt_false).
  unfold pick_sparse_subset. cbn [length Nat.sub Nat.mul Nat.add decide lookup list_lookup take mbind option_bind fmap list_fmap]. rewrite !distance2_ok. unfold distance2. cbn [zip_with total foldr]. cbn [pick_loop length].
  unfold argmax, max_element. cbn [length max_loop]. unfold Datatypes.id. rewrite (F ((4 - 0) * (4 - 0) + 0)) by lra. rewrite !F by lra. reflexivity.
Qed.
