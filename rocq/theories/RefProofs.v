(** Lemmas about the reference line generators over the real numbers. *)
From Coq Require Import Reals Lra Lia ZArith Psatz.
From stdpp Require Import list list_numbers sets.
From Verif Require Import StdSort AlgorithmModel AlgorithmSpec AlgorithmProofs ConeModel ConeProofs RefModel RefSpec.
Local Open Scope R_scope.

Definition unit_closed_R (x : R) : Prop := 0 <= x <= 1.
Lemma in_cube_ok p : Forall unit_closed_R p -> in_cube (N := real_num) 1 p = true.
Proof.
  intros H. unfold in_cube. apply forallb_forall. intros x Hx. rewrite Forall_forall in H. specialize (H x). rewrite elem_of_list_In in H. specialize (H Hx) as [H1 H2].
  apply andb_true_intro. split; apply negb_true_iff, rlt_false; [exact H1|exact H2].
Qed.
Lemma in_cube_inv p : in_cube (N := real_num) 1 p = true -> Forall unit_closed_R p.
Proof.
  intros H. unfold in_cube in H. rewrite forallb_forall in H. apply Forall_forall. intros x Hx. rewrite elem_of_list_In in Hx. specialize (H x Hx). apply andb_true_iff in H as [H1 H2].
  apply negb_true_iff, rlt_false in H1, H2. by split.
Qed.
(** ** Differences of an ascending list that ends with 1 *)
Fixpoint ascending (low : R) (p : list R) : Prop := match p with [] => True | x :: p => low <= x /\ ascending x p end.
Fixpoint last_is (d : R) (p : list R) : R := match p with [] => d | x :: p => last_is x p end.
Lemma differences_ok p : forall low, ascending low p -> Forall (fun x => 0 <= x) (differences (N := real_num) low p) /\ total (differences (N := real_num) low p) = last_is low p - low.
Proof.
  induction p as [|x p IH]; intros low H; cbn; [split; [constructor|lra]|]. destruct H as [H1 H2]. destruct (IH x H2) as [I1 I2]. unfold total in I2. rewrite I2. split; [|lra]. constructor; [lra|done].
Qed.
Lemma differences_length p : forall low, length (differences (N := real_num) low p) = length p.
Proof. induction p as [|x p IH]; intros low; [done|]. cbn. by rewrite IH. Qed.
Lemma adjacent_ok p : p <> [] -> ascending 0 p -> last_is 0 p = 1 -> on_simplex (adjacent_difference (N := real_num) p) /\ length (adjacent_difference (N := real_num) p) = length p.
Proof.
  intros Hne Ha Hl. destruct p as [|x p]; [done|]. cbn in Ha, Hl. destruct Ha as [H1 H2]. destruct (differences_ok p x H2) as [I1 I2]. cbn [adjacent_difference]. split.
  - split; [constructor; [done|exact I1]|]. cbn. unfold total in I2. rewrite I2. lra.
  - cbn. by rewrite differences_length.
Qed.
Lemma last_is_snoc p d x : last_is d (p ++ [x]) = x.
Proof. revert d. induction p as [|y p IH]; intros d; [done|]. cbn. apply IH. Qed.
Lemma ascending_app p : forall low q, ascending low (p ++ q) <-> ascending low p /\ ascending (last_is low p) q.
Proof. induction p as [|x p IH]; intros low q; cbn; [tauto|]. rewrite IH. tauto. Qed.
Lemma ascending_le low low' p : low' <= low -> ascending low p -> ascending low' p.
Proof. destruct p as [|x p]; [done|]. cbn. intros H [H1 H2]. split; [lra|done]. Qed.
Lemma ascending_ge p : forall low x, ascending low p -> x ∈ p -> low <= x.
Proof.
  induction p as [|y p IH]; intros low x H Hx; [by apply elem_of_nil in Hx|]. destruct H as [H1 H2]. apply elem_of_cons in Hx as [-> | Hx]; [done|]. specialize (IH y x H2 Hx). lra.
Qed.

(** ** Log *)
Lemma foldl_total q : foldl Rplus 0 q = total q.
Proof.
  assert (H : forall a, foldl Rplus a q = a + total q) by (induction q as [|x q IH]; intros a; cbn; [lra|]; rewrite IH; unfold total; lra). rewrite H. lra.
Qed.
Lemma total_div q s : total ((fun x => x / s) <$> q) = total q / s.
Proof. induction q as [|x q IH]; cbn; [unfold Rdiv; lra|]. unfold total in IH. rewrite IH. unfold Rdiv. lra. Qed.
Lemma mapping_log_ok small p : 0 < small < 1 -> p <> [] -> Forall (fun x => 0 <= x < 1) p ->
  exists q, mapping_log (N := real_num) ln small 1 p = Some q /\ length q = length p /\ on_simplex q.
Proof.
  intros Hs Hne Hp. unfold mapping_log. rewrite in_cube_ok by (eapply Forall_impl; [exact Hp|]; intros x Hx; unfold unit_closed_R; cbn in Hx; lra). eexists. split; [done|]. cbn [nadd nsub ndiv nzero real_num].
  set (q := (fun x => 0 - ln (if nlt (num := real_num) x small then small else x)) <$> p). assert (Hq : Forall (fun x => 0 < x) q).
  { unfold q. apply Forall_fmap. eapply Forall_impl; [exact Hp|]. intros x Hx. cbn in Hx. change (0 < 0 - ln (if nlt (num := real_num) x small then small else x)). destruct (nlt (num := real_num) x small) eqn:E.
    - pose proof (ln_increasing small 1 ltac:(lra) ltac:(lra)) as H. rewrite ln_1 in H. lra.
    - apply rlt_false in E. pose proof (ln_increasing x 1 ltac:(lra) ltac:(lra)) as H. rewrite ln_1 in H. lra. }
  assert (Hlq : length q = length p) by (unfold q; apply fmap_length). clearbody q. rewrite (foldl_total q). assert (Ht : 0 < total q).
  { destruct q as [|x q]; [by destruct p|]. apply Forall_cons in Hq as [Hx Hq]. cbn. assert (0 <= foldr Rplus 0 q); [|lra]. clear -Hq. induction Hq as [|y q Hy Hq IH]; cbn; lra. }
  split; [by rewrite fmap_length|]. split.
  - apply Forall_fmap. eapply Forall_impl; [exact Hq|]. intros x Hx. cbn in Hx. change (0 <= x / total q). apply Rlt_le. by apply Rdiv_lt_0_compat.
  - rewrite (total_div q (total q)). field. lra.
Qed.

(** ** Sort *)
Lemma sorted_ascending l : forall low, (forall x, x ∈ l -> low <= x) -> sorted_by (nlt (num := real_num)) l -> ascending low l.
Proof.
  induction l as [|x l IH]; intros low Hl Hs; [done|]. cbn. split; [apply Hl; by left|]. apply IH.
  - intros y Hy. apply elem_of_list_lookup in Hy as [k Hk]. apply rlt_false. apply (Hs 0%nat (S k)); [lia|done|done].
  - intros i j y z Hij Hy Hz. apply (Hs (S i) (S j)); [lia|done|done].
Qed.
Lemma last_is_in l d : l <> [] -> last_is d l ∈ l.
Proof. revert d. induction l as [|x l IH]; intros d H; [done|]. cbn. destruct l as [|y l]; [by left|]. right. by apply IH. Qed.
Lemma ascending_last l : forall low x, ascending low l -> x ∈ l -> x <= last_is low l.
Proof.
  induction l as [|y l IH]; intros low x H Hx; [by apply elem_of_nil in Hx|]. destruct H as [H1 H2]. cbn. apply elem_of_cons in Hx as [-> | Hx]; [|by apply IH].
  destruct l as [|z l]; [cbn; lra|]. cbn in H2. assert (z <= last_is y (z :: l)) by (apply IH; [done|by left]). lra.
Qed.
Lemma mapping_sort_ok sort p : sort_contract sort -> Forall unit_closed_R p -> exists q, mapping_sort (N := real_num) 1 sort p = Some q /\ length q = S (length p) /\ on_simplex q.
Proof.
  intros Hs Hp. unfold mapping_sort. rewrite in_cube_ok by done. eexists. split; [done|]. destruct (Hs (nlt (num := real_num)) (p ++ [1]) (rlt_swo _)) as [P So]. set (l := sort (nlt (num := real_num)) (p ++ [1])) in *. clearbody l.
  assert (Hl : length l = S (length p)) by (rewrite <- P, app_length; cbn; lia). assert (Hne : l <> []) by (by destruct l).
  assert (Hin : forall x, x ∈ l -> 0 <= x <= 1). { intros x Hx. rewrite <- P in Hx. apply elem_of_app in Hx as [Hx | Hx]; [rewrite Forall_forall in Hp; by apply Hp|]. apply elem_of_list_singleton in Hx. lra. }
  assert (Ha : ascending 0 l) by (apply sorted_ascending; [intros x Hx; by apply Hin|done]).
  destruct (adjacent_ok l Hne Ha) as [H1 H2].
  - pose proof (Hin _ (last_is_in l 0 Hne)). assert (1 <= last_is 0 l); [|lra]. apply ascending_last; [done|]. rewrite <- P. apply elem_of_app. right. by left.
  - split; [by rewrite H2|done].
Qed.

(** ** Root *)
(** The powers of numbers of the unit interval stay in it. *)
Definition unit_pow (pow : R -> R -> R) : Prop := forall x y, 0 <= x <= 1 -> 0 < y -> 0 <= pow x y <= 1.
Lemma root_loop_ok pow rev : unit_pow pow -> Forall unit_closed_R rev -> forall next acc, 0 <= next <= 1 -> ascending 0 (next :: acc) ->
  let q := root_loop (N := real_num) pow 1 rev next (next :: acc) in ascending 0 q /\ length q = (length rev + S (length acc))%nat /\ (forall d d', last_is d q = last_is d' (next :: acc)).
Proof.
  intros Hpow Hr. induction Hr as [|x rev Hx Hr IH]; intros next acc Hn Ha; cbn [root_loop].
  - split; [done|]. split; [done|]. by intros d d'.
  - cbn [nmul ndiv nnat real_num]. assert (Hp : 0 <= pow x (1 / INR (length (x :: rev))) <= 1).
    { apply Hpow; [done|]. apply Rdiv_lt_0_compat; [lra|]. apply lt_0_INR. cbn. lia. }
    set (c := pow x (1 / INR (length (x :: rev)))) in *. clearbody c. destruct (IH (next * c) (next :: acc)) as (I1 & I2 & I3); [nra|split; [nra|]; destruct Ha as [_ Ha]; split; [nra|done]|].
    cbn zeta. split; [exact I1|]. split; [rewrite I2; cbn; lia|]. intros d d'. by rewrite (I3 d d').
Qed.
Lemma mapping_root_ok pow p : unit_pow pow -> Forall unit_closed_R p -> exists q, mapping_root (N := real_num) pow 1 p = Some q /\ length q = S (length p) /\ on_simplex q.
Proof.
  intros Hpow Hp. unfold mapping_root. rewrite in_cube_ok by done. assert (Hl : length (reverse p) = length p) by apply reverse_length. assert (Hr : Forall unit_closed_R (reverse p)) by (by apply Forall_reverse).
  destruct (reverse p) as [|x rev].
  - exists [1]. split; [done|]. split; [by rewrite <- Hl|]. split; [repeat constructor; lra|cbn; lra].
  - apply Forall_cons in Hr as [Hx Hr]. eexists. split; [done|]. cbn [ndiv nnat real_num]. assert (Hy : 0 <= pow x (1 / INR (length p)) <= 1).
    { apply Hpow; [done|]. apply Rdiv_lt_0_compat; [lra|]. apply lt_0_INR. rewrite <- Hl. cbn. lia. }
    set (y := pow x (1 / INR (length p))) in *. clearbody y. destruct (root_loop_ok pow rev Hpow Hr y [] Hy) as (I1 & I2 & I3); [cbn; lra|]. set (q := root_loop (N := real_num) pow 1 rev y [y]) in *.
    assert (Hlast : forall d, last_is d q = y) by (intros d; apply (I3 d 0)).
    destruct (adjacent_ok (q ++ [1])) as [H1 H2]; [by destruct q|apply ascending_app; split; [done|]; rewrite Hlast; cbn; lra|apply last_is_snoc|].
    split; [rewrite H2, app_length, I2, <- Hl; cbn; lia|exact H1].
Qed.

(** ** Mirror *)
Definition between0 (high x : R) : Prop := 0 <= x <= high.
Lemma mirror_pass_ok a : forall low last high a' last' has, mirror_pass (N := real_num) low a last high = (a', last', has) -> 0 <= low <= last -> last <= high -> Forall (between0 high) a ->
  Forall (between0 high) a' /\ 0 <= last' <= high /\ length a' = length a /\ (has = false -> a' = a /\ last' = last /\ Forall (fun x => x <= last) a).
Proof.
  induction a as [|x a IH]; intros low last high a' last' has E Hlow Hlast Ha; cbn [mirror_pass] in E.
  - injection E as <- <- <-. split; [done|]. split; [lra|]. split; [done|]. intros _. by repeat split.
  - apply Forall_cons in Ha as [Hx Ha]. unfold between0 in Hx. destruct (nlt (num := real_num) last x) eqn:El.
    + apply rlt_true in El. cbn [nsub nadd real_num] in E. destruct (mirror_pass (N := real_num) (low + high - x) a (low + high - last) high) as [[b m] h] eqn:Ep. injection E as <- <- <-.
      destruct (IH _ _ _ _ _ _ Ep) as (I1 & I2 & I3 & _); [lra|lra|done|]. split; [constructor; [unfold between0; lra|done]|]. split; [done|]. split; [cbn; by rewrite I3|done].
    + apply rlt_false in El. destruct (mirror_pass (N := real_num) x a last high) as [[b m] h] eqn:Ep. injection E as <- <- <-.
      destruct (IH _ _ _ _ _ _ Ep) as (I1 & I2 & I3 & I4); [lra|lra|done|]. split; [by constructor|]. split; [done|]. split; [cbn; by rewrite I3|]. intros ->. destruct (I4 eq_refl) as (-> & -> & I5). split; [done|]. split; [done|]. by constructor.
Qed.
Lemma mirror_loop_ok fuel : forall rev last behind q, mirror_loop (N := real_num) fuel rev last behind = Some q -> ascending 0 behind -> last_is 0 behind = 1 ->
  (forall high rest, behind = high :: rest -> Forall (between0 high) rev /\ 0 <= last <= high) ->
  ascending 0 q /\ last_is 0 q = 1 /\ length q = (length rev + S (length behind))%nat.
Proof.
  induction fuel as [|fuel IH]; intros rev last behind q E Ha Hl Hb; [done|]. cbn [mirror_loop] in E. destruct behind as [|high rest]; [done|]. destruct (Hb high rest eq_refl) as [Hr Hlast].
  destruct (mirror_pass (N := real_num) nzero (reverse rev) last high) as [[a m] has] eqn:Ep. cbn [nzero real_num] in Ep.
  destruct (mirror_pass_ok _ _ _ _ _ _ _ Ep) as (P1 & P2 & P3 & P4); [lra|lra|by apply Forall_reverse|]. rewrite reverse_length in P3. destruct has.
  - apply IH in E as (I1 & I2 & I3); [|done|done|].
    + split; [done|]. split; [done|]. rewrite I3, reverse_length, P3. done.
    + intros h r [= <- <-]. split; [by apply Forall_reverse|done].
  - destruct (P4 eq_refl) as (-> & -> & P5). rewrite reverse_involutive in E. assert (Ha' : ascending 0 (last :: high :: rest)) by (split; [lra|]; destruct Ha as [_ Ha]; split; [lra|done]).
    destruct rev as [|x rev].
    + injection E as <-. split; [exact Ha'|]. split; [exact Hl|done].
    + apply Forall_reverse in P5. rewrite reverse_involutive in P5. apply IH in E as (I1 & I2 & I3); [|exact Ha'|exact Hl|].
      * split; [done|]. split; [done|]. rewrite I3. cbn. lia.
      * intros h r [= <- <-]. apply Forall_cons in P5 as [Q1 Q2]. apply Forall_cons in Hr as [R1 R2]. unfold between0 in R1. split; [|lra]. apply Forall_forall. intros y Hy. rewrite Forall_forall in Q2, R2. specialize (Q2 y Hy). specialize (R2 y Hy). unfold between0 in *. lra.
Qed.
(** Termination for coordinates that are multiples of some number. *)
Definition on_grid (d x : R) : Prop := exists z, x = IZR z * d.
Lemma grid_gap d x y : 0 < d -> on_grid d x -> on_grid d y -> x < y -> d <= y - x.
Proof.
  intros Hd [a ->] [b ->] H. assert (Hab : (a < b)%Z) by (apply lt_IZR; apply Rmult_lt_reg_r with d; done). assert (IZR a + 1 <= IZR b) by (rewrite <- plus_IZR; apply IZR_le; lia). nra.
Qed.
Lemma grid_reflect d low high x : on_grid d low -> on_grid d high -> on_grid d x -> on_grid d (low + high - x).
Proof. intros [a ->] [b ->] [c ->]. exists (a + b - c)%Z. rewrite minus_IZR, plus_IZR. lra. Qed.
Lemma mirror_pass_potential d a : 0 < d -> forall low last high a' last' has, mirror_pass (N := real_num) low a last high = (a', last', has) ->
  on_grid d low -> on_grid d last -> on_grid d high -> Forall (on_grid d) a ->
  Forall (on_grid d) a' /\ on_grid d last' /\ total a' - last' <= total a - last - (if has then 2 * d else 0).
Proof.
  intros Hd. induction a as [|x a IH]; intros low last high a' last' has E G1 G2 G3 Ga; cbn [mirror_pass] in E.
  - injection E as <- <- <-. split; [done|]. split; [done|]. cbv iota. lra.
  - apply Forall_cons in Ga as [Gx Ga]. destruct (nlt (num := real_num) last x) eqn:El.
    + apply rlt_true in El. cbn [nsub nadd real_num] in E. destruct (mirror_pass (N := real_num) (low + high - x) a (low + high - last) high) as [[b m] h] eqn:Ep. injection E as <- <- <-.
      destruct (IH _ _ _ _ _ _ Ep) as (I1 & I2 & I3); [by apply grid_reflect|by apply grid_reflect|done|done|]. split; [constructor; [by apply grid_reflect|done]|]. split; [done|].
      pose proof (grid_gap d last x Hd G2 Gx El). cbn [total foldr] in *. unfold total in *. destruct h; cbv iota in *; lra.
    + destruct (mirror_pass (N := real_num) x a last high) as [[b m] h] eqn:Ep. injection E as <- <- <-. destruct (IH _ _ _ _ _ _ Ep) as (I1 & I2 & I3); [done|done|done|done|]. split; [by constructor|]. split; [done|].
      cbn [total foldr] in *. unfold total in *. destruct h; cbv iota in *; lra.
Qed.
Lemma total_app a b : total (a ++ b) = total a + total b.
Proof. unfold total. induction a as [|x a IH]; cbn [app foldr]; [lra|]. rewrite IH. lra. Qed.
Lemma total_reverse a : total (reverse a) = total a.
Proof. induction a as [|x a IH]; [done|]. rewrite reverse_cons, total_app, IH. unfold total. cbn [foldr]. lra. Qed.
Lemma total_nonneg h a : Forall (between0 h) a -> 0 <= total a.
Proof. unfold total. induction 1 as [|x a Hx H IH]; cbn [foldr]; [lra|]. unfold between0 in Hx. lra. Qed.
Lemma multiple_above d x : 0 < d -> exists k : nat, x <= INR k * d.
Proof.
  intros Hd. exists (Z.to_nat (up (x / d))). pose proof (archimed (x / d)) as [H _]. assert (x / d <= INR (Z.to_nat (up (x / d)))).
  { destruct (Z.le_gt_cases 0 (up (x / d))) as [Hz | Hz]; [rewrite INR_IZR_INZ, Z2Nat.id by done; lra|]. apply IZR_lt in Hz. pose proof (pos_INR (Z.to_nat (up (x / d)))). lra. }
  apply Rmult_le_reg_r with (/ d); [by apply Rinv_0_lt_compat|]. rewrite Rmult_assoc, Rinv_r by lra. unfold Rdiv in *. lra.
Qed.
Lemma mirror_loop_ends d n : 0 < d -> forall rev last high rest, length rev = n -> Forall (between0 high) rev -> 0 <= last <= high ->
  on_grid d last -> on_grid d high -> Forall (on_grid d) rev -> exists fuel, is_Some (mirror_loop (N := real_num) fuel rev last (high :: rest)).
Proof.
  intros Hd. induction n as [|n IHn]; intros rev last high rest Hn.
  all: destruct (multiple_above d (total rev + high - last) Hd) as [k Hk].
  all: revert rev last Hn Hk; induction k as [|k IHk]; intros rev last Hn Hk Hr Hl Gl Gh Gr;
    destruct (mirror_pass (N := real_num) 0 (reverse rev) last high) as [[a m] has] eqn:Ep;
    destruct (mirror_pass_ok _ _ _ _ _ _ _ Ep) as (P1 & P2 & P3 & P4); [lra|lra|by apply Forall_reverse| |lra|lra|by apply Forall_reverse|].
  all: destruct (mirror_pass_potential d _ Hd _ _ _ _ _ _ Ep) as (Q1 & Q2 & Q3); [exists 0%Z; lra|done|done|by apply Forall_reverse|].
  all: rewrite total_reverse in Q3; rewrite reverse_length in P3; pose proof (total_nonneg _ _ P1) as Hta.
  all: destruct has.
  all: try (exfalso; cbn [INR] in Hk; lra).
  - exists 1%nat. cbn [mirror_loop]. cbn [nzero real_num]. rewrite Ep. destruct (P4 eq_refl) as (-> & -> & _). rewrite reverse_involutive. destruct rev; [by eexists|done].
  - destruct (IHk (reverse a) m) as [fuel Hf]; [by rewrite reverse_length, P3| |by apply Forall_reverse|done|done|done|by apply Forall_reverse|].
    + rewrite total_reverse. rewrite S_INR in Hk. lra.
    + exists (S fuel). cbn [mirror_loop nzero real_num]. rewrite Ep. done.
  - exists 1%nat. cbn [mirror_loop]. cbn [nzero real_num]. rewrite Ep. destruct (P4 eq_refl) as (-> & -> & _). rewrite reverse_involutive. destruct rev; [by eexists|done].
  - destruct (P4 eq_refl) as (-> & -> & P5). apply Forall_reverse in P5. rewrite reverse_involutive in P5. destruct rev as [|x rev]; [done|].
    apply Forall_cons in Hr as [R1 R2], Gr as [G1 G2], P5 as [S1 S2]. unfold between0 in R1.
    destruct (IHn rev x last (high :: rest)) as [fuel Hf]; [cbn in Hn; lia|apply Forall_forall; intros y Hy; rewrite Forall_forall in R2, S2; specialize (R2 y Hy); specialize (S2 y Hy); unfold between0 in *; lra|lra|done|done|done|].
    exists (S fuel). cbn [mirror_loop nzero real_num]. rewrite Ep, reverse_involutive. done.
  - destruct (IHk (reverse a) m) as [fuel Hf]; [by rewrite reverse_length, P3| |by apply Forall_reverse|done|done|done|by apply Forall_reverse|].
    + rewrite total_reverse. rewrite S_INR in Hk. lra.
    + exists (S fuel). cbn [mirror_loop nzero real_num]. rewrite Ep. done.
  - destruct (P4 eq_refl) as (-> & -> & P5). apply Forall_reverse in P5. rewrite reverse_involutive in P5. destruct rev as [|x rev]; [done|].
    apply Forall_cons in Hr as [R1 R2], Gr as [G1 G2], P5 as [S1 S2]. unfold between0 in R1.
    destruct (IHn rev x last (high :: rest)) as [fuel Hf]; [cbn in Hn; lia|apply Forall_forall; intros y Hy; rewrite Forall_forall in R2, S2; specialize (R2 y Hy); specialize (S2 y Hy); unfold between0 in *; lra|lra|done|done|done|].
    exists (S fuel). cbn [mirror_loop nzero real_num]. rewrite Ep, reverse_involutive. done.
Qed.
Lemma mapping_mirror_ok fuel p q : mapping_mirror (N := real_num) 1 fuel p = Some q -> length q = S (length p) /\ on_simplex q.
Proof.
  intros E. unfold mapping_mirror in E. destruct (in_cube (N := real_num) 1 p) eqn:Ec; [|done]. apply in_cube_inv in Ec. assert (Hl : length (reverse p) = length p) by apply reverse_length. apply Forall_reverse in Ec.
  destruct (reverse p) as [|x rev].
  - injection E as <-. split; [by rewrite <- Hl|]. split; [repeat constructor; lra|cbn; lra].
  - destruct (mirror_loop (N := real_num) fuel rev x [1]) as [r|] eqn:El; [|done]. cbn in E. injection E as <-. apply Forall_cons in Ec as [Ex Ec].
    apply mirror_loop_ok in El as (I1 & I2 & I3); [|cbn; lra|done|].
    + destruct (adjacent_ok r) as [H1 H2]; [by destruct r; [cbn in I3; lia|]|done|done|]. split; [|exact H1]. rewrite H2, I3, <- Hl. cbn. lia.
    + intros h t [= <- <-]. split; [exact Ec|exact Ex].
Qed.
Lemma mapping_mirror_ends d p : 0 < d -> on_grid d 1 -> Forall (on_grid d) p -> Forall unit_closed_R p -> exists fuel, is_Some (mapping_mirror (N := real_num) 1 fuel p).
Proof.
  intros Hd G1 Gp Hp. unfold mapping_mirror. rewrite in_cube_ok by done. apply Forall_reverse in Hp, Gp. destruct (reverse p) as [|x rev]; [exists 0%nat; by eexists|]. apply Forall_cons in Hp as [Hx Hp], Gp as [Gx Gp].
  destruct (mirror_loop_ends d (length rev) Hd rev x 1 []) as [fuel [q Hq]]; [done|done|exact Hx|done|done|done|]. exists fuel. rewrite Hq. by eexists.
Qed.
