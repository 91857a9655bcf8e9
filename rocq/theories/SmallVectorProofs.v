From Coq Require Import Lia.
From stdpp Require Import list list_numbers sets.
From Verif Require Import SmallVectorModel SmallVectorSpec.

Section Proofs.
Context {T : Type}.
Variables (triv : bool) (mv : T) (N : nat).
Notation mem := (list (cell T)).
Notation lives := (map (@Live T)).
Implicit Types (m a c g : mem) (xs ys l : list T) (v w : sv T).

Definition isfree (x : cell T) : Prop := triv = true \/ x = Raw.

Lemma freeb_true x : freeb triv x = true <-> isfree x.
Proof. unfold freeb, isfree. destruct triv, x; cbn; intuition congruence. Qed.
Lemma forallb_free m : forallb (freeb triv) m = true <-> Forall isfree m.
Proof. rewrite forallb_True || idtac. rewrite forallb_forall, Forall_forall. setoid_rewrite elem_of_list_In. setoid_rewrite freeb_true. done. Qed.

Lemma isfree_raw n : Forall isfree (replicate n Raw).
Proof. apply Forall_replicate. right. done. Qed.

Lemma lookup_mid a (x : cell T) c i : i = length a -> (a ++ x :: c) !! i = Some x.
Proof. intros ->. apply list_lookup_middle. done. Qed.
Lemma insert_mid a (x y : cell T) c i : i = length a -> <[i := y]> (a ++ x :: c) = a ++ y :: c.
Proof. intros ->. rewrite insert_app_r_alt by lia. rewrite Nat.sub_diag. done. Qed.

Lemma construct_ok m i x a (y : cell T) c :
  m = a ++ y :: c -> i = length a -> isfree y -> construct triv m i x = Some (a ++ Live x :: c).
Proof.
  intros -> Hi Hy. unfold construct. rewrite lookup_mid by done. rewrite insert_mid by done.
  destruct y; [done|]. destruct Hy as [->|?]; done.
Qed.
Lemma write_ok m i x a y c :
  m = a ++ Live y :: c -> i = length a -> write m i x = Some (a ++ Live x :: c).
Proof. intros -> Hi. unfold write. rewrite lookup_mid by done. rewrite insert_mid by done. done. Qed.
Lemma read_ok m i a y c : m = a ++ Live y :: c -> i = length a -> read m i = Some y.
Proof. intros -> Hi. unfold read. rewrite lookup_mid by done. done. Qed.
Lemma destroy_ok m i a y c : m = a ++ Live y :: c -> i = length a ->
  exists z, isfree z /\ destroy triv m i = Some (a ++ z :: c).
Proof.
  intros -> Hi. unfold destroy. destruct triv eqn:E.
  - exists (Live y). split; [left; done|done].
  - exists Raw. split; [right; done|]. rewrite lookup_mid, insert_mid by done. done.
Qed.

Lemma construct_list_ok xs : forall m i a g c,
  m = a ++ g ++ c -> i = length a -> length g = length xs -> Forall isfree g ->
  construct_list triv m i xs = Some (a ++ lives xs ++ c).
Proof.
  induction xs as [|x xs IH]; intros m i a g c Hm Hi Hg Hf.
  - destruct g; [|done]. subst. done.
  - destruct g as [|y g]; [done|]. apply Forall_cons in Hf as [Hy Hf]. cbn.
    rewrite (construct_ok m i x a y (g ++ c)) by done. cbn.
    rewrite (IH _ _ (a ++ [Live x]) g c).
    + rewrite <- app_assoc. done.
    + rewrite <- app_assoc. done.
    + rewrite app_length. cbn. lia.
    + cbn in Hg. lia.
    + done.
Qed.
Lemma destroy_range_ok xs : forall m i n a c,
  m = a ++ lives xs ++ c -> i = length a -> n = length xs ->
  exists g, length g = length xs /\ Forall isfree g /\ destroy_range triv m i n = Some (a ++ g ++ c).
Proof.
  induction xs as [|x xs IH]; intros m i n a c Hm Hi ->.
  - exists []. subst. repeat split; constructor.
  - cbn. destruct (destroy_ok m i a x (lives xs ++ c) Hm Hi) as (z&Hz&Hd). rewrite Hd. cbn.
    destruct (IH (a ++ z :: lives xs ++ c) (S i) (length xs) (a ++ [z]) c) as (g&Hg&Hf&Hr).
    + rewrite <- app_assoc. done.
    + rewrite app_length. cbn. lia.
    + done.
    + rewrite Hr. exists (z :: g). split; [cbn; lia|]. split; [constructor; done|].
      rewrite <- app_assoc. done.
Qed.
Lemma write_list_ok xs : forall m i a ys c,
  m = a ++ lives ys ++ c -> i = length a -> length ys = length xs ->
  write_list m i xs = Some (a ++ lives xs ++ c).
Proof.
  induction xs as [|x xs IH]; intros m i a ys c Hm Hi Hl.
  - destruct ys; [|done]. subst. done.
  - destruct ys as [|y ys]; [done|]. cbn.
    rewrite (write_ok m i x a y (lives ys ++ c)) by done. cbn.
    rewrite (IH _ _ (a ++ [Live x]) ys c).
    + rewrite <- app_assoc. done.
    + rewrite <- app_assoc. done.
    + rewrite app_length. cbn. lia.
    + cbn in Hl. lia.
Qed.
Lemma read_list_ok xs : forall m i n a c,
  m = a ++ lives xs ++ c -> i = length a -> n = length xs -> read_list m i n = Some xs.
Proof.
  induction xs as [|x xs IH]; intros m i n a c Hm Hi ->; [done|]. cbn.
  rewrite (read_ok m i a x (lives xs ++ c)) by done. cbn.
  rewrite (IH m (S i) (length xs) (a ++ [Live x]) c); [done| | |done].
  - rewrite <- app_assoc. done.
  - rewrite app_length. cbn. lia.
Qed.
Lemma take_out_ok xs : forall m i n a c,
  m = a ++ lives xs ++ c -> i = length a -> n = length xs ->
  take_out mv m i n = Some (a ++ lives (replicate (length xs) mv) ++ c, xs).
Proof.
  induction xs as [|x xs IH]; intros m i n a c Hm Hi ->.
  - subst. done.
  - cbn. rewrite (read_ok m i a x (lives xs ++ c)) by done. cbn.
    rewrite (write_ok m i mv a x (lives xs ++ c)) by done. cbn.
    rewrite (IH _ (S i) (length xs) (a ++ [Live mv]) c).
    + cbn. rewrite <- app_assoc. done.
    + rewrite <- app_assoc. done.
    + rewrite app_length. cbn. lia.
    + done.
Qed.
Lemma relocate_ok xs src i n dst j a c a' g c' :
  src = a ++ lives xs ++ c -> i = length a -> n = length xs ->
  dst = a' ++ g ++ c' -> j = length a' -> length g = length xs -> Forall isfree g ->
  relocate triv mv src i n dst j = Some (a ++ lives (replicate (length xs) mv) ++ c, a' ++ lives xs ++ c').
Proof.
  intros. unfold relocate. rewrite (take_out_ok xs src i n a c) by done. cbn.
  rewrite (construct_list_ok xs dst j a' g c') by done. done.
Qed.

Lemma shift_right1_ok xs : forall m i n a y c,
  m = a ++ lives xs ++ Live y :: c -> i = length a -> n = length xs ->
  exists z, shift_right1 mv m i n = Some (a ++ Live z :: lives xs ++ c).
Proof.
  induction xs as [|x xs IH] using rev_ind; intros m i n a y c Hm Hi ->.
  - exists y. cbn. subst. done.
  - rewrite app_length, Nat.add_1_r. cbn.
    rewrite map_app in Hm. cbn in Hm. rewrite <- app_assoc in Hm. cbn in Hm.
    rewrite (read_ok m _ (a ++ lives xs) x (Live y :: c));
      [|subst; rewrite <- app_assoc; done|rewrite app_length, map_length; lia]. cbn.
    rewrite (write_ok m _ mv (a ++ lives xs) x (Live y :: c));
      [|subst; rewrite <- app_assoc; done|rewrite app_length, map_length; lia]. cbn.
    rewrite (write_ok _ _ x (a ++ lives xs ++ [Live mv]) y c).
    2:{ rewrite <- !app_assoc. done. }
    2:{ rewrite !app_length, map_length. cbn. lia. }
    cbn. destruct (IH ((a ++ lives xs ++ [Live mv]) ++ Live x :: c) i (length xs) a mv (Live x :: c)) as (z&Hz).
    + rewrite <- !app_assoc. done.
    + done.
    + done.
    + exists z. rewrite Hz. rewrite map_app. rewrite <- app_assoc. done.
Qed.
Lemma shift_left_ok xs : forall m i j n a ys c,
  m = a ++ lives ys ++ lives xs ++ c -> i = length a -> j = i + length ys -> ys <> [] -> n = length xs ->
  exists zs, length zs = length ys /\ shift_left mv m i j n = Some (a ++ lives xs ++ lives zs ++ c).
Proof.
  induction xs as [|x xs IH]; intros m i j n a ys c Hm Hi Hj Hne ->.
  - exists ys. subst. done.
  - destruct ys as [|y ys]; [done|]. cbn in *.
    rewrite (read_ok m j (a ++ Live y :: lives ys) x (lives xs ++ c)).
    2:{ rewrite <- app_assoc. done. }
    2:{ rewrite app_length. cbn. rewrite map_length. lia. }
    cbn.
    rewrite (write_ok m j mv (a ++ Live y :: lives ys) x (lives xs ++ c)).
    2:{ rewrite <- app_assoc. done. }
    2:{ rewrite app_length. cbn. rewrite map_length. lia. }
    cbn.
    rewrite (write_ok _ i x a y (lives ys ++ Live mv :: lives xs ++ c)); [|rewrite <- app_assoc; done|done].
    cbn.
    destruct (IH (a ++ Live x :: lives ys ++ Live mv :: lives xs ++ c) (S i) (S j) (length xs)
      (a ++ [Live x]) (ys ++ [mv]) c) as (zs&Hzs&Hs).
    + rewrite map_app. rewrite <- !app_assoc. done.
    + rewrite app_length. cbn. lia.
    + rewrite app_length. cbn. lia.
    + destruct ys; done.
    + done.
    + exists zs. rewrite app_length in Hzs. cbn in Hzs. split; [lia|]. rewrite Hs.
      rewrite <- app_assoc. done.
Qed.

(** * Representation *)
Definition vrepr v l : Prop :=
  exists g, storage v = lives l ++ g /\ Forall isfree g /\ sz v = length l /\
    length (inl v) = N /\ (heap v <> None -> Forall isfree (inl v)).

Lemma vrepr_sz v l : vrepr v l -> sz v = length l.
Proof. intros (g&_&_&H&_). done. Qed.
Lemma vrepr_cap v l : vrepr v l -> length l <= cap v.
Proof. intros (g&Hs&_). unfold cap. rewrite Hs, app_length, map_length. lia. Qed.

Lemma storage_set_mem v m n : storage (set_mem v m n) = m.
Proof. unfold set_mem, storage. destruct (heap v); done. Qed.
Lemma vrepr_set_mem v l m l' g n : vrepr v l -> m = lives l' ++ g -> Forall isfree g -> n = length l' ->
  length m = cap v -> vrepr (set_mem v m n) l'.
Proof.
  intros (g0&Hs&Hf&Hsz&Hinl&Hheap) Hm Hg Hn Hlen. exists g. rewrite storage_set_mem.
  unfold set_mem in *. unfold cap, storage in Hlen.
  destruct (heap v); cbn in *; repeat split; try done; try congruence. auto.
Qed.

Lemma contents_ok v l : vrepr v l -> contents v = Some l.
Proof.
  intros (g&Hs&_&Hsz&_). unfold contents. apply (read_list_ok l _ _ _ [] g); done.
Qed.

Lemma vrepr_empty : vrepr (sv_empty N) [].
Proof.
  exists (replicate N Raw). cbn. repeat split; [apply isfree_raw|apply replicate_length|].
  intros _. apply isfree_raw.
Qed.

Lemma to_heap_ok v l old l' c' n n' : vrepr v l -> Forall isfree old -> length old = cap v ->
  Forall isfree c' -> n = length l' ->
  exists v', to_heap triv (set_mem v old n') (lives l' ++ c') n = Some v' /\ vrepr v' l'.
Proof.
  intros (g&Hs&Hf&Hsz&Hinl&Hheap) Hold Hlen Hc' Hn. unfold to_heap.
  rewrite storage_set_mem. rewrite (proj2 (forallb_free old)) by done.
  eexists; split; [done|]. exists c'. cbn.
  unfold cap, storage in Hlen. unfold set_mem.
  destruct (heap v) as [h|]; cbn; repeat split; try done.
  - intros _. apply Hheap. done.
  - congruence.
Qed.

Lemma vrepr_destroy_all v l : vrepr v l ->
  exists m, destroy_range triv (storage v) 0 (sz v) = Some m /\ Forall isfree m /\ length m = cap v.
Proof.
  intros (g&Hs&Hf&Hsz&_). destruct (destroy_range_ok l (storage v) 0 (sz v) [] g Hs eq_refl Hsz) as (h&Hh&Hfh&Hd).
  exists (h ++ g). rewrite Hd. split; [done|]. split; [apply Forall_app; done|].
  unfold cap. rewrite Hs, !app_length, map_length. lia.
Qed.

Lemma destroy_moved v l m g n : n = length l -> m = lives (replicate (length l) mv) ++ g -> Forall isfree g ->
  length m = cap v ->
  exists old, destroy_range triv m 0 n = Some old /\ Forall isfree old /\ length old = cap v.
Proof.
  intros -> Hm Hg Hlen. destruct (destroy_range_ok (replicate (length l) mv) m 0 (length l) [] g Hm eq_refl) as (h&Hh&Hfh&Hd).
  { rewrite replicate_length. done. }
  exists (h ++ g). rewrite Hd. split; [done|]. split; [apply Forall_app; done|].
  rewrite <- Hlen, Hm, !app_length, map_length. lia.
Qed.

Lemma sv_of_list_ok xs : exists v, sv_of_list triv N xs = Some v /\ vrepr v xs.
Proof.
  unfold sv_of_list, raw_block. destruct (Nat.leb_spec (length xs) N) as [H|H].
  - rewrite (construct_list_ok xs _ 0 [] (replicate (length xs) Raw) (replicate (N - length xs) Raw)); cbn.
    + eexists; split; [done|]. exists (replicate (N - length xs) Raw). cbn.
      repeat split; try done. { apply isfree_raw. }
      rewrite app_length, map_length, replicate_length. lia.
    + rewrite <- replicate_add. f_equal. lia.
    + done.
    + apply replicate_length.
    + apply isfree_raw.
  - rewrite (construct_list_ok xs _ 0 [] (replicate (length xs) Raw) []); cbn.
    + eexists; split; [done|]. exists []. cbn.
      repeat split; try done; [apply replicate_length|]. intros _. apply isfree_raw.
    + rewrite app_nil_r. done.
    + done.
    + apply replicate_length.
    + apply isfree_raw.
Qed.

Lemma replicate_split3 (n a b : nat) : a + b <= n -> replicate n (@Raw T) = replicate a Raw ++ replicate b Raw ++ replicate (n - a - b) Raw.
Proof. intros H. rewrite <- !replicate_add. f_equal. lia. Qed.
Lemma replicate_split2 (n a : nat) : a <= n -> replicate n (@Raw T) = replicate a Raw ++ replicate (n - a) Raw.
Proof. intros H. rewrite <- !replicate_add. f_equal. lia. Qed.

Lemma sv_push_ok v l x : vrepr v l -> exists v', sv_push triv mv v x = Some v' /\ vrepr v' (l ++ [x]).
Proof.
  intros H. pose proof H as (g&Hs&Hf&Hsz&Hinl&Hheap). unfold sv_push.
  destruct (Nat.eqb_spec (sz v) (cap v)) as [E|E]; cbn [negb].
  - (* reallocation *)
    set (nc := next_capacity v 1). assert (Hnc : length l < nc) by (unfold nc, next_capacity; lia).
    assert (g = []) as ->.
    { unfold cap in E. rewrite Hs, app_length, map_length in E. destruct g; [done|cbn in E; lia]. }
    rewrite (construct_ok (raw_block nc) _ x (replicate (length l) Raw) Raw (replicate (nc - length l - 1) Raw)).
    2:{ unfold raw_block. rewrite (replicate_split3 nc (length l) 1) by lia. done. }
    2:{ rewrite replicate_length. done. }
    2:{ right; done. }
    cbn.
    rewrite (relocate_ok l (storage v) 0 (sz v) _ 0 [] [] [] (replicate (length l) Raw)
               (Live x :: replicate (nc - length l - 1) Raw)); try done.
    2:{ apply replicate_length. }
    2:{ apply isfree_raw. }
    cbn.
    destruct (destroy_moved v l (lives (replicate (length l) mv) ++ []) [] (sz v)) as (old&Hold&Hfo&Hlo).
    { done. } { done. } { done. }
    { unfold cap. rewrite Hs, !app_length, !map_length, replicate_length. done. }
    rewrite Hold. cbn.
    replace (lives l ++ Live x :: replicate (nc - length l - 1) Raw)
      with (lives (l ++ [x]) ++ replicate (nc - length l - 1) Raw) by (rewrite map_app, <- app_assoc; done).
    eapply to_heap_ok; try done; [apply isfree_raw|]. rewrite app_length. cbn. lia.
  - destruct g as [|y g].
    { exfalso. apply E. unfold cap. rewrite Hs, app_nil_r, map_length. done. }
    apply Forall_cons in Hf as [Hy Hf].
    rewrite (construct_ok (storage v) (sz v) x (lives l) y g); [|done|rewrite map_length; done|done].
    cbn. eexists; split; [done|]. apply (vrepr_set_mem v l _ _ g); try done.
    + rewrite map_app, <- app_assoc. done.
    + rewrite app_length. cbn. lia.
    + unfold cap. rewrite Hs, !app_length. done.
Qed.

Lemma push_all_ok xs : forall v l, vrepr v l -> exists v', push_all triv mv v xs = Some v' /\ vrepr v' (l ++ xs).
Proof.
  induction xs as [|x xs IH]; intros v l H; cbn.
  - rewrite app_nil_r. eauto.
  - destruct (sv_push_ok v l x H) as (v1&Hv1&H1). rewrite Hv1. cbn.
    destruct (IH v1 _ H1) as (v2&Hv2&H2). exists v2. split; [done|]. rewrite <- app_assoc in H2. done.
Qed.

Lemma sv_pop_ok v l x : triv = true -> vrepr v (l ++ [x]) -> exists v', sv_pop triv v = Some v' /\ vrepr v' l.
Proof.
  intros Ht H. pose proof H as (g&Hs&Hf&Hsz&_). unfold sv_pop. rewrite app_length in Hsz. cbn in Hsz.
  destruct (Nat.eqb_spec (sz v) 0); [lia|]. unfold destroy. rewrite Ht. cbn.
  eexists; split; [done|]. apply (vrepr_set_mem v _ _ _ (Live x :: g)) with (1 := H).
  - rewrite Hs, map_app, <- app_assoc. done.
  - constructor; [left; done|done].
  - lia.
  - done.
Qed.

Lemma reallocate_n_ok v l n : vrepr v l -> length l <= n ->
  exists v', reallocate_n triv mv v n = Some v' /\ vrepr v' l /\ cap v' = n.
Proof.
  intros H Hn. pose proof H as (g&Hs&Hf&Hsz&_). unfold reallocate_n.
  rewrite (relocate_ok l (storage v) 0 (sz v) _ 0 [] g [] (replicate (length l) Raw) (replicate (n - length l) Raw)); try done.
  2:{ unfold raw_block. cbn. rewrite <- replicate_add. f_equal. lia. }
  2:{ apply replicate_length. }
  2:{ apply isfree_raw. }
  cbn.
  destruct (destroy_moved v l (lives (replicate (length l) mv) ++ g) g (sz v)) as (old&Hold&Hfo&Hlo); try done.
  { unfold cap. rewrite Hs, !app_length, !map_length, replicate_length. done. }
  rewrite Hold. cbn.
  destruct (to_heap_ok v l old l (replicate (n - length l) Raw) (sz v) (sz v)) as (v'&Hv'&H'); try done.
  { apply isfree_raw. }
  rewrite Hv'. exists v'. split; [done|]. split; [done|].
  unfold to_heap in Hv'. case_match; [|done]. injection Hv' as <-. unfold cap, storage. cbn.
  rewrite app_length, map_length, replicate_length. lia.
Qed.
Lemma sv_reserve_ok v l n : vrepr v l ->
  exists v', sv_reserve triv mv v n = Some v' /\ vrepr v' l /\ n <= cap v'.
Proof.
  intros H. unfold sv_reserve. pose proof (vrepr_cap v l H). destruct (Nat.ltb_spec (cap v) n) as [E|E].
  - destruct (reallocate_n_ok v l (next_capacity v (n - cap v)) H) as (v'&Hv'&H'&Hc).
    { unfold next_capacity. lia. }
    exists v'. split; [done|]. split; [done|]. rewrite Hc. unfold next_capacity. lia.
  - eauto.
Qed.
Lemma sv_shrink_ok v l : vrepr v l -> exists v', sv_shrink triv mv N v = Some v' /\ vrepr v' l.
Proof.
  intros H. unfold sv_shrink. pose proof (vrepr_sz v l H). destruct (Nat.ltb_spec N (sz v)); [|eauto].
  destruct (reallocate_n_ok v l (sz v) H) as (v'&Hv'&H'&_); [lia|eauto].
Qed.

Lemma sv_resize_ok v l n x : vrepr v l ->
  exists v', sv_resize triv mv v n x = Some v' /\ vrepr v' (take n l ++ replicate (n - length l) x).
Proof.
  intros H. pose proof H as (g&Hs&Hf&Hsz&_). unfold sv_resize.
  destruct (Nat.leb_spec n (sz v)) as [E|E].
  - destruct (destroy_range_ok (drop n l) (storage v) n (sz v - n) (lives (take n l)) g) as (h&Hh&Hfh&Hd).
    { rewrite Hs, app_assoc, <- map_app, take_drop. done. }
    { rewrite map_length, take_length. lia. }
    { rewrite drop_length. lia. }
    rewrite Hd. cbn. eexists; split; [done|]. apply (vrepr_set_mem v l _ _ (h ++ g)); try done.
    + replace (n - length l) with 0 by lia. cbn. rewrite app_nil_r. done.
    + apply Forall_app. done.
    + rewrite app_length, take_length, replicate_length. lia.
    + unfold cap. rewrite Hs, !app_length, !map_length, take_length, Hh, drop_length. lia.
  - destruct (sv_reserve_ok v l n H) as (v1&Hv1&H1&Hc). rewrite Hv1. cbn.
    pose proof H1 as (g1&Hs1&Hf1&Hsz1&_).
    assert (Hg1 : n - length l <= length g1).
    { unfold cap in Hc. rewrite Hs1, app_length, map_length in Hc. lia. }
    rewrite (construct_list_ok _ (storage v1) (sz v1) (lives l) (take (n - length l) g1) (drop (n - length l) g1)).
    + cbn. eexists; split; [done|]. apply (vrepr_set_mem v1 l _ _ (drop (n - length l) g1)); try done.
      * rewrite Hsz1. rewrite take_ge by lia. rewrite map_app, <- app_assoc. done.
      * apply Forall_drop. done.
      * rewrite app_length, take_length, replicate_length. lia.
      * unfold cap. rewrite Hs1, !app_length, !map_length, replicate_length, drop_length. lia.
    + rewrite take_drop. done.
    + rewrite map_length. done.
    + rewrite take_length, replicate_length. lia.
    + apply Forall_take. done.
Qed.

Lemma sv_clear_ok v l : vrepr v l -> exists v', sv_clear triv v = Some v' /\ vrepr v' [].
Proof.
  intros H. unfold sv_clear. destruct (vrepr_destroy_all v l H) as (m&Hm&Hf&Hlen). rewrite Hm. cbn.
  eexists; split; [done|]. apply (vrepr_set_mem v l _ _ m); done.
Qed.
Lemma sv_reset_ok v l : vrepr v l -> exists v', sv_reset triv v = Some v' /\ vrepr v' [].
Proof.
  intros H. unfold sv_reset. destruct (vrepr_destroy_all v l H) as (m&Hm&Hf&Hlen). rewrite Hm. cbn.
  rewrite (proj2 (forallb_free m)) by done. eexists; split; [done|].
  destruct H as (g&Hs&_&Hsz&Hinl&Hheap). unfold cap, storage in Hlen.
  destruct (heap v) as [h|] eqn:E; [exists (inl v)|exists m]; cbn; repeat split; try done.
  - apply Hheap. done.
  - congruence.
Qed.

Lemma sv_destroy_ok v l : vrepr v l ->
  exists m h, sv_destroy triv v = Some (m, h) /\ Forall isfree m /\ (forall b, h = Some b -> Forall isfree b).
Proof.
  intros H. unfold sv_destroy. destruct (vrepr_destroy_all v l H) as (m&Hm&Hf&Hlen). rewrite Hm. cbn.
  rewrite (proj2 (forallb_free m)) by done. destruct H as (g&_&_&_&_&Hheap).
  destruct (heap v) as [h|]; eexists _, _; (split; [done|]); split; try done.
  - apply Hheap. done.
  - intros b [= <-]. done.
Qed.

Lemma sv_emplace_ok v l1 l2 x : vrepr v (l1 ++ l2) ->
  exists v', sv_emplace triv mv v (length l1) x = Some v' /\ vrepr v' (l1 ++ x :: l2).
Proof.
  intros H. pose proof H as (g&Hs&Hf&Hsz&_). rewrite app_length in Hsz. unfold sv_emplace.
  rewrite decide_True by lia.
  destruct (Nat.eqb_spec (sz v) (cap v)) as [E|E]; cbn [negb].
  - set (nc := next_capacity v 1). assert (Hnc : length l1 + length l2 < nc) by (unfold nc, next_capacity; lia).
    assert (g = []) as ->.
    { unfold cap in E. rewrite Hs, app_length, map_length, app_length in E. destruct g; [done|cbn in E; lia]. }
    rewrite app_nil_r in Hs.
    rewrite (construct_ok (raw_block nc) _ x (replicate (length l1) Raw) Raw (replicate (nc - length l1 - 1) Raw)).
    2:{ unfold raw_block. rewrite (replicate_split3 nc (length l1) 1) by lia. done. }
    2:{ rewrite replicate_length. done. }
    2:{ right; done. }
    cbn. rewrite map_app in Hs.
    rewrite (relocate_ok l1 (storage v) 0 (length l1) _ 0 [] (lives l2) [] (replicate (length l1) Raw)
               (Live x :: replicate (nc - length l1 - 1) Raw)); try done.
    2:{ apply replicate_length. }
    2:{ apply isfree_raw. }
    cbn.
    rewrite (relocate_ok l2 _ (length l1) (sz v - length l1) _ (S (length l1))
       (lives (replicate (length l1) mv)) [] (lives l1 ++ [Live x]) (replicate (length l2) Raw)
               (replicate (nc - length l1 - 1 - length l2) Raw)).
    2:{ rewrite app_nil_r. done. }
    2:{ rewrite map_length, replicate_length. done. }
    2:{ lia. }
    2:{ rewrite <- app_assoc. cbn. rewrite <- replicate_split2 by lia. done. }
    2:{ rewrite app_length, map_length. cbn. lia. }
    2:{ apply replicate_length. }
    2:{ apply isfree_raw. }
    cbn. rewrite app_nil_r, <- map_app, <- replicate_add, <- app_length.
    destruct (destroy_moved v (l1 ++ l2) (lives (replicate (length (l1 ++ l2)) mv)) [] (sz v)) as (old&Hold&Hfo&Hlo).
    { rewrite app_length. done. }
    { rewrite app_nil_r. done. }
    { done. }
    { rewrite map_length, replicate_length, app_length. lia. }
    rewrite Hold. cbn.
    replace ((lives l1 ++ [Live x]) ++ lives l2 ++ replicate (nc - length l1 - 1 - length l2) Raw)
      with (lives (l1 ++ x :: l2) ++ replicate (nc - length l1 - 1 - length l2) Raw)
      by (rewrite map_app; cbn; rewrite <- !app_assoc; done).
    eapply to_heap_ok; try done; [apply isfree_raw|]. rewrite app_length. cbn. lia.
  - destruct g as [|y g].
    { exfalso. apply E. unfold cap. rewrite Hs, app_nil_r, map_length, app_length. done. }
    apply Forall_cons in Hf as [Hy Hf].
    destruct (Nat.eqb_spec (length l1) (sz v)) as [E2|E2].
    + assert (l2 = []) as -> by (destruct l2; [done|cbn in *; lia]). rewrite app_nil_r in Hs.
      rewrite (construct_ok (storage v) (sz v) x (lives l1) y g); [|done|rewrite map_length; done|done].
      cbn. eexists; split; [done|]. apply (vrepr_set_mem v _ _ _ g) with (1 := H); try done.
      * rewrite map_app, <- app_assoc. done.
      * rewrite app_length. cbn in *. lia.
      * unfold cap. rewrite Hs, !app_length. done.
    + destruct l2 as [|z l2 _] using rev_ind; [cbn in *; lia|].
      rewrite app_length in Hsz. cbn in Hsz.
      rewrite app_assoc, map_app, <- app_assoc in Hs. cbn in Hs.
      rewrite (read_ok (storage v) (sz v - 1) (lives (l1 ++ l2)) z (y :: g)).
      2:{ done. } 2:{ rewrite map_length, app_length. lia. }
      cbn.
      rewrite (write_ok (storage v) (sz v - 1) mv (lives (l1 ++ l2)) z (y :: g)).
      2:{ done. } 2:{ rewrite map_length, app_length. lia. }
      cbn.
      rewrite (construct_ok _ (sz v) z (lives (l1 ++ l2) ++ [Live mv]) y g).
      2:{ rewrite <- app_assoc. done. }
      2:{ rewrite app_length, map_length, app_length. cbn. lia. }
      2:{ done. }
      cbn.
      destruct (shift_right1_ok l2 ((lives (l1 ++ l2) ++ [Live mv]) ++ Live z :: g) (length l1) (sz v - length l1 - 1)
         (lives l1) mv (Live z :: g)) as (u&Hu).
      { rewrite map_app, <- !app_assoc. done. }
      { rewrite map_length. done. }
      { lia. }
      rewrite Hu. cbn.
      rewrite (write_ok _ (length l1) x (lives l1) u (lives l2 ++ Live z :: g)).
      2:{ done. } 2:{ rewrite map_length. done. }
      cbn. eexists; split; [done|]. apply (vrepr_set_mem v _ _ _ g) with (1 := H); try done.
      * rewrite map_app. cbn. rewrite map_app. rewrite <- !app_assoc. cbn. rewrite <- app_assoc. done.
      * rewrite app_length. cbn. rewrite app_length. cbn. lia.
      * unfold cap. rewrite Hs. repeat (rewrite ?app_length, ?map_length; cbn). lia.
Qed.

Lemma reallocate_insert_ok v l1 l2 xs nc : vrepr v (l1 ++ l2) ->
  length l1 + length xs + length l2 <= nc ->
  exists v', reallocate_insert triv mv v nc (length l1) xs = Some v' /\ vrepr v' (l1 ++ xs ++ l2).
Proof.
  intros H Hnc. pose proof H as (g&Hs&Hf&Hsz&_). rewrite app_length in Hsz. unfold reallocate_insert.
  rewrite map_app, <- app_assoc in Hs.
  rewrite (relocate_ok l1 (storage v) 0 (length l1) _ 0 [] (lives l2 ++ g) [] (replicate (length l1) Raw)
             (replicate (nc - length l1) Raw)); try done.
  2:{ unfold raw_block. cbn. rewrite <- replicate_split2 by lia. done. }
  2:{ apply replicate_length. }
  2:{ apply isfree_raw. }
  cbn.
  rewrite (construct_list_ok xs _ (length l1) (lives l1) (replicate (length xs) Raw) (replicate (nc - length l1 - length xs) Raw)).
  2:{ rewrite <- replicate_split2 by lia. done. }
  2:{ rewrite map_length. done. }
  2:{ apply replicate_length. }
  2:{ apply isfree_raw. }
  cbn.
  rewrite (relocate_ok l2 _ (length l1) (sz v - length l1) _ (length l1 + length xs)
       (lives (replicate (length l1) mv)) g (lives l1 ++ lives xs) (replicate (length l2) Raw)
               (replicate (nc - length l1 - length xs - length l2) Raw)).
  2:{ done. }
  2:{ rewrite map_length, replicate_length. done. }
  2:{ lia. }
  2:{ rewrite <- !app_assoc. rewrite <- replicate_split2 by lia. done. }
  2:{ rewrite app_length, !map_length. done. }
  2:{ apply replicate_length. }
  2:{ apply isfree_raw. }
  cbn.
  replace (lives (replicate (length l1) mv) ++ lives (replicate (length l2) mv) ++ g)
    with (lives (replicate (length (l1 ++ l2)) mv) ++ g)
    by (rewrite app_length, replicate_add, map_app, <- app_assoc; done).
  destruct (destroy_moved v (l1 ++ l2) (lives (replicate (length (l1 ++ l2)) mv) ++ g) g (sz v)) as (old&Hold&Hfo&Hlo).
  { rewrite app_length. done. }
  { done. }
  { done. }
  { unfold cap. rewrite Hs. repeat (rewrite ?app_length, ?map_length, ?replicate_length). lia. }
  rewrite Hold. cbn.
  replace ((lives l1 ++ lives xs) ++ lives l2 ++ replicate (nc - length l1 - length xs - length l2) Raw)
      with (lives (l1 ++ xs ++ l2) ++ replicate (nc - length l1 - length xs - length l2) Raw)
      by (rewrite !map_app; cbn; rewrite <- !app_assoc; done).
  eapply to_heap_ok; try done; [apply isfree_raw|]. rewrite !app_length. lia.
Qed.

Lemma sv_insert_ok v l1 l2 xs : vrepr v (l1 ++ l2) -> (length l2 <= length xs \/ xs = []) ->
  exists v', sv_insert triv mv v (length l1) xs = Some (v', length l1) /\ vrepr v' (l1 ++ xs ++ l2).
Proof.
  intros H Hor. pose proof H as (g&Hs&Hf&Hsz&_). rewrite app_length in Hsz. unfold sv_insert.
  rewrite decide_True by lia. pose proof (vrepr_cap _ _ H) as Hcap. rewrite app_length in Hcap.
  destruct (Nat.leb_spec (length xs) (cap v - sz v)) as [E|E].
  - assert (Hg : length xs <= length g).
    { unfold cap in E. rewrite Hs, app_length, map_length, app_length in E. lia. }
    destruct (decide (length l2 <= length xs)) as [Hle|Hgt].
    + replace (Nat.max (sz v - length xs) (length l1)) with (length l1) by lia.
      replace (sz v - length l1) with (length l2) by lia.
      rewrite (construct_list_ok (drop (length l2) xs) (storage v) (sz v) (lives (l1 ++ l2))
         (take (length xs - length l2) g) (drop (length xs - length l2) g)).
      2:{ rewrite take_drop. done. }
      2:{ rewrite map_length, app_length. done. }
      2:{ rewrite take_length, drop_length. lia. }
      2:{ apply Forall_take. done. }
      cbn. unfold relocate_in.
      rewrite (take_out_ok l2 _ (length l1) (length l2) (lives l1)
        (lives (drop (length l2) xs) ++ drop (length xs - length l2) g)).
      2:{ rewrite map_app, <- !app_assoc. done. }
      2:{ rewrite map_length. done. }
      2:{ done. }
      cbn.
      set (g2 := drop (length xs - length l2) g).
      assert (Hg2 : length l2 <= length g2) by (unfold g2; rewrite drop_length; lia).
      assert (Hf2 : Forall isfree g2) by (apply Forall_drop; done).
      rewrite (construct_list_ok l2 _ (length l1 + length xs)
         (lives l1 ++ lives (replicate (length l2) mv) ++ lives (drop (length l2) xs)) (take (length l2) g2) (drop (length l2) g2)).
      2:{ rewrite take_drop. rewrite <- !app_assoc. done. }
      2:{ rewrite !app_length, !map_length, replicate_length, drop_length. lia. }
      2:{ rewrite take_length. lia. }
      2:{ apply Forall_take. done. }
      cbn.
      rewrite (write_list_ok (take (length l2) xs) _ (length l1) (lives l1) (replicate (length l2) mv)
        (lives (drop (length l2) xs) ++ lives l2 ++ drop (length l2) g2)).
      2:{ rewrite <- !app_assoc. done. }
      2:{ rewrite map_length. done. }
      2:{ rewrite replicate_length, take_length. lia. }
      cbn. eexists; split; [done|]. apply (vrepr_set_mem v _ _ _ (drop (length l2) g2)) with (1 := H).
      * rewrite !map_app. rewrite <- (take_drop (length l2) xs) at 3. rewrite map_app, <- !app_assoc. done.
      * apply Forall_drop. done.
      * rewrite !app_length. lia.
      * unfold cap. rewrite Hs. unfold g2.
        repeat (rewrite ?app_length, ?map_length, ?drop_length, ?take_length). lia.
    + destruct Hor as [? | ->]; [lia|]. cbn in *.
      replace (Nat.max (sz v - 0) (length l1)) with (sz v) by lia.
      rewrite Nat.sub_diag. cbn. unfold relocate_in. cbn.
      eexists; split; [done|]. rewrite Nat.add_0_r. apply (vrepr_set_mem v _ _ _ g) with (1 := H); try done.
      rewrite app_length. done.
  - destruct (reallocate_insert_ok v l1 l2 xs (next_capacity v (length xs)) H) as (v'&Hv'&H').
    { unfold next_capacity. lia. }
    rewrite Hv'. cbn. eauto.
Qed.

Lemma sv_insert_input_ok v l1 l2 xs : vrepr v (l1 ++ l2) ->
  exists v', sv_insert_input triv mv v (length l1) xs = Some v' /\ vrepr v' (l1 ++ xs ++ l2).
Proof.
  intros H. pose proof (vrepr_sz _ _ H) as Hsz. rewrite app_length in Hsz. unfold sv_insert_input.
  rewrite decide_True by lia.
  destruct (push_all_ok xs v _ H) as (v1&Hv1&H1). rewrite Hv1. cbn.
  pose proof H1 as (g&Hs&Hf&Hsz1&_). unfold rotate. rewrite !app_length in Hsz1.
  rewrite (read_list_ok (l2 ++ xs) (storage v1) (length l1) _ (lives l1) g).
  2:{ rewrite Hs, !map_app, <- !app_assoc. done. }
  2:{ rewrite map_length. done. }
  2:{ rewrite app_length. lia. }
  cbn.
  rewrite (write_list_ok _ (storage v1) (length l1) (lives l1) (l2 ++ xs) g).
  2:{ rewrite Hs, !map_app, <- !app_assoc. done. }
  2:{ rewrite map_length. done. }
  2:{ rewrite !app_length, drop_length, take_length, app_length. lia. }
  cbn. eexists; split; [done|].
  replace (sz v - length l1) with (length l2) by lia. rewrite drop_app, take_app.
  apply (vrepr_set_mem v1 _ _ _ g) with (1 := H1).
  - rewrite !map_app, <- !app_assoc. done.
  - done.
  - rewrite !app_length. lia.
  - unfold cap. rewrite Hs. repeat (rewrite ?app_length, ?map_length). lia.
Qed.

Lemma sv_erase_ok v l1 l2 l3 : vrepr v (l1 ++ l2 ++ l3) ->
  exists v', sv_erase triv mv v (length l1) (length l1 + length l2) = Some v' /\ vrepr v' (l1 ++ l3).
Proof.
  intros H. pose proof H as (g&Hs&Hf&Hsz&_). rewrite !app_length in Hsz. unfold sv_erase.
  rewrite decide_True by lia. replace (length l1 + length l2 - length l1) with (length l2) by lia.
  rewrite !map_app, <- !app_assoc in Hs.
  assert (Hm : exists zs, length zs = length l2 /\
     (if Nat.eqb (length l2) 0 then Some (storage v)
      else shift_left mv (storage v) (length l1) (length l1 + length l2) (sz v - (length l1 + length l2)))
     = Some (lives (l1 ++ l3) ++ lives zs ++ g)).
  { destruct (Nat.eqb_spec (length l2) 0) as [E|E].
    - destruct l2; [|done]. exists []. split; [done|]. rewrite Hs. cbn. rewrite map_app, <- app_assoc. done.
    - destruct (shift_left_ok l3 (storage v) (length l1) (length l1 + length l2) (sz v - (length l1 + length l2))
        (lives l1) l2 g) as (zs&Hzs&Hsh).
      + done.
      + rewrite map_length. done.
      + done.
      + destruct l2; done.
      + lia.
      + exists zs. split; [done|]. rewrite Hsh, map_app, <- app_assoc. done. }
  destruct Hm as (zs&Hzs&Hm). rewrite Hm. cbn.
  destruct (destroy_range_ok zs (lives (l1 ++ l3) ++ lives zs ++ g) (sz v - length l2) (length l2) (lives (l1 ++ l3)) g)
    as (h&Hh&Hfh&Hd).
  { done. }
  { rewrite map_length, app_length. lia. }
  { done. }
  rewrite Hd. cbn. eexists; split; [done|]. apply (vrepr_set_mem v _ _ _ (h ++ g)) with (1 := H).
  - done.
  - apply Forall_app. done.
  - rewrite app_length. lia.
  - unfold cap. rewrite Hs. repeat (rewrite ?app_length, ?map_length). lia.
Qed.

Lemma sv_assign_ok v l xs : vrepr v l -> exists v', sv_assign triv v xs = Some v' /\ vrepr v' xs.
Proof.
  intros H. pose proof H as (g&Hs&Hf&Hsz&_). unfold sv_assign. pose proof (vrepr_cap v l H) as Hcap.
  remember (Nat.min (sz v) (length xs)) as cs eqn:Ecs.
  destruct (Nat.leb_spec (length xs) (cap v)) as [E|E].
  - rewrite (write_list_ok (take cs xs) (storage v) 0 [] (take cs l) (lives (drop cs l) ++ g)).
    2:{ cbn. rewrite app_assoc, <- map_app, take_drop. done. }
    2:{ done. }
    2:{ rewrite !take_length. lia. }
    cbn.
    assert (Hg : length xs - cs <= length (lives (drop cs l) ++ g)).
    { unfold cap in E. rewrite Hs, app_length, map_length in E. rewrite app_length, map_length, drop_length. lia. }
    destruct (decide (length xs <= length l)) as [Hle|Hgt].
    + assert (cs = length xs) as Hcs by lia. rewrite Hcs.
      rewrite take_ge, (drop_ge xs) by lia. cbn.
      destruct (destroy_range_ok (drop (length xs) l) (lives xs ++ lives (drop (length xs) l) ++ g) (length xs)
        (sz v - length xs) (lives xs) g) as (h&Hh&Hfh&Hd).
      { done. } { rewrite map_length. done. } { rewrite drop_length. lia. }
      rewrite Hd. cbn. eexists; split; [done|]. apply (vrepr_set_mem v l _ _ (h ++ g)); try done.
      * apply Forall_app. done.
      * unfold cap. rewrite Hs, !app_length, !map_length, Hh, drop_length. lia.
    + assert (cs = length l) as Hcs by lia. rewrite Hcs in *.
      rewrite drop_ge in Hg by lia. cbn in Hg. rewrite (drop_ge l) by lia. cbn.
      rewrite (construct_list_ok (drop (length l) xs) _ (length l) (lives (take (length l) xs))
        (take (length xs - length l) g) (drop (length xs - length l) g)).
      2:{ rewrite take_drop. done. }
      2:{ rewrite map_length, take_length. lia. }
      2:{ rewrite take_length, drop_length. lia. }
      2:{ apply Forall_take. done. }
      cbn. rewrite Hsz, Nat.sub_diag. cbn. eexists; split; [done|].
      apply (vrepr_set_mem v l _ _ (drop (length xs - length l) g)); try done.
      * rewrite app_assoc, <- map_app, take_drop. done.
      * apply Forall_drop. done.
      * unfold cap. rewrite Hs, !app_length, !map_length, !drop_length, take_length. lia.
  - set (nc := next_capacity v (length xs - sz v)).
    assert (Hnc : length xs <= nc) by (unfold nc, next_capacity; lia).
    rewrite (construct_list_ok xs (raw_block nc) 0 [] (replicate (length xs) Raw) (replicate (nc - length xs) Raw)).
    2:{ unfold raw_block. cbn. apply replicate_split2. done. }
    2:{ done. }
    2:{ apply replicate_length. }
    2:{ apply isfree_raw. }
    cbn.
    destruct (vrepr_destroy_all v l H) as (old&Hold&Hfo&Hlo). rewrite Hold. cbn.
    eapply to_heap_ok; try done. apply isfree_raw.
Qed.

Lemma sv_assign_input_ok v l xs : vrepr v l -> exists v', sv_assign_input triv mv v xs = Some v' /\ vrepr v' xs.
Proof.
  intros H. pose proof H as (g&Hs&Hf&Hsz&_). unfold sv_assign_input.
  remember (Nat.min (sz v) (length xs)) as n eqn:En.
  rewrite (write_list_ok (take n xs) (storage v) 0 [] (take n l) (lives (drop n l) ++ g)).
  2:{ cbn. rewrite app_assoc, <- map_app, take_drop. done. }
  2:{ done. }
  2:{ rewrite !take_length. lia. }
  cbn.
  destruct (destroy_range_ok (drop n l) (lives (take n xs) ++ lives (drop n l) ++ g) n (sz v - n) (lives (take n xs)) g)
    as (h&Hh&Hfh&Hd).
  { done. } { rewrite map_length, take_length. lia. } { rewrite drop_length. lia. }
  rewrite Hd. cbn.
  destruct (push_all_ok (drop n xs) (set_mem v (lives (take n xs) ++ h ++ g) n) (take n xs)) as (v'&Hv'&H').
  { apply (vrepr_set_mem v l _ _ (h ++ g)); try done.
    - apply Forall_app. done.
    - rewrite take_length. lia.
    - unfold cap. rewrite Hs, !app_length, !map_length, Hh, drop_length, take_length. lia. }
  exists v'. split; [done|]. rewrite take_drop in H'. done.
Qed.

Lemma sv_move_assign_ok fwd v w l k : vrepr v l -> vrepr w k ->
  exists v' w' k', sv_move_assign triv mv fwd v w = Some (v', w') /\ vrepr v' k /\ vrepr w' k'.
Proof.
  intros H H'. pose proof H as (g&Hs&Hf&Hsz&Hinl&Hheap). pose proof H' as (g'&Hs'&Hf'&Hsz'&Hinl'&Hheap').
  unfold sv_move_assign.
  assert (Hsmall : heap w = None -> exists v' w' k',
    ('(mw, xs) ← take_out mv (storage w) 0 (sz w);
      v ← (if fwd then sv_assign triv v xs else sv_assign_input triv mv v xs);
      Some (v, set_mem w mw (sz w))) = Some (v', w') /\ vrepr v' k /\ vrepr w' k').
  { intros Hw. rewrite (take_out_ok k (storage w) 0 (sz w) [] g') by done. cbn.
    assert (Hv : exists v', (if fwd then sv_assign triv v k else sv_assign_input triv mv v k) = Some v' /\ vrepr v' k).
    { destruct fwd; [apply (sv_assign_ok v l)|apply (sv_assign_input_ok v l)]; done. }
    destruct Hv as (v'&Hv'&Hr). rewrite Hv'. cbn. eexists _, _, _. split; [done|]. split; [done|].
    apply (vrepr_set_mem w k _ (replicate (length k) mv) g'); try done.
    - rewrite replicate_length. done.
    - unfold cap. rewrite Hs', !app_length, !map_length, replicate_length. done. }
  destruct (heap v) as [hv|] eqn:Ev, (heap w) as [hw|] eqn:Ew.
  - eexists _, _, l. split; [done|]. unfold storage in Hs, Hs'. rewrite Ev in Hs. rewrite Ew in Hs'.
    split; [exists g'|exists g]; cbn; repeat split; try done; intros _; [apply Hheap|apply Hheap']; done.
  - apply Hsmall. done.
  - destruct (vrepr_destroy_all v l H) as (m&Hm&Hfm&Hlen). rewrite Hm. cbn.
    eexists _, _, []. split; [done|]. unfold cap, storage in Hlen. rewrite Ev in Hlen.
    unfold storage in Hs'. rewrite Ew in Hs'.
    split; [exists g'|exists (inl w)]; cbn; repeat split; try done.
    + congruence.
    + apply Hheap'. done.
  - apply Hsmall. done.
Qed.

Lemma sv_move_construct_ok w k : vrepr w k ->
  exists v' w', sv_move_construct triv mv N w = Some (v', w') /\ vrepr v' k /\ vrepr w' [].
Proof.
  intros H. pose proof H as (g&Hs&Hf&Hsz&Hinl&Hheap). pose proof (vrepr_cap w k H) as Hcap.
  unfold sv_move_construct. unfold cap in Hcap. unfold storage in *. destruct (heap w) as [h|] eqn:E.
  - eexists _, _. split; [done|]. split; [exists g|exists (inl w)]; cbn; repeat split; try done.
    + apply replicate_length.
    + intros _. apply isfree_raw.
    + apply Hheap. done.
  - rewrite (relocate_ok k (inl w) 0 (sz w) _ 0 [] g [] (replicate (length k) Raw) (replicate (N - length k) Raw)); try done.
    2:{ unfold raw_block. cbn. apply replicate_split2. lia. }
    2:{ apply replicate_length. }
    2:{ apply isfree_raw. }
    cbn.
    destruct (destroy_moved w k (lives (replicate (length k) mv) ++ g) g (sz w)) as (old&Hold&Hfo&Hlo); try done.
    { unfold cap, storage. rewrite E, Hs, !app_length, !map_length, replicate_length. done. }
    rewrite Hold. cbn. unfold cap, storage in Hlo. rewrite E in Hlo.
    eexists _, _. split; [done|].
    split; [exists (replicate (N - length k) Raw)|exists old]; cbn; repeat split; try done.
    + apply isfree_raw.
    + rewrite app_length, map_length, replicate_length. lia.
    + congruence.
Qed.

Lemma swap_small_ok v w l k : vrepr v l -> vrepr w k -> heap v = None -> heap w = None -> length k <= length l ->
  exists v' w', swap_small triv mv v w = Some (v', w') /\ vrepr v' k /\ vrepr w' l.
Proof.
  intros H H' Ev Ew Hle. pose proof H as (g&Hs&Hf&Hsz&Hinl&_). pose proof H' as (g'&Hs'&Hf'&Hsz'&Hinl'&_).
  unfold storage in Hs, Hs'. rewrite Ev in Hs. rewrite Ew in Hs'.
  unfold swap_small, swap_ranges.
  rewrite (read_list_ok k (inl w) 0 (sz w) [] g') by done. cbn.
  rewrite (read_list_ok (take (length k) l) (inl v) 0 (sz w) [] (lives (drop (length k) l) ++ g)).
  2:{ cbn. rewrite app_assoc, <- map_app, take_drop. done. }
  2:{ done. }
  2:{ rewrite take_length. lia. }
  cbn.
  rewrite (write_list_ok _ (inl w) 0 [] k g'); [|done|done|rewrite take_length; lia].
  cbn.
  rewrite (write_list_ok k (inl v) 0 [] (take (length k) l) (lives (drop (length k) l) ++ g)).
  2:{ cbn. rewrite app_assoc, <- map_app, take_drop. done. }
  2:{ done. }
  2:{ rewrite take_length. lia. }
  cbn.
  assert (Hg' : length l - length k <= length g').
  { assert (length l <= N) by (rewrite <- Hinl, Hs, app_length, map_length; lia).
    rewrite Hs', app_length, map_length in Hinl'. lia. }
  rewrite (relocate_ok (drop (length k) l) _ (sz w) (sz v - sz w) _ (sz w) (lives k) g
     (lives (take (length k) l)) (take (length l - length k) g') (drop (length l - length k) g')).
  2:{ done. }
  2:{ rewrite map_length. done. }
  2:{ rewrite drop_length. lia. }
  2:{ rewrite take_drop. done. }
  2:{ rewrite map_length, take_length. lia. }
  2:{ rewrite take_length, drop_length. lia. }
  2:{ apply Forall_take. done. }
  cbn.
  destruct (destroy_range_ok (replicate (length (drop (length k) l)) mv)
     (lives k ++ lives (replicate (length (drop (length k) l)) mv) ++ g) (sz w) (sz v - sz w) (lives k) g) as (h&Hh&Hfh&Hd).
  { done. } { rewrite map_length. done. } { rewrite replicate_length, drop_length. lia. }
  rewrite Hd. cbn. eexists _, _. split; [done|]. rewrite replicate_length, drop_length in Hh.
  split; [exists (h ++ g)|exists (drop (length l - length k) g')]; cbn; repeat split; try done.
  - apply Forall_app. done.
  - rewrite <- Hinl, Hs, !app_length, !map_length. lia.
  - rewrite app_assoc, <- map_app, take_drop. done.
  - apply Forall_drop. done.
  - rewrite <- Hinl', Hs', !app_length, !map_length, !drop_length, take_length. lia.
Qed.

Lemma swap_mixed_ok v w l k m : vrepr v l -> vrepr w k -> heap v = Some m -> heap w = None ->
  exists v' w', swap_mixed triv mv v w m = Some (v', w') /\ vrepr v' k /\ vrepr w' l.
Proof.
  intros H H' Ev Ew. pose proof H as (g&Hs&Hf&Hsz&Hinl&Hheap). pose proof H' as (g'&Hs'&Hf'&Hsz'&Hinl'&_).
  unfold storage in Hs, Hs'. rewrite Ev in Hs. rewrite Ew in Hs'.
  unfold swap_mixed.
  assert (Hfi : Forall isfree (inl v)) by (apply Hheap; congruence).
  assert (Hk : length k <= N) by (rewrite <- Hinl', Hs', app_length, map_length; lia).
  rewrite (relocate_ok k (inl w) 0 (sz w) (inl v) 0 [] g' [] (take (length k) (inl v)) (drop (length k) (inl v))); try done.
  2:{ cbn. rewrite take_drop. done. }
  2:{ rewrite take_length. lia. }
  2:{ apply Forall_take. done. }
  cbn.
  destruct (destroy_moved w k (lives (replicate (length k) mv) ++ g') g' (sz w)) as (old&Hold&Hfo&Hlo); try done.
  { unfold cap, storage. rewrite Ew, Hs', !app_length, !map_length, replicate_length. done. }
  rewrite Hold. cbn. unfold cap, storage in Hlo. rewrite Ew in Hlo.
  eexists _, _. split; [done|].
  split; [exists (drop (length k) (inl v))|exists g]; cbn; repeat split; try done.
  - apply Forall_drop. done.
  - rewrite app_length, map_length, drop_length. lia.
  - congruence.
Qed.

Lemma sv_swap_ok v w l k : vrepr v l -> vrepr w k ->
  exists v' w', sv_swap triv mv v w = Some (v', w') /\ vrepr v' k /\ vrepr w' l.
Proof.
  intros H H'. unfold sv_swap. pose proof (vrepr_sz _ _ H) as Hsz. pose proof (vrepr_sz _ _ H') as Hsz'.
  destruct (heap v) as [hv|] eqn:Ev, (heap w) as [hw|] eqn:Ew.
  - destruct H as (g&Hs&Hf&_&Hinl&Hheap). destruct H' as (g'&Hs'&Hf'&_&Hinl'&Hheap').
    eexists _, _. split; [done|]. unfold storage in Hs, Hs'. rewrite Ev in Hs. rewrite Ew in Hs'.
    split; [exists g'|exists g]; cbn; repeat split; try done; intros _; [apply Hheap|apply Hheap']; congruence.
  - apply swap_mixed_ok; done.
  - destruct (swap_mixed_ok w v k l hw) as (v'&w'&Hsw&H1&H2); [done..|]. rewrite Hsw. cbn. eauto.
  - destruct (Nat.ltb_spec (sz v) (sz w)).
    + destruct (swap_small_ok w v k l) as (v'&w'&Hsw&H1&H2); [done..|lia|]. rewrite Hsw. cbn. eauto.
    + apply swap_small_ok; try done. lia.
Qed.

Definition vrepr2 (s : sv T * sv T) (t : list T * list T) : Prop := vrepr s.1 t.1 /\ vrepr s.2 t.2.

Lemma on_ok (w : sv T) (r : option (sv T)) l k :
  vrepr w k -> (exists v', r = Some v' /\ vrepr v' l) ->
  exists s', (v ← r; Some (v, w)) = Some s' /\ vrepr2 s' (l, k).
Proof. intros Hw (v'&->&Hv). cbn. eexists; split; [done|]. split; done. Qed.

Lemma split_at l i : i <= length l -> exists l1 l2, l = l1 ++ l2 /\ i = length l1.
Proof.
  intros H. exists (take i l), (drop i l). rewrite take_drop, take_length. split; [done|lia].
Qed.

Lemma svstep_ok s t o : vrepr2 s t -> legal t o -> clean triv t o ->
  exists s' t', svstep triv mv N s o = Some s' /\ vstep t o t' /\ vrepr2 s' t'.
Proof.
  destruct s as [v w], t as [l k]. intros [H H'] Hl Hc. cbn in H, H'.
  assert (Hrep : forall r l', (exists v', r = Some v' /\ vrepr v' l') -> exists v', replace triv v r = Some v' /\ vrepr v' l').
  { intros r l' (v'&->&Hv'). destruct (sv_destroy_ok v l H) as (m&h&Hd&_). unfold replace. rewrite Hd. cbn. eauto. }
  assert (Hon : forall r l', (exists v', r = Some v' /\ vrepr v' l') -> vstep (l, k) o (l', k) ->
     exists s' t', (v ← r; Some (v, w)) = Some s' /\ vstep (l, k) o t' /\ vrepr2 s' t').
  { intros r l' Hr Hv. destruct (on_ok w r l' k H' Hr) as (s'&Hs'&H2). eauto. }
  destruct o; cbn in Hl, Hc; cbn [svstep].
  - eapply Hon; [apply Hrep, sv_of_list_ok|constructor].
  - eapply Hon; [apply sv_push_ok; done|constructor].
  - destruct l as [|x l _] using rev_ind; [done|].
    eapply Hon; [apply (sv_pop_ok v l x); done|constructor].
  - eapply Hon; [|constructor]. destruct (sv_reserve_ok v l n H) as (v'&?&?&_). eauto.
  - eapply Hon; [apply sv_shrink_ok; done|constructor].
  - destruct (sv_resize_ok v l n x H) as (v'&Hv'&Hr).
    destruct (decide (n <= length l)) as [E|E].
    + replace (n - length l) with 0 in Hr by lia. cbn in Hr. rewrite app_nil_r in Hr.
      eapply Hon; [eauto|constructor; done].
    + rewrite take_ge in Hr by lia. eapply Hon; [eauto|constructor; lia].
  - eapply Hon; [apply (sv_clear_ok v l); done|constructor].
  - eapply Hon; [apply (sv_reset_ok v l); done|constructor].
  - destruct (split_at l pos Hl) as (l1&l2&->&->).
    eapply Hon; [apply sv_emplace_ok; done|constructor].
  - destruct (split_at l pos Hl) as (l1&l2&->&->).
    eapply Hon; [|constructor].
    destruct (sv_insert_ok v l1 l2 xs H) as (v'&Hv'&Hr).
    { rewrite app_length in Hc. destruct Hc as [Hc|Hc]; [left; lia|right; done]. }
    rewrite Hv'. cbn. eauto.
  - destruct (split_at l pos Hl) as (l1&l2&->&->).
    eapply Hon; [apply sv_insert_input_ok; done|constructor].
  - destruct Hl as [Hij Hj]. destruct (split_at l i) as (l1&l2&->&->); [lia|].
    rewrite app_length in Hj. destruct (split_at l2 (j - length l1)) as (l3&l4&->&Hl3); [lia|].
    replace j with (length l1 + length l3) in * by lia.
    eapply Hon; [apply sv_erase_ok; done|constructor].
  - eapply Hon; [apply (sv_assign_ok v l); done|constructor].
  - eapply Hon; [apply (sv_assign_input_ok v l); done|constructor].
  - eapply Hon; [|constructor]. unfold sv_copy_assign. rewrite (contents_ok w k H'). cbn.
    apply (sv_assign_ok v l). done.
  - destruct (sv_move_assign_ok fwd v w l k H H') as (v'&w'&k'&Hm&H1&H2).
    eexists _, (k, k'). split; [done|]. split; [constructor|split; done].
  - destruct (sv_destroy_ok v l H) as (m&h&Hd&_). rewrite Hd. cbn.
    destruct (sv_move_construct_ok w k H') as (v'&w'&Hm&H1&H2).
    eexists _, (k, []). split; [done|]. split; [constructor|split; done].
  - destruct (sv_swap_ok v w l k H H') as (v'&w'&Hm&H1&H2).
    eexists _, (k, l). split; [done|]. split; [constructor|split; done].
  - eexists _, (k, l). split; [done|]. split; [constructor|split; done].
Qed.

Lemma svrun_ok os : forall s t, vrepr2 s t -> vsafe triv t os ->
  exists s' t', svrun triv mv N s os = Some s' /\ vrun t os t' /\ vrepr2 s' t'.
Proof.
  induction os as [|o os IH]; intros s t H Hs.
  - exists s, t. split; [done|]. split; [constructor|done].
  - destruct Hs as (Hl&Hc&Hs). destruct (svstep_ok s t o H Hl Hc) as (s1&t1&Hst&Hv&H1).
    destruct (IH s1 t1 H1 (Hs t1 Hv)) as (s2&t2&Hr&Hv2&H2).
    exists s2, t2. cbn. rewrite Hst. cbn. split; [done|]. split; [econstructor; done|done].
Qed.

End Proofs.
