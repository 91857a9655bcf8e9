(** C110 and C111: exceptions in the operations of small_vector, and arguments that refer to its elements. *)
From stdpp Require Import list list_numbers.
From Coq Require Import Lia.
From Verif Require Import SmallVectorExnModel SmallVectorExnSpec SmallVectorExnProofs.

Section Ops.
Context {T : Type} (nt_move : bool) (mv : T) (N : nat).
Notation core := (core T).
Notation holds := (holds N).
Implicit Types (c : core) (l : list T).

Lemma a_post {A} (f : M A) (Q Q' : A -> core -> Prop) (E : core -> Prop) c : (forall a c', Q a c' -> Q' a c') -> always f Q E c -> always f Q' E c.
Proof. intros HQ. by apply a_mono. Qed.
(** ** Contents of ranges of cells *)
Definition vals (g : nat -> cell T) (i : nat) (l : list T) : Prop := forall j x, l !! j = Some x -> g (i + j) = Live x.
Lemma vals_app g i l1 l2 : vals g i l1 -> vals g (i + length l1) l2 -> vals g i (l1 ++ l2).
Proof.
  intros H1 H2 j x Hx. apply lookup_app_Some in Hx as [Hx|[Hj Hx]]; [by apply H1|]. specialize (H2 _ _ Hx). by replace (i + length l1 + (j - length l1)) with (i + j) in H2 by lia.
Qed.
Lemma vals_take g i l k : vals g i l -> vals g i (take k l).
Proof. intros H j x Hx. apply lookup_take_Some in Hx as [Hx _]. by apply H. Qed.
Lemma vals_drop g i l k : vals g i l -> vals g (i + k) (drop k l).
Proof. intros H j x Hx. rewrite lookup_drop in Hx. specialize (H _ _ Hx). by rewrite Nat.add_assoc in H. Qed.
Lemma vals_cell g i x : g i = Live x -> vals g i [x].
Proof. intros H [|j] y Hy; [|done]. apply (inj Some) in Hy as <-. by rewrite Nat.add_0_r. Qed.
Lemma vals_ext g g' i l : vals g i l -> (forall j, i <= j < i + length l -> g' j = g j) -> vals g' i l.
Proof. intros H E j x Hx. rewrite E; [by apply H|]. apply lookup_lt_Some in Hx. lia. Qed.
Lemma vals_live g i l : vals g i l -> forall j, i <= j < i + length l -> live (g j).
Proof. intros H j Hj. destruct (lookup_lt_is_Some_2 l (j - i)) as [x Hx]; [lia|]. exists x. specialize (H _ _ Hx). by replace (i + (j - i)) with j in H by lia. Qed.

Lemma holds_vals c l : holds c l -> vals (cells c (first c)) 0 l.
Proof. intros H j x Hx. by apply (h_live _ _ _ H). Qed.
Lemma holds_within c l j : holds c l -> j < length l -> within c (first c) j.
Proof. intros H Hj. destruct (h_cap _ _ _ H) as (k & Hk & Hl). exists k. split; [done|lia]. Qed.
Lemma holds_cap c l : holds c l -> alive c (first c) = Some (cap c) /\ length l <= cap c.
Proof. intros H. destruct (h_cap _ _ _ H) as (k & Hk & Hl). unfold cap. rewrite Hk. done. Qed.
Lemma holds_fresh c l : holds c l -> alive c (nxt c) = None.
Proof. intros H. destruct (alive c (nxt c)) as [k|] eqn:E; [|done]. destruct (h_new _ _ _ H). destruct (h_only _ _ _ H _ _ E); lia. Qed.

(** The same vector with other contents. *)
Lemma holds_cells c l g l' : holds c l -> length l' <= cap c -> vals (g (first c)) 0 l' -> (forall b j, ~ (b = first c /\ j < length l') -> g b j = Raw) ->
  holds (with_size (with_cells c g) (length l')) l'.
Proof.
  intros H Hl Hv Hr. destruct (holds_cap _ _ H) as [Hk _]. split; cbn; [done|exact Hv|done|apply H| |apply H|apply H]. by exists (cap c).
Qed.
Lemma with_size_same (c : core) n : size c = n -> with_size c n = c.
Proof. intros <-. by destruct c. Qed.
Lemma holds_same c l g : holds c l -> (forall b j, g b j = cells c b j) -> holds (with_cells c g) l.
Proof.
  intros H Hg. rewrite <- (with_size_same (with_cells c g) (length l)) by apply H. apply (holds_cells c l); [done|by apply holds_cap| |].
  - intros j x Hx. rewrite Hg. by apply (holds_vals _ _ H).
  - intros b j Hj. rewrite Hg. by apply H.
Qed.

(** ** Reallocation *)
(** The new block [b] holds [l'] and the old one only objects still to be destroyed. *)
Record ready (c : core) (b : nat) (l' : list T) : Prop := {
  r_ne : b <> first c /\ b <> 0 /\ b < nxt c;
  r_inline : alive c 0 = Some N;
  r_new : exists k, alive c b = Some k /\ length l' <= k;
  r_old : exists k, alive c (first c) = Some k /\ size c <= k;
  r_only : forall b' k, alive c b' = Some k -> b' = 0 \/ b' = first c \/ b' = b;
  r_live : forall j, j < size c -> live (cells c (first c) j);
  r_vals : vals (cells c b) 0 l';
  r_raw : forall b' j, ~ (b' = first c /\ j < size c) -> ~ (b' = b /\ j < length l') -> cells c b' j = Raw }.
Lemma a_replace c b l' n (E : core -> Prop) : ready c b l' -> n = length l' ->
  always (replace_storage b n) (fun _ c' => holds c' l' /\ first c' = b /\ alive c' b = alive c b) E c.
Proof.
  intros R ->. destruct (r_ne _ _ _ R) as (Hne & Hb0 & Hbn). apply a_bind, a_get. apply a_bind. apply a_destroy_range.
  - intros j Hj. split; [|apply (r_live _ _ _ R); lia]. destruct (r_old _ _ _ R) as (k & Hk & Hs). exists k. split; [done|lia].
  - intros g Hg Hs. apply a_bind. apply a_bind, a_get. cbn.
    assert (Hr : forall b' j, ~ (b' = b /\ j < length l') -> g b' j = Raw).
    { intros b' j Hj. destruct (decide (b' = first c /\ j < size c)) as [[-> Hj']|Hj']; [apply Hg; lia|]. rewrite Hs by lia. by apply (r_raw _ _ _ R). }
    assert (Hv : vals (g b) 0 l').
    { eapply vals_ext; [apply R|]. intros j Hj. apply Hs. lia. }
    destruct (decide (first c = 0)) as [E0|E0].
    + apply a_ret, a_set_storage. cbn. split; [|done]. split; cbn; [done|exact Hv|done|apply R|apply R| |split; lia].
      intros b' k Hk. destruct (r_only _ _ _ R _ _ Hk) as [?|[?|?]]; [by left|left; congruence|by right].
    + destruct (r_old _ _ _ R) as (k & Hk & _). eapply a_deallocate; [exact Hk|intros i; apply Hr; lia|]. apply a_set_storage. cbn. split; [split; cbn|split; [done|by destruct (decide _)]].
      * done.
      * exact Hv.
      * done.
      * destruct (decide (0 = first c)); [lia|]. apply R.
      * destruct (decide (b = first c)); [done|]. apply R.
      * intros b' k' Hk'. destruct (decide (b' = first c)); [done|]. destruct (r_only _ _ _ R _ _ Hk') as [?|[?|?]]; [by left|done|by right].
      * lia.
Qed.
(** An exception while the new block was filled: it is released, and the vector has the elements left in the old one. *)
Lemma a_abandon c l n g l2 : holds c l -> length l2 = length l -> vals (g (first c)) 0 l2 -> (forall b j, ~ (b = first c /\ j < length l) -> g b j = Raw) ->
  always (deallocate (nxt c)) (fun _ c' => holds c' l2) (fun _ => False) (with_cells (allocated c n) g).
Proof.
  intros H Hl Hv Hr. destruct (h_new _ _ _ H) as [N0 Nf]. eapply a_deallocate.
  - cbn. by destruct (decide (nxt c = nxt c)).
  - intros i. cbn. apply Hr. lia.
  - split; cbn.
    + rewrite Hl. apply H.
    + exact Hv.
    + intros b j Hj. apply Hr. by rewrite <- Hl.
    + destruct (decide (0 = nxt c)); [lia|]. apply H.
    + destruct (decide (first c = nxt c)); [lia|]. rewrite Hl. apply H.
    + intros b k Hk. destruct (decide (b = nxt c)); [done|]. by apply (h_only _ _ _ H b k).
    + lia.
Qed.
Lemma allocated_within c n g j : j < n -> within (with_cells (allocated c n) g) (nxt c) j.
Proof. intros Hj. exists n. cbn. by destruct (decide (nxt c = nxt c)). Qed.
Lemma allocated_old c l n g j : holds c l -> j < length l -> within (with_cells (allocated c n) g) (first c) j.
Proof. intros H Hj. destruct (h_new _ _ _ H). destruct (holds_within c l j H Hj) as (k & Hk & ?). exists k. cbn. by destruct (decide (first c = nxt c)); [lia|]. Qed.
Lemma allocated_refers c l n a x : holds c l -> refers c a x -> refers (allocated c n) a x.
Proof.
  intros H. destruct a as [y|b i]; [done|]. cbn. intros [(k & Hk & Hi) Hx]. split; [|done]. destruct (decide (b = nxt c)) as [-> |]; [|by exists k]. rewrite (holds_fresh _ _ H) in Hk. done.
Qed.
Lemma ready_intro c l n g l' : holds c l -> length l' <= n -> (forall j, j < length l -> live (g (first c) j)) -> vals (g (nxt c)) 0 l' ->
  (forall b j, ~ (b = first c /\ j < length l) -> ~ (b = nxt c /\ j < length l') -> g b j = Raw) -> ready (with_cells (allocated c n) g) (nxt c) l'.
Proof.
  intros H Hn Hl Hv Hr. destruct (h_new _ _ _ H) as [N0 Nf]. split; cbn.
  - lia.
  - destruct (decide (0 = nxt c)); [lia|]. apply H.
  - exists n. by destruct (decide (nxt c = nxt c)).
  - destruct (decide (first c = nxt c)); [lia|]. rewrite (h_size _ _ _ H). apply H.
  - intros b k Hk. destruct (decide (b = nxt c)); [by right; right|]. destruct (h_only _ _ _ H _ _ Hk); [by left|by right; left].
  - rewrite (h_size _ _ _ H). done.
  - done.
  - rewrite (h_size _ _ _ H). done.
Qed.

(** ** The operations *)
(** reserve and shrink_to_fit: all or nothing. *)
Lemma a_reallocate_n c l n : holds c l -> length l <= n ->
  always (reallocate_n nt_move mv n) (fun _ c' => holds c' l /\ cap c' = n) (fun c' => holds c' l) c.
Proof.
  intros H Hn. destruct (h_new _ _ _ H) as [N0 Nf]. apply a_bind, a_get. apply a_bind. apply a_allocate; [|done]. apply a_bind, a_on_exn. rewrite (h_size _ _ _ H).
  apply (a_relocate_strong _ _ _ _ _ _ _ l).
  - done.
  - intros j x Hx. cbn. split; [|by apply (holds_vals _ _ H)]. apply (allocated_old c l n (cells c)); [done|by eapply lookup_lt_Some].
  - intros j Hj. split; [apply (allocated_within c n (cells c)); lia|]. cbn. apply H. lia.
  - intros g Hv Hl Hs _. eapply a_post; [|eapply a_replace; [eapply (ready_intro c l n g l)|done]]; [|done|done|..].
    + intros _ c' (Hc' & Hf & Ha). split; [done|]. unfold cap. rewrite Hf, Ha. cbn. by destruct (decide (nxt c = nxt c)).
    + intros j Hj. apply Hl. lia.
    + intros j x Hx. by apply Hv.
    + intros b j Hj Hj'. rewrite Hs by lia. cbn. apply H. lia.
  - intros _ g Hg. apply (a_abandon c l); [done|done| |].
    + intros j x Hx. rewrite Hg. by apply (holds_vals _ _ H).
    + intros b j Hj. rewrite Hg. by apply H.
Qed.
Theorem C110_reserve c l n : holds c l ->
  always (sv_reserve nt_move mv n) (fun _ c' => holds c' l /\ n <= cap c') (fun c' => holds c' l) c.
Proof.
  intros H. destruct (holds_cap _ _ H) as [_ Hc]. apply a_bind, a_get. destruct (Nat.ltb_spec (cap c) n).
  - eapply a_post; [|apply (a_reallocate_n c l); [done|]]; [|unfold next_capacity; lia]. intros _ c' [H' ->]. split; [done|]. unfold next_capacity. lia.
  - apply a_ret. split; [done|lia].
Qed.
Theorem C110_shrink c l : holds c l -> always (sv_shrink nt_move mv N) (fun _ c' => holds c' l) (fun c' => holds c' l) c.
Proof.
  intros H. apply a_bind, a_get. rewrite (h_size _ _ _ H). destruct (Nat.ltb_spec N (length l)); [|by apply a_ret]. eapply a_post; [|apply (a_reallocate_n c l); [done|lia]]; []. by intros _ c' [H' _].
Qed.

(** push_back: all or nothing, also when the argument is one of the elements. *)
Lemma a_emplace_back_unchecked c l a x : holds c l -> refers c a x -> length l < cap c ->
  always (emplace_back_unchecked a) (fun _ c' => holds c' (l ++ [x])) (fun c' => holds c' l) c.
Proof.
  intros H Ha Hc. destruct (holds_cap _ _ H) as [Hk _]. apply a_bind, a_get. apply a_bind. rewrite (h_size _ _ _ H). apply (a_copy_construct _ x); [done|by exists (cap c)|apply H; lia| |done].
  apply a_put_size. assert (Hl : S (length l) = length (l ++ [x])) by (rewrite app_length; cbn; lia). rewrite Hl. apply (holds_cells c l); [done|lia| |].
  - apply vals_app; [|apply vals_cell, upd_eq]. eapply vals_ext; [by apply holds_vals|]. intros j Hj. apply upd_ne. lia.
  - intros b j Hj. rewrite upd_ne by lia. apply H. lia.
Qed.
Theorem C110_push c l a x : holds c l -> refers c a x ->
  always (sv_push nt_move mv a) (fun _ c' => holds c' (l ++ [x])) (fun c' => holds c' l) c.
Proof.
  intros H Ha. destruct (holds_cap _ _ H) as [Hk Hc]. destruct (h_new _ _ _ H) as [N0 Nf]. apply a_bind, a_get. rewrite (h_size _ _ _ H). destruct (Nat.eqb_spec (length l) (cap c)) as [Ec|Ec]; cbn [negb].
  - apply a_bind. apply a_allocate; [|done]. set (n := next_capacity c 1). assert (Hn : length l < n) by (unfold n, next_capacity; lia). apply a_bind, a_on_exn. apply a_bind.
    apply (a_copy_construct _ x); [by eapply allocated_refers|apply (allocated_within c n (cells c)); lia|cbn; apply H; lia| |].
    + apply a_on_exn. cbn. apply (a_relocate_strong _ _ _ _ _ _ _ l).
      * done.
      * intros j y Hy. assert (j < length l) by (by eapply lookup_lt_Some). split; [by apply (allocated_old c l n)|]. cbn. rewrite upd_ne by lia. by apply (holds_vals _ _ H).
      * intros j Hj. split; [apply (allocated_within c n); lia|]. cbn. rewrite upd_ne by lia. apply H. lia.
      * intros g Hv Hl Hs _. eapply a_post; [|eapply a_replace; [eapply (ready_intro c l n g (l ++ [x]))|]]; [by intros _ c' (? & _)|done| | | | |rewrite app_length; cbn; lia].
        -- rewrite app_length. cbn. lia.
        -- intros j Hj. apply Hl. lia.
        -- apply vals_app; [intros j y Hy; by apply Hv|]. apply vals_cell. rewrite Hs by lia. cbn. apply upd_eq.
        -- intros b j Hj Hj'. rewrite app_length in Hj'. cbn in Hj'. rewrite Hs by lia. cbn. rewrite upd_ne by lia. apply H. lia.
      * intros _ g Hg. eapply a_destroy; [apply (allocated_within c n); lia|cbn; rewrite Hg; apply upd_eq|]. cbn. apply (a_abandon c l); [done|done| |].
        -- eapply vals_ext; [by apply holds_vals|]. intros j Hj. rewrite upd_ne by lia. rewrite Hg. apply upd_ne. lia.
        -- intros b j Hj. destruct (decide (b = nxt c /\ j = length l)) as [[-> ->]|]; [apply upd_eq|]. rewrite upd_ne by done. rewrite Hg. cbn. rewrite upd_ne by done. by apply H.
    + change (allocated c n) with (with_cells (allocated c n) (cells c)). apply (a_abandon c l); [done|done|by apply holds_vals|apply H].
  - apply (a_emplace_back_unchecked _ l); [done|done|lia].
Qed.

(** resize: all or nothing.  An argument that is one of the elements must survive the reallocation. *)
Theorem C110_resize c l n a x : holds c l -> refers c a x -> (exists y, a = Val y) \/ n <= cap c ->
  always (sv_resize nt_move mv n a) (fun _ c' => holds c' (take n l ++ replicate (n - length l) x)) (fun c' => holds c' l) c.
Proof.
  intros H Ha Hor. destruct (holds_cap _ _ H) as [_ Hc]. apply a_bind, a_get. rewrite (h_size _ _ _ H). destruct (Nat.leb_spec n (length l)).
  - apply a_bind. apply a_destroy_range.
    + intros j Hj. split; [apply (holds_within c l); [done|lia]|]. apply (vals_live _ 0 l); [by apply holds_vals|lia].
    + intros g Hg Hs. apply a_put_size. replace (n - length l) with 0 by lia. cbn. rewrite app_nil_r. assert (Hl : n = length (take n l)) by (rewrite take_length; lia). rewrite Hl at 1. apply (holds_cells c l); [done|rewrite take_length; lia| |].
      * eapply vals_ext; [by apply vals_take, holds_vals|]. intros j Hj. rewrite take_length in Hj. apply Hs. lia.
      * intros b j Hj. rewrite take_length in Hj. destruct (decide (b = first c /\ n <= j < n + (length l - n))) as [[-> Hj']|Hj']; [by apply Hg|]. rewrite Hs by done. apply H. lia.
  - apply a_bind. assert (G : always (sv_reserve nt_move mv n) (fun _ c' => holds c' l /\ n <= cap c' /\ refers c' a x) (fun c' => holds c' l) c).
    { destruct Hor as [[y ->]|Hn].
      - eapply a_post; [|by apply (C110_reserve c l)]; []. by intros _ c' [? ?].
      - apply a_bind, a_get. destruct (Nat.ltb_spec (cap c) n); [lia|]. by apply a_ret. }
    eapply a_post; [|apply G]; []. clear Ha Hor Hc H G. intros _ c1 (H1 & Hn & Ha). destruct (holds_cap _ _ H1) as [Hk _]. apply a_bind, a_get. apply a_bind. rewrite (h_size _ _ _ H1).
    set (m := n - length l). apply (a_construct_range _ _ _ (replicate m x)).
    + by apply Forall2_replicate.
    + rewrite replicate_length. intros j Hj. split; [exists (cap c1); split; [done|lia]|]. apply H1. lia.
    + rewrite replicate_length. intros g Hv Hs. apply a_put_size. rewrite take_ge by lia. assert (Hl : n = length (l ++ replicate m x)) by (rewrite app_length, replicate_length; lia). rewrite Hl. apply (holds_cells c1 l); [done|lia| |].
      * apply vals_app; [|exact Hv]. eapply vals_ext; [by apply holds_vals|]. intros j Hj. apply Hs. lia.
      * intros b j Hj. rewrite <- Hl in Hj. rewrite Hs by lia. apply H1. lia.
    + intros g Hg. by apply holds_same.
Qed.

(** clear and the destructor do not throw. *)
Theorem C110_clear c l : holds c l -> always sv_clear (fun _ c' => holds c' []) (fun _ => False) c.
Proof.
  intros H. apply a_bind, a_get, a_bind, a_destroy_range.
  - intros j Hj. rewrite (h_size _ _ _ H) in Hj. split; [apply (holds_within c l); [done|lia]|]. apply (vals_live _ 0 l); [by apply holds_vals|lia].
  - rewrite (h_size _ _ _ H). intros g Hg Hs. apply a_put_size. apply (holds_cells c l g []); [done|cbn; lia| |].
    + intros j x Hx. by rewrite lookup_nil in Hx.
    + intros b j _. destruct (decide (b = first c /\ j < length l)) as [[-> Hj]|Hj]; [apply Hg; lia|]. rewrite Hs by lia. by apply H.
Qed.
Theorem C110_destroy c l : holds c l -> always sv_destroy (fun _ c' => gone c') (fun _ => False) c.
Proof.
  intros H. apply a_bind, a_get, a_bind, a_destroy_range.
  - intros j Hj. rewrite (h_size _ _ _ H) in Hj. split; [apply (holds_within c l); [done|lia]|]. apply (vals_live _ 0 l); [by apply holds_vals|lia].
  - rewrite (h_size _ _ _ H). intros g Hg Hs. assert (Hr : forall b j, g b j = Raw).
    { intros b j. destruct (decide (b = first c /\ j < length l)) as [[-> Hj]|Hj]; [apply Hg; lia|]. rewrite Hs by lia. by apply H. }
    apply a_bind, a_get. cbn. destruct (decide (first c = 0)) as [E0|E0].
    + apply a_ret. split; [done|]. cbn. intros b k Hk. destruct (h_only _ _ _ H _ _ Hk); congruence.
    + destruct (holds_cap _ _ H) as [Hk _]. eapply a_deallocate; [exact Hk|done|]. split; [done|]. cbn. intros b k Hb. destruct (decide (b = first c)); [done|]. by destruct (h_only _ _ _ H _ _ Hb).
Qed.

(** assign. *)
Lemma refers_vals (c : core) xs : Forall2 (refers c) (Val <$> xs) xs.
Proof. induction xs; constructor; done. Qed.
Lemma vals_args (xs : list T) : Forall2 (fun a x => a = Val x) (Val <$> xs) xs.
Proof. induction xs; constructor; done. Qed.
Theorem C110_assign c l xs : holds c l ->
  always (sv_assign (Val <$> xs)) (fun _ c' => holds c' xs) (fun c' => exists l', holds c' l' /\ length l' = length l /\ (cap c < length xs -> l' = l)) c.
Proof.
  intros H. destruct (holds_cap _ _ H) as [Hk Hc]. destruct (h_new _ _ _ H) as [N0 Nf]. apply a_bind, a_get. cbv zeta. rewrite (h_size _ _ _ H), fmap_length. set (com := Nat.min (length l) (length xs)).
  destruct (Nat.leb_spec (length xs) (cap c)).
  - apply a_bind. rewrite <- fmap_take. apply (a_assign_range _ _ _ _ (take com xs)); [apply vals_args| | |].
    + rewrite take_length. intros j Hj. split; [apply (holds_within c l); [done|lia]|]. apply (vals_live _ 0 l); [by apply holds_vals|lia].
    + rewrite take_length. intros g Hv Hs. apply a_bind. rewrite <- fmap_drop. apply (a_construct_range _ _ _ (drop com xs)); [apply refers_vals| | |].
      * rewrite drop_length. intros j Hj. split; [exists (cap c); split; [done|lia]|]. cbn. rewrite Hs by lia. apply H. lia.
      * rewrite drop_length. intros g2 Hv2 Hs2. apply a_bind. apply a_destroy_range.
        -- intros j Hj. split; [apply (holds_within c l); [done|lia]|]. cbn. rewrite Hs2 by lia. cbn. rewrite Hs by lia. apply (vals_live _ 0 l); [by apply holds_vals|lia].
        -- intros g3 Hr3 Hs3. apply a_put_size. apply (holds_cells c l g3 xs); [done|done| |].
           ++ rewrite <- (take_drop com xs). apply vals_app.
              ** intros j x Hx. assert (j < com) by (apply lookup_take_Some in Hx; lia). rewrite Hs3 by lia. cbn. rewrite Hs2 by lia. cbn. by apply Hv.
              ** rewrite take_length. intros j x Hx. assert (j < length (drop com xs)) by (by eapply lookup_lt_Some). rewrite drop_length in *. replace (0 + com `min` length xs + j) with (com + j) by lia. rewrite Hs3 by lia. by apply Hv2.
           ++ intros b j Hj. destruct (decide (b = first c /\ com <= j < com + (length l - com))) as [[-> Hj']|Hj']; [by apply Hr3|]. rewrite Hs3 by done. cbn. rewrite Hs2 by lia. cbn. rewrite Hs by lia. apply H. lia.
      * intros g2 Hg2. set (l2 := take com xs ++ drop com l). exists l2. assert (Hl2 : length l2 = length l) by (unfold l2; rewrite app_length, take_length, drop_length; lia). split_and!; [|done|lia].
        cbn. rewrite <- (with_size_same (with_cells _ g2) (length l2)) by (rewrite Hl2; apply H). apply (holds_cells c l); [done|lia| |].
        -- apply vals_app.
           ++ intros j x Hx. rewrite Hg2. cbn. by apply Hv.
           ++ rewrite take_length. replace (0 + com `min` length xs) with (0 + com) by lia. eapply vals_ext; [by apply vals_drop, holds_vals|]. rewrite drop_length. intros j Hj. rewrite Hg2. cbn. apply Hs. lia.
        -- intros b j Hj. rewrite Hg2. cbn. rewrite Hs by lia. apply H. lia.
    + rewrite take_length. intros g Hl Hs. destruct (live_values (g (first c)) (length l)) as (l2 & Hl2 & Hv2).
      { intros j Hj. destruct (decide (j < com)); [apply Hl; lia|]. rewrite Hs by lia. apply (vals_live _ 0 l); [by apply holds_vals|lia]. }
      exists l2. split_and!; [|done|lia]. rewrite <- (with_size_same (with_cells c g) (length l2)) by (rewrite Hl2; apply H). apply (holds_cells c l); [done|lia|exact Hv2|]. intros b j Hj. rewrite Hs by lia. apply H. lia.
  - apply a_bind. apply a_allocate; [|exists l; done]. set (n := next_capacity c _). assert (Hn : length xs <= n) by (unfold n, next_capacity; lia). apply a_bind, a_on_exn.
    apply (a_construct_range _ _ _ xs); [apply refers_vals| | |].
    + intros j Hj. split; [apply (allocated_within c n (cells c)); lia|]. cbn. apply H. lia.
    + intros g Hv Hs. eapply a_post; [|eapply a_replace; [eapply (ready_intro c l n g xs)|done]]; [by intros _ c' (? & _)|done|done| |exact Hv|].
      * intros j Hj. rewrite Hs by lia. cbn. apply (vals_live _ 0 l); [by apply holds_vals|lia].
      * intros b j Hj Hj'. rewrite Hs by lia. cbn. by apply H.
    + intros g Hg. eapply a_post; [|apply (a_abandon c l n g l)]; [|done|done| |].
      * intros ? c' Hc'. by exists l.
      * intros j x Hx. rewrite Hg. by apply (holds_vals _ _ H).
      * intros b j Hj. rewrite Hg. by apply H.
Qed.
(** erase. *)
Theorem C110_erase c l i j : holds c l -> i <= j <= length l ->
  always (sv_erase mv i j) (fun _ c' => holds c' (take i l ++ drop j l)) (fun c' => exists l', holds c' l' /\ length l' = length l) c.
Proof.
  intros H Hij. destruct (holds_cap _ _ H) as [Hk Hc]. apply a_bind, a_get. rewrite (h_size _ _ _ H). destruct (Nat.leb_spec i j); [|lia]. destruct (Nat.leb_spec j (length l)); [|lia]. cbn [andb]. apply a_bind.
  assert (G : forall g, vals (g (first c)) 0 (take i l ++ drop j l) -> (forall m, m < length l -> live (g (first c) m)) -> (forall b m, ~ (b = first c /\ m < length l) -> g b m = Raw) ->
    always (bind (destroy_range (first c) (length l - (j - i)) (j - i)) (fun _ => put_size (length l - (j - i)))) (fun _ c' => holds c' (take i l ++ drop j l)) (fun c' => exists l', holds c' l' /\ length l' = length l) (with_cells c g)).
  { intros g Hv Hl Hr. apply a_bind, a_destroy_range.
    - intros m Hm. split; [apply (holds_within c l); [done|lia]|]. apply Hl. lia.
    - intros g2 Hg2 Hs2. apply a_put_size. assert (El : length l - (j - i) = length (take i l ++ drop j l)) by (rewrite app_length, take_length, drop_length; lia). rewrite El. apply (holds_cells c l); [done|lia| |].
      + eapply vals_ext; [exact Hv|]. intros m Hm. apply Hs2. lia.
      + intros b m Hm. destruct (decide (b = first c /\ length l - (j - i) <= m < length l - (j - i) + (j - i))) as [[-> Hm']|Hm']; [by apply Hg2|]. rewrite Hs2 by done. apply Hr. lia. }
  destruct (Nat.eqb_spec (j - i) 0) as [E0|E0].
  - apply a_ret. assert (j = i) as -> by lia. specialize (G (cells c)). destruct c. apply G; [|intros; apply (vals_live _ 0 l); [by apply holds_vals|lia]|apply H]. rewrite take_drop. by apply holds_vals.
  - replace (shift_left mv (first c) i j (length l - j)) with (shift_left mv (first c) i (i + (j - i)) (length l - j)) by (do 2 f_equal; lia).
    apply (a_shift_left mv (first c) (j - i) _ _ ltac:(lia) _ (drop j l)); [by rewrite drop_length| | | |].
    + intros m x Hx. rewrite lookup_drop in Hx. replace (i + (j - i) + m) with (j + m) by lia. by apply (holds_vals _ _ H).
    + intros m Hm. split; [apply (holds_within c l); [done|lia]|]. apply (vals_live _ 0 l); [by apply holds_vals|lia].
    + intros g Hv Hl Hs. apply G.
      * apply vals_app; [|rewrite take_length; replace (0 + i `min` length l) with i by lia; exact Hv]. eapply vals_ext; [by apply vals_take, holds_vals|]. rewrite take_length. intros m Hm. apply Hs. lia.
      * intros m Hm. destruct (decide (i <= m)); [apply Hl; lia|]. rewrite Hs by lia. apply (vals_live _ 0 l); [by apply holds_vals|lia].
      * intros b m Hm. rewrite Hs by lia. by apply H.
    + intros g Hl Hs. destruct (live_values (g (first c)) (length l)) as (l2 & Hl2 & Hv2).
      { intros m Hm. destruct (decide (i <= m)); [apply Hl; lia|]. rewrite Hs by lia. apply (vals_live _ 0 l); [by apply holds_vals|lia]. }
      exists l2. split; [|done]. rewrite <- (with_size_same (with_cells c g) (length l2)) by (rewrite Hl2; apply H). apply (holds_cells c l); [done|lia|exact Hv2|]. intros b m Hm. rewrite Hs by lia. apply H. lia.
Qed.

(** emplace (and insert of one value): the argument may be one of the elements. *)
Lemma a_abandon_live c l n g : holds c l -> (forall j, j < length l -> live (g (first c) j)) -> (forall b j, ~ (b = first c /\ j < length l) -> g b j = Raw) ->
  always (deallocate (nxt c)) (fun _ c' => exists l', holds c' l' /\ length l' = length l) (fun _ => False) (with_cells (allocated c n) g).
Proof.
  intros H Hl Hr. destruct (live_values (g (first c)) (length l)) as (l2 & Hl2 & Hv2); [done|]. eapply a_post; [|apply (a_abandon c l n g l2); [done|done|exact Hv2|done]]. intros ? c' Hc'. by exists l2.
Qed.
Lemma holds_live c l g m : holds c l -> m <= cap c -> (forall j, j < m -> live (g (first c) j)) -> (forall b j, ~ (b = first c /\ j < m) -> g b j = Raw) ->
  exists l', holds (with_size (with_cells c g) m) l' /\ length l' = m.
Proof.
  intros H Hm Hl Hr. destruct (live_values (g (first c)) m) as (l2 & <- & Hv2); [done|]. exists l2. split; [|done]. by apply (holds_cells c l).
Qed.
Theorem C110_emplace c l pos a x : holds c l -> refers c a x -> pos <= length l ->
  always (sv_emplace nt_move mv pos a) (fun _ c' => holds c' (take pos l ++ x :: drop pos l))
    (fun c' => exists l', holds c' l' /\ length l <= length l' <= S (length l) /\ (pos = length l \/ length l = cap c -> l' = l)) c.
Proof.
  intros H Ha Hp. destruct (holds_cap _ _ H) as [Hk Hc]. destruct (h_new _ _ _ H) as [N0 Nf]. apply a_bind, a_get. rewrite (h_size _ _ _ H). destruct (Nat.leb_spec pos (length l)); [|lia]. cbv zeta.
  assert (El : length (take pos l ++ x :: drop pos l) = S (length l)) by (rewrite app_length, take_length; cbn; rewrite drop_length; lia).
  destruct (Nat.eqb_spec (length l) (cap c)) as [Ec|Ec]; cbn [negb].
  - apply a_bind. apply a_allocate; [|exists l; split_and!; [done|lia|lia|done]]. set (n := next_capacity c 1). assert (Hn : length l < n) by (unfold n, next_capacity; lia). apply a_bind, a_on_exn. apply a_bind.
    apply (a_copy_construct _ x); [by eapply allocated_refers|apply (allocated_within c n (cells c)); lia|cbn; apply H; lia| |].
    + apply a_on_exn. cbn. apply a_bind. apply (a_relocate_strong _ _ _ _ _ _ _ (take pos l)); [rewrite take_length; lia| | | |].
      * intros j y Hy. apply lookup_take_Some in Hy as [Hy Hj]. assert (j < length l) by (by eapply lookup_lt_Some). split; [by apply (allocated_old c l n)|]. cbn. rewrite upd_ne by lia. by apply (holds_vals _ _ H).
      * intros j Hj. split; [apply (allocated_within c n); lia|]. cbn. rewrite upd_ne by lia. apply H. lia.
      * intros g Hv Hl Hs Hf. cbn in Hs. apply a_on_exn. apply (a_relocate_strong _ _ _ _ _ _ _ (drop pos l)); [rewrite drop_length; lia| | | |].
        -- intros j y Hy. assert (j < length (drop pos l)) by (by eapply lookup_lt_Some). rewrite drop_length in *. split; [apply (allocated_old c l n); [done|lia]|]. cbn. rewrite Hs by lia. rewrite upd_ne by lia. rewrite lookup_drop in Hy. by apply (holds_vals _ _ H).
        -- intros j Hj. split; [apply (allocated_within c n); lia|]. cbn. rewrite Hs by lia. rewrite upd_ne by lia. apply H. lia.
        -- intros g2 Hv2 Hl2 Hs2 _. cbn in Hs2. eapply a_post; [|eapply a_replace; [eapply (ready_intro c l n g2 (take pos l ++ x :: drop pos l))|done]]; [by intros _ c' (? & _)|done|lia| | |].
           ++ intros j Hj. destruct (decide (pos <= j)); [apply Hl2; lia|]. rewrite Hs2 by lia. apply Hl. lia.
           ++ apply vals_app.
              ** intros j y Hy. assert (j < pos) by (apply lookup_take_Some in Hy; lia). rewrite Hs2 by lia. by apply Hv.
              ** rewrite take_length. replace (0 + pos `min` length l) with pos by lia. change (x :: drop pos l) with ([x] ++ drop pos l). apply vals_app; [|intros j y Hy; by apply Hv2]. apply vals_cell. rewrite Hs2 by lia. rewrite Hs by lia. apply upd_eq.
           ++ intros b j Hj Hj'. rewrite El in Hj'. rewrite Hs2 by lia. rewrite Hs by lia. rewrite upd_ne by lia. by apply H.
        -- intros Hnt g2 Hg2. cbn in Hg2. apply a_destroy_range.
           ++ intros j Hj. split; [apply (allocated_within c n); lia|]. cbn. rewrite Hg2. apply (vals_live _ 0 (take pos l)); [exact Hv|rewrite take_length; lia].
           ++ intros g3 Hr3 Hs3. cbn in Hs3. eapply a_destroy; [apply (allocated_within c n); lia|cbn; rewrite Hs3, Hg2, Hs by lia; apply upd_eq|]. cbn. eapply a_post; [|apply (a_abandon c l n _ l)]; [|done|done| |].
              ** intros ? c' Hc'. exists l. split_and!; [done|lia|lia|done].
              ** rewrite <- (take_drop pos l). apply vals_app.
                 --- intros j y Hy. rewrite upd_ne by lia. rewrite Hs3, Hg2 by lia. by apply Hf.
                 --- rewrite take_length. replace (0 + pos `min` length l) with (0 + pos) by lia. eapply vals_ext; [by apply vals_drop, holds_vals|]. rewrite drop_length. intros j Hj. rewrite upd_ne by lia. rewrite Hs3, Hg2, Hs by lia. apply upd_ne. lia.
              ** intros b j Hj. destruct (decide (b = nxt c /\ j = pos)) as [[-> ->]|]; [apply upd_eq|]. rewrite upd_ne by done. destruct (decide (b = nxt c /\ j < pos)) as [[-> ?]|]; [apply Hr3; lia|]. rewrite Hs3, Hg2, Hs by lia. rewrite upd_ne by lia. by apply H.
      * intros _ g Hg. cbn in Hg. eapply a_destroy; [apply (allocated_within c n); lia|cbn; rewrite Hg; apply upd_eq|]. cbn. eapply a_post; [|apply (a_abandon c l n _ l)]; [|done|done| |].
        -- intros ? c' Hc'. exists l. split_and!; [done|lia|lia|done].
        -- eapply vals_ext; [by apply holds_vals|]. intros j Hj. rewrite upd_ne by lia. rewrite Hg. apply upd_ne. lia.
        -- intros b j Hj. destruct (decide (b = nxt c /\ j = pos)) as [[-> ->]|]; [apply upd_eq|]. rewrite upd_ne by done. rewrite Hg. rewrite upd_ne by done. by apply H.
    + change (allocated c n) with (with_cells (allocated c n) (cells c)). eapply a_post; [|apply (a_abandon c l n _ l); [done|done|by apply holds_vals|apply H]]. intros ? c' Hc'. exists l. split_and!; [done|lia|lia|done].
  - destruct (Nat.eqb_spec pos (length l)) as [Ep|Ep].
    + subst pos. rewrite firstn_all, drop_all. eapply a_mono; [| |apply (a_emplace_back_unchecked c l a x); [done|done|lia]]; [done|]. intros c' Hc'. exists l. split_and!; [done|lia|lia|done].
    + apply a_bind. eapply a_read_arg; [done|]. apply a_bind, a_roll. intros [t|]; [apply a_raise; exists l; split_and!; [done|lia|lia|done]|].
      set (n := length l) in *. destruct (lookup_lt_is_Some_2 l (n - 1)) as [y Hy]; [lia|].
      assert (Ey : drop pos l = take (n - pos - 1) (drop pos l) ++ [y]).
      { rewrite <- (take_drop (n - pos - 1) (drop pos l)) at 1. f_equal. rewrite drop_drop. replace (pos + (n - pos - 1)) with (n - 1) by lia. rewrite (drop_S _ _ _ Hy). f_equal. apply drop_ge. lia. }
      set (xs := take (n - pos - 1) (drop pos l)) in *. assert (Hxs : length xs = n - pos - 1) by (unfold xs; rewrite take_length, drop_length; lia).
      apply a_bind. apply (a_move_construct _ _ _ _ _ _ y).
      * apply (holds_within c l); [done|lia].
      * by apply (holds_vals _ _ H).
      * exists (cap c). split; [done|lia].
      * apply H. lia.
      * apply a_bind, a_put_size. apply a_bind. cbn. apply (a_shift_right _ _ _ _ _ _ xs); [done| | | |].
        -- intros j z Hz. assert (j < n - pos - 1) by (rewrite <- Hxs; by eapply lookup_lt_Some). cbn. rewrite !upd_ne by lia. apply (holds_vals _ _ H). unfold xs in Hz. apply lookup_take_Some in Hz as [Hz _]. by rewrite lookup_drop in Hz.
        -- intros j Hj. split; [exists (cap c); cbn; split; [done|lia]|]. cbn. rewrite upd_ne by lia. destruct (decide (j = n - 1)) as [-> |]; [rewrite upd_eq; by eexists|]. rewrite upd_ne by lia. apply (vals_live _ 0 l); [by apply holds_vals|lia].
        -- intros g Hv [w Hw] Hs. cbn in Hs. apply a_bind, a_roll. assert (Hall : forall v, vals (upd g (first c) pos (Live v) (first c)) 0 (take pos l ++ v :: drop pos l)).
           { intros v. apply vals_app.
             - eapply vals_ext; [by apply vals_take, holds_vals|]. rewrite take_length. intros j Hj. rewrite upd_ne by lia. rewrite Hs by lia. rewrite !upd_ne by lia. done.
             - rewrite take_length. replace (0 + pos `min` length l) with pos by lia. change (v :: drop pos l) with ([v] ++ drop pos l). apply vals_app; [apply vals_cell, upd_eq|]. rewrite Ey. apply vals_app.
               + intros j z Hz. cbn [length]. rewrite upd_ne by lia. replace (pos + 1 + j) with (pos + S j) by lia. by apply Hv.
               + cbn [length]. apply vals_cell. rewrite Hxs. replace (pos + 1 + (n - pos - 1)) with n by lia. rewrite upd_ne by lia. rewrite Hs by lia. apply upd_eq. }
           assert (Hh : forall v, holds (with_size (with_cells c (upd g (first c) pos (Live v))) (S n)) (take pos l ++ v :: drop pos l)).
           { intros v. assert (El' : length (take pos l ++ v :: drop pos l) = S n) by (rewrite app_length, take_length; cbn; rewrite drop_length; lia). rewrite <- El' at 1. apply (holds_cells c l); [done|rewrite El'; lia|apply Hall|]. rewrite El'. intros b j Hj. rewrite upd_ne by lia. rewrite Hs by lia. rewrite !upd_ne by lia. apply H. lia. }
           intros [[u z]|].
           ++ apply a_bind. eapply a_set; [exists (cap c); cbn; split; [done|lia]|done|]. apply a_raise. exists (take pos l ++ z :: drop pos l). split; [apply Hh|]. rewrite app_length, take_length. cbn. rewrite drop_length. split; lia.
           ++ eapply a_set; [exists (cap c); cbn; split; [done|lia]|done|]. apply Hh.
        -- intros g Hl Hs. cbn in Hs. destruct (holds_live c l g (S n)) as (l' & Hl' & Hn'); [done|lia| | |].
           ++ intros j Hj. destruct (decide (pos <= j < n)); [apply Hl; lia|]. rewrite Hs by lia. destruct (decide (j = n)) as [-> |]; [rewrite upd_eq; by eexists|]. rewrite !upd_ne by lia. apply (vals_live _ 0 l); [by apply holds_vals|lia].
           ++ intros b j Hj. rewrite Hs by lia. rewrite !upd_ne by lia. apply H. lia.
           ++ exists l'. split; [exact Hl'|]. split; lia.
      * intros _ v. destruct (holds_live c l (upd (cells c) (first c) (n - 1) (Live v)) n) as (l' & Hl' & Hn'); [done|lia| | |].
        -- intros j Hj. destruct (decide (j = n - 1)) as [-> |]; [rewrite upd_eq; by eexists|]. rewrite !upd_ne by lia. apply (vals_live _ 0 l); [by apply holds_vals|lia].
        -- intros b j Hj. rewrite upd_ne by lia. by apply H.
        -- exists l'. rewrite with_size_same in Hl' by apply H. split; [exact Hl'|]. split; lia.
Qed.

(** insert of a count or a range of other objects.  With spare capacity the place is wrong when the tail is longer than the inserted
    part (see C08); exceptions are handled correctly. *)
Definition insert_place c l (pos src : nat) : nat := if Nat.leb src (cap c - length l) then Nat.max (length l - src) pos else pos.
Theorem C110_insert c l pos xs : holds c l -> pos <= length l ->
  always (sv_insert nt_move mv pos (Val <$> xs))
    (fun _ c' => holds c' (take (insert_place c l pos (length xs)) l ++ xs ++ drop (insert_place c l pos (length xs)) l))
    (fun c' => exists l', holds c' l' /\ length l <= length l' <= length l + length xs) c.
Proof.
  intros H Hp. destruct (holds_cap _ _ H) as [Hk Hc]. destruct (h_new _ _ _ H) as [N0 Nf]. apply a_bind, a_get. rewrite (h_size _ _ _ H). destruct (Nat.leb_spec pos (length l)); [|lia]. cbv zeta. rewrite fmap_length. unfold insert_place.
  destruct (Nat.leb_spec (length xs) (cap c - length l)) as [Hle|Hgt].
  - set (mid := Nat.max (length l - length xs) pos). set (mvd := length l - mid). assert (Hmid : mid <= length l) by lia. assert (Hmvd : mvd <= length xs) by lia.
    assert (El : length (take mid l ++ xs ++ drop mid l) = length l + length xs) by (rewrite !app_length, take_length, drop_length; lia).
    apply a_bind. rewrite <- fmap_drop. apply (a_construct_range _ _ _ (drop mvd xs)); [apply refers_vals| | |].
    + rewrite drop_length. intros j Hj. split; [exists (cap c); split; [done|lia]|]. apply H. lia.
    + rewrite drop_length. intros g Hv Hs. apply a_bind, a_put_size. apply a_bind. apply (a_relocate_weak _ _ _ _ _ _ _ (drop mid l)); [rewrite drop_length; lia| | | |].
      * intros j x Hx. assert (j < length (drop mid l)) by (by eapply lookup_lt_Some). rewrite drop_length in *. rewrite lookup_drop in Hx. split; [exists (cap c); cbn; split; [done|lia]|]. cbn. rewrite Hs by lia. by apply (holds_vals _ _ H).
      * intros j Hj. split; [exists (cap c); cbn; split; [done|lia]|]. cbn. rewrite Hs by lia. apply H. lia.
      * intros g2 Hv2 Hl2 Hs2. cbn in Hs2. apply a_bind, a_put_size. rewrite <- fmap_take. apply (a_assign_range _ _ _ _ (take mvd xs)); [apply vals_args| | |].
        -- rewrite take_length. intros j Hj. split; [exists (cap c); cbn; split; [done|lia]|]. cbn. apply Hl2. lia.
        -- rewrite take_length. intros g3 Hv3 Hs3. cbn in Hs3. cbn. rewrite <- El. apply (holds_cells c l g3); [done|lia| |].
           ++ rewrite <- (take_drop mvd xs) at 1. rewrite <- (app_assoc (take mvd xs)). apply vals_app; [|rewrite take_length; apply vals_app; [|rewrite take_length; apply vals_app]].
              ** eapply vals_ext; [by apply vals_take, holds_vals|]. rewrite take_length. intros j Hj. rewrite Hs3, Hs2, Hs by lia. done.
              ** replace (0 + mid `min` length l) with mid by lia. intros j x Hx. by apply Hv3.
              ** replace (0 + mid `min` length l + mvd `min` length xs) with (length l) by lia. intros j x Hx. assert (j < length (drop mvd xs)) by (by eapply lookup_lt_Some). rewrite drop_length in *. rewrite Hs3, Hs2 by lia. by apply Hv.
              ** rewrite drop_length. replace (0 + mid `min` length l + mvd `min` length xs + (length xs - mvd)) with (mid + length xs) by lia. intros j x Hx. rewrite Hs3 by lia. by apply Hv2.
           ++ rewrite El. intros b j Hj. rewrite Hs3, Hs2, Hs by lia. apply H. lia.
        -- rewrite take_length. intros g3 Hl3 Hs3. cbn in Hs3. destruct (holds_live c l g3 (length l + length xs)) as (l' & Hl' & Hn'); [done|lia| | |exists l'; split; [exact Hl'|lia]].
           ++ intros j Hj. destruct (decide (mid <= j < mid + mvd `min` length xs)); [by apply Hl3|]. rewrite Hs3 by lia. destruct (decide (mid + length xs <= j)).
              ** apply (vals_live _ (mid + length xs) (drop mid l)); [exact Hv2|rewrite drop_length; lia].
              ** rewrite Hs2 by lia. destruct (decide (length l <= j)); [apply (vals_live _ (length l) (drop mvd xs)); [exact Hv|rewrite drop_length; lia]|]. rewrite Hs by lia. apply (vals_live _ 0 l); [by apply holds_vals|lia].
           ++ intros b j Hj. rewrite Hs3, Hs2, Hs by lia. apply H. lia.
      * intros _ g2 Hl2 Hs2. cbn in Hs2. destruct (holds_live c l g2 (mid + length xs)) as (l' & Hl' & Hn'); [done|lia| | |exists l'; split; [exact Hl'|lia]].
        -- intros j Hj. destruct (decide (mid <= j < mid + mvd)); [by apply Hl2|]. rewrite Hs2 by lia. destruct (decide (length l <= j)); [apply (vals_live _ (length l) (drop mvd xs)); [exact Hv|rewrite drop_length; lia]|]. rewrite Hs by lia. apply (vals_live _ 0 l); [by apply holds_vals|lia].
        -- intros b j Hj. rewrite Hs2, Hs by lia. apply H. lia.
    + intros g Hg. exists l. split; [by apply holds_same|lia].
  - apply a_bind. apply a_allocate; [|exists l; split; [done|lia]]. set (n := next_capacity c _). assert (Hn : length l + length xs <= n) by (unfold n, next_capacity; lia). apply a_bind, a_on_exn. apply a_bind.
    assert (El : length (take pos l ++ xs ++ drop pos l) = length l + length xs) by (rewrite !app_length, take_length, drop_length; lia).
    assert (Hab : forall g, (forall j, j < length l -> live (g (first c) j)) -> (forall b j, ~ (b = first c /\ j < length l) -> g b j = Raw) ->
      always (deallocate (nxt c)) (fun _ c' => exists l', holds c' l' /\ length l <= length l' <= length l + length xs) (fun _ => False) (with_cells (allocated c n) g)).
    { intros g Hl Hr. eapply a_post; [|by apply (a_abandon_live c l n g)]. intros ? c' (l' & Hc' & Hl'). exists l'. split; [done|lia]. }
    apply (a_relocate_weak _ _ _ _ _ _ _ (take pos l)); [rewrite take_length; lia| | | |].
    + intros j y Hy. apply lookup_take_Some in Hy as [Hy Hj]. assert (j < length l) by (by eapply lookup_lt_Some). split; [by apply (allocated_old c l n (cells c))|]. by apply (holds_vals _ _ H).
    + intros j Hj. split; [apply (allocated_within c n (cells c)); lia|]. cbn. apply H. lia.
    + intros g Hv Hl Hs. cbn in Hs. apply a_on_exn. apply a_bind. apply (a_construct_range _ _ _ xs); [apply refers_vals| | |].
      * intros j Hj. split; [apply (allocated_within c n); lia|]. cbn. rewrite Hs by lia. apply H. lia.
      * intros g2 Hv2 Hs2. cbn in Hs2. apply a_on_exn. apply (a_relocate_weak _ _ _ _ _ _ _ (drop pos l)); [rewrite drop_length; lia| | | |].
        -- intros j y Hy. assert (j < length (drop pos l)) by (by eapply lookup_lt_Some). rewrite drop_length in *. rewrite lookup_drop in Hy. split; [apply (allocated_old c l n); [done|lia]|]. cbn. rewrite Hs2, Hs by lia. by apply (holds_vals _ _ H).
        -- intros j Hj. split; [apply (allocated_within c n); lia|]. cbn. rewrite Hs2, Hs by lia. apply H. lia.
        -- intros g3 Hv3 Hl3 Hs3. cbn in Hs3. eapply a_post; [|eapply a_replace; [eapply (ready_intro c l n g3 (take pos l ++ xs ++ drop pos l))|by rewrite El]]; [by intros _ c' (? & _)|done|lia| | |].
           ++ intros j Hj. destruct (decide (pos <= j)); [apply Hl3; lia|]. rewrite Hs3, Hs2 by lia. apply Hl. lia.
           ++ apply vals_app; [|rewrite take_length; apply vals_app].
              ** intros j y Hy. assert (j < pos) by (apply lookup_take_Some in Hy; lia). rewrite Hs3, Hs2 by lia. by apply Hv.
              ** replace (0 + pos `min` length l) with pos by lia. intros j y Hy. assert (j < length xs) by (by eapply lookup_lt_Some). rewrite Hs3 by lia. by apply Hv2.
              ** replace (0 + pos `min` length l + length xs) with (pos + length xs) by lia. intros j y Hy. by apply Hv3.
           ++ rewrite El. intros b j Hj Hj'. rewrite Hs3, Hs2, Hs by lia. by apply H.
        -- intros _ g3 Hl3 Hs3. cbn in Hs3. apply a_destroy_range.
           ++ intros j Hj. split; [apply (allocated_within c n); lia|]. cbn. rewrite Hs3 by lia. by apply (vals_live _ pos xs).
           ++ intros g4 Hr4 Hs4. cbn in Hs4. apply a_destroy_range.
              ** intros j Hj. split; [apply (allocated_within c n); lia|]. cbn. rewrite Hs4, Hs3, Hs2 by lia. apply (vals_live _ 0 (take pos l)); [exact Hv|rewrite take_length; lia].
              ** intros g5 Hr5 Hs5. cbn in Hs5. apply Hab.
                 --- intros j Hj. rewrite Hs5, Hs4 by lia. destruct (decide (pos <= j)); [apply Hl3; lia|]. rewrite Hs3, Hs2 by lia. apply Hl. lia.
                 --- intros b j Hj. destruct (decide (b = nxt c /\ 0 <= j < 0 + pos)) as [[-> ?]|]; [by apply Hr5|]. rewrite Hs5 by done. destruct (decide (b = nxt c /\ pos <= j < pos + length xs)) as [[-> ?]|]; [by apply Hr4|]. rewrite Hs4, Hs3, Hs2, Hs by lia. by apply H.
      * intros g2 Hg2. cbn in Hg2. apply a_destroy_range.
        -- intros j Hj. split; [apply (allocated_within c n); lia|]. cbn. rewrite Hg2. apply (vals_live _ 0 (take pos l)); [exact Hv|rewrite take_length; lia].
        -- intros g3 Hr3 Hs3. cbn in Hs3. apply Hab.
           ++ intros j Hj. rewrite Hs3, Hg2 by lia. destruct (decide (j < pos)); [apply Hl; lia|]. rewrite Hs by lia. apply (vals_live _ 0 l); [by apply holds_vals|lia].
           ++ intros b j Hj. destruct (decide (b = nxt c /\ 0 <= j < 0 + pos)) as [[-> ?]|]; [by apply Hr3|]. rewrite Hs3, Hg2, Hs by lia. by apply H.
    + intros _ g Hl Hs. cbn in Hs. apply Hab.
      * intros j Hj. destruct (decide (j < pos)); [apply Hl; lia|]. rewrite Hs by lia. apply (vals_live _ 0 l); [by apply holds_vals|lia].
      * intros b j Hj. rewrite Hs by lia. by apply H.
Qed.

(** The constructors: an exception leaves nothing behind. *)
Lemma holds_fresh_nil : holds (fresh N) ([] : list T).
Proof. split; cbn; [done|by intros j x Hx; rewrite lookup_nil in Hx|done|done|exists N; split; [done|lia]| |lia]. intros b k Hk. destruct (decide (b = 0)); [by left|done]. Qed.
Theorem C110_construct xs : always (sv_construct N (Val <$> xs)) (fun _ c' => holds c' xs) gone (fresh N).
Proof.
  apply a_bind. rewrite fmap_length. destruct (Nat.leb_spec (length xs) N).
  - apply a_set_storage. apply a_bind, a_get, a_bind, a_on_exn. cbn. apply (a_construct_range _ _ _ xs); [apply refers_vals| | |].
    + intros j Hj. split; [exists N; cbn; split; [done|lia]|done].
    + intros g Hv Hs. apply a_put_size. apply (holds_cells (fresh N) [] g xs); [apply holds_fresh_nil|done|exact Hv|]. intros b j Hj. cbn in Hj. rewrite Hs by lia. done.
    + intros g Hg. apply a_bind, a_get. cbn. apply a_ret. split; cbn; [intros; by rewrite Hg|]. intros b k Hk. by destruct (decide (b = 0)).
  - apply a_bind. apply a_allocate; [|split; cbn; [done|]; intros b k Hk; by destruct (decide (b = 0))]. apply a_set_storage. apply a_bind, a_get, a_bind, a_on_exn. cbn. apply (a_construct_range _ _ _ xs); [apply refers_vals| | |].
    + intros j Hj. split; [exists (length xs); cbn; split; [done|lia]|done].
    + intros g Hv Hs. apply a_put_size. split; cbn; [done|exact Hv| |done| | |lia].
      * intros b j Hj. rewrite Hs by lia. done.
      * by exists (length xs).
      * intros b k Hk. destruct (decide (b = 1)); [by right|]. destruct (decide (b = 0)); [by left|done].
    + intros g Hg. apply a_bind, a_get. cbn. eapply a_deallocate; [done|intros i; cbn; by rewrite Hg|]. split; cbn; [intros; by rewrite Hg|]. intros b k Hk. destruct (decide (b = 1)); [done|]. by destruct (decide (b = 0)).
Qed.

(** ** Histories: whatever throws, the vector stays usable and its destructor releases everything. *)
Definition usable c : Prop := exists l, holds c l.
Lemma a_own c l i k x (Q : _ -> core -> Prop) (E : core -> Prop) : holds c l -> l !! i = Some x ->
  (forall a, refers c a x -> always (k a) Q E c) -> always (own i k) Q E c.
Proof.
  intros H Hi Hk. apply a_bind, a_get. apply Hk. split; [|by apply (h_live _ _ _ H)]. apply (holds_within c l); [done|by eapply lookup_lt_Some].
Qed.
Theorem C110_step c l o : holds c l -> in_range (size c) o = true -> always (xstep nt_move mv N o) (fun _ c' => usable c') usable c.
Proof.
  intros H Hr. rewrite (h_size _ _ _ H) in Hr. destruct o as [x|n| |n x| |pos x|xs|pos xs|i j|i|pos i]; cbn [xstep in_range] in *.
  - eapply a_mono; [| |apply (C110_push c l (Val x) x); done]; [intros ?|]; intros c' ?; cbn beta in *; eexists; eassumption.
  - eapply a_mono; [| |apply (C110_reserve c l n); done]; [intros ? c' [? _]|intros c' ?]; cbn beta in *; eexists; eassumption.
  - eapply a_mono; [| |apply (C110_shrink c l); done]; [intros ?|]; intros c' ?; cbn beta in *; eexists; eassumption.
  - eapply a_mono; [| |apply (C110_resize c l n (Val x) x); [done|done|by left; eexists]]; [intros ?|]; intros c' ?; cbn beta in *; eexists; eassumption.
  - eapply a_mono; [| |apply (C110_clear c l); done]; [intros ? c' ?; cbn beta in *; eexists; eassumption|done].
  - apply Nat.leb_le in Hr. eapply a_mono; [| |apply (C110_emplace c l pos (Val x) x); done]; [intros ? c' ?|intros c' (l' & ? & _)]; cbn beta in *; eexists; eassumption.
  - eapply a_mono; [| |apply (C110_assign c l xs); done]; [intros ? c' ?|intros c' (l' & ? & _)]; cbn beta in *; eexists; eassumption.
  - apply Nat.leb_le in Hr. eapply a_mono; [| |apply (C110_insert c l pos xs); done]; [intros ? c' ?|intros c' (l' & ? & _)]; cbn beta in *; eexists; eassumption.
  - apply andb_true_iff in Hr as [Hi Hj]. apply Nat.leb_le in Hi, Hj. eapply a_mono; [| |apply (C110_erase c l i j); [done|lia]]; [intros ? c' ?|intros c' (l' & ? & _)]; cbn beta in *; eexists; eassumption.
  - apply Nat.ltb_lt in Hr. destruct (lookup_lt_is_Some_2 l i) as [x Hx]; [done|]. eapply a_own; [done|done|]. intros a Ha. eapply a_mono; [| |apply (C110_push c l a x); done]; [intros ?|]; intros c' ?; cbn beta in *; eexists; eassumption.
  - apply andb_true_iff in Hr as [Hp Hi]. apply Nat.leb_le in Hp. apply Nat.ltb_lt in Hi. destruct (lookup_lt_is_Some_2 l i) as [x Hx]; [done|]. eapply a_own; [done|done|]. intros a Ha. eapply a_mono; [| |apply (C110_emplace c l pos a x); done]; [intros ? c' ?|intros c' (l' & ? & _)]; cbn beta in *; eexists; eassumption.
Qed.
Lemma a_xrun os : forall c, usable c -> always (xrun nt_move mv N os) (fun _ c' => usable c') (fun _ => False) c.
Proof.
  induction os as [|o os IH]; intros c Hc; [by apply a_ret|]. intros d. cbn [xrun]. destruct (in_range (size c) o) eqn:Er; [|by apply IH]. destruct Hc as [l Hl]. generalize (C110_step c l o Hl Er d). destruct (xstep nt_move mv N o c d) as [[[c' d'] [[]|]]|]; [intros Hu; by apply IH|intros Hu; by apply IH|done].
Qed.
Theorem C110_history os : always (bind (xrun nt_move mv N os) (fun _ => sv_destroy)) (fun _ c' => gone c') (fun _ => False) (fresh N).
Proof.
  apply a_bind. eapply a_post; [|apply a_xrun; exists []; apply holds_fresh_nil]. intros ? c [l Hl]. by apply (C110_destroy c l).
Qed.
(** The same after a construction from values. *)
Theorem C110_lifetime xs os : always (bind (sv_construct N (Val <$> xs)) (fun _ => bind (xrun nt_move mv N os) (fun _ => sv_destroy))) (fun _ c' => gone c') gone (fresh N).
Proof.
  apply a_bind. eapply a_post; [|apply C110_construct]. intros ? c Hc. apply a_bind. eapply a_mono; [| |apply a_xrun; by exists xs]; [|done]. intros ? c1 [l Hl]. eapply a_mono; [| |by apply (C110_destroy c1 l)]; done.
Qed.

(** The constructor from input iterators: an exception leaves the elements taken so far, and their block, behind. *)
Lemma a_push_all xs : forall c l, holds c l ->
  always (push_all nt_move mv (Val <$> xs)) (fun _ c' => holds c' (l ++ xs)) (fun c' => exists k, k < length xs /\ holds c' (l ++ take k xs)) c.
Proof.
  induction xs as [|x xs IH]; intros c l H.
  - apply a_ret. by rewrite app_nil_r.
  - cbn [fmap list_fmap push_all]. apply a_bind. eapply a_mono; [| |apply (C110_push c l (Val x) x); done].
    + intros ? c' Hc'. eapply a_mono; [| |apply (IH c' (l ++ [x])); done].
      * intros ? c2. by rewrite <- app_assoc.
      * intros c2 (k & Hk & Hc2). exists (S k). rewrite <- app_assoc in Hc2. split; [cbn; lia|done].
    + intros c' Hc'. exists 0. rewrite take_0, app_nil_r. split; [cbn; lia|done].
Qed.
Theorem C110_construct_input_partial xs :
  always (sv_construct_input nt_move mv (Val <$> xs)) (fun _ c' => holds c' xs) (fun c' => exists k, k < length xs /\ holds c' (take k xs)) (fresh N).
Proof. apply (a_push_all xs _ []), holds_fresh_nil. Qed.

(** ** Arguments that are elements of the vector *)
Theorem C111_push c l i x : holds c l -> l !! i = Some x ->
  always (own i (sv_push nt_move mv)) (fun _ c' => holds c' (l ++ [x])) (fun c' => holds c' l) c.
Proof. intros H Hi. eapply a_own; [done|done|]. intros a Ha. by apply C110_push. Qed.
Theorem C111_emplace c l pos i x : holds c l -> l !! i = Some x -> pos <= length l ->
  always (own i (sv_emplace nt_move mv pos)) (fun _ c' => holds c' (take pos l ++ x :: drop pos l)) usable c.
Proof. intros H Hi Hp. eapply a_own; [done|done|]. intros a Ha. eapply a_mono; [| |by apply (C110_emplace c l pos a x)]; [done|]. intros c' (l' & ? & _). by exists l'. Qed.
Theorem C111_resize_partial c l n i x : holds c l -> l !! i = Some x -> n <= cap c ->
  always (own i (sv_resize nt_move mv n)) (fun _ c' => holds c' (take n l ++ replicate (n - length l) x)) (fun c' => holds c' l) c.
Proof. intros H Hi Hn. eapply a_own; [done|done|]. intros a Ha. apply C110_resize; [done|done|by right]. Qed.

Lemma a_assign_own b i0 x (Q : _ -> core -> Prop) (E : core -> Prop) : forall n i c, within c b i0 -> cells c b i0 = Live x ->
  (forall j, i <= j < i + n -> within c b j /\ live (cells c b j)) ->
  (forall g, (forall j, i <= j < i + n -> g b j = Live x) -> g b i0 = Live x -> (forall b' j, ~ (b' = b /\ i <= j < i + n) -> g b' j = cells c b' j) -> Q tt (with_cells c g)) ->
  (forall g, (forall j, i <= j < i + n -> live (g b j)) -> (forall b' j, ~ (b' = b /\ i <= j < i + n) -> g b' j = cells c b' j) -> E (with_cells c g)) ->
  always (assign_range b i (replicate n (Ref b i0))) Q E c.
Proof.
  induction n as [|n IH]; intros i c W L Hl HQ HE.
  - cbn. apply a_ret. specialize (HQ (cells c)). destruct c. apply HQ; [intros; lia|done|done].
  - cbn [replicate assign_range]. apply a_bind. destruct (Hl i ltac:(lia)) as [Wi [y Ly]]. apply (a_copy_assign _ x _ _ y); [split; done|done|done| |].
    + apply IH; cbn.
      * done.
      * destruct (decide (i0 = i)) as [-> |]; [apply upd_eq|]. rewrite upd_ne by lia. done.
      * intros j Hj. split; [apply Hl; lia|]. rewrite upd_ne by lia. apply Hl. lia.
      * intros g Hg H0 Hs. apply HQ; [|done|].
        -- intros j Hj. destruct (decide (j = i)) as [-> |]; [|apply Hg; lia]. rewrite Hs by lia. apply upd_eq.
        -- intros b' j Hj. rewrite Hs by lia. apply upd_ne. lia.
      * intros g Hg Hs. apply HE.
        -- intros j Hj. destruct (decide (j = i)) as [-> |]; [|apply Hg; lia]. rewrite Hs by lia. rewrite upd_eq. by eexists.
        -- intros b' j Hj. rewrite Hs by lia. apply upd_ne. lia.
    + intros z. apply HE.
      * intros j Hj. destruct (decide (j = i)) as [-> |]; [rewrite upd_eq; by eexists|]. rewrite upd_ne by lia. apply Hl. lia.
      * intros b' j Hj. apply upd_ne. lia.
Qed.
Lemma vals_replicate g i n x : (forall j, i <= j < i + n -> g j = Live x) -> vals g i (replicate n x).
Proof. intros H j y Hy. apply lookup_replicate in Hy as [-> Hj]. apply H. lia. Qed.

(** assign(n, v[i]). *)
Theorem C111_assign c l n i x : holds c l -> l !! i = Some x ->
  always (own i (fun a => sv_assign (replicate n a))) (fun _ c' => holds c' (replicate n x)) usable c.
Proof.
  intros H Hi. assert (Hil : i < length l) by (by eapply lookup_lt_Some). destruct (holds_cap _ _ H) as [Hk Hc]. destruct (h_new _ _ _ H) as [N0 Nf]. apply a_bind, a_get. apply a_bind, a_get. cbv zeta. rewrite (h_size _ _ _ H), replicate_length. set (com := Nat.min (length l) n).
  destruct (Nat.leb_spec n (cap c)).
  - apply a_bind. rewrite take_replicate. replace (com `min` n) with com by lia. apply (a_assign_own _ _ x).
    + by apply (holds_within c l).
    + by apply (h_live _ _ _ H).
    + intros j Hj. split; [apply (holds_within c l); [done|lia]|]. apply (vals_live _ 0 l); [by apply holds_vals|lia].
    + intros g Hg Hx0 Hs. apply a_bind. rewrite drop_replicate. apply (a_construct_range _ _ _ (replicate (n - com) x)).
      * apply Forall2_replicate. split; [|done]. by apply (holds_within c l).
      * rewrite replicate_length. intros j Hj. split; [exists (cap c); split; [done|lia]|]. cbn. rewrite Hs by lia. apply H. lia.
      * rewrite replicate_length. intros g2 Hv2 Hs2. cbn in Hs2. apply a_bind. apply a_destroy_range.
        -- intros j Hj. split; [apply (holds_within c l); [done|lia]|]. cbn. rewrite Hs2 by lia. rewrite Hs by lia. apply (vals_live _ 0 l); [by apply holds_vals|lia].
        -- intros g3 Hr3 Hs3. cbn in Hs3. apply a_put_size. assert (En : n = length (replicate n x)) by (by rewrite replicate_length). rewrite En at 1. apply (holds_cells c l g3); [done|by rewrite <- En| |].
           ++ apply vals_replicate. intros j Hj. rewrite Hs3 by lia. destruct (decide (j < com)).
              ** rewrite Hs2 by lia. apply Hg. lia.
              ** replace j with (com + (j - com)) by lia. apply Hv2. apply lookup_replicate. split; [done|lia].
           ++ rewrite <- En. intros b j Hj. destruct (decide (b = first c /\ com <= j < com + (length l - com))) as [[-> Hj']|Hj']; [by apply Hr3|]. rewrite Hs3, Hs2, Hs by lia. apply H. lia.
      * intros g2 Hg2. cbn in Hg2. destruct (holds_live c l g2 (length l)) as (l' & Hl' & _); [done|done| | |].
        -- intros j Hj. rewrite Hg2. destruct (decide (j < com)); [rewrite Hg by lia; by eexists|]. rewrite Hs by lia. apply (vals_live _ 0 l); [by apply holds_vals|lia].
        -- intros b j Hj. rewrite Hg2, Hs by lia. by apply H.
        -- exists l'. rewrite with_size_same in Hl' by apply H. exact Hl'.
    + intros g Hg Hs. destruct (holds_live c l g (length l)) as (l' & Hl' & _); [done|done| | |].
      * intros j Hj. destruct (decide (j < com)); [apply Hg; lia|]. rewrite Hs by lia. apply (vals_live _ 0 l); [by apply holds_vals|lia].
      * intros b j Hj. rewrite Hs by lia. by apply H.
      * exists l'. rewrite with_size_same in Hl' by apply H. exact Hl'.
  - apply a_bind. apply a_allocate; [|by exists l]. set (m := next_capacity c _). assert (Hm : n <= m) by (unfold m, next_capacity; lia). apply a_bind, a_on_exn.
    apply (a_construct_range _ _ _ (replicate n x)).
    + apply Forall2_replicate. eapply allocated_refers; [done|]. split; [by apply (holds_within c l)|by apply (h_live _ _ _ H)].
    + rewrite replicate_length. intros j Hj. split; [apply (allocated_within c m (cells c)); lia|]. cbn. apply H. lia.
    + rewrite replicate_length. intros g Hv Hs. eapply a_post; [|eapply a_replace; [eapply (ready_intro c l m g (replicate n x))|by rewrite replicate_length]]; [by intros _ c' (? & _)|done|by rewrite replicate_length| |exact Hv|].
      * intros j Hj. rewrite Hs by lia. cbn. apply (vals_live _ 0 l); [by apply holds_vals|lia].
      * rewrite replicate_length. intros b j Hj Hj'. rewrite Hs by lia. cbn. by apply H.
    + intros g Hg. eapply a_post; [|apply (a_abandon c l m g l)]; [|done|done| |].
      * intros ? c' Hc'. by exists l.
      * intros j y Hy. rewrite Hg. by apply (holds_vals _ _ H).
      * intros b j Hj. rewrite Hg. by apply H.
Qed.

(** insert(pos, n, v[i]) with spare capacity, for an element in front of the moved ones. *)
Theorem C111_insert_partial c l pos n i x : holds c l -> l !! i = Some x -> pos <= length l -> n <= cap c - length l -> i < Nat.max (length l - n) pos ->
  always (own i (fun a => sv_insert nt_move mv pos (replicate n a)))
    (fun _ c' => holds c' (take (Nat.max (length l - n) pos) l ++ replicate n x ++ drop (Nat.max (length l - n) pos) l)) usable c.
Proof.
  intros H Hi Hp Hn Him. assert (Hil : i < length l) by (by eapply lookup_lt_Some). destruct (holds_cap _ _ H) as [Hk Hc]. apply a_bind, a_get. apply a_bind, a_get. rewrite (h_size _ _ _ H). destruct (Nat.leb_spec pos (length l)); [|lia]. cbv zeta. rewrite replicate_length.
  destruct (Nat.leb_spec n (cap c - length l)) as [Hle|Hgt]; [|lia].
  set (mid := Nat.max (length l - n) pos) in *. set (mvd := length l - mid). assert (Hmid : mid <= length l) by lia. assert (Hmvd : mvd <= n) by lia.
  assert (El : length (take mid l ++ replicate n x ++ drop mid l) = length l + n) by (rewrite !app_length, take_length, drop_length, replicate_length; lia).
  assert (Hx0 := h_live _ _ _ H _ _ Hi).
  apply a_bind. rewrite drop_replicate. apply (a_construct_range _ _ _ (replicate (n - mvd) x)).
  - apply Forall2_replicate. split; [by apply (holds_within c l)|done].
  - rewrite replicate_length. intros j Hj. split; [exists (cap c); split; [done|lia]|]. apply H. lia.
  - rewrite replicate_length. intros g Hv Hs. apply a_bind, a_put_size. apply a_bind. apply (a_relocate_weak _ _ _ _ _ _ _ (drop mid l)); [rewrite drop_length; lia| | | |].
    + intros j y Hy. assert (j < length (drop mid l)) by (by eapply lookup_lt_Some). rewrite drop_length in *. rewrite lookup_drop in Hy. split; [exists (cap c); cbn; split; [done|lia]|]. cbn. rewrite Hs by lia. by apply (holds_vals _ _ H).
    + intros j Hj. split; [exists (cap c); cbn; split; [done|lia]|]. cbn. rewrite Hs by lia. apply H. lia.
    + intros g2 Hv2 Hl2 Hs2. cbn in Hs2. apply a_bind, a_put_size. rewrite take_replicate. replace (mvd `min` n) with mvd by lia. apply (a_assign_own _ _ x).
      * exists (cap c). cbn. split; [done|lia].
      * cbn. rewrite Hs2, Hs by lia. done.
      * intros j Hj. split; [exists (cap c); cbn; split; [done|lia]|]. cbn. apply Hl2. lia.
      * intros g3 Hv3 _ Hs3. cbn in Hs3. cbn. rewrite <- El. apply (holds_cells c l g3); [done|lia| |].
        -- apply vals_app; [|rewrite take_length; apply vals_app].
           ++ eapply vals_ext; [by apply vals_take, holds_vals|]. rewrite take_length. intros j Hj. rewrite Hs3, Hs2, Hs by lia. done.
           ++ replace (0 + mid `min` length l) with mid by lia. apply vals_replicate. intros j Hj. destruct (decide (j < length l)); [apply Hv3; lia|]. rewrite Hs3, Hs2 by lia. replace j with (length l + (j - length l)) by lia. apply Hv. apply lookup_replicate. split; [done|lia].
           ++ rewrite replicate_length. replace (0 + mid `min` length l + n) with (mid + n) by lia. intros j y Hy. rewrite Hs3 by lia. by apply Hv2.
        -- rewrite El. intros b j Hj. rewrite Hs3, Hs2, Hs by lia. apply H. lia.
      * intros g3 Hl3 Hs3. cbn in Hs3. destruct (holds_live c l g3 (length l + n)) as (l' & Hl' & Hn'); [done|lia| | |exists l'; exact Hl'].
        -- intros j Hj. destruct (decide (mid <= j < mid + mvd)); [by apply Hl3|]. rewrite Hs3 by lia. destruct (decide (mid + n <= j)).
           ++ apply (vals_live _ (mid + n) (drop mid l)); [exact Hv2|rewrite drop_length; lia].
           ++ rewrite Hs2 by lia. destruct (decide (length l <= j)); [apply (vals_live _ (length l) (replicate (n - mvd) x)); [exact Hv|rewrite replicate_length; lia]|]. rewrite Hs by lia. apply (vals_live _ 0 l); [by apply holds_vals|lia].
        -- intros b j Hj. rewrite Hs3, Hs2, Hs by lia. apply H. lia.
    + intros _ g2 Hl2 Hs2. cbn in Hs2. destruct (holds_live c l g2 (mid + n)) as (l' & Hl' & Hn'); [done|lia| | |exists l'; exact Hl'].
      * intros j Hj. destruct (decide (mid <= j < mid + mvd)); [by apply Hl2|]. rewrite Hs2 by lia. destruct (decide (length l <= j)); [apply (vals_live _ (length l) (replicate (n - mvd) x)); [exact Hv|rewrite replicate_length; lia]|]. rewrite Hs by lia. apply (vals_live _ 0 l); [by apply holds_vals|lia].
      * intros b j Hj. rewrite Hs2, Hs by lia. apply H. lia.
  - intros g Hg. exists l. by apply holds_same.
Qed.
End Ops.

(** ** Refuted: the constructor from input iterators leaks, resize(n, v[i]) reads a destroyed object, insert(pos, n, v[i]) copies
    a moved-from object. *)
Definition throws : option (nat * nat) := Some (0, 0).
Theorem C110_construct_input_refuted :
  ~ (forall (nt : bool) (mv N : nat) xs, always (sv_construct_input nt mv (Val <$> xs)) (fun _ c' => holds N c' xs) gone (fresh N)).
Proof.
  intros H. specialize (H true 0 1 [1; 2; 3] [None; None; None; throws]). cbn in H. destruct H as [_ H]. specialize (H 1 2). cbn in H. by specialize (H eq_refl).
Qed.
(** A vector with the given elements. *)
Definition made (N : nat) (xs : list nat) : core nat :=
  Core (fun b j => if decide (b = 0) then match xs !! j with Some x => Live x | None => Raw end else Raw) (fun b => if decide (b = 0) then Some N else None) 1 0 (length xs).
Lemma made_holds N xs : length xs <= N -> holds N (made N xs) xs.
Proof.
  intros Hn. split; cbn; [done| | |done|by exists N| |lia].
  - intros j x Hx. by rewrite Hx.
  - intros b j Hj. destruct (decide (b = 0)); [|done]. by rewrite lookup_ge_None_2 by lia.
  - intros b k Hk. destruct (decide (b = 0)); [by left|done].
Qed.
Theorem C111_resize_refuted :
  exists (N : nat) c l i x n, holds N c l /\ l !! i = Some x /\ length l < n /\ own i (sv_resize true 0 n) c [] = None.
Proof. exists 1, (made 1 [5]), [5], 0, 5, 2. split_and!; [apply made_holds; cbn; lia|done|cbn; lia|reflexivity]. Qed.
(** Whether a computation returns normally, and the contents of the vector then. *)
Definition outcome (r : option (core nat * list (option (nat * nat)) * res unit)) : option (bool * list (cell nat)) :=
  match r with
  | Some (c, _, Ok _) => Some (true, cells c (first c) <$> seq 0 (size c))
  | Some (c, _, Exn) => Some (false, cells c (first c) <$> seq 0 (size c))
  | None => None
  end.
(** With spare capacity, an element behind the position. *)
Theorem C111_insert_refuted :
  exists (N : nat) c l pos i x n l', holds N c l /\ l !! i = Some x /\ pos = length l - n /\ n <= cap c - length l /\
    outcome (own i (fun a => sv_insert true 0 pos (replicate n a)) c []) = Some (true, Live <$> l') /\ l' <> take pos l ++ replicate n x ++ drop pos l.
Proof.
  exists 4, (made 4 [1; 2]), [1; 2], 1, 1, 2, 1, [1; 0; 2]. split_and!; [apply made_holds; cbn; lia|done|done|apply Nat.leb_le; reflexivity|vm_compute; reflexivity|done].
Qed.
(** When the vector is reallocated, an element in front of the position. *)
Theorem C111_insert_realloc_refuted :
  exists (N : nat) c l pos i x n l', holds N c l /\ l !! i = Some x /\ i < pos <= length l /\ cap c - length l < n /\
    outcome (own i (fun a => sv_insert true 0 pos (replicate n a)) c []) = Some (true, Live <$> l') /\ l' <> take pos l ++ replicate n x ++ drop pos l.
Proof.
  exists 2, (made 2 [1; 2]), [1; 2], 1, 0, 1, 1, [1; 0; 2]. split_and!; [apply made_holds; cbn; lia|done|lia|cbn; lia|apply Nat.leb_le; reflexivity|vm_compute; reflexivity|done].
Qed.

(** ** Examples *)
Example C110_nonvacuous : exists c : core nat, holds 2 c [1; 2] /\ cap c = 2 /\ refers c (Ref 0 1) 2.
Proof. exists (made 2 [1; 2]). split_and!; [apply made_holds; cbn; lia|done|]. split; [exists 2; split; [done|lia]|done]. Qed.
(** A push_back that reallocates and throws when it copies the second element to the new block. *)
Example C110_push_throws : outcome (sv_push false 0 (Val 3) (made 2 [1; 2]) [None; None; None; throws]) = Some (false, [Live 1; Live 2]).
Proof. vm_compute. reflexivity. Qed.
(** An emplace in the middle that throws when it assigns the new element: three live elements, with other values. *)
Example C110_emplace_throws : outcome (sv_emplace true 9 0 (Val 3) (made 4 [1; 2]) [None; None; Some (7, 8)]) = Some (false, [Live 8; Live 1; Live 2]).
Proof. vm_compute. reflexivity. Qed.
(** An insertion that throws while it moves the tail. *)
Example C110_insert_throws : outcome (sv_insert false 9 1 [Val 5; Val 6] (made 6 [1; 2; 3]) [None; Some (7, 8)]) = Some (false, [Live 1; Live 9; Live 7]).
Proof. vm_compute. reflexivity. Qed.
(** The third push_back throws, the program goes on. *)
Example C110_history_example :
  outcome (xrun true 9 2 [XPush 1; XPush 2; XPush 3; XInsert 1 [4; 5]; XPushOwn 0] (fresh 2) [None; None; throws]) = Some (true, [Live 1; Live 4; Live 5; Live 2; Live 1]).
Proof. vm_compute. reflexivity. Qed.

Print Assumptions C110_reserve.
Print Assumptions C110_shrink.
Print Assumptions C110_push.
Print Assumptions C110_resize.
Print Assumptions C110_clear.
Print Assumptions C110_destroy.
Print Assumptions C110_assign.
Print Assumptions C110_erase.
Print Assumptions C110_emplace.
Print Assumptions C110_insert.
Print Assumptions C110_construct.
Print Assumptions C110_step.
Print Assumptions C110_history.
Print Assumptions C110_lifetime.
Print Assumptions C110_construct_input_partial.
Print Assumptions C111_push.
Print Assumptions C111_emplace.
Print Assumptions C111_resize_partial.
Print Assumptions C111_assign.
Print Assumptions C111_insert_partial.
Print Assumptions C110_construct_input_refuted.
Print Assumptions C111_resize_refuted.
Print Assumptions C111_insert_refuted.
Print Assumptions C111_insert_realloc_refuted.
