(** Rules for the computations of SmallVectorExnModel.v. *)
From stdpp Require Import list list_numbers.
From Coq Require Import Lia.
From Verif Require Import SmallVectorExnModel SmallVectorExnSpec.

Section Rules.
Context {T : Type} (nt_move : bool) (mv : T) (N : nat).
Notation core := (core T).
Notation cellf := (nat -> nat -> cell T).

Lemma a_mono {A} (f : M A) (Q Q' : A -> core -> Prop) (E E' : core -> Prop) c :
  (forall a c', Q a c' -> Q' a c') -> (forall c', E c' -> E' c') -> always f Q E c -> always f Q' E' c.
Proof. intros HQ HE H d. specialize (H d). destruct (f c d) as [[[c' d'] [a|]]|]; [by apply HQ|by apply HE|done]. Qed.
Lemma a_bind {A B} (f : M A) (k : A -> M B) (Q : B -> core -> Prop) (E : core -> Prop) c :
  always f (fun a c' => always (k a) Q E c') E c -> always (bind f k) Q E c.
Proof. intros H d. specialize (H d). unfold bind. destruct (f c d) as [[[c' d'] [a|]]|]; [apply (H d')|done|done]. Qed.
Lemma a_on_exn {A} (f : M A) cl (Q : _ -> core -> Prop) (E : core -> Prop) c :
  always f Q (fun c' => always cl (fun _ => E) (fun _ => False) c') c -> always (on_exn f cl) Q E c.
Proof.
  intros H d. specialize (H d). unfold on_exn. destruct (f c d) as [[[c' d'] [a|]]|]; [done| |done].
  specialize (H d'). destruct (cl c' d') as [[[c'' d''] [b|]]|]; done.
Qed.
Lemma a_ret {A} (a : A) (Q : _ -> core -> Prop) (E : core -> Prop) c : Q a c -> always (ret a) Q E c.
Proof. by intros H d. Qed.
Lemma a_raise {A} (Q : A -> core -> Prop) (E : core -> Prop) c : E c -> always raise Q E c.
Proof. by intros H d. Qed.
Lemma a_get (Q : _ -> core -> Prop) (E : core -> Prop) c : Q c c -> always get Q E c.
Proof. by intros H d. Qed.
Lemma a_put_size n (Q : _ -> core -> Prop) (E : core -> Prop) c : Q tt (with_size c n) -> always (put_size n) Q E c.
Proof. by intros H d. Qed.
Lemma a_set_storage b n (Q : _ -> core -> Prop) (E : core -> Prop) c : Q tt (Core (cells c) (alive c) (nxt c) b n) -> always (set_storage b n) Q E c.
Proof. by intros H d. Qed.
Lemma a_roll (Q : _ -> core -> Prop) (E : core -> Prop) c : (forall t, Q t c) -> always roll Q E c.
Proof. intros H d. unfold roll. by destruct d. Qed.

Definition within (c : core) (b i : nat) : Prop := exists k, alive c b = Some k /\ i < k.
Lemma inside_within c b i : within c b i -> inside c b i = true.
Proof. intros (k & E & H). unfold inside. rewrite E. by apply Nat.ltb_lt. Qed.
Lemma a_read b i x (Q : _ -> core -> Prop) (E : core -> Prop) c : within c b i -> cells c b i = Live x -> Q x c -> always (read b i) Q E c.
Proof. intros W L H d. unfold read. rewrite inside_within, L by done. done. Qed.
Lemma a_place b i x (Q : _ -> core -> Prop) (E : core -> Prop) c : within c b i -> cells c b i = Raw -> Q tt (with_cells c (upd (cells c) b i (Live x))) -> always (place b i x) Q E c.
Proof. intros W L H d. unfold place. rewrite inside_within, L by done. done. Qed.
Lemma a_set b i x y (Q : _ -> core -> Prop) (E : core -> Prop) c : within c b i -> cells c b i = Live y -> Q tt (with_cells c (upd (cells c) b i (Live x))) -> always (set_cell b i x) Q E c.
Proof. intros W L H d. unfold set_cell. rewrite inside_within, L by done. done. Qed.
Lemma a_destroy b i x (Q : _ -> core -> Prop) (E : core -> Prop) c : within c b i -> cells c b i = Live x -> Q tt (with_cells c (upd (cells c) b i Raw)) -> always (destroy b i) Q E c.
Proof. intros W L H d. unfold destroy. rewrite inside_within, L by done. done. Qed.
Definition allocated (c : core) (n : nat) : core :=
  Core (cells c) (fun b => if decide (b = nxt c) then Some n else alive c b) (S (nxt c)) (first c) (size c).
Lemma a_allocate n (Q : nat -> core -> Prop) (E : core -> Prop) c : Q (nxt c) (allocated c n) -> E c -> always (allocate n) Q E c.
Proof. intros H HE. apply a_bind, a_roll. intros [t|]; [by apply a_raise|]. by intros d. Qed.
Definition released (c : core) (b : nat) : core :=
  Core (cells c) (fun b' => if decide (b' = b) then None else alive c b') (nxt c) (first c) (size c).
Lemma a_deallocate b k (Q : _ -> core -> Prop) (E : core -> Prop) c : alive c b = Some k -> (forall i, cells c b i = Raw) -> Q tt (released c b) -> always (deallocate b) Q E c.
Proof.
  intros Ha Hr H d. unfold deallocate. rewrite Ha. rewrite (proj2 (forallb_forall _ _)); [done|]. intros i _. by rewrite Hr.
Qed.
Lemma a_read_arg a x (Q : _ -> core -> Prop) (E : core -> Prop) c : refers c a x -> Q x c -> always (read_arg a) Q E c.
Proof. destruct a as [y|b i]; cbn; [intros ->; by apply a_ret|]. intros [W L] H. by eapply a_read. Qed.

Lemma upd_eq (g : cellf) b i x : upd g b i x b i = x.
Proof. unfold upd. by destruct (decide _); [|naive_solver]. Qed.
Lemma upd_ne (g : cellf) b i x b' i' : ~ (b' = b /\ i' = i) -> upd g b i x b' i' = g b' i'.
Proof. intros. unfold upd. by destruct (decide _). Qed.

Lemma a_copy_construct a x b i (Q : _ -> core -> Prop) (E : core -> Prop) c : refers c a x -> within c b i -> cells c b i = Raw ->
  Q tt (with_cells c (upd (cells c) b i (Live x))) -> E c -> always (copy_construct a b i) Q E c.
Proof.
  intros R W L H HE. apply a_bind. eapply a_read_arg; [done|]. apply a_bind, a_roll. intros [t|]; [by apply a_raise|]. by apply a_place.
Qed.
Lemma a_move_construct sb si b i x (Q : _ -> core -> Prop) (E : core -> Prop) c : within c sb si -> cells c sb si = Live x -> within c b i -> cells c b i = Raw ->
  Q tt (with_cells c (upd (upd (cells c) sb si (Live mv)) b i (Live x))) ->
  (nt_move = false -> forall y, E (with_cells c (upd (cells c) sb si (Live y)))) -> always (move_construct nt_move mv sb si b i) Q E c.
Proof.
  intros Ws Ls W L H HE. apply a_bind. eapply a_read; [done|done|]. apply a_bind.
  assert (G : forall t : option (T * T), (nt_move = true -> t = None) ->
    always (match t with Some (y, _) => bind (set_cell sb si y) (fun _ => raise) | None => bind (set_cell sb si mv) (fun _ => place b i x) end) Q E c).
  { intros [[y z]|] Ht.
    - apply a_bind. eapply a_set; [done|done|]. apply a_raise. apply HE. destruct nt_move; [by specialize (Ht eq_refl)|done].
    - apply a_bind. eapply a_set; [done|done|]. apply a_place; [done| |done]. cbn. rewrite upd_ne; [done|]. intros [-> ->]. congruence. }
  clear H HE. destruct nt_move.
  - apply a_ret. exact (G None (fun _ => eq_refl)).
  - apply a_roll. intros t. apply (G t). done.
Qed.
Lemma a_copy_assign a x b i y (Q : _ -> core -> Prop) (E : core -> Prop) c : refers c a x -> within c b i -> cells c b i = Live y ->
  Q tt (with_cells c (upd (cells c) b i (Live x))) -> (forall z, E (with_cells c (upd (cells c) b i (Live z)))) -> always (copy_assign a b i) Q E c.
Proof.
  intros R W L H HE. apply a_bind. eapply a_read_arg; [done|]. apply a_bind, a_roll. intros [[u z]|].
  - apply a_bind. eapply a_set; [done..|]. apply a_raise, HE.
  - by eapply a_set.
Qed.
Lemma a_move_assign sb si b i x y (Q : _ -> core -> Prop) (E : core -> Prop) c : within c sb si -> cells c sb si = Live x -> within c b i -> cells c b i = Live y -> ~ (sb = b /\ si = i) ->
  Q tt (with_cells c (upd (upd (cells c) sb si (Live mv)) b i (Live x))) ->
  (forall u z, E (with_cells c (upd (upd (cells c) sb si (Live u)) b i (Live z)))) -> always (move_assign mv sb si b i) Q E c.
Proof.
  intros Ws Ls W L Hne H HE. apply a_bind. eapply a_read; [done|done|]. apply a_bind, a_roll. intros [[u z]|].
  - apply a_bind. eapply a_set; [done|done|]. apply a_bind. eapply (a_set _ _ _ y); [done|cbn; rewrite upd_ne; [done|naive_solver]|]. apply a_raise, HE.
  - apply a_bind. eapply a_set; [done|done|]. eapply (a_set _ _ _ y); [done|cbn; rewrite upd_ne; [done|naive_solver]|]. done.
Qed.

(** ** Ranges *)
Definition live (x : cell T) : Prop := exists v, x = Live v.
Lemma a_destroy_range b (Q : _ -> core -> Prop) (E : core -> Prop) : forall n i c,
  (forall j, i <= j < i + n -> within c b j /\ live (cells c b j)) ->
  (forall g, (forall j, i <= j < i + n -> g b j = Raw) -> (forall b' j, ~ (b' = b /\ i <= j < i + n) -> g b' j = cells c b' j) -> Q tt (with_cells c g)) ->
  always (destroy_range b i n) Q E c.
Proof.
  induction n as [|n IH]; intros i c Hl HQ.
  - cbn. apply a_ret. specialize (HQ (cells c)). destruct c. apply HQ; [intros; lia|done].
  - cbn [destroy_range]. apply a_bind. destruct (Hl i ltac:(lia)) as [W [x L]]. eapply a_destroy; [done|done|]. apply IH.
    + intros j Hj. destruct (Hl j ltac:(lia)) as [W' L']. split; [done|]. cbn. rewrite upd_ne by lia. done.
    + intros g Hr Hs. apply (HQ g).
      * intros j Hj. destruct (decide (j = i)) as [-> |]; [|apply Hr; lia]. rewrite Hs by lia. cbn. apply upd_eq.
      * intros b' j Hj. rewrite Hs by naive_solver lia. cbn. apply upd_ne. naive_solver lia.
Qed.

Lemma a_construct_loop mk b i (Q : _ -> core -> Prop) (E : core -> Prop) c (I : nat -> cellf -> Prop) : forall n j,
  (forall j' g, j <= j' < j + n -> I j' g ->
     always (mk j') (fun _ c' => exists g', c' = with_cells c g' /\ I (S j') g') (fun c' => always (destroy_range b i j') (fun _ => E) (fun _ => False) c') (with_cells c g)) ->
  (forall g, I (j + n) g -> Q tt (with_cells c g)) ->
  forall g, I j g -> always (construct_loop mk b i n j) Q E (with_cells c g).
Proof.
  induction n as [|n IH]; intros j Hs HQ g Hg.
  - apply a_ret, HQ. by rewrite Nat.add_0_r.
  - cbn [construct_loop]. apply a_bind, a_on_exn. eapply a_mono; [| |apply (Hs j g); [lia|done]]; [|done].
    intros _ c' (g' & -> & Hg'). apply IH; [|intros; apply HQ; by rewrite Nat.add_succ_r|done]. intros j' g'' Hj. apply Hs. lia.
Qed.

(** Copying into raw memory: everything or nothing. *)
Lemma a_copy_loop mk b i n (xs : list T) (Q : _ -> core -> Prop) (E : core -> Prop) c : length xs = n ->
  (forall j x, xs !! j = Some x -> exists a, refers c a x /\ mk j = copy_construct a b (i + j)) ->
  (forall j, i <= j < i + n -> within c b j /\ cells c b j = Raw) ->
  (forall g, (forall j x, xs !! j = Some x -> g b (i + j) = Live x) -> (forall b' j, ~ (b' = b /\ i <= j < i + n) -> g b' j = cells c b' j) -> Q tt (with_cells c g)) ->
  (forall g, (forall b' j, g b' j = cells c b' j) -> E (with_cells c g)) ->
  always (construct_loop mk b i n 0) Q E c.
Proof.
  intros Hlen Hmk Hd HQ HE.
  set (I := fun k (g : cellf) => (forall j x, j < k -> xs !! j = Some x -> g b (i + j) = Live x) /\ (forall b' j, ~ (b' = b /\ i <= j < i + k) -> g b' j = cells c b' j)).
  assert (Hc : c = with_cells c (cells c)) by by destruct c. rewrite Hc at 1. apply (a_construct_loop _ _ _ _ _ _ I).
  - intros k g Hk [H1 H2]. destruct (lookup_lt_is_Some_2 xs k) as [x Hx]; [lia|]. destruct (Hmk k x Hx) as (a & Ha & ->). destruct (Hd (i + k) ltac:(lia)) as [W R]. apply (a_copy_construct _ x).
    + destruct a as [y|b0 i0]; [done|]. destruct Ha as [Wa La]. split; [done|]. cbn. rewrite H2; [done|]. intros [-> Hj]. destruct (Hd i0 ltac:(lia)) as [_ R0]. congruence.
    + done.
    + cbn. rewrite H2 by lia. done.
    + eexists. split; [reflexivity|]. split.
      * intros j y Hj Hy. cbn. destruct (decide (j = k)) as [-> |]; [rewrite upd_eq; congruence|]. rewrite upd_ne by lia. apply H1; [lia|done].
      * intros b' j Hj. cbn. rewrite upd_ne by lia. apply H2. lia.
    + apply a_destroy_range.
      * intros j Hj. destruct (Hd j ltac:(lia)) as [W' _]. split; [done|]. cbn. destruct (lookup_lt_is_Some_2 xs (j - i)) as [y Hy]; [lia|]. exists y. specialize (H1 (j - i) y ltac:(lia) Hy). by replace (i + (j - i)) with j in H1 by lia.
      * intros g' Hr Hs. apply HE. intros b' j. destruct (decide (b' = b /\ i <= j < i + k)) as [[-> Hj]|Hj].
        -- rewrite Hr by lia. symmetry. apply Hd. lia.
        -- rewrite Hs by done. cbn. apply H2. done.
  - intros g [H1 H2]. apply HQ; [|done]. intros j x Hx. apply H1; [|done]. apply lookup_lt_Some in Hx. lia.
  - split; [intros; lia|done].
Qed.
Lemma a_construct_range b i args (xs : list T) (Q : _ -> core -> Prop) (E : core -> Prop) c : Forall2 (refers c) args xs ->
  (forall j, i <= j < i + length xs -> within c b j /\ cells c b j = Raw) ->
  (forall g, (forall j x, xs !! j = Some x -> g b (i + j) = Live x) -> (forall b' j, ~ (b' = b /\ i <= j < i + length xs) -> g b' j = cells c b' j) -> Q tt (with_cells c g)) ->
  (forall g, (forall b' j, g b' j = cells c b' j) -> E (with_cells c g)) ->
  always (construct_range b i args) Q E c.
Proof.
  intros Ha Hd HQ HE. unfold construct_range. rewrite (Forall2_length _ _ _ Ha). apply (a_copy_loop _ _ _ _ xs); [done| |done..].
  intros j x Hx. destruct (Forall2_lookup_r _ _ _ _ _ Ha Hx) as (a & Hj & Hr). rewrite Hj. by exists a.
Qed.

(** Moving into raw memory. *)
Lemma a_relocate_weak sb si n b i (xs : list T) (Q : _ -> core -> Prop) (E : core -> Prop) c : length xs = n ->
  (forall j x, xs !! j = Some x -> within c sb (si + j) /\ cells c sb (si + j) = Live x) ->
  (forall j, i <= j < i + n -> within c b j /\ cells c b j = Raw) ->
  (forall g, (forall j x, xs !! j = Some x -> g b (i + j) = Live x) -> (forall j, si <= j < si + n -> live (g sb j)) ->
     (forall b' j, ~ (b' = b /\ i <= j < i + n) -> ~ (b' = sb /\ si <= j < si + n) -> g b' j = cells c b' j) -> Q tt (with_cells c g)) ->
  (nt_move = false -> forall g, (forall j, si <= j < si + n -> live (g sb j)) ->
     (forall b' j, ~ (b' = sb /\ si <= j < si + n) -> g b' j = cells c b' j) -> E (with_cells c g)) ->
  always (relocate_weak nt_move mv sb si n b i) Q E c.
Proof.
  intros Hlen Hsrc Hd HQ HE.
  assert (Hdis : forall j, si <= j < si + n -> ~ (sb = b /\ i <= j < i + n)).
  { intros j Hj [-> Hj']. destruct (lookup_lt_is_Some_2 xs (j - si)) as [x Hx]; [lia|]. destruct (Hsrc _ _ Hx) as [_ L]. replace (si + (j - si)) with j in L by lia. destruct (Hd j ltac:(lia)) as [_ R]. congruence. }
  set (I := fun k (g : cellf) => (forall j x, j < k -> xs !! j = Some x -> g b (i + j) = Live x) /\ (forall j x, k <= j -> xs !! j = Some x -> g sb (si + j) = Live x) /\
     (forall j, si <= j < si + k -> live (g sb j)) /\
     (forall b' j, ~ (b' = b /\ i <= j < i + k) -> ~ (b' = sb /\ si <= j < si + n) -> g b' j = cells c b' j)).
  assert (Hc : c = with_cells c (cells c)) by by destruct c. unfold relocate_weak. rewrite Hc at 1. apply (a_construct_loop _ _ _ _ _ _ I).
  - intros k g Hk (H1 & H2 & H3 & H4). destruct (lookup_lt_is_Some_2 xs k) as [x Hx]; [lia|]. destruct (Hsrc k x Hx) as [Ws Ls]. destruct (Hd (i + k) ltac:(lia)) as [W R].
    apply (a_move_construct _ _ _ _ x).
    + done.
    + cbn. apply H2; [lia|done].
    + done.
    + cbn. rewrite H4; [done|lia|]. intros [<- Hj]. apply (Hdis (i + k)); lia.
    + eexists. split; [reflexivity|]. split_and!.
      * intros j y Hj Hy. cbn. destruct (decide (j = k)) as [-> |]; [rewrite upd_eq; congruence|]. rewrite upd_ne by lia.
        assert (j < length xs) by (by eapply lookup_lt_Some). rewrite upd_ne; [apply H1; [lia|done]|]. intros [-> Hj']. apply (Hdis (i + j)); [lia|]. split; [done|lia].
      * intros j y Hj Hy. cbn. assert (j < length xs) by (by eapply lookup_lt_Some). rewrite upd_ne; [rewrite upd_ne by lia; apply H2; [lia|done]|]. intros [-> Hj']. apply (Hdis (si + j)); [lia|]. split; [done|lia].
      * intros j Hj. cbn. rewrite upd_ne by (intros [-> Hj']; apply (Hdis j); [lia|]; split; [done|lia]). destruct (decide (j = si + k)) as [-> |]; [rewrite upd_eq; by eexists|]. rewrite upd_ne by lia. apply H3. lia.
      * intros b' j Hj Hj'. cbn. rewrite upd_ne by lia. rewrite upd_ne by (intros [-> ->]; apply Hj'; lia). apply H4; lia.
    + intros Hnt y. apply a_destroy_range.
      * intros j Hj. destruct (Hd j ltac:(lia)) as [W' _]. split; [done|]. cbn. rewrite upd_ne by (intros [-> ->]; apply (Hdis (si + k)); [lia|]; split; [done|lia]).
        destruct (lookup_lt_is_Some_2 xs (j - i)) as [z Hz]; [lia|]. exists z. specialize (H1 (j - i) z ltac:(lia) Hz). by replace (i + (j - i)) with j in H1 by lia.
      * intros g' Hr Hs. apply HE; [done| |].
        -- intros j Hj. rewrite Hs by (intros [-> Hj']; apply (Hdis j); [lia|]; split; [done|lia]). cbn. destruct (decide (j = si + k)) as [-> |]; [rewrite upd_eq; by eexists|]. rewrite upd_ne by lia.
           destruct (decide (j < si + k)); [apply H3; lia|]. destruct (lookup_lt_is_Some_2 xs (j - si)) as [z Hz]; [lia|]. exists z. specialize (H2 (j - si) z ltac:(lia) Hz). by replace (si + (j - si)) with j in H2 by lia.
        -- intros b' j Hj. destruct (decide (b' = b /\ i <= j < i + k)) as [[-> Hj']|Hj'].
           ++ rewrite Hr by lia. symmetry. apply Hd. lia.
           ++ rewrite Hs by done. cbn. rewrite upd_ne by (intros [-> ->]; apply Hj; lia). apply H4; done.
  - intros g (H1 & H2 & H3 & H4). apply HQ; [|done|done]. intros j x Hx. apply H1; [|done]. apply lookup_lt_Some in Hx. lia.
  - split_and!; [intros; lia| |intros; lia|done]. intros j x _ Hx. by apply Hsrc.
Qed.
(** relocate_range_strong: everything or nothing. *)
Lemma a_relocate_strong sb si n b i (xs : list T) (Q : _ -> core -> Prop) (E : core -> Prop) c : length xs = n ->
  (forall j x, xs !! j = Some x -> within c sb (si + j) /\ cells c sb (si + j) = Live x) ->
  (forall j, i <= j < i + n -> within c b j /\ cells c b j = Raw) ->
  (forall g, (forall j x, xs !! j = Some x -> g b (i + j) = Live x) -> (forall j, si <= j < si + n -> live (g sb j)) ->
     (forall b' j, ~ (b' = b /\ i <= j < i + n) -> ~ (b' = sb /\ si <= j < si + n) -> g b' j = cells c b' j) -> (nt_move = false -> forall j x, xs !! j = Some x -> g sb (si + j) = Live x) -> Q tt (with_cells c g)) ->
  (nt_move = false -> forall g, (forall b' j, g b' j = cells c b' j) -> E (with_cells c g)) ->
  always (relocate_strong nt_move mv sb si n b i) Q E c.
Proof.
  intros Hlen Hsrc Hd HQ HE. unfold relocate_strong, strong_construct. destruct nt_move eqn:Hnt.
  - pose proof (a_relocate_weak sb si n b i xs Q E c) as G. rewrite Hnt in G. apply G; [done..| |done]. intros g H1 H2 H3. by apply HQ.
  - apply (a_copy_loop _ _ _ _ xs); [done| |done| |by apply HE].
    + intros j x Hx. exists (Ref sb (si + j)). split; [|done]. by apply Hsrc.
    + intros g H1 H2. assert (Hs : forall j x, xs !! j = Some x -> g sb (si + j) = Live x).
      { intros j x Hx. destruct (Hsrc j x Hx) as [_ L]. rewrite H2; [done|]. intros [-> Hj]. destruct (Hd (si + j) ltac:(lia)) as [_ R]. congruence. }
      apply HQ; [done| | |done].
      * intros j Hj. destruct (lookup_lt_is_Some_2 xs (j - si)) as [x Hx]; [lia|]. exists x. specialize (Hs _ _ Hx). by replace (si + (j - si)) with j in Hs by lia.
      * intros b' j Hj _. by apply H2.
Qed.

(** Assigning to live objects. *)
Lemma a_assign_range b (Q : _ -> core -> Prop) (E : core -> Prop) : forall args (xs : list T) i c, Forall2 (fun a x => a = Val x) args xs ->
  (forall j, i <= j < i + length xs -> within c b j /\ live (cells c b j)) ->
  (forall g, (forall j x, xs !! j = Some x -> g b (i + j) = Live x) -> (forall b' j, ~ (b' = b /\ i <= j < i + length xs) -> g b' j = cells c b' j) -> Q tt (with_cells c g)) ->
  (forall g, (forall j, i <= j < i + length xs -> live (g b j)) -> (forall b' j, ~ (b' = b /\ i <= j < i + length xs) -> g b' j = cells c b' j) -> E (with_cells c g)) ->
  always (assign_range b i args) Q E c.
Proof.
  induction args as [|a args IH]; intros xs i c Ha Hl HQ HE; inversion Ha as [|? x ? xs' Hx Hxs]; subst.
  - cbn. apply a_ret. specialize (HQ (cells c)). destruct c. by apply HQ.
  - cbn [assign_range]. apply a_bind. destruct (Hl i) as [W [y L]]; [cbn; lia|]. apply (a_copy_assign _ x _ _ y); [done|done|done| |].
    + apply (IH xs'); [done| | |].
      * intros j Hj. destruct (Hl j) as [W' L']; [cbn; lia|]. split; [done|]. cbn. rewrite upd_ne by lia. done.
      * intros g H1 H2. apply (HQ g).
        -- intros [|j] z Hz; cbn in Hz.
           ++ injection Hz as ->. rewrite Nat.add_0_r. rewrite H2 by lia. cbn. apply upd_eq.
           ++ rewrite Nat.add_succ_r. by apply H1.
        -- intros b' j Hj. cbn in Hj. rewrite H2 by lia. cbn. apply upd_ne. lia.
      * intros g H1 H2. apply (HE g).
        -- intros j Hj. cbn in Hj. destruct (decide (j = i)) as [-> |]; [|apply H1; lia]. rewrite H2 by lia. cbn. rewrite upd_eq. by eexists.
        -- intros b' j Hj. cbn in Hj. rewrite H2 by lia. cbn. apply upd_ne. lia.
    + intros z. apply (HE (upd (cells c) b i (Live z))).
      * intros j Hj. destruct (decide (j = i)) as [-> |]; [rewrite upd_eq; by eexists|]. rewrite upd_ne by lia. by apply Hl.
      * intros b' j Hj. cbn in Hj. apply upd_ne. lia.
Qed.
(** std::shift_right by one and std::shift_left: [xs] are the moved objects. *)
Lemma a_shift_right b i (Q : _ -> core -> Prop) (E : core -> Prop) : forall n (xs : list T) c, length xs = n ->
  (forall j x, xs !! j = Some x -> cells c b (i + j) = Live x) -> (forall j, i <= j < i + S n -> within c b j /\ live (cells c b j)) ->
  (forall g, (forall j x, xs !! j = Some x -> g b (i + S j) = Live x) -> live (g b i) -> (forall b' j, ~ (b' = b /\ i <= j < i + S n) -> g b' j = cells c b' j) -> Q tt (with_cells c g)) ->
  (forall g, (forall j, i <= j < i + S n -> live (g b j)) -> (forall b' j, ~ (b' = b /\ i <= j < i + S n) -> g b' j = cells c b' j) -> E (with_cells c g)) ->
  always (shift_right1 mv b i n) Q E c.
Proof.
  induction n as [|n IH]; intros xs c Hlen Hx Hl HQ HE.
  - cbn. apply a_ret. specialize (HQ (cells c)). destruct c. apply HQ; [|apply Hl; lia|done]. destruct xs; [|done]. intros j x H. by rewrite lookup_nil in H.
  - cbn [shift_right1]. apply a_bind. destruct (Hl (i + n) ltac:(lia)) as [W _]. destruct (lookup_lt_is_Some_2 xs n) as [x Hn]; [lia|]. destruct (Hl (i + S n) ltac:(lia)) as [W' [y L']].
    apply (a_move_assign _ _ _ _ x y); [done|by apply Hx|done|done|lia| |].
    + apply (IH (take n xs)); [rewrite take_length; lia| | | |].
      * intros j z Hz. apply lookup_take_Some in Hz as [Hz Hj]. cbn. rewrite !upd_ne by lia. by apply Hx.
      * intros j Hj. destruct (Hl j ltac:(lia)) as [W2 L2]. split; [done|]. cbn. rewrite upd_ne by lia. destruct (decide (j = i + n)) as [-> |]; [rewrite upd_eq; by eexists|]. by rewrite upd_ne by lia.
      * intros g H1 H2 H3. apply (HQ g); [|done|].
        -- intros j z Hz. destruct (decide (j = n)) as [-> |].
           ++ rewrite H3 by lia. cbn. rewrite upd_eq. congruence.
           ++ apply H1. apply lookup_take_Some. split; [done|]. apply lookup_lt_Some in Hz. lia.
        -- intros b' j Hj. rewrite H3 by lia. cbn. rewrite !upd_ne by lia. done.
      * intros g H1 H2. apply (HE g).
        -- intros j Hj. destruct (decide (j = i + S n)) as [-> |]; [|apply H1; lia]. rewrite H2 by lia. cbn. rewrite upd_eq. by eexists.
        -- intros b' j Hj. rewrite H2 by lia. cbn. rewrite !upd_ne by lia. done.
    + intros u z. apply (HE (upd (upd (cells c) b (i + n) (Live u)) b (i + S n) (Live z))).
      * intros j Hj. destruct (decide (j = i + S n)) as [-> |]; [rewrite upd_eq; by eexists|]. rewrite upd_ne by lia. destruct (decide (j = i + n)) as [-> |]; [rewrite upd_eq; by eexists|]. rewrite upd_ne by lia. apply Hl. lia.
      * intros b' j Hj. rewrite !upd_ne by lia. done.
Qed.
Lemma a_shift_left b k (Q : _ -> core -> Prop) (E : core -> Prop) : 0 < k -> forall n (xs : list T) dst c, length xs = n ->
  (forall j x, xs !! j = Some x -> cells c b (dst + k + j) = Live x) -> (forall j, dst <= j < dst + k + n -> within c b j /\ live (cells c b j)) ->
  (forall g, (forall j x, xs !! j = Some x -> g b (dst + j) = Live x) -> (forall j, dst <= j < dst + k + n -> live (g b j)) -> (forall b' j, ~ (b' = b /\ dst <= j < dst + k + n) -> g b' j = cells c b' j) -> Q tt (with_cells c g)) ->
  (forall g, (forall j, dst <= j < dst + k + n -> live (g b j)) -> (forall b' j, ~ (b' = b /\ dst <= j < dst + k + n) -> g b' j = cells c b' j) -> E (with_cells c g)) ->
  always (shift_left mv b dst (dst + k) n) Q E c.
Proof.
  intros Hk. induction n as [|n IH]; intros xs dst c Hlen Hx Hl HQ HE.
  - cbn. apply a_ret. specialize (HQ (cells c)). destruct c. apply HQ; [|intros; by apply Hl|done]. destruct xs; [|done]. intros j x H. by rewrite lookup_nil in H.
  - cbn [shift_left]. destruct xs as [|x xs]; [done|]. apply a_bind. destruct (Hl dst ltac:(lia)) as [W [y L]]. destruct (Hl (dst + k) ltac:(lia)) as [W' _].
    apply (a_move_assign _ _ _ _ x y); [done| |done|done|lia| |].
    + specialize (Hx 0 x eq_refl). by rewrite Nat.add_0_r in Hx.
    + change (S (dst + k)) with (S dst + k). apply (IH xs); [by injection Hlen| | | |].
      * intros j z Hz. cbn. rewrite !upd_ne by lia. specialize (Hx (S j) z Hz). replace (S (dst + k + j)) with (dst + k + S j) by lia. done.
      * intros j Hj. destruct (Hl j ltac:(lia)) as [W2 L2]. split; [done|]. cbn. rewrite upd_ne by lia. destruct (decide (j = dst + k)) as [-> |]; [rewrite upd_eq; by eexists|]. by rewrite upd_ne by lia.
      * intros g H1 H2 H3. apply (HQ g).
        -- intros [|j] z Hz; cbn in Hz.
           ++ rewrite Nat.add_0_r. rewrite H3 by lia. cbn. rewrite upd_eq. congruence.
           ++ rewrite Nat.add_succ_r. by apply H1.
        -- intros j Hj. destruct (decide (j = dst)) as [-> |]; [|apply H2; lia]. rewrite H3 by lia. cbn. rewrite upd_eq. by eexists.
        -- intros b' j Hj. rewrite H3 by lia. cbn. rewrite !upd_ne by lia. done.
      * intros g H1 H2. apply (HE g).
        -- intros j Hj. destruct (decide (j = dst)) as [-> |]; [|apply H1; lia]. rewrite H2 by lia. cbn. rewrite upd_eq. by eexists.
        -- intros b' j Hj. rewrite H2 by lia. cbn. rewrite !upd_ne by lia. done.
    + intros u z. apply (HE (upd (upd (cells c) b (dst + k) (Live u)) b dst (Live z))).
      * intros j Hj. destruct (decide (j = dst)) as [-> |]; [rewrite upd_eq; by eexists|]. rewrite upd_ne by lia. destruct (decide (j = dst + k)) as [-> |]; [rewrite upd_eq; by eexists|]. rewrite upd_ne by lia. apply Hl. lia.
      * intros b' j Hj. rewrite !upd_ne by lia. done.
Qed.

(** The contents of a range of live objects. *)
Lemma live_values (g : nat -> cell T) n : (forall j, j < n -> live (g j)) -> exists l : list T, length l = n /\ forall j x, l !! j = Some x -> g j = Live x.
Proof.
  revert g. induction n as [|n IH]; intros g Hg.
  - exists []. split; [done|]. intros j x H. by rewrite lookup_nil in H.
  - destruct (IH g) as (l & Hl & Hv); [intros; apply Hg; lia|]. destruct (Hg n ltac:(lia)) as [x Hx]. exists (l ++ [x]). rewrite app_length, Hl. split; [cbn; lia|].
    intros j y Hy. destruct (decide (j < n)).
    + rewrite lookup_app_l in Hy by lia. by apply Hv.
    + assert (j = n) as -> by (apply lookup_lt_Some in Hy; rewrite app_length in Hy; cbn in Hy; lia). rewrite lookup_app_r, Hl, Nat.sub_diag in Hy by lia. cbn in Hy. congruence.
Qed.
End Rules.
