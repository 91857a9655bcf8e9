From stdpp Require Import list list_numbers.
From Coq Require Import Lia.
From Verif Require Import CircularBufferModel CircularBufferSpec.

Section Proofs.
Context {T : Type}.
Implicit Types (b : cbuf T) (d : deque T).

(** Representation relation. *)
Definition repr b d : Prop :=
  length (slots b) = capacity b /\
  capacity b = dcap d /\
  size b = length (ditems d) /\
  size b <= capacity b /\
  (first b < capacity b \/ (first b = 0 /\ capacity b = 0)) /\
  (forall k x, ditems d !! k = Some x -> slots b !! index_of_pos b k = Some (Some x)) /\
  (forall j, j < capacity b -> (forall k, k < size b -> index_of_pos b k <> j) ->
             slots b !! j = Some None).

Lemma repr_new cap : repr (new cap) (Deque cap ([] : list T)).
Proof.
  unfold repr, new, index_of_pos; cbn. rewrite replicate_length.
  repeat split; try lia.
  - intros k x; rewrite lookup_nil; done.
  - intros j Hj _. apply lookup_replicate_2; done.
Qed.

Lemma idx_inj b d k1 k2 : repr b d -> k1 < capacity b -> k2 < capacity b ->
  index_of_pos b k1 = index_of_pos b k2 -> k1 = k2.
Proof.
  intros (Hl&Hc&Hs&Hle&Hf&_&_) H1 H2. unfold index_of_pos.
  repeat case_decide; lia.
Qed.

Lemma idx_lt b d k : repr b d -> k < capacity b -> index_of_pos b k < capacity b.
Proof.
  intros (Hl&Hc&Hs&Hle&Hf&_&_) H1. unfold index_of_pos.
  repeat case_decide; lia.
Qed.

Lemma repr_get b d i : repr b d -> get b i = ditems d !! i.
Proof.
  intros (Hl&Hc&Hs&Hle&Hf&Hlive&Hdead). unfold get. case_decide as Hi.
  - destruct (lookup_lt_is_Some_2 (ditems d) i) as [x Hx]; [lia|].
    rewrite (Hlive i x Hx), Hx. done.
  - symmetry. apply lookup_ge_None_2. lia.
Qed.

Lemma repr_looks_like b d : repr b d -> looks_like b d.
Proof.
  intros H. pose proof (repr_get b d) as Hget. specialize (fun i => Hget i H) as Hg; clear Hget.
  pose proof H as (Hl&Hc&Hs&Hle&Hf&Hlive&Hdead).
  unfold looks_like. repeat split; try done.
  - unfold elements. apply list_eq. intros i.
    rewrite !list_lookup_fmap, Hs.
    destruct (decide (i < length (ditems d))) as [Hi|Hi].
    + rewrite lookup_seq_lt by lia. cbn. rewrite Hg.
      destruct (lookup_lt_is_Some_2 (ditems d) i Hi) as [x Hx]. rewrite Hx. done.
    + rewrite lookup_seq_ge by lia. cbn. rewrite lookup_ge_None_2 by lia. done.
  - unfold get_front, is_empty. rewrite Hs.
    destruct (ditems d) as [|x l] eqn:E; cbn; [done|].
    specialize (Hlive 0 x). rewrite <- (Nat.add_0_r (first b)).
    unfold index_of_pos in Hlive. cbn in *.
    case_decide as Hd; [lia|]. rewrite Hlive by done. done.
  - unfold get_back, is_empty. rewrite Hs, last_lookup.
    destruct (ditems d) as [|x l] eqn:E; cbn -[get]; [done|].
    rewrite Hg. cbn. f_equal. lia.
  - unfold is_empty. rewrite Hs. destruct (ditems d); done.
  - unfold is_full. rewrite Hs, Hc.
    destruct (Nat.eqb_spec (length (ditems d)) (dcap d)); case_bool_decide; done.
Qed.

Lemma repr_live_lookup b d k : repr b d -> k < size b ->
  exists x, slots b !! index_of_pos b k = Some (Some x).
Proof.
  intros (Hl&Hc&Hs&Hle&Hf&Hlive&Hdead) Hk.
  destruct (lookup_lt_is_Some_2 (ditems d) k) as [x Hx]; [lia|].
  exists x. auto.
Qed.

Lemma idx_0 b d : repr b d -> index_of_pos b 0 = first b.
Proof. intros (Hl&Hc&Hs&Hle&Hf&_). unfold index_of_pos. case_decide; lia. Qed.

Lemma repr_push_back b d v : repr b d ->
  match dstep d (PushBack v) with
  | Some d' => exists b', emplace_back b v = Some b' /\ repr b' d'
  | None => emplace_back b v = None
  end.
Proof.
  intros H. pose proof H as (Hl&Hc&Hs&Hle&Hf&Hlive&Hdead). cbn.
  unfold emplace_back. rewrite <- Hc.
  case_decide as Hc0.
  { rewrite Hc0. done. }
  rewrite (proj2 (Nat.eqb_neq _ _) Hc0).
  unfold is_full. destruct (Nat.eqb_spec (size b) (capacity b)) as [Hfull|Hnf].
  - rewrite decide_True by lia.
    destruct (repr_live_lookup b d 0 H) as [x Hx]; [lia|].
    rewrite (idx_0 b d H) in Hx.
    unfold assign_at. rewrite Hx. cbn. eexists; split; [done|].
    unfold repr, index_of_pos, next_idx; cbn. rewrite insert_length.
    destruct (ditems d) as [|y l] eqn:E; [cbn in *; lia|]. cbn in *.
    rewrite app_length; cbn.
    repeat split; try lia.
    + case_decide; lia.
    + intros k z Hz. apply lookup_app_Some in Hz.
      destruct Hz as [Hz|[Hk Hz]].
      * assert (k < length l) by (eapply lookup_lt_Some; eauto).
        specialize (Hlive (S k) z Hz). unfold index_of_pos in Hlive.
        repeat case_decide; try lia;
          (rewrite list_lookup_insert_ne by lia; rewrite <- Hlive; f_equal; lia).
      * destruct (k - length l) as [|m] eqn:Ek; [|done]. cbn in Hz. injection Hz as <-.
        repeat case_decide; try lia;
          (match goal with |- <[_:=_]> _ !! ?i = _ => replace i with (first b) by lia end;
           apply list_lookup_insert; lia).
    + intros j Hj Hno. exfalso.
      (* full: every slot is used *)
      destruct (decide (first b + 1 = capacity b)) as [E1|E1].
      * apply (Hno j); [lia|]. repeat case_decide; lia.
      * destruct (decide (first b + 1 <= j)) as [E2|E2].
        -- apply (Hno (j - (first b + 1))); [lia|]. repeat case_decide; lia.
        -- apply (Hno (capacity b + j - (first b + 1))); [lia|]. repeat case_decide; lia.
  - rewrite decide_False by lia.
    assert (Hraw : slots b !! index_of_pos b (size b) = Some None).
    { apply Hdead; [eapply idx_lt; [done|lia]|].
      intros k Hk Heq. apply (idx_inj b d) in Heq; try done; lia. }
    unfold construct_at. rewrite Hraw. cbn. eexists; split; [done|].
    pose proof (idx_lt b d (size b) H ltac:(lia)) as Hi.
    unfold repr; cbn. rewrite insert_length, app_length; cbn.
    repeat split; try lia.
    + intros k z Hz. change (index_of_pos (CBuf _ (first b) _ (capacity b)) k) with (index_of_pos b k).
      apply lookup_app_Some in Hz. destruct Hz as [Hz|[Hk Hz]].
      * assert (k < length (ditems d)) by (eapply lookup_lt_Some; eauto).
        rewrite list_lookup_insert_ne; [auto|].
        intros Heq. apply (idx_inj b d) in Heq; try done; lia.
      * destruct (k - length (ditems d)) as [|m] eqn:Ek; [|done].
        cbn in Hz. injection Hz as <-. replace k with (size b) by lia.
        apply list_lookup_insert. lia.
    + intros j Hj Hno. change (index_of_pos (CBuf _ (first b) _ (capacity b))) with (index_of_pos b) in Hno.
      rewrite list_lookup_insert_ne.
      * apply Hdead; [lia|]. intros k Hk. apply Hno. lia.
      * apply Hno. lia.
Qed.

Lemma repr_push_front b d v : repr b d ->
  match dstep d (PushFront v) with
  | Some d' => exists b', emplace_front b v = Some b' /\ repr b' d'
  | None => emplace_front b v = None
  end.
Proof.
  intros H. pose proof H as (Hl&Hc&Hs&Hle&Hf&Hlive&Hdead). cbn.
  unfold emplace_front. rewrite <- Hc.
  case_decide as Hc0.
  { rewrite Hc0. done. }
  rewrite (proj2 (Nat.eqb_neq _ _) Hc0).
  assert (Hpf : index_of_pos b (capacity b - 1) = prev_idx b (first b)).
  { unfold index_of_pos, prev_idx. repeat case_decide; lia. }
  pose proof (idx_lt b d (capacity b - 1) H ltac:(lia)) as Hplt.
  unfold is_full. destruct (Nat.eqb_spec (size b) (capacity b)) as [Hfull|Hnf].
  - rewrite decide_True by lia.
    destruct (repr_live_lookup b d (capacity b - 1) H) as [x Hx]; [lia|].
    rewrite Hpf in Hx.
    unfold assign_at. rewrite Hx. cbn. eexists; split; [done|].
    unfold repr, index_of_pos; cbn. rewrite insert_length, take_length.
    repeat split; try lia.
    + intros k z Hz. destruct k as [|k].
      * cbn in Hz. injection Hz as <-. case_decide; [lia|].
        rewrite Nat.add_0_r. apply list_lookup_insert. lia.
      * cbn in Hz. apply lookup_take_Some in Hz. destruct Hz as [Hz Hk].
        specialize (Hlive k z Hz). unfold index_of_pos in Hlive.
        rewrite <- Hlive. unfold prev_idx in *.
        repeat case_decide; try lia;
          (rewrite list_lookup_insert_ne by lia; f_equal; lia).
    + intros j Hj Hno. exfalso. unfold prev_idx in *.
      destruct (decide (first b = 0)) as [E1|E1].
      * destruct (decide (j = capacity b - 1)) as [E2|E2].
        -- apply (Hno 0); [lia|]. repeat case_decide; lia.
        -- apply (Hno (j + 1)); [lia|]. repeat case_decide; lia.
      * destruct (decide (first b - 1 <= j)) as [E2|E2].
        -- apply (Hno (j - (first b - 1))); [lia|]. repeat case_decide; lia.
        -- apply (Hno (capacity b + j - (first b - 1))); [lia|]. repeat case_decide; lia.
  - rewrite decide_False by lia.
    assert (Hraw : slots b !! prev_idx b (first b) = Some None).
    { rewrite <- Hpf. apply Hdead; [lia|].
      intros k Hk Heq. apply (idx_inj b d) in Heq; try done; lia. }
    unfold construct_at. rewrite Hraw. cbn. eexists; split; [done|].
    rewrite Hpf in Hplt.
    unfold repr, index_of_pos; cbn. rewrite insert_length.
    repeat split; try lia.
    + intros k z Hz. destruct k as [|k].
      * cbn in Hz. injection Hz as <-. case_decide; [lia|].
        rewrite Nat.add_0_r. apply list_lookup_insert. lia.
      * cbn in Hz. assert (k < length (ditems d)) by (eapply lookup_lt_Some; eauto).
        specialize (Hlive k z Hz). unfold index_of_pos in Hlive.
        rewrite <- Hlive. unfold prev_idx in *.
        repeat case_decide; try lia;
          (rewrite list_lookup_insert_ne by lia; f_equal; lia).
    + intros j Hj Hno.
      assert (j <> prev_idx b (first b)) as Hne.
      { intros ->. apply (Hno 0); [lia|]. case_decide; lia. }
      rewrite list_lookup_insert_ne by congruence.
      apply Hdead; [lia|]. intros k Hk. specialize (Hno (S k) ltac:(lia)).
      unfold index_of_pos, prev_idx in *. repeat case_decide; lia.
Qed.

Lemma repr_pop_front b d : repr b d ->
  match dstep d PopFront with
  | Some d' => exists b', pop_front b = Some b' /\ repr b' d'
  | None => pop_front b = None
  end.
Proof.
  intros H. pose proof H as (Hl&Hc&Hs&Hle&Hf&Hlive&Hdead). cbn.
  unfold pop_front, is_empty.
  destruct (ditems d) as [|x l] eqn:E; cbn in Hs.
  { rewrite Hs. done. }
  destruct (Nat.eqb_spec (size b) 0) as [?|_]; [lia|].
  destruct (repr_live_lookup b d 0 H) as [y Hy]; [lia|].
  rewrite (idx_0 b d H) in Hy.
  unfold destroy_at. rewrite Hy. cbn. eexists; split; [done|].
  unfold repr, index_of_pos, next_idx; cbn. rewrite insert_length.
  repeat split; try lia.
  - case_decide; lia.
  - intros k z Hz. assert (k < length l) by (eapply lookup_lt_Some; eauto).
    specialize (Hlive (S k) z Hz). unfold index_of_pos in Hlive.
    rewrite <- Hlive.
    repeat case_decide; try lia;
      (rewrite list_lookup_insert_ne by lia; f_equal; lia).
  - intros j Hj Hno. destruct (decide (j = first b)) as [->|Hne].
    + apply list_lookup_insert. lia.
    + rewrite list_lookup_insert_ne by congruence.
      apply Hdead; [lia|]. intros k Hk. destruct k as [|k].
      * rewrite (idx_0 b d H). congruence.
      * specialize (Hno k ltac:(lia)). unfold index_of_pos. repeat case_decide; lia.
Qed.

Lemma repr_pop_back b d : repr b d ->
  match dstep d PopBack with
  | Some d' => exists b', pop_back b = Some b' /\ repr b' d'
  | None => pop_back b = None
  end.
Proof.
  intros H. pose proof H as (Hl&Hc&Hs&Hle&Hf&Hlive&Hdead). cbn [dstep].
  unfold pop_back, is_empty.
  destruct (ditems d) as [|x l] eqn:E.
  { cbn in Hs. rewrite Hs. done. }
  rewrite <- E in *.
  assert (0 < length (ditems d)) by (rewrite E; cbn; lia).
  destruct (Nat.eqb_spec (size b) 0) as [?|_]; [lia|].
  destruct (repr_live_lookup b d (size b - 1) H) as [y Hy]; [lia|].
  unfold destroy_at. rewrite Hy. cbn. eexists; split; [done|].
  pose proof (idx_lt b d (size b - 1) H ltac:(lia)) as Hi.
  unfold repr; cbn. rewrite insert_length, take_length.
  repeat split; try lia.
  - intros k z Hz. change (index_of_pos (CBuf _ (first b) _ (capacity b)) k) with (index_of_pos b k).
    apply lookup_take_Some in Hz. destruct Hz as [Hz Hk].
    rewrite list_lookup_insert_ne; [auto|].
    intros Heq. apply (idx_inj b d) in Heq; try done; lia.
  - intros j Hj Hno. change (index_of_pos (CBuf _ (first b) _ (capacity b))) with (index_of_pos b) in Hno.
    destruct (decide (j = index_of_pos b (size b - 1))) as [->|Hne].
    + apply list_lookup_insert. lia.
    + rewrite list_lookup_insert_ne by congruence.
      apply Hdead; [lia|]. intros k Hk.
      destruct (decide (k = size b - 1)) as [->|]; [congruence|]. apply Hno. lia.
Qed.

(** Destroying all positions of a suffix leaves exactly raw memory there. *)
Lemma destroy_positions_ok b d : repr b d -> forall n m s,
  m + n = size b -> length s = capacity b ->
  (forall k, m <= k -> k < size b -> exists x, s !! index_of_pos b k = Some (Some x)) ->
  (forall j, j < capacity b -> (forall k, m <= k -> k < size b -> index_of_pos b k <> j) -> s !! j = Some None) ->
  destroy_positions b (seq m n) s = Some (replicate (capacity b) None).
Proof.
  intros H n. pose proof H as (Hl&Hc&Hs&Hle&Hf&Hlive&Hdead).
  induction n as [|n IH]; intros m s Hmn Hls Hs1 Hs2; cbn.
  - f_equal. apply list_eq. intros i.
    destruct (decide (i < capacity b)) as [Hi|Hi].
    + rewrite lookup_replicate_2 by done. apply Hs2; [done|]. intros; lia.
    + rewrite !lookup_ge_None_2; rewrite ?replicate_length; lia || done.
  - destruct (Hs1 m) as [x Hx]; [lia..|].
    unfold destroy_at. rewrite Hx. cbn.
    pose proof (idx_lt b d m H ltac:(lia)) as Hi.
    apply IH; [lia|rewrite insert_length; done|..].
    + intros k Hk1 Hk2. rewrite list_lookup_insert_ne; [apply Hs1; lia|].
      intros Heq. apply (idx_inj b d) in Heq; try done; lia.
    + intros j Hj Hno. destruct (decide (j = index_of_pos b m)) as [->|Hne].
      * apply list_lookup_insert. lia.
      * rewrite list_lookup_insert_ne by congruence. apply Hs2; [done|].
        intros k Hk1 Hk2. destruct (decide (k = m)) as [->|]; [congruence|]. apply Hno; lia.
Qed.

Lemma clear_eq b d : repr b d -> clear b = Some (CBuf (replicate (capacity b) None) 0 0 (capacity b)).
Proof.
  intros H. pose proof H as (Hl&Hc&Hs&Hle&Hf&Hlive&Hdead).
  unfold clear. rewrite (destroy_positions_ok b d H (size b) 0); try done.
  - intros k _ Hk. eapply repr_live_lookup; eauto.
  - intros j Hj Hno. apply Hdead; [done|]. intros k Hk. apply Hno; lia.
Qed.

Lemma repr_raw cap : repr (CBuf (replicate cap None) 0 0 cap) (Deque cap ([] : list T)).
Proof. exact (repr_new cap). Qed.

Lemma repr_clear b d : repr b d -> exists b', clear b = Some b' /\ repr b' (Deque (dcap d) []).
Proof.
  intros H. rewrite (clear_eq b d H). eexists; split; [done|].
  pose proof H as (Hl&Hc&_). rewrite Hc. apply repr_raw.
Qed.

Lemma repr_reset b d n : repr b d -> exists b', reset b n = Some b' /\ repr b' (Deque n []).
Proof.
  intros H. unfold reset. rewrite (clear_eq b d H). cbn.
  destruct (Nat.eqb_spec n (capacity b)) as [->|Hne]; eexists; (split; [done|]); apply repr_raw.
Qed.

Lemma copy_positions_ok b d cap : repr b d -> forall n m s,
  m + n <= size b -> m + n <= cap -> length s = cap ->
  (forall j, m <= j -> j < cap -> s !! j = Some None) ->
  copy_positions b (seq m n) s =
    Some (take m s ++ map Some (take n (drop m (ditems d))) ++ replicate (cap - (m + n)) None).
Proof.
  intros H n. pose proof H as (Hl&Hc&Hs&Hle&Hf&Hlive&Hdead).
  induction n as [|n IH]; intros m s Hmn Hcap Hls Hraw.
  - cbn. rewrite take_0. cbn. f_equal. apply list_eq. intros i. rewrite Nat.add_0_r.
    destruct (decide (i < m)) as [Hi|Hi].
    + rewrite lookup_app_l by (rewrite take_length; lia). rewrite lookup_take by lia. done.
    + rewrite lookup_app_r by (rewrite take_length; lia). rewrite take_length.
      rewrite Nat.min_l by lia.
      destruct (decide (i < cap)) as [Hi2|Hi2].
      * rewrite Hraw by lia. symmetry. apply lookup_replicate_2. lia.
      * rewrite (lookup_ge_None_2 s) by lia. symmetry. apply lookup_ge_None_2. rewrite replicate_length. lia.
  - cbn [seq copy_positions]. rewrite (repr_get b d m H).
    destruct (lookup_lt_is_Some_2 (ditems d) m) as [x Hx]; [lia|]. rewrite Hx. cbn.
    unfold construct_at. rewrite (Hraw m) by lia. cbn.
    rewrite IH; [|lia|lia|by rewrite insert_length|].
    + f_equal.
      rewrite (drop_S (ditems d) x m Hx). cbn [take map].
      erewrite take_S_r; [|apply list_lookup_insert; lia].
      rewrite take_insert by lia. rewrite <- app_assoc. cbn. do 4 f_equal. lia.
    + intros j Hj1 Hj2. rewrite list_lookup_insert_ne by lia. apply Hraw; lia.
Qed.

Lemma repr_packed (l : list T) cap : length l <= cap ->
  repr (CBuf (map Some l ++ replicate (cap - length l) None) 0 (length l) cap) (Deque cap l).
Proof.
  intros Hle. unfold repr, index_of_pos; cbn.
  rewrite app_length, map_length, replicate_length.
  repeat split; try lia.
  - intros k x Hx. assert (k < length l) by (eapply lookup_lt_Some; eauto).
    rewrite decide_False by lia. rewrite lookup_app_l by (rewrite map_length; lia).
    rewrite list_lookup_fmap, Hx. done.
  - intros j Hj Hno. destruct (decide (j < length l)) as [Hjl|Hjl].
    + exfalso. apply (Hno j Hjl). rewrite decide_False by lia. done.
    + rewrite lookup_app_r by (rewrite map_length; lia). rewrite map_length.
      apply lookup_replicate_2. lia.
Qed.

Lemma repr_set_capacity b d n : repr b d ->
  exists b', set_capacity b n = Some b' /\ repr b' (Deque n (take n (ditems d))).
Proof.
  intros H. pose proof H as (Hl&Hc&Hs&Hle&Hf&Hlive&Hdead).
  unfold set_capacity. destruct (Nat.eqb_spec n (capacity b)) as [->|Hne].
  - eexists; split; [done|]. rewrite take_ge by lia. rewrite Hc. destruct d; done.
  - rewrite (copy_positions_ok b d n H (n `min` size b) 0); cbn;
      [|lia|lia|by rewrite replicate_length|].
    + rewrite (clear_eq b d H). cbn. eexists; split; [done|].
      rewrite drop_0.
      replace (n `min` size b) with (length (take n (ditems d))) by (rewrite take_length; lia).
      replace (take (length (take n (ditems d))) (ditems d)) with (take n (ditems d)).
      * apply repr_packed. rewrite take_length; lia.
      * rewrite take_length. destruct (decide (n <= length (ditems d))) as [Hn|Hn].
        -- rewrite Nat.min_l by lia. done.
        -- rewrite Nat.min_r by lia. rewrite !take_ge by lia. done.
    + intros j _ Hj. apply lookup_replicate_2. done.
Qed.

Lemma repr_step b d o : repr b d ->
  match dstep d o with
  | Some d' => exists b', step b o = Some b' /\ repr b' d'
  | None => step b o = None
  end.
Proof.
  intros H. destruct o as [v|v| | | |n|n].
  - apply (repr_push_back b d v H).
  - apply (repr_push_front b d v H).
  - apply (repr_pop_front b d H).
  - apply (repr_pop_back b d H).
  - apply (repr_clear b d H).
  - apply (repr_reset b d n H).
  - apply (repr_set_capacity b d n H).
Qed.

Lemma repr_run os : forall b d, repr b d ->
  match drun d os with
  | Some d' => exists b', run b os = Some b' /\ repr b' d'
  | None => run b os = None
  end.
Proof.
  induction os as [|o os IH]; intros b d H; cbn.
  - eauto.
  - pose proof (repr_step b d o H) as Hs. destruct (dstep d o) as [d'|]; cbn.
    + destruct Hs as (b'&Hb'&Hr). rewrite Hb'. cbn. apply IH. done.
    + rewrite Hs. done.
Qed.

Lemma run_refines cap os :
  match drun (Deque cap []) os with
  | Some d => exists b, run (new cap) os = Some b /\ looks_like b d
  | None => run (new cap) os = None
  end.
Proof.
  pose proof (repr_run os _ _ (repr_new cap)) as H.
  destruct (drun _ os) as [d|]; [|done].
  destruct H as (b&Hb&Hr). exists b. split; [done|]. apply repr_looks_like. done.
Qed.

Lemma repr_from_range cap (l : list T) :
  repr (from_range cap l) (Deque cap (drop (length l - cap) l)).
Proof.
  unfold from_range.
  assert (drop (length l - cap `min` length l) l = drop (length l - cap) l) as E by (f_equal; lia).
  rewrite E.
  pose proof (repr_packed (drop (length l - cap) l) cap) as Hp. rewrite drop_length in Hp.
  replace (length l - (length l - cap)) with (cap `min` length l) in Hp by lia.
  apply Hp. lia.
Qed.

Lemma from_range_refines cap (l : list T) : looks_like (from_range cap l) (Deque cap (drop (length l - cap) l)).
Proof. apply repr_looks_like, repr_from_range. Qed.

Lemma run_from_range cap (l : list T) os :
  match drun (Deque cap (drop (length l - cap) l)) os with
  | Some d => exists b, run (from_range cap l) os = Some b /\ looks_like b d
  | None => run (from_range cap l) os = None
  end.
Proof.
  pose proof (repr_run os _ _ (repr_from_range cap l)) as H.
  destruct (drun _ os) as [d|]; [|done].
  destruct H as (b&Hb&Hr). exists b. split; [done|]. apply repr_looks_like. done.
Qed.

Lemma equal_lists_ok (eqb : T -> T -> bool) (Heqb : forall x y, eqb x y = true <-> x = y) (l r : list T) :
  exists q, equal_lists eqb (map Some l) (map Some r) = Some q /\ (q = true <-> l = r).
Proof.
  revert r; induction l as [|x l IH]; intros [|y r]; cbn.
  - eexists; split; [done|]. done.
  - eexists; split; [done|]. done.
  - eexists; split; [done|]. done.
  - destruct (eqb x y) eqn:E.
    + apply Heqb in E as ->. destruct (IH r) as (q&Hq&Hiff). exists q. split; [done|].
      rewrite Hiff. split; congruence.
    + eexists; split; [done|]. split; [done|]. intros [= -> ->].
      rewrite (proj2 (Heqb y y) eq_refl) in E. done.
Qed.

Lemma cb_eqb_ok (eqb : T -> T -> bool) (Heqb : forall x y, eqb x y = true <-> x = y) a b da db :
  looks_like a da -> looks_like b db ->
  exists q, cb_eqb eqb a b = Some q /\ (q = true <-> ditems da = ditems db).
Proof.
  intros (_&Hsa&_&Hea&_) (_&Hsb&_&Heb&_). unfold cb_eqb.
  destruct (Nat.eqb_spec (size a) (size b)) as [E|E].
  - rewrite Hea, Heb. apply equal_lists_ok; done.
  - eexists; split; [done|]. split; [done|]. intros Heq. rewrite Hsa, Hsb, Heq in E. done.
Qed.

End Proofs.
