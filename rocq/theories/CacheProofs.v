From stdpp Require Import list list_numbers sets.
From Coq Require Import Lia.
From Verif Require Import CircularBufferModel CircularBufferSpec CircularBufferProofs CacheModel CacheSpec.

Section Proofs.
Context {K V : Type} `{EqDecision K}.
Implicit Types (s : fifo K V) (c : cache K V) (m l : list (K * V)) (k : K) (v : V).

Lemma assoc_None m k : assoc m k = None <-> k ∉ m.*1.
Proof.
  induction m as [|[k' v'] m IH]; cbn.
  - split; [intros _; apply not_elem_of_nil|done].
  - rewrite not_elem_of_cons. case_decide as E; [|rewrite IH].
    + split; [done|]. intros [? _]. congruence.
    + split; [|tauto]. intros; split; done.
Qed.

Lemma assoc_Some m k v : NoDup m.*1 -> assoc m k = Some v <-> (k, v) ∈ m.
Proof.
  induction m as [|[k' v'] m IH]; cbn; intros Hnd.
  - split; [done|]. intros H; apply elem_of_nil in H; done.
  - apply NoDup_cons in Hnd as [Hni Hnd]. rewrite elem_of_cons. case_decide as E.
    + subst. split.
      * intros [= ->]. auto.
      * intros [H|H]; [congruence|]. exfalso. apply Hni.
        apply elem_of_list_fmap. exists (k', v). done.
    + rewrite IH by done. split; [auto|]. intros [H|H]; [congruence|done].
Qed.

Lemma assoc_perm m l k : NoDup m.*1 -> m ≡ₚ l -> assoc m k = assoc l k.
Proof.
  intros Hnd Hp. assert (NoDup l.*1) by (rewrite <- Hp; done).
  destruct (assoc m k) as [v|] eqn:E.
  - apply assoc_Some in E; [|done]. symmetry. apply assoc_Some; [done|]. rewrite <- Hp. done.
  - symmetry. apply assoc_None. apply assoc_None in E. rewrite <- Hp. done.
Qed.

Lemma fget_assoc (s : fifo K V) k : fget s k = assoc (fitems s) k.
Proof.
  unfold fget. induction (fitems s) as [|[k' v'] l IH]; cbn; [done|].
  case_decide as E1; case_decide as E2; cbn in *; try congruence.
  rewrite <- IH. destruct (list_find _ l) as [[i p]|]; done.
Qed.

Definition assign m k v := map (fun p => if decide (p.1 = k) then (p.1, v) else p) m.

Lemma assign_keys m k v : (assign m k v).*1 = m.*1.
Proof.
  unfold assign. induction m as [|[k' v'] m IH]; cbn; [done|].
  f_equal; [case_decide; done|done].
Qed.

Lemma assign_fresh m k v : k ∉ m.*1 -> assign m k v = m.
Proof.
  unfold assign. induction m as [|[k' v'] m IH]; cbn; [done|].
  rewrite not_elem_of_cons. intros [? ?]. rewrite IH by done. case_decide; congruence.
Qed.

Lemma insert_or_assign_spec m k v : NoDup m.*1 ->
  insert_or_assign m k v = if decide (k ∈ m.*1) then (assign m k v, false) else (m ++ [(k, v)], true).
Proof.
  induction m as [|[k' v'] m IH]; cbn; intros Hnd.
  - case_decide as E; [apply elem_of_nil in E; done|done].
  - apply NoDup_cons in Hnd as [Hni Hnd]. rewrite (IH Hnd). clear IH.
    destruct (decide (k = k')) as [E|E].
    + subst. rewrite (decide_True (P := k' ∈ k' :: m.*1)) by left.
      fold (assign m k' v). rewrite assign_fresh by done.
      rewrite decide_True by done. done.
    + rewrite (decide_False (P := k' = k)) by congruence.
      destruct (decide (k ∈ m.*1)) as [E1|E1].
      * rewrite decide_True by (right; done). done.
      * rewrite decide_False; [done|]. rewrite elem_of_cons. tauto.
Qed.

Lemma map_erase_spec m k v : NoDup m.*1 -> (k, v) ∈ m ->
  exists m', map_erase m k = Some m' /\ m ≡ₚ (k, v) :: m'.
Proof.
  induction m as [|[k' v'] m IH]; cbn; intros Hnd Hin; [apply elem_of_nil in Hin; done|].
  apply NoDup_cons in Hnd as [Hni Hnd]. apply elem_of_cons in Hin. case_decide as E.
  - subst. destruct Hin as [[= ->]|Hin]; [eauto|].
    exfalso. apply Hni. apply elem_of_list_fmap. exists (k', v). done.
  - destruct Hin as [Hin|Hin]; [congruence|].
    destruct (IH Hnd Hin) as (m'&He&Hp). rewrite He. cbn. eexists; split; [done|].
    rewrite Hp. apply Permutation_swap.
Qed.

Definition crepr (c : cache K V) (s : fifo K V) : Prop :=
  repr (order_ c) (Deque (fcap s) (fitems s).*1) /\ NoDup (fitems s).*1 /\ map_ c ≡ₚ fitems s.

Lemma crepr_looks_like c s : crepr c s -> cache_looks_like c s.
Proof.
  intros (Hr&Hnd&Hp). pose proof (repr_looks_like _ _ Hr) as (Hc&Hs&Hle&_). cbn in *.
  assert (NoDup (map_ c).*1) by (rewrite Hp; done).
  rewrite fmap_length in Hs.
  unfold cache_looks_like, cache_capacity, cache_size.
  assert (length (map_ c) = length (fitems s)) by (rewrite Hp; done).
  repeat split; try lia.
  - intros k. unfold cache_get, cache_size. rewrite fget_assoc.
    destruct (Nat.eqb_spec (length (map_ c)) 0) as [E|E].
    + destruct (fitems s); [done|cbn in *; lia].
    + apply assoc_perm; done.
  - intros k. unfold cache_contains.
    destruct (assoc (map_ c) k) as [v|] eqn:E.
    + symmetry. apply bool_decide_eq_true. apply assoc_Some in E; [|done].
      rewrite Hp in E. apply elem_of_list_fmap. exists (k, v). done.
    + symmetry. apply bool_decide_eq_false. apply assoc_None in E. rewrite <- Hp. done.
Qed.

Lemma crepr_new cap : crepr (cache_new cap) (Fifo cap []).
Proof. split; [apply repr_new|]. split; [constructor|constructor]. Qed.

(** The two outcomes of an insertion. *)
Lemma crepr_register c s k v : crepr c s -> fcap s <> 0 ->
  exists c', register (order_ c) k (insert_or_assign (map_ c) k v) = Some c' /\ crepr c' (fadd s k v).
Proof.
  intros (Hr&Hnd&Hp) Hc0.
  assert (Hndm : NoDup (map_ c).*1) by (rewrite Hp; done).
  rewrite insert_or_assign_spec by done. unfold fadd. rewrite (decide_False (P := fcap s = 0)) by done.
  destruct (decide (k ∈ (map_ c).*1)) as [Hin|Hin].
  - rewrite Hp in Hin. rewrite decide_True by done. cbn. eexists; split; [done|].
    unfold crepr; cbn. fold (assign (fitems s) k v). rewrite assign_keys. split; [done|]. split; [done|].
    unfold assign. rewrite Hp. done.
  - rewrite Hp in Hin. rewrite decide_False by done. unfold register.
    pose proof (repr_push_back _ _ k Hr) as Hpush. cbn in Hpush.
    rewrite decide_False in Hpush by done. destruct Hpush as (o'&Ho'&Hr'). rewrite fmap_length in Hr'.
    pose proof (repr_looks_like _ _ Hr) as (HC&HS&Hle&_&_&Hfront&_&_&Hfull). cbn in *.
    rewrite Hfull. rewrite fmap_length in *.
    destruct (decide (length (fitems s) = fcap s)) as [Hf|Hf].
    + rewrite bool_decide_eq_true_2 by done.
      rewrite Hfront.
      destruct (fitems s) as [|[k0 v0] t] eqn:E; [cbn in *; lia|]. cbn -[fmap list_fmap].
      assert (Hnd2 : NoDup (map_ c ++ [(k, v)]).*1).
      { rewrite fmap_app. apply NoDup_app. split; [done|]. split.
        - intros x Hx Hx2. cbn in Hx2. apply elem_of_list_singleton in Hx2. subst.
          rewrite Hp in Hx. done.
        - cbn. apply NoDup_singleton. }
      destruct (map_erase_spec (map_ c ++ [(k, v)]) k0 v0) as (m'&He&Hp').
      { done. }
      { rewrite Hp. left. }
      cbn in *. rewrite He. cbn. rewrite Ho'. cbn. eexists; split; [done|].
      unfold crepr; cbn. rewrite fmap_app. cbn.
      assert (Hm : m' ≡ₚ t ++ [(k, v)]).
      { apply (Permutation_cons_inv (a := (k0, v0))). rewrite <- Hp', Hp. done. }
      split; [done|]. split; [|done].
      change (t.*1 ++ [k]) with (t.*1 ++ [(k, v)].*1).
      rewrite <- fmap_app, <- Hm. rewrite Hp' in Hnd2. cbn in Hnd2. apply NoDup_cons in Hnd2. tauto.
    + rewrite bool_decide_eq_false_2 by done. cbn. rewrite Ho'. cbn. eexists; split; [done|].
      unfold crepr; cbn. rewrite fmap_app. cbn. split; [done|]. split.
      * apply NoDup_app. split; [done|]. split; [|apply NoDup_singleton].
        intros x Hx Hx2. apply elem_of_list_singleton in Hx2. subst. done.
      * rewrite Hp. done.
Qed.

Lemma crepr_capacity c s : crepr c s -> cache_capacity c = fcap s.
Proof. intros (Hr&_&_). destruct Hr as (_&Hc&_). done. Qed.

Lemma crepr_insert c s k v : crepr c s ->
  exists c', cache_insert c k v = Some c' /\ crepr c' (fadd s k v).
Proof.
  intros H. unfold cache_insert. rewrite (crepr_capacity c s H).
  destruct (Nat.eqb_spec (fcap s) 0) as [E|E].
  - unfold fadd. rewrite decide_True by done. eauto.
  - apply crepr_register; done.
Qed.

Lemma crepr_try_insert c s k v : crepr c s ->
  exists c', cache_try_insert c k v = Some c' /\ crepr c' (ftry s k v).
Proof.
  intros H. pose proof H as (Hr&Hnd&Hp). unfold cache_try_insert, ftry. rewrite (crepr_capacity c s H).
  assert (Hndm : NoDup (map_ c).*1) by (rewrite Hp; done).
  destruct (Nat.eqb_spec (fcap s) 0) as [E|E].
  - case_decide; [eauto|]. unfold fadd. rewrite decide_True by done. eauto.
  - unfold try_emplace. destruct (assoc (map_ c) k) as [v0|] eqn:Ea.
    + apply assoc_Some in Ea; [|done]. rewrite Hp in Ea.
      rewrite decide_True by (apply elem_of_list_fmap; exists (k, v0); done).
      cbn. destruct c; eauto.
    + apply assoc_None in Ea. rewrite Hp in Ea. rewrite decide_False by done.
      apply crepr_register; done.
Qed.

Lemma fadd_cap s k v : fcap (fadd s k v) = fcap s.
Proof. unfold fadd. repeat case_decide; done. Qed.

Lemma fadds_cap l : forall s, fcap (fadds s l) = fcap s.
Proof.
  unfold fadds. induction l as [|[k v] l IH]; intros s; cbn; [done|]. rewrite IH. apply fadd_cap.
Qed.

Lemma crepr_insert_loop l : forall c s, crepr c s -> fcap s <> 0 ->
  exists c', insert_loop c l = Some c' /\ crepr c' (fadds s l).
Proof.
  induction l as [|[k v] l IH]; intros c s H Hc; cbn.
  - eauto.
  - destruct (crepr_register c s k v H Hc) as (c1&Hc1&H1). rewrite Hc1. cbn.
    apply IH; [done|]. rewrite fadd_cap. done.
Qed.

Lemma fadds_nocap l : forall s, fcap s = 0 -> fadds s l = s.
Proof.
  unfold fadds. induction l as [|[k v] l IH]; intros s Hs; cbn; [done|].
  unfold fadd at 2. rewrite decide_True by done. auto.
Qed.

Lemma crepr_insert_range c s l : crepr c s ->
  exists c', cache_insert_range c l = Some c' /\ crepr c' (fadds s (drop (length l - fcap s) l)).
Proof.
  intros H. unfold cache_insert_range. rewrite (crepr_capacity c s H).
  destruct (Nat.eqb_spec (fcap s) 0) as [E|E].
  - rewrite fadds_nocap by done. eauto.
  - replace (length l - fcap s `min` length l) with (length l - fcap s) by lia.
    apply crepr_insert_loop; done.
Qed.

Lemma crepr_clear c s : crepr c s -> exists c', cache_clear c = Some c' /\ crepr c' (Fifo (fcap s) []).
Proof.
  intros (Hr&_). unfold cache_clear. destruct (repr_clear _ _ Hr) as (o&Ho&Hr'). rewrite Ho. cbn.
  eexists; split; [done|]. split; [done|]. split; [constructor|constructor].
Qed.

Lemma crepr_reset c s n : crepr c s -> exists c', cache_reset c n = Some c' /\ crepr c' (Fifo n []).
Proof.
  intros H. unfold cache_reset. destruct (crepr_clear c s H) as (c1&Hc1&H1). rewrite Hc1. cbn.
  destruct H1 as (Hr&_&Hp). cbn in *.
  destruct (repr_reset _ _ n Hr) as (o&Ho&Hr'). rewrite Ho. cbn.
  eexists; split; [done|]. split; [done|]. split; cbn; [constructor|done].
Qed.

Lemma copy_loop_ok m cap l2 : forall l1 c,
  NoDup m.*1 -> m ≡ₚ l1 ++ l2 -> length (l1 ++ l2) <= cap ->
  crepr c (Fifo cap l1) ->
  exists c', copy_loop m (map Some l2.*1) c = Some c' /\ crepr c' (Fifo cap (l1 ++ l2)).
Proof.
  induction l2 as [|[k v] l2 IH]; intros l1 c Hnd Hp Hlen H.
  - rewrite app_nil_r. cbn. eauto.
  - cbn.
    assert (Ha : assoc m k = Some v).
    { apply assoc_Some; [done|]. rewrite Hp. apply elem_of_app. right. left. }
    rewrite Ha. cbn.
    destruct H as (Hr&Hnd1&Hp1). cbn in *.
    assert (Hnd2 : NoDup (l1 ++ (k, v) :: l2).*1) by (rewrite <- Hp; done).
    rewrite fmap_app in Hnd2. cbn in Hnd2. apply NoDup_app in Hnd2 as (Ha1&Ha2&Ha3).
    assert (Hni : k ∉ l1.*1). { intros Hx. apply (Ha2 k Hx). left. }
    assert (Hno : assoc (map_ c) k = None) by (apply assoc_None; rewrite Hp1; done).
    rewrite Hno.
    pose proof (repr_push_back _ _ k Hr) as Hpush. cbn in Hpush.
    rewrite app_length in Hlen. cbn in Hlen.
    rewrite decide_False in Hpush by lia.
    destruct Hpush as (o'&Ho'&Hr'). rewrite fmap_length in Hr'. rewrite decide_False in Hr' by lia.
    rewrite Ho'. cbn.
    replace (l1 ++ (k, v) :: l2) with ((l1 ++ [(k, v)]) ++ l2) by (rewrite <- app_assoc; done).
    apply IH; [done| | |].
    + rewrite <- app_assoc. done.
    + rewrite !app_length. cbn. lia.
    + split; cbn; [|split].
      * rewrite fmap_app. done.
      * rewrite fmap_app. apply NoDup_app. split; [done|]. split; [|apply NoDup_singleton].
        intros x Hx Hx2. cbn in Hx2. apply elem_of_list_singleton in Hx2. subst. done.
      * rewrite Hp1. done.
Qed.

Lemma crepr_copy c s : crepr c s -> exists c', cache_copy c = Some c' /\ crepr c' s.
Proof.
  intros H. pose proof H as (Hr&Hnd&Hp). unfold cache_copy.
  pose proof (repr_looks_like _ _ Hr) as (Hc&Hs&Hle&He&_). cbn in *. rewrite fmap_length in Hs.
  rewrite He. unfold cache_capacity. rewrite Hc.
  destruct (copy_loop_ok (map_ c) (fcap s) (fitems s) [] (cache_new (fcap s))) as (c'&Hc'&H').
  - rewrite Hp. done.
  - done.
  - cbn. lia.
  - apply crepr_new.
  - exists c'. split; [done|]. destruct s; done.
Qed.

Lemma crepr_step c s o : crepr c s -> exists c', cstep c o = Some c' /\ crepr c' (fstep s o).
Proof.
  intros H. destruct o; cbn.
  - apply crepr_insert; done.
  - apply crepr_try_insert; done.
  - apply crepr_insert_range; done.
  - apply (crepr_clear c s); done.
  - apply (crepr_reset c s); done.
  - apply crepr_copy; done.
Qed.

Lemma crepr_run os : forall c s, crepr c s -> exists c', crun c os = Some c' /\ crepr c' (frun s os).
Proof.
  induction os as [|o os IH]; intros c s H; cbn.
  - eauto.
  - destruct (crepr_step c s o H) as (c1&Hc1&H1). rewrite Hc1. cbn. apply IH. done.
Qed.

Lemma crun_refines cap os : exists c, crun (cache_new cap) os = Some c /\ cache_looks_like c (frun (Fifo cap []) os).
Proof.
  destruct (crepr_run os _ _ (crepr_new cap)) as (c&Hc&H). exists c. split; [done|].
  apply crepr_looks_like. done.
Qed.

(** Bulk insertion of fresh, pairwise distinct keys equals one-by-one insertion. *)
Lemma fadds_fresh l : forall s, fcap s <> 0 -> length (fitems s) <= fcap s ->
  NoDup (fitems s ++ l).*1 ->
  fadds s l = Fifo (fcap s) (drop (length (fitems s) + length l - fcap s) (fitems s ++ l)).
Proof.
  unfold fadds. induction l as [|[k v] l IH]; intros s Hc Hle Hnd.
  - cbn. rewrite app_nil_r. replace (length (fitems s) + 0 - fcap s) with 0 by lia. destruct s; done.
  - cbn.
    assert (Hni : k ∉ (fitems s).*1).
    { rewrite fmap_app in Hnd. cbn in Hnd. apply NoDup_app in Hnd as (_&H1&_).
      intros Hx. apply (H1 k Hx). left. }
    unfold fadd at 2. rewrite decide_False by done. rewrite decide_False by done.
    destruct (decide (length (fitems s) = fcap s)) as [Hf|Hf].
    + destruct (fitems s) as [|[k0 v0] t] eqn:E; [cbn in *; lia|].
      rewrite IH; cbn in *.
      * f_equal. rewrite <- app_assoc. cbn. rewrite app_length. cbn.
        replace (length t + 1 + length l - fcap s) with (length l) by lia.
        replace (S (length t + S (length l)) - fcap s) with (S (length l)) by lia. done.
      * done.
      * rewrite app_length. cbn. lia.
      * rewrite <- app_assoc. cbn. apply NoDup_cons in Hnd. tauto.
    + rewrite IH; cbn.
      * f_equal. rewrite <- app_assoc, app_length. cbn. f_equal. lia.
      * done.
      * rewrite app_length. cbn. lia.
      * rewrite <- app_assoc. done.
Qed.

Lemma fadds_drop_fresh s l : length (fitems s) <= fcap s ->
  NoDup (fitems s ++ l).*1 -> fadds s (drop (length l - fcap s) l) = fadds s l.
Proof.
  intros Hle Hnd. destruct (decide (fcap s = 0)) as [E|E].
  - rewrite !fadds_nocap by done. done.
  - rewrite !fadds_fresh; try done.
    + f_equal. rewrite drop_length.
      destruct (decide (length l <= fcap s)) as [H1|H1].
      * replace (length l - fcap s) with 0 by lia. rewrite drop_0. f_equal. lia.
      * rewrite !drop_app_ge by lia. rewrite drop_drop. f_equal. lia.
    + rewrite fmap_app in Hnd |- *. apply NoDup_app in Hnd as (H1&H2&H3).
      rewrite fmap_drop. apply NoDup_app. split; [done|]. split.
      * intros x Hx Hx2. apply (H2 x Hx). rewrite <- (take_drop (length l - fcap s) l), fmap_app, fmap_drop; apply elem_of_app; right; done.
      * rewrite <- (take_drop (length l - fcap s) l), fmap_app in H3. apply NoDup_app in H3 as (_&_&H3). rewrite fmap_drop in H3. done.
Qed.

Lemma fadds_drop_short s l : length l <= fcap s -> fadds s (drop (length l - fcap s) l) = fadds s l.
Proof. intros H. replace (length l - fcap s) with 0 by lia. done. Qed.

Lemma insert_range_eq c s l : crepr c s ->
  (length l <= fcap s \/ NoDup (fitems s ++ l).*1) ->
  exists c', cache_insert_range c l = Some c' /\ crepr c' (fadds s l).
Proof.
  intros H Hor. destruct (crepr_insert_range c s l H) as (c'&Hc'&H'). exists c'. split; [done|].
  destruct Hor as [Hl|Hnd].
  - rewrite fadds_drop_short in H' by done. done.
  - rewrite fadds_drop_fresh in H'; [done| |done].
    pose proof (crepr_looks_like _ _ H) as (Hc&Hs&Hle&_). lia.
Qed.

Lemma insert_each l : forall c s, crepr c s ->
  exists c', crun c (map (fun p => CInsert p.1 p.2) l) = Some c' /\ crepr c' (fadds s l).
Proof.
  induction l as [|[k v] l IH]; intros c s H; cbn; [eauto|].
  destruct (crepr_insert c s k v H) as (c1&Hc1&H1). rewrite Hc1. cbn. apply IH. done.
Qed.

End Proofs.
