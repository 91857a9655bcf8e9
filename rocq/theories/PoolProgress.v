(** Progress and termination of nested parallel loops. *)
From Coq Require Import PArith Lia.
From stdpp Require Import list list_numbers sets relations.
From Verif Require Import PoolModel PoolProofs.

(** ** Work left *)
Fixpoint body_size (b : body) : nat :=
  match b with
  | Body _ ls => S (sum_list_with (fun p => match p with (_, es) => 2 + sum_list_with (fun e => body_size e + 3) es end) ls)
  end.
Definition items_size (its : list item) : nat := sum_list_with (fun it => body_size it.2) its.
Definition frame_size (f : frame) : nat :=
  match f with
  | FMain r | FTask _ r => 1 + items_size r
  | FLoop _ blocks own _ => 1 + sum_list_with (fun b => 3 + items_size b) blocks + items_size own
  end.
Definition task_size (tk : task) : nat := 2 + items_size (task_items tk).
Definition pool_size (s : pool) : nat :=
  sum_list_with frame_size (mjoin (stacks s)) + sum_list_with task_size (mjoin (queues s)) + (if undefined s then 0 else 1).

Lemma items_cons i b its : items_size ((i, b) :: its) = body_size b + items_size its.
Proof. done. Qed.
Lemma items_app a b : items_size (a ++ b) = items_size a + items_size b.
Proof. apply sum_list_with_app. Qed.
Lemma body_pos b : 1 <= body_size b.
Proof. destruct b. cbn. lia. Qed.
Lemma running_size f its : frame_size (with_items f its) + items_size (running f) = frame_size f + items_size its \/ running f = [].
Proof. destruct f as [r|id r|id [|b bl] own d]; cbn -[items_size]; [left; lia|left; lia|left; lia|by right]. Qed.
Lemma size_running f its x l : running f = x :: l -> frame_size (with_items f its) + items_size (x :: l) = frame_size f + items_size its.
Proof. intros E. destruct (running_size f its) as [H | H]; [by rewrite E in H|congruence]. Qed.
Lemma raise_size f : frame_size (raise f) <= frame_size f.
Proof.
  unfold raise. destruct (running f) as [|[i b] its] eqn:E; [done|]. pose proof (size_running f ((i, Body true []) :: its) _ _ E) as H. rewrite !items_cons in H.
  change (body_size (Body true [])) with 1 in H. pose proof (body_pos b). lia.
Qed.
Lemma raise_top_size fs : sum_list_with frame_size (raise_top fs) <= sum_list_with frame_size fs.
Proof. destruct fs as [|f fs]; [done|]. cbn. pose proof (raise_size f). lia. Qed.
Lemma blocks_size blocks : sum_list_with (fun b => 3 + items_size b) blocks = 3 * length blocks + items_size (mjoin blocks).
Proof. induction blocks as [|b bl IH]; [done|]. change (mjoin (b :: bl)) with (b ++ mjoin bl). rewrite items_app. change (sum_list_with (fun b => 3 + items_size b) (b :: bl)) with (3 + items_size b + sum_list_with (fun b => 3 + items_size b) bl). rewrite IH. cbn [length]. lia. Qed.
Lemma items_zip es k : items_size (zip (seq k (length es)) es) = sum_list_with body_size es.
Proof. revert k. induction es as [|e es IH]; intros k; [done|]. cbn -[items_size]. rewrite items_cons. by rewrite IH. Qed.
Lemma sum_plus3 es : sum_list_with (fun e => body_size e + 3) es = sum_list_with body_size es + 3 * length es.
Proof. induction es as [|e es IH]; cbn -[Nat.mul]; [done|]. lia. Qed.
Lemma split_blocks w bs es blocks own : es <> [] -> split_loop w bs es = (blocks, own) -> length blocks < length es.
Proof.
  intros Hne E. unfold split_loop in E. apply cut_join in E as [_ E]. rewrite E. unfold task_count. destruct es; [done|]. cbn [length]. lia.
Qed.
Lemma nonneg_body th bs es ls : body_size (Body th ((bs, es) :: ls)) = body_size (Body th ls) + 2 + sum_list_with (fun e => body_size e + 3) es.
Proof. cbn. lia. Qed.

Lemma pool_step_size t p s s' : pool_step t p s s' -> if p then pool_size s' < pool_size s else pool_size s' = pool_size s.
Proof.
  intros H. unfold pool_size.
  assert (Hframe : forall (st : list frame), stacks s !! t = Some st -> exists R, mjoin (stacks s) ≡ₚ st ++ R /\ forall st', mjoin (<[t := st']> (stacks s)) ≡ₚ st' ++ R) by (intros; by apply join_insert).
  destruct H as [s f fs i th bs ls its Hu E Ha Hr|s f fs i th bs e es ls its blocks own Hu E Ha Hr Hsp|s f fs i its Hu E Ha Hr|s id i its fs Hu E Hd|s id i its d fs Hu E|s i its fs Hu E|s fs Hu E
    |s id b blocks own d fs w q Hu E Hq|s tk q Hu E Hq|s id fs tk q Hu E Hq|s id fs Hu E Hq|s id fs q Hu E Hq Hl|s id d fs Hu E Hq Hl Hx|s id d fs Hu E Hq Hl Hx|s id fs Hu E Hd|s id its fs Hu E Hd|s st Hu E Hb|s Hu];
    cbn [set_stack log_event queues stacks undefined]; try (destruct (Hframe _ E) as (R & HR & HR'); rewrite ?(sum_with_perm _ _ _ (HR' _)), (sum_with_perm _ _ _ HR), ?sum_list_with_app, ?Hu); try done;
    try (destruct (join_insert _ _ _ Hq) as (Q & HQ & HQ'); rewrite ?(sum_with_perm _ _ _ (HQ' _)), ?(sum_with_perm _ _ _ HQ), ?sum_list_with_app).
  - pose proof (size_running f ((i, Body th ls) :: its) _ _ Hr) as H. rewrite !items_cons, nonneg_body in H. cbn -[frame_size]. lia.
  - pose proof (size_running f ((i, Body th ls) :: its) _ _ Hr) as H. rewrite !items_cons, nonneg_body, sum_plus3 in H.
    pose proof (split_blocks _ _ _ _ _ (fun H0 : e :: es = [] => @nil_cons body e es (eq_sym H0)) Hsp) as Hlen. pose proof (split_join _ _ _ _ _ Hsp) as [Hj _].
    assert (Hsz : items_size (mjoin blocks) + items_size own = sum_list_with body_size (e :: es)) by (by rewrite <- items_app, Hj, items_zip).
    cbn [app sum_list_with]. assert (Hfl : frame_size (FLoop (next_id s) blocks own false) = 1 + (3 * length blocks + items_size (mjoin blocks)) + items_size own) by (cbn -[Nat.mul]; by rewrite blocks_size).
    rewrite Hfl. cbn [sum_list_with length] in H, Hsz, Hlen. lia.
  - pose proof (size_running f its _ _ Hr) as H. rewrite items_cons in H. cbn -[frame_size items_size] in H |- *. lia.
  - cbn -[items_size]. rewrite items_cons. cbn. lia.
  - cbn [sum_list_with]. pose proof (raise_top_size fs). cbn [frame_size]. lia.
  - cbn -[items_size]. rewrite items_cons. cbn. lia.
  - cbn. lia.
  - rewrite ?sum_list_with_app. unfold task_size. cbn -[items_size]. lia.
  - rewrite ?sum_list_with_app. unfold task_size. cbn -[items_size]. lia.
  - rewrite ?sum_list_with_app. unfold task_size. cbn -[items_size]. lia.
  - cbn. pose proof (raise_top_size fs). lia.
  - cbn. pose proof (raise_top_size fs). lia.
  - cbn. lia.
  - lia.
Qed.

(** ** Who can go on *)
(** Thread [t] will do something useful when it gets to run (at the latest the second time). *)
Definition ready (s : pool) (t : nat) : bool :=
  match stacks s !! t with
  | None => false
  | Some [] => match queues s !! t with Some (_ :: _) => true | _ => false end
  | Some (FLoop id [] [] _ :: _) => match queues s !! t with Some (_ :: _) => true | _ => bool_decide (latches s id = 0) end
  | Some _ => true
  end.
Lemma ready_search (s : pool) : (exists t, ready s t = true) \/ (forall t, ready s t = false).
Proof.
  assert (H : forall n, (exists t, t < n /\ ready s t = true) \/ (forall t, t < n -> ready s t = false)).
  { intros n. induction n as [|n [(t & Ht & H) | IH]]; [right; lia|left; exists t; split; [lia|done]|]. destruct (ready s n) eqn:E; [left; exists n; split; [lia|done]|].
    right. intros t Ht. destruct (decide (t = n)) as [-> | Hn]; [done|apply IH; lia]. }
  destruct (H (length (stacks s))) as [(t & _ & Ht) | Hn]; [by left; exists t|]. right. intros t. destruct (decide (t < length (stacks s))) as [Hlt | Hge]; [by apply Hn|].
  unfold ready. by rewrite lookup_ge_None_2 by lia.
Qed.
Lemma all_nil {A} (l : list (list A)) : Forall (fun x => x = []) l \/ exists t x xs, l !! t = Some (x :: xs).
Proof.
  induction l as [|[|x xs] l IH]; [left; constructor|destruct IH as [IH | (t & x & xs & E)]; [left; by constructor|right; by exists (S t), x, xs]|].
  right. by exists 0, x, xs.
Qed.
Lemma join_nil {A} (l : list (list A)) : Forall (fun x => x = []) l -> mjoin l = [].
Proof. induction 1 as [|x l -> H IH]; [done|exact IH]. Qed.
Lemma no_chain (P : nat -> Prop) N : (forall m, P m -> m < N) -> (forall m, P m -> exists m', P m' /\ m < m') -> forall m, ~ P m.
Proof.
  intros Hb Hs. assert (H : forall k m, N - m <= k -> ~ P m). { intros k. induction k as [|k IH]; intros m Hk Hm; [apply Hb in Hm; lia|]. destruct (Hs m Hm) as (m' & Hm' & Hlt). apply Hb in Hm as Hb'. apply (IH m'); [lia|done]. }
  intros m. by apply (H (N - m)).
Qed.
Lemma count_in m fr : fcount m fr <> 0 -> exists f, f ∈ fr /\ frame_count m f <> 0.
Proof.
  induction fr as [|f fr IH]; [done|]. rewrite fcount_cons. intros H. destruct (decide (frame_count m f = 0)) as [E | E]; [|exists f; split; [by left|done]].
  destruct IH as (g & Hg & Hc); [lia|]. exists g. split; [by right|done].
Qed.
Lemma in_join {A} (x : A) (ls : list (list A)) : x ∈ mjoin ls -> exists t l, ls !! t = Some l /\ x ∈ l.
Proof. intros H. apply elem_of_list_join in H as (l & Hx & Hl). apply elem_of_list_lookup in Hl as [t Ht]. eauto. Qed.
Lemma join_in {A} (x : A) (ls : list (list A)) t l : ls !! t = Some l -> x ∈ l -> x ∈ mjoin ls.
Proof. intros H Hx. apply elem_of_list_join. exists l. split; [done|by eapply elem_of_list_lookup_2]. Qed.
(** Unless everything is finished some thread can go on. *)
Lemma pool_progress s : pool_inv s -> finished s \/ exists t, ready s t = true.
Proof.
  intros [Ic Io Iw _]. destruct (ready_search s) as [? | Hno]; [by right|left].
  assert (Hq : Forall (fun q => q = []) (queues s)).
  { destruct (all_nil (queues s)) as [? | (t & tk & q & E)]; [done|]. exfalso. specialize (Hno t). unfold ready in Hno. apply lookup_lt_Some in E as Hlt.
    destruct (lookup_lt_is_Some_2 (stacks s) t ltac:(lia)) as [st Hst]. rewrite Hst, E in Hno. destruct st as [|[]]; try done. destruct blocks; [|done]. by destruct own. }
  assert (Htop : forall t f fs, stacks s !! t = Some (f :: fs) -> exists id d, f = FLoop id [] [] d /\ latches s id <> 0).
  { intros t f fs E. specialize (Hno t). unfold ready in Hno. rewrite E in Hno. destruct f as [|?|id [|] [|] d]; try done. exists id, d. split; [done|].
    destruct (queues s !! t) as [[|]|]; try done; by apply bool_decide_eq_false in Hno. }
  split; [|done]. destruct (all_nil (stacks s)) as [? | (t & f & fs & E)]; [done|]. exfalso.
  destruct (Htop t f fs E) as (id & d & -> & _).
  apply (no_chain (fun m => exists t fs d, stacks s !! t = Some (FLoop m [] [] d :: fs)) (next_id s)) with id; [| |by exists t, fs, d]; clear t fs d id E.
  - intros m (t & fs & d & E). apply (c_ids _ _ _ _ _ _ _ _ Ic (FLoop m [] [] d) m); [|done]. eapply join_in; [exact E|by left].
  - intros m (t & fs & d & E). destruct (Htop _ _ _ E) as (? & ? & [= <- <-] & Hl).
    assert (Hin : FLoop m [] [] d ∈ mjoin (stacks s)) by (eapply join_in; [exact E|by left]).
    rewrite (c_latch _ _ _ _ _ _ _ _ Ic m) in Hl.
    + rewrite (join_nil _ Hq) in Hl. cbn in Hl. rewrite Nat.add_0_r in Hl. apply count_in in Hl as (g & Hg & Hc). apply in_join in Hg as (t' & st & Est & Hg).
      destruct st as [|f' fs']; [by apply elem_of_nil in Hg|]. destruct (Htop _ _ _ Est) as (m' & d' & -> & _). exists m'. split; [by exists t', fs', d'|].
      destruct (Io _ _ Est) as [[Ho _] Hlow]. apply elem_of_cons in Hg as [-> | Hg]; [cbn in Hc; by destruct (decide (m' = m))|].
      apply (Ho g m Hg). specialize (Hlow g Hg). destruct g as [|j r|j bl own d0]; cbn in *; [done| |]; destruct (decide (j = m)) as [-> | ?]; try done.
    + apply (c_dead _ _ _ _ _ _ _ _ Ic). apply elem_of_list_omap. by exists (FLoop m [] [] d).
    + by apply (c_ids _ _ _ _ _ _ _ _ Ic (FLoop m [] [] d) m).
Qed.

(** ** Fair executions *)
(** A waiting step changes nothing but the waiting thread's own progress in its loop. *)
Lemma waiting_step t s s' : pool_step t false s s' -> queues s' = queues s /\ latches s' = latches s /\ undefined s' = undefined s /\ length (stacks s') = length (stacks s) /\ forall t', t' <> t -> stacks s' !! t' = stacks s !! t'.
Proof.
  intros H. remember false as p eqn:Ep. destruct H; try discriminate Ep; cbn; repeat split; try done; rewrite ?insert_length; try done; intros t' Ht'; by rewrite list_lookup_insert_ne.
Qed.
(** Thread [t] does something useful the next time it runs. *)
Definition ready_now (s : pool) (t : nat) : bool :=
  match stacks s !! t with
  | Some (FLoop id [] [] d :: _) =>
      match queues s !! t with
      | Some (_ :: _) => negb d || bool_decide (latches s id = 0)
      | Some [] => d && bool_decide (latches s id = 0)
      | None => bool_decide (latches s id = 0)
      end
  | _ => ready s t
  end.
Lemma ready_now_productive t p s s' : undefined s = false -> ready_now s t = true -> pool_step t p s s' -> p = true.
Proof.
  intros Hu Hr H. destruct p; [done|]. exfalso. unfold ready_now, ready in Hr. remember false as p eqn:Ep.
  destruct H as [| | | | | | | | | |s id fs _ E Hq|s id fs q _ E Hq Hl| | | | |s st _ E Hb|s Hu']; try discriminate Ep; try rewrite E in Hr.
  - by rewrite Hq in Hr.
  - rewrite Hq in Hr. destruct q; cbn in Hr; by apply bool_decide_eq_true in Hr.
  - destruct st as [|[| |id [|] [|] d] fs]; try done.
    + destruct Hb as [Hb | Hb]; by rewrite Hb in Hr.
    + destruct Hb as [Hb Hl]. rewrite Hb in Hr. by apply bool_decide_eq_true in Hr.
  - congruence.
Qed.
Lemma ready_step t s s' : undefined s = false -> ready s t = true -> pool_step t false s s' -> ready_now s' t = true.
Proof.
  intros Hu Hr H. pose proof (waiting_step t s s' H) as (Hq' & Hl' & _ & _ & _). unfold ready_now. unfold ready in Hr. remember false as p eqn:Ep.
  destruct H as [| | | | | | | | | |s id fs _ E Hq|s id fs q _ E Hq Hl| | | | |s st _ E Hb|s Hu']; try discriminate Ep; try rewrite E in Hr; cbn in *.
  - rewrite list_lookup_insert by (by eapply lookup_lt_Some). rewrite Hq in *. cbn. exact Hr.
  - rewrite list_lookup_insert by (by eapply lookup_lt_Some). rewrite Hq in *. destruct q; [|done]. by apply bool_decide_eq_true in Hr.
  - exfalso. destruct st as [|[| |id [|] [|] d] fs]; try done.
    + destruct Hb as [Hb | Hb]; by rewrite Hb in Hr.
    + destruct Hb as [Hb Hl]. rewrite Hb in Hr. by apply bool_decide_eq_true in Hr.
  - congruence.
Qed.
Lemma ready_other t t' s s' : t' <> t -> pool_step t' false s s' -> ready s' t = ready s t /\ ready_now s' t = ready_now s t.
Proof. intros Hn H. destruct (waiting_step _ _ _ H) as (Hq & Hl & _ & _ & Hst). unfold ready_now, ready. rewrite Hst by done. by rewrite Hq, Hl. Qed.

Section fair.
Context (ts : nat -> nat) (ss : nat -> pool) (threads : nat).
Hypothesis Hrun : forall i, exists p, pool_step (ts i) p (ss i) (ss (S i)).
Hypothesis Hfair : forall t, t < threads -> forall i, exists j, i <= j /\ ts j = t.
Hypothesis Hinv : forall i, pool_inv (ss i).
Hypothesis Hthreads : forall i, length (stacks (ss i)) = threads.
Definition productive (i : nat) : Prop := pool_step (ts i) true (ss i) (ss (S i)).
Lemma run_case i : productive i \/ pool_step (ts i) false (ss i) (ss (S i)).
Proof. destruct (Hrun i) as [[] H]; [by left|by right]. Qed.
Lemma undefined_stays i k : undefined (ss i) = false -> (forall j, i <= j < i + k -> pool_step (ts j) false (ss j) (ss (S j))) -> undefined (ss (i + k)) = false.
Proof.
  intros Hu. induction k as [|k IH]; intros H; [by rewrite Nat.add_0_r|]. rewrite Nat.add_succ_r. pose proof (H (i + k) ltac:(lia)) as Hk. apply waiting_step in Hk as (_ & _ & Hk & _ & _). rewrite Hk. apply IH. intros j Hj. apply H. lia.
Qed.
Lemma ready_now_goes t i k : undefined (ss i) = false -> ready_now (ss i) t = true -> ts (i + k) = t -> exists j, i <= j /\ productive j.
Proof.
  revert i. induction k as [|k IH]; intros i Hu Hr Ht.
  - rewrite Nat.add_0_r in Ht. destruct (Hrun i) as [p Hp]. rewrite Ht in Hp. assert (p = true) as -> by (by eapply ready_now_productive). exists i. split; [done|]. unfold productive. by rewrite Ht.
  - destruct (run_case i) as [Hp | Hp]; [by exists i|]. pose proof (waiting_step _ _ _ Hp) as (_ & _ & Hu' & _ & _). destruct (decide (t = ts i)) as [He | Hne].
    + exfalso. rewrite <- He in Hp. by pose proof (ready_now_productive t false _ _ Hu Hr Hp).
    + destruct (ready_other t (ts i) _ _ ltac:(congruence) Hp) as [_ Hr']. destruct (IH (S i)) as (j & Hj & Hpj); [congruence|congruence|rewrite <- Ht; f_equal; lia|]. exists j. split; [lia|done].
Qed.
Lemma ready_goes t i : t < threads -> undefined (ss i) = false -> ready (ss i) t = true -> exists j, i <= j /\ productive j.
Proof.
  intros Hlt Hu Hr. destruct (Hfair t Hlt i) as (j & Hj & Ht). assert (Hk : exists k, j = i + k) by (exists (j - i); lia). destruct Hk as [k ->]. clear Hj. revert i Hu Hr Ht. induction k as [|k IH]; intros i Hu Hr Ht.
  - rewrite Nat.add_0_r in Ht. destruct (run_case i) as [Hp | Hp]; [by exists i|]. rewrite Ht in Hp. pose proof (ready_step _ _ _ Hu Hr Hp) as Hr'. pose proof (waiting_step _ _ _ Hp) as (_ & _ & Hu' & _ & _).
    destruct (Hfair t Hlt (S i)) as (j & Hj & Htj). destruct (ready_now_goes t (S i) (j - S i)) as (m & Hm & Hpm); [congruence|done|rewrite <- Htj; f_equal; lia|]. exists m. split; [lia|done].
  - destruct (run_case i) as [Hp | Hp]; [by exists i|]. pose proof (waiting_step _ _ _ Hp) as (_ & _ & Hu' & _ & _). destruct (decide (t = ts i)) as [He | Hne].
    + rewrite <- He in Hp. pose proof (ready_step _ _ _ Hu Hr Hp) as Hr'. destruct (ready_now_goes t (S i) k) as (m & Hm & Hpm); [congruence|done|rewrite <- Ht; f_equal; lia|]. exists m. split; [lia|done].
    + destruct (ready_other t (ts i) _ _ ltac:(congruence) Hp) as [Hr' _]. destruct (IH (S i)) as (j & Hj & Hpj); [congruence|congruence|rewrite <- Ht; f_equal; lia|]. exists j. split; [lia|done].
Qed.
Lemma size_mono i k : pool_size (ss (i + k)) <= pool_size (ss i).
Proof. induction k as [|k IH]; [by rewrite Nat.add_0_r|]. rewrite Nat.add_succ_r. destruct (Hrun (i + k)) as [p Hp]. apply pool_step_size in Hp. destruct p; lia. Qed.
Lemma fair_completes i : exists j, i <= j /\ (finished (ss j) \/ undefined (ss j) = true).
Proof.
  remember (pool_size (ss i)) as n eqn:En. revert i En. induction (lt_wf n) as [n _ IH]. intros i En.
  destruct (undefined (ss i)) eqn:Eu; [exists i; auto|]. destruct (pool_progress (ss i) (Hinv i)) as [Hf | [t Hr]]; [exists i; auto|].
  assert (Hlt : t < threads). { rewrite <- (Hthreads i). unfold ready in Hr. destruct (stacks (ss i) !! t) eqn:E; [by eapply lookup_lt_Some|done]. }
  destruct (ready_goes t i Hlt Eu Hr) as (j & Hj & Hp). pose proof (pool_step_size _ _ _ _ Hp) as Hs. change (pool_size (ss (S j)) < pool_size (ss j)) in Hs. pose proof (size_mono i (j - i)) as Hm. replace (i + (j - i)) with j in Hm by lia.
  destruct (IH (pool_size (ss (S j)))) with (i := S j) as (m & Hm1 & Hm2); [lia|done|]. exists m. split; [lia|done].
Qed.
End fair.
Lemma step_length t p s s' : pool_step t p s s' -> length (stacks s') = length (stacks s).
Proof. destruct 1; cbn; by rewrite ?insert_length. Qed.

(** ** Programs without exceptions *)
Inductive quiet : body -> Prop :=
  | quiet_body ls : (forall bs es e, (bs, es) ∈ ls -> e ∈ es -> quiet e) -> quiet (Body false ls).
Definition quiet_items (its : list item) : Prop := forall it, it ∈ its -> quiet it.2.
Definition quiet_frame (f : frame) : Prop :=
  match f with FMain r | FTask _ r => quiet_items r | FLoop _ blocks own _ => quiet_items (mjoin blocks ++ own) end.
Record quiet_pool (s : pool) : Prop := QuietPool {
  qp_frames : forall f, f ∈ mjoin (stacks s) -> quiet_frame f;
  qp_tasks : forall tk, tk ∈ mjoin (queues s) -> quiet_items (task_items tk);
  qp_excs : forall id, excs s id = false;
  qp_log : forall e, e ∈ plog s -> match e with Threw _ _ | Rethrew _ | Left _ => False | _ => True end }.
Lemma quiet_running f : quiet_frame f -> quiet_items (running f).
Proof. destruct f as [r|id r|id [|] own d]; cbn; try done. intros H it Hit. by apply elem_of_nil in Hit. Qed.
Lemma quiet_with f x its its' : running f = x :: its -> quiet_items its' -> quiet_frame (with_items f its').
Proof. by destruct f as [r|id r|id [|] own d]. Qed.
Lemma quiet_step t p s s' : pool_step t p s s' -> quiet_pool s -> quiet_pool s'.
Proof.
  intros H [Qf Qt Qe Ql].
  assert (Hstack : forall st, stacks s !! t = Some st -> forall f, f ∈ st -> quiet_frame f) by (intros st E f Hf; apply Qf; by eapply join_in).
  assert (Hset : forall st, (forall f, f ∈ st -> quiet_frame f) -> forall f, f ∈ mjoin (<[t := st]> (stacks s)) -> quiet_frame f).
  { intros st Hst f Hf. apply in_join in Hf as (t' & l & El & Hf). apply list_lookup_insert_Some in El as [(-> & <- & _) | [_ El]]; [by apply Hst|]. apply Qf. by eapply join_in. }
  assert (Hqset : forall w q, (forall tk, tk ∈ q -> quiet_items (task_items tk)) -> forall tk, tk ∈ mjoin (<[w := q]> (queues s)) -> quiet_items (task_items tk)).
  { intros w q Hq tk Htk. apply in_join in Htk as (t' & l & El & Htk). apply list_lookup_insert_Some in El as [(-> & <- & _) | [_ El]]; [by apply Hq|]. apply Qt. by eapply join_in. }
  destruct H as [s f fs i th bs ls its Hu E Ha Hr|s f fs i th bs e es ls its blocks own Hu E Ha Hr Hsp|s f fs i its Hu E Ha Hr|s id i its fs Hu E Hd|s id i its d fs Hu E|s i its fs Hu E|s fs Hu E
    |s id b blocks own d fs w q Hu E Hq|s tk q Hu E Hq|s id fs tk q Hu E Hq|s id fs Hu E Hq|s id fs q Hu E Hq Hl|s id d fs Hu E Hq Hl Hx|s id d fs Hu E Hq Hl Hx|s id fs Hu E Hd|s id its fs Hu E Hd|s st Hu E Hb|s Hu];
    try (assert (Hst := Hstack _ E)); try done.
  - pose proof (quiet_running f (Hst f ltac:(by left))) as Hq. rewrite Hr in Hq. constructor; cbn; try done. apply Hset. intros g [-> | Hg]%elem_of_cons; [|apply Hst; by right].
    eapply quiet_with; [exact Hr|]. intros it [-> | Hit]%elem_of_cons; [|apply Hq; by right]. specialize (Hq _ (elem_of_list_here _ _)). cbn in *. inversion Hq as [ls' Hl Hb]. constructor. intros. eapply Hl; [by right|done].
  - pose proof (quiet_running f (Hst f ltac:(by left))) as Hq. rewrite Hr in Hq. assert (Hq1 := Hq _ (elem_of_list_here _ _)). cbn in Hq1. inversion Hq1 as [ls' Hl Hb]. subst ls'. constructor; cbn; try done.
    + apply Hset. intros g [-> | [-> | Hg]%elem_of_cons]%elem_of_cons; [| |apply Hst; by right].
      * cbn. apply split_join in Hsp as [-> _]. intros it Hit. destruct it as [k b]. apply elem_of_zip_r in Hit. cbn. eapply Hl; [by left|done].
      * eapply quiet_with; [exact Hr|]. intros it [-> | Hit]%elem_of_cons; [|apply Hq; by right]. cbn. constructor. intros. eapply Hl; [by right|done].
    + intros id. unfold upd. by destruct (decide (id = next_id s)).
    + intros e' [He | He]%elem_of_app; [by apply Ql|]. apply elem_of_list_singleton in He as ->. done.
  - pose proof (quiet_running f (Hst f ltac:(by left))) as Hq. rewrite Hr in Hq. constructor; cbn; try done.
    + apply Hset. intros g [-> | Hg]%elem_of_cons; [|apply Hst; by right]. eapply quiet_with; [exact Hr|]. intros it Hit. apply Hq. by right.
    + intros e' [He | He]%elem_of_app; [by apply Ql|]. destruct f; cbn in He; [by apply elem_of_nil in He| |]; apply elem_of_list_singleton in He as ->; done.
  - exfalso. assert (Hq := Hst _ (elem_of_list_here _ _)). cbn in Hq. specialize (Hq _ (elem_of_list_here _ _)). inversion Hq.
  - exfalso. assert (Hq := Hst _ (elem_of_list_here _ _)). cbn in Hq. specialize (Hq _ (elem_of_list_here _ _)). inversion Hq.
  - exfalso. assert (Hq := Hst _ (elem_of_list_here _ _)). cbn in Hq. specialize (Hq _ (elem_of_list_here _ _)). inversion Hq.
  - constructor; cbn; try done. apply Hset. intros g Hg. apply Hst. by right.
  - assert (Hq' := Hst _ (elem_of_list_here _ _)). cbn in Hq'. constructor; cbn; try done.
    + apply Hset. intros g [-> | Hg]%elem_of_cons; [|apply Hst; by right]. cbn. intros it Hit. apply Hq'. change (mjoin (b :: blocks)) with (b ++ mjoin blocks). set_solver.
    + apply Hqset. intros tk [Htk | ->%elem_of_list_singleton]%elem_of_app; [apply Qt; by eapply join_in|]. cbn. intros it Hit. apply Hq'. change (mjoin (b :: blocks)) with (b ++ mjoin blocks). set_solver.
  - assert (Htk : quiet_items (task_items tk)) by (apply Qt; eapply join_in; [exact Hq|by left]). constructor; cbn; try done.
    + apply Hset. by intros g ->%elem_of_list_singleton.
    + apply Hqset. intros tk' Htk'. apply Qt. eapply join_in; [exact Hq|by right].
  - assert (Htk : quiet_items (task_items tk)) by (apply Qt; eapply join_in; [exact Hq|by left]). constructor; cbn; try done.
    + apply Hset. intros g [-> | Hg]%elem_of_cons; [done|by apply Hst].
    + apply Hqset. intros tk' Htk'. apply Qt. eapply join_in; [exact Hq|by right].
  - constructor; cbn; try done. apply Hset. intros g [-> | Hg]%elem_of_cons; [|apply Hst; by right]. apply (Hst (FLoop id [] [] false)). by left.
  - constructor; cbn; try done. apply Hset. intros g [-> | Hg]%elem_of_cons; [|apply Hst; by right]. apply (Hst (FLoop id [] [] true)). by left.
  - constructor; cbn; try done.
    + apply Hset. intros g Hg. apply Hst. by right.
    + intros e' [He | He]%elem_of_app; [by apply Ql|]. apply elem_of_list_singleton in He as ->. done.
  - by rewrite Qe in Hx.
  - constructor; cbn; try done. apply Hset. intros g Hg. apply Hst. by right.
Qed.
Lemma quiet_initial w mains : Forall (Forall quiet) mains -> quiet_pool (pool_initial w mains).
Proof.
  intros HF. assert (Hq : forall A, mjoin (replicate w (@nil A)) = []) by (intros A; induction w as [|w IH]; [done|exact IH]).
  constructor; cbn; try done.
  - intros f Hf. rewrite join_app, Hq in Hf. cbn in Hf. apply in_join in Hf as (t & l & El & Hf). rewrite list_lookup_fmap in El. destruct (mains !! t) as [m|] eqn:Em; [|done]. cbn in El. injection El as <-.
    apply elem_of_list_singleton in Hf as ->. cbn. intros [k b] Hit. apply elem_of_zip_r in Hit. rewrite Forall_lookup in HF. specialize (HF t m Em). rewrite Forall_forall in HF. by apply HF.
  - rewrite Hq. intros tk H. by apply elem_of_nil in H.
  - intros e H. by apply elem_of_nil in H.
Qed.
