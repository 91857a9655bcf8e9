(** C73, C74, continued: the number of blocks, and where an exception goes. *)
From Coq Require Import PArith Lia.
From stdpp Require Import list list_numbers sets relations.
From Verif Require Import PoolModel PoolProofs PoolProgress PoolProps.

(** The number of blocks, with the one of the caller: at most one for each worker (one without
    workers), one for each element and one for each [block_size] elements or part of them, and no
    fewer than one of these allows. *)
Theorem C73_task_count workers block_size es blocks own : es <> [] -> split_loop workers block_size es = (blocks, own) ->
  let n := length es in let size := Pos.to_nat block_size in
  exists parts, (parts - 1) * size < n <= parts * size /\ S (length blocks) = (workers `max` 1) `min` n `min` parts.
Proof.
  intros Hne E n size. destruct (C73_blocks _ _ _ _ _ Hne E) as (_ & Hl & Hk & _). fold n in Hl, Hk. assert (Hn : 0 < n) by (unfold n; destruct es; [done|cbn; lia]). assert (Hs : 0 < size) by (apply Pos2Nat.is_pos).
  exists (n / size + (if decide (n mod size = 0) then 0 else 1)). pose proof (Nat.div_mod n size ltac:(lia)) as Hd. pose proof (Nat.mod_upper_bound n size ltac:(lia)) as Hm. split.
  - destruct (decide (n mod size = 0)) as [Hz | Hz].
    + rewrite Hz in Hd. rewrite !Nat.add_0_r in *. assert (1 <= n / size) by (destruct (n / size); lia). replace (n / size - 1) with (pred (n / size)) by lia. destruct (n / size) as [|q]; [lia|]. cbn [pred Nat.mul]. lia.
    + rewrite Nat.add_sub. lia.
  - assert (Hc : task_count workers n block_size = (workers `max` 1) `min` n `min` (n / size + (if decide (n mod size = 0) then 0 else 1))). { unfold task_count. fold size. destruct (decide (workers = 0)); lia. } lia.
Qed.
Print Assumptions C73_task_count.
Example C73_task_count_nonvacuous : (split_loop 4 3 (replicate 7 leaf)).1 = [[(0, leaf); (1, leaf); (2, leaf)]; [(3, leaf); (4, leaf)]].
Proof. vm_compute. reflexivity. Qed.

(** A frame of execute_loop is above the frame of the application that called it. *)
Fixpoint called (st : list frame) : Prop :=
  match st with
  | [] => True
  | FLoop _ _ _ _ :: fs => match fs with f :: _ => running f <> [] | [] => False end /\ called fs
  | _ :: fs => called fs
  end.
Lemma called_tail f fs : called (f :: fs) -> called fs.
Proof. by destruct f; cbn; try intros [? ?]. Qed.
Lemma called_top f f' fs : loop_id f' = loop_id f -> called (f :: fs) -> called (f' :: fs).
Proof. destruct f, f'; cbn; try done. Qed.
Lemma loop_with_items f its : loop_id (with_items f its) = loop_id f.
Proof. by destruct f. Qed.
Lemma running_with_items f x its its' : running f = x :: its -> running (with_items f its') = its'.
Proof. by destruct f as [r|id r|id [|] own d]. Qed.
Lemma called_raise f fs : called (f :: fs) -> called (raise f :: fs).
Proof. unfold raise. destruct (running f) as [|[i b] its]; [done|]. apply called_top, loop_with_items. Qed.
Lemma called_raise_top fs : called fs -> called (raise_top fs).
Proof. destruct fs; [done|]. apply called_raise. Qed.
Lemma called_step t p s s' : pool_step t p s s' -> (forall u st, stacks s !! u = Some st -> called st) -> forall u st, stacks s' !! u = Some st -> called st.
Proof.
  intros H I. assert (Hins : forall st, called st -> forall u st', <[t := st]> (stacks s) !! u = Some st' -> called st').
  { intros st Hst u st' E. apply list_lookup_insert_Some in E as [(_ & <- & _) | [_ E]]; [done|by eapply I]. }
  destruct H; cbn [set_stack log_event stacks]; try apply Hins; try done;
    match goal with E : stacks _ !! t = Some _ |- _ => apply I in E; try (by eapply called_tail); try (eapply called_top; [|exact E]; try apply loop_with_items; done) end.
  - cbn [called]. split; [by erewrite running_with_items|]. eapply called_top; [|done]. apply loop_with_items.
  - apply called_raise_top. by eapply called_tail.
  - exact H0.
  - apply called_raise_top. by eapply called_tail.
Qed.
Lemma called_reachable w mains s : rtc some_step (pool_initial w mains) s -> forall u st, stacks s !! u = Some st -> called st.
Proof.
  intros H. assert (I0 : forall u st, stacks (pool_initial w mains) !! u = Some st -> called st).
  { intros u st E. cbn in E. apply lookup_app_Some in E as [E | [_ E]]; [by apply lookup_replicate in E as [-> _]|]. rewrite list_lookup_fmap in E. destruct (mains !! _); [|done]. by injection E as <-. }
  revert I0 H. generalize (pool_initial w mains). intros s0 I0 H. induction H as [|x y z (t & p & Hxy) _ IH]; [done|]. apply IH. by eapply called_step.
Qed.
(** When execute_loop is left by an exception, in any of the two ways, the application that called
    it is at its end and throws, whatever it would have done afterwards. *)
Theorem C74_caller workers mains s s' t p ev id : rtc some_step (pool_initial workers mains) s -> pool_step t p s s' -> plog s' = plog s ++ ev -> Rethrew id ∈ ev \/ Left id ∈ ev ->
  exists blocks own d f f' fs i b its, stacks s !! t = Some (FLoop id blocks own d :: f :: fs) /\ running f = (i, b) :: its /\
    stacks s' !! t = Some (f' :: fs) /\ frame_id f' = frame_id f /\ running f' = (i, Body true []) :: its.
Proof.
  intros H Hs El Hev. pose proof (called_reachable _ _ _ H) as Hc. 
  assert (G : forall (l : list pool_event) blocks own d fs lat ex de nx lg un q, stacks s !! t = Some (FLoop id blocks own d :: fs) -> s' = Pool q (<[t := raise_top fs]> (stacks s)) lat ex de nx lg un ->
    exists blocks own d f f' fs i b its, stacks s !! t = Some (FLoop id blocks own d :: f :: fs) /\ running f = (i, b) :: its /\ stacks s' !! t = Some (f' :: fs) /\ frame_id f' = frame_id f /\ running f' = (i, Body true []) :: its).
  { intros _ blocks own d fs lat ex de nx lg un q E ->. pose proof (Hc t _ E) as [Hf _]. destruct fs as [|f fs]; [done|]. destruct (running f) as [|[i b] its] eqn:Er; [done|]. exists blocks, own, d, f, (raise f), fs, i, b, its.
    cbn [stacks raise_top]. split; [done|]. split; [done|]. split; [apply list_lookup_insert; by eapply lookup_lt_Some|]. unfold raise. rewrite Er. split; [by destruct f|by erewrite running_with_items]. }
  assert (Hno : forall l, plog s ++ ev = plog s ++ l -> ev = l) by (intros l; apply app_inv_head). assert (Hnil : plog s ++ ev = plog s -> ev = []) by (intros E; apply Hno; by rewrite app_nil_r).
  destruct Hs; cbn [set_stack log_event plog] in El; symmetry in El; (apply Hno in El || apply Hnil in El); subst ev; try (destruct Hev as [Hev | Hev]; by apply elem_of_nil in Hev);
    try (destruct Hev as [Hev | Hev]; apply elem_of_list_singleton in Hev; done).
  - destruct f; cbn in Hev; destruct Hev as [Hev | Hev]; try (by apply elem_of_nil in Hev); by apply elem_of_list_singleton in Hev.
  - assert (id0 = id) as ->. { destruct Hev as [Hev | Hev]; apply elem_of_cons in Hev as [Hev | Hev]; try done; apply elem_of_list_singleton in Hev; congruence. } by eapply (G []).
  - assert (id0 = id) as ->. { destruct Hev as [Hev | Hev]; apply elem_of_list_singleton in Hev; congruence. } by eapply (G []).
Qed.
Print Assumptions C74_caller.
(** An application at its end that throws: it does not count as returned, and the elements behind
    it in its block are not visited any more; in a task the exception is kept for the caller. *)
Theorem C74_throws s s' t p f fs i its : undefined s = false -> stacks s !! t = Some (f :: fs) -> alive s f -> running f = (i, Body true []) :: its -> pool_step t p s s' ->
  match f with
  | FMain _ => stacks s' !! t = Some (FMain its :: fs) /\ plog s' = plog s
  | FTask id _ => stacks s' !! t = Some (FTask id [] :: fs) /\ plog s' = plog s ++ [Threw id i] /\ excs s' id = true
  | FLoop id _ _ _ => stacks s' !! t = Some (raise_top fs) /\ plog s' = plog s ++ [Threw id i; Left id]
  end.
Proof.
  intros Hu E Ha Hr H. assert (Hlt : t < length (stacks s)) by (by eapply lookup_lt_Some).
  destruct H; try congruence;
    try match goal with E' : stacks s !! t = Some (?g :: ?gs) |- _ => rewrite E in E'; injection E' as -> -> end;
    try (match goal with R : running f = _ |- _ => rewrite Hr in R; discriminate R end);
    try (cbn in Hr; discriminate Hr).
  - cbn in Hr. injection Hr as -> ->. cbn. rewrite list_lookup_insert by done. unfold upd. by rewrite decide_True.
  - cbn in Hr. injection Hr as -> ->. cbn. by rewrite list_lookup_insert.
  - cbn in Hr. injection Hr as -> ->. cbn. by rewrite list_lookup_insert.
  - cbn in Ha. congruence.
  - match goal with E' : stacks s !! t = Some st |- _ => rewrite E in E'; injection E' as <- end. destruct f as [r|id r|id [|b bl] own d]; try done. cbn in Hr. by subst own.
Qed.
Print Assumptions C74_throws.
(** An exception in a loop nested in an element of another: both loops are left. *)
Example C74_caller_nonvacuous : exists s, rtc some_step (pool_initial 2 [[Body false [(1%positive, [Body false [(1%positive, [Body true []; leaf])]; leaf; leaf; leaf])]]]) s /\
  plog s = [Started 0 4; Applied 0 2; Started 1 2; Applied 0 3; Applied 1 1; Threw 1 0; Rethrew 1; Threw 0 0; Rethrew 0] /\ undefined s = false.
Proof. eexists. split; [apply (steps_reach (round_robin 3 20))|]. split; vm_compute; reflexivity. Qed.
