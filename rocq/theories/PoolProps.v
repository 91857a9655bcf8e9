(** C73, C74, C75: parallel loops. *)
From Coq Require Import PArith Lia.
From stdpp Require Import list list_numbers sets relations.
From Verif Require Import PoolModel PoolProofs PoolProgress.

(** ** C73 *)
(** The blocks of a loop: together they are the range, in order; their sizes are as computed, so
    no iterator passes the end, and every block is non-empty. *)
Lemma cut_lengths items step rem i k blocks own : cut items step rem i k = (blocks, own) -> k * step + (rem - i) `min` k <= length items ->
  (forall j b, blocks !! j = Some b -> length b = step + (if decide (i + j < rem) then 1 else 0)) /\ length own = length items - (k * step + (rem - i) `min` k).
Proof.
  revert items i blocks own. induction k as [|k IH]; intros items i blocks own E Hl; cbn [cut] in E.
  - injection E as <- <-. split; [intros j b Hj; by rewrite lookup_nil in Hj|]. cbn. lia.
  - remember (step + (if decide (i < rem) then 1 else 0)) as z eqn:Ez. destruct (cut (drop z items) step rem (S i) k) as [bl ow] eqn:Ec. injection E as <- <-.
    assert (Hz : z <= length items /\ k * step + (rem - S i) `min` k <= length items - z /\ length items - z - (k * step + (rem - S i) `min` k) = length items - (S k * step + (rem - i) `min` S k)).
    { destruct (decide (i < rem)); cbn [Nat.mul] in *; lia. }
    destruct Hz as (Hz1 & Hz2 & Hz3). apply IH in Ec as [E1 E2]; [|by rewrite drop_length]. split.
    + intros [|j] b Hj; cbn in Hj.
      * injection Hj as <-. rewrite take_length. rewrite Nat.add_0_r, <- Ez. lia.
      * rewrite (E1 j b Hj). by replace (S i + j) with (i + S j) by lia.
    + rewrite E2, drop_length. exact Hz3.
Qed.
Lemma task_count_bounds w n bs : 0 < n -> 1 <= task_count w n bs <= n.
Proof.
  intros Hn. unfold task_count. assert (Hbc : 1 <= n / Pos.to_nat bs + (if decide (n mod Pos.to_nat bs = 0) then 0 else 1)).
  { pose proof (Pos2Nat.is_pos bs). pose proof (Nat.div_mod n (Pos.to_nat bs) ltac:(lia)). destruct (decide _) as [E | E]; [|lia]. rewrite E in *. destruct (n / Pos.to_nat bs); lia. }
  destruct (decide (w = 0)); lia.
Qed.
Theorem C73_blocks workers block_size es blocks own : es <> [] -> split_loop workers block_size es = (blocks, own) ->
  let n := length es in let k := task_count workers n block_size in
  mjoin blocks ++ own = zip (seq 0 n) es /\ length blocks = k - 1 /\ 1 <= k <= n /\
  (forall j b, blocks !! j = Some b -> length b = n / k + (if decide (j < n mod k) then 1 else 0)) /\ length own = n / k /\ 1 <= n / k.
Proof.
  intros Hne E n k. assert (Hn : 0 < n) by (unfold n; destruct es; [done|cbn; lia]). pose proof (task_count_bounds workers n block_size Hn) as Hk. fold k in Hk.
  pose proof (split_join _ _ _ _ _ E) as [Hj _]. unfold split_loop in E. fold n k in E. pose proof (cut_join _ _ _ _ _ _ _ E) as [_ Hlen].
  pose proof (Nat.div_mod n k ltac:(lia)) as Hdm. pose proof (Nat.mod_upper_bound n k ltac:(lia)) as Hmu. assert (Hd : 1 <= n / k) by (apply Nat.div_le_lower_bound; lia).
  assert (Hlz : @length item (zip (seq 0 n) es) = n) by (unfold item; rewrite zip_with_length_r; [done|rewrite seq_length; unfold n; lia]).
  remember (n / k) as q eqn:Eq. remember (n mod k) as r eqn:Er.
  assert (Hsum : (k - 1) * q + (r - 0) `min` (k - 1) + q = n) by (rewrite Nat.sub_0_r, Nat.min_l by lia; replace k with (S (k - 1)) in Hdm at 1 by lia; nia).
  apply cut_lengths in E as [H1 H2]; [|change (length es) with n; rewrite Hlz; lia]. split; [done|]. split; [done|]. split; [done|]. split; [|split; [|done]].
  - intros j b Hb. by rewrite (H1 j b Hb).
  - rewrite H2. change (length es) with n. rewrite Hlz. lia.
Qed.
Print Assumptions C73_blocks.

(** Applications that returned. *)
Lemma step_log t p s s' : pool_step t p s s' -> pool_inv s -> exists ev, plog s' = plog s ++ ev /\
  (forall id i, Applied id i ∈ ev -> dead s id = false) /\ (forall id, Returned id ∈ ev -> ev = [Returned id]).
Proof.
  intros H [Ic Io Iw Iu].
  assert (Hnone : exists ev, plog s = plog s ++ ev /\ (forall id i, Applied id i ∈ ev -> dead s id = false) /\ (forall id, Returned id ∈ ev -> ev = [Returned id])).
  { exists []. rewrite app_nil_r. split; [done|]. split; [intros id i Hi; by apply elem_of_nil in Hi|intros id Hi; by apply elem_of_nil in Hi]. }
  destruct H as [| |s f fs i its Hu E Ha Hr| | | | | | | | | | | | | | |]; cbn [set_stack log_event plog]; try exact Hnone;
    try (eexists; split; [reflexivity|]; split; [intros ? ? Hi|intros ? Hi]; repeat (apply elem_of_cons in Hi as [? | Hi]; [congruence|]); by apply elem_of_nil in Hi).
  exists (applied f i). split; [done|]. split.
  - intros id j Hi. destruct f as [r|id' r|id' bl own d]; cbn in Hi; [by apply elem_of_nil in Hi| |]; apply elem_of_list_singleton in Hi; injection Hi as -> ->; [done|].
    apply (c_dead _ _ _ _ _ _ _ _ Ic). apply elem_of_list_omap. exists (FLoop id' bl own d). split; [|done]. eapply join_in; [exact E|by left].
  - intros id Hi. destruct f; cbn in Hi; [by apply elem_of_nil in Hi| |]; by apply elem_of_list_singleton in Hi.
Qed.
Lemma nothing_after w mains s : rtc some_step (pool_initial w mains) s -> forall id l1 l2, plog s = l1 ++ Returned id :: l2 -> done_of id l2 = [].
Proof.
  assert (G : forall s0 s, rtc some_step s0 s -> pool_inv s0 -> (forall id l1 l2, plog s0 = l1 ++ Returned id :: l2 -> done_of id l2 = []) -> forall id l1 l2, plog s = l1 ++ Returned id :: l2 -> done_of id l2 = []).
  { clear. intros s0 s H. induction H as [|x y z (t & p & Hxy) Hyz IH]; [done|]. intros I HP. apply IH; [by eapply pool_step_inv|]. clear IH Hyz z.
    destruct (step_log _ _ _ _ Hxy I) as (ev & El & Ha & Hret). intros id l1 l2 E. rewrite El in E. symmetry in E. apply app_eq_app in E as (k & [[-> E] | [Eq E]]).
    - assert (Hev : ev = [Returned id]) by (apply Hret; rewrite E; apply elem_of_app; right; by left). rewrite Hev in E. destruct k as [|e k]; [injection E as <-; done|]. injection E as _ E. by destruct k.
    - destruct k as [|e k].
      + cbn in E. assert (Hev : ev = [Returned id]) by (apply Hret; rewrite <- E; by left). rewrite Hev in E. injection E as ->. done.
      + injection E as <- ->. rewrite done_app. rewrite (HP id l1 k Eq). cbn [app]. destruct I as [Ic _ _ _]. destruct (c_over _ _ _ _ _ _ _ _ Ic id) as [Hd _]; [left; rewrite Eq; apply elem_of_app; right; by left|].
        assert (Hx : forall i, i ∉ done_of id ev). { intros i Hi. apply elem_of_list_omap in Hi as (e & He & Hm). destruct e as [|j i'| | | |]; try done. destruct (decide (j = id)) as [-> | ?]; [|done]. apply Ha in He. congruence. }
        destruct (done_of id ev) as [|i l]; [done|]. destruct (Hx i). by left. }
  intros H. apply (G _ _ H (pool_initial_inv w mains)). intros id l1 l2 E. by destruct l1.
Qed.
(** When execute_loop returns, every element of the range had exactly one application, which has
    returned, and there is no application afterwards. *)
Theorem C73_exactly_once workers mains s id n before after : rtc some_step (pool_initial workers mains) s ->
  plog s = before ++ Returned id :: after -> Started id n ∈ plog s -> done_of id before ≡ₚ seq 0 n /\ done_of id after = [].
Proof.
  intros H E Hs. pose proof (nothing_after _ _ _ H id before after E) as Ha. split; [|done].
  pose proof (reachable_pool_inv _ _ _ H) as [Ic _ _ _]. assert (Hret : Returned id ∈ plog s) by (rewrite E; apply elem_of_app; right; by left).
  pose proof (c_exact _ _ _ _ _ _ _ _ Ic id n Hs (fun i => c_normal _ _ _ _ _ _ _ _ Ic id i Hret)) as Hx.
  destruct (c_over _ _ _ _ _ _ _ _ Ic id (or_introl Hret)) as [Hd Hz].
  assert (Hp : mjoin (stacks s) ≫= frame_pend id = []).
  { assert (Hno : forall f, f ∈ mjoin (stacks s) -> frame_pend id f = []).
    { intros f Hf. assert (Hc : frame_count id f = 0). { pose proof (sum_list_with_in f (frame_count id) _ Hf) as Hle. unfold fcount in Hz. lia. }
      destruct f as [r|j r|j bl own d]; cbn in *; [done| |]; destruct (decide (j = id)) as [-> | ?]; try done.
      assert (dead s id = false); [|congruence]. apply (c_dead _ _ _ _ _ _ _ _ Ic). apply elem_of_list_omap. by exists (FLoop id bl own d). }
    clear -Hno. induction (mjoin (stacks s)) as [|f fr IH]; [done|]. rewrite pend_cons, Hno by (by left). apply IH. intros g Hg. apply Hno. by right. }
  assert (Ht : mjoin (queues s) ≫= task_pend id = []).
  { assert (Hno : forall tk, tk ∈ mjoin (queues s) -> task_pend id tk = []).
    { intros tk Hf. assert (Hc : task_tally id tk = 0). { pose proof (sum_list_with_in tk (task_tally id) _ Hf) as Hle. unfold tcount in Hz. lia. }
      unfold task_tally, task_pend in *. by destruct (decide (task_loop tk = id)). }
    clear -Hno. induction (mjoin (queues s)) as [|f fr IH]; [done|]. rewrite tpend_cons, Hno by (by left). apply IH. intros g Hg. apply Hno. by right. }
  rewrite Hp, Ht, E, done_app in Hx. change (Returned id :: after) with ([Returned id] ++ after) in Hx. rewrite done_app, Ha in Hx. cbn in Hx. by rewrite !app_nil_r in Hx.
Qed.
Print Assumptions C73_exactly_once.

(** ** C74 *)
(** Tasks of a loop that are queued or running. *)
Definition has_task (s : pool) (id : nat) : Prop := (exists tk, tk ∈ mjoin (queues s) /\ task_loop tk = id) \/ (exists its, FTask id its ∈ mjoin (stacks s)).
(** When execute_loop has returned, or thrown the exception of a task, no task of it is left. *)
Theorem C74_no_task_left_partial workers mains s id : rtc some_step (pool_initial workers mains) s -> Returned id ∈ plog s \/ Rethrew id ∈ plog s -> ~ has_task s id.
Proof.
  intros H Hx. pose proof (reachable_pool_inv _ _ _ H) as [Ic _ _ _]. destruct (c_over _ _ _ _ _ _ _ _ Ic id Hx) as [_ Hz]. intros [(tk & Htk & He) | [its Hf]].
  - pose proof (sum_list_with_in tk (task_tally id) _ Htk) as Hle. unfold task_tally in Hle at 1. rewrite decide_True in Hle by done. unfold tcount in Hz. lia.
  - pose proof (sum_list_with_in _ (frame_count id) _ Hf) as Hle. cbn in Hle. rewrite decide_True in Hle by done. unfold fcount in Hz. lia.
Qed.
(** If any application throws, execute_loop does not return normally. *)
Theorem C74_propagates workers mains s id i : rtc some_step (pool_initial workers mains) s -> Threw id i ∈ plog s -> Returned id ∉ plog s.
Proof. intros H Ht Hr. pose proof (reachable_pool_inv _ _ _ H) as [Ic _ _ _]. by apply (c_normal _ _ _ _ _ _ _ _ Ic id i). Qed.
(** Unless an application in the block of a caller throws, no task uses a dead frame. *)
Theorem C74_defined_partial workers mains s : rtc some_step (pool_initial workers mains) s -> (forall id, Left id ∉ plog s) -> undefined s = false.
Proof.
  intros H Hl. pose proof (reachable_pool_inv _ _ _ H) as [_ _ _ Iu]. destruct (undefined s) eqn:E; [|done]. destruct (Iu eq_refl) as [id Hid]. by apply Hl in Hid.
Qed.
Print Assumptions C74_no_task_left_partial.
Print Assumptions C74_propagates.
Print Assumptions C74_defined_partial.

(** ** C75 *)
(** Every fair execution of any program comes to an end, unless it becomes undefined because an
    application in the block of a caller threw. *)
Theorem C75_completes workers mains (ts : nat -> nat) (ss : nat -> pool) :
  ss 0 = pool_initial workers mains -> (forall i, exists p, pool_step (ts i) p (ss i) (ss (S i))) ->
  (forall t, t < workers + length mains -> forall i, exists j, i <= j /\ ts j = t) ->
  exists i, finished (ss i) \/ (undefined (ss i) = true /\ exists id, Left id ∈ plog (ss i)).
Proof.
  intros H0 Hrun Hfair.
  assert (Hinv : forall i, pool_inv (ss i)) by (intros i; induction i as [|i IH]; [rewrite H0; apply pool_initial_inv|destruct (Hrun i) as [p Hp]; by eapply pool_step_inv]).
  assert (Hlen : forall i, length (stacks (ss i)) = workers + length mains).
  { intros i. induction i as [|i IH]; [rewrite H0; cbn; by rewrite app_length, replicate_length, fmap_length|]. destruct (Hrun i) as [p Hp]. by rewrite (step_length _ _ _ _ Hp). }
  destruct (fair_completes ts ss _ Hrun Hfair Hinv Hlen 0) as (j & _ & [Hj | Hj]); exists j; [by left|right]. split; [done|]. by apply Hinv.
Qed.
(** Without exceptions every fair execution ends, and every loop that was started has returned. *)
Theorem C75_no_deadlock workers mains (ts : nat -> nat) (ss : nat -> pool) : Forall (Forall quiet) mains ->
  ss 0 = pool_initial workers mains -> (forall i, exists p, pool_step (ts i) p (ss i) (ss (S i))) ->
  (forall t, t < workers + length mains -> forall i, exists j, i <= j /\ ts j = t) ->
  exists i, finished (ss i) /\ forall id n, Started id n ∈ plog (ss i) -> Returned id ∈ plog (ss i).
Proof.
  intros Hq H0 Hrun Hfair. destruct (C75_completes workers mains ts ss H0 Hrun Hfair) as [i Hi].
  assert (Hquiet : forall i, quiet_pool (ss i)) by (intros k; induction k as [|k IH]; [rewrite H0; by apply quiet_initial|destruct (Hrun k) as [p Hp]; by eapply quiet_step]).
  assert (Hinv : forall i, pool_inv (ss i)) by (intros k; induction k as [|k IH]; [rewrite H0; apply pool_initial_inv|destruct (Hrun k) as [p Hp]; by eapply pool_step_inv]).
  exists i. destruct (Hquiet i) as [_ _ _ Ql]. destruct Hi as [Hi | [_ [id Hid]]]; [|by apply Ql in Hid]. split; [done|]. intros id n Hs.
  destruct (Hinv i) as [Ic _ _ _]. destruct Hi as [Hst _]. destruct (c_alive _ _ _ _ _ _ _ _ Ic id) as [Hd | Hin]; [by apply (c_fresh _ _ _ _ _ _ _ _ Ic (Started id n))| |rewrite (join_nil _ Hst) in Hin; by apply elem_of_nil in Hin].
  destruct (c_deadlog _ _ _ _ _ _ _ _ Ic id Hd) as [? | [Hx | Hx]]; [done|by apply Ql in Hx|by apply Ql in Hx].
Qed.
Print Assumptions C75_completes.
Print Assumptions C75_no_deadlock.

(** ** Executions *)
(** A step of thread [t] computed: shows that every thread can always make a step, and gives the
    examples. *)
Definition defined_step (t : nat) (s : pool) : option pool :=
  match stacks s !! t with
  | None => None
  | Some [] =>
      match queues s !! t with
      | Some (tk :: q) => Some (Pool (<[t := q]> (queues s)) (<[t := [FTask (task_loop tk) (task_items tk)]]> (stacks s)) (latches s) (excs s) (dead s) (next_id s) (plog s) (undefined s))
      | _ => Some s
      end
  | Some (f :: fs) =>
      if match f with FTask id _ => dead s id | _ => false end
      then Some (Pool (queues s) (stacks s) (latches s) (excs s) (dead s) (next_id s) (plog s) true)
      else
      match running f with
      | (i, Body th ((bs, []) :: ls)) :: its => Some (set_stack s t (with_items f ((i, Body th ls) :: its) :: fs))
      | (i, Body th ((bs, e :: es) :: ls)) :: its =>
          let '(blocks, own) := split_loop (length (queues s)) bs (e :: es) in
          Some (Pool (queues s) (<[t := FLoop (next_id s) blocks own false :: with_items f ((i, Body th ls) :: its) :: fs]> (stacks s))
            (upd (latches s) (next_id s) (length blocks)) (upd (excs s) (next_id s) false) (dead s) (S (next_id s)) (plog s ++ [Started (next_id s) (length (e :: es))]) (undefined s))
      | (i, Body false []) :: its => Some (log_event (set_stack s t (with_items f its :: fs)) (applied f i))
      | (i, Body true []) :: its =>
          match f with
          | FMain _ => Some (set_stack s t (FMain its :: fs))
          | FTask id _ => Some (Pool (queues s) (<[t := FTask id [] :: fs]> (stacks s)) (latches s) (upd (excs s) id true) (dead s) (next_id s) (plog s ++ [Threw id i]) (undefined s))
          | FLoop id _ _ _ => Some (Pool (queues s) (<[t := raise_top fs]> (stacks s)) (latches s) (excs s) (upd (dead s) id true) (next_id s) (plog s ++ [Threw id i; Left id]) (undefined s))
          end
      | [] =>
          match f with
          | FMain _ => Some (set_stack s t fs)
          | FTask id _ => Some (Pool (queues s) (<[t := fs]> (stacks s)) (upd (latches s) id (latches s id - 1)) (excs s) (dead s) (next_id s) (plog s) (undefined s))
          | FLoop id (b :: blocks) own d =>
              let w := length (mjoin (queues s)) mod length (queues s) in
              match queues s !! w with
              | Some q => Some (Pool (<[w := q ++ [Task id b]]> (queues s)) (<[t := FLoop id blocks own d :: fs]> (stacks s)) (latches s) (excs s) (dead s) (next_id s) (plog s) (undefined s))
              | None => None
              end
          | FLoop id [] own d =>
              match queues s !! t, d with
              | Some (tk :: q), false => Some (Pool (<[t := q]> (queues s)) (<[t := FTask (task_loop tk) (task_items tk) :: FLoop id [] [] false :: fs]> (stacks s)) (latches s) (excs s) (dead s) (next_id s) (plog s) (undefined s))
              | Some [], false => Some (set_stack s t (FLoop id [] [] true :: fs))
              | o, _ =>
                  if decide (latches s id = 0)
                  then if excs s id
                       then Some (Pool (queues s) (<[t := raise_top fs]> (stacks s)) (latches s) (excs s) (upd (dead s) id true) (next_id s) (plog s ++ [Rethrew id]) (undefined s))
                       else Some (Pool (queues s) (<[t := fs]> (stacks s)) (latches s) (excs s) (upd (dead s) id true) (next_id s) (plog s ++ [Returned id]) (undefined s))
                  else match o with Some _ => Some (set_stack s t (FLoop id [] [] false :: fs)) | None => Some s end
              end
          end
      end
  end.
Definition next_step (t : nat) (s : pool) : option pool := if undefined s then Some s else defined_step t s.
Lemma next_step_sound t s s' : next_step t s = Some s' -> some_step s s' /\ exists p, pool_step t p s s'.
Proof.
  intros E. cut (exists p, pool_step t p s s'); [intros [p Hp]; split; [by exists t, p|by exists p]|]. unfold next_step in E. destruct (undefined s) eqn:Eu; [injection E as <-; eexists; by apply step_undefined|]. unfold defined_step in E.
  destruct (stacks s !! t) as [[|f fs]|] eqn:Est; [| |done].
  - destruct (queues s !! t) as [[|tk q]|] eqn:Eq; injection E as <-; eexists.
    + eapply step_blocked; [done|exact Est|]. cbn. by right.
    + by eapply step_take.
    + eapply step_blocked; [done|exact Est|]. cbn. by left.
  - destruct (match f with FTask id _ => dead s id | _ => false end) eqn:Ed.
    { destruct f; try done. injection E as <-. eexists. by eapply step_dangling. }
    assert (Ha : alive s f) by (by destruct f).
    destruct (running f) as [|[i [th ls]] its] eqn:Er.
    + destruct f as [r|id r|id [|b blocks] own d].
      * cbn in Er. subst r. injection E as <-. eexists. by eapply step_main_end.
      * cbn in Er. subst r. injection E as <-. eexists. by eapply step_finish.
      * cbn in Er. subst own. destruct (queues s !! t) as [[|tk q]|] eqn:Eq; destruct d.
        -- destruct (decide (latches s id = 0)) as [Hl | Hl]; [destruct (excs s id) eqn:Ee|]; injection E as <-; eexists; [eapply step_rethrow; eauto|eapply step_return; eauto|by eapply step_yield].
        -- injection E as <-. eexists. by eapply step_drained.
        -- destruct (decide (latches s id = 0)) as [Hl | Hl]; [destruct (excs s id) eqn:Ee|]; injection E as <-; eexists; [eapply step_rethrow; eauto|eapply step_return; eauto|by eapply step_yield].
        -- injection E as <-. eexists. by eapply step_help.
        -- destruct (decide (latches s id = 0)) as [Hl | Hl]; [destruct (excs s id) eqn:Ee|]; injection E as <-; eexists; [eapply step_rethrow; eauto|eapply step_return; eauto|by eapply step_blocked].
        -- destruct (decide (latches s id = 0)) as [Hl | Hl]; [destruct (excs s id) eqn:Ee|]; injection E as <-; eexists; [eapply step_rethrow; eauto|eapply step_return; eauto|by eapply step_blocked].
      * destruct (queues s !! (length (mjoin (queues s)) mod length (queues s))) as [q|] eqn:Eq; [|done]. injection E as <-. eexists. by eapply step_submit.
    + destruct ls as [|[bs [|e es]] ls].
      * destruct th.
        -- destruct f as [r|id r|id [|b blocks] own d]; cbn in Er; try done; subst; injection E as <-; eexists; [by eapply step_throw_main|by eapply step_throw_task|by eapply step_throw_own].
        -- injection E as <-. eexists. by eapply step_apply.
      * destruct th; injection E as <-; eexists; by eapply step_empty.
      * destruct (split_loop (length (queues s)) bs (e :: es)) as [blocks own] eqn:Esp. destruct th; injection E as <-; eexists; by eapply step_begin.
Qed.
(** Every thread can make a step in every reachable state. *)
Theorem C75_never_stuck workers mains s t : rtc some_step (pool_initial workers mains) s -> t < length (stacks s) -> exists s', next_step t s = Some s'.
Proof.
  intros H Ht. pose proof (reachable_pool_inv _ _ _ H) as [Ic _ _ _]. unfold next_step. destruct (undefined s); [eauto|]. unfold defined_step. destruct (lookup_lt_is_Some_2 _ _ Ht) as [st Hst]. rewrite Hst.
  destruct st as [|f fs]; [destruct (queues s !! t) as [[]|]; eauto|]. destruct (match f with FTask id _ => dead s id | _ => false end); [eauto|].
  destruct (running f) as [|[i [th ls]] its].
  - destruct f as [r|id r|id [|b blocks] own d]; [eauto|eauto| |].
    + destruct (queues s !! t) as [[|tk q]|], d; eauto; destruct (decide (latches s id = 0)); eauto; destruct (excs s id); eauto.
    + assert (Hw : length (queues s) <> 0) by (apply (c_blocks _ _ _ _ _ _ _ _ Ic (FLoop id (b :: blocks) own d)); [eapply join_in; [exact Hst|by left]|done]).
      pose proof (Nat.mod_upper_bound (length (mjoin (queues s))) (length (queues s)) Hw) as Hm. destruct (lookup_lt_is_Some_2 _ _ Hm) as [q ->]. eauto.
  - destruct ls as [|[bs [|e es]] ls]; [destruct th; [|eauto]; destruct f; eauto|destruct th; eauto|]. destruct (split_loop (length (queues s)) bs (e :: es)), th; eauto.
Qed.
Print Assumptions C75_never_stuck.
(** So for every fair schedule there is an execution that follows it, to which the theorems above apply. *)
Fixpoint run_schedule (ts : nat -> nat) (s : pool) (i : nat) : pool :=
  match i with O => s | S i => let s' := run_schedule ts s i in default s' (next_step (ts i) s') end.
Theorem C75_schedules workers mains (ts : nat -> nat) : (forall i, ts i < workers + length mains) ->
  exists ss, ss 0 = pool_initial workers mains /\ forall i, exists p, pool_step (ts i) p (ss i) (ss (S i)).
Proof.
  intros Hts. exists (run_schedule ts (pool_initial workers mains)). split; [done|].
  assert (H : forall i, rtc some_step (pool_initial workers mains) (run_schedule ts (pool_initial workers mains) i) /\ length (stacks (run_schedule ts (pool_initial workers mains) i)) = workers + length mains /\
    exists p, pool_step (ts i) p (run_schedule ts (pool_initial workers mains) i) (run_schedule ts (pool_initial workers mains) (S i))).
  { intros i. induction i as [|i (IH1 & IH2 & p & IH3)].
    - assert (Hl : length (stacks (pool_initial workers mains)) = workers + length mains) by (cbn; by rewrite app_length, replicate_length, fmap_length).
      split; [apply rtc_refl|]. split; [done|]. cbn [run_schedule]. destruct (C75_never_stuck workers mains (pool_initial workers mains) (ts 0)) as [s' Hs']; [apply rtc_refl|rewrite Hl; apply Hts|]. rewrite Hs'. by apply next_step_sound.
    - assert (Hr : rtc some_step (pool_initial workers mains) (run_schedule ts (pool_initial workers mains) (S i))) by (eapply rtc_r; [exact IH1|by exists (ts i), p]).
      assert (Hl : length (stacks (run_schedule ts (pool_initial workers mains) (S i))) = workers + length mains) by (by rewrite (step_length _ _ _ _ IH3)).
      split; [done|]. split; [done|]. remember (run_schedule ts (pool_initial workers mains) (S i)) as s eqn:Es. cbn [run_schedule] in *. rewrite <- Es.
      destruct (C75_never_stuck workers mains s (ts (S i))) as [s' Hs']; [done|rewrite Hl; apply Hts|]. rewrite Hs'. by apply next_step_sound. }
  intros i. apply H.
Qed.
Print Assumptions C75_schedules.
Fixpoint steps (l : list nat) (s : pool) : pool := match l with [] => s | t :: l => match next_step t s with Some s' => steps l s' | None => s end end.
Lemma steps_reach l s : rtc some_step s (steps l s).
Proof. revert s. induction l as [|t l IH]; intros s; [apply rtc_refl|]. cbn. destruct (next_step t s) as [s'|] eqn:E; [|apply rtc_refl]. eapply rtc_l; [by apply (next_step_sound t)|apply IH]. Qed.

(** Two workers, a loop over three elements, the first of which runs a nested loop over two
    elements: everything is applied once, the nested loop returns first. *)
Definition leaf : body := Body false [].
Definition nested : list (list body) := [[Body false [(1%positive, [Body false [(1%positive, [leaf; leaf])]; leaf; leaf])]]].
Definition round_robin (n rounds : nat) : list nat := mjoin (replicate rounds (seq 0 n)).
Example C73_nonvacuous : exists s, rtc some_step (pool_initial 2 nested) s /\
  plog s = [Started 0 3; Applied 0 2; Started 1 2; Applied 1 1; Applied 1 0; Returned 1; Applied 0 0; Applied 0 1; Returned 0] /\ finished s /\ undefined s = false.
Proof.
  exists (steps (round_robin 3 20) (pool_initial 2 nested)). split; [apply steps_reach|]. split; [vm_compute; reflexivity|]. split; [|vm_compute; reflexivity]. split; vm_compute; repeat constructor.
Qed.
Example C73_blocks_nonvacuous : split_loop 3 2 [leaf; leaf; leaf; leaf; leaf; leaf; leaf; leaf] = ([[(0, leaf); (1, leaf); (2, leaf)]; [(3, leaf); (4, leaf); (5, leaf)]], [(6, leaf); (7, leaf)]).
Proof. vm_compute. reflexivity. Qed.
Example C75_nonvacuous : Forall (Forall quiet) nested.
Proof.
  assert (Hl : quiet leaf) by (constructor; intros ? ? ? H; by apply elem_of_nil in H). assert (Hs : forall ls, (forall bs es e, (bs, es) ∈ ls -> e ∈ es -> quiet e) -> quiet (Body false ls)) by (intros; by constructor).
  repeat constructor. intros bs es e H He. apply elem_of_list_singleton in H. injection H as -> ->. repeat (apply elem_of_cons in He as [-> | He]; [try done|]); [|by apply elem_of_nil in He].
  constructor. intros bs es e H' He'. apply elem_of_list_singleton in H'. injection H' as -> ->. repeat (apply elem_of_cons in He' as [-> | He']; [done|]). by apply elem_of_nil in He'.
Qed.
(** The second element throws in a task: the loop throws, after the task finished. *)
Example C74_nonvacuous : exists s, rtc some_step (pool_initial 2 [[Body false [(1%positive, [Body true []; leaf])]]]) s /\
  plog s = [Started 0 2; Applied 0 1; Threw 0 0; Rethrew 0] /\ undefined s = false.
Proof. eexists. split; [apply (steps_reach (round_robin 3 10))|]. split; vm_compute; reflexivity. Qed.
(** The second element is in the block of the caller and throws: execute_loop is left while its
    task is still queued, and the task then uses the dead frame. *)
Theorem C74_refuted : exists s s', rtc some_step (pool_initial 2 [[Body false [(1%positive, [leaf; Body true []])]]]) s /\
  Left 0 ∈ plog s /\ has_task s 0 /\ rtc some_step s s' /\ undefined s' = true.
Proof.
  exists (steps [2; 2; 2] (pool_initial 2 [[Body false [(1%positive, [leaf; Body true []])]]])). eexists. split; [apply steps_reach|]. split; [vm_compute; set_solver|]. split.
  - left. exists (Task 0 [(0, leaf)]). split; [|done]. vm_compute. by left.
  - split; [apply (steps_reach [0; 0])|vm_compute; reflexivity].
Qed.
Print Assumptions C74_refuted.
