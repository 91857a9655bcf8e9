(** C76: the concurrent queue. *)
From Coq Require Import Lia.
From stdpp Require Import list relations.
From Verif Require Import QueueModel.

(** ** What the queue has to do, as a property of the order of the calls *)
Section spec.
Context {A : Type}.
Definition puts (tr : list (event A)) : list A := omap (fun e => match e with Put x => Some x | _ => None end) tr.
Definition takes (tr : list (event A)) : list A := omap (fun e => match e with Take _ x => Some x | _ => None end) tr.
(** What an event needs from the events before it: an element is accepted only before the queue
    is closed and rejected only after; take returns the first element put and not yet taken; take
    reports the end only when the queue is closed and everything put was taken. *)
Definition allowed (before : list (event A)) (e : event A) : Prop :=
  match e with
  | Put _ => Close ∉ before
  | Reject _ => Close ∈ before
  | Take _ x => exists rest, puts before = takes before ++ x :: rest
  | End _ => Close ∈ before /\ takes before = puts before
  | Close => True
  end.
Definition queue_spec (tr : list (event A)) : Prop := forall tr1 e tr2, tr = tr1 ++ e :: tr2 -> allowed tr1 e.
End spec.

(** ** Invariant *)
Section total.
Context {X : Type} (f : X -> nat).
Definition total (l : list X) : nat := foldr (fun x a => f x + a) 0 l.
Lemma total_insert l t x y : l !! t = Some x -> total (<[t := y]> l) + f x = total l + f y.
Proof.
  revert t. induction l as [|z l IH]; intros [|t] E; try done; cbn in E.
  - injection E as ->. cbn. lia.
  - specialize (IH t E). change (f z + total (<[t := y]> l) + f x = f z + total l + f y). lia.
Qed.
Lemma total_pos l : 0 < total l -> exists t x, l !! t = Some x /\ 0 < f x.
Proof.
  induction l as [|x l IH]; [cbn; lia|]. intros H. change (0 < f x + total l) in H. destruct (decide (0 < f x)) as [Hx | Hx]; [by exists 0, x|].
  destruct IH as (t & y & Ht & Hy); [lia|]. by exists (S t), y.
Qed.
End total.

Section proofs.
Context {A : Type}.
Implicit Types s : queue_state A.
Definition inside (pc : queue_pc A) : bool :=
  match pc with QEmplaceIn _ | QTakeIn | QTakeOut | QCloseIn | QAskIn | QLeave => true | _ => false end.
(** Threads in take that are not asleep and not blocked by the condition. *)
Definition awake (pc : queue_pc A) : nat := match pc with QWoken | QTakeIn | QTakeOut => 1 | _ => 0 end.

Record queue_inv s : Prop := QueueInv {
  q_spec : queue_spec (trace s);
  q_content : puts (trace s) = takes (trace s) ++ elements s;
  q_closed : is_closed s = true <-> Close ∈ trace s;
  q_owner : forall t pc, queue_at s !! t = Some pc -> inside pc = true <-> owner s = Some t;
  q_out : forall t, queue_at s !! t = Some QTakeOut -> elements s <> [] \/ is_closed s = true;
  q_asleep : forall t, queue_at s !! t = Some QAsleep -> is_closed s = false /\ length (elements s) <= total awake (queue_at s) }.

Lemma spec_snoc (tr : list (event A)) e : queue_spec tr -> allowed tr e -> queue_spec (tr ++ [e]).
Proof.
  intros Hs He tr1 e' tr2 E. destruct tr2 as [|e2 tr2 _] using rev_ind.
  - apply app_inj_tail in E as [-> ->]. done.
  - rewrite app_comm_cons, app_assoc in E. apply app_inj_tail in E as [E _]. by apply (Hs tr1 e' tr2).
Qed.
Lemma puts_app (a b : list (event A)) : puts (a ++ b) = puts a ++ puts b.
Proof. apply omap_app. Qed.
Lemma takes_app (a b : list (event A)) : takes (a ++ b) = takes a ++ takes b.
Proof. apply omap_app. Qed.
Lemma initial_inv n : queue_inv (queue_initial n).
Proof.
  constructor; cbn.
  - intros [|e1 tr1] e tr2 E; discriminate E.
  - done.
  - split; [done|]. intros H. by apply elem_of_nil in H.
  - intros t pc Ht. apply lookup_replicate in Ht as [-> _]. done.
  - intros t Ht. apply lookup_replicate in Ht as [Ht _]. done.
  - intros t Ht. apply lookup_replicate in Ht as [Ht _]. done.
Qed.
Lemma lookup_set (l : list (queue_pc A)) t pc t' pc' : <[t := pc]> l !! t' = Some pc' -> (t' = t /\ pc' = pc) \/ (t' <> t /\ l !! t' = Some pc').
Proof. intros H. apply list_lookup_insert_Some in H as [(-> & -> & _) | [? ?]]; [by left|right; split; congruence]. Qed.
Lemma owner_unique s t t' pc pc' : queue_inv s -> queue_at s !! t = Some pc -> inside pc = true -> queue_at s !! t' = Some pc' -> inside pc' = true -> t = t'.
Proof. intros I H1 H2 H3 H4. apply (q_owner s I t pc H1) in H2. apply (q_owner s I t' pc' H3) in H4. congruence. Qed.

Lemma queue_step_inv s s' : queue_step s s' -> queue_inv s -> queue_inv s'.
Proof.
  intros H I. pose proof I as [I1 I2 I3 I4 I5 I6]. destruct H as [s t pc E Hpc|s t pc pc' E Hen Ho|s t E|s t x E Hc|s t x E Hc Hno|s t x w E Hc Hw|s t E Hr|s t E He Hc|s t E|s t E Hc He|s t x xs E He|s t E|s t E];
    try (pose proof (total_insert awake _ _ _ QLeave E) as Tl; cbn [awake] in Tl).
  - assert (Hin : inside pc = false /\ awake pc = 0 /\ pc <> QTakeOut /\ pc <> QAsleep) by (destruct Hpc as [[x ->] | [-> | [-> | ->]]]; done). destruct Hin as (Hin & Haw & Hto & Has).
    pose proof (total_insert awake _ _ _ pc E) as T. cbn [awake] in T.
    constructor; cbn [moves locks elements is_closed owner queue_at trace]; try done.
    + intros t' pc0 Ht'. apply lookup_set in Ht' as [[-> ->] | [Hn Ht']]; [rewrite Hin; rewrite <- (I4 t QIdle E); done|by apply I4].
    + intros t' Ht'. apply lookup_set in Ht' as [[-> Heq] | [Hn Ht']]; [done|by eapply I5].
    + intros t' Ht'. apply lookup_set in Ht' as [[-> Heq] | [Hn Ht']]; [done|]. apply I6 in Ht' as [? ?]. split; [done|lia].
  - assert (Hin : inside pc = false /\ inside pc' = true /\ awake pc <= awake pc' /\ pc' <> QTakeOut /\ pc' <> QAsleep) by (destruct Hen; cbn; repeat split; try done; lia). destruct Hin as (Hin & Hin' & Haw & Hto & Has).
    pose proof (total_insert awake _ _ _ pc' E) as T. assert (Hnone : forall t' pc0, queue_at s !! t' = Some pc0 -> inside pc0 = false). { intros t' pc0 Ht'. destruct (inside pc0) eqn:Ei; [|done]. apply (I4 t' pc0 Ht') in Ei. congruence. }
    constructor; cbn [moves locks elements is_closed owner queue_at trace]; try done.
    + intros t' pc0 Ht'. apply lookup_set in Ht' as [[-> ->] | [Hn Ht']]; [by rewrite Hin'|]. rewrite (Hnone _ _ Ht'). split; [done|congruence].
    + intros t' Ht'. apply lookup_set in Ht' as [[-> Heq] | [Hn Ht']]; [done|by eapply I5].
    + intros t' Ht'. apply lookup_set in Ht' as [[-> Heq] | [Hn Ht']]; [done|]. apply I6 in Ht' as [? ?]. split; [done|lia].
  - pose proof (total_insert awake _ _ _ QIdle E) as T. cbn [awake] in T. constructor; cbn [moves locks elements is_closed owner queue_at trace]; try done.
    + intros t' pc0 Ht'. apply lookup_set in Ht' as [[-> ->] | [Hn Ht']]; [done|]. split; [|done]. intros Hi. by destruct Hn, (owner_unique s t t' QLeave pc0 I E eq_refl Ht' Hi).
    + intros t' Ht'. apply lookup_set in Ht' as [[-> Heq] | [Hn Ht']]; [done|by eapply I5].
    + intros t' Ht'. apply lookup_set in Ht' as [[-> Heq] | [Hn Ht']]; [done|]. apply I6 in Ht' as [? ?]. split; [done|lia].
  - (* rejected *)
    constructor; cbn [moves locks elements is_closed owner queue_at trace].
    + apply spec_snoc; [done|]. by apply I3.
    + rewrite puts_app, takes_app, I2. cbn. by rewrite !app_nil_r.
    + rewrite elem_of_app, elem_of_list_singleton. rewrite I3. split; [tauto|]. intros [? | ?]; [done|done].
    + intros t' pc0 Ht'. apply lookup_set in Ht' as [[-> ->] | [Hn Ht']]; [rewrite <- (I4 t _ E); done|by apply I4].
    + intros t' Ht'. apply lookup_set in Ht' as [[-> Heq] | [Hn Ht']]; [done|by eapply I5].
    + intros t' Ht'. apply lookup_set in Ht' as [[-> Heq] | [Hn Ht']]; [done|]. apply I6 in Ht' as [? ?]. split; [done|lia].
  - (* accepted, nobody asleep *)
    constructor; cbn [moves locks elements is_closed owner queue_at trace].
    + apply spec_snoc; [done|]. cbn. rewrite <- I3. congruence.
    + rewrite puts_app, takes_app, I2. cbn. by rewrite !app_nil_r, <- app_assoc.
    + rewrite elem_of_app, elem_of_list_singleton. rewrite I3. split; [tauto|]. intros [? | ?]; [done|done].
    + intros t' pc0 Ht'. apply lookup_set in Ht' as [[-> ->] | [Hn Ht']]; [rewrite <- (I4 t _ E); done|by apply I4].
    + intros t' Ht'. left. by destruct (elements s).
    + intros t' Ht'. apply lookup_set in Ht' as [[-> Heq] | [Hn Ht']]; [done|]. destruct Hno. by eapply elem_of_list_lookup_2.
  - (* accepted, one woken up *)
    assert (Hwt : w <> t) by (intros ->; congruence).
    assert (E' : <[w := QWoken]> (queue_at s) !! t = Some (QEmplaceIn x)) by (by rewrite list_lookup_insert_ne).
    pose proof (total_insert awake _ _ _ QWoken Hw) as T1. pose proof (total_insert awake _ _ _ QLeave E') as T2. cbn [awake] in T1, T2.
    constructor; cbn [moves locks elements is_closed owner queue_at trace].
    + apply spec_snoc; [done|]. cbn. rewrite <- I3. congruence.
    + rewrite puts_app, takes_app, I2. cbn. by rewrite !app_nil_r, <- app_assoc.
    + rewrite elem_of_app, elem_of_list_singleton. rewrite I3. split; [tauto|]. intros [? | ?]; [done|done].
    + intros t' pc0 Ht'. apply lookup_set in Ht' as [[-> ->] | [Hn Ht']]; [rewrite <- (I4 t _ E); done|].
      apply lookup_set in Ht' as [[-> ->] | [Hn' Ht']]; [rewrite <- (I4 w _ Hw); done|by apply I4].
    + intros t' Ht'. left. by destruct (elements s).
    + intros t' Ht'. apply lookup_set in Ht' as [[-> Heq] | [Hn Ht']]; [done|]. apply lookup_set in Ht' as [[-> Heq] | [Hn' Ht']]; [done|].
      apply I6 in Ht' as [? ?]. split; [done|]. rewrite app_length. cbn. lia.
  - pose proof (total_insert awake _ _ _ QTakeOut E) as T. cbn [awake] in T. constructor; cbn [moves locks elements is_closed owner queue_at trace]; try done.
    + intros t' pc0 Ht'. apply lookup_set in Ht' as [[-> ->] | [Hn Ht']]; [rewrite <- (I4 t _ E); done|by apply I4].
    + intros t' Ht'. apply lookup_set in Ht' as [[-> Heq] | [Hn Ht']]; [done|]. apply I6 in Ht' as [? ?]. split; [done|lia].
  - pose proof (total_insert awake _ _ _ QAsleep E) as T. cbn [awake] in T. constructor; cbn [moves locks elements is_closed owner queue_at trace]; try done.
    + intros t' pc0 Ht'. apply lookup_set in Ht' as [[-> ->] | [Hn Ht']]; [done|]. split; [|done]. intros Hi. by destruct Hn, (owner_unique s t t' QTakeIn pc0 I E eq_refl Ht' Hi).
    + intros t' Ht'. apply lookup_set in Ht' as [[-> Heq] | [Hn Ht']]; [done|by eapply I5].
    + intros t' Ht'. split; [done|]. rewrite He. cbn. lia.
  - pose proof (total_insert awake _ _ _ QWoken E) as T. cbn [awake] in T. constructor; cbn [moves locks elements is_closed owner queue_at trace]; try done.
    + intros t' pc0 Ht'. apply lookup_set in Ht' as [[-> ->] | [Hn Ht']]; [rewrite <- (I4 t _ E); done|by apply I4].
    + intros t' Ht'. apply lookup_set in Ht' as [[-> Heq] | [Hn Ht']]; [done|by eapply I5].
    + intros t' Ht'. apply lookup_set in Ht' as [[-> Heq] | [Hn Ht']]; [done|]. apply I6 in Ht' as [? ?]. split; [done|lia].
  - (* end *)
    constructor; cbn [moves locks elements is_closed owner queue_at trace].
    + apply spec_snoc; [done|]. cbn. split; [by apply I3|]. by rewrite I2, He, app_nil_r.
    + rewrite puts_app, takes_app, I2. cbn. by rewrite !app_nil_r.
    + rewrite elem_of_app, elem_of_list_singleton. rewrite I3. split; [tauto|]. intros [? | ?]; [done|done].
    + intros t' pc0 Ht'. apply lookup_set in Ht' as [[-> ->] | [Hn Ht']]; [rewrite <- (I4 t _ E); done|by apply I4].
    + intros t' Ht'. apply lookup_set in Ht' as [[-> Heq] | [Hn Ht']]; [done|by eapply I5].
    + intros t' Ht'. apply lookup_set in Ht' as [[-> Heq] | [Hn Ht']]; [done|]. apply I6 in Ht' as [? ?]. congruence.
  - (* take *)
    rewrite He in *. constructor; cbn [moves locks elements is_closed owner queue_at trace].
    + apply spec_snoc; [done|]. cbn. by exists xs.
    + rewrite puts_app, takes_app, I2. cbn. by rewrite app_nil_r, <- app_assoc.
    + rewrite elem_of_app, elem_of_list_singleton. rewrite I3. split; [tauto|]. intros [? | ?]; [done|done].
    + intros t' pc0 Ht'. apply lookup_set in Ht' as [[-> ->] | [Hn Ht']]; [rewrite <- (I4 t _ E); done|by apply I4].
    + intros t' Ht'. apply lookup_set in Ht' as [[-> Heq] | [Hn Ht']]; [done|]. by destruct Hn, (owner_unique s t t' QTakeOut QTakeOut I E eq_refl Ht' eq_refl).
    + intros t' Ht'. apply lookup_set in Ht' as [[-> Heq] | [Hn Ht']]; [done|]. apply I6 in Ht' as [? Hl]. cbn in Hl. split; [done|lia].
  - (* close *)
    constructor; cbn [moves locks elements is_closed owner queue_at trace].
    + by apply spec_snoc.
    + rewrite puts_app, takes_app, I2. cbn. by rewrite !app_nil_r.
    + rewrite elem_of_app, elem_of_list_singleton. split; [by right|done].
    + intros t' pc0 Ht'. apply lookup_set in Ht' as [[-> ->] | [Hn Ht']]; [rewrite <- (I4 t _ E); done|].
      rewrite list_lookup_fmap in Ht'. destruct (queue_at s !! t') as [pc1|] eqn:E1; [|done]. cbn in Ht'. injection Ht' as <-. rewrite <- (I4 t' pc1 E1). by destruct pc1.
    + intros t' Ht'. by right.
    + intros t' Ht'. apply lookup_set in Ht' as [[-> Heq] | [Hn Ht']]; [done|]. rewrite list_lookup_fmap in Ht'. destruct (queue_at s !! t') as [[]|] eqn:E1; done.
  - constructor; cbn [moves locks elements is_closed owner queue_at trace]; try done.
    + intros t' pc0 Ht'. apply lookup_set in Ht' as [[-> ->] | [Hn Ht']]; [rewrite <- (I4 t _ E); done|by apply I4].
    + intros t' Ht'. apply lookup_set in Ht' as [[-> Heq] | [Hn Ht']]; [done|by eapply I5].
    + intros t' Ht'. apply lookup_set in Ht' as [[-> Heq] | [Hn Ht']]; [done|]. apply I6 in Ht' as [? ?]. split; [done|lia].
Qed.
Lemma reachable_inv n s : rtc queue_step (queue_initial n) s -> queue_inv s.
Proof. pose proof (initial_inv n) as I0. revert I0. generalize (@queue_initial A n). intros s0 I0 H. induction H; [done|]. by apply IHrtc, (queue_step_inv x y). Qed.

(** ** Theorems *)
Theorem C76_fifo_exactly_once n s : rtc queue_step (queue_initial n) s -> queue_spec (trace s).
Proof. intros H. by apply (reachable_inv n s H). Qed.
(** The elements put are those taken, in the same order, followed by those still in the queue. *)
Theorem C76_content n s : rtc queue_step (queue_initial n) s -> puts (trace s) = takes (trace s) ++ elements s.
Proof. intros H. by apply (reachable_inv n s H). Qed.
(** No lost wakeup: while a consumer sleeps the queue is open and there are at least as many other
    consumers on their way to the queue as there are elements. *)
Theorem C76_no_lost_wakeup n s t : rtc queue_step (queue_initial n) s -> queue_at s !! t = Some QAsleep ->
  is_closed s = false /\ length (elements s) <= total awake (queue_at s).
Proof. intros H. by apply (reachable_inv n s H). Qed.
(** Calls do not get stuck: if a thread is inside a call and not asleep, some such thread makes a
    step inside its call. *)
Theorem C76_progress n s t0 pc0 : rtc queue_step (queue_initial n) s -> queue_at s !! t0 = Some pc0 -> pc0 <> QIdle -> pc0 <> QAsleep ->
  exists t pc s' pc', queue_at s !! t = Some pc /\ pc <> QIdle /\ pc <> QAsleep /\ queue_step s s' /\ queue_at s' !! t = Some pc' /\ pc' <> pc.
Proof.
  intros H E0 Hi Ha. pose proof (reachable_inv n s H) as [I1 I2 I3 I4 I5 I6].
  assert (Hcase : (exists t pc, queue_at s !! t = Some pc /\ inside pc = true) \/ (owner s = None /\ inside pc0 = false)).
  { destruct (inside pc0) eqn:Ei; [left; eauto|]. destruct (owner s) as [t|] eqn:Eo; [|by right]. left.
    assert (Hex : forall s, rtc queue_step (queue_initial n) s -> forall t, owner s = Some t -> t < length (queue_at s)).
    { clear. intros s H. assert (G : forall s0 s, rtc queue_step s0 s -> (forall t, owner s0 = Some t -> t < length (queue_at s0)) -> forall t, owner s = Some t -> t < length (queue_at s)).
      { clear. intros s0 s H. induction H as [|x y z Hxy Hyz IH]; [done|]. intros Hx. apply IH. clear IH Hyz z. intros t Ht.
        destruct Hxy; cbn in *; rewrite ?insert_length, ?fmap_length; try done; try (by apply Hx). injection Ht as <-. by eapply lookup_lt_Some. }
      apply (G _ _ H). done. }
    destruct (lookup_lt_is_Some_2 (queue_at s) t (Hex s H t Eo)) as [pc Ht]. exists t, pc. split; [done|]. by apply (I4 t pc Ht). }
  destruct Hcase as [(t & pc & E & Hin) | [Ho Hin]].
  - assert (Hlt : t < length (queue_at s)) by (by eapply lookup_lt_Some).
    assert (Hgo : forall s' pc', queue_step s s' -> queue_at s' !! t = Some pc' -> pc' <> pc -> exists t pc s' pc', queue_at s !! t = Some pc /\ pc <> QIdle /\ pc <> QAsleep /\ queue_step s s' /\ queue_at s' !! t = Some pc' /\ pc' <> pc).
    { intros s' pc' H1 H2 H3. exists t, pc, s', pc'. by destruct pc. }
    destruct pc as [|x|x| | | | | | | | | |]; try done.
    + destruct (is_closed s) eqn:Ec.
      * eapply Hgo; [by apply (queue_emplace_closed s t x)|cbn; by apply list_lookup_insert|done].
      * assert (Hsl : QAsleep ∉ queue_at s \/ exists w, queue_at s !! w = Some QAsleep).
        { clear. induction (queue_at s) as [|y l IH]; [left; apply not_elem_of_nil|]. destruct IH as [IH | [w IH]]; [|right; by exists (S w)].
          destruct y; try (left; apply not_elem_of_cons; split; done). right. by exists 0. }
        destruct Hsl as [Hsl | [w Hw]].
        -- eapply Hgo; [by apply (queue_emplace_none s t x)|cbn; by apply list_lookup_insert|done].
        -- eapply Hgo; [by apply (queue_emplace_one s t x w)|cbn; apply list_lookup_insert; by rewrite insert_length|done].
    + destruct (elements s) eqn:Ee; [destruct (is_closed s) eqn:Ec|].
      * eapply Hgo; [apply (queue_take_ready s t E); by right|cbn; by apply list_lookup_insert|done].
      * eapply Hgo; [by apply (queue_take_wait s t E)|cbn; by apply list_lookup_insert|done].
      * eapply Hgo; [apply (queue_take_ready s t E); left; by rewrite Ee|cbn; by apply list_lookup_insert|done].
    + destruct (elements s) eqn:Ee.
      * destruct (I5 t E) as [? | Hc]; [done|]. eapply Hgo; [by apply (queue_take_end s t E)|cbn; by apply list_lookup_insert|done].
      * eapply Hgo; [by eapply (queue_take_front s t _ _ E)|cbn; by apply list_lookup_insert|done].
    + eapply Hgo; [by apply (queue_close s t E)|cbn; apply list_lookup_insert; by rewrite fmap_length|done].
    + eapply Hgo; [by apply (queue_ask s t E)|cbn; by apply list_lookup_insert|done].
    + eapply Hgo; [by apply (queue_unlock s t E)|cbn; by apply list_lookup_insert|done].
  - assert (Hlt : t0 < length (queue_at s)) by (by eapply lookup_lt_Some).
    assert (Hen : exists pc', enters pc0 pc' /\ pc' <> pc0) by (destruct pc0; try done; eexists; (split; [constructor|done])).
    destruct Hen as (pc' & Hen & Hne). exists t0, pc0, (locks s t0 pc'), pc'. repeat split; try done; [by eapply queue_lock|]. cbn. by apply list_lookup_insert.
Qed.
End proofs.
Print Assumptions C76_fifo_exactly_once.
Print Assumptions C76_content.
Print Assumptions C76_no_lost_wakeup.
Print Assumptions C76_progress.

Local Ltac compute_state := match goal with |- rtc _ ?x _ => let x' := eval vm_compute in x in change x with x' end.
(** Thread 0 goes to sleep in take, thread 1 puts 5 and closes the queue, thread 0 gets 5 and then
    the end; an element offered after that is rejected. *)
Example C76_nonvacuous : exists s : queue_state nat, rtc queue_step (queue_initial 2) s /\ trace s = [Put 5; Close; Take 0 5; End 0; Reject 6].
Proof.
  eexists. split; [|cycle 1].
  -
    eapply rtc_l; [apply (queue_call _ 0 QTake); [reflexivity|tauto]|]; compute_state.
    eapply rtc_l; [eapply (queue_lock _ 0); [reflexivity|constructor|reflexivity]|]; compute_state.
    eapply rtc_l; [apply (queue_take_wait _ 0); reflexivity|]; compute_state.
    eapply rtc_l; [apply (queue_call _ 1 (QEmplace 5)); [reflexivity|eauto]|]; compute_state.
    eapply rtc_l; [eapply (queue_lock _ 1); [reflexivity|constructor|reflexivity]|]; compute_state.
    eapply rtc_l; [apply (queue_emplace_one _ 1 5 0); reflexivity|]; compute_state.
    eapply rtc_l; [apply (queue_unlock _ 1); reflexivity|]; compute_state.
    eapply rtc_l; [apply (queue_call _ 1 QClose); [reflexivity|tauto]|]; compute_state.
    eapply rtc_l; [eapply (queue_lock _ 1); [reflexivity|constructor|reflexivity]|]; compute_state.
    eapply rtc_l; [apply (queue_close _ 1); reflexivity|]; compute_state.
    eapply rtc_l; [apply (queue_unlock _ 1); reflexivity|]; compute_state.
    eapply rtc_l; [eapply (queue_lock _ 0); [reflexivity|constructor|reflexivity]|]; compute_state.
    eapply rtc_l; [apply (queue_take_ready _ 0); [reflexivity|left; discriminate]|]; compute_state.
    eapply rtc_l; [apply (queue_take_front _ 0 5 []); reflexivity|]; compute_state.
    eapply rtc_l; [apply (queue_unlock _ 0); reflexivity|]; compute_state.
    eapply rtc_l; [apply (queue_call _ 0 QTake); [reflexivity|tauto]|]; compute_state.
    eapply rtc_l; [eapply (queue_lock _ 0); [reflexivity|constructor|reflexivity]|]; compute_state.
    eapply rtc_l; [apply (queue_take_ready _ 0); [reflexivity|right; reflexivity]|]; compute_state.
    eapply rtc_l; [apply (queue_take_end _ 0); reflexivity|]; compute_state.
    eapply rtc_l; [apply (queue_unlock _ 0); reflexivity|]; compute_state.
    eapply rtc_l; [apply (queue_call _ 1 (QEmplace 6)); [reflexivity|eauto]|]; compute_state.
    eapply rtc_l; [eapply (queue_lock _ 1); [reflexivity|constructor|reflexivity]|]; compute_state.
    eapply rtc_l; [apply (queue_emplace_closed _ 1 6); reflexivity|]; compute_state; apply rtc_refl.
  - reflexivity.
Qed.
