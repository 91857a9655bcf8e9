(** C114: the pool ends without losing a task, and its number of threads can be set. *)
From stdpp Require Import list list_numbers relations.
From Coq Require Import Lia.
From Verif Require Import ShutdownModel.

Section proofs.
Context {A : Type}.
Implicit Types (s : life A) (w : worker A).
(** What belongs to worker i. *)
Definition of (i : nat) (l : list (nat * A)) : list A := snd <$> filter (fun p => fst p = i) l.
Definition busy w : list A := match thread w with Running x => [x] | _ => [] end.

Lemma of_app i a b : of i (a ++ b) = of i a ++ of i b.
Proof. unfold of. by rewrite filter_app, fmap_app. Qed.
Lemma of_one i j x : of i [(j, x)] = if decide (j = i) then [x] else [].
Proof. unfold of. rewrite filter_cons, filter_nil. cbn. by destruct (decide (j = i)). Qed.

Record life_inv n s : Prop := {
  inv_len : length (workers s) = n;
  inv_tasks i w : workers s !! i = Some w -> of i (executed s) ++ busy w ++ task_queue w = of i (submitted s);
  inv_out i : n <= i -> of i (executed s) = [] /\ of i (submitted s) = [];
  inv_returned i w : workers s !! i = Some w -> thread w = Returned -> task_queue w = [] /\ queue_closed w = true;
  inv_destroyed i w : workers s !! i = Some w -> destroyed w = true -> thread w = Returned;
  inv_defined : use_after_destroy s = false;
  inv_phase : match doing s with
    | InUse => forall i w, workers s !! i = Some w -> queue_closed w = false
    | Stopping k => k <= n /\ forall i w, workers s !! i = Some w -> i < k -> queue_closed w = true
    | Destroying k => k <= n /\ forall i w, workers s !! i = Some w -> queue_closed w = true /\ (i < k -> destroyed w = true)
    | Gone => forall i w, workers s !! i = Some w -> destroyed w = true /\ queue_closed w = true
    end }.

Lemma inv_init n : life_inv n (new_pool n).
Proof.
  constructor; cbn; try done.
  - apply replicate_length.
  - intros i w H. by apply lookup_replicate_1 in H as [-> _].
  - intros i w H. by apply lookup_replicate_1 in H as [-> _].
  - intros i w H. by apply lookup_replicate_1 in H as [-> _].
  - intros i w H. by apply lookup_replicate_1 in H as [-> _].
Qed.
(** Replacing worker i. *)
Ltac at_i i H := apply list_lookup_insert_Some in H as [(<- & <- & _)|[? H]].
Lemma inv_step n s s' : life_inv n s -> life_step s s' -> life_inv n s'.
Proof.
  intros [L T O R D U P] Hs. inversion Hs as [? i x w w' Hd Hi He|? i w w' dn Hi Hw|? Hd|? i w Hd Hi|? i Hd Hi|? i w w' Hd Hi Hw|? i Hd Hi]; subst s0; subst s'.
  - (* submit *) rewrite Hd in P. unfold emplace in He. rewrite (P i w Hi) in He. apply (inj Some) in He as <-. assert (i < length (workers s)) by (by eapply lookup_lt_Some).
    constructor; cbn [workers doing submitted executed use_after_destroy]; try done.
    + by rewrite insert_length.
    + intros j w0 H0. rewrite of_app, of_one. at_i i H0.
      * rewrite decide_True by done. cbn [task_queue]. unfold busy. cbn [thread]. rewrite <- (T i w Hi). unfold busy. by rewrite <- !app_assoc.
      * rewrite decide_False by done. rewrite app_nil_r. by apply T.
    + intros j Hj. destruct (O j Hj) as [O1 O2]. rewrite of_app, of_one, O2, decide_False by lia. done.
    + intros j w0 H0 Hr. at_i i H0; [|by eapply R]. cbn in *. destruct (R i w Hi Hr) as [_ Hc]. by rewrite (P i w Hi) in Hc.
    + intros j w0 H0 Hr. at_i i H0; [|by eapply D]. cbn in *. by eapply D.
    + rewrite Hd. intros j w0 H0. at_i i H0; [done|]. by eapply P.
  - (* worker *) assert (Hil : i < length (workers s)) by (by eapply lookup_lt_Some). unfold worker_step in Hw.
    assert (Hnd : destroyed w = false). { destruct (destroyed w) eqn:E; [|done]. by rewrite (D i w Hi E) in Hw. }
    assert (Hkeep : queue_closed w' = queue_closed w /\ destroyed w' = destroyed w). { destruct (thread w) as [|x|]; [destruct (task_queue w); [destruct (queue_closed w) eqn:E; [|done]|]| |done]; by inversion Hw. }
    destruct Hkeep as [Hkc Hkd].
    constructor; cbn [workers doing submitted executed use_after_destroy]; try done.
    + by rewrite insert_length.
    + intros j w0 H0. rewrite of_app. at_i i H0.
      * rewrite <- (T i w Hi). unfold busy. destruct (thread w) as [|x|] eqn:Et; [destruct (task_queue w) as [|x q] eqn:Eq; [destruct (queue_closed w) eqn:E; [|done]|]| |done]; inversion Hw; subst; cbn [thread task_queue].
        -- replace (of i []) with (@nil A) by done. by rewrite !app_nil_r.
        -- replace (of i []) with (@nil A) by done. by rewrite app_nil_r.
        -- rewrite of_one, decide_True by done. by rewrite <- app_assoc.
      * replace (of j match dn with Some x => [(i, x)] | None => [] end) with (@nil A); [rewrite app_nil_r; by apply T|]. destruct dn; [|done]. by rewrite of_one, decide_False by done.
    + intros j Hj. destruct (O j Hj) as [O1 O2]. split; [|done]. rewrite of_app, O1. destruct dn; [|done]. by rewrite of_one, decide_False by lia.
    + intros j w0 H0 Hr. at_i i H0; [|by eapply R]. destruct (thread w) as [|x|] eqn:Et; [destruct (task_queue w) as [|x q] eqn:Eq; [destruct (queue_closed w) eqn:E; [|done]|]| |done]; inversion Hw; subst; cbn in *; done.
    + intros j w0 H0 Hr. at_i i H0; [|by eapply D]. rewrite Hkd in Hr. congruence.
    + by rewrite U, Hnd.
    + destruct (doing s) as [|k|k|].
      * intros j w0 H0. at_i i H0; [rewrite Hkc; by eapply P|by eapply P].
      * destruct P as [P1 P2]. split; [done|]. intros j w0 H0 Hj. at_i i H0; [rewrite Hkc; by eapply P2|by eapply P2].
      * destruct P as [P1 P2]. split; [done|]. intros j w0 H0. at_i i H0; [rewrite Hkc, Hkd; by eapply P2|by eapply P2].
      * intros j w0 H0. at_i i H0; [rewrite Hkc, Hkd; by eapply P|by eapply P].
  - constructor; cbn; try done. split; [lia|]. intros; lia.
  - rewrite Hd in P. destruct P as [P1 P2]. assert (Hil : i < length (workers s)) by (by eapply lookup_lt_Some).
    constructor; cbn [workers doing submitted executed use_after_destroy]; try done.
    + by rewrite insert_length.
    + intros j w0 H0. at_i i H0; [by apply (T i w)|by apply T].
    + intros j w0 H0 Hr. at_i i H0; [|by eapply R]. split; [by eapply (R i w)|done].
    + intros j w0 H0 Hr. at_i i H0; [|by eapply D]. by eapply (D i w).
    + split; [lia|]. intros j w0 H0 Hj. at_i i H0; [done|]. eapply P2; [exact H0|lia].
  - rewrite Hd in P. destruct P as [P1 P2]. constructor; cbn; try done. split; [lia|]. intros j w H. split; [|lia]. eapply P2; [exact H|]. apply lookup_lt_Some in H. lia.
  - rewrite Hd in P. destruct P as [P1 P2]. assert (Hil : i < length (workers s)) by (by eapply lookup_lt_Some). unfold destroy_worker in Hw. destruct (thread w) eqn:Et; [done|done|]. apply (inj Some) in Hw as <-.
    constructor; cbn [workers doing submitted executed use_after_destroy]; try done.
    + by rewrite insert_length.
    + intros j w0 H0. at_i i H0; [|by apply T]. rewrite <- (T i w Hi). unfold busy. cbn. by rewrite Et.
    + intros j w0 H0 Hr. at_i i H0; [|by eapply R]. by eapply (R i w).
    + intros j w0 H0 Hr. at_i i H0; [done|by eapply D].
    + split; [lia|]. intros j w0 H0. at_i i H0; [destruct (P2 i w Hi) as [Hc _]; by split|]. destruct (P2 j w0 H0) as [Q1 Q2]. split; [done|]. intros. apply Q2. lia.
  - rewrite Hd in P. destruct P as [P1 P2]. constructor; cbn; try done. intros j w H. destruct (P2 j w H) as [Q1 Q2]. split; [|done]. apply Q2. apply lookup_lt_Some in H. lia.
Qed.
Lemma inv_reach n s : rtc life_step (new_pool n) s -> life_inv n s.
Proof. intros H. remember (new_pool n) as s0 eqn:E. assert (I : life_inv n s0) by (subst; apply inv_init). clear E. induction H as [|a b c Hs Hr IH]; [done|]. apply IH. by eapply inv_step. Qed.

(** Every worker runs the tasks of its queue in the order of their submission, each once. *)
Theorem C114_tasks n s i w : rtc life_step (new_pool n) s -> workers s !! i = Some w ->
  of i (submitted s) = of i (executed s) ++ match thread w with Running x => [x] | _ => [] end ++ task_queue w.
Proof. intros H Hi. symmetry. by apply (inv_tasks n s (inv_reach n s H)). Qed.
(** When the destructor is done every task that was accepted has been run by its worker, every thread has ended
    and no thread ever used a destroyed queue. *)
Theorem C114_drained n s : rtc life_step (new_pool n) s -> doing s = Gone ->
  (forall i, of i (executed s) = of i (submitted s)) /\ forall i w, workers s !! i = Some w -> thread w = Returned.
Proof.
  intros H Hg. destruct (inv_reach n s H) as [L T O R D U P]. rewrite Hg in P.
  assert (Q : forall i w, workers s !! i = Some w -> thread w = Returned) by (intros i w Hi; eapply D; [exact Hi|]; by eapply P).
  split; [|done]. intros i. destruct (workers s !! i) as [w|] eqn:E.
  - rewrite <- (T i w E). unfold busy. rewrite (Q i w E). destruct (R i w E (Q i w E)) as [-> _]. by rewrite !app_nil_r.
  - apply lookup_ge_None in E. destruct (O i) as [-> ->]; [lia|done].
Qed.
Theorem C114_defined n s : rtc life_step (new_pool n) s -> use_after_destroy s = false.
Proof. intros H. by destruct (inv_reach n s H). Qed.

(** The work that is left once the destructor has started. *)
Definition worker_work w : nat := 2 * length (task_queue w) + match thread w with Taking => 1 | Running _ => 2 | Returned => 0 end.
Definition phase_work (n : nat) (p : phase) : nat := match p with InUse => 0 | Stopping i => (n - i) + n + 2 | Destroying i => (n - i) + 1 | Gone => 0 end.
Definition work s : nat := sum_list_with worker_work (workers s) + phase_work (length (workers s)) (doing s).
Lemma sum_insert (l : list (worker A)) i w w' : l !! i = Some w -> sum_list_with worker_work (<[i := w']> l) + worker_work w = sum_list_with worker_work l + worker_work w'.
Proof.
  revert i. induction l as [|a l IH]; intros [|i] H; [done|done| |].
  - injection H as ->. change (worker_work w' + sum_list_with worker_work l + worker_work w = worker_work w + sum_list_with worker_work l + worker_work w'). lia.
  - specialize (IH i H). change (worker_work a + sum_list_with worker_work (<[i := w']> l) + worker_work w = worker_work a + sum_list_with worker_work l + worker_work w'). lia.
Qed.
Lemma work_step s s' : doing s <> InUse -> life_step s s' -> work s' < work s.
Proof.
  intros Hp Hs. inversion Hs as [? i x w w' Hd Hi He|? i w w' dn Hi Hw|? Hd|? i w Hd Hi|? i Hd Hi|? i w w' Hd Hi Hw|? i Hd Hi]; subst s0; subst s'; unfold work; cbn [workers doing]; rewrite ?insert_length; try done.
  - assert (worker_work w' < worker_work w).
    { unfold worker_step in Hw. unfold worker_work. destruct (thread w) as [|x|] eqn:Et; [destruct (task_queue w) as [|x q] eqn:Eq; [destruct (queue_closed w) eqn:E; [|done]|]| |done]; inversion Hw; subst; cbn [thread task_queue length]; lia. }
    pose proof (sum_insert _ _ _ w' Hi). lia.
  - pose proof (sum_insert _ _ _ (close w) Hi) as Q. assert (worker_work (close w) = worker_work w) by done. assert (i < length (workers s)) by (by eapply lookup_lt_Some). rewrite Hd. cbn [phase_work]. lia.
  - rewrite Hd. cbn [phase_work]. lia.
  - pose proof (sum_insert _ _ _ w' Hi) as Q. assert (i < length (workers s)) by (by eapply lookup_lt_Some). unfold destroy_worker in Hw. destruct (thread w) eqn:Et; [done|done|]. apply (inj Some) in Hw as <-. unfold worker_work in Q. cbn in Q. rewrite Et in Q. rewrite Hd. cbn [phase_work]. unfold worker_work in *. cbn in *. lia.
  - rewrite Hd. cbn [phase_work]. lia.
Qed.
(** Once the destructor has started every execution is finite, and it can only end with the destructor done. *)
Theorem C114_terminates n s : rtc life_step (new_pool n) s -> doing s <> InUse -> Acc (fun a b => life_step b a) s.
Proof.
  intros _. remember (work s) as k eqn:E. revert s E. induction k as [k IH] using lt_wf_ind. intros s -> Hp. constructor. intros s' Hs. eapply IH; [by apply (work_step s s')|done|].
  intros Hu. inversion Hs; subst; cbn in *; congruence.
Qed.
Theorem C114_no_deadlock n s : rtc life_step (new_pool n) s -> (forall s', ~ life_step s s') -> doing s = Gone.
Proof.
  intros H Hs. destruct (inv_reach n s H) as [L T O R D U P]. destruct (doing s) as [|k|k|] eqn:Ed; [| | |done]; exfalso.
  - eapply Hs. by apply step_stop.
  - destruct P as [P1 P2]. destruct (decide (k = n)) as [->|]; [eapply Hs; by eapply step_stopped|]. destruct (lookup_lt_is_Some_2 (workers s) k) as [w Hw]; [lia|]. eapply Hs. by eapply step_close.
  - destruct P as [P1 P2]. destruct (decide (k = n)) as [->|]; [eapply Hs; by eapply step_gone|]. destruct (lookup_lt_is_Some_2 (workers s) k) as [w Hw]; [lia|]. destruct (P2 k w Hw) as [Hc _].
    destruct (thread w) eqn:Et.
    + destruct (task_queue w) eqn:Eq; eapply Hs; eapply step_worker; try exact Hw; unfold worker_step; rewrite Et, Eq, ?Hc; done.
    + eapply Hs; eapply step_worker; [exact Hw|]. unfold worker_step. by rewrite Et.
    + eapply Hs; eapply step_destroy; [exact Ed|exact Hw|]. unfold destroy_worker. by rewrite Et.
Qed.
(** Nothing is accepted once the queues are closed, and everything before. *)
Theorem C114_accepts n s i w x : rtc life_step (new_pool n) s -> workers s !! i = Some w -> (doing s = InUse -> emplace w x <> None) /\ (forall k, doing s = Destroying k -> emplace w x = None).
Proof.
  intros H Hi. destruct (inv_reach n s H) as [L T O R D U P]. unfold emplace. split.
  - intros E. rewrite E in P. by rewrite (P i w Hi).
  - intros k E. rewrite E in P. destruct P as [_ P]. by destruct (P i w Hi) as [-> _].
Qed.

(** Workers that are destroyed without being closed, as happens when creating one of them fails, are waited for
    forever. *)
Theorem C114_unclosed_refuted k : 0 < k -> ~ exists s, rtc life_step (Life (replicate k (@new_worker A)) (Destroying 0) [] [] false) s /\ doing s = Gone.
Proof.
  intros Hk (s & Hr & Hg). assert (G : forall a b, rtc life_step a b -> doing a = Destroying 0 -> Forall (fun w => w = @new_worker A) (workers a) -> length (workers a) = k -> doing b = Destroying 0).
  { induction 1 as [|a b c Hs Hr' IH]; [done|]. intros Hd Hw Hl. exfalso. rewrite Forall_lookup in Hw. inversion Hs as [? i x w w' Hd' Hi He|? i w w' dn Hi Hw'|? Hd'|? i w Hd' Hi|? i Hd' Hi|? i w w' Hd' Hi Hw'|? i Hd' Hi]; subst; try congruence.
    - rewrite (Hw i w Hi) in Hw'. done.
    - rewrite (Hw i w Hi) in Hw'. done.
    - rewrite Hd in Hd'. inversion Hd'. lia. }
  rewrite (G _ _ Hr) in Hg; [done|done|cbn; by apply Forall_replicate|cbn; apply replicate_length].
Qed.
End proofs.

(** ** The number of threads *)
Definition usable (p : pool) : Prop := Forall (fun b => b = true) (accepting p).
Theorem C114_default hc : thread_count (default_pool hc) = Nat.max hc 1 /\ usable (default_pool hc).
Proof. unfold thread_count, default_pool, usable. cbn. rewrite replicate_length. split; [lia|by apply Forall_replicate]. Qed.
(** When every thread can be made the pool has the given number of threads, at least one, accepts tasks, and the
    next task goes to the first worker. *)
Theorem C114_resize_partial p count : usable p -> exists p', execution_threads p count None = Done p' /\ thread_count p' = Nat.max count 1 /\ usable p' /\ turn p' = 0.
Proof.
  intros Hu. unfold execution_threads, set_thread_count. destruct (decide _) as [E|E]; eexists; (split; [done|]).
  - by rewrite E.
  - unfold thread_count, usable. cbn. rewrite replicate_length. split_and!; [lia|by apply Forall_replicate|done].
Qed.
(** Otherwise the pool stays stopped: with workers it refuses every task, and setting the number of threads that
    it still reports changes nothing. *)
Theorem C114_resize_refuted p count made : usable p -> accepting p <> [] -> Nat.max count 1 <> thread_count p -> made < Nat.max count 1 - 1 ->
  exists p', (execution_threads p count (Some made) = Throws p' \/ execution_threads p count (Some made) = Hangs p') /\ thread_count p' = thread_count p /\
    (exists p'', submit p' = Some (false, p'')) /\ (forall f, exists p'', execution_threads p' (thread_count p') f = Done p'' /\ exists q, submit p'' = Some (false, q)).
Proof.
  intros Hu Hne Hc Hm. set (p' := Pool (map (fun _ => false) (accepting p)) 0). assert (Hl : length (accepting p') = length (accepting p)) by apply map_length. assert (S0 : exists p'', submit p' = Some (false, p'')).
  { unfold submit. destruct (decide (accepting p' = [])) as [E|E]; [exfalso; apply Hne; by apply map_eq_nil in E|]. cbn [turn p']. destruct (accepting p) as [|b l]; [done|]. rewrite Nat.mod_0_l by done. cbn. eauto. }
  exists p'. split; [|split; [unfold thread_count; lia|split; [done|]]].
  - unfold execution_threads, set_thread_count. destruct (decide _) as [|_]; [done|]. destruct (decide _) as [|_]; [lia|]. destruct (decide _); auto.
  - intros f. unfold execution_threads, set_thread_count. destruct (decide _) as [_|E]; [|exfalso; apply E; unfold thread_count; lia]. exists p'. done.
Qed.

(** ** Examples *)
(** A pool of two workers, destroyed with a task in a queue. *)
Example C114_run : exists s, rtc life_step (new_pool 2) s /\ doing s = Gone /\ submitted s = [(1, 7); (1, 8)] /\ executed s = [(1, 7); (1, 8)].
Proof.
  eexists. split.
  - eapply rtc_l; [eapply (step_submit _ 1 7); reflexivity|cbn]. eapply rtc_l; [eapply (step_submit _ 1 8); reflexivity|cbn]. eapply rtc_l; [eapply step_stop; reflexivity|cbn].
    eapply rtc_l; [eapply (step_close _ 0); reflexivity|cbn]. eapply rtc_l; [eapply (step_close _ 1); reflexivity|cbn]. eapply rtc_l; [eapply step_stopped; reflexivity|cbn].
    do 5 (eapply rtc_l; [eapply (step_worker _ 1); reflexivity|cbn]). eapply rtc_l; [eapply (step_worker _ 0); reflexivity|cbn].
    eapply rtc_l; [eapply (step_destroy _ 0); reflexivity|cbn]. eapply rtc_l; [eapply (step_destroy _ 1); reflexivity|cbn]. eapply rtc_l; [eapply step_gone; reflexivity|cbn]. cbn. apply rtc_refl.
  - split_and!; reflexivity.
Qed.
Example C114_resize_example : usable (default_pool 4) /\ execution_threads (default_pool 4) 0 None = Done (Pool [] 0) /\ execution_threads (default_pool 4) 3 (Some 0) = Throws (Pool [false; false; false] 0) /\ execution_threads (default_pool 4) 3 (Some 1) = Hangs (Pool [false; false; false] 0).
Proof. split_and!; [by repeat constructor|done..]. Qed.
Print Assumptions C114_tasks.
Print Assumptions C114_drained.
Print Assumptions C114_defined.
Print Assumptions C114_terminates.
Print Assumptions C114_no_deadlock.
Print Assumptions C114_accepts.
Print Assumptions C114_unclosed_refuted.
Print Assumptions C114_default.
Print Assumptions C114_resize_partial.
Print Assumptions C114_resize_refuted.
