(** C115: variables under restore_on_exit get their values back, a scope_exit action runs exactly when the guard
    was not released, and solve leaves max_gen as it was, whether the scope is left by an exception or not. *)
From stdpp Require Import list.
From Verif Require Import ScopeModel.

Section scope.
Context {V : Type}.
Implicit Types s : store V.
Lemma assign_other xs old s y : y ∉ xs -> assign xs old s y = s y.
Proof.
  revert old s. induction xs as [|x xs IH]; intros [|v old] s Hy; cbn; [done..|]. apply not_elem_of_cons in Hy as [Hy1 Hy2]. rewrite IH by done. unfold write. by destruct (decide (y = x)).
Qed.
Lemma assign_same (f : nat -> V) xs s y : y ∈ xs -> assign xs (f <$> xs) s y = f y.
Proof.
  revert s. induction xs as [|x xs IH]; intros s Hy; [by apply elem_of_nil in Hy|]. cbn. destruct (decide (y ∈ xs)) as [Hin|Hn]; [by apply IH|]. rewrite assign_other by done. apply elem_of_cons in Hy as [->|Hy]; [|done]. unfold write. by destruct (decide (x = x)).
Qed.
(** Also when a variable is named more than once; everything else is left as the body left it. *)
Theorem C115_restored xs body s : let r := restore_on_exit xs body s in
  (forall x, x ∈ xs -> after r x = s x) /\ (forall x, x ∉ xs -> after r x = after (body s) x) /\ exn r = exn (body s).
Proof. cbn. split_and!; [intros x Hx; by apply assign_same|intros x Hx; by apply assign_other|done]. Qed.
(** Nested guards over any variables. *)
Theorem C115_nested xs ys body s : let r := restore_on_exit xs (restore_on_exit ys body) s in
  forall x, x ∈ xs \/ x ∈ ys -> after r x = s x.
Proof.
  cbn. intros x [Hx|Hx]; [by apply assign_same|]. destruct (decide (x ∈ xs)) as [Hin|Hn]; [by apply assign_same|]. rewrite assign_other by done. by apply assign_same.
Qed.
Theorem C115_scope_exit on_exit body s r released : body s = (r, released) ->
  exn (scope_exit on_exit body s) = exn r /\ after (scope_exit on_exit body s) = if released then after r else on_exit (after r).
Proof. intros E. unfold scope_exit. rewrite E. by destruct released. Qed.
End scope.

Theorem C115_solve run generations s : 0 < generations -> exists r, solve run generations s = Some r /\
  after r max_gen_ = s max_gen_ /\
  exists s0, s0 max_gen_ = generations /\ (forall x, x <> max_gen_ -> s0 x = s x) /\ exn r = exn (run s0) /\ (forall x, x <> max_gen_ -> after r x = after (run s0) x).
Proof.
  intros Hg. unfold solve. destruct (decide (generations = 0)); [lia|]. eexists. split; [done|]. destruct (C115_restored [max_gen_] (fun s => run (write s max_gen_ generations)) s) as (H1 & H2 & H3). split; [apply H1, elem_of_list_here|].
  exists (write s max_gen_ generations). unfold write at 1 2. split_and!; [by destruct (decide (max_gen_ = max_gen_))|intros x Hx; by destruct (decide (x = max_gen_))|done|]. intros x Hx. apply H2. intros Hin. by apply elem_of_list_singleton in Hin.
Qed.
Theorem C115_solve_zero run s : solve run 0 s = None.
Proof. done. Qed.
(** The overloads without a number run for max_gen() generations. *)
Theorem C115_solve_default run s : 0 < s max_gen_ -> exists r, solve_default run s = Some r /\ after r max_gen_ = s max_gen_ /\ exists s0, (forall x, s0 x = s x) /\ exn r = exn (run s0) /\ (forall x, x <> max_gen_ -> after r x = after (run s0) x).
Proof.
  intros Hp. destruct (C115_solve run (s max_gen_) s Hp) as (r & E & Hm & s0 & H1 & H2 & H3 & H4). exists r. split_and!; [done|done|]. exists s0. split_and!; [|done|done]. intros x. destruct (decide (x = max_gen_)) as [->|]; [done|by apply H2].
Qed.

(** A run that sets max_gen_ to 3, another variable to 5, and throws. *)
Example C115_example : let r := restore_on_exit [0; 2; 0] (fun s : store nat => Left (write (write (write s 0 3) 1 5) 2 6) true) (fun x => 10 + x) in
  after r 0 = 10 /\ after r 1 = 5 /\ after r 2 = 12 /\ exn r = true.
Proof. done. Qed.
Print Assumptions C115_restored.
Print Assumptions C115_nested.
Print Assumptions C115_scope_exit.
Print Assumptions C115_solve.
Print Assumptions C115_solve_zero.
Print Assumptions C115_solve_default.
