(** Model of mergeParetoSets, /repo/src/core/population.hpp 99-168.

    The body of the parallel_for is one task per index i of lhs.  Each iteration of a
    task is two steps: the relaxed load of rhs_state[j] (line 118), and the rest of the
    body (lines 120-150), which writes the task's own lhs_state[i] and stores to
    rhs_state[j] at most once.  The tasks interleave arbitrarily.  A relaxed load may
    return the initial value or any value stored to the location so far; the value
    found after the loop may be any of the values stored (or the initial one if there
    is none).  That the parallel_for runs every index exactly once and that its end
    synchronises is taken from the thread pool (ThreadPool*.v). *)
From Coq Require Import ZArith.
From stdpp Require Import list relations.

Inductive dominance := UNKNOWN | OPTIMAL | DOMINATED.
Global Instance dominance_eq_dec : EqDecision dominance.
Proof. solve_decision. Defined.

Section Merge.
Context {A : Type}.
Variable less : A -> A -> bool. (* paretoCompareLess of the fitness vectors *)
Variable cmp : A -> A -> Z.     (* paretoCompare *)

(** Lines 120-150: new lhs_state[i], and the value stored to rhs_state[j] if any. *)
Definition body (l r : A) (lhs_state_i rhs_state_j : dominance) : dominance * option dominance :=
  if decide (lhs_state_i = DOMINATED) then (lhs_state_i, None)
  else if decide (rhs_state_j = DOMINATED) then (lhs_state_i, None)
  else if decide (lhs_state_i = OPTIMAL) then
    if decide (rhs_state_j = UNKNOWN /\ less r l = true) then (lhs_state_i, Some DOMINATED) else (lhs_state_i, None)
  else if decide (rhs_state_j = OPTIMAL) then
    if less l r then (DOMINATED, None) else (lhs_state_i, None)
  else
    let comp := cmp l r in
    if (comp <? 0)%Z then (DOMINATED, Some OPTIMAL)
    else if (0 <? comp)%Z then (OPTIMAL, Some DOMINATED)
    else (lhs_state_i, None).

(** A task: its lhs_state[i], and its position: about to load rhs_state[j], or having
    loaded a value from it. *)
Inductive pc := AtLoad (j : nat) | Loaded (j : nat) (v : dominance).
Record mstate := MState { tasks : list (dominance * pc); stores : list (list dominance) }.

Definition init_state (lhs rhs : list A) : mstate :=
  MState ((fun _ => (UNKNOWN, AtLoad 0)) <$> lhs) ((fun _ => []) <$> rhs).

Inductive step (lhs rhs : list A) : mstate -> mstate -> Prop :=
| step_load ts st i j ls h v :
    ts !! i = Some (ls, AtLoad j) -> st !! j = Some h -> (v = UNKNOWN \/ v ∈ h) ->
    step lhs rhs (MState ts st) (MState (<[i := (ls, Loaded j v)]> ts) st)
| step_body ts st i j ls v l r h :
    ts !! i = Some (ls, Loaded j v) -> lhs !! i = Some l -> rhs !! j = Some r -> st !! j = Some h ->
    step lhs rhs (MState ts st)
      (MState (<[i := ((body l r ls v).1, AtLoad (S j))]> ts)
              (<[j := h ++ match (body l r ls v).2 with Some w => [w] | None => [] end]> st)).

Definition finished (rhs : list A) (s : mstate) : Prop :=
  Forall (fun tk => tk.2 = AtLoad (length rhs)) (tasks s).
(** A value rhs_state[j] may have at the end. *)
Definition final_value (h : list dominance) (v : dominance) : Prop := (h = [] /\ v = UNKNOWN) \/ v ∈ h.

(** Lines 155-167. *)
Fixpoint collect (l : list A) (st : list dominance) : list A :=
  match l, st with
  | x :: l, s :: st => if decide (s = DOMINATED) then collect l st else x :: collect l st
  | _, _ => []
  end.

(** All results mergeParetoSets may return. *)
Inductive merged : list A -> list A -> list A -> Prop :=
| merged_lhs_empty rhs : merged [] rhs rhs
| merged_rhs_empty lhs : merged lhs [] lhs
| merged_loop lhs rhs lhs' rhs' s rst :
    lhs <> [] -> rhs <> [] ->
    (lhs', rhs') = (if decide (length lhs < length rhs) then (rhs, lhs) else (lhs, rhs)) ->
    rtc (step lhs' rhs') (init_state lhs' rhs') s -> finished rhs' s -> Forall2 final_value (stores s) rst ->
    merged lhs rhs (collect lhs' (fst <$> tasks s) ++ collect rhs' rst).
End Merge.
