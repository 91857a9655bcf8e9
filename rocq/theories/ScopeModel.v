(** utility/scope_exit.hpp, and the use of restore_on_exit in GA::solve.  A piece of code is a function of the
    store; [exn] says whether it was left by an exception.  Destructors run in both cases. *)
From stdpp Require Import list.

Section scope.
Context {V : Type}.
(** Variables are numbered. *)
Definition store := nat -> V.
Definition write (s : store) (x : nat) (v : V) : store := fun y => if decide (y = x) then v else s y.
Record left := Left { after : store; exn : bool }.

(** restore_on_exit _{ xs... }; body -- scope_exit.hpp 40-60.  The constructor (43-47) copies the values, the
    destructor (54) assigns the tuple of references, element by element from the first. *)
Fixpoint assign (xs : list nat) (old : list V) (s : store) : store :=
  match xs, old with x :: xs, v :: old => assign xs old (write s x v) | _, _ => s end.
Definition restore_on_exit (xs : list nat) (body : store -> left) (s : store) : left :=
  let old_values := s <$> xs in
  let r := body s in
  Left (assign xs old_values (after r)) (exn r).

(** scope_exit guard{ on_exit }; body -- scope_exit.hpp 12-37; the body says whether it called guard.release(). *)
Definition scope_exit (on_exit : store -> store) (body : store -> left * bool) (s : store) : left :=
  let '(r, released) := body s in
  let active := negb released in
  if active then Left (on_exit (after r)) (exn r) else r.
End scope.
Arguments store : clear implicits.
Arguments left : clear implicits.

(** The members of the GA with values in nat; max_gen_ is number 0. *)
Definition max_gen_ : nat := 0.
(** GA::solve with a number of generations, ga_base.impl.hpp 541-558 and 561-579: None when the assertion of
    max_gen (ga_info.hpp 92, Positive) fails; [run] is the rest of the function. *)
Definition solve (run : store nat -> left nat) (generations : nat) (s : store nat) : option (left nat) :=
  if decide (generations = 0) then None else Some (restore_on_exit [max_gen_] (fun s => run (write s max_gen_ generations)) s).
(** The overloads without a number of generations, for example 582-585. *)
Definition solve_default (run : store nat -> left nat) (s : store nat) : option (left nat) := solve run (s max_gen_) s.
