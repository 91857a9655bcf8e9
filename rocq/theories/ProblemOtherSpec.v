(** What the travelling salesman and the string problem ask for. *)
From stdpp Require Import list list_numbers.
From Coq Require Import Reals.
Local Open Scope R_scope.

Definition euclid (c d : R * R) : R := sqrt ((c.1 - d.1) ^ 2 + (c.2 - d.2) ^ 2).
(** The length of a path through the places [l]. *)
Fixpoint path {A} (d : A -> A -> R) (l : list A) : R := match l with a :: (b :: _) as rest => d a b + path d rest | _ => 0 end.
(** The length of the way through the places and back to the first. *)
Definition closed {A} (d : A -> A -> R) (l : list A) : R := match l with [] => 0 | a :: _ => path d (l ++ [a]) end.
(** The number of positions at which [a] and [b] agree. *)
Fixpoint agree (a b : list Z) : nat := match a, b with x :: a, y :: b => ((if decide (x = y) then 1 else 0) + agree a b)%nat | _, _ => 0%nat end.
