(** Model of the population replacements, /repo/src/algorithm/soga_replacement.cpp.  The
    first [pop_size] rows of the fitness matrix are the parents.  [None] is a failed
    assertion. *)
From stdpp Require Import list list_numbers.
From Verif Require Import FloatBase FloatModel AlgorithmModel.

(** The comparison lambdas: math::paretoCompareLess(rhs, lhs). *)
Definition descending (t : tolerances) (lhs rhs : list b64) : bool := paretoCompareLess t rhs lhs.

Section replacement.
Variable t : tolerances.
Variable sort : (nat -> nat -> bool) -> list nat -> list nat.
Variable psort : (nat -> nat -> bool) -> nat -> list nat -> list nat.
(** The test in partial_argsort. *)
Variable full : bool.
Variable pop_size : nat.

(** 15-18. *)
Definition KeepChildren : list nat := index_vector pop_size pop_size.
(** 20-37.  [n_] is the number of elites. *)
Definition Elitism (n_ : nat) (fmat : list (list b64)) : option (list nat) :=
  if decide (2 * pop_size <= length fmat) then
    let elite_count := Nat.min n_ pop_size in
    sorted_parent_indices ← partial_argsort sort psort (descending t) full false elite_count (take pop_size fmat);
    Some (take elite_count sorted_parent_indices ++ seq pop_size (pop_size - elite_count))
  else None.
(** 39-51. *)
Definition KeepBest (fmat : list (list b64)) : option (list nat) :=
  if decide (pop_size <= length fmat) then
    sorted_indices ← partial_argsort sort psort (descending t) full false pop_size fmat;
    Some (take pop_size sorted_indices)
  else None.
End replacement.
