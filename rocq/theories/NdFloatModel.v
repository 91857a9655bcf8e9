(** The non-dominated sorts of /repo/src/algorithm/nd_sort.cpp on fitness matrices of
    doubles: the comparisons of NdSortModel.v filled in. *)
From Coq Require Import ZArith.
From stdpp Require Import list list_numbers.
From Verif Require Import FloatBase FloatModel AlgorithmModel ParetoModel FrontModel NdSortModel.

Section NdF.
Variable t : tolerances.
Variable fmat : list (list b64).
Variable sort : forall A, (A -> A -> bool) -> list A -> list A. (* std::sort *)

Definition ensF : option (list element) :=
  efficientNonDominatedSort (length fmat) (row_less t fmat) (sort nat) (row_lexgt fmat).
Definition fndsF (fuel : nat) : option (list element) :=
  fastNonDominatedSort (length fmat) (row_cmp t fmat) fuel.

(** The objective's values, nd_sort.cpp 209-210. *)
Definition fvec (obj : nat) : list b64 := (fun r => nth obj r fzero) <$> fmat.
(** indices, 212; the visits of the task, 214-228. *)
Definition task_visits (obj : nat) : list (nat * nat) :=
  let indices := argsort (sort nat) flt true (reverse (fvec obj)) in
  objective_visits (fun prev_row row => floatIsEqual t (nth prev_row (fvec obj) fzero) (nth row (fvec obj) fzero)) (reverse indices).
(** [ncols] = first->size(). *)
Definition ddsF (ncols fuel : nat) : option (list element) -> Prop :=
  dominanceDegreeSort (length fmat) fuel (task_visits <$> seq 0 ncols).

(** nonDominatedSort, 367-376. *)
Definition nonDominatedSort : option (list element) :=
  if decide (fmat = []) then None else ensF.
End NdF.
