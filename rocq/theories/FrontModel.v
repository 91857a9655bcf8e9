(** The Pareto front and nadir functions of /repo/src/core/population.cpp on fitness
    matrices of doubles: the comparisons of ParetoModel.v filled in.  A matrix is the
    list of its rows. *)
From Coq Require Import ZArith.
From stdpp Require Import list list_numbers.
From Verif Require Import FloatBase FloatModel AlgorithmModel ParetoModel.

Section FrontF.
Variable t : tolerances.
Variable fmat : list (list b64).
(** fmat[i]; ParetoModel.v answers [None] before a row out of range is compared. *)
Definition row (i : nat) : list b64 := nth i fmat [].
Definition row_less (i j : nat) : bool := paretoCompareLess t (row i) (row j).
Definition row_cmp (i j : nat) : Z := paretoCompare t (row i) (row j).

(** The comparison lambda of findParetoFrontSort and findParetoFrontKung, population.cpp
    47-54 and 163-171. *)
Fixpoint lex_greater (lhs rhs : list b64) : bool :=
  match lhs, rhs with
  | x :: lhs, y :: rhs => if negb (feq x y) then flt y x else lex_greater lhs rhs
  | _, _ => false
  end.
Definition row_lexgt (i j : nat) : bool := lex_greater (row i) (row j).

(** fitness_vector[0]; only used when the matrix has a column. *)
Definition elem0 (r : list b64) : b64 := match r with x :: _ => x | [] => fzero end.

(** findParetoFront1D, population.cpp 29-43 (std::max_element is the loop of
    detail::max_element). *)
Definition findParetoFront1D : option (list nat) :=
  best ← fmat !! max_element flt elem0 fmat;
  let max_fitness := elem0 best in
  Some (find_indices (fun r => floatIsEqual t max_fitness (elem0 r)) fmat).

(** findParetoFront, population.cpp 22-27. *)
Definition findParetoFront (ncols : nat) : option (list nat) :=
  if decide (fmat = []) then Some []
  else if decide (ncols = 1) then findParetoFront1D
  else findParetoFrontBest (length fmat) row_less row_cmp.

Definition findParetoFrontSortF sort : option (list nat) := findParetoFrontSort (length fmat) row_less sort row_lexgt.
Definition findParetoFrontBestF : option (list nat) := findParetoFrontBest (length fmat) row_less row_cmp.
Definition findParetoFrontKungF sort : option (list nat) := findParetoFrontKung (length fmat) row_less sort row_lexgt.
End FrontF.

(** findParetoFront(population), population.hpp 85-97: the candidates at the indices. *)
Definition findParetoFrontPop {A} (t : tolerances) (fit : A -> list b64) (ncols : nat) (pop : list A) : option (list A) :=
  if decide (pop = []) then Some []
  else is ← findParetoFront t (fit <$> pop) ncols; select_copy pop is.

(** findFrontNadirPoint, population.cpp 192-204. *)
Definition nadir_loop (rest : list (list b64)) (acc : option (list b64)) : option (list b64) :=
  fold_left (fun acc r => a ← acc; elementwise_min flt a r) rest acc.
Definition findFrontNadirPoint (m : list (list b64)) : option (list b64) :=
  match m with [] => Some [] | r :: rest => nadir_loop rest (Some r) end.

(** findNadirPoint, population.cpp 176-190. *)
Definition findNadirPoint (t : tolerances) (ncols : nat) (fmat : list (list b64)) : option (list b64) :=
  if decide (fmat = []) then Some []
  else
    front_indices ← findParetoFront t fmat ncols;
    front ← select_copy fmat front_indices;
    match (front : list (list b64)) with [] => None | r :: rest => nadir_loop rest (Some r) end.
