(** Model of the NSGA-II algorithm, /repo/src/algorithm/nsga2.cpp.  The elements of
    ParetoFronts are a list of pairs (idx, rank); an iterator range is a pair of positions;
    the functions sort the ranges in place.  [None] is a failed assertion or undefined
    behaviour. *)
From Coq Require Import ZArith.
From stdpp Require Import list list_numbers.
From Verif Require Import FloatBase FloatModel AlgorithmModel ParetoModel FrontModel NdSortModel NdFloatModel RandModel.

(** The literal 1E-8. *)
Definition f1em8 : b64 := fmk 6044629098073146 (-79).
(** The elements of a range. *)
Definition range (ab : nat * nat) (L : list element) : list element := take (ab.2 - ab.1) (drop ab.1 L).
Definition put_range (ab : nat * nat) (r L : list element) : list element := take ab.1 L ++ r ++ drop ab.2 L.

Section nsga2.
Variable t : tolerances.
Variable sort : forall A, (A -> A -> bool) -> list A -> list A.
Variable fmat : list (list b64).
(** fmat.ncols() *)
Variable ncols : nat.

(** fvec[idx], 32. *)
Definition obj_value (obj idx : nat) : b64 := nth obj (nth idx fmat []) fzero.
(** 49-54; [front] is the sorted range. *)
Fixpoint crowd_mid (obj : nat) (finterval : b64) (front : list element) (its : list nat) (dists : list b64) : option (list b64) :=
  match its with
  | [] => Some dists
  | it :: its =>
      e ← front !! it; next ← front !! S it; prev ← front !! (it - 1);
      d ← dists !! e.1;
      crowd_mid obj finterval front its (<[e.1 := fadd d (fdiv (fsub (obj_value obj next.1) (obj_value obj prev.1)) finterval)]> dists)
  end.
(** 36-54. *)
Definition crowd_front (obj : nat) (ab : nat * nat) (L : list element) (dists : list b64) : option (list element * list b64) :=
  let front := sort element (fun lhs rhs => flt (obj_value obj lhs.1) (obj_value obj rhs.1)) (range ab L) in
  first ← head front;
  last ← last front;
  let finterval := fmax (fsub (obj_value obj last.1) (obj_value obj first.1)) f1em8 in
  if decide (first.1 < length dists /\ last.1 < length dists) then
    dists ← crowd_mid obj finterval front (seq 1 (length front - 2)) (<[last.1 := finf]> (<[first.1 := finf]> dists));
    Some (put_range ab front L, dists)
  else None.
Fixpoint crowd_fronts (obj : nat) (fs : list (nat * nat)) (L : list element) (dists : list b64) : option (list element * list b64) :=
  match fs with
  | [] => Some (L, dists)
  | ab :: fs => '(L, dists) ← crowd_front obj ab L dists; crowd_fronts obj fs L dists
  end.
Fixpoint crowd_objs (objs : list nat) (fs : list (nat * nat)) (L : list element) (dists : list b64) : option (list element * list b64) :=
  match objs with
  | [] => Some (L, dists)
  | obj :: objs => '(L, dists) ← crowd_fronts obj fs L dists; crowd_objs objs fs L dists
  end.
(** 24-60. *)
Definition crowdingDistances (fs : list (nat * nat)) (L : list element) : option (list element * list b64) :=
  if decide (fmat <> [] /\ Forall (fun ab => ab.1 < ab.2) fs) then crowd_objs (seq 0 ncols) fs L (replicate (length fmat) fzero) else None.

(** initialize, 62-70: ranks_ and dists_. *)
Definition nsga2_initialize : option (list nat * list b64) :=
  pareto_fronts ← nonDominatedSort t fmat sort;
  ranks ← pf_ranks pareto_fronts;
  fs ← pf_fronts pareto_fronts;
  '(_, dists) ← crowdingDistances fs pareto_fronts;
  Some (ranks, dists).

(** nextPopulation, 86-114; [popsize] = ga.population_size(). *)
Definition nsga2_next (popsize : nat) (ranks : list nat) : option (list nat * (list nat * list b64)) :=
  pareto_fronts ← nonDominatedSort t fmat sort;
  partial_front ← pf_partialFront pareto_fronts popsize;
  let ab := default (0, 0) partial_front in
  pareto_fronts ← (if decide (ab.1 < ab.2) then
    '(L, dists) ← crowdingDistances [ab] pareto_fronts;
    let sorted := sort element (fun lhs rhs => flt (nth rhs.1 dists fzero) (nth lhs.1 dists fzero)) (range ab L) in
    Some (put_range ab sorted L) else Some pareto_fronts);
  pareto_fronts ← pf_resize pareto_fronts popsize;
  fs ← pf_fronts pareto_fronts;
  '(L, dists) ← crowdingDistances fs pareto_fronts;
  if decide (popsize <= length ranks /\ popsize <= length L) then
    Some ((take popsize L).*1, ((take popsize L).*2 ++ drop popsize ranks, take popsize dists))
  else None.

(** select, 72-84; the arrays have the size of the population. *)
Definition nsga2_select (n : nat) (ranks : list nat) (dists : list b64) : rand nat :=
  rassert (negb (Nat.eqb n 0) && Nat.eqb n (length ranks))
    (rlet i1 <- randomInt 0 (Z.of_nat n - 1);
     rlet i2 <- randomInt 0 (Z.of_nat n - 1);
     let idx1 := Z.to_nat i1 in let idx2 := Z.to_nat i2 in
     rlet r1 <- rlift (ranks !! idx1);
     rlet r2 <- rlift (ranks !! idx2);
     if Nat.ltb r1 r2 then rret idx1
     else if Nat.ltb r2 r1 then rret idx2
     else
       rlet d1 <- rlift (dists !! idx1);
       rlet d2 <- rlift (dists !! idx2);
       if flt d2 d1 then rret idx1 else rret idx2).
(** optimalSolutions, 116-119. *)
Definition nsga2_optimal (ranks : list nat) : list nat := find_indices (fun r => Nat.eqb r 0) ranks.
End nsga2.
