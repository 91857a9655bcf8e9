(** Model of the Pareto front computations, /repo/src/core/population.cpp.

    The fitness matrix appears through the outcomes of the comparisons of its rows:
    [less i j] = paretoCompareLess(fmat[i], fmat[j]), [cmp i j] = paretoCompare(fmat[i],
    fmat[j]), [lexgt i j] = the lexicographic comparison of the sort-based variants.
    ParetoProps.v instantiates them with the floating-point functions of FloatModel.v.
    An access to a row or position out of range, or running out of [fuel], is [None]. *)
From Coq Require Import ZArith.
From stdpp Require Import list list_numbers.
From Verif Require Import AlgorithmModel.

Section Front.
Variable n : nat. (* number of rows *)
Variable less : nat -> nat -> bool.
Variable cmp : nat -> nat -> Z.

(** Reading rows fmat[i], fmat[j] and comparing them. *)
Definition lessM (i j : nat) : option bool := if decide (i < n /\ j < n) then Some (less i j) else None.
Definition cmpM (i j : nat) : option Z := if decide (i < n /\ j < n) then Some (cmp i j) else None.

(** findParetoFrontSort, population.cpp 45-69 (after the argsort): std::any_of over
    the optimal indices found so far. *)
Fixpoint any_dominates (idx : nat) (opt : list nat) : option bool :=
  match opt with
  | [] => Some false
  | o :: opt => b ← lessM idx o; if (b : bool) then Some true else any_dominates idx opt
  end.
Fixpoint front_sort_loop (indices opt : list nat) : option (list nat) :=
  match indices with
  | [] => Some opt
  | idx :: indices =>
      dominated ← any_dominates idx opt;
      front_sort_loop indices (if (dominated : bool) then opt else opt ++ [idx])
  end.

(** findParetoFrontBest, population.cpp 71-130.  First inner loop (86-107): [it--]
    followed by the loop's [++it] leaves the position. *)
Fixpoint best_scan (fuel : nat) (ix : list nat) (first last best it : nat) : option (list nat * nat * nat * nat) :=
  match fuel with
  | 0 => None
  | S fuel =>
      if decide (it < last) then
        vb ← ix !! best; vi ← ix !! it; c ← cmpM vb vi;
        if (0 <? c)%Z then
          ix ← iter_swap ix it (last - 1); best_scan fuel ix first (last - 1) best it
        else if (c <? 0)%Z then
          ix ← iter_swap ix best first; best_scan fuel ix (S first) last it (S it)
        else best_scan fuel ix first last best (S it)
      else Some (ix, first, last, best)
  end.
(** Second inner loop (114-122). *)
Fixpoint best_clean (fuel : nat) (ix : list nat) (first best it : nat) : option (list nat * nat) :=
  match fuel with
  | 0 => None
  | S fuel =>
      if decide (it < best) then
        vi ← ix !! it; vb ← ix !! best; b ← lessM vi vb;
        if (b : bool) then ix ← iter_swap ix it first; best_clean fuel ix (S first) best (S it)
        else best_clean fuel ix first best (S it)
      else Some (ix, first)
  end.
Fixpoint best_loop (fuel : nat) (ix : list nat) (first last : nat) (opt : list nat) : option (list nat) :=
  match fuel with
  | 0 => None
  | S fuel =>
      if decide (first = last) then Some opt
      else
        r ← best_scan (S n) ix first last first (S first);
        let '(ix, first, last, best) := (r : list nat * nat * nat * nat) in
        b ← ix !! best;
        r ← best_clean (S n) ix first best first;
        let '(ix, first) := (r : list nat * nat) in
        ix ← iter_swap ix best (last - 1);
        best_loop fuel ix first (last - 1) (opt ++ [b])
  end.
Definition findParetoFrontBest : option (list nat) := best_loop (S n) (index_vector n 0) 0 n [].

(** findParetoFrontKungImpl, population.cpp 132-156; the range is a list. *)
Fixpoint kung_merge (top bottom : list nat) : option (list nat) :=
  match bottom with
  | [] => Some top
  | bad :: bottom =>
      is_dominated ← any_dominates bad top;
      kung_merge (if (is_dominated : bool) then top else top ++ [bad]) bottom
  end.
Fixpoint kung (fuel : nat) (range : list nat) : option (list nat) :=
  match fuel with
  | 0 => None
  | S fuel =>
      if decide (length range = 1) then Some (take 1 range)
      else
        let m := length range / 2 in
        top_half ← kung fuel (take m range);
        bottom_half ← kung fuel (drop m range);
        kung_merge top_half bottom_half
  end.

Section Sorted.
Variable sort : (nat -> nat -> bool) -> list nat -> list nat.
Variable lexgt : nat -> nat -> bool.
(** The argsort of the rows (its comparison reads rows through the indices). *)
Definition findParetoFrontSort : option (list nat) :=
  front_sort_loop (argsort sort lexgt false (index_vector n 0)) [].
(** findParetoFrontKung, population.cpp 158-174. *)
Definition findParetoFrontKung : option (list nat) :=
  kung n (argsort sort lexgt false (index_vector n 0)).
End Sorted.
End Front.
