(** Model of the sequence algorithms of /repo/src/utility/algorithm.hpp.

    A range is a list; iterators are positions.  [None] = precondition violation or
    access outside the range.  std::sort and std::partial_sort are parameters (their
    contracts, StdSort.v, are hypotheses of the theorems). *)
From stdpp Require Import list list_numbers.

(** index_vector, algorithm.hpp 38-44. *)
Definition index_vector (n first : nat) : list nat := seq first n.

Section Argsort.
Context {A : Type}.
Variable sort : (nat -> nat -> bool) -> list nat -> list nat.
Variable psort : (nat -> nat -> bool) -> nat -> list nat -> list nat.
Variable lt : A -> A -> bool.

(** *(first + i) through the comparison lambdas; a read outside the range would be
    undefined, it cannot happen for indices of the index vector. *)
Definition cmp_fwd (r : list A) (lidx ridx : nat) : bool :=
  match r !! lidx, r !! ridx with Some x, Some y => lt x y | _, _ => false end.
Definition cmp_rev (r : list A) (lidx ridx : nat) : bool :=
  let last_idx := length r - 1 in
  match r !! (last_idx - ridx), r !! (last_idx - lidx) with Some x, Some y => lt x y | _, _ => false end.

(** argsort, algorithm.hpp 46-71.  [r] is the range as the iterators see it,
    [rev_iter] says whether they are reverse iterators. *)
Definition argsort (rev_iter : bool) (r : list A) : list nat :=
  let indices := index_vector (length r) 0 in
  if rev_iter then sort (cmp_rev r) indices else sort (cmp_fwd r) indices.

(** partial_argsort, algorithm.hpp 75-106; [full] is the outcome of the test
    distance(first, middle) >= 0.2 * distance(first, last) (a floating-point
    product; both outcomes are allowed). *)
Definition partial_argsort (full rev_iter : bool) (middle : nat) (r : list A) : option (list nat) :=
  if decide (middle <= length r) then
    Some (if full then argsort rev_iter r
          else let indices := index_vector (length r) 0 in
               if rev_iter then psort (cmp_rev r) middle indices else psort (cmp_fwd r) middle indices)
  else None.
End Argsort.

Section Search.
Context {A V : Type}.
(** lower_bound, algorithm.hpp 110-128.  The halving loop; [fuel] bounds its length. *)
Fixpoint lb_halve (comp : A -> V -> bool) (l : list A) (v : V) (fuel first len : nat) : option nat :=
  match fuel with
  | 0 => None
  | S fuel =>
      if decide (32 < len) then
        let len := len / 2 in
        x ← l !! (first + len);
        lb_halve comp l v fuel (if comp x v then first + len else first) len
      else Some first
  end.
Fixpoint lb_scan (comp : A -> V -> bool) (rest : list A) (v : V) (first : nat) : nat :=
  match rest with
  | [] => first
  | x :: rest => if comp x v then lb_scan comp rest v (S first) else first
  end.
Definition lower_bound (comp : A -> V -> bool) (l : list A) (v : V) : option nat :=
  first ← lb_halve comp l v (S (length l)) 0 (length l);
  Some (lb_scan comp (drop first l) v first).
End Search.

Section Extremum.
Context {A B : Type}.
(** max_element, algorithm.hpp 132-150; [lt] is operator< of the transformed values. *)
Fixpoint max_loop (lt : B -> B -> bool) (f : A -> B) (rest : list A) (first best : nat) (bv : B) : nat :=
  match rest with
  | [] => best
  | x :: rest => let value := f x in
      if lt bv value then max_loop lt f rest (S first) first value else max_loop lt f rest (S first) best bv
  end.
Definition max_element (lt : B -> B -> bool) (f : A -> B) (l : list A) : nat :=
  match l with [] => 0 | x :: rest => max_loop lt f rest 1 0 (f x) end.
(** min_element, algorithm.hpp 154-172. *)
Fixpoint min_loop (lt : B -> B -> bool) (f : A -> B) (rest : list A) (first best : nat) (bv : B) : nat :=
  match rest with
  | [] => best
  | x :: rest => let value := f x in
      if lt value bv then min_loop lt f rest (S first) first value else min_loop lt f rest (S first) best bv
  end.
Definition min_element (lt : B -> B -> bool) (f : A -> B) (l : list A) : nat :=
  match l with [] => 0 | x :: rest => min_loop lt f rest 1 0 (f x) end.
(** argmax / argmin, algorithm.hpp 176-212; [l] as the iterators see it. *)
Definition argmax (rev_iter : bool) (lt : B -> B -> bool) (f : A -> B) (l : list A) : option nat :=
  if decide (0 < length l) then
    let idx := max_element lt f l in Some (if rev_iter then length l - 1 - idx else idx)
  else None.
Definition argmin (rev_iter : bool) (lt : B -> B -> bool) (f : A -> B) (l : list A) : option nat :=
  if decide (0 < length l) then
    let idx := min_element lt f l in Some (if rev_iter then length l - 1 - idx else idx)
  else None.
End Extremum.

Section Misc.
Context {A : Type}.
(** std::iter_swap. *)
Definition iter_swap (l : list A) (i j : nat) : option (list A) :=
  x ← l !! i; y ← l !! j; Some (<[j := x]> (<[i := y]> l)).

(** partial_shuffle, algorithm.hpp 230-243.  [draws] are the values returned by
    uniform_int_distribution{0, max_offset}; a value outside that interval violates
    the distribution's contract. *)
Fixpoint pshuffle_loop (l : list A) (first n : nat) (draws : list nat) : option (list A) :=
  match n with
  | 0 => Some l
  | S n =>
      match draws with
      | [] => None
      | offset :: draws =>
          if decide (offset <= length l - first - 1) then
            l ← iter_swap l first (first + offset); pshuffle_loop l (S first) n draws
          else None
      end
  end.
Definition partial_shuffle (l : list A) (middle : nat) (draws : list nat) : option (list A) :=
  if decide (middle <= length l) then pshuffle_loop l 0 middle draws else None.

(** std::find_if, and std::find through it; returns the position, or the length. *)
Fixpoint find_pos (p : A -> bool) (l : list A) : nat :=
  match l with [] => 0 | x :: l => if p x then 0 else S (find_pos p l) end.

(** contains, algorithm.hpp 245-249. *)
Definition contains (eqb : A -> A -> bool) (l : list A) (v : A) : bool :=
  negb (Nat.eqb (find_pos (fun x => eqb x v) l) (length l)).

(** find_all, algorithm.hpp 251-268. *)
Fixpoint find_all (p : A -> bool) (l : list A) : list A :=
  match l with [] => [] | x :: l => if p x then x :: find_all p l else find_all p l end.

(** find_index, algorithm.hpp 279-287; index_of (270-277) is the case of equality. *)
Definition find_index (p : A -> bool) (l : list A) : option nat :=
  let idx := find_pos p l in if Nat.eqb idx (length l) then None else Some idx.
Definition index_of (eqb : A -> A -> bool) (l : list A) (v : A) : option nat := find_index (fun x => eqb x v) l.

(** find_indices, algorithm.hpp 289-301. *)
Fixpoint find_indices_from (p : A -> bool) (l : list A) (i : nat) : list nat :=
  match l with [] => [] | x :: l => if p x then i :: find_indices_from p l (S i) else find_indices_from p l (S i) end.
Definition find_indices (p : A -> bool) (l : list A) : list nat := find_indices_from p l 0.

(** elementwise_min / elementwise_max, algorithm.hpp 303-323.  std::min(a, b) is
    b < a ? b : a, std::max(a, b) is a < b ? b : a. *)
Definition std_min (lt : A -> A -> bool) (a b : A) : A := if lt b a then b else a.
Definition std_max (lt : A -> A -> bool) (a b : A) : A := if lt a b then b else a.
Fixpoint elementwise (f : A -> A -> A) (l r : list A) : option (list A) :=
  match l, r with
  | [], [] => Some []
  | x :: l, y :: r => k ← elementwise f l r; Some (f x y :: k)
  | _, _ => None
  end.
Definition elementwise_min lt := elementwise (std_min lt).
Definition elementwise_max lt := elementwise (std_max lt).

(** erase_first_stable, algorithm.hpp 325-335. *)
Definition erase_first_stable (eqb : A -> A -> bool) (l : list A) (v : A) : list A * bool :=
  let found := find_pos (fun x => eqb x v) l in
  if negb (Nat.eqb found (length l)) then (take found l ++ drop (S found) l, true) else (l, false).

(** select, algorithm.hpp 337-349.  For an rvalue container every element is moved
    from; [None] in the state marks an element already moved from, and selecting it
    again gives no defined value. *)
Fixpoint select_copy (l : list A) (indices : list nat) : option (list A) :=
  match indices with [] => Some [] | i :: is => x ← l !! i; k ← select_copy l is; Some (x :: k) end.
Fixpoint select_move_loop (l : list (option A)) (indices : list nat) : option (list A) :=
  match indices with
  | [] => Some []
  | i :: is => c ← l !! i; x ← c; k ← select_move_loop (<[i := None]> l) is; Some (x :: k)
  end.
Definition select_move (l : list A) : list nat -> option (list A) := select_move_loop (Some <$> l).

(** std::unique followed by erase: keep an element iff it differs from the last kept. *)
Fixpoint unique_from (eqb : A -> A -> bool) (kept : A) (l : list A) : list A :=
  match l with
  | [] => []
  | x :: l => if eqb kept x then unique_from eqb kept l else x :: unique_from eqb x l
  end.
Definition unique (eqb : A -> A -> bool) (l : list A) : list A :=
  match l with [] => [] | x :: l => x :: unique_from eqb x l end.

(** erase_duplicates, algorithm.hpp 351-357. *)
Definition erase_duplicates (sort : (A -> A -> bool) -> list A -> list A) (lt eqb : A -> A -> bool) (l : list A) : list A :=
  unique eqb (sort lt l).
End Misc.
