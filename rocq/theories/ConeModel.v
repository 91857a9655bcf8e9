(** Model of the cone tree, /repo/src/utility/cone_tree.cpp, cone_tree.hpp and the functions of
    /repo/src/utility/math.cpp it uses.

    [None] = undefined behaviour or a violated assertion.  The arithmetic is a parameter: the
    theorems are about the real numbers (no rounding), the examples compute with rationals.
    std::partition is the loop of libstdc++ for bidirectional iterators, because the predicate
    passed to it reads two rows of the matrix that is being partitioned; the std contract only
    covers predicates that do not change meanwhile.  The vector of nodes has an explicit capacity;
    a push_back that exceeds it invalidates the reference [node] of buildTree. *)
From stdpp Require Import list list_numbers.
From Verif Require Import AlgorithmModel.

Class num (T : Type) := Num {
  nzero : T; nadd : T -> T -> T; nsub : T -> T -> T; nmul : T -> T -> T; ndiv : T -> T -> T;
  nsqrt : T -> T; nlt : T -> T -> bool; nnat : nat -> T }.

Section Cone.
Context {T : Type} {N : num T}.
Notation point := (list T).

(** std::inner_product(v1.begin(), v1.end(), v2.begin(), 0.0); the vectors have the same length. *)
Definition inner_product (v1 v2 : point) : T := foldl nadd nzero (zip_with nmul v1 v2).
(** euclideanNorm, math.cpp 59-62. *)
Definition euclidean_norm (v : point) : T := nsqrt (inner_product v v).
(** euclideanDistanceSq, math.cpp 71-78. *)
Definition euclidean_distance_sq (v1 v2 : point) : T := foldl nadd nzero (zip_with (fun l r => nmul (nsub l r) (nsub l r)) v1 v2).

(** ConeTree::Node, cone_tree.hpp 38-47. *)
Record node := Node { center : point; radius : T; first : nat; last : nat; left : nat; right : nat }.
(** The members of ConeTree, cone_tree.hpp 68-69, and the capacity of [nodes_]. *)
Record tree := Tree { points : list point; nodes : list node; capacity : nat }.
(** MAX_LEAF_ELEMENTS, cone_tree.hpp 71. *)
Definition max_leaf_elements : nat := 8.

(** The rows [first, last) of the matrix. *)
Definition rows (l : list point) (first last : nat) : list point := take (last - first) (drop first l).

(** findFurthestElement, cone_tree.cpp 43-46. *)
Definition find_furthest (l : list point) (first last : nat) (from : point) : nat :=
  first + max_element nlt (euclidean_distance_sq from) (rows l first last).
(** partitionPoints, cone_tree.cpp 49-59. *)
Definition partition_points (l : list point) (first last : nat) : option (nat * nat) :=
  rand_elem ← l !! first;
  let first_elem := find_furthest l first last rand_elem in
  from ← l !! first_elem;
  Some (first_elem, find_furthest l first last from).
(** findCenter, cone_tree.cpp 62-77. *)
Definition find_center (range : list point) : option point :=
  match range with
  | [] => None
  | p :: rest => Some ((fun x => ndiv x (nnat (length range))) <$> foldl (zip_with nadd) p rest)
  end.
(** findRadius, cone_tree.cpp 80-86. *)
Definition find_radius (range : list point) (c : point) : option T :=
  furthest ← range !! max_element nlt (euclidean_distance_sq c) range;
  Some (nsqrt (euclidean_distance_sq c furthest)).
(** isLeafNode, cone_tree.cpp 89-92. *)
Definition is_leaf (nd : node) : bool := bool_decide (left nd = 0) && bool_decide (right nd = 0).
(** innerProductUpperBound, cone_tree.cpp 95-100. *)
Definition upper_bound (nd : node) (q : point) (norm : T) : T := nadd (inner_product q (center nd)) (nmul norm (radius nd)).

(** std::partition of libstdc++ (stl_algo.h, __partition for bidirectional iterators).
    [pred l k] is the predicate applied to the row [k] while the matrix is [l]. *)
Fixpoint scan_up (pred : nat -> bool) (first len : nat) : nat :=
  match len with 0 => first | S len => if pred first then scan_up pred (S first) len else first end.
Fixpoint scan_down (pred : nat -> bool) (first len : nat) : nat :=
  match len with 0 => first | S len' => if negb (pred (first + len)) then scan_down pred first len' else first + len end.
Fixpoint partition (pred : list point -> nat -> bool) (fuel : nat) (l : list point) (first last : nat) : option (list point * nat) :=
  match fuel with
  | 0 => None
  | S fuel =>
      let first := scan_up (pred l) first (last - first) in
      if decide (first = last) then Some (l, first) else
      let last := last - 1 in
      let last := scan_down (pred l) first (last - first) in
      if decide (first = last) then Some (l, first) else
      l' ← iter_swap l first last;
      partition pred fuel l' (S first) last
  end.
(** The predicate of buildTree, cone_tree.cpp 147-153: it reads the partition points through iterators. *)
Definition closer (p1 p2 : nat) (l : list point) (k : nat) : bool :=
  match l !! k, l !! p1, l !! p2 with
  | Some x, Some x1, Some x2 => nlt (euclidean_distance_sq x x1) (euclidean_distance_sq x x2)
  | _, _, _ => false
  end.

(** The body of the loop of buildTree, cone_tree.cpp 128-168. *)
Definition build_step (i : nat) (t : tree) : option tree :=
  nd ← nodes t !! i;
  let range := rows (points t) (first nd) (last nd) in
  c ← find_center range;
  r ← find_radius range c;
  if decide (last nd - first nd <= max_leaf_elements) then
    Some (Tree (points t) (<[i := Node c r (first nd) (last nd) 0 0]> (nodes t)) (capacity t))
  else
    pp ← partition_points (points t) (first nd) (last nd);
    pm ← partition (closer pp.1 pp.2) (S (last nd - first nd)) (points t) (first nd) (last nd);
    let middle := if decide (pm.2 = first nd) then S pm.2 else pm.2 in
    let left_child := Node [] nzero (first nd) middle 0 0 in
    let right_child := Node [] nzero middle (last nd) 0 0 in
    (* two push_backs; lines 165-166 then write through the reference [node] *)
    if decide (length (nodes t) + 2 <= capacity t) then
      Some (Tree pm.1 (<[i := Node c r (first nd) (last nd) (length (nodes t)) (S (length (nodes t)))]> (nodes t) ++ [left_child; right_child]) (capacity t))
    else None.
(** buildTree, cone_tree.cpp 124-169: the loop. *)
Fixpoint build_loop (fuel i : nat) (t : tree) : option tree :=
  match fuel with
  | 0 => None
  | S fuel => if decide (i < length (nodes t)) then t' ← build_step i t; build_loop fuel (S i) t' else Some t
  end.
(** The constructor, cone_tree.cpp 29-41, with [reserved] nodes reserved.  append_row requires rows of
    the same size. *)
Definition build_with (reserved : nat) (ps : list point) : option tree :=
  match ps with
  | [] => Some (Tree [] [] 0)
  | p :: _ =>
      if decide (Forall (fun x => length x = length p) ps) then
        build_loop (2 * length ps + 1) 0 (Tree ps [Node [] nzero 0 (length ps) 0 0] (reserved `max` 1))
      else None
  end.
(** Line 37. *)
Definition reserved_nodes (n : nat) : nat := 4 * n / max_leaf_elements.
Definition build (ps : list point) : option tree := build_with (reserved_nodes (length ps)) ps.

(** FindResult, cone_tree.hpp 32-36: no result has the product -inf. *)
Definition better (prod : T) (best : option (nat * T)) : bool := match best with None => true | Some (_, b) => nlt b prod end.
(** findBestMatchLinear, cone_tree.cpp 103-122. *)
Fixpoint linear_loop (q : point) (range : list point) (first : nat) (best : option (nat * T)) : option (nat * T) :=
  match range with
  | [] => best
  | x :: range => let prod := inner_product q x in linear_loop q range (S first) (if better prod best then Some (first, prod) else best)
  end.
Definition find_linear (q : point) (l : list point) (first last : nat) : option (nat * T) := linear_loop q (rows l first last) first None.

(** findBestMatch, cone_tree.cpp 171-223. *)
Definition prunable (best : option (nat * T)) (bound : T) : bool := match best with None => false | Some (_, b) => negb (nlt b bound) end.
Fixpoint search_loop (fuel : nat) (t : tree) (q : point) (norm : T) (stack : list nat) (best : option (nat * T)) : option (option (nat * T)) :=
  match fuel with
  | 0 => None
  | S fuel =>
      match stack with
      | [] => Some best
      | i :: stack =>
          nd ← nodes t !! i;
          if prunable best (upper_bound nd q norm) then search_loop fuel t q norm stack best else
          if is_leaf nd then
            let found := find_linear q (points t) (first nd) (last nd) in
            search_loop fuel t q norm stack
              (match found with Some (elem, prod) => if better prod best then found else best | None => best end)
          else
            if bool_decide (left nd = 0) || bool_decide (right nd = 0) then None else
            l ← nodes t !! left nd; r ← nodes t !! right nd;
            if nlt (upper_bound l q norm) (upper_bound r q norm)
            then search_loop fuel t q norm (right nd :: left nd :: stack) best
            else search_loop fuel t q norm (left nd :: right nd :: stack) best
      end
  end.
Definition find_best_match (t : tree) (q : point) : option (option (nat * T)) :=
  match points t with
  | [] => Some (Some (0, nzero))
  | p :: _ =>
      if decide (length q = length p) then search_loop (2 * length (points t) + 1) t q (euclidean_norm q) [0] None else None
  end.
End Cone.
