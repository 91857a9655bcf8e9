(** Model of the reference line generators, /repo/src/algorithm/reference_lines.cpp, and of
    generateReferencePoints, /repo/src/algorithm/nsga3.cpp 161-167.

    The arithmetic is a parameter ([num] of ConeModel.v); the theorems are about the real numbers,
    so there is no rounding.  std::log, std::pow, math::small and std::sort are parameters.
    [None] = undefined behaviour, a violated assertion or (simplexMappingMirror) out of fuel. *)
From stdpp Require Import list list_numbers.
From Verif Require Import AlgorithmModel ConeModel.

Section Ref.
Context {T : Type} {N : num T}.
Notation point := (list T).
Variables (log : T -> T) (pow : T -> T -> T) (small one : T).
Variable sort : (T -> T -> bool) -> list T -> list T.

(** detail::between(0.0, 1.0) for all coordinates. *)
Definition in_cube (p : point) : bool := forallb (fun x => negb (nlt x nzero) && negb (nlt one x)) p.
(** std::adjacent_difference in place. *)
Fixpoint differences (prev : T) (p : point) : point := match p with [] => [] | x :: p => nsub x prev :: differences x p end.
Definition adjacent_difference (p : point) : point := match p with [] => [] | x :: p => x :: differences x p end.

(** simplexMappingLog, reference_lines.cpp 29-36; std::reduce adds in some order. *)
Definition mapping_log (p : point) : option point :=
  if in_cube p then
    let q := (fun x => nsub nzero (log (if nlt x small then small else x))) <$> p in
    let sum := foldl nadd nzero q in
    Some ((fun x => ndiv x sum) <$> q)
  else None.
(** simplexMappingSort, 39-46. *)
Definition mapping_sort (p : point) : option point :=
  if in_cube p then Some (adjacent_difference (sort nlt (p ++ [one]))) else None.
(** simplexMappingRoot, 49-69: the loop over the reverse iterators; [rev] are the coordinates still
    to visit in reverse order, [next] is the coordinate behind the first of them. *)
Fixpoint root_loop (rev : point) (next : T) (acc : point) : point :=
  match rev with
  | [] => acc
  | x :: rev' => let y := nmul next (pow x (ndiv one (nnat (length rev)))) in root_loop rev' y (y :: acc)
  end.
Definition mapping_root (p : point) : option point :=
  if in_cube p then
    match reverse p with
    | [] => Some [one]
    | x :: rev => let y := pow x (ndiv one (nnat (length p))) in Some (adjacent_difference (root_loop rev y [y] ++ [one]))
    end
  else None.
(** simplexMappingMirror, 72-102.  One pass of the inner loop, 84-95: [a] are the coordinates
    [first, last) still to visit, [low] the one before them (0 at the beginning), [last] and [high]
    the coordinates at last and behind it. *)
Fixpoint mirror_pass (low : T) (a : point) (last high : T) : point * T * bool :=
  match a with
  | [] => ([], last, false)
  | x :: a =>
      if nlt last x then
        let x' := nsub (nadd low high) x in
        let '(a', last', _) := mirror_pass x' a (nsub (nadd low high) last) high in (x' :: a', last', true)
      else let '(a', last', has) := mirror_pass x a last high in (x :: a', last', has)
  end.
(** The outer loop, 80-98.  [rev] are the coordinates before last in reverse order, [behind] those
    behind it. *)
Fixpoint mirror_loop (fuel : nat) (rev : point) (last : T) (behind : point) : option point :=
  match fuel with
  | 0 => None
  | S fuel =>
      match behind with
      | [] => None
      | high :: _ =>
          let '(a, last', has_lower) := mirror_pass nzero (reverse rev) last high in
          if has_lower then mirror_loop fuel (reverse a) last' behind else
          match reverse a with
          | [] => Some (last' :: behind)
          | x :: rev' => mirror_loop fuel rev' x (last' :: behind)
          end
      end
  end.
Definition mapping_mirror (fuel : nat) (p : point) : option point :=
  if in_cube p then
    match reverse p with
    | [] => Some [one]
    | x :: rev => q ← mirror_loop fuel rev x [one]; Some (adjacent_difference q)
    end
  else None.

(** quasirandomSimplexPoints, 117-136: [cube] are the points of the quasi random generator, one for
    each row; the rows of the matrix have [dim] elements. *)
Definition simplex_points (F : point -> option point) (dim : nat) (cube : list point) : option (list point) :=
  if decide (dim = 0) then Some (replicate (length cube) []) else
  foldr (fun p acc => rest ← acc; q ← F p; if decide (length q = dim) then Some (q :: rest) else None) (Some []) cube.

(** std::swap of the element [idx] and the last one, then pop_back. *)
Definition swap_pop {A} (l : list A) (idx : nat) : option (list A) :=
  l' ← iter_swap l idx (length l - 1); Some (take (length l - 1) l').
(** pickSparseSubset, 160-197; [candidates] is generator(dim, k * num_points). *)
Fixpoint pick_loop (fuel num_points : nat) (points candidates : list point) (dists : list T) : option (list point) :=
  match fuel with
  | 0 => None
  | S fuel =>
      if decide (length points < num_points) then
        idx ← argmax false nlt id dists;
        p ← candidates !! idx;
        candidates ← swap_pop candidates idx;
        dists ← swap_pop dists idx;
        pick_loop fuel num_points (points ++ [p]) candidates
          (zip_with (fun c d => let dist := euclidean_distance_sq c p in if nlt dist d then dist else d) candidates dists)
      else Some points
  end.
Definition pick_sparse_subset (dim num_points : nat) (candidates : list point) : option (list point) :=
  if decide (dim * num_points = 0) then Some [] else
  p ← candidates !! (length candidates - 1);
  let candidates := take (length candidates - 1) candidates in
  pick_loop num_points num_points [p] candidates (euclidean_distance_sq p <$> candidates).

(** normalizeVector, math.cpp 64-69; generateReferencePoints, nsga3.cpp 161-167. *)
Definition normalize_vector (v : point) : point := (fun x => ndiv x (euclidean_norm v)) <$> v.
Definition generate_reference_points (points : list point) : list point := normalize_vector <$> points.
End Ref.
