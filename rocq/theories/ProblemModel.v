(** Model of the benchmark functions, /repo/src/problems.  Simplifications: the arithmetic,
    [std::pow], [std::sqrt], [std::exp], [std::sin], [std::cos] and the constants pi and e are
    those of the real numbers, without rounding, so that the order of the additions of
    std::reduce does not matter.  Fitness vectors are lists.  [None] is a failed assertion.
    The indices of the loops are those of the code. *)
From stdpp Require Import list list_numbers.
From Coq Require Import Reals.
Local Open Scope R_scope.

Notation "v .[ i ]" := (nth i v 0) (at level 2, left associativity, format "v .[ i ]").
(** A loop [for (i = 0; i < n; i++) acc = body(i, acc)]. *)
Definition for_to {S} (n : nat) (body : nat -> S -> S) (acc : S) : S := foldl (fun acc i => body i acc) acc (seq 0 n).
(** std::pow(x, y) for x >= 0 and y > 0. *)
Definition rpow (x y : R) : R := if Rlt_dec 0 x then Rpower x y else 0.

(** What a benchmark function is constructed with, benchmark_function.hpp 16-82: the lower and
    upper bounds of every variable, optimum(), optimal_value(), ideal_point(), nadir_point(). *)
Record traits (X : Type) := Traits { lower : list X; upper : list X; optimum : list X; optimal_value : list R; ideal_pt : list R; nadir_pt : list R }.
Arguments Traits {X}. Arguments lower {X}. Arguments upper {X}. Arguments optimum {X}. Arguments optimal_value {X}. Arguments ideal_pt {X}. Arguments nadir_pt {X}.
(** The constructor of the single-objective functions, 54-57. *)
Definition single (l u : R) (opt : list R) (value : R) : traits R :=
  Traits (replicate (length opt) l) (replicate (length opt) u) opt [value] [value] [value].

(** single_objective.cpp 16-19 and single_objective.hpp 33-35. *)
Definition Sphere (vars : list R) : option (list R) := Some [- foldl (fun acc x => acc + x * x) 0 vars].
Definition Sphere_traits (n : nat) : traits R := single (-(512 / 100)) (512 / 100) (replicate n 0) 0.
(** Rastrigin, 21-30 and hpp 67-69. *)
Definition Rastrigin (vars : list R) : option (list R) :=
  let fx := 10 * INR (length vars) in
  let fx := foldl (fun fx var => fx + (var ^ 2 - 10 * cos (2 * PI * var))) fx vars in
  Some [- fx].
Definition Rastrigin_traits (n : nat) : traits R := single (-(512 / 100)) (512 / 100) (replicate n 0) 0.
(** Rosenbrock, 32-43 and hpp 103-105. *)
Definition Rosenbrock (vars : list R) : option (list R) :=
  if decide (vars = []) then None else
  let fx := for_to (length vars - 1) (fun i fx => fx + (100 * (vars.[i + 1] - vars.[i] ^ 2) ^ 2 + (vars.[i] - 1) ^ 2)) 0 in
  Some [- fx].
Definition Rosenbrock_traits (n : nat) : traits R := single (-(2048 / 1000)) (2048 / 1000) (replicate n 1) 0.
(** Schwefel, 45-54 and hpp 135-137. *)
Definition Schwefel (vars : list R) : option (list R) :=
  let fx := 41898288727215591 / 100000000000000 * INR (length vars) in
  let fx := foldl (fun fx var => fx - var * sin (sqrt (Rabs var))) fx vars in
  Some [- fx].
Definition Schwefel_traits (n : nat) : traits R := single (-500) 500 (replicate n (4209687 / 10000)) 0.
(** Griewank, 56-67 and hpp 175-177. *)
Definition Griewank (vars : list R) : option (list R) :=
  let '(fx, fm) := for_to (length vars) (fun i (s : R * R) => let '(fx, fm) := s in (fx + vars.[i] ^ 2, fm * cos (vars.[i] / sqrt (INR i + 1)))) (4000, 1) in
  Some [- fx / 4000 + fm].
Definition Griewank_traits (n : nat) : traits R := single (-600) 600 (replicate n 0) 0.
(** Ackley, 69-86 and hpp 211-213. *)
Definition Ackley (vars : list R) : option (list R) :=
  if decide (vars = []) then None else
  let '(f1, f2) := foldl (fun (s : R * R) var => let '(f1, f2) := s in (f1 + var ^ 2, f2 + cos (2 * PI * var))) (0, 0) vars in
  let f1 := exp (- (2 / 10) * sqrt (f1 / INR (length vars))) in
  let f2 := exp (f2 / INR (length vars)) in
  let fx := - 20 * f1 - f2 + 20 + exp 1 in
  Some [- fx].
Definition Ackley_traits (n : nat) : traits R := single (-(32768 / 1000)) (32768 / 1000) (replicate n 0) 0.
(** Levy, 88-101 and hpp 242-244; multiply_add(0.25, 0.75), functional.hpp 119-126. *)
Definition levy_fw (x : R) : R := 1 / 4 * x + 3 / 4.
Definition Levy (vars : list R) : option (list R) :=
  if decide (vars = []) then None else
  let fx := sin (PI * levy_fw vars.[0]) ^ 2 in
  let fx := for_to (length vars - 1) (fun i fx => fx + (levy_fw vars.[i] - 1) ^ 2 * (1 + 10 * sin (PI * levy_fw vars.[i] + 1) ^ 2)) fx in
  let back := vars.[length vars - 1] in
  let fx := fx + (levy_fw back - 1) ^ 2 * (1 + sin (2 * PI * levy_fw back) ^ 2) in
  Some [- fx].
Definition Levy_traits (n : nat) : traits R := single (-10) 10 (replicate n 1) 0.

(** Kursawe, multi_objective.cpp 17-44. *)
Definition cube (x : R) : R := x ^ 3.
Definition Kursawe (vars : list R) : option (list R) :=
  if decide (2 <= length vars)%nat then
    let '(f1, f2) := for_to (length vars - 1) (fun i (s : R * R) => let '(f1, f2) := s in
      (f1 - 10 * exp (- (2 / 10) * sqrt (vars.[i] ^ 2 + vars.[i + 1] ^ 2)), f2 + (rpow (Rabs vars.[i]) (8 / 10) + 5 * sin (cube vars.[i])))) (0, 0) in
    let back := vars.[length vars - 1] in
    let f2 := f2 + (rpow (Rabs back) (8 / 10) + 5 * sin (cube back)) in
    Some [- f1; - f2]
  else None.
Definition Kursawe_traits (n : nat) : traits R :=
  Traits (replicate n (-5)) (replicate n 5) (replicate n 0) [10 * INR (n - 1); 0] [10 * INR (n - 1); 385 / 100 * INR (n - 1) + 4] [725 / 100 * INR (n - 1); 0].

(** std::reduce and std::transform_reduce with std::plus. *)
Definition reduce (l : list R) : R := foldr Rplus 0 l.
(** ZDT1, 47-71. *)
Definition ZDT_traits (n : nat) (opt ideal nadir : list R) : traits R := Traits (replicate n 0) (replicate n 1) (replicate n 0) opt ideal nadir.
Definition ZDT1 (vars : list R) : option (list R) :=
  if decide (2 <= length vars)%nat then
    let f1 := vars.[0] in
    let g := reduce (drop 1 vars) in
    let g := 1 + 9 * g / (INR (length vars) - 1) in
    let f2 := g - g * sqrt (f1 / g) in
    Some [- f1; - f2]
  else None.
Definition ZDT1_traits (n : nat) : traits R := ZDT_traits n [0; -1] [0; 0] [-1; -1].
(** ZDT2, 74-98. *)
Definition ZDT2 (vars : list R) : option (list R) :=
  if decide (2 <= length vars)%nat then
    let f1 := vars.[0] in
    let g := reduce (drop 1 vars) in
    let g := 1 + 9 * g / (INR (length vars) - 1) in
    let f2 := g - f1 * f1 / g in
    Some [- f1; - f2]
  else None.
Definition ZDT2_traits (n : nat) : traits R := ZDT_traits n [0; -1] [0; 0] [-1; -1].
(** ZDT3, 101-125. *)
Definition ZDT3 (vars : list R) : option (list R) :=
  if decide (2 <= length vars)%nat then
    let f1 := vars.[0] in
    let g := reduce (drop 1 vars) in
    let g := 1 + 9 * g / (INR (length vars) - 1) in
    let f2 := g - g * sqrt (f1 / g) - f1 * sin (10 * PI * f1) in
    Some [- f1; - f2]
  else None.
Definition ZDT3_traits (n : nat) : traits R := ZDT_traits n [0; -1] [0; 8 / 10] [-(85 / 100); -1].
(** ZDT4, 128-156. *)
Definition ZDT4 (vars : list R) : option (list R) :=
  if decide (2 <= length vars)%nat then
    let f1 := vars.[0] in
    let transform val := val ^ 2 - 10 * cos (4 * PI * val) in
    let g := reduce (transform <$> drop 1 vars) in
    let g := 1 + 10 * (INR (length vars) - 1) + g in
    let f2 := g - g * sqrt (f1 / g) in
    Some [- f1; - f2]
  else None.
Definition ZDT4_traits (n : nat) : traits R :=
  Traits (<[0%nat := 0]> (replicate n (-5))) (<[0%nat := 1]> (replicate n 5)) (replicate n 0) [0; -1] [0; 0] [-1; -1].
(** ZDT5, 159-188; FIRST_BITS and REST_BITS, multi_objective.hpp 221-222. *)
Definition FIRST_BITS : nat := 30.
Definition REST_BITS : nat := 5.
Definition count_ones (l : list bool) : nat := length (filter (fun b => b = true) l).
Fixpoint zdt5_loop (fuel : nat) (vars : list bool) (g : R) : R :=
  match fuel with
  | O => g
  | S fuel =>
      if decide (REST_BITS <= length vars)%nat then
        let ones := count_ones (take REST_BITS vars) in
        zdt5_loop fuel (drop REST_BITS vars) (g + (if decide (ones = REST_BITS) then 1 else 2 + INR ones))
      else g
  end.
Definition ZDT5 (vars : list bool) : option (list R) :=
  if decide (FIRST_BITS <= length vars /\ length vars mod REST_BITS = 0)%nat then
    let f1 := 1 + INR (count_ones (take FIRST_BITS vars)) in
    let g := zdt5_loop (length vars) (drop FIRST_BITS vars) 0 in
    let f2 := g / f1 in
    Some [- f1; - f2]
  else None.
Definition ZDT5_traits (n : nat) : traits bool :=
  let len := (FIRST_BITS + (n - 1) * REST_BITS)%nat in
  Traits (replicate len false) (replicate len true) (replicate len true)
    [- (INR FIRST_BITS + 1); - (INR n - 1) / (INR FIRST_BITS + 1)] [-1; - (INR n - 1) / (INR FIRST_BITS + 1)] [- (INR FIRST_BITS + 1); - (INR n - 1)].
(** ZDT6, 191-214. *)
Definition ZDT6 (vars : list R) : option (list R) :=
  if decide (2 <= length vars)%nat then
    let f1 := 1 - exp (- 4 * vars.[0]) * sin (6 * PI * vars.[0]) ^ 6 in
    let g := reduce (drop 1 vars) in
    let g := 1 + 9 * rpow (g / (INR (length vars) - 1)) (1 / 4) in
    let f2 := g - f1 * f1 / g in
    Some [- f1; - f2]
  else None.
Definition ZDT6_traits (n : nat) : traits R := ZDT_traits n [-1; 0] [0; 0] [-1; -(92 / 100)].

(** ** many_objective.cpp *)
(** dtlz1_g, 20-31; also dtlz3_g. *)
Definition dtlz1_g (vars : list R) : option R :=
  if decide (vars = []) then None else Some (100 * foldl (fun g x => g + ((x - 1 / 2) ^ 2 - cos (20 * PI * (x - 1 / 2)))) (INR (length vars)) vars).
(** dtlz2_g, 33-44; also dtlz4_g and dtlz5_g. *)
Definition dtlz2_g (vars : list R) : option R :=
  if decide (vars = []) then None else Some (foldl (fun g x => g + (x - 1 / 2) ^ 2) 0 vars).
(** dtlz6_g, 52-63. *)
Definition dtlz6_g (vars : list R) : option R :=
  if decide (vars = []) then None else Some (foldl (fun g x => g + rpow x (1 / 10)) 0 vars).
(** dtlz7_g, 65-70. *)
Definition dtlz7_g (vars : list R) : option R :=
  if decide (vars = []) then None else Some (1 + 9 / INR (length vars) * reduce vars).

(** The loops over [fx.rbegin()]: in iteration [j] the element [k] from the back is split into
    the element before it and itself; [m] iterations starting with iteration [a]. *)
Definition dtlz_loop (before self : R -> R) (first : list R) (a m : nat) (fx : list R) : list R :=
  foldl (fun fx j => let k := (length fx - 1 - j)%nat in let v := fx.[k] in <[k := v * self first.[j]]> (<[(k - 1)%nat := v * before first.[j]]> fx)) fx (seq a m).
(** dtlz1_f, 75-88. *)
Definition dtlz1_f (first : list R) (g : R) : option (list R) :=
  if decide (first = []) then None else Some (dtlz_loop (fun x => x) (fun x => 1 - x) first 0 (length first) (replicate (length first + 1) (1 / 2))).
(** dtlz2_f, 90-103; also dtlz3_f. *)
Definition dtlz2_f (first : list R) (g : R) : option (list R) :=
  if decide (first = []) then None else Some (dtlz_loop (fun x => cos (x * PI / 2)) (fun x => sin (x * PI / 2)) first 0 (length first) (replicate (length first + 1) 1)).
(** dtlz4_f, 107-120. *)
Definition dtlz4_f (first : list R) (g : R) : option (list R) :=
  if decide (first = []) then None else Some (dtlz_loop (fun x => cos (x ^ 100 * PI / 2)) (fun x => sin (x ^ 100 * PI / 2)) first 0 (length first) (replicate (length first + 1) 1)).
(** dtlz5_f, 122-141; also dtlz6_f. *)
Definition dtlz5_f (first : list R) (g : R) : option (list R) :=
  if decide (first = []) then None else
  let theta x := (g * x + 1 / 2) / (1 + g) in
  let fx := replicate (length first + 1) 1 in
  let fx := <[length first := sin (first.[0] * PI / 2)]> fx in
  let fx := <[(length first - 1)%nat := cos (first.[0] * PI / 2)]> fx in
  Some (dtlz_loop (fun x => cos (theta x * PI / 2)) (fun x => sin (theta x * PI / 2)) first 1 (length first - 1) fx).
(** dtlz7_f, 145-160. *)
Definition dtlz7_f (first : list R) (g : R) : option (list R) :=
  if decide (first = []) then None else
  let n := (length first + 1)%nat in
  let back := (1 + g) * INR n in
  let back := foldl (fun back x => back - x * (1 + sin (3 * PI * x))) back first in
  Some (((fun x => x / (1 + g)) <$> first) ++ [back / (1 + g)]).
(** dtlz, 165-177. *)
Definition dtlz (F : list R -> R -> option (list R)) (G : list R -> option R) (vars : list R) (num_obj : nat) : option (list R) :=
  match G (drop (num_obj - 1) vars) with
  | None => None
  | Some g =>
      match F (take (num_obj - 1) vars) g with
      | None => None
      | Some fx => Some (map (fun v => v * - (1 + g)) fx)
      end
  end.
Definition DTLZ1 := dtlz dtlz1_f dtlz1_g.
Definition DTLZ2 := dtlz dtlz2_f dtlz2_g.
Definition DTLZ3 := dtlz dtlz2_f dtlz1_g.
Definition DTLZ4 := dtlz dtlz4_f dtlz2_g.
Definition DTLZ5 := dtlz dtlz5_f dtlz2_g.
Definition DTLZ6 := dtlz dtlz5_f dtlz6_g.
Definition DTLZ7 := dtlz dtlz7_f dtlz7_g.
(** The constructors, 188-329: [K] is 5 for DTLZ1, 10 for DTLZ2 to DTLZ6 and 20 for DTLZ7. *)
Definition DTLZ_traits (K num_obj : nat) (opt : list R) (value ideal nadir : list R) : traits R :=
  Traits (replicate (num_obj + K - 1) 0) (replicate (num_obj + K - 1) 1) opt value ideal nadir.
Definition DTLZ1_traits (num_obj : nat) : traits R :=
  DTLZ_traits 5 num_obj (replicate (num_obj - 1) 0 ++ replicate 5 (1 / 2)) (<[(num_obj - 1)%nat := - (1 / 2)]> (replicate num_obj 0)) (replicate num_obj 0) (replicate num_obj (- (1 / 2))).
Definition DTLZ2_traits (num_obj : nat) : traits R :=
  DTLZ_traits 10 num_obj (replicate (num_obj - 1) 0 ++ replicate 10 (1 / 2)) (<[0%nat := -1]> (replicate num_obj 0)) (replicate num_obj 0) (replicate num_obj (-1)).
Definition DTLZ3_traits := DTLZ2_traits.
Definition DTLZ4_traits (num_obj : nat) : traits R :=
  DTLZ_traits 10 num_obj (replicate (num_obj + 10 - 1) (1 / 2)) (<[0%nat := -1]> (replicate num_obj 0)) (replicate num_obj 0) (replicate num_obj (-1)).
Definition DTLZ5_nadir (num_obj : nat) : list R :=
  let nadir := (fun i => -1 / sqrt 2 ^ (num_obj - 1 - i)) <$> seq 0 num_obj in <[0%nat := nadir.[1]]> nadir.
Definition DTLZ5_traits (num_obj : nat) : traits R :=
  DTLZ_traits 10 num_obj (replicate (num_obj - 1) 0 ++ replicate 10 (1 / 2)) (<[(num_obj - 1)%nat := 0]> (DTLZ5_nadir num_obj)) (replicate num_obj 0) (DTLZ5_nadir num_obj).
Definition DTLZ6_traits (num_obj : nat) : traits R :=
  DTLZ_traits 10 num_obj (replicate (num_obj + 10 - 1) 0) (<[(num_obj - 1)%nat := 0]> (DTLZ5_nadir num_obj)) (replicate num_obj 0) (DTLZ5_nadir num_obj).
Definition DTLZ7_traits (num_obj : nat) : traits R :=
  DTLZ_traits 20 num_obj (replicate (num_obj + 20 - 1) 0) (<[(num_obj - 1)%nat := -2 * INR num_obj]> (replicate num_obj 0))
    (<[(num_obj - 1)%nat := - (307004 / 1000000) * INR num_obj - 1692996 / 1000000]> (replicate num_obj 0)) (<[(num_obj - 1)%nat := -2 * INR num_obj]> (replicate num_obj (-1))).

(** ** StringFinder, integer.cpp 11-31.  [char_of] is static_cast<char> of a gene. *)
Definition StringFinder (char_of : Z -> Z) (target chrom : list Z) : option (list R) :=
  if decide (length chrom = length target) then
    Some [for_to (length chrom) (fun i fitness => fitness + (if decide (char_of (nth i chrom 0%Z) = nth i target 0%Z) then 1 else 0)) 0]
  else None.
(** ** TSP, travelling_salesman.cpp 10-42; std::hypot(dx, dy) is the square root of the sum
    of the squares. *)
Definition tsp_distances (cities : list (R * R)) : list (list R) :=
  (fun c : R * R => (fun d : R * R => sqrt ((c.1 - d.1) ^ 2 + (c.2 - d.2) ^ 2)) <$> cities) <$> cities.
Definition tsp_at (m : list (list R)) (i j : nat) : option R := r ← m !! i; r !! j.
Fixpoint tsp_sum (m : list (list R)) (chrom : list nat) (acc : R) : option R :=
  match chrom with
  | a :: (b :: _) as rest => d ← tsp_at m a b; tsp_sum m rest (acc + d)
  | _ => Some acc
  end.
Definition TSP (cities : list (R * R)) (chrom : list nat) : option (list R) :=
  let m := tsp_distances cities in
  let ncities := length m in
  distance ← tsp_sum m chrom 0;
  front ← head chrom; back ← last chrom;
  d1 ← tsp_at m (ncities - 1) front;
  d2 ← tsp_at m (ncities - 1) back;
  Some [- (distance + d1 + d2)].
