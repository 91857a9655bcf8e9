(** Model of the functions of /repo/src/utility/math.cpp on vectors and of the statistics of
    /repo/src/metrics/pop_stats.cpp in exact arithmetic: real numbers instead of double and long double, so that
    the order of the additions of std::transform_reduce does not matter.  (minFitness, maxFitness, fitnessMean,
    perpendicularDistanceSq and volumeBetween over binary64 are in StatsModel.v, Nsga3Model.v and HyperModel.v.)
    [None] is a violated GAPP_ASSERT or a division by zero. *)
From stdpp Require Import list list_numbers.
From Coq Require Import Reals.
Local Open Scope R_scope.

(** std::inner_product(a.begin(), a.end(), b.begin(), 0.0). *)
Definition inner_product (a b : list R) : R := foldl (fun acc p => acc + fst p * snd p) 0 (zip a b).
(** math.cpp 59-62. *)
Definition euclideanNorm (vec : list R) : R := sqrt (inner_product vec vec).
(** math.cpp 64-69. *)
Definition normalizeVector (vec : list R) : option (list R) :=
  let norm := euclideanNorm vec in
  if Req_EM_T norm 0 then None else Some ((fun x => x / norm) <$> vec).
(** math.cpp 71-78. *)
Definition euclideanDistanceSq (v1 v2 : list R) : option R :=
  if decide (length v1 = length v2) then Some (foldl (fun acc p => acc + (fst p - snd p) ^ 2) 0 (zip v1 v2)) else None.
(** math.cpp 80-90. *)
Definition perpendicularDistanceSq (line point : list R) : option R :=
  if decide (length line = length point) then
    let d := inner_product line line in
    if Req_EM_T d 0 then None
    else let k := inner_product line point / d in
         Some (foldl (fun acc p => acc + (snd p - k * fst p) ^ 2) 0 (zip line point))
  else None.
(** math.cpp 92-97. *)
Definition volumeBetween (p1 p2 : list R) : option R :=
  if decide (length p1 = length p2) then Some (Rabs (foldl (fun acc p => acc * (fst p - snd p)) 1 (zip p1 p2))) else None.
(** math.cpp 99-104. *)
Definition mean (vec : list R) : option R :=
  if decide (vec = []) then None else Some (foldl (fun acc x => acc + x / INR (length vec)) 0 vec).
(** math.cpp 111-124, and 106-109. *)
Definition stdDev_of (vec : list R) (mean : R) : option R :=
  if decide (vec = []) then None
  else if decide (length vec = 1%nat) then Some 0
  else let n := 1 / sqrt (INR (length vec)) in
       Some (sqrt (foldl (fun acc val => acc + (n * (val - mean)) ^ 2) 0 vec)).
Definition stdDev (vec : list R) : option R := m ← mean vec; stdDev_of vec m.
(** math.cpp 126-139; the loop runs for n = 2 + exponent % 2, + 2, ... up to the exponent. *)
Fixpoint sin_pow_loop (x : R) (exponent n : nat) (fuel : nat) (integral : R) : R :=
  match fuel with
  | O => integral
  | S fuel =>
      if decide (n <= exponent)%nat then
        let mult := (INR n - 1) / INR n in
        let plus := - cos x * sin x ^ (n - 1) / INR n in
        sin_pow_loop x exponent (n + 2) fuel (mult * integral + plus)
      else integral
  end.
Definition integralSinPow (exponent : nat) (x : R) : R :=
  let integral := if Nat.odd exponent then - cos x else x in
  sin_pow_loop x exponent (2 + exponent mod 2) (S exponent) integral.

(** The loops over the rows, pop_stats.cpp 57-63, 78-84: [f i acc x] is the new value of component i. *)
Definition add_row (f : nat -> R -> R -> R) (acc row : list R) : list R := imap (fun i p => f i (fst p) (snd p)) (zip acc row).
(** pop_stats.cpp 50-66. *)
Definition fitnessMean (m : list (list R)) : option (list R) :=
  match m with
  | [] => None
  | r :: _ =>
      let ninv := 1 / INR (length m) in
      Some (foldl (add_row (fun _ acc x => acc + x * ninv)) (replicate (length r) 0) m)
  end.
(** pop_stats.cpp 68-87, 89-92; for a single row the code computes 1.0 / 0.0 first and does not use it. *)
Definition fitnessVariance_of (m : list (list R)) (mean : list R) : option (list R) :=
  match m with
  | [] => None
  | r :: _ =>
      if decide (length r = length mean) then
        if decide (length m = 1%nat) then Some (replicate (length r) 0)
        else let ninv := 1 / (INR (length m) - 1) in
             Some (foldl (add_row (fun i acc x => acc + (x - nth i mean 0) ^ 2 * ninv)) (replicate (length r) 0) m)
      else None
  end.
Definition fitnessVariance (m : list (list R)) : option (list R) := mu ← fitnessMean m; fitnessVariance_of m mu.
(** pop_stats.cpp 94-105. *)
Definition fitnessStdDev (m : list (list R)) : option (list R) := mu ← fitnessMean m; v ← fitnessVariance_of m mu; Some (map sqrt v).
