(** Model of the random number helpers of utility/rng.hpp.

    A random computation reads a stream of words.  Each word holds an arbitrary integer,
    whose low 64 bits are what the generator rng::prng returns, and arbitrary results of
    the standard library's normal and Poisson distributions.  A theorem for all streams
    is therefore a theorem for all random outcomes.  [None] is a violated assertion or
    undefined behaviour. *)
From Coq Require Import ZArith.
From stdpp Require Import list.
From Flocq Require Import BinarySingleNaN.
From Verif Require Import FloatBase RealCrossoverModel AlgorithmModel.

Record word := Word { bits : Z; std_normal : b64; std_poisson : Z }.
Definition stream := nat -> word.
Definition stail (s : stream) : stream := fun n => s (S n).

Definition rand (A : Type) := stream -> option (A * stream).
Definition rret {A} (a : A) : rand A := fun s => Some (a, s).
Definition rfail {A} : rand A := fun _ => None.
Definition rbind {A B} (x : rand A) (f : A -> rand B) : rand B := fun s => '(a, s) ← x s; f a s.
Definition rassert {A} (b : bool) (k : rand A) : rand A := if b then k else rfail.
Definition rlift {A} (x : option A) : rand A := fun s => a ← x; Some (a, s).
Notation "'rlet' x '<-' e ';' k" := (rbind e (fun x => k)) (at level 200, x pattern, e at level 100, k at level 200, only parsing).
Definition rnext : rand word := fun s => Some (s 0%nat, stail s).

Local Open Scope Z_scope.

(** Conversion of an integer to double (round to nearest), of a double to an integer
    (truncation; the code only converts values that are in range), and std::round. *)
Definition fofZ (z : Z) : b64 := fmk z 0.
Definition fmag_floor (m : positive) (e : Z) : Z := if 0 <=? e then Zpos m * 2 ^ e else Zpos m / 2 ^ (- e).
Definition ftrunc (x : b64) : option Z :=
  match x with
  | B754_zero _ => Some 0
  | B754_finite s m e _ => Some (if s then - fmag_floor m e else fmag_floor m e)
  | _ => None
  end.
(** std::round: nearest integer, halves away from zero: floor(|x| + 1/2) with the sign. *)
Definition fmag_round (m : positive) (e : Z) : Z := if 0 <=? e then Zpos m * 2 ^ e else (2 * Zpos m + 2 ^ (- e)) / 2 ^ (1 - e).
Definition fround (x : b64) : option Z :=
  match x with
  | B754_zero _ => Some 0
  | B754_finite s m e _ => Some (if s then - fmag_round m e else fmag_round m e)
  | _ => None
  end.
Definition fsqrt (x : b64) : b64 := @Bsqrt 53 1024 b64_prec b64_emax mode_NE x.

(** The 64-bit output of the generator. *)
Definition prng : rand Z := rlet w <- rnext; rret (bits w mod 2 ^ 64).

(** rng.hpp 326-329.  The bool distribution is modelled separately (RngModel.v). *)
Definition randomBool : rand bool := rlet w <- rnext; rret (Z.odd (bits w)).
(** rng.hpp 331-337: std::uniform_int_distribution may return any number in the range. *)
Definition randomInt (lb ub : Z) : rand Z :=
  rassert (lb <=? ub) (rlet w <- rnext; rret (lb + bits w mod (ub - lb + 1))).
(** rng.hpp 339-343, for RealType = double: exponent_bits = 11 (bit.hpp 32-35), epsilon/2 = 2^-53. *)
Definition randomReal : rand b64 := rlet n <- prng; rret (fmul (fofZ (Z.shiftr n 11)) (fmk 1 (-53))).
(** rng.hpp 345-351. *)
Definition randomReal_between (lb ub : b64) : rand b64 :=
  rassert (fle lb ub) (rlet r <- randomReal; rret (fadd lb (fmul (fsub ub lb) r))).
(** rng.hpp 353-359. *)
Definition randomNormal (mean std_dev : b64) : rand b64 :=
  rassert (fle fzero std_dev) (rlet w <- rnext; rret (fadd (fmul std_dev (std_normal w)) mean)).
(** rng.hpp 361-372: an arbitrary non-negative number. *)
Definition randomPoisson (mean : b64) : rand Z :=
  rassert (flt fzero mean) (rlet w <- rnext; rret (std_poisson w mod 2 ^ 64)).

(** rng.hpp 374-395.  [fuel] bounds the rejection loop; [None] also stands for a loop
    that did not end yet. *)
Definition is_probability (p : b64) : bool := fle fzero p && fle p fone.
Fixpoint normal_loop (fuel : nat) (lo hi mean sd : b64) : rand b64 :=
  match fuel with
  | O => rfail
  | S fuel => rlet x <- randomNormal mean sd; if flt lo x && flt x hi then rret x else normal_loop fuel lo hi mean sd
  end.
Definition randomBinomialApproxNormal (fuel : nat) (n : Z) (p : b64) : rand Z :=
  rassert (0 <=? n) (rassert (is_probability p)
    (let mean := fmul (fofZ n) p in
     let std_dev := fsqrt (fmul mean (fsub fone p)) in
     rlet x <- normal_loop fuel (fneg fhalf) (fadd (fofZ n) fhalf) mean std_dev; rlift (fround x))).
(** rng.hpp 397-412. *)
Fixpoint poisson_loop (fuel : nat) (n : Z) (mean : b64) : rand Z :=
  match fuel with
  | O => rfail
  | S fuel => rlet x <- randomPoisson mean; if n <? x then poisson_loop fuel n mean else rret x
  end.
Definition randomBinomialApproxPoisson (fuel : nat) (n : Z) (p : b64) : rand Z :=
  rassert (0 <=? n) (rassert (is_probability p)
    (if feq p fzero then rret 0 else if feq p fone then rret n else poisson_loop fuel n (fmul (fofZ n) p))).
(** rng.hpp 414-423. *)
Fixpoint exact_loop (n : nat) (p : b64) (res : Z) : rand Z :=
  match n with
  | O => rret res
  | S n => rlet r <- randomReal; exact_loop n p (if fle r p then res + 1 else res)
  end.
Definition randomBinomialExact (n : Z) (p : b64) : rand Z :=
  rassert (0 <=? n) (rassert (is_probability p) (exact_loop (Z.to_nat n) p 0)).
(** rng.hpp 425-439. *)
Definition ften : b64 := fmk 10 0.
Definition ffifth : b64 := fmk 3602879701896397 (-54). (* the double 0.2 *)
Definition randomBinomial (fuel : nat) (n : Z) (p : b64) : rand Z :=
  rassert (0 <=? n) (rassert (is_probability p)
    (let mean := fmul p (fofZ n) in
     let use_poisson := ((50 <? n) && flt mean ften) || (((5 <? n) && (n <=? 50)) && flt p ffifth) in
     let use_normal := negb use_poisson && (5 <? n) in
     if use_poisson then randomBinomialApproxPoisson fuel n p
     else if use_normal then randomBinomialApproxNormal fuel n p
     else randomBinomialExact n p)).

(** rng.hpp 458-474.  [k] is the number of remaining iterations (limit < ubound); the set
    [selected] is a list; writing [numbers] in order is consing. *)
Fixpoint set_loop (lb limit : Z) (k : nat) (selected : list Z) : rand (list Z) :=
  match k with
  | O => rret []
  | S k =>
    rlet n <- randomInt lb limit;
    let number := if decide (n ∈ selected) then limit else n in
    rlet rest <- set_loop lb (limit + 1) k (n :: selected);
    rret (number :: rest)
  end.
Definition sampleUniqueSet (lb ub count : Z) : rand (list Z) := set_loop lb (ub - count) (Z.to_nat count) [].

(** rng.hpp 476-524.  The dynamic_bitset [is_selected] is a list of bools (C06 is about
    the bitset); reading or writing outside of it is [None]. *)
Fixpoint few_loop (lb limit : Z) (k : nat) (is_selected : list bool) : rand (list Z) :=
  match k with
  | O => rret []
  | S k =>
    rlet n <- randomInt lb limit;
    rlet sel <- rlift (is_selected !! Z.to_nat (n - lb));
    let number := if sel : bool then limit else n in
    rlet _ <- rlift (is_selected !! Z.to_nat (number - lb));
    rlet rest <- few_loop lb (limit + 1) k (<[Z.to_nat (number - lb) := true]> is_selected);
    rret (number :: rest)
  end.
Fixpoint many_loop (lb limit : Z) (k : nat) (is_selected : list bool) : rand (list bool) :=
  match k with
  | O => rret is_selected
  | S k =>
    rlet n <- randomInt lb limit;
    rlet sel <- rlift (is_selected !! Z.to_nat (n - lb));
    let cleared := Z.to_nat ((if sel : bool then n else limit) - lb) in
    rlet _ <- rlift (is_selected !! cleared);
    many_loop lb (limit + 1) k (<[cleared := false]> is_selected)
  end.
(** The final scan; [n] is the index of the head of [is_selected]. *)
Fixpoint collect (lb n : Z) (is_selected : list bool) : list Z :=
  match is_selected with
  | [] => []
  | b :: l => if b : bool then (lb + n) :: collect lb (n + 1) l else collect lb (n + 1) l
  end.
Definition f06 : b64 := fmk 5404319552844595 (-53). (* the double 0.6 *)
Definition sampleUnique (lb ub count : Z) : rand (list Z) :=
  let range_len := ub - lb in
  rassert (lb <=? ub) (rassert (count <=? range_len)
    (rlet threshold <- rlift (ftrunc (fmul f06 (fofZ range_len)));
     let select_many := threshold <=? count in
     if 65536 <=? range_len then sampleUniqueSet lb ub count
     else
       let is_selected := replicate (Z.to_nat range_len) select_many in
       if negb select_many then few_loop lb (ub - count) (Z.to_nat count) is_selected
       else
         let rcount := range_len - count in
         rlet sel <- many_loop lb (ub - rcount) (Z.to_nat rcount) is_selected;
         let numbers := collect lb 0 sel in
         (* [numbers] has room for [count] numbers; fewer would leave zeros in it *)
         rassert (Z.of_nat (length numbers) =? count) (rret numbers))).

(** rng.hpp 526-535. *)
Definition sampleCdf (cdf : list b64) : rand nat :=
  rlet front <- rlift (head cdf);
  rlet back <- rlift (last cdf);
  rassert (fle fzero front)
    (rlet threshold <- randomReal_between fzero back;
     rlift (lower_bound flt cdf threshold)).
