(** What the binary encoding of real variables means: a block of bits, the most significant
    first, is a number, and the variable is that part of the way from the lower to the upper
    bound. *)
From Coq Require Import Reals ZArith.
From stdpp Require Import list.
From Flocq Require Import Core BinarySingleNaN.
From Verif Require Import FloatBase RealCrossoverModel.

Fixpoint number (bits : list bool) : Z :=
  match bits with [] => 0 | b :: rest => (if b then 2 ^ Z.of_nat (length rest) else 0) + number rest end%Z.
(** The bits of variable [i]. *)
Definition block (n : nat) (bits : list bool) (i : nat) : list bool := take n (drop (i * n) bits).
(** What is assumed of std::pow(2.0, n): it is exact. *)
Definition pow2_contract (pow2 : nat -> b64) : Prop :=
  forall n, if decide (n < 1024)%nat then is_finite (pow2 n) = true /\ B2R (pow2 n) = bpow radix2 (Z.of_nat n) else pow2 n = finf.
(** The variable in exact arithmetic. *)
Definition exact_var (bits : list bool) (b : bounds) : R :=
  (B2R (lower b) + IZR (number bits) / (2 ^ length bits - 1) * (B2R (upper b) - B2R (lower b)))%R.
