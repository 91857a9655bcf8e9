(** Specification of the random number helpers. *)
From Coq Require Import Reals ZArith.
From stdpp Require Import list.
From Flocq Require Import Core BinarySingleNaN.
From Verif Require Import FloatBase RandModel.

(** [l] is a selection of [n] different numbers in [lo, hi). *)
Definition distinct_sample (lo hi n : Z) (l : list Z) : Prop :=
  Z.of_nat (length l) = n /\ NoDup l /\ Forall (fun x => lo <= x < hi)%Z l.
(** A probability: a finite number in [0, 1]. *)
Definition probability (p : b64) : Prop := is_finite p = true /\ (0 <= B2R p <= 1)%R.
(** The normal distribution returns finite numbers. *)
Definition normals_finite (s : stream) : Prop := forall n, is_finite (std_normal (s n)) = true.
(** A cumulative distribution: finite, starting at a non-negative number, in order. *)
Definition is_cdf (cdf : list b64) : Prop :=
  Forall (fun x => is_finite x = true /\ (0 <= B2R x)%R) cdf /\
  forall i j x y, (i <= j)%nat -> cdf !! i = Some x -> cdf !! j = Some y -> (B2R x <= B2R y)%R.
(** The weight of index [i], the increase of the distribution there. *)
Definition cdf_weight (cdf : list b64) (i : nat) : R :=
  (nth i (B2R <$> cdf) 0 - match i with O => 0 | S j => nth j (B2R <$> cdf) 0 end)%R.
(** The random real number in [0, 1) made of a word: its upper 53 bits, divided by 2^53. *)
Definition unit_draw (w : word) : R := (IZR ((bits w mod 2 ^ 64) / 2 ^ 11) * bpow radix2 (-53))%R.
(** A sequence of draws for [m] numbers of a range of [n]: the j-th one is at most n - m + j. *)
Definition draws (n : Z) (m : nat) (t : list Z) : Prop :=
  length t = m /\ forall j x, t !! j = Some x -> (0 <= x <= n - Z.of_nat m + Z.of_nat j)%Z.
(** Exactly [k] of the lists satisfy [P]. *)
Definition exactly {A} (k : nat) (P : A -> Prop) : Prop := exists l, NoDup l /\ length l = k /\ forall a, a ∈ l <-> P a.
