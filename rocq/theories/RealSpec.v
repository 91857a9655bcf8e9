(** Specification for the real coded operators: bounds, and what is assumed about
    random numbers and std::pow. *)
From Coq Require Import Reals.
From stdpp Require Import list.
From Flocq Require Import Core BinarySingleNaN.
From Verif Require Import FloatBase RealCrossoverModel.

(** Finite bounds, in order. *)
Definition bounds_ok (b : bounds) : Prop :=
  is_finite (lower b) = true /\ is_finite (upper b) = true /\ (B2R (lower b) <= B2R (upper b))%R.
(** The bounds are at most [M] in absolute value. *)
Definition bounded_by (M : R) (b : bounds) : Prop := (Rabs (B2R (lower b)) <= M /\ Rabs (B2R (upper b)) <= M)%R.
(** A number within the bounds; in particular not a NaN. *)
Definition in_bound (b : bounds) (x : b64) : Prop :=
  is_finite x = true /\ (B2R (lower b) <= B2R x <= B2R (upper b))%R.
Definition in_bounds (bs : list bounds) (c : list b64) : Prop := Forall2 in_bound bs c.

(** What rng::randomReal() returns (C64): in [0, 1), never a negative zero. *)
Definition draw (r : b64) : Prop := is_finite r = true /\ Bsign r = false /\ (0 <= B2R r < 1)%R.
(** A non-negative number or infinity. *)
Definition nonneg (x : b64) : Prop := is_nan x = false /\ Bsign x = false.

(** What is assumed about std::pow(x, y) for x >= +0 (C standard, F.10.4.4): it is not a
    NaN and not negative, and at most 1 where the power of a number >= 1 to a negative
    exponent is taken, or of a number in [0, 1] to a non-negative exponent. *)
Record pow_contract (pow : b64 -> b64 -> b64) : Prop := {
  pow_nonneg : forall x y, nonneg x -> is_nan y = false -> nonneg (pow x y);
  pow_le_1 : forall x y, nonneg x -> is_nan y = false -> (1 <= fval x)%R -> (fval y <= 0)%R -> (fval (pow x y) <= 1)%R;
  pow_le_1_unit : forall x y, nonneg x -> (fval x <= 1)%R -> nonneg y -> (fval (pow x y) <= 1)%R;
}.

(** Clamping in exact arithmetic. *)
Definition Rclamp (b : bounds) (v : R) : R := Rmax (B2R (lower b)) (Rmin (B2R (upper b)) v).
(** A relation between the genes of the parents, the random draws and the genes of the
    children, which are as many as the bounds. *)
Definition genewise {D} (P : D -> bounds -> b64 -> b64 -> b64 -> b64 -> Prop) (bs : list bounds) (ds : list D) (p1 p2 c1 c2 : list b64) : Prop :=
  length c1 = length bs /\ length c2 = length bs /\
  forall i d b x y u v, ds !! i = Some d -> bs !! i = Some b -> p1 !! i = Some x -> p2 !! i = Some y ->
    c1 !! i = Some u -> c2 !! i = Some v -> P d b x y u v.
(** [u] is finite and at most [e] away from [v]. *)
Definition near (e : R) (u : b64) (v : R) : Prop := is_finite u = true /\ (Rabs (B2R u - v) <= e)%R.
(** Rounding error allowed for genes x and y. *)
Definition rounding (x y : b64) : R := (bpow radix2 (-50) * (Rabs (B2R x) + Rabs (B2R y)) + bpow radix2 (-1072))%R.
(** [u] is at [g] or on the side of [g] that is away from [h]. *)
Definition beyond (g h u : b64) : Prop := ((B2R h <= B2R g -> B2R g <= B2R u) /\ (B2R g <= B2R h -> B2R u <= B2R g))%R.

(** Exact arithmetic version of the simulated binary crossover of two genes g1 < g2 with
    bounds l and h (real.cpp 87-105, before the clamping); [ex] is the exponent of the
    spread factor. *)
Definition sbx_alpha (eta beta : R) : R := (2 - Rpower beta (- (eta + 1)))%R.
Definition sbx_spread (ex alpha u : R) : R :=
  if Rle_dec u (1 / alpha) then Rpower (u * alpha) ex else Rpower (1 / (2 - u * alpha)) ex.
Definition sbx_low (ex eta l g1 g2 u : R) : R :=
  (/2 * (g1 + g2 - sbx_spread ex (sbx_alpha eta (1 + 2 * (g1 - l) / (g2 - g1))) u * (g2 - g1)))%R.
Definition sbx_high (ex eta h g1 g2 u : R) : R :=
  (/2 * (g1 + g2 + sbx_spread ex (sbx_alpha eta (1 + 2 * (h - g2) / (g2 - g1))) u * (g2 - g1)))%R.
(** The rounding error of a few operations on a gene and its bounds. *)
Definition step_rounding (b : bounds) (x : b64) : R :=
  (bpow radix2 (-49) * (Rabs (B2R (lower b)) + Rabs (B2R (upper b)) + Rabs (B2R x)) + bpow radix2 (-1071))%R.
