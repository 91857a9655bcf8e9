(** Specification of the selection operators. *)
From Coq Require Import Reals.
From stdpp Require Import list list_numbers.
From Flocq Require Import Core BinarySingleNaN.
From Verif Require Import FloatBase.

(** [x] is a sum of the numbers [l] in some order and grouping: std::reduce. *)
Inductive sums : list b64 -> b64 -> Prop :=
  | sums_one x : sums [x] x
  | sums_add l l1 l2 a b : l ≡ₚ l1 ++ l2 -> sums l1 a -> sums l2 b -> sums l (fadd a b).
Definition reduce_contract (reduce : list b64 -> b64) : Prop := forall l, sums (fzero :: l) (reduce l).
(** std::lerp for an interval of finite numbers and t in [0, 1]: monotone and exact at the
    end. *)
Record lerp_contract (lerp : b64 -> b64 -> b64 -> b64) : Prop := {
  lerp_in : forall a b t, is_finite a = true -> is_finite b = true -> (B2R a <= B2R b)%R -> is_finite t = true -> (0 <= B2R t <= 1)%R ->
    is_finite (lerp a b t) = true /\ (B2R a <= B2R (lerp a b t) <= B2R b)%R;
  lerp_one : forall a b t, is_finite a = true -> is_finite b = true -> is_finite t = true -> B2R t = 1%R -> B2R (lerp a b t) = B2R b;
  lerp_nan : forall a b t, is_nan t = true -> is_nan (lerp a b t) = true
}.
(** std::exp. *)
Record exp_contract (fexp : b64 -> b64) : Prop := {
  exp_nan : forall x, is_nan x = true -> is_nan (fexp x) = true;
  exp_nonneg : forall x, is_nan x = false -> is_nan (fexp x) = false /\ (0 <= fval (fexp x))%R;
  exp_zero : forall x, is_finite x = true -> B2R x = 0%R -> is_finite (fexp x) = true /\ B2R (fexp x) = 1%R
}.
(** Weights that can be normalized: finite, not negative, and all zero or at least one of
    them not subnormal. *)
Definition good_weights (ws : list b64) : Prop :=
  Forall (fun w => is_finite w = true /\ (0 <= B2R w)%R) ws /\
  (Forall (fun w => B2R w = 0%R) ws \/ exists w, w ∈ ws /\ (bpow radix2 (-1022) <= B2R w)%R).
