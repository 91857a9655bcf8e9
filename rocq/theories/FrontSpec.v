(** Specifications for Pareto fronts and nadir points of float matrices. *)
From Coq Require Import Reals.
From Flocq Require Import BinarySingleNaN.
From stdpp Require Import list.
From Verif Require Import FloatBase FloatModel FloatSpec.

(** A matrix with [d] columns and finite entries. *)
Definition matrix (d : nat) (m : list (list b64)) : Prop := Forall (fun r => length r = d /\ finite_vec r) m.
(** Both tolerances are zero: comparison is exact. *)
Definition exact (t : tolerances) : Prop :=
  tol_ok t /\ B2R (absolute_tolerance t) = 0%R /\ B2R (relative_tolerance t) = 0%R.
(** Row [r] is not dominated in [m]. *)
Definition nondominated (m : list (list b64)) (r : list b64) : Prop :=
  forall r', r' ∈ m -> ~ dominated_by r r'.
(** Exactly the indices of the non-dominated rows, each once. *)
Definition exact_front (m : list (list b64)) (front : list nat) : Prop :=
  NoDup front /\ forall i, i ∈ front <-> exists r, m !! i = Some r /\ nondominated m r.
(** [p] is, in each of the [d] objectives, the smallest value among the rows in [S]. *)
Definition componentwise_min (d : nat) (S : list b64 -> Prop) (p : list b64) : Prop :=
  length p = d /\
  forall k x, p !! k = Some x ->
    (exists r y, S r /\ r !! k = Some y /\ B2R y = B2R x) /\
    (forall r y, S r -> r !! k = Some y -> (B2R x <= B2R y)%R).
