(** Specification of the replacement operators. *)
From stdpp Require Import list list_numbers.
From Coq Require Import Reals.
From Flocq Require Import Core BinarySingleNaN.
From Verif Require Import FloatBase.

(** [is] are [k] different indices of the first [n] rows. *)
Definition distinct_indices (k n : nat) (is : list nat) : Prop := length is = k /\ NoDup is /\ Forall (fun i => i < n) is.
(** [is] are the [k] best of the first [n] rows: none of the others is better than one of
    them. *)
Definition k_best {A} (better : A -> A -> Prop) (k n : nat) (rows : list A) (is : list nat) : Prop :=
  distinct_indices k n is /\
  forall i j x y, i ∈ is -> j < n -> j ∉ is -> rows !! i = Some x -> rows !! j = Some y -> ~ better y x.
(** The fitness of single-objective populations: better is greater. *)
Definition greater1 (x y : list b64) : Prop := exists a b, x = [a] /\ y = [b] /\ (B2R b < B2R a)%R.
(** Rows of one finite number. *)
Definition one_objective (fmat : list (list b64)) : Prop := Forall (fun r => exists a, r = [a] /\ is_finite a = true) fmat.
