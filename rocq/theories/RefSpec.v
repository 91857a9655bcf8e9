(** Specification of the reference points: the unit simplex. *)
From Coq Require Import Reals.
From stdpp Require Import list.
Local Open Scope R_scope.

Definition total (p : list R) : R := foldr Rplus 0 p.
(** Non-negative coordinates that sum to 1. *)
Definition on_simplex (p : list R) : Prop := Forall (fun x => 0 <= x) p /\ total p = 1.
