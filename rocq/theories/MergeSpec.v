(** Specification of merging two Pareto sets. *)
From stdpp Require Import list.

(** No two members of [s] where one dominates the other. *)
Definition antichain {A} (less : A -> A -> bool) (s : list A) : Prop := forall x y, x ∈ s -> y ∈ s -> less x y = false.
(** Dominance is a strict partial order on [s]. *)
Definition strict_order {A} (less : A -> A -> bool) (s : list A) : Prop :=
  (forall x, x ∈ s -> less x x = false) /\
  (forall x y z, x ∈ s -> y ∈ s -> z ∈ s -> less x y = true -> less y z = true -> less x z = true).
(** The members of [s] not dominated by a member of [all], in order. *)
Definition undominated {A} (less : A -> A -> bool) (all s : list A) : list A :=
  filter (fun x => forallb (fun y => negb (less x y)) all = true) s.
