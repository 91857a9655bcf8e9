(** Specification of the best match search over the real numbers. *)
From Coq Require Import Reals.
From stdpp Require Import list.
Local Open Scope R_scope.

(** The inner product. *)
Fixpoint dot (u v : list R) : R := match u, v with x :: u, y :: v => x * y + dot u v | _, _ => 0 end.
(** [x] is one of [points] and no other has a larger inner product with the query. *)
Definition best_match (points : list (list R)) (q x : list R) : Prop := x ∈ points /\ forall y, y ∈ points -> dot q y <= dot q x.
