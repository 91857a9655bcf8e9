(** Specification of the hypervolume, for points with integer coordinates. *)
From Coq Require Import ZArith Reals.
From Flocq Require Import Core BinarySingleNaN.
From stdpp Require Import list list_numbers.
From Verif Require Import FloatBase.
Local Open Scope Z_scope.

(** A unit cell is named by its lowest corner.  It is in the region if it is in the box between
    the reference point and one of the points. *)
Definition in_box (ref p c : list Z) : Prop := Forall2 Z.le ref c /\ Forall2 Z.lt c p.
Definition in_region (ref : list Z) (points : list (list Z)) (c : list Z) : Prop := exists p, p ∈ points /\ in_box ref p c.
(** The measure of a set of cells is their number. *)
Definition measure (P : list Z -> Prop) (v : Z) : Prop :=
  exists cells, NoDup cells /\ (forall c, c ∈ cells <-> P c) /\ v = Z.of_nat (length cells).
(** The reference point is nowhere better than the points. *)
Definition dominates_ref (ref : list Z) (points : list (list Z)) : Prop := Forall (fun p => Forall2 Z.le ref p) points.

(** A double with an integer value. *)
Definition is_int (x : b64) (z : Z) : Prop := is_finite x = true /\ B2R x = IZR z.
(** [x] is the product of the numbers [l] in some order and grouping. *)
Inductive products : list b64 -> b64 -> Prop :=
| products_one x : products [x] x
| products_mul l l1 l2 a b : l ≡ₚ l1 ++ l2 -> products l1 a -> products l2 b -> products l (fmul a b).
Definition product_contract (product : list b64 -> b64) : Prop := forall l, products (fmk 1 0 :: l) (product l).

(** The objective-wise minimum of all points of some populations. *)
Definition worst_of (pops : list (list (list Z))) (w : list Z) : Prop :=
  forall k x, w !! k = Some x ->
    (exists m p, m ∈ pops /\ p ∈ m /\ p !! k = Some x) /\ forall m p y, m ∈ pops -> p ∈ m -> p !! k = Some y -> x <= y.
(** Integers as numbers of the exact model. *)
Definition ints (v : list Z) : list (option Z) := Some <$> v.
Definition int_rows (m : list (list Z)) : list (list (option Z)) := ints <$> m.
