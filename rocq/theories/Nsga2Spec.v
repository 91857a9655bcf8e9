(** Specification for NSGA-II. *)
From Coq Require Import Reals.
From stdpp Require Import list list_numbers.
From Flocq Require Import Core BinarySingleNaN.
From Verif Require Import FloatBase FloatModel FloatSpec FrontSpec NdSortSpec.

(** The crowding distance of member [i] of a front, given the front ordered by every
    objective: infinite at either end of an order, otherwise the sum of the distances of the
    neighbours relative to the extent of the front. *)
Definition crowd_step (extent_min : b64) (value : nat -> b64) (ord : list nat) (i : nat) (d : b64) : b64 :=
  match list_find (i =.) ord with
  | None => d
  | Some (p, _) =>
      if decide (p = 0 \/ S p = length ord) then finf
      else fadd d (fdiv (fsub (value (nth (S p) ord 0)) (value (nth (p - 1) ord 0)))
                        (fmax (fsub (value (nth (length ord - 1) ord 0)) (value (nth 0 ord 0))) extent_min))
  end.
Fixpoint crowding (extent_min : b64) (value : nat -> nat -> b64) (obj : nat) (orders : list (list nat)) (i : nat) (d : b64) : b64 :=
  match orders with
  | [] => d
  | ord :: orders => crowding extent_min value (S obj) orders i (crowd_step extent_min (value obj) ord i d)
  end.
(** [ord] are the members of [front], ascending by [value]. *)
Definition ascending (value : nat -> b64) (front ord : list nat) : Prop :=
  ord ≡ₚ front /\ forall a b i j, a < b -> ord !! a = Some i -> ord !! b = Some j -> (B2R (value i) <= B2R (value j))%R.
Definition ascending_all (ncols : nat) (value : nat -> nat -> b64) (front : list nat) (orders : list (list nat)) : Prop :=
  length orders = ncols /\ forall k ord, orders !! k = Some ord -> ascending (value k) front ord.
(** The entries are so small that their differences do not overflow. *)
Definition moderate (m : list (list b64)) : Prop := Forall (Forall (fun x => (Rabs (B2R x) <= bpow radix2 1022)%R)) m.
(** The members of rank [r]. *)
Definition front_of (L : list (nat * nat)) (r : nat) (is : list nat) : Prop := NoDup is /\ forall i, i ∈ is <-> (i, r) ∈ L.
