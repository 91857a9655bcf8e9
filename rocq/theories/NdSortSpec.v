(** Specifications for non-dominated sorting; an element is a pair (index, rank). *)
From stdpp Require Import list.
From Verif Require Import FloatBase FloatModel FloatSpec.

(** Row [i] is dominated by row [j]. *)
Definition row_dominated (m : list (list b64)) (i j : nat) : Prop :=
  exists r r', m !! i = Some r /\ m !! j = Some r' /\ dominated_by r r'.

(** [L] ranks the indices below [n] under the dominance relation [dom]. *)
Record nd_ranking (n : nat) (dom : nat -> nat -> Prop) (L : list (nat * nat)) : Prop := {
  nr_once : L.*1 ≡ₚ seq 0 n;
  nr_sorted : forall p q e f, p <= q -> L !! p = Some e -> L !! q = Some f -> e.2 <= f.2;
  nr_consecutive : forall i r s, (i, r) ∈ L -> s < r -> exists j, (j, s) ∈ L;
  nr_zero : forall i, (i, 0) ∈ L <-> i < n /\ forall j, j < n -> ~ dom i j;
  nr_succ : forall i r, (i, S r) ∈ L <-> i < n /\ (exists j, (j, r) ∈ L /\ dom i j) /\ forall j s, (j, s) ∈ L -> dom i j -> s <= r;
}.
Definition same_ranks (L L' : list (nat * nat)) : Prop := forall e, e ∈ L <-> e ∈ L'.

(** [fs] (pairs of positions) are the maximal runs of equal rank of [L], in order. *)
Inductive runs (L : list (nat * nat)) : nat -> list (nat * nat) -> Prop :=
| runs_end : runs L (length L) []
| runs_run a b fs : a < b -> b <= length L ->
    (exists r, (forall p, a <= p < b -> exists i, L !! p = Some (i, r)) /\ (forall i r', L !! b = Some (i, r') -> r' <> r)) ->
    runs L b fs -> runs L a ((a, b) :: fs).
