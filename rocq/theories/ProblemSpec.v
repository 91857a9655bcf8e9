(** What the optimum of a benchmark function is: for one objective the largest value in the
    box of the bounds, for more objectives the points that no other point of the box
    dominates.  All objectives are maximised. *)
From stdpp Require Import list list_numbers.
From Coq Require Import Reals.
Local Open Scope R_scope.

Fixpoint big_sum (n : nat) (h : nat -> R) : R := match n with O => 0 | S k => big_sum k h + h k end.
Fixpoint big_prod (n : nat) (h : nat -> R) : R := match n with O => 1 | S k => big_prod k h * h k end.
Definition entry (v : list R) (i : nat) : R := nth i v 0.

Definition in_box (lo hi v : list R) : Prop :=
  length v = length lo /\ length v = length hi /\ forall i, (i < length v)%nat -> entry lo i <= entry v i <= entry hi i.
(** [opt] is a point of the box with the value [best], and no point of the box has a larger
    value. *)
Record global_max (f : list R -> option (list R)) (lo hi opt : list R) (best : R) : Prop := {
  gm_box : in_box lo hi opt;
  gm_value : f opt = Some [best];
  gm_max : forall v, in_box lo hi v -> exists y, f v = Some [y] /\ y <= best }.
(** It is the only one. *)
Definition only_max (f : list R -> option (list R)) (lo hi opt : list R) (best : R) : Prop :=
  forall v, in_box lo hi v -> f v = Some [best] -> v = opt.

(** [a] is nowhere smaller and somewhere larger than [b]. *)
Definition better (a b : list R) : Prop :=
  length a = length b /\ (forall i, (i < length b)%nat -> entry b i <= entry a i) /\ exists i, (i < length b)%nat /\ entry b i < entry a i.
Definition pareto {X} (f : list X -> option (list R)) (box : list X -> Prop) (v : list X) : Prop :=
  box v /\ exists y, f v = Some y /\ forall w z, box w -> f w = Some z -> ~ better z y.
(** [ideal] bounds the values of the whole box from above, and [nadir] those of the optimal
    points from below. *)
Definition bounded_by_ideal {X} (f : list X -> option (list R)) (box : list X -> Prop) (ideal : list R) : Prop :=
  forall v y, box v -> f v = Some y -> length y = length ideal /\ forall i, (i < length ideal)%nat -> entry y i <= entry ideal i.
Definition bounded_by_nadir {X} (f : list X -> option (list R)) (box : list X -> Prop) (nadir : list R) : Prop :=
  forall v y, pareto f box v -> f v = Some y -> length y = length nadir /\ forall i, (i < length nadir)%nat -> entry nadir i <= entry y i.
(** Every entry of [p] is attained by an optimal point. *)
Definition attained {X} (f : list X -> option (list R)) (box : list X -> Prop) (p : list R) : Prop :=
  forall i, (i < length p)%nat -> exists v y, pareto f box v /\ f v = Some y /\ entry y i = entry p i.
(** The stated optimum is optimal and has the stated value, and the ideal and the nadir point
    are the tight bounds. *)
Definition points_correct {X} (f : list X -> option (list R)) (box : list X -> Prop) (opt : list X) (value ideal nadir : list R) : Prop :=
  pareto f box opt /\ f opt = Some value /\ bounded_by_ideal f box ideal /\ bounded_by_nadir f box nadir /\ attained f box ideal /\ attained f box nadir.
(** The number of true bits. *)
Fixpoint trues (l : list bool) : nat := match l with [] => 0%nat | b :: l => ((if b then 1 else 0) + trues l)%nat end.
