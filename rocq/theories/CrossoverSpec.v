(** Specification of the crossovers, independent of the model functions. *)
From stdpp Require Import list list_numbers sets relations sorting.

(** The two parents are permutations of the same (distinct) genes. *)
Definition same_genes {A} (p1 p2 : list A) : Prop := NoDup p1 /\ p1 ≡ₚ p2.
(** A permutation of 0..n-1. *)
Definition int_perm (n : nat) (p : list nat) : Prop := p ≡ₚ seq 0 n.

(** The genes at the positions [places], read in that order, are [genes]. *)
Definition reads_as {A} (child : list A) (places : list nat) (genes : list A) : Prop :=
  (fun i => child !! i) <$> places = Some <$> genes.
(** The child agrees with the parent on a set of positions. *)
Definition keeps {A} (child parent : list A) (P : nat -> Prop) : Prop := forall i, P i -> child !! i = parent !! i.

(** The elements of [l] that are not in [s], in the order of [l]. *)
Definition without {A} `{EqDecision A} (s l : list A) : list A := filter (fun g => g ∉ s) l.
(** The genes of the segment [first, last). *)
Definition segment {A} (l : list A) (first last : nat) : list A := take (last - first) (drop first l).
(** The list read cyclically from position [k]. *)
Definition rotated {A} (k : nat) (l : list A) : list A := drop k l ++ take k l.

(** order1: the segment of [p1] in place; the other places, from [last] on and
    wrapping around, take the remaining genes in their order in [p2], also read
    cyclically from [last]. *)
Definition order1_spec {A} `{EqDecision A} (p1 p2 child : list A) (first last : nat) : Prop :=
  length child = length p1 /\
  keeps child p1 (fun i => first <= i < last) /\
  reads_as child (seq last (length p1 - last) ++ seq 0 first) (without (segment p1 first last) (rotated last p2)).
(** order2: the segment of [p1] in place; the other places, from left to right, take
    the remaining genes in their order in [p2]. *)
Definition order2_spec {A} `{EqDecision A} (p1 p2 child : list A) (first last : nat) : Prop :=
  length child = length p1 /\
  keeps child p1 (fun i => first <= i < last) /\
  reads_as child (seq 0 first ++ seq last (length p1 - last)) (without (segment p1 first last) p2).
(** position: the chosen positions keep the genes of [p1]; the other places, from left
    to right, take the remaining genes in their order in [p2]. *)
Definition position_spec {A} `{EqDecision A} (p1 p2 child : list A) (idxs : list nat) : Prop :=
  length child = length p1 /\
  keeps child p1 (fun i => i ∈ idxs) /\
  reads_as child (filter (fun i => i ∉ idxs) (seq 0 (length p1)))
    (without (omap (fun i => p1 !! i) idxs) p2).

(** Each position of the children has the two parents' genes of that position;
    [sw] says where they are swapped. *)
Definition mixed {A} (p1 p2 : list A) (c : list A * list A) (sw : nat -> bool) : Prop :=
  forall i, c.1 !! i = (if sw i then p2 !! i else p1 !! i) /\ c.2 !! i = (if sw i then p1 !! i else p2 !! i).

(** cycle: positions [i] and [j] are adjacent on a cycle if [p2] has at [i] the gene
    that [p1] has at [j]; the choice is the same for both. *)
Definition cycle_spec {A} (p1 p2 : list A) (c : list A * list A) : Prop :=
  exists sw, mixed p1 p2 c sw /\ forall i j g, p2 !! i = Some g -> p1 !! j = Some g -> sw i = sw j.

Definition pmx_spec {A} (p1 p2 child : list A) (first last : nat) : Prop :=
  keeps child p1 (fun i => first <= i < last) /\
  keeps child p2 (fun i => ~ (first <= i < last) /\ forall g, p2 !! i = Some g -> g ∉ segment p1 first last).

(** The number of crossover points at or before position [i]. *)
Definition points_upto (pts : list nat) (i : nat) : nat := length (filter (fun p => p <= i) pts).

(** Positions on the same cycle; the cycles in the order of their first positions. *)
Definition cycle_link {A} (p1 p2 : list A) (i j : nat) : Prop := exists g, p2 !! i = Some g /\ p1 !! j = Some g.
Definition same_cycle {A} (p1 p2 : list A) : nat -> nat -> Prop := rtsc (cycle_link p1 p2).
Definition cycle_starts {A} (p1 p2 : list A) (starts : list nat) : Prop :=
  StronglySorted lt starts /\ forall k, k ∈ starts <-> k < length p1 /\ forall j, same_cycle p1 p2 k j -> k <= j.
(** The genes of every second cycle are exchanged. *)
Definition cycle_alternates {A} (p1 p2 : list A) (c : list A * list A) : Prop :=
  exists starts sw, cycle_starts p1 p2 starts /\ mixed p1 p2 c sw /\
    forall m k i, starts !! m = Some k -> same_cycle p1 p2 k i -> sw i = Nat.odd m.

(** Edges: genes next to each other in one of the parents. *)
Definition adjacent {A} (c : list A) (x y : A) : Prop :=
  exists i, (c !! i = Some x /\ c !! S i = Some y) \/ (c !! i = Some y /\ c !! S i = Some x).
Definition edge_of {A} (p1 p2 : list A) (x y : A) : Prop := adjacent p1 x y \/ adjacent p2 x y.
(** [k] genes outside of [used] are joined to [v] by an edge. *)
Definition free_degree {A} (p1 p2 used : list A) (v : A) (k : nat) : Prop :=
  exists l, NoDup l /\ length l = k /\ forall u, u ∈ l <-> edge_of p1 p2 v u /\ u ∉ used.
(** After the genes [used], which end with [l], edge crossover adds [y]: one with the fewest
    edges to unused genes among the default [d] and the unused genes joined to [l]; if it is
    not joined to [l] it has fewer than all of them. *)
Definition edge_choice {A} (p1 p2 used : list A) (l d y : A) : Prop :=
  let cand := fun v => edge_of p1 p2 l v /\ v ∉ used in
  (cand y \/ y = d) /\ d ∉ used /\
  exists j, free_degree p1 p2 used y j /\
    forall v, cand v \/ v = d -> exists k, free_degree p1 p2 used v k /\ j <= k /\ (cand v -> ~ cand y -> j < k).
(** Every gene of the child is chosen that way; [dflt] says which gene is the default. *)
Definition edge_greedy {A} (dflt : list A -> A -> Prop) (p1 p2 c : list A) : Prop :=
  c !! 0 = p1 !! 0 /\
  forall k y, c !! S k = Some y -> exists l d, c !! k = Some l /\ dflt (take (S k) c) d /\ edge_choice p1 p2 (take (S k) c) l d y.
(** The defaults: the first unused gene of the parent, the smallest unused gene. *)
Definition first_unused {A} (p used : list A) (d : A) : Prop := exists a b, p = a ++ d :: b /\ (forall x, x ∈ a -> x ∈ used) /\ d ∉ used.
Definition least_unused (used : list nat) (d : nat) : Prop := d ∉ used /\ forall x, x < d -> x ∈ used.
