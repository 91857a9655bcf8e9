(** Specification vocabulary for the sequence algorithms. *)
From stdpp Require Import list list_numbers.

(** All elements before some point are "less than the value", none after it is. *)
Definition partitioned {A} (p : A -> bool) (l : list A) : Prop :=
  forall i j x y, i < j -> l !! i = Some x -> l !! j = Some y -> p x = false -> p y = false.

(** [i] is the first position whose element fails [p]; the length if there is none. *)
Definition first_failing {A} (p : A -> bool) (l : list A) (i : nat) : Prop :=
  i <= length l /\ (forall j x, j < i -> l !! j = Some x -> p x = true) /\
  (forall x, l !! i = Some x -> p x = false).

(** [is] is a permutation of the positions of [l]. *)
Definition index_perm {A} (l : list A) (is : list nat) : Prop := is ≡ₚ seq 0 (length l).

(** Reading [l] through [is] never meets a strictly smaller element later, for
    the first [k] positions. *)
Definition ordered_through {A} (lt : A -> A -> bool) (k : nat) (l : list A) (is : list nat) : Prop :=
  forall a b i j x y, a < k -> a < b -> is !! a = Some i -> is !! b = Some j ->
    l !! i = Some x -> l !! j = Some y -> lt y x = false.

(** [i] is the first position of a maximal element. *)
Definition first_max {B} (lt : B -> B -> bool) (l : list B) (i : nat) : Prop :=
  exists x, l !! i = Some x /\ (forall j y, l !! j = Some y -> lt x y = false) /\
            (forall j y, j < i -> l !! j = Some y -> lt y x = true).
(** [i] is the last position of a maximal element. *)
Definition last_max {B} (lt : B -> B -> bool) (l : list B) (i : nat) : Prop :=
  exists x, l !! i = Some x /\ (forall j y, l !! j = Some y -> lt x y = false) /\
            (forall j y, i < j -> l !! j = Some y -> lt y x = true).

(** Valid results of k draws for a shuffle of n elements. *)
Definition valid_draws (n : nat) (draws : list nat) : Prop :=
  length draws <= n /\ forall i d, draws !! i = Some d -> d < n - i.
