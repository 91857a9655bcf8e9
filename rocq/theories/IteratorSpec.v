(** What a random access iterator is (C++ named requirement LegacyRandomAccessIterator): every valid
    iterator has a position in its range, and the operators do with the iterators what they should do with the
    positions. *)
From Coq Require Import ZArith.
From stdpp Require Import list list_numbers.
From Verif Require Import IteratorModel.
Local Open Scope Z_scope.

(** The valid iterators, which belong to the same range, their positions, and the positions of the first and of
    the past-the-end element of the range. *)
Record view (I : Type) := View { valid : I -> Prop; same : I -> I -> Prop; pos : I -> Z; lo : I -> Z; hi : I -> Z }.
Arguments valid {I}. Arguments same {I}. Arguments pos {I}. Arguments lo {I}. Arguments hi {I}.

(** [r] is the valid iterator of the same range [d] further on. *)
Definition moved {I} (v : view I) (it : I) (d : Z) (r : option I) : Prop :=
  exists it', r = Some it' /\ valid v it' /\ same v it it' /\ pos v it' = pos v it + d.
(** The numbers of type difference_type that can be negated. *)
Definition is_diff (n : Z) : Prop := - 2 ^ 63 < n < 2 ^ 63.

(** Everything but the difference of iterators. *)
Record random_access_moves {I} (o : iter_ops I) (v : view I) : Prop := {
  ra_range : forall a b, valid v a -> lo v a <= pos v a <= hi v a /\ (same v a b -> lo v a = lo v b /\ hi v a = hi v b);
  ra_eq : forall a b, valid v a -> valid v b -> same v a b -> exists t, op_eq o a b = Some t /\ (t = true <-> pos v a = pos v b);
  ra_lt : forall a b, valid v a -> valid v b -> same v a b -> exists t, op_lt o a b = Some t /\ (t = true <-> pos v a < pos v b);
  ra_increment : forall a, valid v a -> (pos v a < hi v a -> moved v a 1 (op_increment o a)) /\ (pos v a = hi v a -> op_increment o a = None);
  ra_decrement : forall a, valid v a -> (lo v a < pos v a -> moved v a (-1) (op_decrement o a)) /\ (pos v a = lo v a -> op_decrement o a = None);
  ra_add : forall a n, valid v a -> is_diff n -> lo v a <= pos v a + n <= hi v a -> moved v a n (op_add o a n);
  ra_add_low : forall a n, valid v a -> is_diff n -> pos v a + n < lo v a -> op_add o a n = None }.
(** No iterator is moved beyond the end. *)
Definition add_checked {I} (o : iter_ops I) (v : view I) : Prop :=
  forall a n, valid v a -> is_diff n -> hi v a < pos v a + n -> op_add o a n = None.
(** The difference of two iterators. *)
Definition difference {I} (o : iter_ops I) (v : view I) : Prop :=
  forall a b, valid v a -> valid v b -> same v a b -> is_diff (pos v a - pos v b) -> op_diff o a b = Some (pos v a - pos v b).
