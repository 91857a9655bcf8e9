(** utility/bounded_value.hpp: a value that lies in an interval. *)
From Coq Require Import ZArith Bool.
From Verif Require Import FloatBase.

Section bounded.
  (** The comparison operators of the value type: operator< and operator== (a > b is b < a). *)
  Context {T : Type} (lt eq : T -> T -> bool).
  (** detail::Interval, bounded_value.hpp 12-30. *)
  Record interval := Interval { left_ : T; right_ : T; left_inclusive_ : bool; right_inclusive_ : bool }.
  (** Interval::contains, bounded_value.hpp 19-24. *)
  Definition contains (I : interval) (value : T) : bool :=
    if lt value (left_ I) || (negb (left_inclusive_ I) && eq value (left_ I)) then false
    else if lt (right_ I) value || (negb (right_inclusive_ I) && eq value (right_ I)) then false
    else true.
  (** The constructor of detail::BoundedValue, bounded_value.hpp 39-43; None is a failed assertion. The
      conversion back (45) returns the value. *)
  Definition bounded_value (I : interval) (value : T) : option T := if contains I value then Some value else None.
End bounded.
Arguments interval : clear implicits.
Arguments Interval {T}.

Definition double_value : interval b64 -> b64 -> option b64 := bounded_value flt feq.
Definition int_value : interval Z -> Z -> option Z := bounded_value Z.ltb Z.eqb.

(** The aliases, bounded_value.hpp 61-84: NonNegative, Negative, Positive, Probability (and Normalized) of
    double, and NonNegative, Positive of size_t. *)
Definition fone : b64 := fmk 1 0.
Definition NonNegative_double : interval b64 := Interval fzero flarge true true.
Definition Negative_double : interval b64 := Interval (fneg flarge) fzero true false.
Definition Positive_double : interval b64 := Interval fzero flarge false true.
Definition Probability : interval b64 := Interval fzero fone true true.
Definition size_max : Z := 2 ^ 64 - 1.
Definition NonNegative_size : interval Z := Interval 0%Z size_max true true.
Definition Positive_size : interval Z := Interval 0%Z size_max false true.
