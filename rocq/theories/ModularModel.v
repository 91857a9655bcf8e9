(** The integer helpers of utility/utility.hpp: range_length, next_mod, prev_mod, increment_mod, decrement_mod.
    [None] is a violated assertion, or the overflow of a signed type. *)
From stdpp Require Import prelude.
From Coq Require Import ZArith.
Local Open Scope Z_scope.

(** std::integral types, by their signedness and width; bool is the unsigned type of width 1.  int has 32 bits. *)
Record int_type := IntType { signed : bool; width : Z }.
Definition lowest (t : int_type) : Z := if signed t then - 2 ^ (width t - 1) else 0.
Definition highest (t : int_type) : Z := if signed t then 2 ^ (width t - 1) - 1 else 2 ^ width t - 1.
(** Integral promotion, and the type of value + 1 and value - 1. *)
Definition promoted (t : int_type) : int_type := if width t <? 32 then IntType true 32 else t.
(** The result of an operation in type t; the conversion to type t. *)
Definition arith (t : int_type) (z : Z) : option Z :=
  if signed t then if (lowest t <=? z) && (z <=? highest t) then Some z else None else Some (z mod 2 ^ width t).
Definition convert (t : int_type) (z : Z) : Z := (z - lowest t) mod 2 ^ width t + lowest t.
Definition uint64 : int_type := IntType false 64.

(** utility.hpp 160-166. *)
Definition range_length (low high : Z) : option Z :=
  if low <=? high then arith uint64 (convert uint64 high - convert uint64 low) else None.
(** utility.hpp 168-175 and 177-184; increment_mod and decrement_mod (186-196) store the results. *)
Definition valid (value m : Z) : bool := (0 <? m) && (0 <=? value) && (value <? m).
Definition next_mod (t : int_type) (value m : Z) : option Z :=
  if valid value m then
    s ← arith (promoted t) (value + 1);
    if s =? m then Some 0 else (s' ← arith (promoted t) (value + 1); Some (convert t s'))
  else None.
Definition prev_mod (t : int_type) (value m : Z) : option Z :=
  if valid value m then
    if value =? 0 then s ← arith (promoted t) (m - 1); Some (convert t s)
    else s ← arith (promoted t) (value - 1); Some (convert t s)
  else None.
(** n calls of increment_mod or decrement_mod. *)
Fixpoint repeat_mod (f : Z -> Z -> option Z) (n : nat) (value m : Z) : option Z :=
  match n with O => Some value | S n => v ← f value m; repeat_mod f n v m end.
