(** Model of the iterators of /repo/src/utility/iterators.hpp: stable_iterator and iota_iterator
    with the operators of the iterator interfaces they inherit, and container_interface.

    A std::size_t is a [Z] in [0, 2^64), a difference_type (std::ptrdiff_t) a [Z] in [-2^63, 2^63).
    [None] is a violated GAPP_ASSERT or undefined behaviour (negating the least ptrdiff_t).  A
    container is a number (its address); [len] gives the current size of each, [get] its elements.
    Simplified: only T = std::size_t for iota_iterator and std::ptrdiff_t as Distance; the constness of the
    iterators is not modelled. *)
From Coq Require Import ZArith.
From stdpp Require Import list list_numbers.
Local Open Scope Z_scope.

(** Conversions between the 64 bit types. *)
Definition to_size (z : Z) : Z := z `mod` 2 ^ 64.
Definition to_diff (z : Z) : Z := (z + 2 ^ 63) `mod` 2 ^ 64 - 2 ^ 63.
Definition diff_max : Z := 2 ^ 63 - 1.
Definition size_max : Z := 2 ^ 64 - 1.
(** Unary minus of a ptrdiff_t. *)
Definition neg (n : Z) : option Z := if decide (n = - 2 ^ 63) then None else Some (- n).

(** What the interfaces need of a derived iterator, iterators.hpp 245-254. *)
Record iter_ops (I : Type) := IterOps {
  op_eq : I -> I -> option bool;
  op_lt : I -> I -> option bool;
  op_increment : I -> option I;
  op_decrement : I -> option I;
  op_add : I -> Z -> option I;
  op_diff : I -> I -> option Z }.
Arguments op_eq {I}. Arguments op_lt {I}. Arguments op_increment {I}.
Arguments op_decrement {I}. Arguments op_add {I}. Arguments op_diff {I}.

Section Interface.
Context {I : Type} (o : iter_ops I).

(** The postfix operators, iterators.hpp 185-190, 235-240: the old value and the new iterator. *)
Definition op_post_increment (it : I) : option (I * I) := it' ← op_increment o it; Some (it, it').
Definition op_post_decrement (it : I) : option (I * I) := it' ← op_decrement o it; Some (it, it').
(** iterators.hpp 263-265. *)
Definition op_gt (a b : I) : option bool := op_lt o b a.
Definition op_le (a b : I) : option bool := negb <$> op_lt o b a.
Definition op_ge (a b : I) : option bool := negb <$> op_lt o a b.
(** iterators.hpp 267-271. *)
Definition op_plus (it : I) (n : Z) : option I := op_add o it n.
Definition op_sub (it : I) (n : Z) : option I := m ← neg n; op_add o it m.
(** iterators.hpp 273; [deref] is the dereference operator. *)
Definition op_index {A} (deref : I -> option A) (it : I) (n : Z) : option A := it' ← op_plus it n; deref it'.

(** The loop  while (first != last) f( *first++ )  over a range, as in execute_loop (thread_pool.hpp 62-66)
    and std::for_each; the values f is applied to. *)
Fixpoint walk {A} (deref : I -> option A) (fuel : nat) (first last : I) : option (list A) :=
  match fuel with
  | O => None
  | S fuel =>
      b ← op_eq o first last;
      if (b : bool) then Some []
      else p ← op_post_increment first; x ← deref (fst p); xs ← walk deref fuel (snd p) last; Some (x :: xs)
  end.
End Interface.

Section Stable.
Context (len : nat -> Z).

(** stable_iterator_base, iterators.hpp 327-334, 411-413. *)
Record stable := Stable { sdata : option nat; sidx : Z }.
Definition stable_default : stable := Stable None 0.
(** iterators.hpp 336-340. *)
Definition stable_at (c : nat) (i : Z) : option stable := if decide (i <= len c) then Some (Stable (Some c) i) else None.

(** The assertions on one operand of == and < , iterators.hpp 353-354, 362-363. *)
Definition comparable (it : stable) : bool :=
  match sdata it with None => true | Some c => bool_decide (sidx it <= len c) end.
(** iterators.hpp 350-357, 359-366. *)
Definition stable_eq (a b : stable) : option bool :=
  if decide (sdata a = sdata b) then
    if comparable a && comparable b then Some (bool_decide (sidx a = sidx b)) else None
  else None.
Definition stable_lt (a b : stable) : option bool :=
  if decide (sdata a = sdata b) then
    if comparable a && comparable b then Some (bool_decide (sidx a < sidx b)) else None
  else None.
(** iterators.hpp 368-375, 377-384. *)
Definition stable_increment (it : stable) : option stable :=
  c ← sdata it; if decide (sidx it = len c) then None else Some (Stable (Some c) (to_size (sidx it + 1))).
Definition stable_decrement (it : stable) : option stable :=
  c ← sdata it; if decide (sidx it = 0) then None else Some (Stable (Some c) (to_size (sidx it - 1))).
(** operator+=, iterators.hpp 386-394: in data_->size() - n and idx_ += n the operand n is converted
    to size_t. *)
Definition stable_add (it : stable) (n : Z) : option stable :=
  c ← sdata it;
  if decide (n < 0) then
    m ← neg n;
    if decide (to_size m <= sidx it) then Some (Stable (Some c) (to_size (sidx it + to_size n))) else None
  else if decide (0 < n) then
    if decide (sidx it <= to_size (len c - to_size n)) then Some (Stable (Some c) (to_size (sidx it + to_size n))) else None
  else Some (Stable (Some c) (to_size (sidx it + to_size n))).
(** operator-, iterators.hpp 396-410. *)
Definition stable_diff (a b : stable) : option Z :=
  ca ← sdata a; cb ← sdata b;
  if decide (ca = cb /\ sidx a <= len ca /\ sidx b <= len cb) then
    let distance := if decide (sidx b <= sidx a) then to_size (sidx a - sidx b) else to_size (sidx b - sidx a) in
    if decide (distance <= diff_max) then Some (to_diff distance) else None
  else None.
Definition stable_ops : iter_ops stable := IterOps stable stable_eq stable_lt stable_increment stable_decrement stable_add stable_diff.

(** The dereference operator, iterators.hpp 342-348; [get] is the operator[] of the container. *)
Definition stable_deref {A} (get : nat -> list A) (it : stable) : option A :=
  c ← sdata it; if decide (sidx it < len c) then get c !! Z.to_nat (sidx it) else None.
(** stable_begin and stable_end, iterators.hpp 450-484. *)
Definition stable_begin (c : nat) : option stable := stable_at c 0.
Definition stable_end (c : nat) : option stable := stable_at c (len c).

(** container_interface over these iterators, iterators.hpp 78-150 (std::distance(a, b) is b - a, and
    std::next(it, n) and std::prev(it) are it += n and it -= 1 for random access iterators). *)
Definition ci_size (c : nat) : option Z := f ← stable_begin c; l ← stable_end c; d ← stable_diff l f; Some (to_size d).
Definition ci_empty (c : nat) : option bool := f ← stable_begin c; l ← stable_end c; stable_eq f l.
Definition ci_front {A} (get : nat -> list A) (c : nat) : option A := f ← stable_begin c; stable_deref get f.
Definition ci_back {A} (get : nat -> list A) (c : nat) : option A :=
  l ← stable_end c; p ← op_sub stable_ops l 1; stable_deref get p.
Definition ci_index {A} (get : nat -> list A) (c : nat) (i : Z) : option A :=
  n ← ci_size c; if decide (i < n) then f ← stable_begin c; p ← stable_add f (to_diff i); stable_deref get p else None.
(** at: [Some None] is the exception std::out_of_range. *)
Definition ci_at {A} (get : nat -> list A) (c : nat) (i : Z) : option (option A) :=
  n ← ci_size c; if decide (n <= i) then Some None else f ← stable_begin c; p ← stable_add f (to_diff i); x ← stable_deref get p; Some (Some x).
End Stable.

(** iota_iterator<std::size_t>, iterators.hpp 490-556. *)
Definition iota := Z.
Definition iota_deref (it : iota) : option Z := Some it.
Definition iota_eq (a b : iota) : option bool := Some (bool_decide (a = b)).
Definition iota_lt (a b : iota) : option bool := Some (bool_decide (a < b)).
Definition iota_increment (it : iota) : option iota := if decide (it = size_max) then None else Some (to_size (it + 1)).
Definition iota_decrement (it : iota) : option iota := if decide (it = 0) then None else Some (to_size (it - 1)).
(** iterators.hpp 538-545. *)
Definition iota_add (it : iota) (n : Z) : option iota :=
  if decide (n < 0) then
    m ← neg n; if decide (to_size m <= it) then Some (to_size (it + to_size n)) else None
  else if decide (0 < n) then
    if decide (it <= to_size (size_max - to_size n)) then Some (to_size (it + to_size n)) else None
  else Some (to_size (it + to_size n)).
(** iterators.hpp 547-550. *)
Definition iota_diff (a b : iota) : option Z :=
  if decide (b <= a) then Some (to_diff (to_size (a - b))) else neg (to_diff (to_size (b - a))).
Definition iota_ops : iter_ops iota := IterOps iota iota_eq iota_lt iota_increment iota_decrement iota_add iota_diff.
