(** The allocator traffic of circular_buffer::set_capacity and reset when an
    element operation or the allocation itself throws.
    /repo/src/utility/circular_buffer.hpp 276-289, 298-305, 359-364.
    Simplified: only the allocate/deallocate calls are recorded (block id and
    element count), which is what leak / double free is about. *)
From stdpp Require Import list.

Inductive event := Alloc (id n : nat) | Dealloc (id n : nat).

(** The part of the object that owns memory: buffer_ (block id, or None for
    nullptr), capacity_, size_. *)
Record owner := Owner { block : option nat; ocap : nat; osize : nat }.

(** circular_buffer.hpp 50-54. *)
Definition construct (id cap size : nat) : list event * owner :=
  ([Alloc id cap], Owner (Some id) cap size).

(** circular_buffer.hpp 86-89, 359-364: ~circular_buffer -> destroy(). *)
Definition destructor (o : owner) : list event :=
  match block o with Some id => [Dealloc id (ocap o)] | None => [] end.

(** deallocate(alloc_, buffer_, n); deallocating nullptr is not recorded. *)
Definition dealloc (b : option nat) (n : nat) : list event :=
  match b with Some id => [Dealloc id n] | None => [] end.

(** circular_buffer.hpp 276-289.  [throws_at = Some k]: the k-th element
    transfer of uninitialized_copy_n throws.  Then the scope_exit guard of line
    281 runs: it deallocates [buffer_] (the old block) with [new_capacity], the
    exception propagates and the members are unchanged. *)
Definition set_capacity (o : owner) (new_id new_capacity : nat) (throws_at : option nat) : list event * owner :=
  if Nat.eqb new_capacity (ocap o) then ([], o)
  else
    let new_size := Nat.min new_capacity (osize o) in
    match throws_at with
    | Some k =>
        if Nat.ltb k new_size
        then (Alloc new_id new_capacity :: dealloc (block o) new_capacity, o)
        else (Alloc new_id new_capacity :: dealloc (block o) (ocap o), Owner (Some new_id) new_capacity new_size)
    | None => (Alloc new_id new_capacity :: dealloc (block o) (ocap o), Owner (Some new_id) new_capacity new_size)
    end.

(** circular_buffer.hpp 298-305.  [alloc_throws]: the allocation of line 303
    throws bad_alloc; line 302 has already released the old block. *)
Definition reset (o : owner) (new_id new_capacity : nat) (alloc_throws : bool) : list event * owner :=
  if Nat.eqb new_capacity (ocap o) then ([], Owner (block o) (ocap o) 0)
  else if alloc_throws then (dealloc (block o) (ocap o), Owner (block o) (ocap o) 0)
  else (dealloc (block o) (ocap o) ++ [Alloc new_id new_capacity], Owner (Some new_id) new_capacity 0).

(** Specification of correct allocator use: every deallocation releases a
    live block with the size it was allocated with, ids of live blocks are
    distinct, and nothing is left at the end. *)
Fixpoint replay (live : list (nat * nat)) (tr : list event) : option (list (nat * nat)) :=
  match tr with
  | [] => Some live
  | Alloc id n :: tr => if decide (id ∈ live.*1) then None else replay ((id, n) :: live) tr
  | Dealloc id n :: tr => if decide ((id, n) ∈ live) then replay (filter (fun p => p <> (id, n)) live) tr else None
  end.
Definition balanced (tr : list event) : Prop := replay [] tr = Some [].

(** One buffer's life: construct, one set_capacity, destructor. *)
Definition life_set_capacity (cap size new_capacity : nat) (throws_at : option nat) : list event :=
  let (t1, o1) := construct 0 cap size in
  let (t2, o2) := set_capacity o1 1 new_capacity throws_at in
  t1 ++ t2 ++ destructor o2.

Definition life_reset (cap size new_capacity : nat) (alloc_throws : bool) : list event :=
  let (t1, o1) := construct 0 cap size in
  let (t2, o2) := reset o1 1 new_capacity alloc_throws in
  t1 ++ t2 ++ destructor o2.
