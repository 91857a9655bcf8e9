(** Model of gapp::detail::circular_buffer, /repo/src/utility/circular_buffer.hpp.

    The storage is a list of slots; a slot is [None] (raw memory) or [Some v]
    (a live object).  Constructing over a live object, destroying or assigning
    raw memory, an index outside the storage, and a violated GAPP_ASSERT are all
    the outcome [None] of an operation ("undefined behaviour / assertion").
    Simplified: the allocator never over-allocates ([capacity_] is exactly the
    requested one, as in the code, which ignores alloc_result.size), and indices
    are unbounded naturals. *)
From stdpp Require Import list.

Section CircularBuffer.
Context {T : Type}.

(** circular_buffer.hpp 337-340: buffer_, first_, size_, capacity_. *)
Record cbuf := CBuf { slots : list (option T); first : nat; size : nat; capacity : nat }.

(** construct on an address: circular_buffer.hpp 233, 253 (detail::construct). *)
Definition construct_at (i : nat) (v : T) (s : list (option T)) : option (list (option T)) :=
  match s !! i with Some None => Some (<[i := Some v]> s) | _ => None end.

(** destroy on an address: circular_buffer.hpp 264, 272, 293 (detail::destroy). *)
Definition destroy_at (i : nat) (s : list (option T)) : option (list (option T)) :=
  match s !! i with Some (Some _) => Some (<[i := None]> s) | _ => None end.

(** move assignment to an existing element: circular_buffer.hpp 227, 248. *)
Definition assign_at (i : nat) (v : T) (s : list (option T)) : option (list (option T)) :=
  match s !! i with Some (Some _) => Some (<[i := Some v]> s) | _ => None end.

(** utility.hpp 169-175 (next_mod) through circular_buffer.hpp 343-346. *)
Definition next_idx (b : cbuf) (i : nat) : nat :=
  if decide (i + 1 = capacity b) then 0 else i + 1.

(** utility.hpp 178-184 (prev_mod) through circular_buffer.hpp 348-351. *)
Definition prev_idx (b : cbuf) (i : nat) : nat :=
  if decide (i = 0) then capacity b - 1 else i - 1.

(** circular_buffer.hpp 353-357: pointer_to, as an offset into the storage. *)
Definition index_of_pos (b : cbuf) (pos : nat) : nat :=
  let idx := first b + pos in
  if decide (capacity b <= idx) then idx - capacity b else idx.

(** circular_buffer.hpp 131-132. *)
Definition is_empty (b : cbuf) : bool := Nat.eqb (size b) 0.
Definition is_full (b : cbuf) : bool := Nat.eqb (size b) (capacity b).

(** circular_buffer.hpp 138-148: operator[]; [None] = assertion or dead object. *)
Definition get (b : cbuf) (pos : nat) : option T :=
  if decide (pos < size b) then mjoin (slots b !! index_of_pos b pos) else None.

(** circular_buffer.hpp 162-172 front(), 174-184 back(). *)
Definition get_front (b : cbuf) : option T :=
  if is_empty b then None else mjoin (slots b !! first b).
Definition get_back (b : cbuf) : option T :=
  if is_empty b then None else get b (size b - 1).

(** circular_buffer.hpp 46-54: the empty buffer of a given capacity. *)
Definition new (cap : nat) : cbuf := CBuf (replicate cap None) 0 0 cap.

(** circular_buffer.hpp 219-236 emplace_back (190-202 push_back forwards to it). *)
Definition emplace_back (b : cbuf) (v : T) : option cbuf :=
  if Nat.eqb (capacity b) 0 then None
  else if is_full b then
    s ← assign_at (first b) v (slots b);
    Some (CBuf s (next_idx b (first b)) (size b) (capacity b))
  else
    s ← construct_at (index_of_pos b (size b)) v (slots b);
    Some (CBuf s (first b) (size b + 1) (capacity b)).

(** circular_buffer.hpp 239-259 emplace_front (204-216 push_front forwards to it). *)
Definition emplace_front (b : cbuf) (v : T) : option cbuf :=
  if Nat.eqb (capacity b) 0 then None
  else
    let new_first := prev_idx b (first b) in
    if is_full b then
      s ← assign_at new_first v (slots b);
      Some (CBuf s new_first (size b) (capacity b))
    else
      s ← construct_at new_first v (slots b);
      Some (CBuf s new_first (size b + 1) (capacity b)).

(** circular_buffer.hpp 261-267. *)
Definition pop_front (b : cbuf) : option cbuf :=
  if is_empty b then None
  else
    s ← destroy_at (first b) (slots b);
    Some (CBuf s (next_idx b (first b)) (size b - 1) (capacity b)).

(** circular_buffer.hpp 269-274. *)
Definition pop_back (b : cbuf) : option cbuf :=
  if is_empty b then None
  else
    s ← destroy_at (index_of_pos b (size b - 1)) (slots b);
    Some (CBuf s (first b) (size b - 1) (capacity b)).

(** The loop of circular_buffer.hpp 293: destroy the elements at the positions
    [ps] in turn. *)
Fixpoint destroy_positions (b : cbuf) (ps : list nat) (s : list (option T)) : option (list (option T)) :=
  match ps with
  | [] => Some s
  | p :: ps => s ← destroy_at (index_of_pos b p) s; destroy_positions b ps s
  end.

(** circular_buffer.hpp 291-296. *)
Definition clear (b : cbuf) : option cbuf :=
  s ← destroy_positions b (seq 0 (size b)) (slots b);
  Some (CBuf s 0 0 (capacity b)).

(** circular_buffer.hpp 298-305.  After clear() every slot is raw, so the
    storage is released and a fresh one is allocated. *)
Definition reset (b : cbuf) (new_capacity : nat) : option cbuf :=
  b ← clear b;
  if Nat.eqb new_capacity (capacity b) then Some b
  else Some (CBuf (replicate new_capacity None) (first b) (size b) new_capacity).

(** uninitialized_copy_n, circular_buffer.hpp 283: read position p of the old
    buffer and construct slot p of the new one, for p = 0 .. n-1. *)
Fixpoint copy_positions (b : cbuf) (ps : list nat) (s : list (option T)) : option (list (option T)) :=
  match ps with
  | [] => Some s
  | p :: ps => v ← get b p; s ← construct_at p v s; copy_positions b ps s
  end.

(** circular_buffer.hpp 276-289 (no exception; see [CircularBufferExnModel] for
    the exceptional path).  destroy() (359-364) runs clear(). *)
Definition set_capacity (b : cbuf) (new_capacity : nat) : option cbuf :=
  if Nat.eqb new_capacity (capacity b) then Some b
  else
    let new_size := Nat.min new_capacity (size b) in
    s ← copy_positions b (seq 0 new_size) (replicate new_capacity None);
    b' ← clear b;
    Some (CBuf s (first b') new_size new_capacity).

(** circular_buffer.hpp 57-67: construction from a range keeps the last
    [min capacity length] elements. *)
Definition from_range (cap : nat) (l : list T) : cbuf :=
  let n := Nat.min cap (length l) in
  CBuf (map Some (drop (length l - n) l) ++ replicate (cap - n) None) 0 n cap.

(** circular_buffer.hpp 73-75: copy construction goes through the range
    constructor, reading the other buffer through its iterators. *)
Definition elements (b : cbuf) : list (option T) := map (get b) (seq 0 (size b)).

(** std::equal of the two iterator ranges, circular_buffer.hpp 326-329.
    [None] if a dead object is read. *)
Fixpoint equal_lists (eqb : T -> T -> bool) (l r : list (option T)) : option bool :=
  match l, r with
  | [], [] => Some true
  | Some x :: l, Some y :: r => if eqb x y then equal_lists eqb l r else Some false
  | [], _ :: _ | _ :: _, [] => Some false
  | _, _ => None
  end.
Definition cb_eqb (eqb : T -> T -> bool) (a b : cbuf) : option bool :=
  (* std::equal on random access iterators first compares the distances *)
  if Nat.eqb (size a) (size b) then equal_lists eqb (elements a) (elements b) else Some false.

(** circular_buffer.hpp 190-305: the mutating operations of the public API. *)
Inductive op := PushBack (v : T) | PushFront (v : T) | PopFront | PopBack
              | Clear | Reset (n : nat) | SetCapacity (n : nat).

Definition step (b : cbuf) (o : op) : option cbuf :=
  match o with
  | PushBack v => emplace_back b v
  | PushFront v => emplace_front b v
  | PopFront => pop_front b
  | PopBack => pop_back b
  | Clear => clear b
  | Reset n => reset b n
  | SetCapacity n => set_capacity b n
  end.

Fixpoint run (b : cbuf) (os : list op) : option cbuf :=
  match os with
  | [] => Some b
  | o :: os => b ← step b o; run b os
  end.

End CircularBuffer.
Arguments cbuf : clear implicits.
Arguments op : clear implicits.
