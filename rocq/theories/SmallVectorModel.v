(** Model of gapp::small_vector, /repo/src/utility/small_vector.hpp.

    Storage is modelled cell by cell: a cell is raw memory or holds a live object.
    Constructing over a live object, destroying or reading raw memory, writing out
    of bounds, or releasing a block that still holds live objects returns [None].
    [triv] says whether the element type is trivially destructible (then
    detail::destroy does nothing, lines 116-122, and storage may be reused without
    a destructor call).  A moved-from object is live and has the value [mv].

    Simplified: no exceptions (the scope guards are not modelled), no custom
    allocator (allocators compare equal; allocate returns exactly the requested
    size), max_size() unbounded in next_capacity, relocation always moves
    (move_if_noexcept may copy, the source is destroyed right after), arguments
    are values, so references into the vector itself are not modelled. *)
From stdpp Require Import list list_numbers.

Section SmallVector.
Context {T : Type}.
Variables (triv : bool) (mv : T) (N : nat).

Inductive cell := Raw | Live (x : T).
Notation mem := (list cell).

(** ** Primitives on cells, small_vector.hpp 114-160. *)
Definition construct (m : mem) (i : nat) (x : T) : option mem :=
  match m !! i with
  | Some Raw => Some (<[i := Live x]> m)
  | Some (Live _) => if triv then Some (<[i := Live x]> m) else None
  | None => None
  end.
Definition destroy (m : mem) (i : nat) : option mem :=
  if triv then Some m
  else match m !! i with Some (Live _) => Some (<[i := Raw]> m) | _ => None end.
Definition read (m : mem) (i : nat) : option T :=
  match m !! i with Some (Live x) => Some x | _ => None end.
(** *p = value, which needs a live object at p. *)
Definition write (m : mem) (i : nat) (x : T) : option mem :=
  match m !! i with Some (Live _) => Some (<[i := Live x]> m) | _ => None end.

(** construct_range, small_vector.hpp 170-219, with the values to construct. *)
Fixpoint construct_list (m : mem) (i : nat) (xs : list T) : option mem :=
  match xs with [] => Some m | x :: xs => m ← construct m i x; construct_list m (S i) xs end.
(** destroy_range, small_vector.hpp 163-167. *)
Fixpoint destroy_range (m : mem) (i n : nat) : option mem :=
  match n with 0 => Some m | S n => m ← destroy m i; destroy_range m (S i) n end.
(** assign_range, small_vector.hpp 263-275. *)
Fixpoint write_list (m : mem) (i : nat) (xs : list T) : option mem :=
  match xs with [] => Some m | x :: xs => m ← write m i x; write_list m (S i) xs end.
(** Reading n objects. *)
Fixpoint read_list (m : mem) (i n : nat) : option (list T) :=
  match n with 0 => Some [] | S n => x ← read m i; xs ← read_list m (S i) n; Some (x :: xs) end.
(** Moving n objects out: they stay live with the moved-from value. *)
Fixpoint take_out (m : mem) (i n : nat) : option (mem * list T) :=
  match n with
  | 0 => Some (m, [])
  | S n => x ← read m i; m ← write m i mv; '(m, xs) ← take_out m (S i) n; Some (m, x :: xs)
  end.
(** relocate_range_strong / weak, small_vector.hpp 222-259, between two blocks. *)
Definition relocate (src : mem) (i n : nat) (dst : mem) (j : nat) : option (mem * mem) :=
  '(src, xs) ← take_out src i n; dst ← construct_list dst j xs; Some (src, dst).
(** The same inside one block; source and destination do not overlap. *)
Definition relocate_in (m : mem) (i n j : nat) : option mem :=
  '(m, xs) ← take_out m i n; construct_list m j xs.

(** std::shift_right(first, last, 1): from the back, each element is move-assigned
    one to the right; [n] is the number of moved elements. *)
Fixpoint shift_right1 (m : mem) (i n : nat) : option mem :=
  match n with
  | 0 => Some m
  | S n => x ← read m (i + n); m ← write m (i + n) mv; m ← write m (i + S n) x; shift_right1 m i n
  end.
(** std::shift_left: move [n] elements starting at [src] to [dst]. *)
Fixpoint shift_left (m : mem) (dst src n : nat) : option mem :=
  match n with
  | 0 => Some m
  | S n => x ← read m src; m ← write m src mv; m ← write m dst x; shift_left m (S dst) (S src) n
  end.
(** std::rotate of the live objects in [i, i+a+b) with middle i+a. *)
Definition rotate (m : mem) (i a b : nat) : option mem :=
  xs ← read_list m i (a + b); write_list m i (drop a xs ++ take a xs).

(** ** The vector, small_vector.hpp 896-900.  [heap = None] is is_small(). *)
Record sv := SV { inl : mem; heap : option mem; sz : nat }.

Definition storage (v : sv) : mem := match heap v with Some m => m | None => inl v end.
Definition cap (v : sv) : nat := length (storage v).
Definition set_mem (v : sv) (m : mem) (n : nat) : sv :=
  match heap v with Some _ => SV (inl v) (Some m) n | None => SV m None n end.

(** small_vector.hpp 363-367. *)
Definition sv_empty : sv := SV (replicate N Raw) None 0.
Definition raw_block (n : nat) : mem := replicate n Raw.

(** next_capacity, small_vector.hpp 1043-1061. *)
Definition next_capacity (v : sv) (g : nat) : nat := Nat.max (cap v + g) (cap v + cap v / 2).

(** Objects that may be forgotten about: none that still needs a destructor. *)
Definition freeb (c : cell) : bool := triv || match c with Raw => true | Live _ => false end.
(** deallocate(), small_vector.hpp 1006-1009, followed by set_storage (1027-1037)
    of a heap block: a released or abandoned block must not hold live objects. *)
Definition to_heap (v : sv) (m : mem) (n : nat) : option sv :=
  if forallb freeb (storage v) then
    Some (SV (match heap v with Some _ => inl v | None => storage v end) (Some m) n)
  else None.

(** allocate_n followed by construct_range, small_vector.hpp 376-409, 903-911. *)
Definition sv_of_list (xs : list T) : option sv :=
  if Nat.leb (length xs) N then
    m ← construct_list (raw_block N) 0 xs; Some (SV m None (length xs))
  else
    m ← construct_list (raw_block (length xs)) 0 xs; Some (SV (raw_block N) (Some m) (length xs)).

(** emplace_back, small_vector.hpp 757-768, and reallocate_append 926-942. *)
Definition sv_push (v : sv) (x : T) : option sv :=
  if negb (Nat.eqb (sz v) (cap v)) then
    m ← construct (storage v) (sz v) x; Some (set_mem v m (S (sz v)))
  else
    m ← construct (raw_block (next_capacity v 1)) (sz v) x;
    '(old, m) ← relocate (storage v) 0 (sz v) m 0;
    old ← destroy_range old 0 (sz v);
    to_heap (set_mem v old (sz v)) m (S (sz v)).

(** pop_back, small_vector.hpp 770: destroys *last_ and then decrements. *)
Definition sv_pop (v : sv) : option sv :=
  if Nat.eqb (sz v) 0 then None
  else m ← destroy (storage v) (sz v); Some (set_mem v m (sz v - 1)).

(** reallocate_n, small_vector.hpp 913-924. *)
Definition reallocate_n (v : sv) (n : nat) : option sv :=
  '(old, m) ← relocate (storage v) 0 (sz v) (raw_block n) 0;
  old ← destroy_range old 0 (sz v);
  to_heap (set_mem v old (sz v)) m (sz v).
(** reserve, shrink_to_fit, small_vector.hpp 685-686. *)
Definition sv_reserve (v : sv) (n : nat) : option sv :=
  if Nat.ltb (cap v) n then reallocate_n v (next_capacity v (n - cap v)) else Some v.
Definition sv_shrink (v : sv) : option sv :=
  if Nat.ltb N (sz v) then reallocate_n v (sz v) else Some v.

(** resize_impl, small_vector.hpp 1011-1025; [x] is the given or the default value. *)
Definition sv_resize (v : sv) (n : nat) (x : T) : option sv :=
  if Nat.leb n (sz v) then
    m ← destroy_range (storage v) n (sz v - n); Some (set_mem v m n)
  else
    v ← sv_reserve v n;
    m ← construct_list (storage v) (sz v) (replicate (n - sz v) x); Some (set_mem v m n).

(** clear, reset, small_vector.hpp 692-703. *)
Definition sv_clear (v : sv) : option sv :=
  m ← destroy_range (storage v) 0 (sz v); Some (set_mem v m 0).
Definition sv_reset (v : sv) : option sv :=
  m ← destroy_range (storage v) 0 (sz v);
  if forallb freeb m then
    Some (SV (match heap v with Some _ => inl v | None => m end) None 0)
  else None.

(** emplace, small_vector.hpp 781-798, reallocate_emplace 944-963. *)
Definition sv_emplace (v : sv) (pos : nat) (x : T) : option sv :=
  if decide (pos <= sz v) then
    if negb (Nat.eqb (sz v) (cap v)) then
      if Nat.eqb pos (sz v) then m ← construct (storage v) (sz v) x; Some (set_mem v m (S (sz v)))
      else
        b ← read (storage v) (sz v - 1);
        m ← write (storage v) (sz v - 1) mv;
        m ← construct m (sz v) b;
        m ← shift_right1 m pos (sz v - pos - 1);
        m ← write m pos x;
        Some (set_mem v m (S (sz v)))
    else
      m ← construct (raw_block (next_capacity v 1)) pos x;
      '(old, m) ← relocate (storage v) 0 pos m 0;
      '(old, m) ← relocate old pos (sz v - pos) m (S pos);
      old ← destroy_range old 0 (sz v);
      to_heap (set_mem v old (sz v)) m (S (sz v))
  else None.

(** reallocate_insert, small_vector.hpp 965-1004; both overloads, [xs] the inserted
    values. *)
Definition reallocate_insert (v : sv) (c pos : nat) (xs : list T) : option sv :=
  '(old, m) ← relocate (storage v) 0 pos (raw_block c) 0;
  m ← construct_list m pos xs;
  '(old, m) ← relocate old pos (sz v - pos) m (pos + length xs);
  old ← destroy_range old 0 (sz v);
  to_heap (set_mem v old (sz v)) m (sz v + length xs).

(** insert(pos, count, value), small_vector.hpp 800-823, and insert(pos, first,
    last), 825-850: the two bodies differ only in the source of the values.
    Returns the vector and the offset of the returned iterator. *)
Definition sv_insert (v : sv) (pos : nat) (xs : list T) : option (sv * nat) :=
  if decide (pos <= sz v) then
    let src_size := length xs in
    if Nat.leb src_size (cap v - sz v) then
      let middle := Nat.max (sz v - src_size) pos in
      let moved_size := sz v - middle in
      let new_middle := middle + src_size in
      m ← construct_list (storage v) (sz v) (drop moved_size xs);
      m ← relocate_in m middle moved_size new_middle;
      m ← write_list m middle (take moved_size xs);
      Some (set_mem v m (sz v + src_size), pos)
    else
      v ← reallocate_insert v (next_capacity v src_size) pos xs; Some (v, pos)
  else None.

(** while (src_first != src_last) emplace_back( *src_first++ ). *)
Fixpoint push_all (v : sv) (xs : list T) : option sv :=
  match xs with [] => Some v | x :: xs => v ← sv_push v x; push_all v xs end.

(** insert from input iterators, small_vector.hpp 852-862. *)
Definition sv_insert_input (v : sv) (pos : nat) (xs : list T) : option sv :=
  if decide (pos <= sz v) then
    let old_size := sz v in
    v ← push_all v xs;
    m ← rotate (storage v) pos (old_size - pos) (sz v - old_size);
    Some (set_mem v m (sz v))
  else None.

(** erase(first, last), small_vector.hpp 864-872. *)
Definition sv_erase (v : sv) (i j : nat) : option sv :=
  if decide (i <= j /\ j <= sz v) then
    let c := j - i in
    m ← (if Nat.eqb c 0 then Some (storage v) else shift_left (storage v) i j (sz v - j));
    let new_last := sz v - c in
    m ← destroy_range m new_last c;
    Some (set_mem v m new_last)
  else None.

(** assign, small_vector.hpp 462-514: both overloads, [xs] the new values. *)
Definition sv_assign (v : sv) (xs : list T) : option sv :=
  let src_size := length xs in
  let com_size := Nat.min (sz v) src_size in
  if Nat.leb src_size (cap v) then
    m ← write_list (storage v) 0 (take com_size xs);
    m ← construct_list m com_size (drop com_size xs);
    m ← destroy_range m com_size (sz v - com_size);
    Some (set_mem v m src_size)
  else
    m ← construct_list (raw_block (next_capacity v (src_size - sz v))) 0 xs;
    old ← destroy_range (storage v) 0 (sz v);
    to_heap (set_mem v old (sz v)) m src_size.
(** assign from input iterators, small_vector.hpp 516-525. *)
Definition sv_assign_input (v : sv) (xs : list T) : option sv :=
  let n := Nat.min (sz v) (length xs) in
  m ← write_list (storage v) 0 (take n xs);
  m ← destroy_range m n (sz v - n);
  push_all (set_mem v m n) (drop n xs).

(** Visible contents: [first_, last_). *)
Definition contents (v : sv) : option (list T) := read_list (storage v) 0 (sz v).

(** operator=(const small_vector&), small_vector.hpp 532-550. *)
Definition sv_copy_assign (v w : sv) : option sv := xs ← contents w; sv_assign v xs.

(** operator=(small_vector&&), small_vector.hpp 552-601.  [fwd]: whether
    move_iterator<T*> is a forward iterator (it depends on the library version),
    which selects the overload of assign. *)
Definition sv_move_assign (fwd : bool) (v w : sv) : option (sv * sv) :=
  match heap v, heap w with
  | Some mv_, Some mw => Some (SV (inl v) (Some mw) (sz w), SV (inl w) (Some mv_) (sz v))
  | None, Some mw =>
      m ← destroy_range (storage v) 0 (sz v);
      Some (SV m (Some mw) (sz w), SV (inl w) None 0)
  | _, None =>
      '(mw, xs) ← take_out (storage w) 0 (sz w);
      v ← (if fwd then sv_assign v xs else sv_assign_input v xs);
      Some (v, set_mem w mw (sz w))
  end.

(** small_vector(small_vector&&), small_vector.hpp 429-446. *)
Definition sv_move_construct (w : sv) : option (sv * sv) :=
  match heap w with
  | None =>
      '(mw, m) ← relocate (inl w) 0 (sz w) (raw_block N) 0;
      mw ← destroy_range mw 0 (sz w);
      Some (SV m None (sz w), SV mw None 0)
  | Some m => Some (SV (raw_block N) (Some m) (sz w), SV (inl w) None 0)
  end.

(** swap, small_vector.hpp 705-748. *)
Definition swap_ranges (m1 m2 : mem) (n : nat) : option (mem * mem) :=
  xs ← read_list m1 0 n; ys ← read_list m2 0 n;
  m1 ← write_list m1 0 ys; m2 ← write_list m2 0 xs; Some (m1, m2).
Definition swap_small (big small : sv) : option (sv * sv) :=
  '(ms, mb) ← swap_ranges (inl small) (inl big) (sz small);
  '(mb, ms) ← relocate mb (sz small) (sz big - sz small) ms (sz small);
  mb ← destroy_range mb (sz small) (sz big - sz small);
  Some (SV mb None (sz small), SV ms None (sz big)).
Definition swap_mixed (big small : sv) (mbig : mem) : option (sv * sv) :=
  '(ms, bbuf) ← relocate (inl small) 0 (sz small) (inl big) 0;
  ms ← destroy_range ms 0 (sz small);
  Some (SV bbuf None (sz small), SV ms (Some mbig) (sz big)).
Definition sv_swap (v w : sv) : option (sv * sv) :=
  match heap v, heap w with
  | Some m1, Some m2 => Some (SV (inl v) (Some m2) (sz w), SV (inl w) (Some m1) (sz v))
  | None, None =>
      if Nat.ltb (sz v) (sz w) then '(w', v') ← swap_small w v; Some (v', w')
      else swap_small v w
  | Some m, None => swap_mixed v w m
  | None, Some m => '(w', v') ← swap_mixed w v m; Some (v', w')
  end.

(** ~small_vector, small_vector.hpp 452-456; returns the abandoned storage. *)
Definition sv_destroy (v : sv) : option (mem * option mem) :=
  m ← destroy_range (storage v) 0 (sz v);
  if forallb freeb m then
    match heap v with Some _ => Some (inl v, Some m) | None => Some (m, None) end
  else None.

(** ** Histories over two vectors; one-vector operations act on the first. *)
Inductive svop :=
  | OInit (xs : list T) | OPush (x : T) | OPop | OReserve (n : nat) | OShrink
  | OResize (n : nat) (x : T) | OClear | OReset | OEmplace (pos : nat) (x : T)
  | OInsert (pos : nat) (xs : list T) | OInsertInput (pos : nat) (xs : list T)
  | OErase (i j : nat) | OAssign (xs : list T) | OAssignInput (xs : list T)
  | OCopyAssign | OMoveAssign (fwd : bool) | OMoveConstruct | OSwap | OOther.

(** Destroying the first vector before it is re-initialised. *)
Definition replace (v : sv) (k : option sv) : option sv :=
  _ ← sv_destroy v; k.

Definition svstep (s : sv * sv) (o : svop) : option (sv * sv) :=
  let (v, w) := s in
  let on v' := (v ← v'; Some (v, w)) in
  match o with
  | OInit xs => on (replace v (sv_of_list xs))
  | OPush x => on (sv_push v x)
  | OPop => on (sv_pop v)
  | OReserve n => on (sv_reserve v n)
  | OShrink => on (sv_shrink v)
  | OResize n x => on (sv_resize v n x)
  | OClear => on (sv_clear v)
  | OReset => on (sv_reset v)
  | OEmplace p x => on (sv_emplace v p x)
  | OInsert p xs => on ('(v, _) ← sv_insert v p xs; Some v)
  | OInsertInput p xs => on (sv_insert_input v p xs)
  | OErase i j => on (sv_erase v i j)
  | OAssign xs => on (sv_assign v xs)
  | OAssignInput xs => on (sv_assign_input v xs)
  | OCopyAssign => on (sv_copy_assign v w)
  | OMoveAssign fwd => sv_move_assign fwd v w
  | OMoveConstruct => _ ← sv_destroy v; sv_move_construct w
  | OSwap => sv_swap v w
  | OOther => Some (w, v)
  end.
Fixpoint svrun (s : sv * sv) (os : list svop) : option (sv * sv) :=
  match os with [] => Some s | o :: os => s ← svstep s o; svrun s os end.

End SmallVector.
Arguments cell : clear implicits.
Arguments svop : clear implicits.
Arguments sv : clear implicits.
