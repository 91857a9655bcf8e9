(** Model of gapp::small_vector, /repo/src/utility/small_vector.hpp, with exceptions and with arguments that
    refer to elements of the vector itself.

    Memory is a set of blocks of cells (block 0 is the inline buffer, N cells); a cell is raw or holds a live
    object.  A computation ends normally ([Ok]) or with an exception ([Exn]); [None] is undefined behaviour:
    constructing over a live object, destroying, reading or assigning raw memory, any access outside of a block or
    to a released block, releasing a block that holds live objects, an exception leaving a scope guard.
    Every operation on elements that may throw and every allocation consumes one entry of a list that says whether
    it throws and what is then left in the objects involved, so a theorem about all lists is about every way in
    which exceptions can occur.  [nt_move] is std::is_nothrow_move_constructible_v<T>; a moved-from object
    holds [mv].

    Simplified: the element type is copyable and not trivial (a trivial one cannot throw); no custom allocator;
    allocate returns exactly the requested size; max_size() is unbounded.  Two-vector operations (move construction
    and assignment, swap) are only modelled without exceptions, in SmallVectorModel.v; pop_back is modelled
    there as well. *)
From stdpp Require Import list list_numbers.

Section Exn.
Context {T : Type}.
Variables (nt_move : bool) (mv : T) (N : nat).

Inductive cell := Raw | Live (x : T).
Inductive res (A : Type) := Ok (a : A) | Exn.
Arguments Ok {A}. Arguments Exn {A}.

(** The memory, and the members first_ (always the beginning of a block), last_ - first_ of the vector,
    small_vector.hpp 896-900; [alive b] is the length of block [b]. *)
Record core := Core { cells : nat -> nat -> cell; alive : nat -> option nat; nxt : nat; first : nat; size : nat }.
Definition with_cells (c : core) (g : nat -> nat -> cell) : core := Core g (alive c) (nxt c) (first c) (size c).
Definition with_size (c : core) (n : nat) : core := Core (cells c) (alive c) (nxt c) (first c) n.
Definition upd (g : nat -> nat -> cell) (b i : nat) (x : cell) : nat -> nat -> cell :=
  fun b' i' => if decide (b' = b /\ i' = i) then x else g b' i'.

(** What an operation that may throw does: [Some (y, z)]: it throws and leaves [y] in the object it takes the
    value from (if that is not constant) and [z] in the object it assigns to. *)
Notation die := (option (T * T)).
Definition M (A : Type) : Type := core -> list die -> option (core * list die * res A).
Definition ret {A} (a : A) : M A := fun c d => Some (c, d, Ok a).
Definition ub {A} : M A := fun _ _ => None.
Definition raise {A} : M A := fun c d => Some (c, d, Exn).
Definition bind {A B} (f : M A) (k : A -> M B) : M B := fun c d =>
  match f c d with
  | None => None
  | Some (c', d', Ok a) => k a c' d'
  | Some (c', d', Exn) => Some (c', d', Exn)
  end.
Notation "x ⇐ f ; k" := (bind f (fun x => k)) (at level 20, f at level 100, k at level 200, right associativity).
Notation "f ;;; k" := (bind f (fun _ => k)) (at level 100, k at level 200, right associativity).
(** A scope_exit that is released at the end of [f] (scope_exit.hpp 14-39): [clean] runs if [f] throws. *)
Definition on_exn {A} (f : M A) (clean : M unit) : M A := fun c d =>
  match f c d with
  | None => None
  | Some (c', d', Ok a) => Some (c', d', Ok a)
  | Some (c', d', Exn) =>
      match clean c' d' with
      | Some (c'', d'', Ok _) => Some (c'', d'', Exn)
      | _ => None
      end
  end.
Definition get : M core := fun c d => Some (c, d, Ok c).
Definition put_size (n : nat) : M unit := fun c d => Some (with_size c n, d, Ok tt).
Definition roll : M die := fun c d => match d with [] => Some (c, [], Ok None) | x :: d => Some (c, d, Ok x) end.

(** ** Primitives *)
Definition inside (c : core) (b i : nat) : bool := match alive c b with Some k => Nat.ltb i k | None => false end.
Definition read (b i : nat) : M T := fun c d =>
  if inside c b i then match cells c b i with Live x => Some (c, d, Ok x) | Raw => None end else None.
(** A constructor that has succeeded. *)
Definition place (b i : nat) (x : T) : M unit := fun c d =>
  if inside c b i then match cells c b i with Raw => Some (with_cells c (upd (cells c) b i (Live x)), d, Ok tt) | Live _ => None end else None.
(** An assignment. *)
Definition set_cell (b i : nat) (x : T) : M unit := fun c d =>
  if inside c b i then match cells c b i with Live _ => Some (with_cells c (upd (cells c) b i (Live x)), d, Ok tt) | Raw => None end else None.
(** destroy, small_vector.hpp 115-122. *)
Definition destroy (b i : nat) : M unit := fun c d =>
  if inside c b i then match cells c b i with Live _ => Some (with_cells c (upd (cells c) b i Raw), d, Ok tt) | Raw => None end else None.
(** allocate and deallocate, small_vector.hpp 88-110. *)
Definition allocate (n : nat) : M nat := x ⇐ roll; match x with Some _ => raise | None =>
  fun c d => Some (Core (cells c) (fun b => if decide (b = nxt c) then Some n else alive c b) (S (nxt c)) (first c) (size c), d, Ok (nxt c)) end.
Definition is_raw (x : cell) : bool := match x with Raw => true | Live _ => false end.
Definition deallocate (b : nat) : M unit := fun c d =>
  match alive c b with
  | Some k => if forallb (fun i => is_raw (cells c b i)) (seq 0 k)
              then Some (Core (cells c) (fun b' => if decide (b' = b) then None else alive c b') (nxt c) (first c) (size c), d, Ok tt) else None
  | None => None
  end.

(** An argument of type const T&: some object elsewhere, or an element (block, index). *)
Inductive arg := Val (x : T) | Ref (b i : nat).
Definition read_arg (a : arg) : M T := match a with Val x => ret x | Ref b i => read b i end.

(** Copy construction, move construction and std::move_if_noexcept, small_vector.hpp 132-153, 238. *)
Definition copy_construct (a : arg) (b i : nat) : M unit :=
  x ⇐ read_arg a; t ⇐ roll; match t with Some _ => raise | None => place b i x end.
Definition move_construct (sb si b i : nat) : M unit :=
  x ⇐ read sb si; t ⇐ (if nt_move then ret None else roll);
  match t with Some (y, _) => set_cell sb si y ;;; raise | None => set_cell sb si mv ;;; place b i x end.
Definition strong_construct (sb si b i : nat) : M unit :=
  if nt_move then move_construct sb si b i else copy_construct (Ref sb si) b i.
(** Copy and move assignment. *)
Definition copy_assign (a : arg) (b i : nat) : M unit :=
  x ⇐ read_arg a; t ⇐ roll; match t with Some (_, z) => set_cell b i z ;;; raise | None => set_cell b i x end.
Definition move_assign (sb si b i : nat) : M unit :=
  x ⇐ read sb si; t ⇐ roll;
  match t with Some (y, z) => set_cell sb si y ;;; set_cell b i z ;;; raise | None => set_cell sb si mv ;;; set_cell b i x end.

(** ** Ranges *)
(** destroy_range, small_vector.hpp 163-167. *)
Fixpoint destroy_range (b i n : nat) : M unit :=
  match n with O => ret tt | S n => destroy b i ;;; destroy_range b (S i) n end.
(** The loops of construct_range and relocate_range, small_vector.hpp 170-259: [mk j] constructs the [j]-th object;
    the guard destroys those constructed so far. *)
Fixpoint construct_loop (mk : nat -> M unit) (b i n j : nat) : M unit :=
  match n with
  | O => ret tt
  | S n => on_exn (mk j) (destroy_range b i j) ;;; construct_loop mk b i n (S j)
  end.
(** construct_range, small_vector.hpp 188-219. *)
Definition construct_range (b i : nat) (args : list arg) : M unit :=
  construct_loop (fun j => match args !! j with Some a => copy_construct a b (i + j) | None => ub end) b i (length args) 0.
(** relocate_range_strong and relocate_range_weak, small_vector.hpp 222-259. *)
Definition relocate_strong (sb si n b i : nat) : M unit :=
  construct_loop (fun j => strong_construct sb (si + j) b (i + j)) b i n 0.
Definition relocate_weak (sb si n b i : nat) : M unit :=
  construct_loop (fun j => move_construct sb (si + j) b (i + j)) b i n 0.
(** assign_range, small_vector.hpp 263-275. *)
Fixpoint assign_range (b i : nat) (args : list arg) : M unit :=
  match args with [] => ret tt | a :: args => copy_assign a b i ;;; assign_range b (S i) args end.
(** std::shift_right by one of the [n] elements from [i] on, starting at the last; std::shift_left of [n] elements. *)
Fixpoint shift_right1 (b i n : nat) : M unit :=
  match n with O => ret tt | S n => move_assign b (i + n) b (i + S n) ;;; shift_right1 b i n end.
Fixpoint shift_left (b dst src n : nat) : M unit :=
  match n with O => ret tt | S n => move_assign b src b dst ;;; shift_left b (S dst) (S src) n end.

(** ** The vector *)
Definition cap (c : core) : nat := default 0 (alive c (first c)).
(** next_capacity, small_vector.hpp 1043-1061. *)
Definition next_capacity (c : core) (g : nat) : nat := Nat.max (cap c + g) (cap c + cap c / 2).
(** deallocate(), small_vector.hpp 1006-1009. *)
Definition vec_deallocate : M unit := c ⇐ get; if decide (first c = 0) then ret tt else deallocate (first c).
(** set_storage, small_vector.hpp 1027-1041. *)
Definition set_storage (b n : nat) : M unit := fun c d => Some (Core (cells c) (alive c) (nxt c) b n, d, Ok tt).
(** The end of all reallocating functions: destroy_range(first_, last_); deallocate(); set_storage(...). *)
Definition replace_storage (b n : nat) : M unit :=
  c ⇐ get; destroy_range (first c) 0 (size c) ;;; vec_deallocate ;;; set_storage b n.

(** reallocate_n, reserve, shrink_to_fit, small_vector.hpp 913-924, 685-686. *)
Definition reallocate_n (n : nat) : M unit :=
  c ⇐ get; b ⇐ allocate n;
  on_exn (relocate_strong (first c) 0 (size c) b 0) (deallocate b) ;;; replace_storage b (size c).
Definition sv_reserve (n : nat) : M unit :=
  c ⇐ get; if Nat.ltb (cap c) n then reallocate_n (next_capacity c (n - cap c)) else ret tt.
Definition sv_shrink : M unit := c ⇐ get; if Nat.ltb N (size c) then reallocate_n (size c) else ret tt.

(** emplace_back, small_vector.hpp 757-768, and reallocate_append, 926-942. *)
Definition emplace_back_unchecked (a : arg) : M unit :=
  c ⇐ get; copy_construct a (first c) (size c) ;;; put_size (S (size c)).
Definition sv_push (a : arg) : M unit :=
  c ⇐ get;
  if negb (Nat.eqb (size c) (cap c)) then emplace_back_unchecked a
  else
    b ⇐ allocate (next_capacity c 1);
    on_exn (copy_construct a b (size c) ;;;
            on_exn (relocate_strong (first c) 0 (size c) b 0) (destroy b (size c))) (deallocate b) ;;;
    replace_storage b (S (size c)).

(** emplace, small_vector.hpp 781-798, and reallocate_emplace, 944-963.  The object of class allocator_managed
    (lines 279-303) is local; it is destroyed on every way out. *)
Definition sv_emplace (pos : nat) (a : arg) : M unit :=
  c ⇐ get;
  if Nat.leb pos (size c) then
    let f := first c in let n := size c in
    if negb (Nat.eqb n (cap c)) then
      if Nat.eqb pos n then emplace_back_unchecked a
      else
        x ⇐ read_arg a; t ⇐ roll;
        match t with
        | Some _ => raise
        | None =>
            move_construct f (n - 1) f n ;;;
            put_size (S n) ;;;
            shift_right1 f pos (n - pos - 1) ;;;
            (t ⇐ roll; match t with Some (_, z) => set_cell f pos z ;;; raise | None => set_cell f pos x end)
        end
    else
      b ⇐ allocate (next_capacity c 1);
      on_exn (copy_construct a b pos ;;;
              on_exn (relocate_strong f 0 pos b 0 ;;;
                      on_exn (relocate_strong f pos (n - pos) b (pos + 1)) (destroy_range b 0 pos)) (destroy b pos)) (deallocate b) ;;;
      replace_storage b (S n)
  else ub.

(** resize_impl, small_vector.hpp 1011-1025. *)
Definition sv_resize (n : nat) (a : arg) : M unit :=
  c ⇐ get;
  if Nat.leb n (size c) then destroy_range (first c) n (size c - n) ;;; put_size n
  else
    sv_reserve n ;;;
    (c ⇐ get; construct_range (first c) (size c) (replicate (n - size c) a) ;;; put_size n).

(** clear and the destructor, small_vector.hpp 692-696, 452-456. *)
Definition sv_clear : M unit := c ⇐ get; destroy_range (first c) 0 (size c) ;;; put_size 0.
Definition sv_destroy : M unit := c ⇐ get; destroy_range (first c) 0 (size c) ;;; vec_deallocate.

(** assign, small_vector.hpp 462-514; [args] are the assigned values. *)
Definition sv_assign (args : list arg) : M unit :=
  c ⇐ get;
  let f := first c in let n := size c in let src := length args in let com := Nat.min n src in
  if Nat.leb src (cap c) then
    assign_range f 0 (take com args) ;;;
    construct_range f com (drop com args) ;;;
    destroy_range f com (n - com) ;;; put_size src
  else
    b ⇐ allocate (next_capacity c (src - n));
    on_exn (construct_range b 0 args) (deallocate b) ;;; replace_storage b src.

(** insert of a count or of a range, small_vector.hpp 800-850, and reallocate_insert, 965-1004. *)
Definition sv_insert (pos : nat) (args : list arg) : M unit :=
  c ⇐ get;
  if Nat.leb pos (size c) then
    let f := first c in let n := size c in let src := length args in
    if Nat.leb src (cap c - n) then
      let middle := Nat.max (n - src) pos in
      let moved := n - middle in
      construct_range f n (drop moved args) ;;;
      put_size (middle + src) ;;;
      relocate_weak f middle moved f (middle + src) ;;;
      put_size (n + src) ;;;
      assign_range f middle (take moved args)
    else
      b ⇐ allocate (next_capacity c src);
      on_exn (relocate_weak f 0 pos b 0 ;;;
              on_exn (construct_range b pos args ;;;
                      on_exn (relocate_weak f pos (n - pos) b (pos + src)) (destroy_range b pos src)) (destroy_range b 0 pos)) (deallocate b) ;;;
      replace_storage b (n + src)
  else ub.

(** erase, small_vector.hpp 864-872. *)
Definition sv_erase (i j : nat) : M unit :=
  c ⇐ get;
  if Nat.leb i j && Nat.leb j (size c) then
    (if Nat.eqb (j - i) 0 then ret tt else shift_left (first c) i j (size c - j)) ;;;
    destroy_range (first c) (size c - (j - i)) (j - i) ;;; put_size (size c - (j - i))
  else ub.

(** The constructors from a count and value or a forward range, small_vector.hpp 376-409; an exception leaves no
    object behind. *)
Definition fresh : core := Core (fun _ _ => Raw) (fun b => if decide (b = 0) then Some N else None) 1 0 0.
Definition sv_construct (args : list arg) : M unit :=
  (if Nat.leb (length args) N then set_storage 0 0 else b ⇐ allocate (length args); set_storage b 0) ;;;
  (c ⇐ get; on_exn (construct_range (first c) 0 args) vec_deallocate ;;; put_size (length args)).
(** The constructor from input iterators, small_vector.hpp 411-419: there is no guard, and the destructor does not
    run for an object whose constructor throws. *)
Fixpoint push_all (args : list arg) : M unit :=
  match args with [] => ret tt | a :: args => sv_push a ;;; push_all args end.
Definition sv_construct_input (args : list arg) : M unit := push_all args.

(** ** Histories: the operations of a program that catches the exceptions and goes on. *)
Inductive xop :=
  | XPush (x : T) | XReserve (n : nat) | XShrink | XResize (n : nat) (x : T) | XClear | XEmplace (pos : nat) (x : T)
  | XAssign (xs : list T) | XInsert (pos : nat) (xs : list T) | XErase (i j : nat)
  (** push_back(v[i]) and insert(v.begin() + pos, v[i]) *)
  | XPushOwn (i : nat) | XEmplaceOwn (pos i : nat).
Definition own (i : nat) (k : arg -> M unit) : M unit := c ⇐ get; k (Ref (first c) i).
Definition xstep (o : xop) : M unit :=
  match o with
  | XPush x => sv_push (Val x)
  | XReserve n => sv_reserve n
  | XShrink => sv_shrink
  | XResize n x => sv_resize n (Val x)
  | XClear => sv_clear
  | XEmplace pos x => sv_emplace pos (Val x)
  | XAssign xs => sv_assign (Val <$> xs)
  | XInsert pos xs => sv_insert pos (Val <$> xs)
  | XErase i j => sv_erase i j
  | XPushOwn i => own i sv_push
  | XEmplaceOwn pos i => own i (sv_emplace pos)
  end.
(** The preconditions of the operations; the program does nothing where they do not hold. *)
Definition in_range (n : nat) (o : xop) : bool :=
  match o with
  | XEmplace pos _ | XInsert pos _ => Nat.leb pos n
  | XErase i j => Nat.leb i j && Nat.leb j n
  | XPushOwn i => Nat.ltb i n
  | XEmplaceOwn pos i => Nat.leb pos n && Nat.ltb i n
  | _ => true
  end.
Fixpoint xrun (os : list xop) : M unit :=
  match os with
  | [] => ret tt
  | o :: os => fun c d =>
      if in_range (size c) o then match xstep o c d with Some (c', d', _) => xrun os c' d' | None => None end else xrun os c d
  end.
End Exn.
Arguments cell : clear implicits.
Arguments core : clear implicits.
Arguments arg : clear implicits.
Arguments xop : clear implicits.
Arguments Ok {A}. Arguments Exn {A}.
