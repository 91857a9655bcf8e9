(** utility/functional.hpp: detail::map, function_ref and move_only_function.  Callables have a state that a call may
    change.  [None] is a violated assertion, a null or dangling pointer, or a double free. *)
From stdpp Require Import list.

Section map.
Context {A B S : Type} (invoke : A -> S -> B * S) (value_init : B).
(** map of vectors, functional.hpp 31-45: push_back after reserve. *)
Fixpoint map_push_loop (cont : list A) (result : list B) (s : S) : list B * S :=
  match cont with [] => (result, s) | elem :: cont => let '(b, s) := invoke elem s in map_push_loop cont (result ++ [b]) s end.
Definition map_push (cont : list A) (s : S) : list B * S := map_push_loop cont [] s.
(** map of vectors of scalars, 47-60, and of arrays, 62-75 (whose elements have any value before): by index. *)
Fixpoint map_index_loop (n : nat) (cont : list A) (i : nat) (result : list B) (s : S) : option (list B * S) :=
  match n with
  | O => Some (result, s)
  | Datatypes.S n =>
    elem ← cont !! i; let '(b, s) := invoke elem s in
    if decide (i < length result) then map_index_loop n cont (i + 1) (<[i := b]> result) s else None
  end.
Definition map_index (cont : list A) (s : S) : option (list B * S) := map_index_loop (length cont) cont 0 (replicate (length cont) value_init) s.
End map.

Section functions.
Context {A B S : Type} (invoke : A -> S -> B * S).
(** The heap: the callables that are alive, by address.  The allocator gives an address that is not in use. *)
Definition heap := nat -> option S.
Context (alloc : heap -> nat).
Definition upd {X} (f : nat -> X) (i : nat) (x : X) (j : nat) : X := if decide (j = i) then x else f j.

(** move_only_function, 266-326: the variables hold fptr_. *)
Record funcs := Funcs { fptr : nat -> option nat; live : heap }.
Definition release_old (p : option nat) (h : heap) : option heap :=
  match p with None => Some h | Some p => match h p with Some _ => Some (upd h p None) | None => None end end.
Inductive op :=
  | AssignCallable (i : nat) (f : S)     (* 273-285 *)
  | AssignNull (i : nat)                 (* the constructor 271, then a move *)
  | MoveAssign (i j : nat)               (* 288: std::unique_ptr: reset(release()) *)
  | Swap (i j : nat)                     (* 296-299 *)
  | Call (i : nat) (a : A).              (* 290-294 *)
Definition step (o : op) (s : funcs) : option (funcs * option B) :=
  match o with
  | AssignCallable i f =>
    let p := alloc (live s) in
    h ← release_old (fptr s i) (upd (live s) p (Some f));
    Some (Funcs (upd (fptr s) i (Some p)) h, None)
  | AssignNull i => h ← release_old (fptr s i) (live s); Some (Funcs (upd (fptr s) i None) h, None)
  | MoveAssign i j =>
    let released := upd (fptr s) j None in
    h ← release_old (released i) (live s);
    Some (Funcs (upd released i (fptr s j)) h, None)
  | Swap i j => Some (Funcs (upd (upd (fptr s) i (fptr s j)) j (fptr s i)) (live s), None)
  | Call i a =>
    p ← fptr s i; f ← live s p;
    let '(b, f) := invoke a f in Some (Funcs (fptr s) (upd (live s) p (Some f)), Some b)
  end.
(** operator bool, 301. *)
Definition is_set (s : funcs) (i : nat) : bool := match fptr s i with Some _ => true | None => false end.
Fixpoint steps (os : list op) (s : funcs) : option (funcs * list (option B)) :=
  match os with [] => Some (s, []) | o :: os => '(s, b) ← step o s; '(s, bs) ← steps os s; Some (s, b :: bs) end.
Definition none : funcs := Funcs (fun _ => None) (fun _ => None).

(** function_ref, 218-260: the address of a callable it does not own; calls go to the callable itself. *)
Definition call_ref (r : option nat) (a : A) (h : heap) : option (heap * B) :=
  p ← r; f ← h p; let '(b, f) := invoke a f in Some (upd h p (Some f), b).
End functions.
