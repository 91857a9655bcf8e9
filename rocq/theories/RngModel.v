(** Model of the generators of utility/rng.hpp and of the bool distribution of
    utility/distribution.hpp.  A std::uint64_t is an [N] below 2^64. *)
From Coq Require Import NArith.
From stdpp Require Import list list_numbers.
Local Open Scope N_scope.

Definition word_mask : N := 0xffffffffffffffff.
(** Unsigned arithmetic keeps the low 64 bits. *)
Definition trunc (x : N) : N := N.land x word_mask.
Definition wadd (a b : N) : N := trunc (a + b).
Definition wmul (a b : N) : N := trunc (a * b).
Definition wshl (x k : N) : N := trunc (N.shiftl x k).
(** std::rotl for 0 < k < 64. *)
Definition rotl (x k : N) : N := N.lor (wshl x k) (N.shiftr x (64 - k)).
(** bit.hpp 38-44. *)
Definition is_nth_bit_set (value n : N) : bool := negb (N.eqb (N.land value (N.shiftl 1 n)) 0).

(** rng.hpp 113-120: the result and the new state. *)
Definition splitmix (state : N) : N * N :=
  let state := wadd state 0x9e3779b97f4a7c15 in
  let z := state in
  let z := wmul (N.lxor z (N.shiftr z 30)) 0xbf58476d1ce4e5b9 in
  let z := wmul (N.lxor z (N.shiftr z 27)) 0x94d049bb133111eb in
  (N.lxor z (N.shiftr z 31), state).

Definition xstate : Type := N * N.
(** rng.hpp 213-217.  (The elements of a braced list are evaluated from left to right.) *)
Definition seed_sequence (seed : N) : xstate :=
  let '(a, st) := splitmix seed in
  let '(b, _) := splitmix st in
  (a, b).
(** rng.hpp 167-177: operator(), the result and the new state. *)
Definition next (s : xstate) : N * xstate :=
  let '(s0, s1) := s in
  let result := wadd s0 s1 in
  let x := N.lxor s0 s1 in
  (result, (N.lxor (N.lxor (rotl s0 24) x) (wshl x 16), rotl x 37)).
Definition step (s : xstate) : xstate := (next s).2.
(** rng.hpp 184-196: the inner loop for one constant, from bit [n], [k] iterations. *)
Fixpoint jump_inner (jump_const : N) (k : nat) (n : N) (new_state s : xstate) : xstate * xstate :=
  match k with
  | O => (new_state, s)
  | S k =>
    let new_state := if is_nth_bit_set jump_const n then (N.lxor new_state.1 s.1, N.lxor new_state.2 s.2) else new_state in
    jump_inner jump_const k (n + 1) new_state (step s)
  end.
(** rng.hpp 180-199. *)
Definition jump (s : xstate) : xstate :=
  let '(new_state, s) := jump_inner 0xd2a98b26625eee7b 64 0 (0, 0) s in
  let '(new_state, s) := jump_inner 0xdddf9b1090aa7ac1 64 0 new_state s in
  new_state.

(** ConcurrentXoroshiro128p (rng.hpp 232-307).  The thread local generators are numbered by
    their registration; [None] is one that was destroyed.  The lock makes registration,
    destruction and seeding atomic, and a thread draws only from its own generator, so every
    execution is a sequence of operations.  The list tls_generators_ holds the live generators
    in the order of their registration (push_back, std::erase keep the order). *)
Record generators := Generators { global : xstate; threads : list (option xstate) }.
Inductive gen_op := Register | Unregister (t : nat) | Draw (t : nat) | Seed (seed : N).
(** rng.hpp 304: GAPP_SEED. *)
Definition initial_generators : generators := Generators (seed_sequence 0x3da99432ab975d26) [].
(** rng.hpp 255-257: the loop over the list of generators. *)
Fixpoint reseed (g : xstate) (ts : list (option xstate)) : xstate * list (option xstate) :=
  match ts with
  | [] => (g, [])
  | None :: ts => let '(g, ts) := reseed g ts in (g, None :: ts)
  | Some _ :: ts => let g := jump g in let '(g', ts) := reseed g ts in (g', Some g :: ts)
  end.
(** rng.hpp 273-285, 239-242, 249-263.  The second component is the state from which a number is
    drawn, if one is.  [None]: the generator does not exist. *)
Definition gen_do (op : gen_op) (g : generators) : option (generators * option xstate) :=
  match op with
  | Register => let global := jump (global g) in Some (Generators global (threads g ++ [Some global]), None)
  | Unregister t =>
    match threads g !! t with
    | Some (Some _) => Some (Generators (global g) (<[t := None]> (threads g)), None)
    | _ => None
    end
  | Draw t =>
    match threads g !! t with
    | Some (Some s) => Some (Generators (global g) (<[t := Some (step s)]> (threads g)), Some s)
    | _ => None
    end
  | Seed seed => let '(global, ts) := reseed (seed_sequence seed) (threads g) in Some (Generators global ts, None)
  end.
(** A sequence of operations: the final generators and the states numbers were drawn from. *)
Fixpoint gen_run (ops : list gen_op) (g : generators) : option (generators * list xstate) :=
  match ops with
  | [] => Some (g, [])
  | op :: ops =>
    '(g, drawn) ← gen_do op g;
    '(g, log) ← gen_run ops g;
    Some (g, match drawn with Some s => s :: log | None => log end)
  end.

(** distribution.hpp 26-44: one draw of the bool distribution; [pool] is bit_pool_, [outputs]
    the generator's further outputs, [used] how many were used. *)
Definition bool_draw (outputs : nat -> N) (st : N * nat) : bool * (N * nat) :=
  let '(pool, used) := st in
  let '(pool, used) := if N.eqb pool 1 then (N.lor (outputs used) 0x8000000000000000, S used) else (pool, used) in
  (negb (N.eqb (N.land pool 1) 0), (N.shiftr pool 1, used)).
Fixpoint bool_draws (n : nat) (outputs : nat -> N) (st : N * nat) : list bool * (N * nat) :=
  match n with
  | O => ([], st)
  | S n => let '(b, st) := bool_draw outputs st in let '(bs, st) := bool_draws n outputs st in (b :: bs, st)
  end.
(** distribution.hpp 46, 70: the state after construction or reset. *)
Definition bool_initial : N * nat := (1, O).
