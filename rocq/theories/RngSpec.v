(** Specification for C67-C70, without the model's words. *)
From Coq Require Import NArith.
From stdpp Require Import list.
Local Open Scope N_scope.

(** A state of the generator: two 64-bit words. *)
Definition in_range (s : N * N) : Prop := s.1 < 2 ^ 64 /\ s.2 < 2 ^ 64.
Definition zero_state : N * N := (0, 0).
(** [n] applications of [f]. *)
Definition times {A} (n : N) (f : A -> A) (x : A) : A := N.iter n f x.
(** [f] has the full period on the nonzero states: from a nonzero state all of them, and each
    only once before the start is reached again. *)
Definition full_period (f : N * N -> N * N) : Prop := forall s, in_range s -> s <> zero_state ->
  times (2 ^ 128 - 1) f s = s /\
  (forall i j, i < 2 ^ 128 - 1 -> j < 2 ^ 128 - 1 -> times i f s = times j f s -> i = j) /\
  (forall s', in_range s' -> s' <> zero_state -> exists i, i < 2 ^ 128 - 1 /\ times i f s = s').
