(** Property theorems C01, C02, C03 (circular_buffer). *)
From stdpp Require Import list.
From Verif Require Import CircularBufferModel CircularBufferSpec CircularBufferProofs.
From Verif Require CircularBufferExnModel CircularBufferExnProofs.

(** C01.  For every capacity and every operation sequence the buffer never
    runs into undefined behaviour as long as the documented preconditions hold
    (exactly when the abstract bounded deque accepts the sequence), and then
    everything a client can see is that of the abstract deque. *)
Theorem C01_circular_buffer_refines_deque {T} (cap : nat) (os : list (op T)) :
  match drun (Deque cap []) os with
  | Some d => exists b, run (new cap) os = Some b /\ looks_like b d
  | None => run (new cap) os = None
  end.
Proof. exact (run_refines cap os). Qed.
Print Assumptions C01_circular_buffer_refines_deque.

(** A sequence that wraps around, overwrites at both ends and shrinks. *)
Example C01_nonvacuous :
  drun (Deque 3 []) [PushBack 1; PushBack 2; PushBack 3; PushBack 4; PushFront 5; PopBack; SetCapacity 5; PushFront 9; SetCapacity 2]
    = Some (Deque 2 [9; 5]) /\
  option_map elements (run (new 3) [PushBack 1; PushBack 2; PushBack 3; PushBack 4; PushFront 5; PopBack; SetCapacity 5; PushFront 9; SetCapacity 2])
    = Some [Some 9; Some 5].
Proof. vm_compute. done. Qed.

(** C02.  Construction from a range keeps the last [cap] elements and behaves
    as that deque under every further operation sequence. *)
Theorem C02_circular_buffer_from_range {T} (cap : nat) (l : list T) (os : list (op T)) :
  match drun (Deque cap (drop (length l - cap) l)) os with
  | Some d => exists b, run (from_range cap l) os = Some b /\ looks_like b d
  | None => run (from_range cap l) os = None
  end.
Proof. exact (run_from_range cap l os). Qed.
Print Assumptions C02_circular_buffer_from_range.

(** C02.  Equality of any two buffers reachable by any histories is equality of
    their element sequences (and never reads a dead object). *)
Theorem C02_circular_buffer_equality {T} (eqb : T -> T -> bool)
  (Heqb : forall x y, eqb x y = true <-> x = y) (c1 c2 : nat) (l1 l2 : list T) (o1 o2 : list (op T)) d1 d2 :
  drun (Deque c1 (drop (length l1 - c1) l1)) o1 = Some d1 ->
  drun (Deque c2 (drop (length l2 - c2) l2)) o2 = Some d2 ->
  exists b1 b2 q,
    run (from_range c1 l1) o1 = Some b1 /\ run (from_range c2 l2) o2 = Some b2 /\
    cb_eqb eqb b1 b2 = Some q /\ (q = true <-> ditems d1 = ditems d2).
Proof.
  intros H1 H2.
  pose proof (run_from_range c1 l1 o1) as R1. rewrite H1 in R1. destruct R1 as (b1&Hb1&L1).
  pose proof (run_from_range c2 l2 o2) as R2. rewrite H2 in R2. destruct R2 as (b2&Hb2&L2).
  destruct (cb_eqb_ok eqb Heqb b1 b2 d1 d2 L1 L2) as (q&Hq&Hiff).
  exists b1, b2, q. auto.
Qed.
Print Assumptions C02_circular_buffer_equality.

(** Two histories with different storage offsets but the same elements. *)
Example C02_nonvacuous :
  let o1 := [PushBack 1; PushBack 2; PushBack 3; PushBack 4] in
  let o2 := [PushBack 2; PushBack 3; PushBack 4] in
  run (new 3) o1 <> run (new 3) o2 /\
  (b1 ← run (new 3) o1; b2 ← run (new 3) o2; cb_eqb Nat.eqb b1 b2) = Some true.
Proof. vm_compute. done. Qed.

(** C03 (refuted).  The guard of set_capacity releases the wrong block: whenever
    an element transfer throws, the buffer's life ends with a block freed twice
    (or freed with the wrong size) and the new block leaked, for every capacity,
    size, new capacity and throwing position. *)
Theorem C03_set_capacity_exception_safety_refuted (cap size n k : nat) :
  n <> cap -> k < Nat.min n size ->
  ~ CircularBufferExnModel.balanced (CircularBufferExnModel.life_set_capacity cap size n (Some k)).
Proof. exact (CircularBufferExnProofs.set_capacity_throw_not_balanced cap size n k). Qed.
Print Assumptions C03_set_capacity_exception_safety_refuted.

Example C03_witness :
  CircularBufferExnModel.life_set_capacity 3 2 8 (Some 1)
  = [CircularBufferExnModel.Alloc 0 3; CircularBufferExnModel.Alloc 1 8;
     CircularBufferExnModel.Dealloc 0 8; CircularBufferExnModel.Dealloc 0 3].
Proof. reflexivity. Qed.

(** C03, the part that holds: without an exception nothing is leaked. *)
Theorem C03_set_capacity_no_exception_balanced_partial (cap size n : nat) :
  CircularBufferExnModel.balanced (CircularBufferExnModel.life_set_capacity cap size n None).
Proof. exact (CircularBufferExnProofs.set_capacity_no_throw_balanced cap size n). Qed.
Print Assumptions C03_set_capacity_no_exception_balanced_partial.

(** C03 (refuted, reset): when the allocation in reset throws, the old block has
    already been released but is still owned, so it is released again. *)
Theorem C03_reset_exception_safety_refuted (cap size n : nat) :
  n <> cap ->
  ~ CircularBufferExnModel.balanced (CircularBufferExnModel.life_reset cap size n true).
Proof. exact (CircularBufferExnProofs.reset_throw_not_balanced cap size n). Qed.
Print Assumptions C03_reset_exception_safety_refuted.
