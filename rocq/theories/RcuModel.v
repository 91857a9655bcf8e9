(** Model of rcu_domain and rcu_obj (utility/rcu.hpp).  Every access to shared memory is one step
    of one thread; threads are interleaved arbitrarily.  [tso] selects the memory: with [false]
    every store takes effect at once (sequential consistency); with [true] each thread has a FIFO
    store buffer, read-modify-write operations need the own buffer to be empty and a buffered
    store reaches memory at an arbitrary later time (x86-TSO; a release store is a plain store
    there).  Of all variables only the epoch of a reader is written by plain stores, and only by
    its thread, so buffers hold values of the own epoch.  The load of line 25 reads the own
    epoch: it is served from the buffer and does not change the state, so it is not a step.

    Pointers are numbered in the order of allocation, so a pointer value is never reused; this
    makes "freed" a property of the allocation.  A thread can be in a read section and inside an
    assignment at the same time; the two are interleaved arbitrarily, which includes the order
    in the program.  Read sections are not nested (they share one epoch per thread).  The reader
    list is protected by its shared_spinlock (C77): registration is one step that is not possible
    while any thread scans the list. *)
From Coq Require Import ZArith.
From stdpp Require Import list.
Local Open Scope Z_scope.

(** rcu.hpp 71. *)
Definition NOT_READING : Z := 2 ^ 64 - 1.

Inductive reader_pc :=
  | ROut                        (* not reading *)
  | RLoaded (e : Z)             (* in read_lock, writer_epoch loaded (line 24) *)
  | RIn (pointers : list nat).  (* between lock_shared and unlock_shared, with the pointers obtained by get() *)
(** [old] is the pointer to be deleted, none for wait_for_readers. *)
Inductive writer_pc :=
  | WOut
  | WSync (old : option nat)                                (* before line 35 *)
  | WLoaded (old : option nat) (current : Z)                (* before line 37 *)
  | WAdvanced (old : option nat) (target : Z)               (* before line 39 *)
  | WScan (old : option nat) (target : Z) (rest : list nat) (* lines 41-44, the readers still to be checked *)
  | WDone (old : option nat).                               (* before line 100 *)
Record rcu_state := Rcu {
  data : list nat;             (* data_ of the objects *)
  next_ptr : nat;              (* the next allocation *)
  freed : list nat;            (* deleted pointers *)
  writer_epoch : Z;
  epoch : nat -> Z;            (* reader.epoch of each thread, in memory *)
  buffer : nat -> list Z;      (* pending stores to it *)
  readers : list nat;          (* tls_readers->list *)
  rpc : nat -> reader_pc;
  wpc : nat -> writer_pc }.
Definition at_thread {A} (f : nat -> A) (t : nat) (x : A) : nat -> A := fun t' => if decide (t' = t) then x else f t'.

Section model.
Context (tso : bool).
Definition rcu_initial (objects : nat) : rcu_state :=
  Rcu (seq 0 objects) objects [] 0 (fun _ => NOT_READING) (fun _ => []) [] (fun _ => ROut) (fun _ => WOut).
(** A store to the own epoch. *)
Definition store_epoch (s : rcu_state) (t : nat) (e : Z) (pc : reader_pc) : rcu_state :=
  if tso
  then Rcu (data s) (next_ptr s) (freed s) (writer_epoch s) (epoch s) (at_thread (buffer s) t (buffer s t ++ [e])) (readers s) (at_thread (rpc s) t pc) (wpc s)
  else Rcu (data s) (next_ptr s) (freed s) (writer_epoch s) (at_thread (epoch s) t e) (buffer s) (readers s) (at_thread (rpc s) t pc) (wpc s).
Definition set_rpc (s : rcu_state) (t : nat) (pc : reader_pc) : rcu_state :=
  Rcu (data s) (next_ptr s) (freed s) (writer_epoch s) (epoch s) (buffer s) (readers s) (at_thread (rpc s) t pc) (wpc s).
Definition set_wpc (s : rcu_state) (t : nat) (pc : writer_pc) : rcu_state :=
  Rcu (data s) (next_ptr s) (freed s) (writer_epoch s) (epoch s) (buffer s) (readers s) (rpc s) (at_thread (wpc s) t pc).
Definition no_scan (s : rcu_state) : Prop := forall t, match wpc s t with WScan _ _ _ => False | _ => True end.

Inductive rcu_step : rcu_state -> rcu_state -> Prop :=
  | rcu_flush s t e b : buffer s t = e :: b ->
      rcu_step s (Rcu (data s) (next_ptr s) (freed s) (writer_epoch s) (at_thread (epoch s) t e) (at_thread (buffer s) t b) (readers s) (rpc s) (wpc s))
  (* lines 50-54, 62, 75: on the first use of the thread's reader *)
  | rcu_register s t : t ∉ readers s -> no_scan s -> buffer s t = [] -> (forall ps, rpc s t <> RIn ps) ->
      rcu_step s (Rcu (data s) (next_ptr s) (freed s) (writer_epoch s) (at_thread (epoch s) t NOT_READING) (buffer s) (readers s ++ [t]) (rpc s) (wpc s))
  (* lines 56-60, when the thread exits *)
  | rcu_unregister s t : rpc s t = ROut -> buffer s t = [] -> no_scan s ->
      rcu_step s (Rcu (data s) (next_ptr s) (freed s) (writer_epoch s) (epoch s) (buffer s) (filter (fun r => r <> t) (readers s)) (rpc s) (wpc s))
  (* line 24: the load and the store *)
  | rcu_read_load s t : rpc s t = ROut -> rcu_step s (set_rpc s t (RLoaded (writer_epoch s)))
  | rcu_read_store s t e : rpc s t = RLoaded e -> t ∈ readers s -> rcu_step s (store_epoch s t e (RIn []))
  (* line 111 *)
  | rcu_get s t ps o p : rpc s t = RIn ps -> data s !! o = Some p -> rcu_step s (set_rpc s t (RIn (p :: ps)))
  (* line 30 *)
  | rcu_read_unlock s t ps : rpc s t = RIn ps -> rcu_step s (store_epoch s t NOT_READING ROut)
  (* lines 97-98 *)
  | rcu_exchange s t o old : wpc s t = WOut -> buffer s t = [] -> data s !! o = Some old ->
      rcu_step s (Rcu (<[o := next_ptr s]> (data s)) (S (next_ptr s)) (freed s) (writer_epoch s) (epoch s) (buffer s) (readers s) (rpc s) (at_thread (wpc s) t (WSync (Some old))))
  (* line 124 *)
  | rcu_wait s t : wpc s t = WOut -> rcu_step s (set_wpc s t (WSync None))
  (* line 35 *)
  | rcu_sync_load s t old : wpc s t = WSync old -> rcu_step s (set_wpc s t (WLoaded old (writer_epoch s)))
  (* lines 36-37 *)
  | rcu_sync_cas s t old c : wpc s t = WLoaded old c -> buffer s t = [] ->
      rcu_step s (Rcu (data s) (next_ptr s) (freed s) (if writer_epoch s =? c then (c + 1) mod 2 ^ 64 else writer_epoch s) (epoch s) (buffer s) (readers s) (rpc s)
                      (at_thread (wpc s) t (WAdvanced old ((c + 1) mod 2 ^ 64))))
  (* lines 39-44 *)
  | rcu_scan s t old target : wpc s t = WAdvanced old target -> rcu_step s (set_wpc s t (WScan old target (readers s)))
  | rcu_scan_next s t old target r rest : wpc s t = WScan old target (r :: rest) -> target <= epoch s r -> rcu_step s (set_wpc s t (WScan old target rest))
  | rcu_scan_end s t old target : wpc s t = WScan old target [] -> rcu_step s (set_wpc s t (WDone old))
  (* line 100 *)
  | rcu_delete s t old : wpc s t = WDone old ->
      rcu_step s (Rcu (data s) (next_ptr s) (match old with Some p => p :: freed s | None => freed s end) (writer_epoch s) (epoch s) (buffer s) (readers s) (rpc s) (at_thread (wpc s) t WOut)).
(** Steps before writer_epoch runs out of values (2^64 - 1 calls of synchronize). *)
Definition rcu_step_bounded (s s' : rcu_state) : Prop := rcu_step s s' /\ writer_epoch s' < NOT_READING.
End model.
