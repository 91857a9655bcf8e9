(** Model of spinlock (utility/spinlock.hpp) and shared_spinlock (utility/shared_spinlock.hpp).
    Every atomic access is one step of one thread; threads are interleaved arbitrarily.  The
    clients follow the locking discipline: a thread only unlocks what it holds and does not lock
    what it holds.

    Each lock is a single atomic variable.  Read-modify-write operations read the last value of
    its modification order in every memory model; a plain load may read an older value, but none
    older than the thread's own last access (coherence).  The shared lock is therefore modelled
    with the whole history of values, which makes the theorems independent of the memory orders
    in the code. *)
From Coq Require Import ZArith.
From stdpp Require Import list.
Local Open Scope Z_scope.

(** ** spinlock *)
Inductive spin_pc :=
  | SIdle        (* not in any function, not holding *)
  | SLock        (* in lock(), before test_and_set (line 18) *)
  | SWait        (* in lock(), before test (line 19) *)
  | STry         (* in try_lock(), before test (line 25) *)
  | STrySet      (* in try_lock(), before test_and_set (line 26) *)
  | SHold.       (* holding the lock *)
Record spin_state := Spin { flag : bool; spin_at : nat -> spin_pc }.
Definition set_at {A} (f : nat -> A) (t : nat) (x : A) : nat -> A := fun t' => if decide (t' = t) then x else f t'.

(** A plain load ([seen]) may return an old value, so any. *)
Inductive spin_step : spin_state -> spin_state -> Prop :=
  | spin_call_lock s t : spin_at s t = SIdle -> spin_step s (Spin (flag s) (set_at (spin_at s) t SLock))
  | spin_call_try s t : spin_at s t = SIdle -> spin_step s (Spin (flag s) (set_at (spin_at s) t STry))
  (* spinlock.hpp 18: if (!locked_.test_and_set()) break; *)
  | spin_lock_set s t : spin_at s t = SLock -> spin_step s (Spin true (set_at (spin_at s) t (if flag s then SWait else SHold)))
  (* spinlock.hpp 19: while (locked_.test()) pause; *)
  | spin_wait s t (seen : bool) : spin_at s t = SWait -> spin_step s (Spin (flag s) (set_at (spin_at s) t (if seen then SWait else SLock)))
  (* spinlock.hpp 25-26: return !locked_.test() && !locked_.test_and_set(); *)
  | spin_try s t (seen : bool) : spin_at s t = STry -> spin_step s (Spin (flag s) (set_at (spin_at s) t (if seen then SIdle else STrySet)))
  | spin_try_set s t : spin_at s t = STrySet -> spin_step s (Spin true (set_at (spin_at s) t (if flag s then SIdle else SHold)))
  (* spinlock.hpp 31: locked_.clear(); *)
  | spin_unlock s t : spin_at s t = SHold -> spin_step s (Spin false (set_at (spin_at s) t SIdle)).
Definition spin_initial : spin_state := Spin false (fun _ => SIdle).

(** ** shared_spinlock *)
(** shared_spinlock.hpp 57. *)
Definition WRITER : Z := 2 ^ 31 - 1.
Definition wrap32 (x : Z) : Z := x mod 2 ^ 32.
Inductive shared_pc :=
  | LIdle
  | LLock        (* in lock(), before try_lock (line 20) *)
  | LWait        (* in lock(), before the load of line 21 *)
  | LTry         (* in try_lock() called by the client *)
  | LHold        (* holding exclusively *)
  | LAdd         (* in lock_shared(), before fetch_add (line 38) *)
  | LSpin (view : nat)  (* in lock_shared(), before the load of line 39; [view] is the place of its last access in the history *)
  | LTryAdd      (* in try_lock_shared(), before fetch_add (line 46) *)
  | LUndo        (* in try_lock_shared(), before fetch_sub (line 47) *)
  | LShared.     (* holding shared *)
(** The values cntr_ had, oldest first; there are finitely many threads. *)
Record shared_state := Shared { history : list Z; shared_at : list shared_pc }.
Definition current (s : shared_state) : Z := default 0 (last (history s)).
Definition goes (s : shared_state) (t : nat) (pc : shared_pc) : shared_state := Shared (history s) (<[t := pc]> (shared_at s)).
Definition writes (s : shared_state) (x : Z) (t : nat) (pc : shared_pc) : shared_state := Shared (history s ++ [wrap32 x]) (<[t := pc]> (shared_at s)).

Inductive shared_step : shared_state -> shared_state -> Prop :=
  | shared_call s t pc : shared_at s !! t = Some LIdle -> (pc = LLock \/ pc = LTry \/ pc = LAdd \/ pc = LTryAdd) -> shared_step s (goes s t pc)
  (* shared_spinlock.hpp 20, 25-29: compare_exchange_strong(0, WRITER); when it fails it is a
     load, which may have read an old value *)
  | shared_lock_ok s t : shared_at s !! t = Some LLock -> current s = 0 -> shared_step s (writes s WRITER t LHold)
  | shared_lock_fail s t : shared_at s !! t = Some LLock -> shared_step s (goes s t LWait)
  (* line 21: while (cntr_.load()) pause; the value is not used otherwise *)
  | shared_lock_wait s t (seen : bool) : shared_at s !! t = Some LWait -> shared_step s (goes s t (if seen then LWait else LLock))
  | shared_try_ok s t : shared_at s !! t = Some LTry -> current s = 0 -> shared_step s (writes s WRITER t LHold)
  | shared_try_fail s t : shared_at s !! t = Some LTry -> shared_step s (goes s t LIdle)
  (* lines 31-34 *)
  | shared_unlock s t : shared_at s !! t = Some LHold -> shared_step s (writes s (current s - WRITER) t LIdle)
  (* line 38 *)
  | shared_add s t : shared_at s !! t = Some LAdd -> shared_step s (writes s (current s + 1) t (LSpin (length (history s))))
  (* line 39: a load of the value at place [i], not older than the thread's last access *)
  | shared_spin s t view i x : shared_at s !! t = Some (LSpin view) -> (view <= i)%nat -> history s !! i = Some x ->
      shared_step s (goes s t (if WRITER <=? x then LSpin i else LShared))
  (* lines 46-48 *)
  | shared_try_add s t : shared_at s !! t = Some LTryAdd -> shared_step s (writes s (current s + 1) t (if current s <? WRITER then LShared else LUndo))
  | shared_undo s t : shared_at s !! t = Some LUndo -> shared_step s (writes s (current s - 1) t LIdle)
  (* lines 51-54 *)
  | shared_unlock_shared s t : shared_at s !! t = Some LShared -> shared_step s (writes s (current s - 1) t LIdle).
Definition shared_initial (threads : nat) : shared_state := Shared [0] (replicate threads LIdle).
