(** Model of concurrent_queue (utility/concurrent_queue.hpp).  Threads call emplace, take, close,
    closed and empty in any order and are interleaved arbitrarily; acquiring the mutex, each block
    of code run with it, and waiting on the condition variable are separate steps.  std::mutex and
    std::condition_variable are modelled by their contracts: at most one owner; wait releases the
    mutex and goes to sleep in one step, may wake up at any time, and owns the mutex again when it
    returns; notify_one wakes one sleeping thread if there is any, notify_all all of them.

    [trace] records what the calls did, in the order of their critical sections. *)
From stdpp Require Import list.

Inductive event (A : Type) :=
  | Put (x : A)               (* emplace returned true *)
  | Reject (x : A)            (* emplace returned false *)
  | Take (t : nat) (x : A)    (* take by thread t returned x *)
  | End (t : nat)             (* take by thread t returned nullopt *)
  | Close.                    (* close *)
Arguments Put {A}. Arguments Reject {A}. Arguments Take {A}. Arguments End {A}. Arguments Close {A}.

Inductive queue_pc (A : Type) :=
  | QIdle
  | QEmplace (x : A)      (* in emplace, before locking (line 21) *)
  | QEmplaceIn (x : A)    (* in emplace, owning the mutex (lines 22-25) *)
  | QTake                 (* in take, before locking (line 30) *)
  | QTakeIn               (* in take, owning the mutex, before evaluating the predicate (line 31) *)
  | QAsleep               (* in take, waiting on queue_cv_ (line 31) *)
  | QWoken                (* in take, woken up, before locking again (line 31) *)
  | QTakeOut              (* in take, owning the mutex, after the wait (lines 33-37) *)
  | QClose                (* in close, before locking (line 42) *)
  | QCloseIn              (* in close, owning the mutex (lines 43-44) *)
  | QAsk                  (* in closed or empty, before locking (lines 49, 55) *)
  | QAskIn                (* in closed or empty, owning the mutex (lines 50, 56) *)
  | QLeave.               (* about to unlock *)
Arguments QIdle {A}. Arguments QEmplace {A}. Arguments QEmplaceIn {A}. Arguments QTake {A}. Arguments QTakeIn {A}.
Arguments QAsleep {A}. Arguments QWoken {A}. Arguments QTakeOut {A}. Arguments QClose {A}. Arguments QCloseIn {A}.
Arguments QAsk {A}. Arguments QAskIn {A}. Arguments QLeave {A}.

Record queue_state (A : Type) := Queue {
  elements : list A;        (* queue_ *)
  is_closed : bool;         (* is_closed_ *)
  owner : option nat;       (* queue_lock_ *)
  queue_at : list (queue_pc A);
  trace : list (event A) }.
Arguments Queue {A}. Arguments elements {A}. Arguments is_closed {A}. Arguments owner {A}. Arguments queue_at {A}. Arguments trace {A}.

Section model.
Context {A : Type}.
Definition queue_initial (threads : nat) : queue_state A := Queue [] false None (replicate threads QIdle) [].
(** Thread [t] moves to [pc]. *)
Definition moves (s : queue_state A) (t : nat) (pc : queue_pc A) : queue_state A := Queue (elements s) (is_closed s) (owner s) (<[t := pc]> (queue_at s)) (trace s).
Definition locks (s : queue_state A) (t : nat) (pc : queue_pc A) : queue_state A := Queue (elements s) (is_closed s) (Some t) (<[t := pc]> (queue_at s)) (trace s).
Definition wake (pc : queue_pc A) : queue_pc A := match pc with QAsleep => QWoken | _ => pc end.

(** The code before a lock acquisition and the code after it. *)
Inductive enters : queue_pc A -> queue_pc A -> Prop :=
  | enters_emplace x : enters (QEmplace x) (QEmplaceIn x)
  | enters_take : enters QTake QTakeIn
  | enters_again : enters QWoken QTakeIn
  | enters_close : enters QClose QCloseIn
  | enters_ask : enters QAsk QAskIn.

Inductive queue_step : queue_state A -> queue_state A -> Prop :=
  | queue_call s t pc : queue_at s !! t = Some QIdle -> (exists x, pc = QEmplace x) \/ pc = QTake \/ pc = QClose \/ pc = QAsk -> queue_step s (moves s t pc)
  | queue_lock s t pc pc' : queue_at s !! t = Some pc -> enters pc pc' -> owner s = None -> queue_step s (locks s t pc')
  | queue_unlock s t : queue_at s !! t = Some QLeave -> queue_step s (Queue (elements s) (is_closed s) None (<[t := QIdle]> (queue_at s)) (trace s))
  (* line 22 *)
  | queue_emplace_closed s t x : queue_at s !! t = Some (QEmplaceIn x) -> is_closed s = true ->
      queue_step s (Queue (elements s) (is_closed s) (owner s) (<[t := QLeave]> (queue_at s)) (trace s ++ [Reject x]))
  (* lines 23-25: notify_one wakes a sleeping thread [w], if there is any *)
  | queue_emplace_none s t x : queue_at s !! t = Some (QEmplaceIn x) -> is_closed s = false -> QAsleep ∉ queue_at s ->
      queue_step s (Queue (elements s ++ [x]) (is_closed s) (owner s) (<[t := QLeave]> (queue_at s)) (trace s ++ [Put x]))
  | queue_emplace_one s t x w : queue_at s !! t = Some (QEmplaceIn x) -> is_closed s = false -> queue_at s !! w = Some QAsleep ->
      queue_step s (Queue (elements s ++ [x]) (is_closed s) (owner s) (<[t := QLeave]> (<[w := QWoken]> (queue_at s))) (trace s ++ [Put x]))
  (* line 31: the predicate, and the wait when it is false *)
  | queue_take_ready s t : queue_at s !! t = Some QTakeIn -> elements s <> [] \/ is_closed s = true -> queue_step s (moves s t QTakeOut)
  | queue_take_wait s t : queue_at s !! t = Some QTakeIn -> elements s = [] -> is_closed s = false ->
      queue_step s (Queue (elements s) (is_closed s) None (<[t := QAsleep]> (queue_at s)) (trace s))
  | queue_spurious s t : queue_at s !! t = Some QAsleep -> queue_step s (moves s t QWoken)
  (* line 33 *)
  | queue_take_end s t : queue_at s !! t = Some QTakeOut -> is_closed s = true -> elements s = [] ->
      queue_step s (Queue (elements s) (is_closed s) (owner s) (<[t := QLeave]> (queue_at s)) (trace s ++ [End t]))
  (* lines 35-37; taking from an empty queue_ would be undefined *)
  | queue_take_front s t x xs : queue_at s !! t = Some QTakeOut -> elements s = x :: xs ->
      queue_step s (Queue xs (is_closed s) (owner s) (<[t := QLeave]> (queue_at s)) (trace s ++ [Take t x]))
  (* lines 43-44 *)
  | queue_close s t : queue_at s !! t = Some QCloseIn ->
      queue_step s (Queue (elements s) true (owner s) (<[t := QLeave]> (wake <$> queue_at s)) (trace s ++ [Close]))
  (* lines 50, 56 *)
  | queue_ask s t : queue_at s !! t = Some QAskIn -> queue_step s (moves s t QLeave).
End model.
