(** Model of thread_pool::execute_loop, parallel_for and the workers (utility/thread_pool.hpp,
    utility/latch.hpp).  The program run by the threads is a tree: an application of the operation
    of a loop to an element starts some nested loops one after the other and then returns or
    throws.  Each thread has a stack of frames; threads are interleaved arbitrarily, one step at a
    time.  The queues are used through their operations (C76); the pool is not stopped or resized
    while loops run, so emplace succeeds (the documentation of execution_threads forbids it). *)
From Coq Require Import PArith.
From stdpp Require Import list.

(** An application: [throws] tells how it ends; [nested] are the loops it runs before, each with
    its block size and the applications to its elements. *)
Inductive body := Body (throws : bool) (nested : list (positive * list body)).
(** An element of a range: its index and what remains to be done for it. *)
Definition item : Type := nat * body.
Record task := Task { task_loop : nat; task_items : list item }.
Inductive frame :=
  (* code outside the pool *)
  | FMain (rest : list item)
  (* a task of loop [id] (lines 57-62), with the elements still to be done *)
  | FTask (id : nat) (rest : list item)
  (* execute_loop of loop [id]: the blocks still to be submitted, the rest of the block of the caller, and
     whether the local queue was empty in the last check of line 76 *)
  | FLoop (id : nat) (blocks : list (list item)) (own : list item) (drained : bool).
Inductive pool_event :=
  | Started (id n : nat)        (* a loop over n elements begins *)
  | Applied (id i : nat)        (* the application to element i returned *)
  | Threw (id i : nat)          (* the application to element i threw *)
  | Returned (id : nat)         (* execute_loop returned *)
  | Rethrew (id : nat)          (* execute_loop threw in line 81 *)
  | Left (id : nat).            (* execute_loop was left by an exception in line 68 *)
(** Loops are numbered in the order in which they begin. *)
Record pool := Pool {
  queues : list (list task);        (* the queue of worker t *)
  stacks : list (list frame);       (* the frames of thread t, top first; the first threads are the workers *)
  latches : nat -> nat;             (* remaining_tasks of each loop *)
  excs : nat -> bool;               (* has_exception of each loop *)
  dead : nat -> bool;               (* the frame of execute_loop is gone *)
  next_id : nat;
  plog : list pool_event;
  undefined : bool }.
Definition upd {A} (f : nat -> A) (id : nat) (x : A) : nat -> A := fun id' => if decide (id' = id) then x else f id'.

(** thread_pool.hpp 44-56: the blocks submitted and the block of the caller. *)
Fixpoint cut (items : list item) (step remainder i tasks : nat) : list (list item) * list item :=
  match tasks with
  | O => ([], items)
  | S tasks => let k := step + (if decide (i < remainder) then 1 else 0) in
               let '(blocks, own) := cut (drop k items) step remainder (S i) tasks in (take k items :: blocks, own)
  end.
Definition task_count (workers n : nat) (block_size : positive) : nat :=
  let block_count := n / Pos.to_nat block_size + (if decide (n mod Pos.to_nat block_size = 0) then 0 else 1) in
  (workers + (if decide (workers = 0) then 1 else 0)) `min` n `min` block_count.
Definition split_loop (workers : nat) (block_size : positive) (es : list body) : list (list item) * list item :=
  let n := length es in
  let k := task_count workers n block_size in
  cut (zip (seq 0 n) es) (n / k) (n mod k) 0 (k - 1).

(** The elements a frame on top of a stack works on; a frame that still submits blocks or waits has none. *)
Definition running (f : frame) : list item :=
  match f with
  | FMain rest | FTask _ rest => rest
  | FLoop _ [] own _ => own
  | FLoop _ _ _ _ => []
  end.
Definition with_items (f : frame) (its : list item) : frame :=
  match f with
  | FMain _ => FMain its
  | FTask id _ => FTask id its
  | FLoop id blocks _ drained => FLoop id blocks its drained
  end.
(** The application a frame is in ends with an exception. *)
Definition raise (f : frame) : frame :=
  match running f with (i, _) :: its => with_items f ((i, Body true []) :: its) | [] => f end.
Definition raise_top (fs : list frame) : list frame := match fs with f :: fs => raise f :: fs | [] => [] end.
Definition applied (f : frame) (i : nat) : list pool_event :=
  match f with FMain _ => [] | FTask id _ | FLoop id _ _ _ => [Applied id i] end.
(** A task uses the frame of its loop: the operation, the exception and the latch. *)
Definition alive (s : pool) (f : frame) : Prop := match f with FTask id _ => dead s id = false | _ => True end.
Definition set_stack (s : pool) (t : nat) (st : list frame) : pool :=
  Pool (queues s) (<[t := st]> (stacks s)) (latches s) (excs s) (dead s) (next_id s) (plog s) (undefined s).
Definition log_event (s : pool) (es : list pool_event) : pool :=
  Pool (queues s) (stacks s) (latches s) (excs s) (dead s) (next_id s) (plog s ++ es) (undefined s).

(** [pool_step t p s s']: a step of thread [t]; [p] is false for a step that only waits. *)
Inductive pool_step (t : nat) : bool -> pool -> pool -> Prop :=
  (* a nested loop over an empty range: line 33 *)
  | step_empty s f fs i th bs ls its : undefined s = false -> stacks s !! t = Some (f :: fs) -> alive s f -> running f = (i, Body th ((bs, []) :: ls)) :: its ->
      pool_step t true s (set_stack s t (with_items f ((i, Body th ls) :: its) :: fs))
  (* a nested loop begins: lines 35-50 *)
  | step_begin s f fs i th bs e es ls its blocks own : undefined s = false -> stacks s !! t = Some (f :: fs) -> alive s f -> running f = (i, Body th ((bs, e :: es) :: ls)) :: its ->
      split_loop (length (queues s)) bs (e :: es) = (blocks, own) ->
      pool_step t true s (Pool (queues s) (<[t := FLoop (next_id s) blocks own false :: with_items f ((i, Body th ls) :: its) :: fs]> (stacks s))
        (upd (latches s) (next_id s) (length blocks)) (upd (excs s) (next_id s) false) (dead s) (S (next_id s)) (plog s ++ [Started (next_id s) (length (e :: es))]) (undefined s))
  (* an application returns *)
  | step_apply s f fs i its : undefined s = false -> stacks s !! t = Some (f :: fs) -> alive s f -> running f = (i, Body false []) :: its ->
      pool_step t true s (log_event (set_stack s t (with_items f its :: fs)) (applied f i))
  (* an application throws in a task: lines 59-60, 38-42 *)
  | step_throw_task s id i its fs : undefined s = false -> stacks s !! t = Some (FTask id ((i, Body true []) :: its) :: fs) -> dead s id = false ->
      pool_step t true s (Pool (queues s) (<[t := FTask id [] :: fs]> (stacks s)) (latches s) (upd (excs s) id true) (dead s) (next_id s) (plog s ++ [Threw id i]) (undefined s))
  (* an application throws in the block of the caller: line 68 *)
  | step_throw_own s id i its d fs : undefined s = false -> stacks s !! t = Some (FLoop id [] ((i, Body true []) :: its) d :: fs) ->
      pool_step t true s (Pool (queues s) (<[t := raise_top fs]> (stacks s)) (latches s) (excs s) (upd (dead s) id true) (next_id s) (plog s ++ [Threw id i; Left id]) (undefined s))
  (* an exception reaches the code outside the pool *)
  | step_throw_main s i its fs : undefined s = false -> stacks s !! t = Some (FMain ((i, Body true []) :: its) :: fs) ->
      pool_step t true s (set_stack s t (FMain its :: fs))
  | step_main_end s fs : undefined s = false -> stacks s !! t = Some (FMain [] :: fs) -> pool_step t true s (set_stack s t fs)
  (* line 64; the worker chosen by turn_ is arbitrary *)
  | step_submit s id b blocks own d fs w q : undefined s = false -> stacks s !! t = Some (FLoop id (b :: blocks) own d :: fs) -> queues s !! w = Some q ->
      pool_step t true s (Pool (<[w := q ++ [Task id b]]> (queues s)) (<[t := FLoop id blocks own d :: fs]> (stacks s)) (latches s) (excs s) (dead s) (next_id s) (plog s) (undefined s))
  (* lines 119-124: a worker without task *)
  | step_take s tk q : undefined s = false -> stacks s !! t = Some [] -> queues s !! t = Some (tk :: q) ->
      pool_step t true s (Pool (<[t := q]> (queues s)) (<[t := [FTask (task_loop tk) (task_items tk)]]> (stacks s)) (latches s) (excs s) (dead s) (next_id s) (plog s) (undefined s))
  (* line 76: a waiting worker runs the tasks of its queue *)
  | step_help s id fs tk q : undefined s = false -> stacks s !! t = Some (FLoop id [] [] false :: fs) -> queues s !! t = Some (tk :: q) ->
      pool_step t true s (Pool (<[t := q]> (queues s)) (<[t := FTask (task_loop tk) (task_items tk) :: FLoop id [] [] false :: fs]> (stacks s)) (latches s) (excs s) (dead s) (next_id s) (plog s) (undefined s))
  | step_drained s id fs : undefined s = false -> stacks s !! t = Some (FLoop id [] [] false :: fs) -> queues s !! t = Some [] ->
      pool_step t false s (set_stack s t (FLoop id [] [] true :: fs))
  (* lines 77-78 *)
  | step_yield s id fs q : undefined s = false -> stacks s !! t = Some (FLoop id [] [] true :: fs) -> queues s !! t = Some q -> latches s id <> 0 ->
      pool_step t false s (set_stack s t (FLoop id [] [] false :: fs))
  (* lines 72, 77, 81: the latch is zero *)
  | step_return s id d fs : undefined s = false -> stacks s !! t = Some (FLoop id [] [] d :: fs) -> (queues s !! t = None \/ d = true) -> latches s id = 0 -> excs s id = false ->
      pool_step t true s (Pool (queues s) (<[t := fs]> (stacks s)) (latches s) (excs s) (upd (dead s) id true) (next_id s) (plog s ++ [Returned id]) (undefined s))
  | step_rethrow s id d fs : undefined s = false -> stacks s !! t = Some (FLoop id [] [] d :: fs) -> (queues s !! t = None \/ d = true) -> latches s id = 0 -> excs s id = true ->
      pool_step t true s (Pool (queues s) (<[t := raise_top fs]> (stacks s)) (latches s) (excs s) (upd (dead s) id true) (next_id s) (plog s ++ [Rethrew id]) (undefined s))
  (* line 61 *)
  | step_finish s id fs : undefined s = false -> stacks s !! t = Some (FTask id [] :: fs) -> dead s id = false ->
      pool_step t true s (Pool (queues s) (<[t := fs]> (stacks s)) (upd (latches s) id (latches s id - 1)) (excs s) (dead s) (next_id s) (plog s) (undefined s))
  (* a task uses the frame of execute_loop after it is gone *)
  | step_dangling s id its fs : undefined s = false -> stacks s !! t = Some (FTask id its :: fs) -> dead s id = true ->
      pool_step t true s (Pool (queues s) (stacks s) (latches s) (excs s) (dead s) (next_id s) (plog s) true)
  (* nothing to do: the thread is blocked in take, in wait (line 72), or has ended *)
  | step_blocked s st : undefined s = false -> stacks s !! t = Some st ->
      match st with
      | [] => queues s !! t = None \/ queues s !! t = Some []
      | FLoop id [] [] _ :: _ => queues s !! t = None /\ latches s id <> 0
      | _ => False
      end -> pool_step t false s s
  | step_undefined s : undefined s = true -> pool_step t false s s.
Definition some_step (s s' : pool) : Prop := exists t p, pool_step t p s s'.

(** [workers] workers and one thread for each program in [mains]. *)
Definition pool_initial (workers : nat) (mains : list (list body)) : pool :=
  Pool (replicate workers []) (replicate workers [] ++ ((fun es => [FMain (zip (seq 0 (length es)) es)]) <$> mains))
    (fun _ => 0) (fun _ => false) (fun _ => false) 0 [] false.
(** All threads have ended or wait for tasks, and there are no tasks. *)
Definition finished (s : pool) : Prop := Forall (fun st => st = []) (stacks s) /\ Forall (fun q => q = []) (queues s).
