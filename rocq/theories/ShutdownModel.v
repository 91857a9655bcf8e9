(** Model of the life of the thread pool outside of its loops: construction, submission to the queues, stopping,
    destruction and resizing (utility/thread_pool.hpp 84-102, 113-154, 192-195).  The operations of
    concurrent_queue are single steps here (their interleavings are in QueueModel.v), and a task is one step of
    its worker that ends (the inside of tasks is in PoolModel.v).  std::jthread is modelled by its contract: the
    destructor waits for the end of the thread.  Using the queue of a worker
    that was destroyed sets [use_after_destroy]. *)
From stdpp Require Import list.

(** worker_main, thread_pool.hpp 117-125. *)
Inductive worker_pc (A : Type) :=
  | Taking             (* in task_queue.take(), line 121 *)
  | Running (x : A)    (* line 123 *)
  | Returned.          (* line 122 *)
Arguments Taking {A}. Arguments Running {A}. Arguments Returned {A}.

(** worker_t, thread_pool.hpp 115-129; [destroyed] after its destructor. *)
Record worker (A : Type) := Worker { task_queue : list A; queue_closed : bool; thread : worker_pc A; destroyed : bool }.
Arguments Worker {A}. Arguments task_queue {A}. Arguments queue_closed {A}. Arguments thread {A}. Arguments destroyed {A}.

(** What the thread that owns the pool does. *)
Inductive phase :=
  | InUse
  | Stopping (i : nat)     (* the loop of stop, thread_pool.hpp 150, at worker i *)
  | Destroying (i : nat)   (* the destructor of the vector of workers, at worker i *)
  | Gone.

Record life (A : Type) := Life {
  workers : list (worker A);
  doing : phase;
  submitted : list (nat * A);    (* tasks put in the queue of a worker, in order *)
  executed : list (nat * A);     (* tasks run by a worker, in order *)
  use_after_destroy : bool }.
Arguments Life {A}. Arguments workers {A}. Arguments doing {A}. Arguments submitted {A}. Arguments executed {A}. Arguments use_after_destroy {A}.

Section model.
Context {A : Type}.
(** The initial value of a worker, thread_pool.hpp 127-128. *)
Definition new_worker : worker A := Worker [] false Taking false.
Definition new_pool (n : nat) : life A := Life (replicate n new_worker) InUse [] [] false.

(** emplace on the queue of worker i (concurrent_queue.hpp 19-26), which is [w]. *)
Definition emplace (w : worker A) (x : A) : option (worker A) :=
  if queue_closed w then None else Some (Worker (task_queue w ++ [x]) false (thread w) (destroyed w)).
(** The next step of the thread of a worker, with the task that it completes; none when it waits or has ended. *)
Definition worker_step (w : worker A) : option (worker A * option A) :=
  match thread w with
  | Taking =>
      match task_queue w with
      | x :: q => Some (Worker q (queue_closed w) (Running x) (destroyed w), None)
      | [] => if queue_closed w then Some (Worker [] (queue_closed w) Returned (destroyed w), None) else None
      end
  | Running x => Some (Worker (task_queue w) (queue_closed w) Taking (destroyed w), Some x)
  | Returned => None
  end.
Definition close (w : worker A) : worker A := Worker (task_queue w) true (thread w) (destroyed w).
(** The destructor of worker_t: the thread is joined first, then the queue is destroyed, because of the order of
    the members. *)
Definition destroy_worker (w : worker A) : option (worker A) :=
  match thread w with Returned => Some (Worker (task_queue w) (queue_closed w) Returned true) | _ => None end.

Inductive life_step : life A -> life A -> Prop :=
  | step_submit s i x w w' : doing s = InUse -> workers s !! i = Some w -> emplace w x = Some w' ->
      life_step s (Life (<[i := w']> (workers s)) (doing s) (submitted s ++ [(i, x)]) (executed s) (use_after_destroy s))
  | step_worker s i w w' done : workers s !! i = Some w -> worker_step w = Some (w', done) ->
      life_step s (Life (<[i := w']> (workers s)) (doing s) (submitted s) (executed s ++ match done with Some x => [(i, x)] | None => [] end) (use_after_destroy s || destroyed w))
  (* the destructor, thread_pool.hpp 102, or line 93 *)
  | step_stop s : doing s = InUse -> life_step s (Life (workers s) (Stopping 0) (submitted s) (executed s) (use_after_destroy s))
  | step_close s i w : doing s = Stopping i -> workers s !! i = Some w ->
      life_step s (Life (<[i := close w]> (workers s)) (Stopping (S i)) (submitted s) (executed s) (use_after_destroy s))
  | step_stopped s i : doing s = Stopping i -> i = length (workers s) ->
      life_step s (Life (workers s) (Destroying 0) (submitted s) (executed s) (use_after_destroy s))
  | step_destroy s i w w' : doing s = Destroying i -> workers s !! i = Some w -> destroy_worker w = Some w' ->
      life_step s (Life (<[i := w']> (workers s)) (Destroying (S i)) (submitted s) (executed s) (use_after_destroy s))
  | step_gone s i : doing s = Destroying i -> i = length (workers s) ->
      life_step s (Life (workers s) Gone (submitted s) (executed s) (use_after_destroy s)).
End model.

(** ** The number of threads *)
(** The members of the pool between loops: whether the queue of each worker accepts tasks, and turn_. *)
Record pool := Pool { accepting : list bool; turn : nat }.
(** The vector is made by std::vector(count - 1), thread_pool.hpp 94 and 153. *)
Inductive resized :=
  | Done (p : pool)
  | Throws (p : pool)      (* left by an exception *)
  | Hangs (p : pool).      (* never returns *)
(** thread_pool.hpp 153-154; [hc] is hardware_concurrency(). *)
Definition default_pool (hc : nat) : pool := Pool (replicate (Nat.max hc 1 - 1) true) 0.
(** thread_count(), thread_pool.hpp 97-100. *)
Definition thread_count (p : pool) : nat := length (accepting p) + 1.
(** thread_count(count) for count >= 1, thread_pool.hpp 89-95; [failure] is the number of threads made when the
    creation of the next one fails.  The new vector is made after stop() and before the old one is destroyed; when
    it fails its finished workers are destroyed without having been closed, which waits for a thread that waits
    for tasks (see C114_unclosed_refuted). *)
Definition set_thread_count (p : pool) (count : nat) (failure : option nat) : resized :=
  let p0 := Pool (accepting p) 0 in
  if decide (count = thread_count p) then Done p0
  else
    let p1 := Pool (map (fun _ => false) (accepting p0)) 0 in
    match failure with
    | None => Done (Pool (replicate (count - 1) true) 0)
    | Some made => if decide (count - 1 <= made) then Done (Pool (replicate (count - 1) true) 0) else if decide (made = 0) then Throws p1 else Hangs p1
    end.
(** execution_threads(count), thread_pool.hpp 192-195. *)
Definition execution_threads (p : pool) (count : nat) (failure : option nat) : resized := set_thread_count p (Nat.max count 1) failure.
(** scheduled_worker_queue().emplace, thread_pool.hpp 131-137 and 64-65: whether the next task is accepted. *)
Definition submit (p : pool) : option (bool * pool) :=
  if decide (accepting p = []) then None
  else b ← accepting p !! (turn p mod length (accepting p)); Some (b, Pool (accepting p) (S (turn p))).
