(** Model of the population statistics and of the metrics that record them:
    /repo/src/metrics/pop_stats.cpp 19-66, /repo/src/metrics/fitness_metrics.cpp,
    /repo/src/metrics/misc_metrics.cpp, /repo/src/metrics/monitor.hpp.
    A fitness matrix is the list of its rows; [None] is a failed assertion or an access out of
    range.  Simplified: fvec[i] * ninv is rounded before the addition (no fused multiply-add).
    fitnessVariance and fitnessStdDev are not modelled (only as some function of the matrix). *)
From Coq Require Import ZArith.
From stdpp Require Import list list_numbers.
From Verif Require Import FloatBase AlgorithmModel.

(** The loop over the rows from first on. *)
Definition rows_loop (f : b64 -> b64 -> b64) (rows : list (list b64)) (acc : list b64) : option (list b64) :=
  fold_left (fun acc r => a ← acc; elementwise f a r) rows (Some acc).
(** minFitness, 22-34. *)
Definition minFitness (m : list (list b64)) : option (list b64) :=
  match m with [] => None | r :: rest => rows_loop (std_min flt) rest r end.
(** maxFitness, 36-48. *)
Definition maxFitness (m : list (list b64)) : option (list b64) :=
  match m with [] => None | r :: rest => rows_loop (std_max flt) rest r end.
(** fitnessMean, 50-66. *)
Definition fitnessMean (m : list (list b64)) : option (list b64) :=
  match m with
  | [] => None
  | r :: _ =>
      let ninv := fdiv (fmk 1 0) (fmk (Z.of_nat (length m)) 0) in
      rows_loop (fun acc x => fadd acc (fmul x ninv)) m (replicate (length r) fzero)
  end.

(** A metric that appends f(fitness_matrix) in update and clears its data in initialize:
    Monitor::initialize, monitor.hpp 43; FitnessMin, FitnessMax, FitnessMean, FitnessVariance,
    FitnessStdDev, fitness_metrics.cpp 9-37; NadirPoint and Hypervolume,
    distribution_metrics.cpp 13-47.  [old] is the data before. *)
Section monitor.
Context {R : Type}.
Variable f : list (list b64) -> option R.
Definition monitor_initialize (old : list R) : list R := [].
Definition monitor_update (data : list R) (m : list (list b64)) : option (list R) := r ← f m; Some (data ++ [r]).
Fixpoint monitor_updates (data : list R) (ms : list (list (list b64))) : option (list R) :=
  match ms with [] => Some data | m :: ms => data ← monitor_update data m; monitor_updates data ms end.
Definition monitor_run (old : list R) (ms : list (list (list b64))) : option (list R) := monitor_updates (monitor_initialize old) ms.
End monitor.

(** FitnessEvaluations, misc_metrics.cpp 11-23; size_t numbers wrap around at 2^64. *)
Record evaluations := Evaluations { ev_data : list Z; ev_sum : Z }.
Definition evaluations_initialize (old : evaluations) : evaluations := Evaluations [] 0.
Definition evaluations_update (e : evaluations) (num_fitness_evals : nat) : evaluations :=
  let sum := Z.of_nat num_fitness_evals in
  Evaluations (ev_data e ++ [((sum - ev_sum e) mod 2 ^ 64)%Z]) sum.
Definition evaluations_run (old : evaluations) (counts : list nat) : evaluations :=
  fold_left evaluations_update counts (evaluations_initialize old).
