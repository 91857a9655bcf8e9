(** Model of the stop conditions, /repo/src/stop_condition/stop_condition_base.{hpp,cpp},
    stop_condition.{hpp,cpp} and composite.hpp.  [None] is a failed assertion. *)
From Coq Require Import ZArith.
From stdpp Require Import list list_numbers.
From Verif Require Import FloatBase FloatModel StatsModel.

(** What a stop condition reads of the GA. *)
Record info := Info { generation : nat; max_generations : nat; evals : nat; objectives : nat; fmat : list (list b64) }.

(** An object of a class derived from StopCondition: its members, initialize, stop_condition. *)
Record condition := Condition {
  members : Type;
  initialize : info -> members -> members;
  stop_condition : info -> members -> option (bool * members);
  current : members;
}.
Definition with_current (c : condition) (s : members c) : condition := Condition (members c) (initialize c) (stop_condition c) s.

(** The last generation, stop_condition_base.cpp 10. *)
Definition last_generation (i : info) : bool := max_generations i <=? generation i + 1.

(** The conditions built from others with the operators of composite.hpp (183-196). *)
Inductive expr := Leaf (c : condition) | Or (l r : expr) | And (l r : expr) | Not (e : expr).

(** initialize, composite.hpp 24-28, 49-53, 75-78 (line numbers of that file). *)
Fixpoint init (e : expr) (i : info) : expr :=
  match e with
  | Leaf c => Leaf (with_current c (initialize c i (current c)))
  | Or l r => Or (init l i) (init r i)
  | And l r => And (init l i) (init r i)
  | Not e => Not (init e i)
  end.
(** StopCondition::operator(), stop_condition_base.cpp 8-11, with stop_condition of OR (30-34),
    AND (55-60) and NOT (80-83), which call operator() of their parts. *)
Fixpoint step (e : expr) (i : info) : option (bool * expr) :=
  '(b, e) ← match e with
    | Leaf c => '(b, s) ← stop_condition c i (current c); Some (b, Leaf (with_current c s))
    | Or l r =>
        '(b, l) ← step l i;
        if (b : bool) then Some (true, Or l r) else '(b', r) ← step r i; Some (b', Or l r)
    | And l r => '(b, l) ← step l i; '(b', r) ← step r i; Some (b && b', And l r)
    | Not e => '(b, e) ← step e i; Some (negb b, Not e)
    end;
  Some (b || last_generation i, e).

(** The values in the generations of a history: initialize is called once, in the first.
    [values] calls the condition in all generations, [run] until it answers true, as GA::solve
    does (/repo/src/core/ga_base.impl.hpp 551-554). *)
Fixpoint values_from (e : expr) (h : list info) : option (list bool) :=
  match h with [] => Some [] | i :: h => '(b, e) ← step e i; l ← values_from e h; Some (b :: l) end.
Definition values (e : expr) (h : list info) : option (list bool) :=
  match h with [] => Some [] | i :: _ => values_from (init e i) h end.
Fixpoint run_from (e : expr) (h : list info) : option (list bool) :=
  match h with [] => Some [] | i :: h => '(b, e) ← step e i; if (b : bool) then Some [true] else l ← run_from e h; Some (b :: l) end.
Definition run (e : expr) (h : list info) : option (list bool) :=
  match h with [] => Some [] | i :: _ => run_from (init e i) h end.

(** FitnessEvals, stop_condition.cpp 35-38. *)
Definition FitnessEvals (max_fitness_evals : nat) : condition :=
  Condition unit (fun _ s => s) (fun i s => Some (max_fitness_evals <=? evals i, s)) tt.
(** FitnessValue, 41-53; [t] are the tolerances in use. *)
Definition fitness_value (t : tolerances) (fitness_threshold : list b64) (i : info) : option bool :=
  if decide (objectives i = length fitness_threshold) then
    Some (existsb (fun fitness_vector => negb (paretoCompareLess t fitness_vector fitness_threshold)) (fmat i))
  else None.
Definition FitnessValue (t : tolerances) (fitness_threshold : list b64) : condition :=
  Condition unit (fun _ s => s) (fun i s => b ← fitness_value t fitness_threshold i; Some (b, s)) tt.
(** NoEarlyStop, stop_condition.hpp 237-243. *)
Definition NoEarlyStop : condition := Condition unit (fun _ s => s) (fun i s => Some (false, s)) tt.

(** metricImproved, 15-32. *)
Fixpoint metricImproved (delta : b64) (best_so_far new_val : list b64) : option (list b64 * bool) :=
  match best_so_far, new_val with
  | [], [] => Some ([], false)
  | b :: best_so_far, x :: new_val =>
      '(l, improved) ← metricImproved delta best_so_far new_val;
      if fle (fadd b delta) x then Some (x :: l, true) else Some (b :: l, improved)
  | _, _ => None
  end.
(** FitnessMeanStall and FitnessBestStall, 56-89: [metric] is fitnessMean or maxFitness.
    The counter is a size_t: reset (stop_condition.hpp 160, 227) wraps around at 2^64. *)
Record stall := Stall { best : list b64; cntr : Z }.
Section stall.
Variable metric : list (list b64) -> option (list b64).
Variable patience : nat.
Variable delta : b64.
Definition reset_value : Z := ((Z.of_nat patience + 1) mod 2 ^ 64)%Z.
Definition stall_initialize (i : info) (s : stall) : stall := Stall (replicate (objectives i) (fneg finf)) reset_value.
Definition stall_observe (current : list b64) (s : stall) : option (bool * stall) :=
  '(b, improved) ← metricImproved delta (best s) current;
  let cntr := if (improved : bool) then reset_value else (if cntr s =? 0 then 0 else cntr s - 1)%Z in
  Some ((cntr =? 0)%Z, Stall b cntr).
Definition stall_stop (i : info) (s : stall) : option (bool * stall) := current ← metric (fmat i); stall_observe current s.
Definition stall_condition (s : stall) : condition := Condition stall stall_initialize stall_stop s.
End stall.
Definition FitnessMeanStall patience delta s := stall_condition fitnessMean patience delta s.
Definition FitnessBestStall patience delta s := stall_condition maxFitness patience delta s.
