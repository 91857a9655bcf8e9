(** Model of the run of a genetic algorithm: class GA of /repo/src/core/ga_base.impl.hpp,
    with the base class functions of /repo/src/algorithm/algorithm_base.impl.hpp and
    /repo/src/stop_condition/stop_condition_base.cpp, for any gene type.

    What the user supplied or random parts of a run do is given by a record [outcomes]; the
    model is a function of it.  [None] is a failed assertion or undefined behaviour;
    [debug] tells whether GAPP_ASSERT is compiled in (the assertions inside the crossover and
    mutation operators are always checked).

    Simplified: the iterations of a parallel_for run one after the other (see EngineSchedule.v
    for the shared counter in evaluate; the other iterations write disjoint elements); exceptions
    thrown by user supplied functions are not modelled; metrics and on_generation_end, which
    get the GA by const reference, only leave an entry in a log; the on_generation_end function
    is set. *)
From stdpp Require Import list list_numbers.
From Verif Require Import FloatBase FloatModel AlgorithmModel FrontModel CacheModel CrossoverModel OperatorModel.

(** What happens in a run.  A view is what on_generation_end can see of the GA. *)
Record view (T : Type) := View { v_gen : nat; v_evals : nat; v_pop : list (candidate T); v_fmat : list (list b64) }.
Arguments View {T}. Arguments v_gen {T}. Arguments v_evals {T}. Arguments v_pop {T}. Arguments v_fmat {T}.
Inductive event (T : Type) :=
| ECall (c : list T)       (* evaluate called the fitness function *)
| EMetrics (v : view T)    (* metrics_.update *)
| ECallback (v : view T)   (* on_generation_end *)
| EStop (v : view T).      (* stop_condition of the stop condition object *)
Arguments ECall {T}. Arguments EMetrics {T}. Arguments ECallback {T}. Arguments EStop {T}.

(** The outcomes of the random and user supplied parts.  The first argument is the number
    of generations made so far, the second counts the calls in a generation. *)
Record outcomes (T : Type) := Outcomes {
  o_probe : list T;                                   (* generateCandidate in findNumberOfObjectives *)
  o_generate : nat -> list T;                         (* generateCandidate *)
  o_select : nat -> nat -> list (list b64) -> nat;    (* selectImpl *)
  o_rate : nat -> nat -> b64 * b64;                   (* crossover_rate, randomReal *)
  o_cross : nat -> nat -> candidate T -> candidate T -> option (candidate T * candidate T); (* crossover *)
  o_mutate : nat -> nat -> candidate T -> option (list T); (* mutate *)
  o_repair : option (nat -> nat -> list T -> list T); (* repair_ *)
  o_next : nat -> list (list b64) -> option (list nat); (* nextPopulationImpl *)
  o_optimal : nat -> list (list b64) -> list nat;     (* optimalSolutionsImpl *)
  o_merge : nat -> list (candidate T) -> list (candidate T) -> list (candidate T); (* mergeParetoSets *)
  o_stop : nat -> bool;                               (* stop_condition *)
}.
Arguments o_probe {T}. Arguments o_generate {T}. Arguments o_select {T}. Arguments o_rate {T}. Arguments o_cross {T}. Arguments o_mutate {T}.
Arguments o_repair {T}. Arguments o_next {T}. Arguments o_optimal {T}. Arguments o_merge {T}. Arguments o_stop {T}.

Section engine.
Context {T : Type} `{EqDecision T}.
Notation cand := (candidate T).

(** The settings of the GA and its fitness function. *)
Record settings := Settings {
  population_size : nat; cached_generations : nat; keep_all : bool; dynamic : bool; debug : bool;
  chrom_len : nat; variable_length : bool;
  tols : tolerances;
  chrom_eq : list T -> list T -> bool;  (* operator== of candidates *)
  chrom_less : list T -> list T -> bool; (* operator< of the chromosome vectors *)
  sort : (cand -> cand -> bool) -> list cand -> list cand; (* std::sort *)
  fitness_function : nat -> list T -> list b64; (* the result of the n-th call of a run *)
}.
(** The members of GA (and GaInfo) that change; [log] is not in the code. *)
Record ga := Ga {
  max_gen : nat; generation_cntr : nat; num_fitness_evals : nat; num_objectives : nat;
  population : list cand; fitness_matrix : list (list b64); solutions : list cand;
  fitness_cache : cache (list T) (list b64);
  log : list (event T);
}.

Section run.
Variable cf : settings.
Variable oc : outcomes T.

Definition assertion {A} (P : Prop) `{Decision P} (k : option A) : option A := if debug cf then check P k else k.
Definition view_of (g : ga) : view T := View (generation_cntr g) (num_fitness_evals g) (population g) (fitness_matrix g).
Definition emit (e : event T) (g : ga) : ga :=
  Ga (max_gen g) (generation_cntr g) (num_fitness_evals g) (num_objectives g) (population g) (fitness_matrix g) (solutions g) (fitness_cache g) (log g ++ [e]).
Definition set_evals (n : nat) (g : ga) : ga :=
  Ga (max_gen g) (generation_cntr g) n (num_objectives g) (population g) (fitness_matrix g) (solutions g) (fitness_cache g) (log g).
Definition set_population (p : list cand) (m : list (list b64)) (g : ga) : ga :=
  Ga (max_gen g) (generation_cntr g) (num_fitness_evals g) (num_objectives g) p m (solutions g) (fitness_cache g) (log g).
Definition set_solutions (s : list cand) (g : ga) : ga :=
  Ga (max_gen g) (generation_cntr g) (num_fitness_evals g) (num_objectives g) (population g) (fitness_matrix g) s (fitness_cache g) (log g).
Definition set_cache (c : cache (list T) (list b64)) (g : ga) : ga :=
  Ga (max_gen g) (generation_cntr g) (num_fitness_evals g) (num_objectives g) (population g) (fitness_matrix g) (solutions g) c (log g).
Definition set_max_gen (n : nat) (g : ga) : ga :=
  Ga n (generation_cntr g) (num_fitness_evals g) (num_objectives g) (population g) (fitness_matrix g) (solutions g) (fitness_cache g) (log g).
Definition incr_generation (g : ga) : ga :=
  Ga (max_gen g) (S (generation_cntr g)) (num_fitness_evals g) (num_objectives g) (population g) (fitness_matrix g) (solutions g) (fitness_cache g) (log g).

(** hasValidFitness, hasValidChromosome, 271-285; isValidEvaluatedPopulation and
    isValidUnevaluatedPopulation, 287-303. *)
Definition valid_fitness (d : nat) (c : cand) : Prop := is_evaluated c = true /\ length (fitness c) = d.
Definition valid_chromosome (c : cand) : Prop := length_ok (chrom_len cf) (variable_length cf) c.
Definition valid_evaluated (d : nat) (pop : list cand) : Prop := Forall (fun c => valid_chromosome c /\ valid_fitness d c) pop.
Definition valid_unevaluated (d : nat) (pop : list cand) : Prop := Forall (fun c => valid_chromosome c /\ (is_evaluated c = false \/ valid_fitness d c)) pop.
Global Instance valid_fitness_dec d c : Decision (valid_fitness d c). Proof. unfold valid_fitness. apply _. Defined.
Global Instance valid_chromosome_dec c : Decision (valid_chromosome c). Proof. unfold valid_chromosome. apply _. Defined.

(** evaluate, 456-485. *)
Definition evaluate (c : cand) (g : ga) : option (cand * ga) :=
  assertion (valid_chromosome c) (
  if negb (dynamic cf) && is_evaluated c then Some (c, g) else
  let call :=
    let f := fitness_function cf (num_fitness_evals g) (chromosome c) in
    let c' := Cand f (chromosome c) true in
    assertion (valid_fitness (num_objectives g) c') (Some (c', emit (ECall (chromosome c)) (set_evals (S (num_fitness_evals g)) g))) in
  if Nat.eqb (cached_generations cf) 0 then call
  else assertion (dynamic cf = false)
    match cache_get (fitness_cache g) (chromosome c) with
    | Some f => Some (Cand f (chromosome c) true, g)
    | None => call
    end).
Fixpoint evaluate_all (l : list cand) (g : ga) : option (list cand * ga) :=
  match l with
  | [] => Some ([], g)
  | c :: l => '(c, g) ← evaluate c g; '(l, g) ← evaluate_all l g; Some (c :: l, g)
  end.

(** repair, 417-433: [k] is the index of the child. *)
Definition repair (gen k : nat) (c : cand) : option cand :=
  assertion (valid_chromosome c)
  match o_repair oc with
  | None => Some c
  | Some r =>
      let improved := r gen k (chromosome c) in
      let c' := if decide (improved <> chromosome c) then Cand (fitness c) improved false else c in
      assertion (valid_chromosome c') (Some c')
  end.

(** toFitnessMatrix, population.hpp 68-83; append_row asserts rows of equal length. *)
Definition toFitnessMatrix (pop : list cand) : option (list (list b64)) :=
  match pop with
  | [] => Some []
  | c :: _ => check (Forall (fun x : cand => length (fitness x) = length (fitness c)) pop) (Some (fitness <$> pop))
  end.

(** Algorithm::select, algorithm_base.impl.hpp 19-33. *)
Definition select (gen k : nat) (g : ga) : option cand :=
  assertion (population_size cf = length (population g) /\ length (population g) = length (fitness_matrix g))
    (population g !! o_select oc gen k (fitness_matrix g)).
(** Algorithm::nextPopulation, algorithm_base.impl.hpp 35-52. *)
Definition nextPopulation (gen : nat) (parents children : list cand) : option (list cand) :=
  assertion (population_size cf = length parents /\ population_size cf <= length children) (
  let parents := parents ++ children in
  fmat ← toFitnessMatrix parents;
  next_indices ← o_next oc gen fmat;
  select_move parents next_indices).
(** Algorithm::optimalSolutions, algorithm_base.impl.hpp 54-69. *)
Definition optimalSolutions (gen : nat) (g : ga) : option (list cand) :=
  assertion (population_size cf = length (population g)) (
  match o_optimal oc gen (fitness_matrix g) with
  | [] => findParetoFrontPop (tols cf) fitness (num_objectives g) (population g)
  | is => select_copy (population g) is
  end).
(** updateOptimalSolutions, 488-505. *)
Definition updateOptimalSolutions (gen : nat) (g : ga) : option ga :=
  optimal_pop ← optimalSolutions gen g;
  let merged := o_merge oc gen (solutions g) optimal_pop in
  let lt (lhs rhs : cand) := chrom_less cf (chromosome lhs) (chromosome rhs) in
  let eq (lhs rhs : cand) := bool_decide (chromosome lhs = chromosome rhs) in
  Some (set_solutions (unique eq (sort cf lt merged)) g).

(** The crossovers of advance, 514-522: two selections and two children each; the second
    child of the last one is dropped if the population size is odd. *)
Definition crossover (gen i : nat) (g : ga) : option (cand * cand) :=
  p1 ← select gen (2 * i) g; p2 ← select gen (2 * i + 1) g;
  let '(pc, r) := o_rate oc gen i in
  crossover_op (chrom_eq cf) (num_objectives g) (chrom_len cf) (variable_length cf) (o_cross oc gen i) pc r p1 p2.
Definition make_children (gen : nat) (g : ga) : option (list cand) :=
  pairs ← mapM (fun i => crossover gen i g) (seq 0 (population_size cf / 2));
  let l := pairs ≫= (fun p : cand * cand => [p.1; p.2]) in
  if Nat.odd (population_size cf) then c ← crossover gen (population_size cf / 2) g; Some (l ++ [c.1]) else Some l.
(** The second parallel_for, 524-529. *)
Fixpoint finish_children (gen k : nat) (l : list cand) (g : ga) : option (list cand * ga) :=
  match l with
  | [] => Some ([], g)
  | c :: l =>
      c ← mutation_op (chrom_eq cf) (num_objectives g) (chrom_len cf) (variable_length cf) (o_mutate oc gen k) c;
      c ← repair gen k c;
      '(c, g) ← evaluate c g;
      '(l, g) ← finish_children gen (S k) l g;
      Some (c :: l, g)
  end.
(** updatePopulation, 436-445. *)
Definition synced (g : ga) : Prop := fitness_matrix g = fitness <$> population g.
Definition updatePopulation (gen : nat) (children : list cand) (g : ga) : option ga :=
  assertion (valid_evaluated (num_objectives g) (population g)) (
  c ← cache_insert_range (fitness_cache g) ((fun s : cand => (chromosome s, fitness s)) <$> population g);
  pop ← nextPopulation gen (population g) children;
  fmat ← toFitnessMatrix pop;
  Some (set_population pop fmat (set_cache c g))).

(** advance, 508-538. *)
Definition hooks (g : ga) : ga :=
  let g := emit (EMetrics (view_of g)) g in emit (ECallback (view_of g)) g.
Definition advance (g : ga) : option ga :=
  let gen := generation_cntr g in
  assertion (length (population g) = population_size cf) (
  children ← make_children gen g;
  '(children, g) ← finish_children gen 0 children g;
  g ← updatePopulation gen children g;
  g ← (if keep_all cf then updateOptimalSolutions (S gen) g else Some g);
  Some (incr_generation (hooks g))).

(** StopCondition::operator(), stop_condition_base.cpp 8-11. *)
Definition stopCondition (g : ga) : bool * ga :=
  (o_stop oc (generation_cntr g) || (max_gen g <=? generation_cntr g + 1), emit (EStop (view_of g)) g).

(** generatePopulation, 363-380. *)
Definition generatePopulation (initial : list cand) (d : nat) : option (list cand) :=
  assertion (valid_unevaluated d initial) (
  let npreset := Nat.min (population_size cf) (length initial) in
  let generated := (fun k => Cand [] (o_generate oc k) false) <$> seq npreset (population_size cf - npreset) in
  assertion (Forall valid_chromosome generated) (Some (take npreset initial ++ generated))).

(** initializeAlgorithm, 315-360; findNumberOfObjectives, 240-250. *)
Definition initializeAlgorithm (initial : list cand) (g : ga) : option ga :=
  cache ← cache_reset (fitness_cache g) ((if dynamic cf then 0 else 1) * cached_generations cf * population_size cf);
  let d := length (fitness_function cf 0 (o_probe oc)) in
  assertion (0 < d) (
  pop ← generatePopulation initial d;
  '(pop, g) ← evaluate_all pop (Ga (max_gen g) 0 0 d [] (fitness_matrix g) [] cache []);
  fmat ← toFitnessMatrix pop;
  let g := set_population pop fmat g in
  g ← (if keep_all cf then s ← findParetoFrontPop (tols cf) fitness d pop; Some (set_solutions s g) else Some g);
  assertion (valid_evaluated d pop) (Some (hooks g))).

(** The loop of solve, 551-554, at most [fuel] times. *)
Fixpoint solve_loop (fuel : nat) (g : ga) : option ga :=
  let '(stop, g) := stopCondition g in
  if stop then Some g
  else match fuel with O => None | S fuel => g ← advance g; solve_loop fuel g end.
(** solve, 541-558; max_gen_ gets its old value back on return. *)
Definition solve (generations : nat) (initial : list cand) (g : ga) : option (list cand * ga) :=
  let old_max_gen := max_gen g in
  assertion (0 < generations) (
  g ← initializeAlgorithm initial (set_max_gen generations g);
  g ← solve_loop generations g;
  g ← (if keep_all cf then Some g else updateOptimalSolutions (generation_cntr g) g);
  Some (solutions g, set_max_gen old_max_gen g)).
End run.
End engine.
Arguments settings : clear implicits. Arguments ga : clear implicits.
