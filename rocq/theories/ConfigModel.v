(** The choice of the algorithm, the mutation rate and the stop condition of a GA: the constructors and setters of
    GaInfo and GA, and the part of initializeAlgorithm that replaces them by defaults (core/ga_info.hpp,
    core/ga_info.cpp, core/ga_base.impl.hpp).  Algorithms given by the user, rates and stop conditions are
    arbitrary values; operators are reduced to their mutation rate.  [None] is a violated assertion. *)
From stdpp Require Import list.
From Coq Require Import ZArith.
From Verif Require Import FloatBase RandModel.

(** The algorithms: SingleObjective, NSGA3, and those of the user, which may be any, by the numbers of objectives
    they accept. *)
Inductive algorithm := SingleObjective | NSGA3 | Other (accepts : nat -> bool).
Inductive stop_condition (U : Type) := NoEarlyStop | Stop (u : U).
Arguments NoEarlyStop {U}. Arguments Stop {U}.
(** The assertions of initializeImpl: single_objective.cpp 57, nsga3.cpp 325. *)
Definition accepts (a : algorithm) (objectives : nat) : bool :=
  match a with SingleObjective => Nat.eqb objectives 1 | NSGA3 => Nat.ltb 1 objectives | Other f => f objectives end.

Section config.
(** Probabilities, stop conditions, and GaTraits<T>::defaultMutationRate. *)
Context {P U : Type} (trait_rate : nat -> P).

(** The members; ga_info.hpp 350-366, ga_base.decl.hpp 596; pm_ of mutation_. *)
Record config := Config {
  algorithm_ : algorithm; use_default_algorithm_ : bool;
  rate_ : P; use_default_mutation_rate_ : bool;
  stop_condition_ : stop_condition U }.

(** GaInfo::GaInfo, ga_info.cpp 19-24, as called by GA::GA, ga_base.impl.hpp 34-43; null pointers are None. *)
Definition ga_all (a : option algorithm) (mutation : P) (stop : option (stop_condition U)) : config :=
  Config (default SingleObjective a) (match a with None => true | Some _ => false end) mutation false (default NoEarlyStop stop).
Definition set_flags (default_algorithm default_rate : bool) (c : config) : config :=
  Config (algorithm_ c) default_algorithm (rate_ c) default_rate (stop_condition_ c).
(** The other constructors, ga_base.impl.hpp 45-108; [p0] is the rate 0.01 of the operator they create. *)
Inductive constructor :=
  | CtorDefault (p0 : P)                                                  (* 46-51 *)
  | CtorAlgorithm (a : option algorithm) (p0 : P)                         (* 54-59; by value 75-77 *)
  | CtorOperators (mutation : P) (stop : option (stop_condition U))       (* 62-70, pointers *)
  | CtorOperatorsValue (mutation : P) (stop : stop_condition U)           (* 84-90, values *)
  | CtorAll (a : option algorithm) (mutation : P) (stop : option (stop_condition U)).  (* 34-43; by value 98-104 *)
Definition construct (k : constructor) : config :=
  match k with
  | CtorDefault p0 => set_flags true true (ga_all (Some SingleObjective) p0 (Some NoEarlyStop))
  | CtorAlgorithm a p0 => set_flags false true (ga_all a p0 (Some NoEarlyStop))
  | CtorOperators mutation stop => set_flags true false (ga_all (Some SingleObjective) mutation stop)
  | CtorOperatorsValue mutation stop => ga_all (Some SingleObjective) mutation (Some stop)
  | CtorAll a mutation stop => ga_all a mutation stop
  end.

(** The setters. *)
Inductive setter :=
  | SetAlgorithm (a : option algorithm)          (* ga_info.cpp 31-41, ga_info.hpp 381-386; None is nullptr *)
  | SetMutation (p : P)                          (* mutation_method, ga_base.impl.hpp 176-189 *)
  | SetMutationCallable (p0 : P)                 (* mutation_method, ga_base.impl.hpp 192-196 *)
  | SetRate (p : P)                              (* mutation_rate, ga_base.impl.hpp 207-213 *)
  | SetStop (stop : option (stop_condition U)).  (* ga_info.cpp 43-56, ga_info.hpp 390-393 *)
Definition mutation_rate (p : P) (c : config) : config := Config (algorithm_ c) (use_default_algorithm_ c) p false (stop_condition_ c).
Definition apply_setter (x : setter) (c : config) : config :=
  match x with
  | SetAlgorithm a => Config (default SingleObjective a) (match a with None => true | Some _ => false end) (rate_ c) (use_default_mutation_rate_ c) (stop_condition_ c)
  | SetMutation p => Config (algorithm_ c) (use_default_algorithm_ c) p false (stop_condition_ c)
  | SetMutationCallable p0 => Config (algorithm_ c) (use_default_algorithm_ c) p0 true (stop_condition_ c)
  | SetRate p => mutation_rate p c
  | SetStop stop => Config (algorithm_ c) (use_default_algorithm_ c) (rate_ c) (use_default_mutation_rate_ c) (default NoEarlyStop stop)
  end.

(** defaultAlgorithm, ga_base.impl.hpp 250-261. *)
Definition default_algorithm (objectives : nat) : algorithm := if decide (objectives = 1) then SingleObjective else NSGA3.
(** The choice in initializeAlgorithm, ga_base.impl.hpp 349-352, in a run with the given number of objectives and
    chromosome length. *)
Definition initialize (objectives chrom_len : nat) (c : config) : option config :=
  let c := if use_default_algorithm_ c then Config (default_algorithm objectives) (use_default_algorithm_ c) (rate_ c) (use_default_mutation_rate_ c) (stop_condition_ c) else c in
  if accepts (algorithm_ c) objectives then
    Some (if use_default_mutation_rate_ c then mutation_rate (trait_rate chrom_len) c else c)
  else None.

(** What a program does with a GA. *)
Inductive action := Do (x : setter) | Solve (objectives chrom_len : nat).
Definition act (c : config) (x : action) : option config :=
  match x with Do x => Some (apply_setter x c) | Solve m l => initialize m l c end.
Fixpoint acts (c : config) (xs : list action) : option config :=
  match xs with [] => Some c | x :: xs => c' ← act c x; acts c' xs end.
End config.
Arguments config : clear implicits. Arguments constructor : clear implicits. Arguments setter : clear implicits. Arguments action : clear implicits.

(** defaultMutationRate of the encodings: 1.0 / chrom_len in encoding/binary.hpp 22, integer.hpp 21 and real.hpp
    22, and 0.6 in permutation.hpp 21; the argument is converted to double. *)
Definition inverse_length (chrom_len : Z) : b64 := fdiv (fmk 1 0) (fofZ chrom_len).
Definition permutation_rate : b64 := fmk 5404319552844595 (-53).
