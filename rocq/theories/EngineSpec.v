(** Specifications for whole runs, in terms of the log of a run. *)
From stdpp Require Import list list_numbers.
From Verif Require Import FloatBase FloatSpec FrontSpec FrontModel ReplacementSpec OperatorModel EngineModel.

Section spec.
Context {T : Type}.
(** Marked evaluated, with the value of the fitness function. *)
Definition evaluated_by (f : list T -> list b64) (c : candidate T) : Prop := is_evaluated c = true /\ fitness c = f (chromosome c).
(** The calls of the fitness function, and what the callbacks saw, in order. *)
Definition calls (l : list (event T)) : list (list T) := omap (fun e => match e with ECall c => Some c | _ => None end) l.
Definition callbacks (l : list (event T)) : list (view T) := omap (fun e => match e with ECallback v => Some v | _ => None end) l.
(** The order of the hooks. *)
Inductive hook := HMetrics | HCallback | HStop.
Definition hook_order (l : list (event T)) : list hook :=
  omap (fun e => match e with ECall _ => None | EMetrics _ => Some HMetrics | ECallback _ => Some HCallback | EStop _ => Some HStop end) l.
Definition once_per_generation (n : nat) : list hook := mjoin (replicate n [HMetrics; HCallback; HStop]).

(** [s] are solutions: none dominates another, no two have the same chromosome. *)
Definition solution_set (s : list (candidate T)) : Prop :=
  (forall x y, x ∈ s -> y ∈ s -> ~ dominated_by (fitness x) (fitness y)) /\ NoDup (chromosome <$> s).
(** No candidate of [all] dominates one of [s], and each is dominated by or has the fitness of
    one of [s] (as real numbers). *)
Definition covers (all s : list (candidate T)) : Prop :=
  (forall x y, x ∈ s -> y ∈ all -> ~ dominated_by (fitness x) (fitness y)) /\
  (forall y, y ∈ all -> exists x, x ∈ s /\ (dominated_by (fitness y) (fitness x) \/ fitness x = fitness y)).

(** What user supplied functions and the operators have to keep to, for any run:
    [row] is what is known about the [d] fitness values of a candidate. *)
Definition right_length (cf : settings T) (l : list T) : Prop := variable_length cf = true \/ length l = chrom_len cf.
Record contract (cf : settings T) (oc : outcomes T) (d : nat) (row : list b64 -> Prop) : Prop := {
  k_size : 0 < population_size cf;
  k_objectives : 0 < d;
  k_row : forall r, row r -> length r = d;
  k_fitness : forall n c, row (fitness_function cf n c);
  k_generate : forall k, right_length cf (o_generate oc k);
  k_select : forall gen k m, length m = population_size cf -> Forall row m -> o_select oc gen k m < population_size cf;
  k_cross : forall gen i p1 p2, right_length cf (chromosome p1) -> right_length cf (chromosome p2) ->
    exists c1 c2, o_cross oc gen i p1 p2 = Some (c1, c2) /\ right_length cf (chromosome c1) /\ right_length cf (chromosome c2);
  k_mutate : forall gen k c, right_length cf (chromosome c) -> exists l, o_mutate oc gen k c = Some l /\ right_length cf l;
  k_repair : forall r gen k l, o_repair oc = Some r -> right_length cf l -> right_length cf (r gen k l);
  k_next : forall gen m, length m = 2 * population_size cf -> Forall row m ->
    exists is, o_next oc gen m = Some is /\ distinct_indices (population_size cf) (length m) is;
  k_optimal : forall gen m i, length m = population_size cf -> Forall row m -> i ∈ o_optimal oc gen m -> i < population_size cf;
  k_front : forall pop, Forall (fun c : candidate T => row (fitness c)) pop -> is_Some (findParetoFrontPop (tols cf) fitness d pop);
}.
(** The initial candidates are of the right length, with the right number of fitness
    values if they are marked as evaluated. *)
Definition valid_initial (cf : settings T) (row : list b64 -> Prop) (initial : list (candidate T)) : Prop :=
  Forall (fun c => right_length cf (chromosome c) /\ (is_evaluated c = true -> row (fitness c))) initial.
End spec.
