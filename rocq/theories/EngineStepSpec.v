(** Specifications: how the population of one generation comes from the one before, and which
    chromosomes a cache of the last generations has to know. *)
From stdpp Require Import list list_numbers.
From Verif Require Import FloatBase FloatModel OperatorModel EngineModel EngineSpec.

Section spec.
Context {T : Type}.
Variable cf : settings T.
Variable oc : outcomes T.

(** The two chromosomes made from two parents, by the crossover number [i] of a generation:
    the ones the crossover makes, if it is drawn and the parents differ; otherwise the parents'. *)
Definition offspring (gen i : nat) (p1 p2 : candidate T) (x1 x2 : list T) : Prop :=
  if fle (o_rate oc gen i).1 (o_rate oc gen i).2 || chrom_eq cf (chromosome p1) (chromosome p2)
  then x1 = chromosome p1 /\ x2 = chromosome p2
  else exists c1 c2, o_cross oc gen i p1 p2 = Some (c1, c2) /\ x1 = chromosome c1 /\ x2 = chromosome c2.
(** What the repair function, if there is one, makes of a chromosome. *)
Definition repaired (gen k : nat) (x : list T) : list T := match o_repair oc with Some r => r gen k x | None => x end.

(** [x] is the chromosome of the child number [k] of the population [pop]: crossover number
    k/2 of two selected parents, the first child if [k] is even and the second if it is odd; mutated; and then repaired. *)
Definition child_of (gen k : nat) (pop : list (candidate T)) (x : list T) : Prop :=
  exists p1 p2 x1 x2 c m,
    pop !! o_select oc gen (2 * (k / 2)) (fitness <$> pop) = Some p1 /\
    pop !! o_select oc gen (2 * (k / 2) + 1) (fitness <$> pop) = Some p2 /\
    offspring gen (k / 2) p1 p2 x1 x2 /\
    chromosome c = (if Nat.even k then x1 else x2) /\
    o_mutate oc gen k c = Some m /\
    x = repaired gen k m.

(** One generation: as many children as the population size, then the replacement policy picks the
    members of the next population from the parents and the children. *)
Definition generation_step (gen : nat) (pop next : list (candidate T)) : Prop :=
  exists children is,
    length children = population_size cf /\
    (forall k c, children !! k = Some c -> child_of gen k pop (chromosome c)) /\
    o_next oc gen (fitness <$> pop ++ children) = Some is /\
    Forall2 (fun i c => (pop ++ children) !! i = Some c) is next.

(** The chromosomes of a population; the number of the first of [pops] with [x]. *)
Definition chromosomes (v : view T) : list (list T) := chromosome <$> v_pop v.
Definition first_seen (vs : list (view T)) (x : list T) (j : nat) : Prop :=
  (exists v, vs !! j = Some v /\ x ∈ chromosomes v) /\ forall i v, i < j -> vs !! i = Some v -> x ∉ chromosomes v.
End spec.
