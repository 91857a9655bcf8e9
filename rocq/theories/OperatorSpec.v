(** Specification of the evaluated flag of candidates. *)
From stdpp Require Import list.
From Flocq Require Import Core BinarySingleNaN.
From Verif Require Import FloatBase OperatorModel.

(** If the candidate is marked as evaluated, it is one of the candidates [ps], as far
    as [same] can tell their chromosomes apart, with its fitness. *)
Definition flag_from {T} (same : list T -> list T -> Prop) (ps : list (candidate T)) (c : candidate T) : Prop :=
  is_evaluated c = true -> exists p, p ∈ ps /\ is_evaluated p = true /\ same (chromosome c) (chromosome p) /\ fitness c = fitness p.
(** The fitness of an evaluated candidate is what the fitness function says. *)
Definition fitness_sound {T} (f : list T -> list b64) (c : candidate T) : Prop :=
  is_evaluated c = true -> fitness c = f (chromosome c).
(** The same real numbers (this leaves open the sign of a zero). *)
Definition same_values (c1 c2 : list b64) : Prop := B2R <$> c1 = B2R <$> c2.
