(** Model of the candidates and of the crossover and mutation operators,
    /repo/src/core/candidate.hpp, crossover/crossover_base.impl.hpp and
    mutation/mutation_base.impl.hpp, for any gene type.

    A violated GAPP_ASSERT is [None].  Simplified: of the GA object only the number of
    objectives and the chromosome length are visible; the virtual function crossover
    or mutate is an arbitrary argument (so it may be user defined), and it may be
    [None].  A random number is an argument. *)
From stdpp Require Import list.
From Verif Require Import FloatBase CrossoverModel.

(** candidate.hpp 82-135. *)
Record candidate (T : Type) := Cand { fitness : list b64; chromosome : list T; is_evaluated : bool }.
Arguments Cand {T}. Arguments fitness {T}. Arguments chromosome {T}. Arguments is_evaluated {T}.

Section operators.
Context {T : Type}.
(** candidate.hpp 180-191: operator== of the chromosomes. *)
Variable eqb : list T -> list T -> bool.
(** ga.num_objectives(), ga.chrom_len(), allow_variable_chrom_length(). *)
Variable num_objectives chrom_len : nat.
Variable variable_length : bool.

Definition length_ok (c : candidate T) : Prop := variable_length = true \/ length (chromosome c) = chrom_len.
#[global] Instance length_ok_dec c : Decision (length_ok c).
Proof. unfold length_ok. apply _. Defined.

(** crossover_base.impl.hpp 50-78: the flag and fitness of one child. *)
Definition inherit (p1 p2 c : candidate T) : candidate T :=
  if eqb (chromosome c) (chromosome p1) then Cand (fitness p1) (chromosome c) (is_evaluated p1)
  else if eqb (chromosome c) (chromosome p2) then Cand (fitness p2) (chromosome c) (is_evaluated p2)
  else Cand (fitness c) (chromosome c) false.

(** crossover_base.impl.hpp 15-80; [r] is the value of rng::randomReal(). *)
Definition crossover_op (crossover : candidate T -> candidate T -> option (candidate T * candidate T)) (pc r : b64)
    (p1 p2 : candidate T) : option (candidate T * candidate T) :=
  check (is_evaluated p1 = true /\ is_evaluated p2 = true) (
  check (length (fitness p1) = length (fitness p2)) (
  check (length (fitness p1) = num_objectives) (
  check (length_ok p1 /\ length_ok p2) (
  if fle pc r then Some (p1, p2) else
  if eqb (chromosome p1) (chromosome p2) then Some (p1, p2) else
  '(c1, c2) ← crossover p1 p2;
  check (length_ok c1) (check (length_ok c2) (
  Some (inherit p1 p2 c1, inherit p1 p2 c2))))))).

(** mutation_base.impl.hpp 15-41; mutate only writes the chromosome. *)
Definition mutation_op (mutate : candidate T -> option (list T)) (c : candidate T) : option (candidate T) :=
  check (is_evaluated c = false \/ length (fitness c) = num_objectives) (
  check (length_ok c) (
  g ← mutate c;
  let c' := if is_evaluated c then Cand (fitness c) g (eqb g (chromosome c)) else Cand (fitness c) g false in
  check (length_ok c') (Some c'))).
End operators.
