(** Model of the generateCandidate functions of the four encodings (src/encoding).

    A candidate is its chromosome; chrom_len() and gene_bounds() are parameters.  A
    chromosome is first filled with value-initialised genes and then overwritten gene by
    gene, as in the code.  [None] is an index out of range or a violated assertion. *)
From Coq Require Import ZArith.
From stdpp Require Import list.
From Verif Require Import FloatBase RealCrossoverModel RandModel.

(** for (size_t i = 0; i < n; i++) c[i] = gene(i); [n] is counted down, [i] up. *)
Fixpoint fill_from {A} (gene : nat -> rand A) (i n : nat) (c : list A) : rand (list A) :=
  match n with
  | O => rret c
  | S n =>
    rlet x <- gene i;
    rlet _ <- rlift (c !! i);
    fill_from gene (S i) n (<[i := x]> c)
  end.

(** binary.cpp 11-17: std::generate over the chromosome; a BinaryGene is an integer
    (gene_types.hpp) and the bool is converted to it. *)
Definition binary_generate (chrom_len : nat) : rand (list Z) :=
  fill_from (fun _ => rlet b <- randomBool; rret (if b : bool then 1 else 0)%Z) 0 chrom_len (replicate chrom_len 0%Z).

(** integer.cpp 10-20: no assertion, the bounds are indexed directly. *)
Definition integer_generate (chrom_len : nat) (gene_bounds : list (Z * Z)) : rand (list Z) :=
  fill_from (fun idx => rlet b <- rlift (gene_bounds !! idx); randomInt b.1 b.2) 0 chrom_len (replicate chrom_len 0%Z).

(** std::iota. *)
Fixpoint iota (c : list nat) (value : nat) : list nat :=
  match c with [] => [] | _ :: c => value :: iota c (S value) end.
(** permutation.cpp 12-19; std::shuffle is a parameter. *)
Definition permutation_generate (shuffle : list nat -> rand (list nat)) (chrom_len : nat) : rand (list nat) :=
  shuffle (iota (replicate chrom_len 0) 0).

(** real.cpp 11-22. *)
Definition real_generate (chrom_len : nat) (gene_bounds : list bounds) : rand (list b64) :=
  rassert (Nat.eqb chrom_len (length gene_bounds))
    (fill_from (fun i => rlet b <- rlift (gene_bounds !! i); randomReal_between (lower b) (upper b)) 0 chrom_len (replicate chrom_len fzero)).
