(** Model of the mutation operators, /repo/src/mutation/{permutation,real,integer,binary}.cpp.

    Random computations as in RandModel.v.  The GA object is represented by the gene
    bounds and the generation numbers it is asked for.  std::pow is an argument,
    std::shuffle a random computation given as an argument.  Accessing a position
    outside of the chromosome is [None]. *)
From Coq Require Import ZArith.
From stdpp Require Import list.
From Flocq Require Import BinarySingleNaN.
From Verif Require Import FloatBase RealCrossoverModel RandModel.

Local Open Scope Z_scope.

(** ** permutation.cpp *)
Section perm.
Context {A : Type}.
Implicit Type c : list A.
Definition size c : Z := Z.of_nat (length c).

(** [chromosome.begin() + first, chromosome.begin() + last) replaced by f of it. *)
Definition on_range (f : list A -> rand (list A)) c (first last : Z) : rand (list A) :=
  rassert ((0 <=? first) && (first <=? last) && (last <=? size c))
    (let i := Z.to_nat first in let j := Z.to_nat last in
     rlet m <- f (take (j - i) (drop i c)); rret (take i c ++ m ++ drop j c)).
(** std::swap(chromosome[i], chromosome[j]). *)
Definition swap_at c (i j : Z) : rand (list A) :=
  rlet x <- rlift (c !! Z.to_nat i);
  rlet y <- rlift (c !! Z.to_nat j);
  rret (<[Z.to_nat i := y]> (<[Z.to_nat j := x]> c)).

(** size_t(range_max_ * chrom_len). *)
Definition scaled_len (range_max : b64) (chrom_len : Z) : rand Z := rlift (ftrunc (fmul range_max (fofZ chrom_len))).

(** 15-33. *)
Definition Inversion (pm range_max : b64) c : rand (list A) :=
  let chrom_len := size c in
  if chrom_len <? 2 then rret c else
  rlet r <- randomReal;
  if flt r pm then
    rlet scaled <- scaled_len range_max chrom_len;
    let max_len := Z.max scaled 2 in
    rlet range_len <- randomInt 2 max_len;
    rlet first <- randomInt 0 (chrom_len - range_len);
    on_range (fun m => rret (reverse m)) c first (first + range_len)
  else rret c.
(** 35-46. *)
Definition Swap2 (pm : b64) c : rand (list A) :=
  if size c <? 2 then rret c else
  rlet r <- randomReal;
  if fle r pm then
    rlet idxs <- sampleUnique 0 (size c) 2;
    rlet i0 <- rlift (idxs !! 0%nat); rlet i1 <- rlift (idxs !! 1%nat);
    swap_at c i0 i1
  else rret c.
(** 48-60. *)
Definition Swap3 (pm : b64) c : rand (list A) :=
  if size c <? 3 then rret c else
  rlet r <- randomReal;
  if fle r pm then
    rlet idxs <- sampleUnique 0 (size c) 3;
    rlet i0 <- rlift (idxs !! 0%nat); rlet i1 <- rlift (idxs !! 1%nat); rlet i2 <- rlift (idxs !! 2%nat);
    rlet c <- swap_at c i0 i1;
    swap_at c i0 i2
  else rret c.
(** 62-79. *)
Definition Shuffle (shuffle : list A -> rand (list A)) (pm range_max : b64) c : rand (list A) :=
  let chrom_len := size c in
  if chrom_len <? 2 then rret c else
  rlet r <- randomReal;
  if fle r pm then
    rlet scaled <- scaled_len range_max chrom_len;
    let max_len := Z.max scaled 2 in
    rlet range_len <- randomInt 2 max_len;
    rlet first <- randomInt 0 (chrom_len - range_len);
    on_range shuffle c first (first + range_len)
  else rret c.
(** 81-105.  std::rotate(first, middle, last) puts [middle, last) before [first, middle). *)
Definition Shift (pm range_max : b64) c : rand (list A) :=
  let chrom_len := size c in
  if chrom_len <? 2 then rret c else
  rlet r <- randomReal;
  if fle r pm then
    rlet scaled <- scaled_len range_max chrom_len;
    let max_len := Z.max 1 scaled in
    rlet range_len <- randomInt 1 max_len;
    rlet idxs <- sampleUnique 0 (chrom_len - range_len + 1) 2;
    rlet src_first <- rlift (idxs !! 0%nat); rlet dest_first <- rlift (idxs !! 1%nat);
    let '(first, middle, last) :=
      if dest_first <? src_first then (dest_first, src_first, src_first + range_len)
      else (src_first, src_first + range_len, dest_first + range_len) in
    rassert ((first <=? middle) && (middle <=? last))
      (on_range (fun m => rret (drop (Z.to_nat (middle - first)) m ++ take (Z.to_nat (middle - first)) m)) c first last)
  else rret c.
End perm.

(** ** The loop over randomly chosen positions, common to the other operators. *)
Section indices.
Context {A : Type}.
Variable gene : nat -> A -> rand A.
Fixpoint for_indices (idxs : list Z) (c : list A) : rand (list A) :=
  match idxs with
  | [] => rret c
  | idx :: idxs =>
    rlet x <- rlift (c !! Z.to_nat idx);
    rlet y <- gene (Z.to_nat idx) x;
    for_indices idxs (<[Z.to_nat idx := y]> c)
  end.
(** E.g. real.cpp 21-24; [fuel] as in randomBinomial. *)
Definition mutate_some (fuel : nat) (pm : b64) (c : list A) : rand (list A) :=
  rlet mutate_count <- randomBinomial fuel (size c) pm;
  rlet mutated_indices <- sampleUnique 0 (size c) mutate_count;
  for_indices mutated_indices c.
End indices.

(** ** real.cpp *)
Section real.
Variable pow : b64 -> b64 -> b64.
Variable bs : list bounds.
Definition with_bounds (gene : bounds -> b64 -> rand b64) (fuel : nat) (pm : b64) (c : list b64) : rand (list b64) :=
  rassert (Nat.eqb (length bs) (length c)) (mutate_some (fun idx x => rlet b <- rlift (bs !! idx); gene b x) fuel pm c).

(** 15-28. *)
Definition uniform_gene (b : bounds) (x : b64) : rand b64 := randomReal_between (lower b) (upper b).
Definition RealUniform := with_bounds uniform_gene.
(** 30-51. *)
Definition nonuniform_gene (beta : b64) (generation_cntr max_gen : Z) (b : bounds) (x : b64) : rand b64 :=
  rlet rnd <- randomReal;
  let exponent := pow (fsub fone (fdiv (fofZ generation_cntr) (fofZ max_gen))) beta in
  let multiplier := fsub fone (pow rnd exponent) in
  rlet low <- randomBool;
  let bound := if low : bool then lower b else upper b in
  let x := fadd x (fmul (fsub bound x) multiplier) in
  rlift (clamp x (lower b) (upper b)).
Definition NonUniform (beta : b64) (generation_cntr max_gen : Z) := with_bounds (nonuniform_gene beta generation_cntr max_gen).
(** 53-70. *)
Definition gauss_gene (sigma : b64) (b : bounds) (x : b64) : rand b64 :=
  let SD := fdiv (fsub (upper b) (lower b)) sigma in
  rlet n <- randomNormal fzero SD;
  rlift (clamp (fadd x n) (lower b) (upper b)).
Definition Gauss (sigma : b64) := with_bounds (gauss_gene sigma).
(** 72-97. *)
Definition polynomial_gene (eta : b64) (b : bounds) (x : b64) : rand b64 :=
  rlet alpha <- randomReal;
  let x :=
    if fle alpha fhalf then
      let delta := fsub (pow (fmul ftwo alpha) (fdiv fone (fadd fone eta))) fone in
      fadd x (fmul delta (fsub x (lower b)))
    else
      let delta := fsub fone (pow (fsub ftwo (fmul ftwo alpha)) (fdiv fone (fadd fone eta))) in
      fadd x (fmul delta (fsub (upper b) x)) in
  rlift (clamp x (lower b) (upper b)).
Definition Polynomial (eta : b64) := with_bounds (polynomial_gene eta).
(** 99-113. *)
Definition boundary_gene (b : bounds) (x : b64) : rand b64 :=
  rlet low <- randomBool; rret (if low : bool then lower b else upper b).
Definition Boundary := with_bounds boundary_gene.
End real.

(** ** integer.cpp 14-36.  [fuel] also bounds the redraw loop. *)
Fixpoint redraw (fuel : nat) (lb ub old : Z) : rand Z :=
  match fuel with
  | O => rfail
  | S fuel => rlet n <- randomInt lb ub; if n =? old then redraw fuel lb ub old else rret n
  end.
Definition IntegerUniform (bs : list (Z * Z)) (fuel : nat) (pm : b64) (c : list Z) : rand (list Z) :=
  rassert (Nat.eqb (length bs) (length c))
    (mutate_some (fun idx old => rlet b <- rlift (bs !! idx); redraw fuel b.1 b.2 old) fuel pm c).

(** ** binary.cpp 13-23. *)
Definition Flip (fuel : nat) (pm : b64) (c : list Z) : rand (list Z) :=
  mutate_some (fun _ x => rret (Z.lxor x 1)) fuel pm c.
