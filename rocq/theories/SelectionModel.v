(** Model of the selection operators, /repo/src/algorithm/soga_selection.cpp.  They are used
    with one objective; a fitness matrix is its only column (core/population.cpp 14-20).
    [None] is a failed assertion or undefined behaviour.
    Simplified: std::transform_inclusive_scan adds from left to right, as libstdc++ does.
    Parameters: the sum of std::transform_reduce [reduce], std::lerp [lerp], std::exp [fexp],
    the temperature, and the mean and standard deviation of the fitness values. *)
From Coq Require Import ZArith.
From stdpp Require Import list list_numbers.
From Flocq Require Import BinarySingleNaN.
From Verif Require Import FloatBase AlgorithmModel RealCrossoverModel RandModel.

Definition fsmall : b64 := fmk 1 (-1022).
Definition fmax_of (l : list b64) : option b64 := l !! max_element flt (fun x => x) l.
Definition fmin_of (l : list b64) : option b64 := l !! min_element flt (fun x => x) l.
(** functional.hpp 119-126, 189-196. *)
Definition multiply_add (multiplier increment value : b64) : b64 := fadd (fmul multiplier value) increment.
Definition between (low high val : b64) : bool := fle low val && fle val high.
Fixpoint scan_from (f : b64 -> b64) (acc : b64) (l : list b64) : list b64 :=
  match l with [] => [] | w :: l => let acc := fadd acc (f w) in acc :: scan_from f acc l end.
Definition inclusive_scan (f : b64 -> b64) (l : list b64) : list b64 :=
  match l with [] => [] | w :: l => f w :: scan_from f (f w) l end.
Definition nat_to_f (n : nat) : b64 := fofZ (Z.of_nat n).

Section cdf.
Variable reduce : list b64 -> b64.
(** 22-38. *)
Definition weightsToCdf (weights : list b64) : option (list b64) :=
  if decide (weights <> []) then
    if forallb (between fzero flarge) weights then
      m ← fmax_of weights;
      let wmax := fmax fsmall m in
      let wsum := reduce ((fun w => fdiv w wmax) <$> weights) in
      let idiv := if is_finite (fdiv fone wsum) then fdiv fone wsum else fone in
      let corr := if is_finite (fdiv fone wsum) then fzero else fdiv fone (nat_to_f (length weights)) in
      Some (inclusive_scan (multiply_add (fdiv idiv wmax) corr) weights)
    else None
  else None.
(** The weight based methods: prepareSelections computes the distribution, select samples
    it (56-59, 110-113, 132-135, 157-160). *)
Definition select_by (weights : option (list b64)) : rand nat :=
  rlet ws <- rlift weights; rlet cdf <- rlift (weightsToCdf ws); sampleCdf cdf.

(** 41-54.  2.0 / 3.0 and 1.0 / 3.0. *)
Definition ftwothird : b64 := fmk 6004799503160661 (-53).
Definition fthird : b64 := fmk 6004799503160661 (-54).
Definition Roulette_weights (fvec : list b64) : option (list b64) :=
  lowest ← fmin_of fvec;
  let offset := fmul (fneg ftwothird) (fmin fzero lowest) in
  let scale := if fle fzero lowest then fone else fthird in
  Some (multiply_add scale offset <$> fvec).
Definition Roulette (fvec : list b64) : rand nat := select_by (Roulette_weights fvec).

(** 62-76.  [indices]: the contestants. *)
Fixpoint contestants (n k : nat) : rand (list nat) :=
  match k with
  | O => rret []
  | S k => rlet i <- randomInt 0 (Z.of_nat n - 1); rlet l <- contestants n k; rret (Z.to_nat i :: l)
  end.
Definition fitness_less (fvec : list b64) (lhs rhs : nat) : bool :=
  match fvec !! lhs, fvec !! rhs with Some a, Some b => flt a b | _, _ => false end.
Definition Tournament (tourney_size : nat) (fvec : list b64) : rand nat :=
  rassert (bool_decide (tourney_size <= length fvec))
    (rlet candidate_indices <- contestants (length fvec) tourney_size;
     rlift (candidate_indices !! max_element (fitness_less fvec) (fun i => i) candidate_indices)).

(** 92-108. *)
Section rank.
Variable lerp : b64 -> b64 -> b64 -> b64.
Variable sort : (nat -> nat -> bool) -> list nat -> list nat.
Variables min_weight max_weight : b64.
Fixpoint rank_loop (i : nat) (indices : list nat) (weights : list b64) : list b64 :=
  match indices with
  | [] => weights
  | j :: indices =>
      let t := fdiv (nat_to_f i) (fsub (nat_to_f (length weights)) fone) in
      rank_loop (S i) indices (<[j := lerp min_weight max_weight t]> weights)
  end.
Definition Rank_weights (fvec : list b64) : option (list b64) :=
  Some (rank_loop 0 (argsort sort flt false fvec) (replicate (length fvec) fzero)).
Definition Rank (fvec : list b64) : rand nat := select_by (Rank_weights fvec).
End rank.

(** 115-130.  [scale]: the parameter of the class, which the code does not use. *)
Section sigma.
Variables fmean fdev : list b64 -> b64.
Definition Sigma_weights (scale : b64) (fvec : list b64) : option (list b64) :=
  let m := fmean fvec in
  c ← clamp (fdev fvec) fsmall flarge;
  let idiv := fdiv fone c in
  mapM (fun f => clamp (fadd fone (fmul (fsub f m) idiv)) fzero flarge) fvec.
Definition Sigma (scale : b64) (fvec : list b64) : rand nat := select_by (Sigma_weights scale fvec).
End sigma.

(** 138-155. *)
Section boltzmann.
Variable fexp : b64 -> b64.
Variable temperature : b64.
Definition Boltzmann_weights (fvec : list b64) : option (list b64) :=
  fmax ← fmax_of fvec;
  fmin' ← fmin_of fvec;
  df ← clamp (fsub fmax fmin') fsmall flarge;
  Some ((fun f => let fnorm := fsub (fdiv f df) (fdiv fmin' df) in fmin flarge (fexp (fdiv fnorm temperature))) <$> fvec).
Definition Boltzmann (fvec : list b64) : rand nat := select_by (Boltzmann_weights fvec).
End boltzmann.
End cdf.
