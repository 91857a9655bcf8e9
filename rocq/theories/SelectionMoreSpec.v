(** Specification of the distributions the selection operators sample. *)
From Coq Require Import Reals.
From stdpp Require Import list list_numbers.
From Flocq Require Import Core BinarySingleNaN.
From Verif Require Import FloatBase.

Local Open Scope R_scope.

(** The sum of some numbers, and their number. *)
Definition total (l : list b64) : R := foldr (fun w s => B2R w + s) 0 l.
Definition count (l : list b64) : R := IZR (Z.of_nat (length l)).
(** The share of the first [k] members when each gets a share proportional to its weight; if
    every weight is zero all of the members get the same share. *)
Definition is_share (ws : list b64) (k : nat) (x : R) : Prop :=
  (total ws = 0 -> x = count (take k ws) / count ws) /\ (0 < total ws -> x = total (take k ws) / total ws).

(** A candidate with a higher fitness never has a lower weight. *)
Definition weights_follow (fvec ws : list b64) : Prop :=
  forall i j f g v w, fvec !! i = Some f -> fvec !! j = Some g -> ws !! i = Some v -> ws !! j = Some w -> B2R f <= B2R g -> B2R v <= B2R w.
(** [m] is the least number of the list. *)
Definition least (l : list b64) (m : b64) : Prop := m ∈ l /\ Forall (fun f => B2R m <= B2R f) l.
Definition greatest (l : list b64) (m : b64) : Prop := m ∈ l /\ Forall (fun f => B2R f <= B2R m) l.
(** std::exp is monotone. *)
Definition exp_monotone (fexp : b64 -> b64) : Prop :=
  forall x y, is_finite x = true -> is_finite y = true -> B2R x <= B2R y -> fval (fexp x) <= fval (fexp y).
(** The candidates from the worst one to the best one. *)
Definition worst_to_best (fvec : list b64) (order : list nat) : Prop :=
  order ≡ₚ seq 0 (length fvec) /\
  forall a b i j f g, (a <= b)%nat -> order !! a = Some i -> order !! b = Some j -> fvec !! i = Some f -> fvec !! j = Some g -> B2R f <= B2R g.
