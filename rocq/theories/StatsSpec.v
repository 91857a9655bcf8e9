(** Specifications for the population statistics and the metrics. *)
From Coq Require Import Reals ZArith.
From Flocq Require Import Core BinarySingleNaN.
From stdpp Require Import list list_numbers.
From Verif Require Import FloatBase EngineModel.
Local Open Scope R_scope.

(** The values of objective [k] in the population. *)
Definition objective (k : nat) (m : list (list b64)) : list b64 := omap (fun r => r !! k) m.
Definition minimum_of (l : list b64) (x : b64) : Prop := x ∈ l /\ forall y, y ∈ l -> fval x <= fval y.
Definition maximum_of (l : list b64) (x : b64) : Prop := x ∈ l /\ forall y, y ∈ l -> fval y <= fval x.
Definition sum_of (l : list b64) : R := fold_right Rplus 0 (map B2R l).
Definition mean_of (l : list b64) : R := sum_of l / INR (length l).
(** Rows of length [d] without NaNs. *)
Definition rectangular (d : nat) (m : list (list b64)) : Prop := Forall (fun r => length r = d /\ Forall (fun x => is_nan x = false) r) m.

(** What the metrics are shown in a run, in order. *)
Definition shown {T} (l : list (event T)) : list (view T) := omap (fun e => match e with EMetrics v => Some v | _ => None end) l.
