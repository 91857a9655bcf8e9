(** Specifications for the floating-point comparisons and dominance. *)
From Coq Require Import Reals Bool List.
From Flocq Require Import BinarySingleNaN.
From Verif Require Import FloatBase FloatModel.
Import ListNotations.

(** Tolerances that can be set: NonNegative<double>, finite. *)
Definition tol_ok (t : tolerances) : Prop :=
  is_finite (absolute_tolerance t) = true /\ is_finite (relative_tolerance t) = true /\
  (0 <= B2R (absolute_tolerance t))%R /\ (0 <= B2R (relative_tolerance t))%R.

Definition finite_vec (v : list b64) : Prop := Forall (fun x => is_finite x = true) v.
Definition nonneg_vec (v : list b64) : Prop := Forall (fun x => (0 <= B2R x)%R) v.

(** Exact Pareto dominance (maximisation): [v] is nowhere worse and somewhere better. *)
Definition dominated_by (u v : list b64) : Prop :=
  Forall2 (fun x y => (B2R x <= B2R y)%R) u v /\
  exists i x y, nth_error u i = Some x /\ nth_error v i = Some y /\ (B2R x < B2R y)%R.

(** Lexical meaning of scoped tolerances: the observations see the innermost scope. *)
Fixpoint tlex (p : tprog) (g : tolerances) : list tolerances * bool :=
  match p with
  | Skip => ([], false)
  | Observe => ([g], false)
  | Throw => ([], true)
  | Seq p q => let '(o, e) := tlex p g in if e then (o, true) else let '(o', e') := tlex q g in (o ++ o', e')
  | Try p q => let '(o, e) := tlex p g in if e then let '(o', e') := tlex q g in (o ++ o', e') else (o, false)
  | Scope a r p => tlex p (Tol a r)
  end.
