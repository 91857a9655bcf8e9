(** Model of the tolerant floating-point comparisons, /repo/src/utility/math.hpp and
    /repo/src/utility/math.cpp, over IEEE binary64 in round-to-nearest-even.
    Simplified: only T = double; extended intermediate precision is excluded. *)
From Coq Require Import Bool List ZArith.
From Flocq Require Import BinarySingleNaN.
From Verif Require Import FloatBase.
Import ListNotations.

(** class Tolerances, math.hpp 37-56. *)
Record tolerances := Tol { absolute_tolerance : b64; relative_tolerance : b64 }.
Definition tol_abs (t : tolerances) : b64 := absolute_tolerance t.
Definition tol_rel (t : tolerances) (at_ : b64) : b64 := fmul (relative_tolerance t) at_.

Section Compare.
Variable t : tolerances.

(** floatCompare, math.hpp 181-194; [Eq] is std::weak_ordering::equivalent. *)
Definition floatCompare (lhs rhs : b64) : comparison :=
  let diff := fsub lhs rhs in
  let scale := fmin (fmax (fabs lhs) (fabs rhs)) flarge in
  let tol := fmax (tol_rel t scale) (tol_abs t) in
  if flt tol diff then Gt else if flt diff (fneg tol) then Lt else Eq.

(** floatIsEqual, math.hpp 196-204. *)
Definition floatIsEqual (lhs rhs : b64) : bool :=
  let scale := fmax (fabs lhs) (fabs rhs) in
  if feq scale finf then feq lhs rhs
  else fle (fabs (fsub lhs rhs)) (fmax (tol_rel t scale) (tol_abs t)).

(** floatIsLess, math.hpp 206-214. *)
Definition floatIsLess (lhs rhs : b64) : bool :=
  let scale := fmax (fabs lhs) (fabs rhs) in
  if feq scale finf then flt lhs rhs
  else flt (fmax (tol_rel t scale) (tol_abs t)) (fsub rhs lhs).

(** floatIsLessAssumeNotGreater, math.hpp 216-224. *)
Definition floatIsLessAssumeNotGreater (lhs rhs : b64) : bool :=
  let scale := fabs rhs in
  if feq scale finf then flt lhs rhs
  else flt (fmax (tol_rel t scale) (tol_abs t)) (fsub rhs lhs).

(** floatIsGreater, math.hpp 226-234. *)
Definition floatIsGreater (lhs rhs : b64) : bool :=
  let scale := fmax (fabs lhs) (fabs rhs) in
  if feq scale finf then flt rhs lhs
  else flt (fmax (tol_rel t scale) (tol_abs t)) (fsub lhs rhs).

(** floatIsLessEq, floatIsGreaterEq, math.hpp 236-246. *)
Definition floatIsLessEq (lhs rhs : b64) : bool := negb (floatIsGreater lhs rhs).
Definition floatIsGreaterEq (lhs rhs : b64) : bool := negb (floatIsLess lhs rhs).

(** floatVecIsEqual, math.hpp 248-252 (std::equal over both ranges). *)
Fixpoint floatVecIsEqual (lhs rhs : list b64) : bool :=
  match lhs, rhs with
  | [], [] => true
  | x :: lhs, y :: rhs => floatIsEqual x y && floatVecIsEqual lhs rhs
  | _, _ => false
  end.

(** paretoCompareLess, math.cpp 18-32.  The two loops run over the common length. *)
Fixpoint any_less_rev (lhs rhs : list b64) : bool :=
  match lhs, rhs with
  | x :: lhs, y :: rhs => if floatIsLess y x then true else any_less_rev lhs rhs
  | _, _ => false
  end.
Fixpoint any_less_assume (lhs rhs : list b64) : bool :=
  match lhs, rhs with
  | x :: lhs, y :: rhs => if floatIsLessAssumeNotGreater x y then true else any_less_assume lhs rhs
  | _, _ => false
  end.
Definition paretoCompareLess (lhs rhs : list b64) : bool :=
  if any_less_rev lhs rhs then false else any_less_assume lhs rhs.

(** paretoCompare, math.cpp 34-57: the result is rhs_has_lower - lhs_has_lower. *)
Fixpoint paretoCompare_loop (lhs rhs : list b64) (lhs_has_lower rhs_has_lower : bool) : Z :=
  match lhs, rhs with
  | x :: lhs, y :: rhs =>
      match floatCompare x y with
      | Lt => if rhs_has_lower then 0%Z else paretoCompare_loop lhs rhs true rhs_has_lower
      | Gt => if lhs_has_lower then 0%Z else paretoCompare_loop lhs rhs lhs_has_lower true
      | Eq => paretoCompare_loop lhs rhs lhs_has_lower rhs_has_lower
      end
  | _, _ => (Z.b2z rhs_has_lower - Z.b2z lhs_has_lower)%Z
  end.
Definition paretoCompare (lhs rhs : list b64) : Z := paretoCompare_loop lhs rhs false false.
End Compare.

(** Programs using ScopedTolerances objects as automatic variables.  [Scope a r p]
    is { ScopedTolerances s(a, r); p }, [Try p q] is try { p } catch (...) { q },
    [Throw] leaves the enclosing scopes by an exception, [Observe] reads the global
    tolerances. *)
Inductive tprog := Skip | Observe | Throw | Seq (p q : tprog) | Try (p q : tprog) | Scope (a r : b64) (p : tprog).

(** Execution over the global variables Tolerances::absolute_tolerance and
    relative_tolerance.  The constructor (math.hpp 81-84) exchanges the globals and
    keeps the old values in the object; the destructor (86-90) writes them back; it
    runs on both kinds of exit.  Result: globals, observations, "left by exception". *)
Fixpoint texec (p : tprog) (g : tolerances) : tolerances * list tolerances * bool :=
  match p with
  | Skip => (g, [], false)
  | Observe => (g, [g], false)
  | Throw => (g, [], true)
  | Seq p q =>
      let '(g, o, e) := texec p g in
      if e then (g, o, true) else let '(g', o', e') := texec q g in (g', o ++ o', e')
  | Try p q =>
      let '(g, o, e) := texec p g in
      if e then let '(g', o', e') := texec q g in (g', o ++ o', e') else (g, o, false)
  | Scope a r p =>
      let old_absolute_tolerance := absolute_tolerance g in
      let g := Tol a (relative_tolerance g) in
      let old_relative_tolerance := relative_tolerance g in
      let g := Tol (absolute_tolerance g) r in
      let '(g, o, e) := texec p g in
      let g := Tol old_absolute_tolerance (relative_tolerance g) in
      let g := Tol (absolute_tolerance g) old_relative_tolerance in
      (g, o, e)
  end.
