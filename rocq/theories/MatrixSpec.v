(** Specification: a matrix is a list of rows and a column count. *)
From stdpp Require Import list list_numbers.
From Verif Require Import MatrixModel.

Section Spec.
Context {T : Type}.
Record rows := Rows { rlist : list (list T); rcols : nat }.

Definition rstep (s : rows) (o : mop T) : option rows :=
  let l := rlist s in let c := rcols s in
  match o with
  | MInit nr nc x => Some (Rows (replicate nr (replicate nc x)) nc)
  | MAppend r => if decide (length r = c \/ l = []) then Some (Rows (l ++ [r]) (length r)) else None
  | MResize nr x => Some (Rows (take nr l ++ replicate (nr - length l) (replicate c x)) c)
  | MPop _ => if decide (l = []) then None else Some (Rows (take (length l - 1) l) c)
  | MClear => Some (Rows [] 0)
  | MAssign i r => if decide (i < length l /\ length r = c) then Some (Rows (<[i := r]> l) c) else None
  | MAssignRow i k => r ← l !! k; if decide (i < length l) then Some (Rows (<[i := r]> l) c) else None
  | MSwap i k => r ← l !! i; r' ← l !! k; Some (Rows (<[k := r]> (<[i := r']> l)) c)
  | MWrite i j x => r ← l !! i; if decide (j < length r) then Some (Rows (<[i := <[j := x]> r]> l) c) else None
  end.
Fixpoint rrun (s : rows) (os : list (mop T)) : option rows :=
  match os with [] => Some s | o :: os => s ← rstep s o; rrun s os end.

(** The operations that create rows create rows with at least one column. *)
Definition has_cols (s : rows) (o : mop T) : Prop :=
  match o with
  | MInit nr nc _ => nr = 0 \/ 0 < nc
  | MAppend r => r <> []
  | MResize nr _ => nr = 0 \/ 0 < rcols s
  | _ => True
  end.
Fixpoint all_has_cols (s : rows) (os : list (mop T)) : Prop :=
  match os with
  | [] => True
  | o :: os => has_cols s o /\ match rstep s o with Some s' => all_has_cols s' os | None => True end
  end.

Definition mat_looks_like (m : matrix T) (s : rows) : Prop :=
  nrows m = length (rlist s) /\ ncols m = rcols s /\
  (forall i, mat_row m i = rlist s !! i) /\
  (forall i j, mat_at m i j = (r ← rlist s !! i; r !! j)) /\
  (forall j, j < rcols s -> mat_column m j = mapM (fun r => r !! j) (rlist s)).
End Spec.
Arguments rows : clear implicits.
