(** Model of gapp::detail::Matrix, /repo/src/utility/matrix.hpp.

    [data_] (a std::vector) is a list in row-major order.  GAPP_ASSERT violations
    and out-of-range accesses give [None].  Simplified: capacity (reserve, line
    182) is not observable and not modelled; a row passed to append_row, assigned
    or swapped is a value, or another row of the same matrix. *)
From stdpp Require Import list list_numbers.

Section Matrix.
Context {T : Type}.

(** matrix.hpp 210-211. *)
Record matrix := Mat { mdata : list T; mncols : nat }.

(** matrix.hpp 88, 98-104: default and filling constructors. *)
Definition mat_empty : matrix := Mat [] 0.
Definition mat_new (nr nc : nat) (x : T) : matrix := Mat (replicate (nr * nc) x) nc.

(** matrix.hpp 178-180. *)
Definition nrows (m : matrix) : nat := match mdata m with [] => 0 | _ => length (mdata m) / mncols m end.
Definition ncols (m : matrix) : nat := mncols m.

(** operator()(row, col), matrix.hpp 144-158. *)
Definition mat_at (m : matrix) (i j : nat) : option T :=
  if decide (i < nrows m /\ j < ncols m) then mdata m !! (i * ncols m + j) else None.
Definition mat_write (m : matrix) (i j : nat) (x : T) : option matrix :=
  if decide (i < nrows m /\ j < ncols m) then
    if decide (i * ncols m + j < length (mdata m)) then
      Some (Mat (<[i * ncols m + j := x]> (mdata m)) (mncols m))
    else None
  else None.

(** operator[] and the row view [begin, end), matrix.hpp 114-126, 252-260. *)
Definition mat_row (m : matrix) (i : nat) : option (list T) :=
  if decide (i < nrows m) then Some (take (ncols m) (drop (i * ncols m) (mdata m))) else None.

(** column, matrix.hpp 128-142. *)
Fixpoint column_loop (m : matrix) (j : nat) (rows : list nat) : option (list T) :=
  match rows with
  | [] => Some []
  | i :: rows => x ← mat_at m i j; xs ← column_loop m j rows; Some (x :: xs)
  end.
Definition mat_column (m : matrix) (j : nat) : option (list T) :=
  if decide (j < ncols m) then column_loop m j (seq 0 (nrows m)) else None.

(** append_row, matrix.hpp 431-438. *)
Definition append_row (m : matrix) (r : list T) : option matrix :=
  if decide (length r = ncols m \/ nrows m = 0) then Some (Mat (mdata m ++ r) (length r)) else None.

(** resize, matrix.hpp 184-188. *)
Definition mat_resize (m : matrix) (nr nc : nat) (x : T) : matrix :=
  Mat (take (nr * nc) (mdata m) ++ replicate (nr * nc - length (mdata m)) x) nc.

(** pop_back, matrix.hpp 173 (nrows() - 1 wraps for an empty matrix: excluded). *)
Definition mat_pop (m : matrix) (x : T) : option matrix :=
  if decide (nrows m = 0) then None else Some (mat_resize m (nrows m - 1) (ncols m) x).

(** clear, matrix.hpp 190-194. *)
Definition mat_clear (m : matrix) : matrix := Mat [] 0.

(** Row assignment, matrix.hpp 332-342. *)
Fixpoint assign_loop (m : matrix) (i j : nat) (r : list T) : option matrix :=
  match r with [] => Some m | x :: r => m ← mat_write m i j x; assign_loop m i (S j) r end.
Definition assign_row (m : matrix) (i : nat) (r : list T) : option matrix :=
  if decide (i < nrows m /\ length r = ncols m) then assign_loop m i 0 r else None.

(** Swapping two rows, matrix.hpp 346-355 and 358-363. *)
Fixpoint swap_loop (m : matrix) (i k : nat) (cols : list nat) : option matrix :=
  match cols with
  | [] => Some m
  | j :: cols =>
      x ← mat_at m i j; y ← mat_at m k j;
      m ← mat_write m i j y; m ← mat_write m k j x; swap_loop m i k cols
  end.
Definition swap_rows (m : matrix) (i k : nat) : option matrix :=
  if decide (i < nrows m /\ k < nrows m) then swap_loop m i k (seq 0 (ncols m)) else None.

(** operator==, matrix.hpp 198-203. *)
Definition mat_eqb (eqb : list T -> list T -> bool) (a b : matrix) : bool :=
  (match mdata a, mdata b with [], [] => true | _, _ => false end) ||
  (Nat.eqb (nrows a) (nrows b) && Nat.eqb (ncols a) (ncols b) && eqb (mdata a) (mdata b)).

Inductive mop := MInit (nr nc : nat) (x : T) | MAppend (r : list T) | MResize (nr : nat) (x : T)
               | MPop (x : T) | MClear | MAssign (i : nat) (r : list T) | MAssignRow (i k : nat)
               | MSwap (i k : nat) | MWrite (i j : nat) (x : T).

Definition mstep (m : matrix) (o : mop) : option matrix :=
  match o with
  | MInit nr nc x => Some (mat_new nr nc x)
  | MAppend r => append_row m r
  | MResize nr x => Some (mat_resize m nr (ncols m) x)
  | MPop x => mat_pop m x
  | MClear => Some (mat_clear m)
  | MAssign i r => assign_row m i r
  | MAssignRow i k => r ← mat_row m k; assign_row m i r
  | MSwap i k => swap_rows m i k
  | MWrite i j x => mat_write m i j x
  end.
Fixpoint mrun (m : matrix) (os : list mop) : option matrix :=
  match os with [] => Some m | o :: os => m ← mstep m o; mrun m os end.
End Matrix.
Arguments matrix : clear implicits.
Arguments mop : clear implicits.
