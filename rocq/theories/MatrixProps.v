(** Properties of Matrix (C10). *)
From Coq Require Import Lia.
From stdpp Require Import list list_numbers.
From Verif Require Import MatrixModel MatrixSpec MatrixProofs.

(** C10 (refuted): appending an empty row to a matrix without columns adds no row;
    a 3x0 matrix has 0 rows. *)
Theorem C10_matrix_is_row_list_refuted :
  (exists m : matrix nat, append_row mat_empty [] = Some m /\ nrows m = 0) /\
  nrows (mat_new 3 0 7) = 0.
Proof. split; [eexists; split; reflexivity|reflexivity]. Qed.
Print Assumptions C10_matrix_is_row_list_refuted.

(** C10, what holds: every history in which rows have at least one column is
    defined exactly when it is on the list of rows, and afterwards the matrix shows
    that list through every accessor. *)
Theorem C10_matrix_is_row_list_partial (T : Type) (os : list (mop T)) :
  all_has_cols (Rows [] 0) os ->
  match rrun (Rows [] 0) os with
  | Some s => exists m, mrun mat_empty os = Some m /\ mat_looks_like m s
  | None => mrun mat_empty os = None
  end.
Proof.
  intros H. pose proof (mrepr_run os mat_empty (Rows [] 0) mrepr_empty H) as Hr.
  destruct (rrun _ os) as [s|]; [|done]. destruct Hr as (m&Hm&Hs). exists m. split; [done|].
  apply mrepr_looks_like. done.
Qed.
Print Assumptions C10_matrix_is_row_list_partial.

(** Equality of matrices is equality of their lists of rows. *)
Theorem C10_matrix_equality_partial (T : Type) (eqb : list T -> list T -> bool) (os os' : list (mop T)) s s' m m' :
  (forall x y, eqb x y = true <-> x = y) ->
  all_has_cols (Rows [] 0) os -> all_has_cols (Rows [] 0) os' ->
  rrun (Rows [] 0) os = Some s -> rrun (Rows [] 0) os' = Some s' ->
  mrun mat_empty os = Some m -> mrun mat_empty os' = Some m' ->
  mat_eqb eqb m m' = true <-> rlist s = rlist s'.
Proof.
  intros He H H' Hs Hs' Hm Hm'.
  pose proof (mrepr_run os mat_empty (Rows [] 0) mrepr_empty H) as Hr. rewrite Hs, Hm in Hr.
  destruct Hr as (m0&[= <-]&Hr).
  pose proof (mrepr_run os' mat_empty (Rows [] 0) mrepr_empty H') as Hr'. rewrite Hs', Hm' in Hr'.
  destruct Hr' as (m0&[= <-]&Hr').
  apply mrepr_eqb; done.
Qed.
Print Assumptions C10_matrix_equality_partial.

Example C10_nonvacuous :
  let os := [MInit 2 3 0; MAppend [1; 2; 3]; MWrite 0 2 5; MSwap 0 2; MAssign 1 [7; 8; 9]; MResize 4 6;
             MAssignRow 3 1; MPop 0; MSwap 1 1] in
  all_has_cols (Rows [] 0) os /\
  mrun mat_empty os = Some (Mat [1; 2; 3; 7; 8; 9; 0; 0; 5] 3) /\
  rrun (Rows [] 0) os = Some (Rows [[1; 2; 3]; [7; 8; 9]; [0; 0; 5]] 3).
Proof. split; [vm_compute; repeat split; try done; right; lia|split; vm_compute; reflexivity]. Qed.
