(** Sums, distances and spreads, written down directly. *)
From stdpp Require Import list list_numbers.
From Coq Require Import Reals.
Local Open Scope R_scope.

Definition total (l : list R) : R := foldr Rplus 0 l.
Definition dot (a b : list R) : R := total (zip_with Rmult a b).
Definition dist2 (a b : list R) : R := total (zip_with (fun x y => (x - y) ^ 2) a b).
Definition scale (t : R) (l : list R) : list R := (fun x => t * x) <$> l.
Definition zeros (l : list R) : Prop := Forall (fun x => x = 0) l.
(** The squared differences of all ordered pairs of elements. *)
Definition spread (l : list R) : R := total ((fun x => total ((fun y => (x - y) ^ 2) <$> l)) <$> l).
Definition column (k : nat) (m : list (list R)) : list R := (fun r => nth k r 0) <$> m.
Definition rectangle (d : nat) (m : list (list R)) : Prop := m <> [] /\ Forall (fun r => length r = d) m.
