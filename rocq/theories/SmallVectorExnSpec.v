(** What a vector should be, in memory: the elements are the only live objects, and the inline buffer and the
    block of the vector the only blocks. *)
From stdpp Require Import list list_numbers.
From Verif Require Import SmallVectorExnModel.

Section Spec.
Context {T : Type} (N : nat).
Record holds (c : core T) (l : list T) : Prop := {
  h_size : size c = length l;
  h_live : forall j x, l !! j = Some x -> cells c (first c) j = Live x;
  h_raw : forall b j, ~ (b = first c /\ j < length l) -> cells c b j = Raw;
  h_inline : alive c 0 = Some N;
  h_cap : exists k, alive c (first c) = Some k /\ length l <= k;
  h_only : forall b k, alive c b = Some k -> b = 0 \/ b = first c;
  h_new : 0 < nxt c /\ first c < nxt c }.
(** Nothing is left but the raw inline buffer. *)
Definition gone (c : core T) : Prop := (forall b j, cells c b j = Raw) /\ (forall b k, alive c b = Some k -> b = 0).

(** The outcome of a computation for every way in which exceptions can occur: defined, with a result and state as
    in [Q] when it ends normally and a state as in [E] when it throws. *)
Definition always {A} (f : M A) (Q : A -> core T -> Prop) (E : core T -> Prop) (c : core T) : Prop :=
  forall d, match f c d with None => False | Some (c', _, Ok a) => Q a c' | Some (c', _, Exn) => E c' end.
(** [a] refers to an object with the value [x]. *)
Definition refers (c : core T) (a : arg T) (x : T) : Prop :=
  match a with Val y => x = y | Ref b i => (exists k, alive c b = Some k /\ i < k) /\ cells c b i = Live x end.
End Spec.
