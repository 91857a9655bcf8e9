(** Specifications for the stop conditions. *)
From Coq Require Import Reals ZArith.
From Flocq Require Import Core BinarySingleNaN.
From stdpp Require Import list list_numbers.
From Verif Require Import FloatBase FloatModel FloatSpec StatsSpec StopModel.

(** The last generation allowed; every condition answers true in it. *)
Definition final (i : info) : Prop := max_generations i <= S (generation i).
#[global] Instance final_dec i : Decision (final i).
Proof. unfold final. apply _. Defined.

(** ** Stalls.  [ms] are the observed values of the metric, one vector for each generation. *)
(** The value an objective has to be improved on: the last one that was an improvement by at
    least delta (minus infinity before the first). *)
Definition level (delta : b64) (xs : list b64) : b64 :=
  fold_left (fun b x => if fle (fadd b delta) x then x else b) xs (fneg finf).
(** Generation [t] improves by at least delta in some objective. *)
Definition improves_at (delta : b64) (ms : list (list b64)) (t : nat) : Prop :=
  exists k m x, ms !! t = Some m /\ m !! k = Some x /\ fle (fadd (level delta (objective k (take t ms))) delta) x = true.
(** No improvement in more than [patience] consecutive generations, ending with [t]. *)
Definition stalled (patience : nat) (delta : b64) (ms : list (list b64)) (t : nat) : Prop :=
  patience <= t /\ forall s, t - patience <= s <= t -> ~ improves_at delta ms s.
(** The property as it is worded: the value of generation [t] is for no objective by more than
    delta better than all values before. *)
Definition no_real_improvement (delta : b64) (ms : list (list b64)) (t : nat) : Prop :=
  forall k m x, ms !! t = Some m -> m !! k = Some x -> exists y, y ∈ objective k (take t ms) /\ (B2R x <= B2R y + B2R delta)%R.
Definition really_stalled (patience : nat) (delta : b64) (ms : list (list b64)) (t : nat) : Prop :=
  patience <= t /\ forall s, t - patience <= s <= t -> no_real_improvement delta ms s.

(** ** Thresholds: equal or better in every objective. *)
Definition reaches (threshold v : list b64) : Prop := Forall2 (fun x y => (B2R x <= B2R y)%R) threshold v.

(** ** Composition.  [val c] is the value of part [c] alone. *)
Fixpoint combination (val : condition -> option bool) (e : expr) : option bool :=
  match e with
  | Leaf c => val c
  | Or l r => b ← combination val l; b' ← combination val r; Some (b || b')
  | And l r => b ← combination val l; b' ← combination val r; Some (b && b')
  | Not e => b ← combination val e; Some (negb b)
  end.
(** The value in generation [t] of the part run on its own on the same history. *)
Definition own_value (h : list info) (t : nat) (c : condition) : option bool := l ← values (Leaf c) h; l !! t.
Fixpoint parts (e : expr) : list condition :=
  match e with Leaf c => [c] | Or l r => parts l ++ parts r | And l r => parts l ++ parts r | Not e => parts e end.
(** Never changes its members when asked. *)
Definition memoryless (c : condition) : Prop := forall i s b s', stop_condition c i s = Some (b, s') -> s' = s.
(** No || with a right operand that has memory. *)
Fixpoint strict (e : expr) : Prop :=
  match e with
  | Leaf _ => True
  | Or l r => strict l /\ strict r /\ Forall memoryless (parts r)
  | And l r => strict l /\ strict r
  | Not e => strict e
  end.
(** Such expressions joined by ||. *)
Inductive disjunction : expr -> Prop :=
| D_strict e : strict e -> disjunction e
| D_or l r : disjunction l -> disjunction r -> disjunction (Or l r).

(** ** Runs.  The generations of a history are counted from 0 and [max_gen] are allowed. *)
Definition numbered (max_gen : nat) (h : list info) : Prop := forall t i, h !! t = Some i -> generation i = t /\ max_generations i = max_gen.
