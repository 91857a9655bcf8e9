(** Specification: a bounded map kept as a list of bindings, oldest first. *)
From stdpp Require Import list.
From Verif Require Import CacheModel.

Section Spec.
Context {K V : Type} `{EqDecision K}.

Record fifo := Fifo { fcap : nat; fitems : list (K * V) }.

(** The value bound to a key. *)
Definition fget (s : fifo) (k : K) : option V :=
  match list_find (fun p => p.1 = k) (fitems s) with Some (_, p) => Some p.2 | None => None end.

(** Rebinding keeps the age; a new key becomes the youngest and pushes the
    oldest out of a full cache. *)
Definition fadd (s : fifo) (k : K) (v : V) : fifo :=
  if decide (fcap s = 0) then s
  else if decide (k ∈ (fitems s).*1) then
    Fifo (fcap s) (map (fun p => if decide (p.1 = k) then (p.1, v) else p) (fitems s))
  else if decide (length (fitems s) = fcap s) then Fifo (fcap s) (tail (fitems s) ++ [(k, v)])
  else Fifo (fcap s) (fitems s ++ [(k, v)]).

Definition ftry (s : fifo) (k : K) (v : V) : fifo :=
  if decide (k ∈ (fitems s).*1) then s else fadd s k v.

Definition fadds (s : fifo) (l : list (K * V)) : fifo :=
  fold_left (fun s p => fadd s p.1 p.2) l s.

(** The bulk insertion as documented by the code: only the last [cap] items. *)
Definition fstep (s : fifo) (o : cop K V) : fifo :=
  match o with
  | CInsert k v => fadd s k v
  | CTryInsert k v => ftry s k v
  | CInsertRange l => fadds s (drop (length l - fcap s) l)
  | CClear => Fifo (fcap s) []
  | CReset n => Fifo n []
  | CCopy => s
  end.

Definition frun (s : fifo) (os : list (cop K V)) : fifo := fold_left fstep os s.

(** What a client of the cache can see. *)
Definition cache_looks_like (c : cache K V) (s : fifo) : Prop :=
  cache_capacity c = fcap s /\ cache_size c = length (fitems s) /\ cache_size c <= cache_capacity c /\
  (forall k, cache_get c k = fget s k) /\
  (forall k, cache_contains c k = bool_decide (k ∈ (fitems s).*1)).
End Spec.
Arguments fifo : clear implicits.
