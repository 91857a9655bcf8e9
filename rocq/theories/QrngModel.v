(** Model of rng::QuasiRandom<double> (utility/qrng.hpp).  std::pow is a parameter.  [None] is
    undefined behaviour: a double that does not fit into size_type. *)
From Coq Require Import ZArith.
From stdpp Require Import list.
From Verif Require Import FloatBase RealCrossoverModel RandModel.
Local Open Scope Z_scope.

Section model.
Context (pow : b64 -> b64 -> b64).

(** qrng.hpp 114-123. *)
Fixpoint phi_loop (n : nat) (dim : Z) (phid : b64) : b64 :=
  match n with
  | O => phid
  | S n => phi_loop n dim (pow (fadd fone phid) (fdiv fone (fadd (fofZ dim) fone)))
  end.
Definition phi (dim : Z) : b64 := phi_loop 30 dim fone.

(** dim_, seed_, alpha_ and point_ (qrng.hpp 43-46). *)
Record quasi := Quasi { q_dim : nat; q_seed : b64; q_alpha : list b64; q_point : list b64 }.
(** The loop of the constructor (qrng.hpp 70-75): the values of alpha_. *)
Fixpoint alpha_loop (k : nat) (phid phidpow : b64) : list b64 :=
  match k with
  | O => []
  | S k => fdiv fone phidpow :: alpha_loop k phid (fmul phidpow phid)
  end.
(** qrng.hpp 64-76. *)
Definition quasi_new (dim : nat) (seed : b64) : quasi :=
  let phid := phi (Z.of_nat dim) in
  Quasi dim seed (alpha_loop dim phid phid) (replicate dim seed).

(** Conversion of a double to size_type (64 bits). *)
Definition to_size (x : b64) : option Z :=
  z ← ftrunc x;
  if (0 <=? z) && (z <? 2 ^ 64) then Some z else None.
(** qrng.hpp 81-85: one coordinate. *)
Definition coordinate (p a : b64) : option b64 :=
  let p := fadd p a in
  z ← to_size p;
  Some (fsub p (fofZ z)).
Fixpoint coordinates (point alpha : list b64) : option (list b64) :=
  match point, alpha with
  | [], _ => Some []
  | p :: point, a :: alpha => p ← coordinate p a; point ← coordinates point alpha; Some (p :: point)
  | _ :: _, [] => None
  end.
(** qrng.hpp 78-88: operator(). *)
Definition quasi_next (q : quasi) : option (quasi * list b64) :=
  point ← coordinates (q_point q) (q_alpha q);
  Some (Quasi (q_dim q) (q_seed q) (q_alpha q) point, point).
(** qrng.hpp 90-94. *)
Fixpoint quasi_discard (n : nat) (q : quasi) : option quasi :=
  match n with
  | O => Some q
  | S n => '(q, _) ← quasi_next q; quasi_discard n q
  end.
(** qrng.hpp 96-101. *)
Definition quasi_reset (new_seed : b64) (q : quasi) : quasi :=
  Quasi (q_dim q) new_seed (q_alpha q) (replicate (length (q_point q)) new_seed).
End model.

Inductive quasi_op := QNext | QDiscard (n : nat) | QReset (seed : b64).
(** The points returned by a sequence of calls. *)
Fixpoint quasi_run (ops : list quasi_op) (q : quasi) : option (list (list b64)) :=
  match ops with
  | [] => Some []
  | QNext :: ops => '(q, p) ← quasi_next q; ps ← quasi_run ops q; Some (p :: ps)
  | QDiscard n :: ops => q ← quasi_discard n q; quasi_run ops q
  | QReset seed :: ops => quasi_run ops (quasi_reset seed q)
  end.
