From stdpp Require Import list sets.
From Coq Require Import Lia.
From Verif Require Import CircularBufferExnModel.

Ltac crush := repeat (case_decide; cbn in *; try done; try (exfalso; set_solver); try congruence).

Lemma set_capacity_no_throw_balanced cap size n : balanced (life_set_capacity cap size n None).
Proof.
  unfold balanced, life_set_capacity, set_capacity, construct; cbn -[Nat.ltb Nat.eqb Nat.min].
  destruct (Nat.eqb_spec n cap) as [->|Hne]; cbn; crush.
Qed.

Lemma set_capacity_throw_not_balanced cap size n k :
  n <> cap -> k < Nat.min n size -> ~ balanced (life_set_capacity cap size n (Some k)).
Proof.
  intros Hne Hk. unfold balanced, life_set_capacity, set_capacity, construct; cbn -[Nat.ltb Nat.eqb Nat.min].
  rewrite (proj2 (Nat.eqb_neq n cap) Hne), (proj2 (Nat.ltb_lt _ _) Hk). cbn.
  crush.
Qed.

Lemma reset_throw_not_balanced cap size n :
  n <> cap -> ~ balanced (life_reset cap size n true).
Proof.
  intros Hne. unfold balanced, life_reset, reset, construct; cbn -[Nat.ltb Nat.eqb Nat.min].
  rewrite (proj2 (Nat.eqb_neq n cap) Hne). cbn. crush.
Qed.
