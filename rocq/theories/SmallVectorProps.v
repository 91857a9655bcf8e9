(** Properties of small_vector (C08, C09). *)
From Coq Require Import Lia.
From stdpp Require Import list list_numbers.
From Verif Require Import SmallVectorModel SmallVectorSpec SmallVectorProofs.

Local Ltac lists :=
  repeat match goal with
  | H : length ?l = S _ |- _ => destruct l; cbn in H; [discriminate H|]; apply Nat.succ_inj in H
  | H : length ?l = 0 |- _ => apply nil_length_inv in H; subst l
  | H : length ?l + length ?k = _ |- _ => progress cbn in H
  | H : S ?a = S ?b |- _ => apply Nat.succ_inj in H
  | _ => progress simplify_eq/=
  end.
(** Discharges [vsafe] for a concrete history. *)
Local Ltac safe :=
  cbn; repeat (split; [first [done|cbn; lia|auto]|]; split; [first [done|cbn; lia|left; cbn; lia]|];
          let s := fresh "s" in let Hs := fresh "Hs" in intros s Hs; inversion Hs; subst; clear Hs; lists);
  try done.

(** C08 (refuted): inserting one value (through the count or range overload) at
    the front of [1;2;3;4;5] with spare capacity puts it at index 4, and the
    returned iterator does not point to it. *)
Theorem C08_small_vector_is_sequence_refuted :
  exists v v' i, sv_of_list false 8 [1; 2; 3; 4; 5] = Some v /\
    sv_insert false 0 v 0 [9] = Some (v', i) /\
    contents v = Some [1; 2; 3; 4; 5] /\ contents v' = Some [1; 2; 3; 4; 9; 5] /\ read (storage v') i = Some 1.
Proof. eexists _, _, _. repeat split; reflexivity. Qed.
Print Assumptions C08_small_vector_is_sequence_refuted.

(** C08, what holds: for every element type, inline capacity and history of
    operations on two vectors that stays within the preconditions, uses pop_back
    only on trivially destructible types, and inserts ranges only where the
    displaced tail is not longer than the range, nothing undefined happens and
    the visible contents are those of two plain lists. *)
Theorem C08_small_vector_is_sequence_partial (T : Type) (triv : bool) (mv : T) (N : nat) (os : list (svop T)) :
  vsafe triv ([], []) os ->
  exists v w l k, svrun triv mv N (sv_empty N, sv_empty N) os = Some (v, w) /\
    vrun ([], []) os (l, k) /\
    contents v = Some l /\ sz v = length l /\ contents w = Some k /\ sz w = length k.
Proof.
  intros Hs. destruct (svrun_ok triv mv N os (sv_empty N, sv_empty N) ([], [])) as ([v w]&[l k]&Hr&Hv&[H1 H2]).
  - split; apply vrepr_empty.
  - done.
  - exists v, w, l, k. cbn in *. repeat split; try done.
    + eapply contents_ok; done.
    + eapply vrepr_sz; done.
    + eapply contents_ok; done.
    + eapply vrepr_sz; done.
Qed.
Print Assumptions C08_small_vector_is_sequence_partial.

Example C08_nonvacuous :
  let os := [OInit [1; 2; 3]; OPush 4; OPush 5; OEmplace 1 9; OErase 0 2; OInsert 3 [7; 8]; OOther; OCopyAssign;
             OResize 3 0; OSwap; OShrink] in
  vsafe false ([], []) os /\
  (s ← svrun false 0 2 (sv_empty 2, sv_empty 2) os; l ← contents s.1; k ← contents s.2; Some (l, k))
  = Some ([2; 3; 4; 7; 8; 5], [2; 3; 4]).
Proof.
  split; [safe|reflexivity].
Qed.

(** C09 (refuted): pop_back destroys the cell behind the last element.  For a
    type with a non-trivial destructor this is undefined for every non-empty
    vector. *)
Theorem C09_pop_back_lifetime_refuted (T : Type) (mv : T) (N : nat) (os : list (svop T)) v w :
  vsafe false ([], []) os -> svrun false mv N (sv_empty N, sv_empty N) os = Some (v, w) ->
  sv_pop false v = None.
Proof.
  intros Hs Hr. destruct (svrun_ok false mv N os (sv_empty N, sv_empty N) ([], [])) as ([v' w']&[l k]&Hr'&Hv&[H1 H2]).
  - split; apply vrepr_empty.
  - done.
  - rewrite Hr in Hr'. injection Hr' as <- <-. cbn in *. destruct H1 as (g&Hst&Hf&Hsz&_).
    unfold sv_pop. destruct (Nat.eqb (sz v) 0); [done|]. unfold destroy. rewrite Hst, Hsz.
    rewrite lookup_app_r by (rewrite map_length; lia). rewrite map_length, Nat.sub_diag.
    destruct g as [|x g]; [done|]. apply Forall_cons in Hf as [[Hx|Hx] _]; [done|]. subst. done.
Qed.
Print Assumptions C09_pop_back_lifetime_refuted.

Example C09_refuted_nonvacuous :
  vsafe false ([], []) [OInit [1; 2]] /\ svrun false 0 4 (sv_empty 4, sv_empty 4) [OInit [1; 2]] <> None.
Proof. split; [cbn; repeat split; intros; done|done]. Qed.

(** C09, what holds: without pop_back (and the misplaced insertions of C08) every
    history can be completed by the two destructors, no object is constructed
    over a live one, no raw memory is destroyed, and no live object is left
    behind in any storage. *)
Theorem C09_small_vector_lifetimes_partial (T : Type) (mv : T) (N : nat) (os : list (svop T)) :
  vsafe false ([], []) os ->
  exists v w i1 h1 i2 h2, svrun false mv N (sv_empty N, sv_empty N) os = Some (v, w) /\
    sv_destroy false v = Some (i1, h1) /\ sv_destroy false w = Some (i2, h2) /\
    Forall (fun c => c = Raw) (i1 ++ default [] h1) /\ Forall (fun c => c = Raw) (i2 ++ default [] h2).
Proof.
  intros Hs. destruct (svrun_ok false mv N os (sv_empty N, sv_empty N) ([], [])) as ([v w]&[l k]&Hr&Hv&[H1 H2]).
  - split; apply vrepr_empty.
  - done.
  - cbn in *.
    assert (Hfree : forall m, Forall (isfree (T := T) false) m -> Forall (fun c => c = Raw) m).
    { intros m Hm. eapply Forall_impl; [done|]. intros x [?|?]; done. }
    destruct (sv_destroy_ok false N v l H1) as (i1&h1&Hd1&Hf1&Hh1).
    destruct (sv_destroy_ok false N w k H2) as (i2&h2&Hd2&Hf2&Hh2).
    exists v, w, i1, h1, i2, h2. split; [done|]. split; [done|]. split; [done|].
    split; apply Forall_app; (split; [apply Hfree; done|]).
    + destruct h1 as [b|]; cbn; [apply Hfree; auto|constructor].
    + destruct h2 as [b|]; cbn; [apply Hfree; auto|constructor].
Qed.
Print Assumptions C09_small_vector_lifetimes_partial.

Example C09_nonvacuous :
  let os := [OInit [1; 2; 3]; OPush 4; OErase 1 3; OOther; OInit [5]; OSwap] in
  vsafe false ([], []) os /\
  (s ← svrun false 0 2 (sv_empty 2, sv_empty 2) os; d ← sv_destroy false s.1; Some d)
  = Some ([Raw; Raw], Some [Raw; Raw; Raw; Raw]).
Proof.
  split; [safe|reflexivity].
Qed.
