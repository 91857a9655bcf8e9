(** Properties of dynamic_bitset (C06, C07). *)
From Coq Require Import Lia.
From stdpp Require Import list list_numbers sets.
From Verif Require Import BitsetModel BitsetSpec BitsetProofs.

(** C06 (refuted): growing a bitset across a block boundary does not give the
    value [v] to the new bits that share the old last block, whichever value was
    asked for. *)
Theorem C06_bitset_is_bool_sequence_refuted :
  ~ (forall os l, lrun [] os = Some l ->
       exists b, brun bs_empty os = Some b /\ forall i, bs_get b i = l !! i).
Proof.
  intros H. destruct (H [BNew 3 false; BResize 70 true] _ eq_refl) as (b&Hb&Hg).
  vm_compute in Hb. injection Hb as <-. specialize (Hg 5). vm_compute in Hg. discriminate.
Qed.
Print Assumptions C06_bitset_is_bool_sequence_refuted.

(** The other direction: bits that should be false are true. *)
Theorem C06_resize_false_leaves_garbage_refuted :
  exists b, brun bs_empty [BNew 3 true; BResize 70 false] = Some b /\ bs_get b 5 = Some true.
Proof. eexists; split; vm_compute; reflexivity. Qed.
Print Assumptions C06_resize_false_leaves_garbage_refuted.

(** C06, what holds: a history whose growing resizes start at a multiple of the
    block size or stay inside the last block (construction, shrinking, filling,
    setting, flipping, complementing are unrestricted) behaves as the list of
    booleans for every query; it is undefined exactly when an index is out of
    range. *)
Theorem C06_bitset_is_bool_sequence_partial (os : list bop) :
  resizes_ok [] os ->
  match lrun [] os with
  | Some l => exists b, brun bs_empty os = Some b /\ bits_look_like b l
  | None => brun bs_empty os = None
  end.
Proof.
  intros Hok. pose proof (brepr_run os _ _ brepr_empty Hok) as H.
  destruct (lrun [] os) as [l|]; [|done]. destruct H as (b&Hb&H). exists b. split; [done|].
  apply brepr_looks_like. done.
Qed.
Print Assumptions C06_bitset_is_bool_sequence_partial.

(** Equality of the results of two such histories (not both empty). *)
Theorem C06_bitset_equality_partial (os os' : list bop) (l l' : list bool) (a b : bitset) :
  resizes_ok [] os -> resizes_ok [] os' ->
  lrun [] os = Some l -> lrun [] os' = Some l' -> (l <> [] \/ l' <> []) ->
  brun bs_empty os = Some a -> brun bs_empty os' = Some b ->
  bs_eqb a b = Some (bool_decide (l = l')).
Proof.
  intros Hok Hok' Hl Hl' Hne Ha Hb.
  pose proof (brepr_run os _ _ brepr_empty Hok) as H. rewrite Hl in H. destruct H as (a'&Ha'&H).
  pose proof (brepr_run os' _ _ brepr_empty Hok') as H'. rewrite Hl' in H'. destruct H' as (b'&Hb'&H').
  rewrite Ha in Ha'. injection Ha' as <-. rewrite Hb in Hb'. injection Hb' as <-.
  apply brepr_eqb; [done..|]. destruct l as [|x l]; [right|left; done].
  destruct Hne as [?|Hne]; [done|]. destruct l'; done.
Qed.
Print Assumptions C06_bitset_equality_partial.

(** A history with a shrink that leaves garbage, a regrowth inside the block, a
    complement and garbage above the size. *)
Example C06_nonvacuous :
  let os := [BNew 70 true; BSet 1 false; BResize 66 true; BResize 68 false; BFlip 2; BNot] in
  resizes_ok [] os /\
  (b ← brun bs_empty os; c ← bs_popcount b; Some (c, bs_find_first b true, bs_get b 67)) = Some (4, 1, Some true).
Proof. split; [vm_compute; repeat split; lia|vm_compute; reflexivity]. Qed.

Example C06_equality_nonvacuous :
  let os := [BNew 70 true; BResize 66 true] in let os' := [BNew 66 true] in
  resizes_ok [] os /\ resizes_ok [] os' /\
  (a ← brun bs_empty os; b ← brun bs_empty os'; bs_eqb a b) = Some true.
Proof. repeat split; try (vm_compute; repeat split; lia); vm_compute; reflexivity. Qed.

(** C07 (refuted): on an empty bitset the counting queries read blocks_.back()
    of an empty vector. *)
Theorem C07_empty_bitset_queries_refuted :
  bs_popcount bs_empty = None /\ bs_any_set bs_empty = None /\ bs_all_set bs_empty = None /\
  bs_none_set bs_empty = None /\ bs_eqb bs_empty bs_empty = None.
Proof. repeat split; reflexivity. Qed.
Print Assumptions C07_empty_bitset_queries_refuted.

(** C07, what holds: the search and the complement of an empty bitset are
    defined, and every query is defined once the bitset is not empty (C06). *)
Theorem C07_empty_bitset_queries_partial (os : list bop) :
  resizes_ok [] os -> lrun [] os = Some [] ->
  exists b, brun bs_empty os = Some b /\
    bs_find_first b true = 0 /\ bs_find_first b false = 0 /\ bs_not b = Some bs_empty.
Proof.
  intros Hok Hl. pose proof (brepr_run os _ _ brepr_empty Hok) as H. rewrite Hl in H.
  destruct H as (b&Hb&H). exists b. split; [done|].
  rewrite !(brepr_find b [] _ H). do 2 (split; [done|]).
  destruct H as (Hlen&_&Hs&_). destruct b as [bl sz]. cbn in *. subst sz.
  destruct bl; [done|]. vm_compute in Hlen. discriminate.
Qed.
Print Assumptions C07_empty_bitset_queries_partial.

Example C07_nonvacuous :
  resizes_ok [] [BNew 70 true; BResize 0 false] /\ lrun [] [BNew 70 true; BResize 0 false] = Some [].
Proof. split; [vm_compute; repeat split; lia|vm_compute; reflexivity]. Qed.
