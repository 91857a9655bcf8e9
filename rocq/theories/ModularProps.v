(** C117: the integer helpers are exact for every integral type. *)
From stdpp Require Import prelude.
From Coq Require Import ZArith Lia.
From Verif Require Import ModularModel.
Local Open Scope Z_scope.

Definition standard (t : int_type) : Prop := 1 <= width t <= 64.
Definition has (t : int_type) (z : Z) : Prop := lowest t <= z <= highest t.

Lemma pow_split w : 1 <= w -> 2 ^ w = 2 * 2 ^ (w - 1).
Proof. intros H. rewrite <- Z.pow_succ_r by lia. f_equal. lia. Qed.
Lemma span t : standard t -> highest t = lowest t + 2 ^ width t - 1 /\ lowest t <= 0 /\ 0 < 2 ^ width t.
Proof. intros [H _]. unfold highest, lowest. pose proof (pow_split (width t) H). assert (0 < 2 ^ (width t - 1)) by (apply Z.pow_pos_nonneg; lia). destruct (signed t); lia. Qed.
Lemma convert_id t z : standard t -> has t z -> convert t z = z.
Proof. intros Ht Hz. destruct (span t Ht) as (E & _ & _). unfold has in Hz. unfold convert. rewrite Z.mod_small by lia. lia. Qed.
Lemma promoted_has t z : standard t -> has t z -> has (promoted t) z.
Proof.
  intros Ht Hz. unfold promoted. destruct (Z.ltb_spec (width t) 32) as [Hw|]; [|done]. unfold has, highest, lowest in *. cbn [signed width]. change (2 ^ (32 - 1)) with 2147483648.
  assert (2 ^ width t <= 2 ^ 31) by (apply Z.pow_le_mono_r; lia). assert (2 ^ (width t - 1) <= 2 ^ 31) by (apply Z.pow_le_mono_r; lia). change (2 ^ 31) with 2147483648 in *. destruct (signed t); lia.
Qed.
Lemma arith_id t z : standard t -> has t z -> arith t z = Some z.
Proof.
  intros Ht Hz. unfold arith, has in *. destruct (signed t) eqn:S.
  - destruct Hz as [H1 H2]. apply Z.leb_le in H1 as ->. by apply Z.leb_le in H2 as ->.
  - f_equal. apply Z.mod_small. unfold lowest, highest in Hz. rewrite S in Hz. lia.
Qed.
Lemma standard_promoted t : standard t -> standard (promoted t).
Proof. intros H. unfold promoted. destruct (width t <? 32); [|done]. split; cbn; lia. Qed.
Lemma has_0 t : standard t -> 0 <= highest t.
Proof. intros [H _]. unfold highest. assert (0 < 2 ^ (width t - 1)) by (apply Z.pow_pos_nonneg; lia). assert (0 < 2 ^ width t) by (apply Z.pow_pos_nonneg; lia). destruct (signed t); lia. Qed.
Lemma has_nonneg t z m : standard t -> has t m -> 0 <= z <= m -> has t z.
Proof. intros Ht Hm Hz. destruct (span t Ht) as (_ & H & _). unfold has in *. lia. Qed.

(** high - low, although the difference need not fit into the type. *)
Theorem C117_range_length t low high : standard t -> has t low -> has t high -> range_length low high = if decide (low <= high) then Some (high - low) else None.
Proof.
  intros Ht Hl Hh. unfold range_length. destruct (decide (low <= high)) as [Hle|Hle]; [|by rewrite (proj2 (Z.leb_gt low high)) by lia]. rewrite (proj2 (Z.leb_le low high)) by done.
  unfold arith, convert, uint64, lowest. cbn [signed width]. f_equal. rewrite !Z.sub_0_r, !Z.add_0_r. rewrite <- Zminus_mod. apply Z.mod_small.
  destruct (span t Ht) as (E & _ & _). unfold has in *. assert (2 ^ width t <= 2 ^ 64) by (apply Z.pow_le_mono_r; [lia|apply Ht]). lia.
Qed.
Theorem C117_next t value m : standard t -> has t value -> has t m -> next_mod t value m = if decide (0 <= value < m) then Some ((value + 1) mod m) else None.
Proof.
  intros Ht Hv Hm. unfold next_mod, valid. destruct (decide (0 <= value < m)) as [[H1 H2]|H].
  - rewrite (proj2 (Z.ltb_lt 0 m)), (proj2 (Z.leb_le 0 value)), (proj2 (Z.ltb_lt value m)) by lia. cbn [andb].
    assert (Hs : has t (value + 1)) by (apply (has_nonneg t _ m); [done|done|lia]). rewrite (arith_id (promoted t)); [|by apply standard_promoted|by apply promoted_has]. cbn [mbind option_bind]. rewrite convert_id by done.
    destruct (Z.eqb_spec (value + 1) m) as [->|]; f_equal; [by rewrite Z.mod_same by lia|by rewrite Z.mod_small by lia].
  - destruct (Z.ltb_spec 0 m), (Z.leb_spec 0 value), (Z.ltb_spec value m); cbn [andb]; try done; exfalso; apply H; lia.
Qed.
Theorem C117_prev t value m : standard t -> has t value -> has t m -> prev_mod t value m = if decide (0 <= value < m) then Some ((value - 1) mod m) else None.
Proof.
  intros Ht Hv Hm. unfold prev_mod, valid. destruct (decide (0 <= value < m)) as [[H1 H2]|H].
  - rewrite (proj2 (Z.ltb_lt 0 m)), (proj2 (Z.leb_le 0 value)), (proj2 (Z.ltb_lt value m)) by lia. cbn [andb].
    destruct (Z.eqb_spec value 0) as [->|].
    + assert (Hs : has t (m - 1)) by (apply (has_nonneg t _ m); [done|done|lia]). rewrite (arith_id (promoted t)); [|by apply standard_promoted|by apply promoted_has]. cbn [mbind option_bind]. rewrite convert_id by done. f_equal. apply (Z.mod_unique_pos _ _ (-1)); lia.
    + assert (Hs : has t (value - 1)) by (apply (has_nonneg t _ m); [done|done|lia]). rewrite (arith_id (promoted t)); [|by apply standard_promoted|by apply promoted_has]. cbn [mbind option_bind]. rewrite convert_id by done. by rewrite Z.mod_small by lia.
  - destruct (Z.ltb_spec 0 m), (Z.leb_spec 0 value), (Z.ltb_spec value m); cbn [andb]; try done; exfalso; apply H; lia.
Qed.
(** Any number of steps walks around the circle, and the two directions undo each other. *)
Theorem C117_walk t n value m : standard t -> has t m -> 0 <= value < m ->
  repeat_mod (next_mod t) n value m = Some ((value + Z.of_nat n) mod m) /\ repeat_mod (prev_mod t) n value m = Some ((value - Z.of_nat n) mod m).
Proof.
  intros Ht Hm. revert value. induction n as [|n IH]; intros value Hv.
  - cbn. rewrite Z.add_0_r, Z.sub_0_r, Z.mod_small by lia. done.
  - assert (Hh : has t value) by (apply (has_nonneg t _ m); [done|done|lia]). cbn [repeat_mod]. rewrite (C117_next t), (C117_prev t) by done. rewrite !decide_True by done. cbn [mbind option_bind]. split.
    + rewrite (proj1 (IH _ (Z.mod_pos_bound _ m ltac:(lia)))). rewrite Zplus_mod_idemp_l. do 2 f_equal. lia.
    + rewrite (proj2 (IH _ (Z.mod_pos_bound _ m ltac:(lia)))). rewrite Zminus_mod_idemp_l. do 2 f_equal. lia.
Qed.
Theorem C117_inverse t value m : standard t -> has t m -> 0 <= value < m ->
  (next_mod t value m ≫= fun v => prev_mod t v m) = Some value /\ (prev_mod t value m ≫= fun v => next_mod t v m) = Some value.
Proof.
  intros Ht Hm Hv. assert (Hh : has t value) by (apply (has_nonneg t _ m); [done|done|lia]). rewrite (C117_next t), (C117_prev t) by done. rewrite !decide_True by done. cbn [mbind option_bind].
  pose proof (Z.mod_pos_bound (value + 1) m ltac:(lia)). pose proof (Z.mod_pos_bound (value - 1) m ltac:(lia)).
  rewrite (C117_next t), (C117_prev t); [|done|apply (has_nonneg t _ m); [done|done|lia]|done|done|apply (has_nonneg t _ m); [done|done|lia]|done]. rewrite !decide_True by done. rewrite Zminus_mod_idemp_l, Zplus_mod_idemp_l. split; f_equal; [replace (value + 1 - 1) with value by lia|replace (value - 1 + 1) with value by lia]; by apply Z.mod_small.
Qed.

(** int64_t over its whole range, where high - low overflows; uint8_t and int at their ends. *)
Example C117_example :
  range_length (- 2 ^ 63) (2 ^ 63 - 1) = Some (2 ^ 64 - 1) /\ arith (IntType true 64) (2 ^ 63 - 1 - - 2 ^ 63) = None /\ has (IntType true 64) (- 2 ^ 63) /\
  next_mod (IntType false 8) 254 255 = Some 0 /\ prev_mod (IntType false 8) 0 255 = Some 254 /\ next_mod (IntType true 32) (2 ^ 31 - 2) (2 ^ 31 - 1) = Some 0 /\
  next_mod (IntType true 32) 5 5 = None /\ next_mod (IntType false 1) 0 1 = Some 0 /\ repeat_mod (next_mod (IntType false 64)) 7 3 5 = Some 0.
Proof. by vm_compute. Qed.
Print Assumptions C117_range_length.
Print Assumptions C117_next.
Print Assumptions C117_prev.
Print Assumptions C117_walk.
Print Assumptions C117_inverse.
