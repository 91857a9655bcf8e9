From Coq Require Import NArith Lia.
From stdpp Require Import list list_numbers sets.
From Verif Require Import BitsetModel BitsetSpec.

Lemma HW : W = 64. Proof. done. Qed.
Global Opaque W.
Local Arguments N.shiftl : simpl never.
Local Arguments N.shiftr : simpl never.
Local Arguments N.land : simpl never.
Local Arguments N.lor : simpl never.
Local Arguments N.lxor : simpl never.
Local Arguments N.testbit : simpl never.
Local Arguments N.of_nat : simpl never.
Local Arguments Nat.div : simpl never.
Local Arguments Nat.modulo : simpl never.

(** * Words *)
Definition wf (w : word) : Prop := forall n, (64 <= n)%N -> N.testbit w n = false.

Lemma bits_length w : length (bits w) = W.
Proof. unfold bits. rewrite map_length, seq_length. done. Qed.

Lemma bits_lookup w i : i < W -> bits w !! i = Some (N.testbit w (N.of_nat i)).
Proof.
  intros Hi. unfold bits. rewrite list_lookup_fmap, lookup_seq_lt by done. done.
Qed.

Lemma wf_eq w w' : wf w -> wf w' -> (forall i, i < W -> N.testbit w (N.of_nat i) = N.testbit w' (N.of_nat i)) -> w = w'.
Proof.
  intros H H' Hb. apply N.bits_inj. intros n.
  destruct (N.ltb_spec n 64) as [Hn|Hn].
  - rewrite <- (N2Nat.id n). apply Hb. rewrite HW. lia.
  - rewrite H, H' by done. done.
Qed.

Lemma bits_inj w w' : wf w -> wf w' -> bits w = bits w' -> w = w'.
Proof.
  intros H H' Hb. apply wf_eq; [done..|]. intros i Hi.
  assert (E : bits w !! i = bits w' !! i) by (rewrite Hb; done).
  rewrite !bits_lookup in E by done. congruence.
Qed.

Lemma ones_testbit n : N.testbit ones n = (n <? 64)%N.
Proof.
  unfold ones. destruct (N.ltb_spec n 64).
  - apply N.ones_spec_low. done.
  - apply N.ones_spec_high. done.
Qed.

Lemma wf_ones : wf ones.
Proof. intros n Hn. rewrite ones_testbit. apply N.ltb_ge. done. Qed.
Lemma wf_zeros : wf zeros.
Proof. intros n Hn. apply N.bits_0. Qed.
Lemma wf_block_of v : wf (block_of v).
Proof. destruct v; [apply wf_ones|apply wf_zeros]. Qed.
Lemma block_of_testbit v i : i < W -> N.testbit (block_of v) (N.of_nat i) = v.
Proof.
  intros Hi. rewrite HW in Hi. destruct v; cbn [block_of].
  - rewrite ones_testbit. apply N.ltb_lt. lia.
  - apply N.bits_0.
Qed.
Lemma bits_block_of v : bits (block_of v) = replicate W v.
Proof.
  apply list_eq. intros i. destruct (decide (i < W)) as [Hi|Hi].
  - rewrite bits_lookup, lookup_replicate_2 by done. f_equal. apply block_of_testbit. done.
  - rewrite !lookup_ge_None_2; [done| |]; rewrite ?bits_length, ?replicate_length; lia.
Qed.
Lemma wnot_testbit w i : i < W -> N.testbit (wnot w) (N.of_nat i) = negb (N.testbit w (N.of_nat i)).
Proof.
  intros Hi. rewrite HW in Hi. unfold wnot. rewrite N.lxor_spec, ones_testbit.
  replace (N.of_nat i <? 64)%N with true by (symmetry; apply N.ltb_lt; lia).
  destruct (N.testbit _ _); done.
Qed.
Lemma wf_wnot w : wf w -> wf (wnot w).
Proof.
  intros H n Hn. unfold wnot. rewrite N.lxor_spec, H, (wf_ones n) by done. done.
Qed.
Lemma wf_lor w w' : wf w -> wf w' -> wf (N.lor w w').
Proof. intros H H' n Hn. rewrite N.lor_spec, H, H' by done. done. Qed.
Lemma wf_land w w' : wf w -> wf (N.land w w').
Proof. intros H n Hn. rewrite N.land_spec, H by done. done. Qed.
Lemma wf_lxor w w' : wf w -> wf w' -> wf (N.lxor w w').
Proof. intros H H' n Hn. rewrite N.lxor_spec, H, H' by done. done. Qed.

Lemma mask_testbit r i : r <= W -> i < W ->
  N.testbit (mask_right_n r) (N.of_nat i) = bool_decide (i < r).
Proof.
  intros Hr Hi. unfold mask_right_n. destruct (Nat.eqb_spec r 0) as [->|Hne].
  - unfold zeros. rewrite N.bits_0. symmetry. apply bool_decide_eq_false. lia.
  - rewrite N.shiftr_spec by lia. rewrite ones_testbit. rewrite HW in *.
    destruct (N.ltb_spec (N.of_nat i + N.of_nat (64 - r)) 64).
    + symmetry. apply bool_decide_eq_true. lia.
    + symmetry. apply bool_decide_eq_false. lia.
Qed.
Lemma wf_mask r : wf (mask_right_n r).
Proof.
  intros n Hn. unfold mask_right_n. destruct (Nat.eqb r 0); [apply N.bits_0|].
  rewrite N.shiftr_spec by lia. rewrite ones_testbit. apply N.ltb_ge. lia.
Qed.

Lemma bit_testbit (o i : nat) : N.testbit (N.shiftl 1 (N.of_nat o)) (N.of_nat i) = bool_decide (o = i).
Proof.
  rewrite N.shiftl_1_l, N.pow2_bits_eqb.
  destruct (N.eqb_spec (N.of_nat o) (N.of_nat i)).
  - symmetry. apply bool_decide_eq_true. lia.
  - symmetry. apply bool_decide_eq_false. lia.
Qed.
Lemma wf_bit o : o < W -> wf (N.shiftl 1 (N.of_nat o)).
Proof.
  intros Ho n Hn. rewrite HW in Ho. rewrite N.shiftl_1_l, N.pow2_bits_eqb.
  apply N.eqb_neq. lia.
Qed.

Lemma land_bit_zero w o : negb (N.eqb (N.land w (N.shiftl 1 (N.of_nat o))) 0) = N.testbit w (N.of_nat o).
Proof.
  destruct (N.testbit w (N.of_nat o)) eqn:E.
  - apply negb_true_iff, N.eqb_neq. intros H0.
    assert (H : N.testbit (N.land w (N.shiftl 1 (N.of_nat o))) (N.of_nat o) = true).
    { rewrite N.land_spec, E, bit_testbit. rewrite bool_decide_eq_true_2 by done. done. }
    rewrite H0, N.bits_0 in H. done.
  - apply negb_false_iff, N.eqb_eq. apply N.bits_inj. intros n. rewrite N.land_spec, N.bits_0.
    rewrite <- (N2Nat.id n), bit_testbit. case_bool_decide as Hn; [|apply andb_false_r].
    rewrite <- Hn, E. done.
Qed.

(** * The flattened bits *)
Definition allbits (bl : list word) : list bool := concat (map bits bl).

Lemma allbits_length bl : length (allbits bl) = W * length bl.
Proof.
  unfold allbits. induction bl as [|w bl IH]; cbn; [lia|].
  rewrite app_length, bits_length, IH. lia.
Qed.

Lemma allbits_app bl bl' : allbits (bl ++ bl') = allbits bl ++ allbits bl'.
Proof. unfold allbits. rewrite map_app, concat_app. done. Qed.

Lemma allbits_lookup bl i :
  allbits bl !! i = (w ← bl !! (i / W); Some (N.testbit w (N.of_nat (i mod W)))).
Proof.
  revert i. induction bl as [|w bl IH]; intros i.
  - rewrite !lookup_nil. done.
  - change (allbits (w :: bl)) with (bits w ++ allbits bl).
    destruct (decide (i < W)) as [Hi|Hi].
    + rewrite lookup_app_l by (rewrite bits_length; done).
      rewrite Nat.div_small, Nat.mod_small by done. rewrite bits_lookup by done. done.
    + rewrite lookup_app_r by (rewrite bits_length; lia). rewrite bits_length.
      rewrite IH. pose proof HW as HW'.
      assert (E : i = (i - W) + 1 * W) by lia.
      assert (E1 : i / W = S ((i - W) / W)) by (rewrite E at 1; rewrite Nat.div_add by lia; lia).
      assert (E2 : i mod W = (i - W) mod W) by (rewrite E at 1; rewrite Nat.mod_add by lia; done).
      rewrite E1, E2. done.
Qed.

Definition brepr (b : bitset) (l : list bool) : Prop :=
  length (blocks b) = block_count (bsize b) /\ Forall wf (blocks b) /\ bsize b = length l /\
  l = take (bsize b) (allbits (blocks b)).

Lemma div_mod_W n : n = W * (n / W) + n mod W /\ n mod W < W.
Proof. pose proof HW. split; [apply Nat.div_mod; lia|apply Nat.mod_upper_bound; lia]. Qed.

Lemma block_count_spec n : W * (block_count n - 1) < n \/ n = 0 /\ block_count n = 0.
Proof.
  unfold block_count. destruct (div_mod_W n) as [H1 H2]. pose proof HW.
  destruct (Nat.eqb_spec (n mod W) 0); nia.
Qed.
Lemma block_count_ge n : n <= W * block_count n.
Proof.
  unfold block_count. destruct (div_mod_W n) as [H1 H2]. pose proof HW.
  destruct (Nat.eqb_spec (n mod W) 0); nia.
Qed.
Lemma block_count_lt n : W * block_count n < n + W.
Proof. destruct (block_count_spec n) as [H|[-> ->]]; pose proof HW; nia. Qed.
Lemma block_count_uniq n m : n <= W * m -> W * m < n + W -> m = block_count n.
Proof.
  intros H1 H2. pose proof (block_count_ge n). pose proof (block_count_lt n). pose proof HW. nia.
Qed.

Lemma brepr_lookup b l i : brepr b l -> i < length l ->
  exists w, blocks b !! (i / W) = Some w /\ l !! i = Some (N.testbit w (N.of_nat (i mod W))).
Proof.
  intros (Hlen&Hwf&Hs&Hl) Hi.
  assert (Hd : i / W < length (blocks b)).
  { rewrite Hlen. pose proof (block_count_ge (bsize b)). destruct (div_mod_W i). pose proof HW. nia. }
  destruct (lookup_lt_is_Some_2 _ _ Hd) as [w Hw]. exists w. split; [done|].
  rewrite Hl, lookup_take by lia. rewrite allbits_lookup, Hw. done.
Qed.

Lemma brepr_intro bl sz (l : list bool) :
  length bl = block_count sz -> Forall wf bl -> sz = length l ->
  (forall i w, i < sz -> bl !! (i / W) = Some w -> l !! i = Some (N.testbit w (N.of_nat (i mod W)))) ->
  brepr (Bitset bl sz) l.
Proof.
  intros Hlen Hwf Hs Hb. unfold brepr; cbn [blocks bsize]. repeat split; [done..|].
  apply list_eq. intros i. destruct (decide (i < sz)) as [Hi|Hi].
  - rewrite lookup_take by done. rewrite allbits_lookup.
    assert (Hd : i / W < length bl).
    { rewrite Hlen. pose proof (block_count_ge sz). destruct (div_mod_W i). pose proof HW. nia. }
    destruct (lookup_lt_is_Some_2 _ _ Hd) as [w Hw]. rewrite Hw. cbn. apply Hb; done.
  - rewrite !lookup_ge_None_2; [done| |lia]. rewrite take_length. lia.
Qed.

Lemma brepr_get b l i : brepr b l -> bs_get b i = l !! i.
Proof.
  intros H. pose proof H as (Hlen&Hwf&Hs&Hl). unfold bs_get. case_decide as Hi.
  - destruct (brepr_lookup b l i H) as (w&Hw&Hli); [lia|]. rewrite Hw, Hli. cbn.
    f_equal. apply land_bit_zero.
  - symmetry. apply lookup_ge_None_2. lia.
Qed.

Lemma brepr_empty : brepr bs_empty [].
Proof. unfold brepr; cbn. repeat split; try done. Qed.

Lemma brepr_new n v : brepr (bs_new n v) (replicate n v).
Proof.
  apply brepr_intro; rewrite ?replicate_length; try done.
  - apply Forall_replicate. apply wf_block_of.
  - intros i w Hi Hw. apply lookup_replicate in Hw as [-> _].
    rewrite lookup_replicate_2 by done. f_equal. symmetry. apply block_of_testbit. apply div_mod_W.
Qed.

Lemma update_block b l i w w' v : brepr b l -> i < length l -> blocks b !! (i / W) = Some w -> wf w' ->
  (forall o, o < W -> N.testbit w' (N.of_nat o) = if decide (o = i mod W) then v else N.testbit w (N.of_nat o)) ->
  brepr (Bitset (<[i / W := w']> (blocks b)) (bsize b)) (<[i := v]> l).
Proof.
  intros H Hi Hw Hwf' Hbits. pose proof H as (Hlen&Hwf&Hs&Hl).
  apply brepr_intro.
  - rewrite insert_length. done.
  - apply Forall_insert; done.
  - rewrite insert_length. done.
  - intros j wj Hj Hwj.
    destruct (decide (i / W = j / W)) as [E|E].
    + rewrite E in *. rewrite list_lookup_insert in Hwj by (eapply lookup_lt_Some; done).
      injection Hwj as <-. rewrite Hbits by apply div_mod_W.
      destruct (decide (j mod W = i mod W)) as [E2|E2].
      * assert (j = i) as -> by (destruct (div_mod_W i), (div_mod_W j); congruence).
        apply list_lookup_insert. done.
      * rewrite list_lookup_insert_ne by congruence.
        destruct (brepr_lookup b l j H) as (w2&Hw2&Hlj); [lia|]. congruence.
    + rewrite list_lookup_insert_ne in Hwj by done.
      rewrite list_lookup_insert_ne by congruence.
      destruct (brepr_lookup b l j H) as (w2&Hw2&Hlj); [lia|]. congruence.
Qed.

Lemma blocks_wf b l j w : brepr b l -> blocks b !! j = Some w -> wf w.
Proof. intros (_&Hwf&_) Hw. eapply Forall_lookup_1; done. Qed.

Lemma brepr_set b l i v : brepr b l ->
  if decide (i < length l) then exists b', bs_set b i v = Some b' /\ brepr b' (<[i := v]> l)
  else bs_set b i v = None.
Proof.
  intros H. pose proof H as (Hlen&Hwf&Hs&Hl). unfold bs_set. rewrite Hs. case_decide as Hi; [|done].
  destruct (brepr_lookup b l i H Hi) as (w&Hw&Hli). rewrite Hw. cbn. eexists; split; [done|].
  rewrite <- Hs. pose proof (blocks_wf _ _ _ _ H Hw) as Hww. destruct (div_mod_W i) as [_ Hm].
  apply (update_block b l i w); try done.
  - destruct v; [apply wf_lor|apply wf_land]; try done. apply wf_bit. done.
  - intros o Ho. destruct v.
    + rewrite N.lor_spec, bit_testbit. case_bool_decide; case_decide; try congruence.
      * apply orb_true_r.
      * apply orb_false_r.
    + rewrite N.land_spec, wnot_testbit, bit_testbit by done. case_bool_decide; case_decide; try congruence; cbn.
      * apply andb_false_r.
      * apply andb_true_r.
Qed.

Lemma brepr_flip b l i : brepr b l ->
  match l !! i with
  | Some x => exists b', bs_flip b i = Some b' /\ brepr b' (<[i := negb x]> l)
  | None => bs_flip b i = None
  end.
Proof.
  intros H. pose proof H as (Hlen&Hwf&Hs&Hl). unfold bs_flip. rewrite Hs. case_decide as Hi.
  - destruct (brepr_lookup b l i H Hi) as (w&Hw&Hli). rewrite Hw, Hli. cbn. eexists; split; [done|].
    rewrite <- Hs. pose proof (blocks_wf _ _ _ _ H Hw) as Hww. destruct (div_mod_W i) as [_ Hm].
    apply (update_block b l i w); try done.
    + apply wf_lxor; [done|]. apply wf_bit. done.
    + intros o Ho. rewrite N.lxor_spec, bit_testbit. case_bool_decide; case_decide; try congruence.
      * subst. apply xorb_true_r.
      * apply xorb_false_r.
  - rewrite lookup_ge_None_2 by lia. done.
Qed.

Lemma brepr_fill b l v : brepr b l -> brepr (bs_fill b v) (replicate (length l) v).
Proof.
  intros (Hlen&Hwf&Hs&Hl). apply brepr_intro.
  - rewrite map_length. done.
  - apply Forall_forall. intros w Hw. apply elem_of_list_fmap in Hw as (?&->&_). apply wf_block_of.
  - rewrite replicate_length. done.
  - intros i w Hi Hw. rewrite list_lookup_fmap in Hw. apply fmap_Some in Hw as (?&_&->).
    rewrite lookup_replicate_2 by lia. f_equal. symmetry. apply block_of_testbit. apply div_mod_W.
Qed.

Lemma brepr_not b l : brepr b l -> exists b', bs_not b = Some b' /\ brepr b' (map negb l).
Proof.
  intros H. pose proof H as (Hlen&Hwf&Hs&Hl). unfold bs_not. rewrite decide_True by lia.
  eexists; split; [done|]. rewrite Hlen, Nat.sub_diag. cbn. rewrite app_nil_r. apply brepr_intro.
  - rewrite map_length. done.
  - apply Forall_map. eapply Forall_impl; [done|]. intros w Hw. apply wf_wnot. done.
  - rewrite map_length. done.
  - intros i w Hi Hw. rewrite list_lookup_fmap in Hw. apply fmap_Some in Hw as (w0&Hw0&->).
    destruct (brepr_lookup b l i H) as (w1&Hw1&Hli); [lia|].
    rewrite list_lookup_fmap, Hli. cbn. f_equal. rewrite wnot_testbit by apply div_mod_W. congruence.
Qed.

Lemma vec_resize_length l n v : length (vec_resize l n v) = n.
Proof. unfold vec_resize. rewrite app_length, take_length, replicate_length. lia. Qed.
Lemma vec_resize_lookup l n v i : i < n ->
  vec_resize l n v !! i = Some (if decide (i < length l) then default v (l !! i) else v).
Proof.
  intros Hi. unfold vec_resize. case_decide as E.
  - rewrite lookup_app_l by (rewrite take_length; lia). rewrite lookup_take by done.
    destruct (lookup_lt_is_Some_2 _ _ E) as [w Hw]. rewrite Hw. done.
  - rewrite lookup_app_r by (rewrite take_length; lia). rewrite lookup_replicate_2; [done|].
    rewrite take_length. lia.
Qed.
Lemma wf_vec_resize l n v : Forall wf l -> wf v -> Forall wf (vec_resize l n v).
Proof.
  intros H Hv. unfold vec_resize. apply Forall_app. split; [apply Forall_take; done|].
  apply Forall_replicate. done.
Qed.
Lemma lresize_lookup l n v i : i < n ->
  lresize l n v !! i = Some (if decide (i < length l) then default v (l !! i) else v).
Proof.
  intros Hi. unfold lresize. case_decide as E.
  - rewrite lookup_app_l by (rewrite take_length; lia). rewrite lookup_take by done.
    destruct (lookup_lt_is_Some_2 _ _ E) as [w Hw]. rewrite Hw. done.
  - rewrite lookup_app_r by (rewrite take_length; lia). rewrite lookup_replicate_2; [done|].
    rewrite take_length. lia.
Qed.

Lemma div_lt_block i n : i < n -> i / W < block_count n.
Proof.
  intros Hi. pose proof (block_count_ge n). destruct (div_mod_W i). pose proof HW. nia.
Qed.
Lemma block_le_div i n : n <= i -> block_count n <= i / W + 1.
Proof.
  intros Hi. pose proof (block_count_lt n). destruct (div_mod_W i). pose proof HW. nia.
Qed.

Lemma brepr_resize b l n v : brepr b l -> resize_ok (length l) n ->
  exists b', bs_resize b n v = Some b' /\ brepr b' (lresize l n v).
Proof.
  intros H Hok. pose proof H as (Hlen&Hwf&Hs&Hl). pose proof HW as HW'.
  unfold bs_resize.
  set (bl := vec_resize (blocks b) (block_count n) (block_of v)).
  assert (Hbl : length bl = block_count n) by apply vec_resize_length.
  assert (Hwfbl : Forall wf bl) by (apply wf_vec_resize; [done|apply wf_block_of]).
  assert (Hlr : length (lresize l n v) = n).
  { unfold lresize. rewrite app_length, take_length, replicate_length. lia. }
  destruct (Nat.ltb_spec (bsize b) n) as [Hgt|Hle].
  - assert (Hbc : 0 < block_count n) by (pose proof (block_count_ge n); nia).
    rewrite last_lookup. rewrite Hbl.
    destruct (lookup_lt_is_Some_2 bl (pred (block_count n))) as [w Hw]; [lia|].
    rewrite Hw. cbn. eexists; split; [done|].
    set (r := partial_block_size b). assert (Hr : r < W) by apply div_mod_W.
    assert (Hww : wf w) by (eapply Forall_lookup_1; done).
    apply brepr_intro.
    + rewrite insert_length. done.
    + apply Forall_insert; [done|]. apply wf_lor; [apply wf_land; done|].
      unfold partial_block_mask. apply wf_land. apply wf_wnot. apply wf_mask.
    + done.
    + intros i wi Hi Hwi. rewrite lresize_lookup by done.
      replace (block_count n - 1) with (pred (block_count n)) in Hwi by lia.
      pose proof (div_lt_block i n Hi) as Hdiv. destruct (div_mod_W i) as [Him Hm].
      destruct (decide (i / W = pred (block_count n))) as [E|E].
      * rewrite E, list_lookup_insert in Hwi by lia. injection Hwi as <-.
        f_equal. rewrite N.lor_spec, !N.land_spec, wnot_testbit by done.
        unfold partial_block_mask. fold r. rewrite mask_testbit by lia.
        rewrite block_of_testbit by done.
        unfold bl in Hw. rewrite vec_resize_lookup in Hw by lia. injection Hw as Hw.
        rewrite <- E in Hw.
        destruct (div_mod_W (bsize b)) as [Hbm _]. fold (partial_block_size b) in Hbm. fold r in Hbm.
        destruct (decide (i < length l)) as [Hil|Hil].
        -- (* an old bit in the last block: the last block was already the last *)
           destruct (brepr_lookup b l i H Hil) as (w1&Hw1&Hli).
           rewrite decide_True in Hw by (eapply lookup_lt_Some; done).
           rewrite Hw1 in Hw. cbn in Hw. subst w1. rewrite Hli. cbn.
           case_bool_decide as Hc; cbn.
           ++ rewrite andb_true_r, orb_false_r. done.
           ++ exfalso. pose proof (div_lt_block i (length l) Hil) as Hd2.
              pose proof (block_count_ge n). rewrite Hs in Hbm. nia.
        -- case_bool_decide as Hc; cbn.
           ++ rewrite andb_true_r, orb_false_r.
              destruct (decide (i / W < length (blocks b))) as [Hd2|Hd2].
              ** exfalso. rewrite Hlen in Hd2. rewrite Hs in Hbm.
                 pose proof (block_count_lt (bsize b)). rewrite Hs in *. nia.
              ** subst w. symmetry. apply block_of_testbit. done.
           ++ rewrite andb_false_r. done.
      * rewrite list_lookup_insert_ne in Hwi by done. unfold bl in Hwi.
        rewrite vec_resize_lookup in Hwi by done. injection Hwi as Hwi. f_equal.
        destruct (decide (i < length l)) as [Hil|Hil].
        -- destruct (brepr_lookup b l i H Hil) as (w1&Hw1&Hli).
           rewrite decide_True in Hwi by (eapply lookup_lt_Some; done).
           rewrite Hw1 in Hwi. cbn in Hwi. subst w1. rewrite Hli. done.
        -- destruct (decide (i / W < length (blocks b))) as [Hd2|Hd2].
           ++ (* excluded by [resize_ok] *)
              exfalso. rewrite Hlen, Hs in Hd2. unfold resize_ok in Hok.
              destruct Hok as [Hok|[Hok|Hok]].
              ** lia.
              ** pose proof (block_count_lt (length l)). pose proof (block_count_ge (length l)).
                 rewrite <- HW' in Hok. destruct (div_mod_W (length l)) as [Hq _]. rewrite Hok in Hq. nia.
              ** pose proof (block_count_lt (length l)). pose proof (block_count_ge (length l)).
                 pose proof (block_count_lt n). pose proof (block_count_ge n).
                 rewrite <- HW' in Hok.
                 destruct (div_mod_W (length l - 1)), (div_mod_W (n - 1)). nia.
           ++ subst wi. symmetry. apply block_of_testbit. done.
  - eexists; split; [done|]. apply brepr_intro; try done.
    intros i wi Hi Hwi. rewrite lresize_lookup by done.
    rewrite decide_True by lia. f_equal.
    unfold bl in Hwi. pose proof (div_lt_block i n Hi). rewrite vec_resize_lookup in Hwi by done.
    destruct (brepr_lookup b l i H) as (w1&Hw1&Hli); [lia|].
    rewrite decide_True in Hwi by (eapply lookup_lt_Some; done).
    rewrite Hw1 in Hwi. cbn in Hwi. injection Hwi as ->. rewrite Hli. done.
Qed.

Lemma brepr_step b l o : brepr b l ->
  (match o with BResize n _ => resize_ok (length l) n | _ => True end) ->
  match lstep l o with
  | Some l' => exists b', bstep b o = Some b' /\ brepr b' l'
  | None => bstep b o = None
  end.
Proof.
  intros H Hok. destruct o; cbn.
  - eexists; split; [done|]. apply brepr_new.
  - eexists; split; [done|]. apply brepr_empty.
  - apply brepr_resize; done.
  - eexists; split; [done|]. apply brepr_fill; done.
  - pose proof (brepr_set b l i v H) as Hset. case_decide; done.
  - pose proof (brepr_flip b l i H) as Hf. destruct (l !! i); done.
  - apply brepr_not; done.
Qed.

Lemma brepr_run os : forall b l, brepr b l -> resizes_ok l os ->
  match lrun l os with
  | Some l' => exists b', brun b os = Some b' /\ brepr b' l'
  | None => brun b os = None
  end.
Proof.
  induction os as [|o os IH]; intros b l H Hok; cbn.
  - eauto.
  - destruct Hok as [Ho Hok]. pose proof (brepr_step b l o H Ho) as Hs.
    destruct (lstep l o) as [l'|]; cbn.
    + destruct Hs as (b'&Hb'&H'). rewrite Hb'. cbn. apply IH; done.
    + rewrite Hs. done.
Qed.

(** * Queries *)
Lemma run_of_first v l : run_of v l = first_pos (negb v) l.
Proof. induction l as [|x l IH]; cbn; [done|]. rewrite IH. destruct x, v; done. Qed.

Lemma first_pos_le v l : first_pos v l <= length l.
Proof. induction l as [|x l IH]; cbn; [done|]. case_match; lia. Qed.
Lemma first_pos_app v l l' :
  first_pos v (l ++ l') = if decide (first_pos v l = length l) then length l + first_pos v l' else first_pos v l.
Proof.
  induction l as [|x l IH]; cbn; [done|].
  destruct (Bool.eqb x v) eqn:E; cbn.
  - clear IH. case_decide; [lia|done].
  - rewrite IH. clear IH. repeat case_decide; lia.
Qed.
Lemma first_pos_take v l n : n <= length l -> first_pos v (take n l) = Nat.min n (first_pos v l).
Proof.
  revert n. induction l as [|x l IH]; intros n Hn.
  - rewrite take_nil. cbn. lia.
  - destruct n as [|n]; [done|]. cbn [take first_pos]. destruct (Bool.eqb x v); [lia|].
    cbn in Hn. rewrite IH by lia. lia.
Qed.
Lemma first_pos_bits v w : wf w -> first_pos v (bits w) = W <-> w = block_of (negb v).
Proof.
  intros Hwf. split.
  - intros H. apply bits_inj; [done|apply wf_block_of|]. rewrite bits_block_of.
    pose proof (bits_length w) as Hl. revert H Hl. generalize W. induction (bits w) as [|x l IH]; cbn; intros n.
    + intros <- _. done.
    + destruct (Bool.eqb x v) eqn:E; [lia|]. intros H Hl. destruct n as [|n]; [done|]. cbn. f_equal.
      * destruct x, v; done.
      * apply IH; lia.
  - intros ->. rewrite bits_block_of. generalize W. intros n. induction n as [|n IH]; cbn; [done|].
    destruct v; cbn in *; f_equal; exact IH.
Qed.

Lemma find_loops (v : bool) sz : forall l i, Forall wf l ->
  (if v then find_one_loop sz i l else find_zero_loop sz i l)
  = if decide (first_pos v (allbits l) = length (allbits l)) then sz
    else Nat.min sz (i * W + first_pos v (allbits l)).
Proof.
  induction l as [|w l IH]; intros i Hwf.
  - destruct v; done.
  - apply Forall_cons in Hwf as [Hw Hwf].
    change (allbits (w :: l)) with (bits w ++ allbits l).
    rewrite first_pos_app, app_length, bits_length.
    assert (E : (if v then find_one_loop sz i (w :: l) else find_zero_loop sz i (w :: l))
      = if decide (first_pos v (bits w) = W) then (if v then find_one_loop sz (S i) l else find_zero_loop sz (S i) l)
        else Nat.min sz (i * W + first_pos v (bits w))).
    { clear IH. destruct (decide (first_pos v (bits w) = W)) as [E|E].
      - apply first_pos_bits in E; [|done]. subst w. destruct v; done.
      - rewrite first_pos_bits in E by done. destruct v; cbn [find_one_loop find_zero_loop].
        + destruct (N.eqb_spec w zeros); [done|]. unfold countr_zero. rewrite run_of_first. done.
        + destruct (N.eqb_spec w ones); [done|]. unfold countr_one. rewrite run_of_first. done. }
    rewrite E. rewrite IH by done. clear E IH.
    pose proof (first_pos_le v (bits w)) as Hle. rewrite bits_length in Hle.
    repeat case_decide; try lia.
    all: try (f_equal; nia).
    all: exfalso; nia.
Qed.

Lemma brepr_allbits_ge b l : brepr b l -> bsize b <= length (allbits (blocks b)).
Proof. intros (Hlen&_). rewrite allbits_length, Hlen. apply block_count_ge. Qed.

Lemma brepr_find b l v : brepr b l -> bs_find_first b v = first_pos v l.
Proof.
  intros H. pose proof H as (Hlen&Hwf&Hs&Hl).
  assert (Hlu : first_pos v l = first_pos v (take (bsize b) (allbits (blocks b)))) by (f_equal; exact Hl).
  rewrite Hlu, first_pos_take by (apply (brepr_allbits_ge b l H)).
  unfold bs_find_first.
  replace (if v then find_one_loop (bsize b) 0 (blocks b) else find_zero_loop (bsize b) 0 (blocks b))
    with (if decide (first_pos v (allbits (blocks b)) = length (allbits (blocks b))) then bsize b
      else Nat.min (bsize b) (0 * W + first_pos v (allbits (blocks b)))) by (symmetry; apply find_loops; done).
  pose proof (brepr_allbits_ge b l H). case_decide; lia.
Qed.

(** The bits split into the full blocks and the masked partial block. *)
Lemma brepr_split b l : brepr b l -> l <> [] ->
  exists p, partial_block b = Some p /\ wf p /\
    l = allbits (take (full_block_count b) (blocks b)) ++ take (partial_block_size b) (bits p) /\
    (forall i, partial_block_size b <= i -> i < W -> N.testbit p (N.of_nat i) = false).
Proof.
  intros H Hne. pose proof H as (Hlen&Hwf&Hs&Hl). pose proof HW as HW'.
  destruct (div_mod_W (bsize b)) as [Hq Hr].
  set (q := bsize b / W) in *. set (r := bsize b mod W) in *.
  assert (Hpos : 0 < bsize b) by (destruct l; cbn in *; [done|lia]).
  assert (Hlp : 0 < length (blocks b)) by (rewrite Hlen; pose proof (block_count_ge (bsize b)); nia).
  unfold partial_block. rewrite last_lookup.
  destruct (lookup_lt_is_Some_2 (blocks b) (pred (length (blocks b)))) as [w Hw]; [lia|].
  rewrite Hw. cbn. eexists; split; [done|].
  assert (Hww : wf w) by (eapply Forall_lookup_1; done).
  split; [apply wf_land; done|].
  unfold full_block_count, partial_block_size, partial_block_mask. fold q r.
  unfold partial_block_size. fold r.
  assert (Hbits : forall i, i < W -> N.testbit (N.land w (mask_right_n r)) (N.of_nat i)
     = N.testbit w (N.of_nat i) && bool_decide (i < r)).
  { intros i Hi. rewrite N.land_spec, mask_testbit by lia. done. }
  split.
  - apply list_eq. intros i.
    destruct (decide (i < W * q)) as [Hi|Hi].
    + assert (Hql : q <= length (blocks b)).
      { rewrite Hlen. unfold block_count. fold q. lia. }
      rewrite lookup_app_l by (rewrite allbits_length, take_length; nia).
      rewrite Hl at 1. rewrite lookup_take by lia. rewrite !allbits_lookup.
      rewrite lookup_take; [done|]. apply Nat.div_lt_upper_bound; lia.
    + assert (Hql : q <= length (blocks b)).
      { rewrite Hlen. unfold block_count. fold q. lia. }
      rewrite lookup_app_r by (rewrite allbits_length, take_length; nia).
      rewrite allbits_length, take_length. replace (q `min` length (blocks b)) with q by lia.
      destruct (decide (i < bsize b)) as [Hi2|Hi2].
      * rewrite Hl at 1. rewrite lookup_take by done. rewrite lookup_take by lia.
        rewrite bits_lookup by lia. rewrite Hbits by lia. rewrite bool_decide_eq_true_2 by lia.
        rewrite andb_true_r. rewrite allbits_lookup.
        assert (Hb : block_count (bsize b) = S q).
        { symmetry. apply block_count_uniq; nia. }
        assert (Hd : i / W = q) by (symmetry; apply (Nat.div_unique i W q (i - W * q)); lia).
        assert (Hm : i mod W = i - W * q) by (symmetry; apply (Nat.mod_unique i W q); lia).
        rewrite Hd, Hm. rewrite Hlen, Hb in Hw. cbn in Hw. rewrite Hw. done.
      * rewrite !lookup_ge_None_2; [done| |]; rewrite ?take_length; lia.
  - intros i Hri Hi. rewrite Hbits by done. rewrite bool_decide_eq_false_2 by lia. apply andb_false_r.
Qed.

Lemma count_true_app l l' : count_true (l ++ l') = count_true l + count_true l'.
Proof. induction l as [|x l IH]; cbn; [done|]. rewrite IH. lia. Qed.
Lemma count_true_filter l : count_true l = length (filter (fun x => x = true) l).
Proof.
  induction l as [|x l IH]; [done|]. rewrite filter_cons. cbn [count_true]. rewrite IH.
  destruct x; [rewrite decide_True by done|rewrite decide_False by done]; done.
Qed.
Lemma fold_popcount l : forall c, fold_left (fun c w => c + popcount_w w) l c = c + count_true (allbits l).
Proof.
  induction l as [|w l IH]; intros c; cbn; [lia|]. rewrite IH.
  change (concat (map bits l)) with (allbits l). rewrite count_true_app.
  unfold popcount_w. lia.
Qed.
Lemma count_true_false l : (forall i, i < length l -> l !! i = Some false) -> count_true l = 0.
Proof.
  induction l as [|x l IH]; intros H; [done|]. cbn.
  pose proof (H 0 ltac:(cbn; lia)) as H0. cbn in H0. injection H0 as ->.
  rewrite IH; [done|]. intros i Hi. apply (H (S i)). cbn. lia.
Qed.
Lemma bits_take_rest p r : r <= W ->
  (forall i, r <= i -> i < W -> N.testbit p (N.of_nat i) = false) ->
  count_true (bits p) = count_true (take r (bits p)).
Proof.
  intros Hr H. rewrite <- (take_drop r (bits p)) at 1. rewrite count_true_app.
  rewrite (count_true_false (drop r (bits p))); [lia|].
  intros i Hi. rewrite drop_length, bits_length in Hi. rewrite lookup_drop, bits_lookup by lia.
  f_equal. apply H; lia.
Qed.
Lemma bits_rest_false p r : r <= W ->
  (forall i, r <= i -> i < W -> N.testbit p (N.of_nat i) = false) ->
  true ∈ bits p <-> true ∈ take r (bits p).
Proof.
  intros Hr H. rewrite <- (take_drop r (bits p)) at 1. rewrite elem_of_app. split; [|tauto].
  intros [?|Hd]; [done|]. exfalso. apply elem_of_list_lookup in Hd as [i Hi].
  pose proof (lookup_lt_Some _ _ _ Hi) as Hlt. rewrite drop_length, bits_length in Hlt.
  rewrite lookup_drop, bits_lookup in Hi by lia. rewrite H in Hi by lia. done.
Qed.

Lemma brepr_popcount b l : brepr b l -> l <> [] ->
  bs_popcount b = Some (length (filter (fun x => x = true) l)).
Proof.
  intros H Hne. destruct (brepr_split b l H Hne) as (p&Hp&Hwf&Hl&Hz).
  unfold bs_popcount. rewrite Hp. cbn. f_equal.
  rewrite fold_popcount. rewrite <- count_true_filter, Hl at 1. rewrite count_true_app.
  unfold popcount_w. rewrite (bits_take_rest p (partial_block_size b)); [done| |done].
  destruct (div_mod_W (bsize b)). unfold partial_block_size. lia.
Qed.

Lemma word_zero w : wf w -> w <> zeros <-> true ∈ bits w.
Proof.
  intros Hwf. split.
  - intros Hne. destruct (decide (true ∈ bits w)) as [?|Hn]; [done|]. exfalso. apply Hne.
    apply wf_eq; [done|apply wf_zeros|]. intros i Hi. unfold zeros. rewrite N.bits_0.
    destruct (N.testbit w (N.of_nat i)) eqn:E; [|done]. exfalso. apply Hn.
    apply elem_of_list_lookup. exists i. rewrite bits_lookup, E by done. done.
  - intros Hin ->. apply elem_of_list_lookup in Hin as [i Hi].
    pose proof (lookup_lt_Some _ _ _ Hi) as Hlt. rewrite bits_length in Hlt.
    rewrite bits_lookup in Hi by done. unfold zeros in Hi. rewrite N.bits_0 in Hi. done.
Qed.
Lemma word_ones w : wf w -> w <> ones <-> false ∈ bits w.
Proof.
  intros Hwf. split.
  - intros Hne. destruct (decide (false ∈ bits w)) as [?|Hn]; [done|]. exfalso. apply Hne.
    apply wf_eq; [done|apply wf_ones|]. intros i Hi. rewrite (block_of_testbit true) by done.
    destruct (N.testbit w (N.of_nat i)) eqn:E; [done|]. exfalso. apply Hn.
    apply elem_of_list_lookup. exists i. rewrite bits_lookup, E by done. done.
  - intros Hin ->. apply elem_of_list_lookup in Hin as [i Hi].
    pose proof (lookup_lt_Some _ _ _ Hi) as Hlt. rewrite bits_length in Hlt.
    rewrite bits_lookup in Hi by done. rewrite (block_of_testbit true) in Hi by done. done.
Qed.

Lemma allbits_elem v l : v ∈ allbits l <-> exists w, w ∈ l /\ v ∈ bits w.
Proof.
  unfold allbits. induction l as [|w l IH]; cbn.
  - split; [intros H; apply elem_of_nil in H; done|]. intros (w&Hw&_). apply elem_of_nil in Hw. done.
  - rewrite elem_of_app, IH. setoid_rewrite elem_of_cons. split.
    + intros [?|(w'&?&?)]; eauto.
    + intros (w'&[->|?]&?); eauto.
Qed.

Lemma existsb_word (f : word -> bool) (v : bool) l : Forall wf l ->
  (forall w, wf w -> f w = true <-> v ∈ bits w) ->
  existsb f l = true <-> v ∈ allbits l.
Proof.
  intros Hwf Hf. rewrite existsb_exists, allbits_elem. rewrite Forall_forall in Hwf. split.
  - intros (w&Hin&Hw). apply elem_of_list_In in Hin. exists w. split; [done|]. apply Hf; auto.
  - intros (w&Hin&Hw). exists w. split; [apply elem_of_list_In; done|]. apply Hf; auto.
Qed.

Lemma neq_eqb_N (a b : N) : negb (a =? b)%N = true <-> a <> b.
Proof. rewrite negb_true_iff. apply N.eqb_neq. Qed.

Lemma brepr_any_set b l : brepr b l -> l <> [] -> bs_any_set b = Some (bool_decide (true ∈ l)).
Proof.
  intros H Hne. destruct (brepr_split b l H Hne) as (p&Hp&Hwf&Hl&Hz).
  pose proof H as (Hlen&Hwfb&Hs&_).
  assert (Hr : partial_block_size b <= W) by (destruct (div_mod_W (bsize b)); unfold partial_block_size; lia).
  assert (Hwft : Forall wf (take (full_block_count b) (blocks b))) by (apply Forall_take; done).
  unfold bs_any_set.
  destruct (existsb _ _) eqn:E.
  - f_equal. symmetry. apply bool_decide_eq_true. rewrite Hl. apply elem_of_app. left.
    apply (existsb_word (fun w => negb (N.eqb w zeros)) true _ Hwft); [|done].
    intros w Hw. rewrite neq_eqb_N. apply word_zero. done.
  - rewrite Hp. cbn. f_equal.
    destruct (negb (p =? zeros)%N) eqn:E2; symmetry.
    + apply bool_decide_eq_true. apply neq_eqb_N in E2. apply word_zero in E2; [|done].
      rewrite Hl. apply elem_of_app. right. apply (bits_rest_false p); done.
    + apply bool_decide_eq_false. rewrite Hl, elem_of_app. intros [Hin|Hin].
      * apply (existsb_word (fun w => negb (N.eqb w zeros)) true _ Hwft) in Hin; [congruence|].
        intros w Hw. rewrite neq_eqb_N. apply word_zero. done.
      * apply (bits_rest_false p) in Hin; [|done..]. apply word_zero in Hin; [|done].
        apply neq_eqb_N in Hin. congruence.
Qed.

Lemma brepr_none_set b l : brepr b l -> l <> [] -> bs_none_set b = Some (bool_decide (true ∉ l)).
Proof.
  intros H Hne. unfold bs_none_set. rewrite (brepr_any_set b l H Hne). cbn. f_equal.
  repeat case_bool_decide; tauto.
Qed.

Lemma count_true_all (l : list bool) : count_true l = length l <-> false ∉ l.
Proof.
  assert (Hle : forall l : list bool, count_true l <= length l).
  { induction l0 as [|[] l0 IH]; cbn; lia. }
  induction l as [|x l IH]; cbn.
  - split; [intros _; apply not_elem_of_nil|done].
  - rewrite not_elem_of_cons, <- IH. specialize (Hle l). destruct x; cbn.
    + split; [intros; split; [done|lia]|intros [_ ?]; lia].
    + split; [lia|]. intros [? _]. done.
Qed.

Lemma brepr_all_set b l : brepr b l -> l <> [] -> bs_all_set b = Some (bool_decide (false ∉ l)).
Proof.
  intros H Hne. destruct (brepr_split b l H Hne) as (p&Hp&Hwf&Hl&Hz).
  pose proof H as (Hlen&Hwfb&Hs&_).
  assert (Hr : partial_block_size b <= W) by (destruct (div_mod_W (bsize b)); unfold partial_block_size; lia).
  assert (Hwft : Forall wf (take (full_block_count b) (blocks b))) by (apply Forall_take; done).
  unfold bs_all_set.
  destruct (existsb _ _) eqn:E.
  - f_equal. symmetry. apply bool_decide_eq_false. intros Hni. apply Hni. rewrite Hl. apply elem_of_app. left.
    apply (existsb_word (fun w => negb (N.eqb w ones)) false _ Hwft); [|done].
    intros w Hw. rewrite neq_eqb_N. apply word_ones. done.
  - rewrite Hp. cbn. f_equal. unfold popcount_w. rewrite (bits_take_rest p (partial_block_size b)) by done.
    assert (Hlt : length (take (partial_block_size b) (bits p)) = partial_block_size b).
    { rewrite take_length, bits_length. lia. }
    destruct (Nat.eqb_spec (count_true (take (partial_block_size b) (bits p))) (partial_block_size b)) as [E2|E2];
      symmetry.
    + apply bool_decide_eq_true. rewrite Hl, elem_of_app. intros [Hin|Hin].
      * apply (existsb_word (fun w => negb (N.eqb w ones)) false _ Hwft) in Hin; [congruence|].
        intros w Hw. rewrite neq_eqb_N. apply word_ones. done.
      * rewrite <- Hlt in E2 at 2. apply count_true_all in E2. done.
    + apply bool_decide_eq_false. intros Hni. apply E2. rewrite <- Hlt at 2. apply count_true_all.
      intros Hin. apply Hni. rewrite Hl. apply elem_of_app. auto.
Qed.

Lemma brepr_looks_like b l : brepr b l -> bits_look_like b l.
Proof.
  intros H. pose proof H as (_&_&Hs&_). split; [done|]. split; [intros i; apply brepr_get; done|].
  split; [intros v; apply brepr_find; done|]. intros Hne.
  split; [apply brepr_popcount; done|]. split; [apply brepr_any_set; done|].
  split; [apply brepr_none_set; done|apply brepr_all_set; done].
Qed.

Lemma allbits_inj l l' : Forall wf l -> Forall wf l' -> length l = length l' -> allbits l = allbits l' -> l = l'.
Proof.
  revert l'. induction l as [|w l IH]; intros [|w' l'] Hwf Hwf' Hlen H; cbn in *; try done.
  apply Forall_cons in Hwf as [Hw Hwf]. apply Forall_cons in Hwf' as [Hw' Hwf'].
  change (bits w ++ allbits l = bits w' ++ allbits l') in H.
  apply app_inj_1 in H as [H1 H2]; [|rewrite !bits_length; done].
  f_equal; [apply bits_inj; done|]. apply IH; try done. lia.
Qed.

Lemma zip_existsb_eq (l l' : list word) : length l = length l' ->
  existsb (fun p => negb (N.eqb p.1 p.2)) (zip l l') = false <-> l = l'.
Proof.
  revert l'. induction l as [|w l IH]; intros [|w' l'] Hlen; cbn in *; try done.
  rewrite orb_false_iff, negb_false_iff, N.eqb_eq, IH by lia. split; [intros [-> ->]|intros [= -> ->]]; done.
Qed.

Lemma brepr_eqb a b l l' : brepr a l -> brepr b l' -> (l <> [] \/ length l <> length l') ->
  bs_eqb a b = Some (bool_decide (l = l')).
Proof.
  intros Ha Hb Hor. pose proof Ha as (Hlena&Hwfa&Hsa&_). pose proof Hb as (Hlenb&Hwfb&Hsb&_).
  unfold bs_eqb. rewrite Hsa, Hsb.
  destruct (Nat.eqb_spec (length l) (length l')) as [E|E]; cbn [negb].
  - destruct Hor as [Hne|?]; [|lia].
    assert (Hne' : l' <> []) by (destruct l, l'; done).
    destruct (brepr_split a l Ha Hne) as (p&Hp&Hwfp&Hl&Hzp).
    destruct (brepr_split b l' Hb Hne') as (q&Hq&Hwfq&Hl'&Hzq).
    assert (Ef : full_block_count b = full_block_count a) by (unfold full_block_count; congruence).
    assert (Er : partial_block_size b = partial_block_size a) by (unfold partial_block_size; congruence).
    rewrite Ef, Er in *.
    set (f := full_block_count a) in *. set (r := partial_block_size a) in *.
    assert (Hr : r <= W) by (unfold r; destruct (div_mod_W (bsize a)); unfold partial_block_size; lia).
    assert (Hlt : length (take f (blocks a)) = length (take f (blocks b))).
    { rewrite !take_length, Hlena, Hlenb, Hsa, Hsb, E. done. }
    assert (Hpq : take r (bits p) = take r (bits q) <-> p = q).
    { split; [|intros ->; done]. intros Ht. apply wf_eq; [done..|]. intros i Hi.
      destruct (decide (i < r)) as [Hir|Hir].
      - assert (Hx : take r (bits p) !! i = take r (bits q) !! i) by (rewrite Ht; done).
        rewrite !lookup_take, !bits_lookup in Hx by done. congruence.
      - rewrite Hzp, Hzq by lia. done. }
    destruct (existsb _ _) eqn:Ex.
    + f_equal. symmetry. apply bool_decide_eq_false. intros ->.
      rewrite Hl in Hl'. apply app_inj_1 in Hl' as [H1 H2]; [|rewrite !allbits_length, Hlt; done].
      apply allbits_inj in H1; [|try apply Forall_take; done..].
      apply (zip_existsb_eq _ _ Hlt) in H1. congruence.
    + rewrite Hp, Hq. cbn. f_equal. apply (zip_existsb_eq _ _ Hlt) in Ex.
      destruct (N.eqb_spec p q) as [Epq|Epq]; symmetry.
      * apply bool_decide_eq_true. rewrite Hl, Hl', Ex, Epq. done.
      * apply bool_decide_eq_false. intros Heq. apply Epq. apply Hpq.
        rewrite Hl, Hl' in Heq. apply app_inj_1 in Heq as [H1 H2]; [done|].
        rewrite !allbits_length, Hlt. done.
  - f_equal. symmetry. apply bool_decide_eq_false. congruence.
Qed.
