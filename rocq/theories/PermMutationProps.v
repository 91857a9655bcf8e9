(** C35, C36: the permutation mutations. *)
From Coq Require Import Reals ZArith Lra Lia.
From stdpp Require Import list list_numbers.
From Flocq Require Import Core BinarySingleNaN.
From Verif Require Import FloatBase FloatProofs RealCrossoverModel RealSpec RealProofs RandModel RandSpec RandProofs BinomialProofs RandProps
  MutationModel MutationSpec PermMutationProofs.

Local Open Scope Z_scope.
#[local] Existing Instance fexp_valid.

(** A range parameter below 1 gives a part shorter than the chromosome. *)
Lemma below_one (x : b64) : (B2R x < 1)%R -> (B2R x <= 1 - bpow radix2 (-53))%R.
Proof.
  intros H. assert (E : pred radix2 (SpecFloat.fexp 53 1024) 1 = (1 - bpow radix2 (-53))%R).
  { change 1%R with (bpow radix2 0) at 1. rewrite pred_bpow. reflexivity. }
  rewrite <- E. apply pred_ge_gt; [apply fexp_valid|apply generic_format_B2R| |done].
  change 1%R with (bpow radix2 0). apply generic_format_bpow. by vm_compute.
Qed.
Lemma scaled_len_lt (rm : b64) n s k : 1 <= n <= 2 ^ 53 -> probability rm -> (B2R rm < 1)%R -> scaled_len rm n s = Some (k, s) -> k < n.
Proof.
  intros Hn [Fp Hp] Hlt. destruct (fofZ_exact n) as [Fn Vn]; [lia|]. unfold scaled_len.
  assert (Hn1 : (1 <= IZR n)%R) by (apply IZR_le; lia). assert (Hn2 : (IZR n <= bpow radix2 53)%R) by (rewrite bpow_IZR by lia; apply IZR_le; lia).
  destruct (fmul_le rm (fofZ n) 53 Fp Fn) as (F & V & B); [lia| |].
  { rewrite Vn. rewrite Rabs_pos_eq by nra. nra. }
  apply below_one in Hlt.
  assert (Hpos : (0 <= B2R (fmul rm (fofZ n)))%R). { rewrite V, Vn. apply srnd_ge_0. nra. }
  assert (Hb : (B2R (fmul rm (fofZ n)) < IZR n)%R).
  { assert (E : B2R (fmul rm (fofZ n)) = rnd (B2R rm * IZR n)).
    { rewrite V, Vn. unfold srnd. apply sat_id. assert (0 <= rnd (B2R rm * IZR n))%R by (rewrite <- rnd_0; apply rnd_mono; nra).
      assert (rnd (B2R rm * IZR n) <= bpow radix2 53)%R by (rewrite <- (bpow_fmt 53) by lia; apply rnd_mono; nra).
      pose proof (bpow_lt_femax 53 ltac:(lia)). pose proof femax_pos. lra. }
    rewrite E. assert (Fmt : generic_format radix2 (SpecFloat.fexp 53 1024) (IZR n)) by (rewrite <- Vn; apply generic_format_B2R).
    assert (Hbig : (bpow radix2 (-1021) <= IZR n)%R) by (pose proof (bpow_le radix2 (-1021) 0 ltac:(lia)) as H; cbn [bpow] in H |- *; lra).
    pose proof (pred_gap _ Fmt Hbig) as Hgap.
    apply Rle_lt_trans with (pred radix2 (SpecFloat.fexp 53 1024) (IZR n)).
    - apply round_N_le_midp; [apply fexp_valid|apply generic_format_pred; [apply fexp_valid|done]|].
      rewrite succ_pred; [|apply fexp_valid|done].
      assert (H52 : (bpow radix2 (-52) = 2 * bpow radix2 (-53))%R) by (change (-52) with (1 + -53); rewrite bpow_plus; reflexivity).
      rewrite H52 in Hgap. nra.
    - apply pred_lt_id. lra. }
  intros Hk. pose proof (ftrunc_val _ F Hpos) as Ht. rewrite (rlift_eq _ _ s Ht) in Hk. injection Hk as <-.
  apply lt_IZR. eapply Rle_lt_trans; [apply Zfloor_lb|done].
Qed.

Section perm.
Context {A : Type}.
Implicit Type c : list A.

Lemma reversed_part_perm c d : reversed_part c d -> d ≡ₚ c.
Proof. intros (a & m & b & -> & -> & _). by rewrite reverse_Permutation. Qed.
Lemma shuffled_part_perm c d : shuffled_part c d -> d ≡ₚ c.
Proof. intros (a & m & m' & b & -> & -> & H). by rewrite H. Qed.
Lemma exchanged_parts_perm c d : exchanged_parts c d -> d ≡ₚ c.
Proof.
  intros (a & m & n & b & -> & -> & _ & _). apply Permutation_app_head. rewrite !app_assoc. apply Permutation_app_tail. apply Permutation_app_comm.
Qed.

(** ** C35: every random outcome and every length, no position outside of the chromosome
    is accessed, and the result is a permutation of the genes, in the advertised form. *)
Theorem C35_permutation_mutations (shuffle : list A -> rand (list A)) (pm rm : b64) c (s : stream) :
  shuffle_contract shuffle -> Z.of_nat (length c) <= 2 ^ 53 -> probability rm ->
  (exists d s', Inversion pm rm c s = Some (d, s') /\ d ≡ₚ c /\ (d = c \/ reversed_part c d)) /\
  (exists d s', Swap2 pm c s = Some (d, s') /\ d ≡ₚ c /\ (d = c \/ two_swapped c d)) /\
  (exists d s', Swap3 pm c s = Some (d, s') /\ d ≡ₚ c /\ (Z.of_nat (length c) < 65536 -> d = c \/ three_rotated c d)) /\
  (exists d s', Shuffle shuffle pm rm c s = Some (d, s') /\ d ≡ₚ c /\ (d = c \/ shuffled_part c d)).
Proof.
  intros Hsh Hc Hrm. split_and!.
  - destruct (Inversion_ok pm rm c s Hc Hrm) as (d & s' & Hd & H). exists d, s'. split; [done|]. split; [|done]. destruct H as [->|H]; [done|by apply reversed_part_perm].
  - destruct (Swap2_ok pm c s ltac:(unfold size; lia)) as (d & s' & Hd & H). exists d, s'. split; [done|]. split; [|done]. destruct H as [->|H]; [done|by apply two_swapped_perm].
  - destruct (Swap3_ok pm c s ltac:(unfold size; lia)) as (d & s' & Hd & P & H). exists d, s'. done.
  - destruct (Shuffle_ok shuffle pm rm c s Hsh Hc Hrm) as (d & s' & Hd & H). exists d, s'. split; [done|]. split; [|done]. destruct H as [->|H]; [done|by apply shuffled_part_perm].
Qed.
Theorem C35_shift_mutation_partial (pm rm : b64) c (s : stream) :
  Z.of_nat (length c) <= 2 ^ 53 -> probability rm -> (B2R rm < 1)%R ->
  exists d s', Shift pm rm c s = Some (d, s') /\ d ≡ₚ c /\ (d = c \/ exchanged_parts c d).
Proof.
  intros Hc Hrm Hlt. destruct (Z.lt_ge_cases (size c) 1) as [H1|H1].
  { unfold Shift. destruct (Z.ltb_spec (size c) 2); [|lia]. exists c, s. split; [done|]. split; [done|by left]. }
  destruct (scaled_len_ok rm (size c) s) as (k & Hk & _); [unfold size in *; lia|done|].
  pose proof (scaled_len_lt rm (size c) s k ltac:(unfold size in *; lia) Hrm Hlt Hk) as Hkl.
  destruct (Shift_ok pm rm c s k Hc Hrm Hk Hkl) as (d & s' & Hd & H). exists d, s'. split; [done|]. split; [|done].
  destruct H as [->|H]; [done|by apply exchanged_parts_perm].
Qed.
End perm.
Print Assumptions C35_permutation_mutations.
Print Assumptions C35_shift_mutation_partial.
(** A shuffle with the contract: reversing. *)
Definition shuffle_reverse {A} (l : list A) : rand (list A) := rret (reverse l).
Lemma shuffle_reverse_ok {A} : shuffle_contract (@shuffle_reverse A).
Proof. intros l s. eexists _, _. split; [reflexivity|]. apply reverse_Permutation. Qed.
Lemma prob_half : probability fhalf. Proof. destruct fhalf_val as [F V]. split; [done|rewrite V; lra]. Qed.
Lemma prob_one : probability fone. Proof. destruct fone_val as [F V]. split; [done|rewrite V; lra]. Qed.
Lemma prob_zero : probability fzero. Proof. split; [done|]. cbn. lra. Qed.
Example C35_nonvacuous :
  let c := [0; 1; 2; 3; 4; 5] in
  shuffle_contract (@shuffle_reverse Z) /\ probability fhalf /\ (B2R fhalf < 1)%R /\
  option_map fst (Inversion fone fhalf c (stream_of [0; 1; 2])) = Some [0; 1; 4; 3; 2; 5] /\
  option_map fst (Swap2 fone c (stream_of [0; 3; 5])) = Some [0; 1; 2; 5; 4; 3] /\
  option_map fst (Swap3 fone c (stream_of [0; 1; 4; 5])) = Some [3; 1; 0; 2; 4; 5] /\
  option_map fst (Shuffle shuffle_reverse fone fhalf c (stream_of [0; 1; 2])) = Some [0; 1; 4; 3; 2; 5] /\
  option_map fst (Shift fone fhalf c (stream_of [0; 1; 0; 3])) = Some [2; 3; 4; 0; 1; 5].
Proof.
  cbn zeta. split; [apply shuffle_reverse_ok|]. split; [apply prob_half|]. split; [destruct fhalf_val as [_ ->]; lra|].
  split_and!; vm_compute; reflexivity.
Qed.

(** ** C36: sampling preconditions.  In the model a violated precondition of randomInt or
    sampleUnique is [None], so C36 is that no operator returns [None]. *)
Theorem C36_sampling_preconditions_partial {A} (shuffle : list A -> rand (list A)) (pm rm : b64) (c : list A) (s : stream) :
  shuffle_contract shuffle -> Z.of_nat (length c) <= 2 ^ 53 -> probability rm ->
  is_Some (Inversion pm rm c s) /\ is_Some (Swap2 pm c s) /\ is_Some (Swap3 pm c s) /\ is_Some (Shuffle shuffle pm rm c s) /\
  ((B2R rm < 1)%R -> is_Some (Shift pm rm c s)).
Proof.
  intros Hsh Hc Hrm. destruct (C35_permutation_mutations shuffle pm rm c s Hsh Hc Hrm) as ((d1 & s1 & H1 & _) & (d2 & s2 & H2 & _) & (d3 & s3 & H3 & _) & (d4 & s4 & H4 & _)).
  split_and!; [by eexists..|]. intros Hlt. destruct (C35_shift_mutation_partial pm rm c s Hc Hrm Hlt) as (d & s' & H & _). by eexists.
Qed.
Print Assumptions C36_sampling_preconditions_partial.
(** What a violated precondition means: asking for more numbers than there are. *)
Theorem C36_sampleUnique_precondition (lo hi n : Z) (s : stream) : hi - lo < n -> sampleUnique lo hi n s = None.
Proof. intros H. unfold sampleUnique. destruct (Z.leb_spec lo hi); [|done]. cbn [rassert]. destruct (Z.leb_spec n (hi - lo)); [lia|done]. Qed.
Print Assumptions C36_sampleUnique_precondition.
(** Refuted for shift mutation with the allowed range parameter 1: for every chromosome of
    at least two genes a draw moves the whole chromosome, and two different positions of
    the only one are asked for. *)
Theorem C36_shift_refuted {A} (c : list A) :
  2 <= Z.of_nat (length c) <= 2 ^ 53 ->
  let s := stream_of [0; Z.of_nat (length c) - 1] in
  probability fone /\ Shift fone fone c s = None /\
  (* the sampling done there *) sampleUnique 0 (size c - size c + 1) 2 (stail (stail s)) = None.
Proof.
  intros Hc s. split; [apply prob_one|]. assert (Hs : forall s', sampleUnique 0 (size c - size c + 1) 2 s' = None) by (intros s'; apply C36_sampleUnique_precondition; lia).
  split; [|apply Hs]. unfold Shift. cbn zeta. unfold size in *. destruct (Z.ltb_spec (Z.of_nat (length c)) 2); [lia|].
  destruct (randomReal_val s) as (r & Hr & Fr & Sr & Vr & Br). rewrite (rbind_eq _ _ _ _ _ Hr).
  destruct (randomReal_draw s) as (r' & Hr' & _ & _ & Hd). rewrite Hr in Hr'. injection Hr' as <-.
  destruct fone_val as [F1 V1].
  assert (Hle : fle r fone = true). { rewrite fle_fval by (by apply is_finite_not_nan). rewrite !fval_finite, V1 by done. apply Rle_bool_true. lra. }
  rewrite Hle. remember (Z.of_nat (length c)) as n eqn:En.
  assert (Hk : scaled_len fone n (stail s) = Some (n, stail s)).
  { unfold scaled_len. destruct (fofZ_exact n) as [Fn Vn]; [lia|].
    assert (Hn2 : (0 <= IZR n <= bpow radix2 53)%R) by (rewrite bpow_IZR by lia; split; apply IZR_le; lia).
    destruct (fmul_le fone (fofZ n) 53 F1 Fn) as (F & V & B); [lia|rewrite V1, Vn, Rmult_1_l, Rabs_pos_eq by lra; lra|].
    rewrite V1, Rmult_1_l, srnd_id in V by done. rewrite Vn in V.
    pose proof (ftrunc_val _ F ltac:(rewrite V; lra)) as Ht. rewrite V, Zfloor_IZR in Ht. exact (rlift_eq _ _ _ Ht). }
  rewrite (rbind_eq _ _ _ _ _ Hk). rewrite Z.max_r by lia.
  assert (Hi : randomInt 1 n (stail s) = Some (n, stail (stail s))).
  { unfold randomInt. rewrite rassert_true by lia. unfold rbind, rnext, rret. cbn [mbind option_bind]. do 2 f_equal.
    change (bits (stail s 0%nat)) with (n - 1). rewrite Z.mod_small by lia. lia. }
  rewrite (rbind_eq _ _ _ _ _ Hi). unfold rbind at 1. by rewrite Hs.
Qed.
Print Assumptions C36_shift_refuted.
