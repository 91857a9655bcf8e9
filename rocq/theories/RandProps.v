(** C64, C65, C66, C71: the random number helpers. *)
From Coq Require Import Reals ZArith Lra Lia.
From stdpp Require Import list list_numbers.
From Flocq Require Import Core BinarySingleNaN.
From Verif Require Import FloatBase FloatProofs RealCrossoverModel RealSpec RealProofs RandModel RandSpec RandProofs BinomialProofs.

Local Open Scope Z_scope.

(** A stream whose first words are given, for the examples. *)
Definition stream_of (l : list Z) : stream := fun n => Word (nth n l 0) fzero 0.

(** ** C64 *)
(** Every output of the generator gives a multiple of 2^-53 in [0, 1). *)
Theorem C64_randomReal_range (s : stream) :
  exists r, randomReal s = Some (r, stail s) /\ is_finite r = true /\ (0 <= B2R r < 1)%R /\
    B2R r = (IZR ((bits (s 0%nat) mod 2 ^ 64) / 2 ^ 11) / IZR (2 ^ 53))%R.
Proof.
  destruct (randomReal_val s) as (r & Hr & Fr & _ & Vr & _). exists r. split; [done|]. split; [done|].
  destruct (randomReal_draw s) as (r' & Hr' & _ & _ & H). rewrite Hr in Hr'. injection Hr' as <-. split; [done|].
  rewrite Vr. unfold Rdiv. f_equal.
Qed.
Print Assumptions C64_randomReal_range.
(** The interval is closed at both ends for every pair of bounds whose difference does
    not overflow. *)
Theorem C64_randomReal_between_partial (lb ub : b64) (s : stream) :
  is_finite lb = true -> is_finite ub = true -> (B2R lb <= B2R ub)%R -> is_finite (fsub ub lb) = true ->
  exists v, randomReal_between lb ub s = Some (v, stail s) /\ is_finite v = true /\ (B2R lb <= B2R v <= B2R ub)%R.
Proof. apply randomReal_between_ok. Qed.
Print Assumptions C64_randomReal_between_partial.
Example C64_randomReal_between_nonvacuous :
  is_finite (fmk (-3) 0) = true /\ is_finite (fmk 5 0) = true /\ (B2R (fmk (-3) 0) <= B2R (fmk 5 0))%R /\ is_finite (fsub (fmk 5 0) (fmk (-3) 0)) = true.
Proof.
  split; [done|]. split; [done|]. split; [|done]. destruct (fmk_val (-3) 0) as (_ & -> & _); [lia|lia|].
  destruct (fmk_val 5 0) as (_ & -> & _); [lia|lia|]. cbn. lra.
Qed.
(** The upper bound can be returned: randomReal(1, 1 + 2^-52) with the largest draw. *)
Theorem C64_randomReal_half_open_refuted :
  let lb := fone in let ub := fmk (2 ^ 52 + 1) (-52) in let s := stream_of [2 ^ 64 - 1] in
  (B2R lb < B2R ub)%R /\ exists v, randomReal_between lb ub s = Some (v, stail s) /\ B2R v = B2R ub.
Proof.
  cbn zeta. remember (fmk (2 ^ 52 + 1) (-52)) as ub eqn:Eu. split.
  { destruct fone_val as [_ ->]. subst ub. destruct (fmk_val (2 ^ 52 + 1) (-52)) as (_ & -> & _); [lia|lia|].
    assert (H1 : (IZR (2 ^ 52) * bpow radix2 (-52) = 1)%R) by (rewrite <- bpow_IZR, <- bpow_plus by lia; reflexivity).
    rewrite plus_IZR. pose proof (bpow_gt_0 radix2 (-52)). nra. }
  assert (H : option_map (fun r => B2SF r.1) (randomReal_between fone ub (stream_of [2 ^ 64 - 1])) = Some (B2SF ub)) by (subst ub; vm_compute; reflexivity).
  destruct (randomReal_between_ok fone ub (stream_of [2 ^ 64 - 1])) as (v & Hv & _); [done|by subst ub| |by subst ub; vm_compute|].
  { destruct fone_val as [_ ->]. subst ub. destruct (fmk_val (2 ^ 52 + 1) (-52)) as (_ & -> & _); [lia|lia|].
    assert (H1 : (IZR (2 ^ 52) * bpow radix2 (-52) = 1)%R) by (rewrite <- bpow_IZR, <- bpow_plus by lia; reflexivity).
    rewrite plus_IZR. pose proof (bpow_gt_0 radix2 (-52)). nra. }
  exists v. split; [done|]. rewrite Hv in H. cbn [option_map fst] in H.
  assert (E : B2SF v = B2SF ub) by congruence. apply B2SF_inj in E. by subst v.
Qed.
Print Assumptions C64_randomReal_half_open_refuted.
(** And with the widest finite bounds a NaN is returned for a zero draw. *)
Theorem C64_randomReal_overflow_refuted :
  is_finite (fneg flarge) = true /\ is_finite flarge = true /\ fle (fneg flarge) flarge = true /\
  randomReal_between (fneg flarge) flarge (stream_of [0]) = Some (B754_nan, stail (stream_of [0])).
Proof. split; [done|]. split; [done|]. split; [vm_compute; reflexivity|]. vm_compute. reflexivity. Qed.
Print Assumptions C64_randomReal_overflow_refuted.

(** ** C65 *)
(** Distinct for every range of fewer than 65536 numbers; for longer ranges if at most
    two are asked for.  The numbers are always within the range. *)
Theorem C65_sampleUnique_partial (lo hi n : Z) (s : stream) :
  0 <= n <= hi - lo -> hi - lo < 2 ^ 64 -> hi - lo < 65536 \/ n <= 2 ->
  exists l s', sampleUnique lo hi n s = Some (l, s') /\ distinct_sample lo hi n l.
Proof.
  intros Hn Hr Hs. destruct (sampleUnique_ok lo hi n s Hn Hr) as (l & s' & Hl & Ll & Fl & Nl). exists l, s'. split; [done|].
  split; [done|]. split; [by apply Nl|done].
Qed.
Print Assumptions C65_sampleUnique_partial.
Theorem C65_sampleUnique_large_partial (lo hi n : Z) (s : stream) :
  0 <= n <= hi - lo -> hi - lo < 2 ^ 64 ->
  exists l s', sampleUnique lo hi n s = Some (l, s') /\ Z.of_nat (length l) = n /\ Forall (fun x => lo <= x < hi) l.
Proof.
  intros Hn Hr. destruct (sampleUnique_ok lo hi n s Hn Hr) as (l & s' & Hl & Ll & Fl & _). by exists l, s'.
Qed.
Print Assumptions C65_sampleUnique_large_partial.
Example C65_sampleUnique_nonvacuous :
  option_map fst (sampleUnique (-2) 8 3 (stream_of [4; 4; 9])) = Some [2; 6; 7] /\
  option_map fst (sampleUnique 0 5 4 (stream_of [3])) = Some [0; 1; 2; 4] /\
  distinct_sample (-2) 8 3 [2; 6; 7].
Proof.
  split; [vm_compute; reflexivity|]. split; [vm_compute; reflexivity|].
  split; [done|]. split; [apply (bool_decide_unpack (NoDup _)); vm_compute; exact I|]. repeat (constructor; [lia|]). constructor.
Qed.
(** Refuted for a longer range: three numbers from [0, 65536), two of them equal. *)
Theorem C65_sampleUnique_refuted :
  let s := stream_of [5; 5; 65534] in
  exists s', sampleUnique 0 65536 3 s = Some ([5; 65534; 65534], s') /\ ~ distinct_sample 0 65536 3 [5; 65534; 65534].
Proof.
  cbn zeta. assert (H : option_map fst (sampleUnique 0 65536 3 (stream_of [5; 5; 65534])) = Some [5; 65534; 65534]) by (vm_compute; reflexivity).
  destruct sampleUnique as [[l s']|]; [|done]. cbn in H. injection H as ->. exists s'. split; [done|].
  intros (_ & H & _). apply NoDup_cons in H as [_ H]. apply NoDup_cons in H as [H _]. apply H. left.
Qed.
Print Assumptions C65_sampleUnique_refuted.

(** ** C66 *)
Theorem C66_sampleCdf_in_range (cdf : list b64) (back : b64) (s : stream) :
  is_cdf cdf -> last cdf = Some back ->
  exists i, sampleCdf cdf s = Some (i, stail s) /\ (i < length cdf)%nat.
Proof. intros H1 H2. destruct (sampleCdf_ok cdf back s H1 H2) as (i & r & H & _ & Hi & _). by exists i. Qed.
Print Assumptions C66_sampleCdf_in_range.
(** A positive draw never selects an index of weight zero, if the total is at least 2^-1021. *)
Lemma nth_lookup_val (cdf : list b64) i x : cdf !! i = Some x -> nth i (B2R <$> cdf) 0%R = B2R x.
Proof. revert i. induction cdf as [|y cdf IH]; intros [|i] H; try done; cbn in *; [congruence|]. by apply IH. Qed.
Theorem C66_sampleCdf_weight_partial (cdf : list b64) (back : b64) (s : stream) (i : nat) (s' : stream) :
  is_cdf cdf -> last cdf = Some back -> (bpow radix2 (-1021) <= B2R back)%R ->
  0 < (bits (s 0%nat) mod 2 ^ 64) / 2 ^ 11 ->
  sampleCdf cdf s = Some (i, s') -> (0 < cdf_weight cdf i)%R.
Proof.
  intros H1 H2 Hb Hw Hs. destruct (sampleCdf_ok cdf back s H1 H2) as (i' & r & H & Hr & Hi & (x & Hx & Hle) & Hlt).
  rewrite H in Hs. injection Hs as -> _. destruct (randomReal_val s) as (r' & Hr' & _ & _ & Vr & _). rewrite Hr in Hr'. injection Hr' as <-.
  assert (Hpos : (0 < rnd (B2R back * B2R r))%R).
  { apply Rlt_le_trans with (bpow radix2 (-1074)); [apply bpow_gt_0|]. rewrite <- (bpow_fmt (-1074)) by lia. apply rnd_mono. rewrite Vr.
    change (-1074) with (-1021 + -53). rewrite bpow_plus. pose proof (bpow_gt_0 radix2 (-1021)). pose proof (bpow_gt_0 radix2 (-53)).
    remember (bits _ mod _ / _) as k eqn:Ek. assert (1 <= k) as Hk%IZR_le by lia. apply Rmult_le_compat; [lra|lra|done|nra]. }
  unfold cdf_weight. rewrite (nth_lookup_val _ _ _ Hx). destruct i as [|j]; [lra|].
  destruct (lookup_lt_is_Some_2 cdf j ltac:(lia)) as [y Hy]. rewrite (nth_lookup_val _ _ _ Hy). specialize (Hlt j y ltac:(lia) Hy). lra.
Qed.
Print Assumptions C66_sampleCdf_weight_partial.
Definition third_cdf : list b64 := [fzero; fmk 1 (-2); fmk 1 (-2); fmk 1 0].
Lemma third_cdf_ok : is_cdf third_cdf.
Proof.
  assert (H : forall m e, 0 <= m <= 2 ^ 53 -> -1074 <= e <= 970 -> is_finite (fmk m e) = true /\ (0 <= B2R (fmk m e))%R).
  { intros m e Hm He. destruct (fmk_val m e) as (H1 & H2 & _); [lia|lia|]. split; [done|]. rewrite H2. apply Rmult_le_pos; [apply IZR_le; lia|apply bpow_ge_0]. }
  split.
  - repeat (constructor; [first [by split; [done|cbn; lra]|apply H; lia]|]). constructor.
  - assert (V1 : B2R (fmk 1 (-2)) = (/4)%R) by (destruct (fmk_val 1 (-2)) as (_ & -> & _); [lia|lia|]; change (bpow radix2 (-2)) with (/4)%R; lra).
    assert (V2 : B2R (fmk 1 0) = 1%R) by (destruct (fmk_val 1 0) as (_ & -> & _); [lia|lia|]; change (bpow radix2 0) with 1%R; lra).
    intros i j x y Hij Hx Hy. unfold third_cdf in *.
    destruct i as [|[|[|[|i]]]]; cbn [lookup list_lookup] in Hx; try done; apply (inj Some) in Hx; subst x;
    destruct j as [|[|[|[|j]]]]; cbn [lookup list_lookup] in Hy; try done; try lia; apply (inj Some) in Hy; subst y; rewrite ?V1, ?V2; cbn [fzero B2R]; lra.
Qed.
Example C66_nonvacuous : is_cdf third_cdf /\ last third_cdf = Some (fmk 1 0) /\
  option_map fst (sampleCdf third_cdf (stream_of [2 ^ 20])) = Some 1%nat /\ option_map fst (sampleCdf third_cdf (stream_of [2 ^ 63])) = Some 3%nat.
Proof. split; [apply third_cdf_ok|]. split; [done|]. split; vm_compute; reflexivity. Qed.
(** Refuted below that: the product of the total and a positive draw underflows. *)
Theorem C66_sampleCdf_weight_refuted :
  let cdf := [fzero; fmk 1 (-1074)] in let s := stream_of [2 ^ 11] in
  is_cdf cdf /\ 0 < (bits (s 0%nat) mod 2 ^ 64) / 2 ^ 11 /\ sampleCdf cdf s = Some (0%nat, stail s) /\ cdf_weight cdf 0 = 0%R.
Proof.
  cbn zeta. destruct (fmk_val 1 (-1074)) as (F1 & V1 & _); [lia|lia|]. pose proof (bpow_gt_0 radix2 (-1074)) as Hp.
  split; [split|split; [vm_compute; reflexivity|split; [vm_compute; reflexivity|]]].
  - constructor; [split; [done|cbn; lra]|]. constructor; [split; [done|rewrite V1; lra]|constructor].
  - intros i j x y Hij Hx Hy. destruct i as [|[|i]]; cbn [lookup list_lookup] in Hx; try done; apply (inj Some) in Hx; subst x;
    destruct j as [|[|j]]; cbn [lookup list_lookup] in Hy; try done; try lia; apply (inj Some) in Hy; subst y; rewrite ?V1; cbn [fzero B2R]; lra.
  - unfold cdf_weight. cbn [fmap list_fmap nth fzero B2R]. lra.
Qed.
Print Assumptions C66_sampleCdf_weight_refuted.

(** ** C71 *)
(** Whatever the distributions return, a returned value is in [0, n]. *)
Theorem C71_randomBinomial_range (fuel : nat) (n : Z) (p : b64) (s : stream) (v : Z) (s' : stream) :
  0 <= n <= 2 ^ 64 -> randomBinomial fuel n p s = Some (v, s') -> 0 <= v <= n.
Proof. apply randomBinomial_range. Qed.
Print Assumptions C71_randomBinomial_range.
(** And a value is returned for every n < 2^52 and every p in [0, 1], with no assertion
    failing on the way, as soon as some draw is acceptable: it is enough that the normal
    distribution returns 0 and the Poisson distribution at most n. *)
Theorem C71_randomBinomial_returns (fuel k : nat) (n : Z) (p : b64) (s : stream) :
  0 <= n < 2 ^ 52 -> probability p -> (k < fuel)%nat ->
  std_poisson (s k) mod 2 ^ 64 <= n -> is_finite (std_normal (s k)) = true -> B2R (std_normal (s k)) = 0%R ->
  exists v s', randomBinomial fuel n p s = Some (v, s') /\ 0 <= v <= n.
Proof.
  intros Hn Hp Hk H1 H2 H3. destruct (randomBinomial_ends fuel n p s k Hn Hp Hk H1 H2 H3) as (v & s' & H). exists v, s'. split; [done|].
  eapply C71_randomBinomial_range; [|exact H]. lia.
Qed.
Print Assumptions C71_randomBinomial_returns.
Example C71_nonvacuous :
  probability fhalf /\
  option_map fst (randomBinomial 1 100 fhalf (fun _ => Word 0 fone 7)) = Some 55 /\
  option_map fst (randomBinomial 1 100 fhalf (fun _ => Word 0 (fmk 11 0) 7)) = None /\
  option_map fst (randomBinomial 1 100 (fmk 1 (-5)) (fun _ => Word 0 fone 7)) = Some 7 /\
  option_map fst (randomBinomial 0 5 fhalf (stream_of [0; 2 ^ 63; 2 ^ 64 - 1; 2 ^ 62; 1])) = Some 4.
Proof.
  split; [destruct fhalf_val as [F V]; split; [done|rewrite V; lra]|]. repeat split; vm_compute; reflexivity.
Qed.
