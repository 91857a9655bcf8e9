(** C43, C44: the selection operators. *)
From Coq Require Import Reals ZArith Lra Lia.
From stdpp Require Import list list_numbers sets.
From Flocq Require Import Core BinarySingleNaN.
From Verif Require Import StdSort FloatBase FloatModel FloatSpec FloatProofs AlgorithmModel AlgorithmSpec AlgorithmProofs RealCrossoverModel RealSpec RealProofs RealCrossoverProofs
  RandModel RandSpec RandProofs BinomialProofs RandProps SelectionModel SelectionSpec SelectionProofs SelectionWeights.

Local Open Scope R_scope.

Definition finite_list (l : list b64) : Prop := Forall (fun f => is_finite f = true) l.
Definition positive_draw (s : stream) : Prop := (0 < (bits (s 0%nat) mod 2 ^ 64) / 2 ^ 11)%Z.
(** What is claimed of a weight based method with weights [ws]. *)
Definition selects (ws : list b64) (n : nat) (s : stream) (result : option (nat * stream)) : Prop :=
  exists i, result = Some (i, stail s) /\ (i < n)%nat /\
    (positive_draw s -> (exists w, w ∈ ws /\ 0 < B2R w) -> exists w, ws !! i = Some w /\ 0 < B2R w).

(** ** Any weights that can be normalized. *)
Theorem C43_weights reduce (ws : list b64) (s : stream) :
  reduce_contract reduce -> ws <> [] -> (Z.of_nat (length ws) <= 2 ^ 40)%Z -> good_weights ws ->
  selects ws (length ws) s (select_by reduce (Some ws) s).
Proof.
  intros Hr Hne Hl Hg. pose proof Hg as [Hok _]. destruct (good_cdf reduce Hr ws Hne Hl Hok Hg) as (cdf & back & E & Elen & C & Hb & Hpos).
  destruct (C66_sampleCdf_in_range cdf back s C Hb) as (i & Hs & Hi). exists i. split; [|split; [lia|]].
  - unfold select_by. erewrite rbind_eq; [|by apply rlift_eq]. erewrite rbind_eq; [|by apply rlift_eq]. done.
  - intros Hd Hex. destruct (Hpos Hex) as [Hback Hzero]. destruct (lookup_lt_is_Some_2 ws i) as [w Hw]; [lia|]. exists w. split; [done|].
    assert (Hb2 : bpow radix2 (-1021) <= B2R back) by (eapply Rle_trans; [|exact Hback]; apply bpow_le; lia).
    pose proof (C66_sampleCdf_weight_partial cdf back s i (stail s) C Hb Hb2 Hd Hs) as Hgt.
    rewrite Forall_forall in Hok. destruct (Hok w) as [_ Hw0]; [by eapply elem_of_list_lookup_2|]. destruct (Req_dec (B2R w) 0) as [Hz|]; [|lra].
    rewrite (Hzero i w Hw Hz) in Hgt. lra.
Qed.
Print Assumptions C43_weights.

(** ** Roulette *)
Theorem C43_roulette_partial reduce (fvec : list b64) (s : stream) :
  reduce_contract reduce -> fvec <> [] -> (Z.of_nat (length fvec) <= 2 ^ 40)%Z -> finite_list fvec ->
  Forall (fun f => B2R f = 0) fvec \/ (exists f, f ∈ fvec /\ bpow radix2 (-1019) <= Rabs (B2R f)) ->
  exists ws, Roulette_weights fvec = Some ws /\ length ws = length fvec /\ selects ws (length fvec) s (Roulette reduce fvec s).
Proof.
  intros Hr Hne Hl Hf Hc. destruct (roulette_ok fvec Hne Hf) as (ws & Hw & Hlen & _ & Hg). exists ws. split; [done|]. split; [done|]. unfold Roulette. rewrite Hw, <- Hlen.
  apply C43_weights; [done| |by rewrite Hlen|by apply Hg]. by destruct ws, fvec.
Qed.
Print Assumptions C43_roulette_partial.
(** Without negative values the weights are the fitness values: a member with fitness zero is
    not selected. *)
Theorem C43_roulette_fitness_partial reduce (fvec : list b64) (s : stream) :
  reduce_contract reduce -> (Z.of_nat (length fvec) <= 2 ^ 40)%Z -> finite_list fvec -> Forall (fun f => 0 <= B2R f) fvec ->
  (exists f, f ∈ fvec /\ bpow radix2 (-1019) <= B2R f) -> positive_draw s ->
  exists i f, Roulette reduce fvec s = Some (i, stail s) /\ fvec !! i = Some f /\ 0 < B2R f.
Proof.
  intros Hr Hl Hf H0 (f & Hin & Hbig) Hd. assert (Hne : fvec <> []) by (by intros ->; apply elem_of_nil in Hin).
  destruct (C43_roulette_partial reduce fvec s Hr Hne Hl Hf) as (ws & Hw & Hlen & i & Hi & Hil & Hpos). { right. exists f. split; [done|]. rewrite Forall_forall in H0. by rewrite Rabs_pos_eq by auto. }
  destruct (roulette_nonneg fvec Hne Hf H0) as (ws' & Hw' & Heq). rewrite Hw in Hw'. injection Hw' as <-. pose proof (bpow_gt_0 radix2 (-1019)) as Hp.
  destruct Hpos as (w & Hwi & Hwp); [done| |].
  - apply elem_of_list_lookup in Hin as [k Hk]. destruct (Forall2_lookup_r _ _ _ _ _ Heq Hk) as (w & Hwk & _ & E). exists w. split; [by eapply elem_of_list_lookup_2|lra].
  - destruct (Forall2_lookup_l _ _ _ _ _ Heq Hwi) as (g & Hg & _ & E). exists i, g. split; [done|]. split; [done|]. lra.
Qed.
Print Assumptions C43_roulette_fitness_partial.
(** Refuted for subnormal fitness values: the normalized weights overflow, and the
    distribution starts with NaN. *)
Definition sum_left (l : list b64) : b64 := foldl fadd fzero l.
Lemma sum_left_ok : reduce_contract sum_left.
Proof.
  intros l. unfold sum_left. generalize fzero. induction l as [|x l IH] using rev_ind; intros a; [constructor|].
  rewrite foldl_app. cbn [foldl]. apply (sums_add _ (a :: l) [x]); [done|apply IH|constructor].
Qed.
Theorem C43_roulette_subnormal_refuted : forall s : stream,
  finite_list [fzero; fmk 1 (-1074)] /\ Roulette sum_left [fzero; fmk 1 (-1074)] s = None.
Proof.
  intros s. split; [repeat (constructor; [vm_compute; reflexivity|]); constructor|]. unfold Roulette, select_by.
  assert (E : exists ws, Roulette_weights [fzero; fmk 1 (-1074)] = Some ws /\ weightsToCdf sum_left ws = Some [B754_nan; B754_nan]).
  { eexists. split; [reflexivity|]. vm_compute. reflexivity. }
  destruct E as (ws & E1 & E2). rewrite E1. erewrite rbind_eq; [|reflexivity]. erewrite rbind_eq; [|apply rlift_eq; exact E2]. reflexivity.
Qed.
Print Assumptions C43_roulette_subnormal_refuted.
Example C43_roulette_nonvacuous :
  option_map fst (Roulette sum_left [fzero; fmk 1 0; fmk 3 0] (stream_of [2 ^ 63]%Z)) = Some 2%nat /\
  option_map fst (Roulette sum_left [fzero; fmk 1 0; fmk 3 0] (stream_of [2 ^ 20]%Z)) = Some 1%nat /\
  option_map fst (Roulette sum_left [fmk (-3) 0; fmk 1 0; fmk 3 0] (stream_of [2 ^ 20]%Z)) = Some 0%nat.
Proof. split_and!; vm_compute; reflexivity. Qed.

(** ** Tournament *)
Lemma contestants_ok n k s : (0 < n)%nat ->
  contestants n k s = Some ((fun j => Z.to_nat (bits (s j) mod Z.of_nat n)) <$> seq 0 k, fun j => s (k + j)%nat).
Proof.
  intros Hn. revert s. induction k as [|k IH]; intros s; cbn [contestants]; [done|].
  assert (E : randomInt 0 (Z.of_nat n - 1) s = Some ((bits (s 0%nat) mod Z.of_nat n)%Z, stail s)).
  { unfold randomInt. rewrite rassert_true by lia. unfold rbind, rnext, rret. cbn [mbind option_bind]. by replace (Z.of_nat n - 1 - 0 + 1)%Z with (Z.of_nat n) by lia. }
  erewrite rbind_eq; [|exact E]. erewrite rbind_eq; [|apply IH]. unfold rret. cbn [seq fmap list_fmap]. do 3 f_equal.
  rewrite <- (fmap_S_seq 0 k), <- list_fmap_compose. done.
Qed.
Theorem C43_tournament (k : nat) (fvec : list b64) (s : stream) :
  (0 < k <= length fvec)%nat -> finite_list fvec ->
  let cs := (fun j => Z.to_nat (bits (s j) mod Z.of_nat (length fvec))) <$> seq 0 k in
  exists i s' f, Tournament k fvec s = Some (i, s') /\ (i < length fvec)%nat /\ i ∈ cs /\ fvec !! i = Some f /\
    forall j g, j ∈ cs -> fvec !! j = Some g -> B2R g <= B2R f.
Proof.
  intros Hk Hf cs. unfold Tournament. rewrite rassert_true by (apply bool_decide_eq_true; lia). erewrite rbind_eq; [|apply contestants_ok; lia].
  assert (Hcs : forall j, j ∈ cs -> (j < length fvec)%nat).
  { intros j Hj. unfold cs in Hj. apply elem_of_list_fmap in Hj as (a & -> & _). pose proof (Z.mod_pos_bound (bits (s a)) (Z.of_nat (length fvec)) ltac:(lia)). lia. }
  assert (Hne : cs <> []) by (unfold cs; destruct k; [lia|done]).
  assert (Hval : forall j, j ∈ cs -> exists g, fvec !! j = Some g /\ is_finite g = true).
  { intros j Hj. destruct (lookup_lt_is_Some_2 fvec j (Hcs j Hj)) as [g Hg]. exists g. split; [done|]. unfold finite_list in Hf. rewrite Forall_forall in Hf. apply Hf. by eapply elem_of_list_lookup_2. }
  assert (Hless : forall i j f g, fvec !! i = Some f -> fvec !! j = Some g -> is_finite f = true -> is_finite g = true -> fitness_less fvec i j = Rlt_bool (B2R f) (B2R g)).
  { intros i j f g Hi Hj Ff Fg. unfold fitness_less. rewrite Hi, Hj. by apply flt_finite. }
  assert (Hswo : swo_on (fitness_less fvec) cs).
  { split.
    - intros x Hx. destruct (Hval x Hx) as (f & Ef & Ff). rewrite (Hless _ _ f f) by done. apply Rlt_bool_false. lra.
    - intros x y z Hx Hy Hz. destruct (Hval x Hx) as (f & Ef & Ff), (Hval y Hy) as (g & Eg & Fg), (Hval z Hz) as (h & Eh & Fh). rewrite (Hless _ _ f g), (Hless _ _ g h), (Hless _ _ f h) by done.
      case Rlt_bool_spec; [|done]. intros H1 _. case Rlt_bool_spec; [|done]. intros H2 _. apply Rlt_bool_true. lra.
    - intros x y z Hx Hy Hz. destruct (Hval x Hx) as (f & Ef & Ff), (Hval y Hy) as (g & Eg & Fg), (Hval z Hz) as (h & Eh & Fh). rewrite (Hless _ _ f g), (Hless _ _ g h), (Hless _ _ f h) by done.
      case Rlt_bool_spec; [done|]. intros H1 _. case Rlt_bool_spec; [done|]. intros H2 _. apply Rlt_bool_false. lra. }
  pose proof (max_element_ok (fitness_less fvec) (fun i => i) cs Hne) as Hm. rewrite list_fmap_id in Hm. destruct (Hm Hswo) as (i & Hi & Hmax & _).
  pose proof (elem_of_list_lookup_2 _ _ _ Hi) as Hin. destruct (Hval i Hin) as (f & Ef & Ff). exists i, (fun j => s (k + j)%nat), f. split; [unfold rlift; fold cs; by rewrite Hi|].
  split; [by apply Hcs|]. split; [done|]. split; [done|]. intros j g Hj Hg. destruct (Hval j Hj) as (g' & Eg' & Fg). rewrite Hg in Eg'. injection Eg' as <-.
  apply elem_of_list_lookup in Hj as [a Ha]. specialize (Hmax a j Ha). rewrite (Hless i j f g) in Hmax by done. revert Hmax. by case Rlt_bool_spec.
Qed.
Print Assumptions C43_tournament.
Example C43_tournament_nonvacuous :
  option_map fst (Tournament 2 [fmk 1 0; fmk 7 0; fmk 3 0] (stream_of [2; 1]%Z)) = Some 1%nat /\
  option_map fst (Tournament 2 [fmk 1 0; fmk 7 0; fmk 3 0] (stream_of [2; 0]%Z)) = Some 2%nat.
Proof. split; vm_compute; reflexivity. Qed.

(** ** Rank *)
Theorem C43_rank_partial reduce lerp sort (lo hi : b64) (fvec : list b64) (s : stream) :
  reduce_contract reduce -> lerp_contract lerp -> sort_contract sort -> is_finite lo = true -> is_finite hi = true -> 0 <= B2R lo <= B2R hi ->
  B2R hi = 0 \/ bpow radix2 (-1022) <= B2R hi ->
  (2 <= length fvec)%nat -> (Z.of_nat (length fvec) <= 2 ^ 40)%Z -> finite_list fvec ->
  exists ws, Rank_weights lerp sort lo hi fvec = Some ws /\ length ws = length fvec /\ selects ws (length fvec) s (Rank reduce lerp sort lo hi fvec s).
Proof.
  intros Hr Hle Hs Fl Fh Hw Hc Hn Hl Hf. destruct (rank_ok lerp Hle sort Hs lo hi Fl Fh ltac:(lra) ltac:(lra) fvec Hn Hl Hf) as (ws & E & Hlen & _ & Hg). exists ws. split; [done|]. split; [done|].
  unfold Rank. rewrite E, <- Hlen. apply C43_weights; [done| |by rewrite Hlen|by apply Hg]. intros ->. cbn in Hlen. lia.
Qed.
Print Assumptions C43_rank_partial.
(** Refuted for a population of one: its weight is NaN. *)
Theorem C43_rank_single_refuted reduce lerp sort (lo hi f : b64) (s : stream) :
  lerp_contract lerp -> sort_contract sort -> is_finite f = true -> Rank reduce lerp sort lo hi [f] s = None.
Proof.
  intros Hle Hs Ff. unfold Rank, Rank_weights. destruct (argsort_ok flt sort false [f] Hs) as [Hp _]. { apply flt_swo. by constructor. }
  unfold index_perm in Hp. cbn [length seq] in Hp. apply Permutation_singleton_r in Hp. rewrite Hp. cbn [length replicate rank_loop].
  assert (N : is_nan (lerp lo hi (fdiv (nat_to_f 0) (fsub (nat_to_f 1) fone))) = true) by (apply (lerp_nan lerp Hle); vm_compute; reflexivity).
  remember (lerp lo hi _) as w eqn:Ew. clear Ew. unfold select_by. erewrite rbind_eq; [|by apply rlift_eq]. cbn [list_insert insert].
  destruct w; try done.
Qed.
Print Assumptions C43_rank_single_refuted.

(** ** Sigma *)
Theorem C43_sigma reduce fmean fdev (scale : b64) (fvec : list b64) (s : stream) :
  reduce_contract reduce -> fvec <> [] -> (Z.of_nat (length fvec) <= 2 ^ 40)%Z -> finite_list fvec -> is_finite (fmean fvec) = true -> is_nan (fdev fvec) = false ->
  exists ws, Sigma_weights fmean fdev scale fvec = Some ws /\ length ws = length fvec /\ selects ws (length fvec) s (Sigma reduce fmean fdev scale fvec s).
Proof.
  intros Hr Hne Hl Hf Hm Hd. destruct (sigma_ok fmean fdev scale fvec Hne Hf Hm Hd) as (ws & E & Hlen & Hg). exists ws. split; [done|]. split; [done|].
  unfold Sigma. rewrite E, <- Hlen. apply C43_weights; [done| |by rewrite Hlen|done]. by destruct ws, fvec.
Qed.
Print Assumptions C43_sigma.

(** ** Boltzmann *)
Theorem C43_boltzmann reduce fexp (temperature : b64) (fvec : list b64) (s : stream) :
  reduce_contract reduce -> exp_contract fexp -> fvec <> [] -> (Z.of_nat (length fvec) <= 2 ^ 40)%Z -> finite_list fvec ->
  exists ws, Boltzmann_weights fexp temperature fvec = Some ws /\ length ws = length fvec /\ selects ws (length fvec) s (Boltzmann reduce fexp temperature fvec s).
Proof.
  intros Hr He Hne Hl Hf. destruct (boltzmann_ok fexp He temperature fvec Hne Hf) as (ws & E & Hlen & Hg). exists ws. split; [done|]. split; [done|].
  unfold Boltzmann. rewrite E, <- Hlen. apply C43_weights; [done| |by rewrite Hlen|done]. by destruct ws, fvec.
Qed.
Print Assumptions C43_boltzmann.

(** The contracts can be met, and the operators run. *)
Definition step_lerp (a b t : b64) : b64 := if is_nan t then B754_nan else if feq t fone then b else a.
Lemma step_lerp_ok : lerp_contract step_lerp.
Proof.
  destruct fone_val as [F1 V1]. split.
  - intros a b t Fa Fb Hab Ft Ht. unfold step_lerp. rewrite is_finite_not_nan by done. destruct (feq t fone); split; try done; lra.
  - intros a b t Fa Fb Ft Ht. unfold step_lerp. rewrite is_finite_not_nan by done. rewrite feq_fval by (done || by apply is_finite_not_nan). rewrite !fval_finite by done. by rewrite Req_bool_true by lra.
  - intros a b t Ht. unfold step_lerp. by rewrite Ht.
Qed.
Definition step_exp (x : b64) : b64 := if is_nan x then B754_nan else if feq x fzero then fone else fzero.
Lemma step_exp_ok : exp_contract step_exp.
Proof.
  destruct fone_val as [F1 V1]. split.
  - intros x Hx. unfold step_exp. by rewrite Hx.
  - intros x Hx. unfold step_exp. rewrite Hx. destruct (feq x fzero); [rewrite fval_finite by done; split; [done|lra]|split; [done|cbn; lra]].
  - intros x Fx Vx. unfold step_exp. rewrite is_finite_not_nan by done. rewrite feq_fval by (done || by apply is_finite_not_nan). rewrite !fval_finite by done. rewrite Req_bool_true; [done|]. by rewrite Vx.
Qed.
Example C43_others_nonvacuous :
  option_map fst (Rank sum_left step_lerp isort fzero fone [fmk 1 0; fmk 7 0; fmk 3 0] (stream_of [2 ^ 62]%Z)) = Some 1%nat /\
  option_map fst (Sigma sum_left (fun _ => ftwo) (fun _ => fone) fone [fzero; fmk 4 0] (stream_of [2 ^ 62]%Z)) = Some 1%nat /\
  option_map fst (Boltzmann sum_left step_exp fone [fmk 5 0; fzero; fmk 4 0] (stream_of [2 ^ 62]%Z)) = Some 1%nat.
Proof. split_and!; vm_compute; reflexivity. Qed.

(** ** C44, refuted: the weights do not depend on the scale. *)
Theorem C44_sigma_scale_ignored fmean fdev (scale1 scale2 : b64) (fvec : list b64) :
  Sigma_weights fmean fdev scale1 fvec = Sigma_weights fmean fdev scale2 fvec.
Proof. reflexivity. Qed.
Print Assumptions C44_sigma_scale_ignored.
(** The documented weights. *)
Definition sigma_weight (scale mean dev f : R) : R := Rmax 0 (1 + (f - mean) / (scale * dev)).
(** Fitness values 0 and 2 have mean 1 and standard deviation 1.  The documented weight of
    the second is 2 for scale 1 and 3/2 for scale 2; the code computes 2 for both. *)
Theorem C44_sigma_scale_refuted :
  let fmean := fun _ : list b64 => fone in let fdev := fun _ : list b64 => fone in let fvec := [fzero; ftwo] in
  (forall scale : b64, exists ws w, Sigma_weights fmean fdev scale fvec = Some ws /\ ws !! 1%nat = Some w /\ B2R w = 2) /\
  sigma_weight 1 1 1 2 = 2 /\ sigma_weight 2 1 1 2 = 3 / 2.
Proof.
  cbn zeta. split; [|split; unfold sigma_weight; rewrite Rmax_right; lra]. intros scale.
  destruct (Sigma_weights (fun _ => fone) (fun _ => fone) scale [fzero; ftwo]) as [ws|] eqn:E.
  - exists ws. assert (E2 : (B2SF <$> ws) = [B2SF fzero; B2SF ftwo]).
    { change (match Some ws with Some l => map B2SF l | None => [] end = [B2SF fzero; B2SF ftwo]). rewrite <- E. vm_compute. reflexivity. }
    destruct ws as [|a [|w [|]]]; try done. exists w. split; [done|]. split; [done|]. destruct ftwo_val as [_ V2]. rewrite <- V2.
    rewrite <- !SF2R_B2SF. f_equal. cbn [fmap list_fmap] in E2. apply (f_equal (fun l => nth 1 l SpecFloat.S754_nan)) in E2. exact E2.
  - exfalso. assert (is_Some (Sigma_weights (fun _ => fone) (fun _ => fone) scale [fzero; ftwo]) -> False) as H by (rewrite E; by intros [? ?]). apply H.
    destruct (sigma_ok (fun _ => fone) (fun _ => fone) scale [fzero; ftwo]) as (ws & Ew & _); [done| |done|done|by rewrite Ew].
    constructor; [done|]. constructor; [apply ftwo_val|constructor].
Qed.
Print Assumptions C44_sigma_scale_refuted.
