(** C92, C93: the distribution a selection operator samples, and the weights it is made of. *)
From Coq Require Import Reals ZArith Lra Lia.
From stdpp Require Import list list_numbers sets.
From Flocq Require Import Core BinarySingleNaN.
From Verif Require Import StdSort FloatBase FloatModel FloatSpec FloatProofs AlgorithmModel AlgorithmSpec AlgorithmProofs RealCrossoverModel RealSpec RealProofs RealCrossoverProofs RealErrorProofs
  RandModel RandSpec RandProofs BinomialProofs RandProps RandMoreProps SelectionModel SelectionSpec SelectionProofs SelectionWeights SelectionProps SelectionMoreSpec SelectionMoreProofs.

Local Open Scope R_scope.

(** ** C92: the members are selected with the shares of their weights *)
(** The distribution function is that of the shares, up to rounding. *)
Theorem C92_cdf_shares reduce (ws : list b64) :
  reduce_contract reduce -> ws <> [] -> (Z.of_nat (length ws) <= 2 ^ 40)%Z -> good_weights ws ->
  exists cdf, weightsToCdf reduce ws = Some cdf /\ length cdf = length ws /\
    forall i y x, cdf !! i = Some y -> is_share ws (S i) x -> Rabs (B2R y - x) <= count ws * bpow radix2 (-48).
Proof.
  intros Hr Hne Hl Hg. destruct (cdf_close reduce Hr ws Hne Hl (proj1 Hg) Hg) as (cdf & E & Hlen & H). exists cdf. split; [done|]. split; [done|]. intros i y x Hy Hx.
  eapply Rle_trans; [by eapply H|]. change (-48)%Z with (5 + -53)%Z. rewrite bpow_plus. change (bpow radix2 5) with 32. change (bpow radix2 (-53)) with uu.
  pose proof uu_pos. destruct (N_range ws Hne Hl (proj1 Hg)) as [HN _]. assert (0 <= count ws * uu) by (apply Rmult_le_pos; lra). lra.
Qed.
Print Assumptions C92_cdf_shares.

Lemma share_ex ws k : Forall (fun w => is_finite w = true /\ 0 <= B2R w) ws -> exists x, is_share ws k x.
Proof.
  intros H. apply total_nonneg in H. destruct (Req_dec (total ws) 0) as [Hz|Hz].
  - exists (count (take k ws) / count ws). split; [done|lra].
  - exists (total (take k ws) / total ws). split; [done|done].
Qed.
Lemma share_mono ws j k x y : ws <> [] -> Forall (fun w => is_finite w = true /\ 0 <= B2R w) ws -> (j <= k)%nat -> is_share ws j x -> is_share ws k y -> x <= y.
Proof.
  intros Hne H Hjk [X1 X2] [Y1 Y2]. pose proof (total_nonneg ws H) as Hp.
  assert (Hc : 0 < count ws) by (unfold count; apply IZR_lt; destruct ws; [done|cbn [length]; lia]).
  destruct (Req_dec (total ws) 0) as [Hz|Hz].
  - rewrite X1, Y1 by done. unfold Rdiv. apply Rmult_le_compat_r; [left; by apply Rinv_0_lt_compat|]. unfold count. rewrite !take_length. apply IZR_le. lia.
  - rewrite X2, Y2 by lra. unfold Rdiv. apply Rmult_le_compat_r; [left; apply Rinv_0_lt_compat; lra|].
    rewrite <- (Nat.min_l j k Hjk), <- take_take. apply total_take. apply Forall_forall. intros w Hw. apply elem_of_take in Hw as (i & Hi & _). rewrite Forall_forall in H. apply H. by eapply elem_of_list_lookup_2.
Qed.
Lemma share_all ws x : ws <> [] -> Forall (fun w => is_finite w = true /\ 0 <= B2R w) ws -> is_share ws (length ws) x -> x = 1.
Proof.
  intros Hne H [X1 X2]. pose proof (total_nonneg ws H) as Hp. rewrite firstn_all in X1, X2.
  assert (Hc : 0 < count ws) by (unfold count; apply IZR_lt; destruct ws; [done|cbn [length]; lia]).
  destruct (Req_dec (total ws) 0) as [Hz|Hz]; [rewrite X1 by done|rewrite X2 by lra]; field; lra.
Qed.
(** Member [i] is selected for every draw inside of its share of [0, 1), but for a distance
    to the ends of the share that is due to rounding. *)
Theorem C92_select_share reduce (ws : list b64) (s : stream) (i : nat) (low high : R) :
  reduce_contract reduce -> ws <> [] -> (Z.of_nat (length ws) <= 2 ^ 40)%Z -> good_weights ws ->
  (i < length ws)%nat -> is_share ws i low -> is_share ws (S i) high ->
  low + count ws * bpow radix2 (-47) <= unit_draw (s 0%nat) <= high - count ws * bpow radix2 (-47) ->
  select_by reduce (Some ws) s = Some (i, stail s).
Proof.
  intros Hr Hne Hl Hg Hi Hlow Hhigh Hd. pose proof Hg as [Hok _].
  destruct (cdf_close reduce Hr ws Hne Hl Hok Hg) as (cdf & E & Elen & Hclose).
  destruct (good_cdf reduce Hr ws Hne Hl Hok Hg) as (cdf' & back & E' & _ & C & Hb & _). rewrite E in E'. injection E' as <-.
  destruct (C66_sampleCdf_first cdf back s C Hb) as (j & x & Hs & Hx & Hle & Hlt).
  assert (Hsel : select_by reduce (Some ws) s = Some (j, stail s)) by (unfold select_by; erewrite rbind_eq; [|by apply rlift_eq]; erewrite rbind_eq; [|by apply rlift_eq]; done).
  destruct (N_range ws Hne Hl Hok) as [HN HNu]. pose proof uu_pos as Hu. pose proof hh_small as Hh. pose proof hh_pos as Hh0.
  assert (Eb : bpow radix2 (-47) = 64 * uu) by (change (-47)%Z with (6 + -53)%Z; rewrite bpow_plus; reflexivity). rewrite Eb in Hd.
  assert (Hback : Rabs (B2R back - 1) <= 28 * (count ws * uu)).
  { rewrite last_lookup in Hb. destruct (share_ex ws (S (Nat.pred (length cdf))) Hok) as [z Hz]. pose proof (Hclose _ _ _ Hb Hz) as G. rewrite Elen in Hz. replace (S (Nat.pred (length ws))) with (length ws) in Hz by (destruct ws; [done|cbn; lia]).
    by rewrite (share_all ws z Hne Hok Hz) in G. }
  assert (Hu1 : 0 <= unit_draw (s 0%nat) <= 1).
  { unfold unit_draw. pose proof (Z.mod_pos_bound (bits (s 0%nat)) (2 ^ 64) eq_refl) as G.
    assert (G2 : (0 <= (bits (s 0%nat) mod 2 ^ 64) / 2 ^ 11 <= 2 ^ 53)%Z). { split; [apply Z.div_pos; lia|]. apply Z.lt_le_incl. apply Z.div_lt_upper_bound; lia. }
    destruct G2 as [G2 G3]. apply IZR_le in G2, G3. change (IZR (2 ^ 53)) with 9007199254740992 in G3. change (bpow radix2 (-53)) with uu. pose proof uu_exact. nra. }
  remember (unit_draw (s 0%nat)) as u eqn:Eu. clear Eu.
  assert (Hx0 : Rabs (rnd (B2R back * u) - u) <= 31 * (count ws * uu)).
  { pose proof (rnd_err (B2R back * u)) as G. apply Rabs_le_inv in Hback. assert (Hbu : Rabs (B2R back * u) <= 2) by (apply Rabs_le; nra).
    assert (uu * Rabs (B2R back * u) <= uu * 2) by (apply Rmult_le_compat_l; lra). assert (uu <= count ws * uu) by nra.
    assert (- (28 * (count ws * uu)) <= B2R back * u - u <= 28 * (count ws * uu)) by (replace (B2R back * u - u) with ((B2R back - 1) * u) by ring; nra).
    apply Rabs_le_inv in G. apply Rabs_le. lra. }
  apply Rabs_le_inv in Hx0. rewrite Hsel. do 2 f_equal.
  assert (Hjl : (j < length ws)%nat) by (apply lookup_lt_Some in Hx; lia).
  destruct (lt_eq_lt_dec j i) as [[Hji|Hji]|Hji]; [|done|]; exfalso.
  - destruct (share_ex ws (S j) Hok) as [z Hz]. pose proof (Hclose _ _ _ Hx Hz) as G. pose proof (share_mono ws (S j) i z low Hne Hok Hji Hz Hlow). apply Rabs_le_inv in G. nra.
  - destruct (lookup_lt_is_Some_2 cdf i) as [y Hy]; [lia|]. pose proof (Hclose _ _ _ Hy Hhigh) as G. specialize (Hlt i y Hji Hy). apply Rabs_le_inv in G. nra.
Qed.
Print Assumptions C92_select_share.
(** Weights 1 and 3: the first member has the draws below 1/4. *)
Example C92_nonvacuous :
  good_weights [fmk 1 0; fmk 3 0] /\ is_share [fmk 1 0; fmk 3 0] 1 (/ 4) /\ is_share [fmk 1 0; fmk 3 0] 2 1 /\ is_share [fzero; fzero] 1 (/ 2) /\
  option_map fst (select_by sum_left (Some [fmk 1 0; fmk 3 0]) (stream_of [2 ^ 62 - 2 ^ 12]%Z)) = Some 0%nat /\
  option_map fst (select_by sum_left (Some [fmk 1 0; fmk 3 0]) (stream_of [2 ^ 62 + 2 ^ 12]%Z)) = Some 1%nat.
Proof.
  destruct (fmk_val 1 0) as (F1 & V1 & _); [lia|lia|]. destruct (fmk_val 3 0) as (F3 & V3 & _); [lia|lia|]. change (bpow radix2 0) with 1 in V1, V3.
  split; [|split; [|split; [|split; [|split; vm_compute; reflexivity]]]].
  - split; [constructor; [split; [done|lra]|constructor; [split; [done|lra]|constructor]]|]. right. exists (fmk 1 0). split; [left|]. rewrite V1. rewrite Rmult_1_l. change 1 with (bpow radix2 0). apply bpow_le. lia.
  - unfold is_share, total. cbn [foldr take]. rewrite V1, V3. split; intros; [lra|field].
  - unfold is_share, total. cbn [foldr take]. rewrite V1, V3. split; intros; [lra|field].
  - unfold is_share, total, count. cbn [foldr take length fzero B2R]. change (IZR (Z.of_nat 1)) with 1. change (IZR (Z.of_nat 2)) with 2. split; intros; lra.
Qed.

(** ** C93: the weights *)
(** Roulette.  Without negative values: the fitness values.  Otherwise (f + 2 |lowest|) / 3. *)
Theorem C93_roulette_nonneg (fvec : list b64) : fvec <> [] -> finite_list fvec -> Forall (fun f => 0 <= B2R f) fvec ->
  exists ws, Roulette_weights fvec = Some ws /\ Forall2 (fun w f => is_finite w = true /\ B2R w = B2R f) ws fvec.
Proof. intros Hne Hf. by apply roulette_nonneg. Qed.
Print Assumptions C93_roulette_nonneg.
Theorem C93_roulette_negative (fvec : list b64) (lowest : b64) : finite_list fvec -> least fvec lowest -> B2R lowest < 0 ->
  exists ws, Roulette_weights fvec = Some ws /\ length ws = length fvec /\
    forall i f w, fvec !! i = Some f -> ws !! i = Some w ->
      Rabs (B2R w - (B2R f + 2 * Rabs (B2R lowest)) / 3) <= (Rabs (B2R f) + Rabs (B2R lowest)) * bpow radix2 (-51) + bpow radix2 (-1073).
Proof.
  intros Hf Hl Hn. assert (Hne : fvec <> []) by (destruct Hl as [Hl _]; by intros ->; apply elem_of_nil in Hl).
  destruct (roulette_ok fvec Hne Hf) as (ws & E & Hlen & _). exists ws. split; [done|]. split; [done|]. intros i f w Hfi Hwi.
  destruct (roulette_values fvec ws lowest i f w Hf Hl Hn E Hfi Hwi) as (_ & _ & H). rewrite (Rabs_left (B2R lowest)) by done.
  change (-51)%Z with (2 + -53)%Z. change (-1073)%Z with (2 + -1075)%Z. rewrite !bpow_plus. change (bpow radix2 2) with 4. change (bpow radix2 (-53)) with uu. change (bpow radix2 (-1075)) with hh.
  replace ((B2R f + 2 * - B2R lowest) / 3) with ((B2R f - 2 * B2R lowest) / 3) by lra. lra.
Qed.
Print Assumptions C93_roulette_negative.
Theorem C93_roulette_follows (fvec ws : list b64) : finite_list fvec -> Roulette_weights fvec = Some ws -> weights_follow fvec ws.
Proof. apply roulette_follow. Qed.
Print Assumptions C93_roulette_follows.

(** Rank: the weight at position [k] of [n] from the worst to the best is the one at k / (n - 1)
    of the way from the lowest to the highest weight. *)
Theorem C93_rank lerp sort (lo hi : b64) (fvec : list b64) : sort_contract sort -> (2 <= length fvec)%nat -> (Z.of_nat (length fvec) <= 2 ^ 40)%Z -> finite_list fvec ->
  exists ws order, Rank_weights lerp sort lo hi fvec = Some ws /\ length ws = length fvec /\ worst_to_best fvec order /\
    forall k j, order !! k = Some j -> exists t, ws !! j = Some (lerp lo hi t) /\ is_finite t = true /\ B2R t = rnd (IZR (Z.of_nat k) / IZR (Z.of_nat (length fvec) - 1)).
Proof. apply rank_values. Qed.
Print Assumptions C93_rank.

(** Sigma: 1 + (f - mean) / dev, or 0. *)
Definition sigma_range (mean dev f : R) : Prop := Rabs f <= bpow radix2 1020 /\ Rabs ((f - mean) / dev) <= bpow radix2 1000.
Theorem C93_sigma fmean fdev (scale : b64) (fvec : list b64) : fvec <> [] -> finite_list fvec -> is_finite (fmean fvec) = true -> is_finite (fdev fvec) = true ->
  let mean := B2R (fmean fvec) in let dev := B2R (fdev fvec) in
  Rabs mean <= bpow radix2 1020 -> bpow radix2 (-1000) <= dev <= bpow radix2 1000 -> Forall (fun f => sigma_range mean dev (B2R f)) fvec ->
  exists ws, Sigma_weights fmean fdev scale fvec = Some ws /\ length ws = length fvec /\ weights_follow fvec ws /\
    forall i f w, fvec !! i = Some f -> ws !! i = Some w ->
      Rabs (B2R w - sigma_weight 1 mean dev (B2R f)) <= (1 + Rabs ((B2R f - mean) / dev)) * bpow radix2 (-50).
Proof.
  intros Hne Hfin Fm Fd mean dev Hm Hd Hr. destruct (sigma_ok fmean fdev scale fvec Hne Hfin Fm (is_finite_not_nan _ Fd)) as (ws & E & Hlen & _). exists ws. split; [done|]. split; [done|].
  rewrite Forall_forall in Hr. unfold finite_list in Hfin. rewrite Forall_forall in Hfin. pose proof (bpow_gt_0 radix2 (-1000)) as Hp.
  assert (V : forall i f w, fvec !! i = Some f -> ws !! i = Some w -> B2R w = Rmax 0 (rnd (1 + rnd (rnd (B2R f - mean) * rnd (1 / dev)))) /\
    Rabs (B2R w - Rmax 0 (1 + (B2R f - mean) / dev)) <= 8 * uu * (1 + Rabs ((B2R f - mean) / dev))).
  { intros i f w Hf Hw. pose proof (elem_of_list_lookup_2 _ _ _ Hf) as Hin. destruct (Hr f Hin) as [R1 R2].
    by destruct (sigma_values fmean fdev scale fvec ws i f w Fm Fd (Hfin f Hin) Hd R1 Hm R2 E Hf Hw) as (_ & H1 & H2). }
  split.
  - intros i j f g v w Hf Hg Hv Hw Hle. destruct (V i f v Hf Hv) as [-> _]. destruct (V j g w Hg Hw) as [-> _]. apply Rle_max_compat_l, rnd_mono, Rplus_le_compat_l, rnd_mono, Rmult_le_compat_r; [|apply rnd_mono; lra].
    rewrite <- rnd_0. apply rnd_mono. unfold Rdiv. rewrite Rmult_1_l. left. apply Rinv_0_lt_compat. lra.
  - intros i f w Hf Hw. destruct (V i f w Hf Hw) as [_ H]. unfold sigma_weight. rewrite Rmult_1_l. change (-50)%Z with (3 + -53)%Z. rewrite bpow_plus. change (bpow radix2 3) with 8. change (bpow radix2 (-53)) with uu. lra.
Qed.
Print Assumptions C93_sigma.

(** Boltzmann: exp (fnorm / T), where fnorm is the fitness scaled so that the lowest one is 0 and
    the highest one is 1, up to rounding errors of the argument of exp. *)
Theorem C93_boltzmann fexp (temperature : b64) (fvec : list b64) (m M : b64) : exp_contract fexp -> finite_list fvec -> least fvec m -> greatest fvec M -> is_finite temperature = true ->
  let D := B2R M - B2R m in let T := B2R temperature in
  bpow radix2 (-900) <= D <= bpow radix2 1000 -> bpow radix2 (-500) <= T <= bpow radix2 500 -> Forall (fun f => Rabs (B2R f / D) <= bpow radix2 400) fvec ->
  exists ws, Boltzmann_weights fexp temperature fvec = Some ws /\ length ws = length fvec /\ (exp_monotone fexp -> weights_follow fvec ws) /\
    forall i f, fvec !! i = Some f -> exists e, ws !! i = Some (fmin flarge (fexp e)) /\ is_finite e = true /\
      Rabs (B2R e - (B2R f - B2R m) / D / T) <= (1 + Rabs (B2R f / D) + Rabs (B2R m / D)) / T * bpow radix2 (-50).
Proof.
  intros He Hfin Hm HM FT D T HD HT Hr. assert (Hne : fvec <> []) by (destruct Hm as [Hm _]; by intros ->; apply elem_of_nil in Hm).
  destruct (boltzmann_ok fexp He temperature fvec Hne Hfin) as (ws & E & Hlen & _). exists ws. split; [done|]. split; [done|].
  rewrite Forall_forall in Hr. pose proof (bpow_gt_0 radix2 (-900)) as Hp. pose proof (bpow_gt_0 radix2 (-500)) as Hp5.
  assert (V : forall i f, fvec !! i = Some f -> exists e, ws !! i = Some (fmin flarge (fexp e)) /\ is_finite e = true /\ B2R e = rnd (rnd (rnd (B2R f / rnd D) - rnd (B2R m / rnd D)) / T) /\
    Rabs (B2R e - (B2R f - B2R m) / D / T) <= 8 * uu * (1 + Rabs (B2R f / D) + Rabs (B2R m / D)) / T).
  { intros i f Hf. apply (boltzmann_values fexp temperature fvec ws m M i f); try done; [|by apply Hr; apply Hm]. apply Hr. by eapply elem_of_list_lookup_2. }
  split.
  - intros Hmono i j f g v w Hf Hg Hv Hw Hle. destruct (V i f Hf) as (e1 & W1 & F1 & E1 & _). destruct (V j g Hg) as (e2 & W2 & F2 & E2 & _). rewrite W1 in Hv. rewrite W2 in Hw. injection Hv as <-. injection Hw as <-.
    assert (HrD : 0 < rnd D). { apply Rlt_le_trans with (bpow radix2 (-900)); [done|]. rewrite <- (bpow_fmt (-900)) by lia. apply rnd_mono. lra. }
    assert (Hee : B2R e1 <= B2R e2). { rewrite E1, E2. apply rnd_mono. unfold Rdiv. apply Rmult_le_compat_r; [left; apply Rinv_0_lt_compat; lra|]. apply rnd_mono. apply Rplus_le_compat_r. apply rnd_mono. apply Rmult_le_compat_r; [left; by apply Rinv_0_lt_compat|done]. }
    specialize (Hmono e1 e2 F1 F2 Hee). destruct (exp_nonneg _ He e1 (is_finite_not_nan _ F1)) as [N1 P1]. destruct (exp_nonneg _ He e2 (is_finite_not_nan _ F2)) as [N2 P2].
    assert (X : forall x : b64, is_nan x = false -> 0 <= fval x -> B2R (fmin flarge x) = Rmin (B2R flarge) (fval x)).
    { intros x Nx Px. unfold fmin. rewrite flt_fval by done. rewrite (fval_finite flarge) by done. unfold Rmin. case Rlt_bool_spec; intros H; destruct Rle_dec as [H2|H2]; try lra.
      - rewrite <- (fval_finite x); [done|]. apply finite_of_val; [done|]. pose proof (finite_abs_lt flarge eq_refl) as G. apply Rabs_lt_inv in G. rewrite Rabs_pos_eq by lra. lra. }
    rewrite (X _ N1 P1), (X _ N2 P2). by apply Rle_min_compat_l.
  - intros i f Hf. destruct (V i f Hf) as (e & W1 & F1 & _ & E1). exists e. split; [done|]. split; [done|]. change (-50)%Z with (3 + -53)%Z. rewrite bpow_plus. change (bpow radix2 3) with 8. change (bpow radix2 (-53)) with uu. unfold Rdiv in *. lra.
Qed.
Print Assumptions C93_boltzmann.
(** The documented probabilities are proportional to exp (f / T); scaling the fitness values
    changes them: for the values 0 and 2 and T = 1 the arguments of exp are 0 and 1. *)
Theorem C93_boltzmann_formula_refuted fexp : exp_contract fexp ->
  exists a b, Boltzmann_weights fexp fone [fzero; ftwo] = Some [fmin flarge (fexp a); fmin flarge (fexp b)] /\ B2R a = 0 /\ B2R b = 1 /\
    exp (B2R b) / (exp (B2R a) + exp (B2R b)) <> exp (2 / 1) / (exp (0 / 1) + exp (2 / 1)).
Proof.
  intros He. destruct fone_val as [F1 V1]. destruct ftwo_val as [F2 V2].
  assert (Es : fsub ftwo fzero = ftwo) by (apply B2SF_inj; vm_compute; reflexivity).
  assert (Hdf : clamp (fsub ftwo fzero) fsmall flarge = Some ftwo).
  { rewrite Es. unfold clamp. replace (flt flarge fsmall) with false by (vm_compute; reflexivity). replace (flt ftwo fsmall) with false by (vm_compute; reflexivity). by replace (flt flarge ftwo) with false by (vm_compute; reflexivity). }
  assert (HM : fmax_of [fzero; ftwo] = Some ftwo) by (unfold fmax_of; by replace (max_element flt (fun x => x) [fzero; ftwo]) with 1%nat by (vm_compute; reflexivity)).
  assert (Hm : fmin_of [fzero; ftwo] = Some fzero) by (unfold fmin_of; by replace (min_element flt (fun x => x) [fzero; ftwo]) with 0%nat by (vm_compute; reflexivity)).
  assert (Ea : fdiv (fsub (fdiv fzero ftwo) (fdiv fzero ftwo)) fone = fzero) by (apply B2SF_inj; vm_compute; reflexivity).
  assert (Eb : fdiv (fsub (fdiv ftwo ftwo) (fdiv fzero ftwo)) fone = fone) by (apply B2SF_inj; vm_compute; reflexivity).
  exists fzero, fone. split; [|split; [done|split; [done|]]].
  - unfold Boltzmann_weights. rewrite HM, Hm. cbn [mbind option_bind]. rewrite Hdf. cbn [mbind option_bind fmap list_fmap]. cbn zeta. by rewrite Ea, Eb.
  - rewrite V1. cbn [fzero B2R]. replace (2 / 1) with (1 + 1) by lra. replace (0 / 1) with 0 by lra. rewrite exp_plus, exp_0. pose proof (exp_pos 1) as Hp. pose proof (exp_ineq1 1 ltac:(lra)) as H1.
    remember (exp 1) as x. intros H. apply (f_equal (fun y => y * ((1 + x) * (1 + x * x)))) in H.
    replace (x / (1 + x) * ((1 + x) * (1 + x * x))) with (x * (1 + x * x)) in H by (field; lra).
    replace (x * x / (1 + x * x) * ((1 + x) * (1 + x * x))) with (x * x * (1 + x)) in H by (field; nra). nra.
Qed.
Print Assumptions C93_boltzmann_formula_refuted.
(** Fitness values -3, 1 and 3; mean 2 and deviation 1 for 0 and 4; range 2 for 0 and 2. *)
Example C93_nonvacuous :
  (finite_list [fmk (-3) 0; fmk 1 0; fmk 3 0] /\ least [fmk (-3) 0; fmk 1 0; fmk 3 0] (fmk (-3) 0) /\ B2R (fmk (-3) 0) < 0 /\
   (exists ws, Roulette_weights [fmk (-3) 0; fmk 1 0; fmk 3 0] = Some ws /\ (B2SF <$> ws) = [B2SF (fmk 1 0); B2SF (fmk 5254199565265579 (-51)); B2SF (fmk 3 0)])) /\
  (worst_to_best [fmk 1 0; fmk (-3) 0; fmk 3 0] [1; 0; 2]%nat) /\
  sigma_range 2 1 4 /\
  (least [fzero; ftwo] fzero /\ greatest [fzero; ftwo] ftwo /\ bpow radix2 (-900) <= B2R ftwo - B2R fzero <= bpow radix2 1000 /\ Forall (fun f => Rabs (B2R f / (B2R ftwo - B2R fzero)) <= bpow radix2 400) [fzero; ftwo]).
Proof.
  destruct (fmk_val (-3) 0) as (Fa & Va & _); [lia|lia|]. destruct (fmk_val 1 0) as (Fb & Vb & _); [lia|lia|]. destruct (fmk_val 3 0) as (Fc & Vc & _); [lia|lia|]. change (bpow radix2 0) with 1 in Va, Vb, Vc.
  destruct ftwo_val as [F2 V2].
  assert (P : forall e, (10 <= e)%Z -> 4 <= bpow radix2 e) by (intros e He; change 4 with (bpow radix2 2); apply bpow_le; lia).
  split; [|split; [|split]].
  - split; [repeat (constructor; [done|]); constructor|]. split; [split; [left|]; repeat (constructor; [lra|]); constructor|]. split; [lra|].
    eexists. split; [reflexivity|]. vm_compute. reflexivity.
  - split; [apply (bool_decide_unpack _); vm_compute; exact Logic.I|].
    intros [|[|[|a]]] [|[|[|b]]] i j f g Hab H1 H2 Hf Hg; cbn [lookup list_lookup] in H1, H2; try lia; try done;
      apply (inj Some) in H1, H2; subst i j; cbn [lookup list_lookup] in Hf, Hg; apply (inj Some) in Hf, Hg; subst f g; lra.
  - pose proof (P 1020%Z ltac:(lia)). pose proof (P 1000%Z ltac:(lia)). split; [rewrite Rabs_pos_eq; lra|]. replace ((4 - 2) / 1) with 2 by lra. rewrite Rabs_pos_eq; lra.
  - pose proof (P 1000%Z ltac:(lia)). pose proof (P 400%Z ltac:(lia)). cbn [fzero B2R]. rewrite V2.
    split; [split; [left|]; cbn [fzero B2R]; constructor; [cbn [fzero B2R]; lra|constructor; [rewrite V2; cbn [fzero B2R]; lra|constructor]]|].
    split; [split; [right; left|]; constructor; [rewrite V2; cbn [fzero B2R]; lra|constructor; [lra|constructor]]|].
    split; [split; [apply Rle_trans with (bpow radix2 0); [apply bpow_le; lia|change (bpow radix2 0) with 1; lra]|lra]|].
    constructor; [|constructor; [|constructor]]; cbn [fzero B2R]; try rewrite V2; rewrite Rabs_pos_eq; lra.
Qed.
