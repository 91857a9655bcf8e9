(** The distribution computed from weights is close to the shares of the weights. *)
From Coq Require Import Reals ZArith Lra Lia.
From stdpp Require Import list list_numbers sets.
From Flocq Require Import Core BinarySingleNaN.
From Verif Require Import StdSort FloatBase FloatModel FloatSpec FloatProofs AlgorithmModel AlgorithmSpec AlgorithmProofs RealCrossoverModel RealSpec RealProofs RealCrossoverProofs RealErrorProofs
  RandModel RandSpec RandProofs BinomialProofs RandProps SelectionModel SelectionSpec SelectionProofs SelectionMoreSpec.

Local Open Scope R_scope.

Lemma total_app l k : total (l ++ k) = total l + total k.
Proof. unfold total. induction l as [|x l IH]; cbn [app foldr]; [lra|]. rewrite IH. lra. Qed.
Lemma total_perm l k : l ≡ₚ k -> total l = total k.
Proof. unfold total. induction 1; cbn [foldr]; lra. Qed.
Lemma total_nonneg l : Forall (fun w => is_finite w = true /\ 0 <= B2R w) l -> 0 <= total l.
Proof. unfold total. induction 1 as [|x l [_ H] _ IH]; cbn [foldr]; lra. Qed.
Lemma total_take l k : Forall (fun w => is_finite w = true /\ 0 <= B2R w) l -> 0 <= total (take k l) <= total l.
Proof.
  intros H. rewrite <- (take_drop k l) in H at 1. apply Forall_app in H as [H1 H2]. apply total_nonneg in H1, H2.
  rewrite <- (take_drop k l) at 3. rewrite total_app. lra.
Qed.
Lemma total_ge l w : Forall (fun w => is_finite w = true /\ 0 <= B2R w) l -> w ∈ l -> B2R w <= total l.
Proof.
  intros H Hw. apply elem_of_list_split in Hw as (l1 & l2 & ->). apply Forall_app in H as [H1 H2]. apply Forall_cons in H2 as [H0 H2]. apply total_nonneg in H1, H2.
  rewrite total_app. change (total (w :: l2)) with (B2R w + total l2). lra.
Qed.

(** Sums in any order. *)
Lemma sums_error l x : sums l x -> (Z.of_nat (length l) <= 2 ^ 41)%Z -> Forall (fun w => is_finite w = true /\ 0 <= B2R w <= 1) l ->
  (1 <= length l)%nat /\ Rabs (B2R x - total l) <= 2 * (count l - 1) * (uu * total l + hh).
Proof.
  induction 1 as [x|l l1 l2 a b Hp Hs1 IH1 Hs2 IH2]; intros Hl H.
  - split; [cbn; lia|]. unfold total, count. cbn [foldr length]. replace (B2R x - (B2R x + 0)) with 0 by lra. rewrite Rabs_R0. change (IZR (Z.of_nat 1)) with 1. lra.
  - pose proof H as Hall. rewrite Hp in H. apply Forall_app in H as [H1 H2]. apply Permutation_length in Hp as Hlen. rewrite app_length in Hlen.
    destruct (IH1 ltac:(lia) H1) as (L1 & E1). destruct (IH2 ltac:(lia) H2) as (L2 & E2).
    destruct (sums_bounded l1 a Hs1 ltac:(lia) H1) as (Fa & Ha & _). destruct (sums_bounded l2 b Hs2 ltac:(lia) H2) as (Fb & Hb & _).
    destruct (fadd_bounded a b _ _ Fa Fb Ha Hb ltac:(lia)) as (F & V & _). split; [lia|].
    rewrite (total_perm l (l1 ++ l2) Hp), total_app.
    assert (N : forall k : list b64, Forall (fun w => is_finite w = true /\ 0 <= B2R w <= 1) k -> 0 <= total k).
    { intros k Hk. apply total_nonneg. eapply Forall_impl; [exact Hk|]. cbn. intros w [? ?]. split; [done|lra]. }
    pose proof (N l1 H1) as P1. pose proof (N l2 H2) as P2. unfold count in *. rewrite Hlen, Nat2Z.inj_add, plus_IZR.
    assert (C1 : 1 <= IZR (Z.of_nat (length l1))) by (apply IZR_le; lia). assert (C2 : 1 <= IZR (Z.of_nat (length l2))) by (apply IZR_le; lia).
    assert (C3 : (IZR (Z.of_nat (length l1)) + IZR (Z.of_nat (length l2))) <= 2199023255552) by (rewrite <- plus_IZR; apply IZR_le; lia).
    remember (IZR (Z.of_nat (length l1))) as n1. remember (IZR (Z.of_nat (length l2))) as n2.
    pose proof (rnd_err (B2R a + B2R b)) as E. rewrite <- V in E. rewrite (Rabs_pos_eq (B2R a + B2R b)) in E by lra.
    remember (total l1) as T1. remember (total l2) as T2. pose proof hh_pos as Hh. assert (Hu : 0 < uu) by apply uu_pos.
    assert (Hu2 : uu * 9007199254740992 = 1) by (unfold uu; replace (bpow radix2 (-53)) with (/ 9007199254740992) by (vm_compute; reflexivity); lra).
    clear - E E1 E2 P1 P2 C1 C2 C3 Hh Hu Hu2 Ha Hb. apply Rabs_le_inv in E, E1, E2. remember (B2R (fadd a b)) as r. remember (B2R a) as x. remember (B2R b) as y. clear Heqr Heqx Heqy.
    assert (S1 : 2 * (n1 - 1) * (uu * T1 + hh) <= 2 * (n1 + n2 - 2) * (uu * T1) + 2 * (n1 - 1) * hh) by (assert (0 <= uu * T1) by nra; nra).
    assert (S2 : 2 * (n2 - 1) * (uu * T2 + hh) <= 2 * (n1 + n2 - 2) * (uu * T2) + 2 * (n2 - 1) * hh) by (assert (0 <= uu * T2) by nra; nra).
    assert (B : uu * (x + y) <= uu * (2 * (T1 + T2) + hh / uu)).
    { apply Rmult_le_compat_l; [lra|]. assert (0 <= hh / uu) by (apply Rmult_le_pos; [lra|left; by apply Rinv_0_lt_compat]).
      assert (U : 2 * (n1 + n2 - 2) * uu <= 1) by nra.
      assert (hh <= hh / uu * (1 / 9007199254740992)) by (assert (hh / uu * uu = hh) by (field; lra); nra).
      assert (2 * (n1 + n2 - 2) * (uu * T1) <= T1) by nra. assert (2 * (n1 + n2 - 2) * (uu * T2) <= T2) by nra.
      nra. }
    assert (uu * (hh / uu) = hh) by (field; lra).
    apply Rabs_le. assert (2 * (n1 + n2 - 1) * (uu * (T1 + T2) + hh) = 2 * (n1 + n2 - 2) * (uu * T1) + 2 * (n1 + n2 - 2) * (uu * T2) + 2 * uu * (T1 + T2) + 2 * (n1 - 1) * hh + 2 * (n2 - 1) * hh + 2 * hh) by ring.
    nra.
Qed.

Lemma uu_exact : uu * 9007199254740992 = 1.
Proof. unfold uu. replace (bpow radix2 (-53)) with (/ 9007199254740992) by (vm_compute; reflexivity). lra. Qed.
Lemma hh_small : hh <= uu / 1048576.
Proof.
  unfold hh, uu. apply Rle_trans with (bpow radix2 (-73)); [apply bpow_le; lia|]. change (-73)%Z with (-53 + -20)%Z. rewrite bpow_plus.
  replace (bpow radix2 (-20)) with (/ 1048576) by (vm_compute; reflexivity). lra.
Qed.

(** The scan adds up its terms. *)
Lemma scan_from_error f l : forall acc A d, is_finite acc = true -> 0 <= B2R acc -> 0 <= d -> Rabs (B2R acc - A) <= d * (4 * uu) -> 0 <= A -> A + total (f <$> l) <= 3 ->
  (d + count l) * (4 * uu) <= / 2 -> Forall (term_ok f) l ->
  forall i y, scan_from f acc l !! i = Some y -> Rabs (B2R y - (A + total (f <$> take (S i) l))) <= (d + count l) * (4 * uu).
Proof.
  unfold count. induction l as [|w l IH]; intros acc A d Fa Ha Hd HA HA0 Ht Hn H i y Hy; [done|]. cbn [scan_from] in Hy. cbn zeta in Hy.
  apply Forall_cons in H as [[Fw Hw] H]. cbn [fmap list_fmap] in Ht. change (total (f w :: (f <$> l))) with (B2R (f w) + total (f <$> l)) in Ht.
  cbn [length] in Hn |- *. rewrite Nat2Z.inj_succ, succ_IZR in Hn |- *. assert (Hc : 0 <= IZR (Z.of_nat (length l))) by (apply IZR_le; lia).
  pose proof hh_small as Hh. assert (Hu : 0 < uu) by apply uu_pos. assert (Hp : 0 <= total (f <$> l)).
  { apply total_nonneg, Forall_fmap. eapply Forall_impl; [exact H|]. intros u [? ?]. cbn. split; [done|lra]. }
  assert (Hdu : d * (4 * uu) <= / 2) by nra.
  assert (Hacc : B2R acc <= 4) by (apply Rabs_le_inv in HA; lra).
  destruct (fadd_bounded acc (f w) 4 2 Fa Fw ltac:(lra) Hw ltac:(lia)) as (F & V & _ & G & _).
  assert (E : Rabs (B2R (fadd acc (f w)) - (A + B2R (f w))) <= (d + 1) * (4 * uu)).
  { pose proof (rnd_err (B2R acc + B2R (f w))) as E. rewrite <- V in E. rewrite (Rabs_pos_eq (B2R acc + B2R (f w))) in E by lra. apply Rabs_le_inv in E, HA. apply Rabs_le.
    assert (uu * (B2R acc + B2R (f w)) <= uu * (7 / 2)) by (apply Rmult_le_compat_l; lra). lra. }
  assert (Step : (d + 1 + IZR (Z.of_nat (length l))) * (4 * uu) = (d + (IZR (Z.of_nat (length l)) + 1)) * (4 * uu)) by lra.
  destruct i as [|i].
  - cbn [lookup list_lookup] in Hy. apply (inj Some) in Hy. subst y. cbn [take fmap list_fmap]. rewrite take_0. change (total (f w :: (f <$> []))) with (B2R (f w) + 0).
    rewrite Rplus_0_r. eapply Rle_trans; [exact E|]. rewrite <- Step. apply Rmult_le_compat_r; lra.
  - change (scan_from f (fadd acc (f w)) l !! i = Some y) in Hy. cbn [take fmap list_fmap] in *. change (total (f w :: (f <$> take (S i) l))) with (B2R (f w) + total (f <$> take (S i) l)).
    rewrite <- Step, <- Rplus_assoc. apply (IH (fadd acc (f w)) (A + B2R (f w)) (d + 1)); try done; lra.
Qed.
Lemma scan_error f l : total (f <$> l) <= 3 -> count l * (4 * uu) <= / 2 -> Forall (term_ok f) l ->
  forall i y, inclusive_scan f l !! i = Some y -> Rabs (B2R y - total (f <$> take (S i) l)) <= count l * (4 * uu).
Proof.
  intros Ht Hn H i y Hy. destruct l as [|w l]; [done|]. apply Forall_cons in H as [[Fw Hw] H]. cbn [inclusive_scan] in Hy. assert (Hu : 0 < uu) by apply uu_pos.
  assert (Ec : count (w :: l) = 1 + count l) by (unfold count; cbn [length]; rewrite Nat2Z.inj_succ, succ_IZR; lra).
  assert (Hc : 0 <= count l) by (unfold count; apply IZR_le; lia).
  destruct i as [|i].
  - cbn [lookup list_lookup] in Hy. apply (inj Some) in Hy. subst y. cbn [take fmap list_fmap]. rewrite take_0. change (total (f w :: (f <$> []))) with (B2R (f w) + 0).
    replace (B2R (f w) - (B2R (f w) + 0)) with 0 by lra. rewrite Rabs_R0. rewrite Ec. apply Rmult_le_pos; lra.
  - change (scan_from f (f w) l !! i = Some y) in Hy. cbn [take fmap list_fmap] in *. change (total (f w :: (f <$> take (S i) l))) with (B2R (f w) + total (f <$> take (S i) l)).
    change (total (f w :: (f <$> l))) with (B2R (f w) + total (f <$> l)) in Ht.
    assert (0 <= total (f <$> l)). { apply total_nonneg, Forall_fmap. eapply Forall_impl; [exact H|]. intros u [? ?]. cbn. split; [done|lra]. }
    eapply Rle_trans; [apply (scan_from_error f l (f w) (B2R (f w)) 0); try done; try lra|].
    + replace (B2R (f w) - B2R (f w)) with 0 by lra. rewrite Rabs_R0. lra.
    + rewrite Ec in Hn. nra.
    + rewrite Ec. nra.
Qed.

(** The sum of a pointwise approximation. *)
Lemma total_close (f : b64 -> b64) (g : R -> R) (c e : R) l : (forall w, w ∈ l -> Rabs (B2R (f w) - c * B2R w) <= e) ->
  Rabs (total (f <$> l) - c * total l) <= count l * e.
Proof.
  unfold count, total. induction l as [|w l IH]; intros H; cbn [fmap list_fmap foldr length].
  - replace (0 - c * 0) with 0 by lra. rewrite Rabs_R0. change (IZR (Z.of_nat 0)) with 0. lra.
  - rewrite Nat2Z.inj_succ, succ_IZR. assert (H1 := H w ltac:(by left)). specialize (IH ltac:(intros u Hu; apply H; by right)).
    apply Rabs_le_inv in H1, IH. apply Rabs_le. unfold fmap in *. lra.
Qed.

Lemma zero_total l : Forall (fun w => B2R w = 0) l -> total l = 0.
Proof. unfold total. induction 1 as [|w l H _ IH]; cbn [foldr]; lra. Qed.

Section cdf.
Variable reduce : list b64 -> b64.
Hypothesis reduce_ok : reduce_contract reduce.
Variable ws : list b64.
Hypothesis ws_ne : ws <> [].
Hypothesis ws_len : (Z.of_nat (length ws) <= 2 ^ 40)%Z.
Hypothesis ws_ok : Forall (fun w => is_finite w = true /\ 0 <= B2R w) ws.
Local Notation N := (count ws).
Lemma N_range : 1 <= N /\ N * uu <= / 8192.
Proof.
  assert (H1 : 1 <= N) by (unfold count; apply IZR_le; destruct ws; [done|cbn [length]; lia]).
  split; [done|]. assert (H2 : N <= 1099511627776) by (unfold count; apply IZR_le; lia). pose proof uu_exact. assert (0 < uu) by apply uu_pos. nra.
Qed.

Section positive.
Variable wmax : b64.
Hypothesis F : is_finite wmax = true.
Hypothesis wmax_in : exists m, m ∈ ws /\ B2R m = B2R wmax.
Hypothesis wmax_ge : bpow radix2 (-1022) <= B2R wmax.
Hypothesis wmax_max : Forall (fun w => B2R w <= B2R wmax) ws.
Local Notation M := (B2R wmax).
Local Notation W := (total ws).
Local Notation S := (reduce ((fun w => fdiv w wmax) <$> ws)).
Lemma M_pos : 0 < M.
Proof. pose proof (bpow_gt_0 radix2 (-1022)). lra. Qed.
Lemma W_ge : M <= W.
Proof. destruct wmax_in as (m & Hm & <-). by apply total_ge. Qed.
Lemma ratio_err w : w ∈ ws -> Rabs (B2R (fdiv w wmax) - / M * B2R w) <= 2 * uu.
Proof.
  intros Hw. pose proof M_pos as HM. rewrite Forall_forall in ws_ok, wmax_max. destruct (ws_ok w Hw) as [Fw Hw0]. specialize (wmax_max w Hw).
  pose proof (ratio_range M (B2R w) ltac:(lra) ltac:(lra)) as Hr.
  destruct (op_err (fdiv w wmax) (B2R w / M)) as [_ E]; [apply fdiv_finite; [done|done|lra]|rewrite Rabs_pos_eq by lra; apply Rle_trans with (bpow radix2 0); [change (bpow radix2 0) with 1; lra|apply bpow_le; lia]|].
  rewrite (Rabs_pos_eq (B2R w / M)) in E by lra. replace (/ M * B2R w) with (B2R w / M) by (unfold Rdiv; lra). pose proof hh_pos. eapply Rle_trans; [exact E|]. nra.
Qed.
Lemma S_err : let T := W / M in 1 <= T /\ Rabs (B2R S - T) <= 5 * (N * uu) * T.
Proof.
  cbn zeta. pose proof M_pos as HM. pose proof W_ge as HW. destruct N_range as [HN HNu].
  assert (HT : 1 <= W / M) by (apply Rmult_le_reg_r with M; [lra|]; unfold Rdiv; rewrite Rmult_assoc, Rinv_l by lra; lra).
  split; [done|].
  destruct (ratios_ok ws ws_ok wmax F wmax_in wmax_ge wmax_max) as [Hr _].
  destruct (sums_error (fzero :: ((fun w => fdiv w wmax) <$> ws)) S (reduce_ok _)) as [_ E].
  { cbn [length]. rewrite fmap_length. lia. } { constructor; [split; [done|cbn; lra]|done]. }
  assert (Ec : count (fzero :: ((fun w => fdiv w wmax) <$> ws)) - 1 = N) by (unfold count; cbn [length]; rewrite fmap_length, Nat2Z.inj_succ, succ_IZR; lra).
  assert (Et : total (fzero :: ((fun w => fdiv w wmax) <$> ws)) = total ((fun w => fdiv w wmax) <$> ws)) by (unfold total; cbn [foldr]; cbn [fzero B2R]; lra).
  rewrite Ec, Et in E. pose proof (total_close (fun w => fdiv w wmax) (fun x => x) (/ M) (2 * uu) ws ratio_err) as E2. cbv beta in E2.
  replace (/ M * W) with (W / M) in E2 by (unfold Rdiv; lra). pose proof hh_pos. pose proof uu_pos.
  remember (total ((fun w => fdiv w wmax) <$> ws)) as R0. remember (W / M) as T. remember (B2R S) as s. clear - E E2 HT HN HNu H H0.
  assert (R0 <= T + 2 * (N * uu)) by (apply Rabs_le_inv in E2; lra).
  apply Rabs_le_inv in E, E2. remember (N * uu) as a. assert (Ha : 0 < a) by (subst; nra).
  assert (B : 2 * N * (uu * R0 + hh) <= 2 * a * (T + 2 * a + / 1000)).
  { replace (2 * N * (uu * R0 + hh)) with (2 * a * R0 + 2 * (N * hh)) by (subst a; ring). assert (N * hh <= a * / 1048576) by (subst a; pose proof hh_small; nra). nra. }
  assert (a <= a * T) by nra. assert (a * a <= a * / 8192) by (apply Rmult_le_compat_l; lra).
  apply Rabs_le. split; nra.
Qed.
Local Notation I := (fdiv fone S).
Lemma I_err : is_finite I = true /\ 0 < B2R I <= 2 /\ Rabs (B2R I * (W / M) - 1) <= 12 * (N * uu).
Proof.
  destruct (wsum_ok reduce reduce_ok ws ws_len ws_ok wmax F wmax_in wmax_ge wmax_max) as [Fs Hs]. cbn zeta in Fs, Hs. destruct S_err as [HT E]. cbn zeta in HT, E.
  destruct N_range as [HN HNu]. destruct fone_val as [F1 V1]. pose proof uu_pos as Hu. pose proof hh_small as Hh. pose proof hh_pos as Hh0.
  remember (reduce _) as s eqn:Es. clear Es.
  pose proof (ratio_range (B2R s) 1 ltac:(lra) ltac:(lra)) as Hr.
  destruct (op_err (fdiv fone s) (1 / B2R s)) as [Fi Ei].
  { rewrite <- V1. apply fdiv_finite; [done|done|lra]. } { rewrite Rabs_pos_eq by lra. apply Rle_trans with (bpow radix2 0); [change (bpow radix2 0) with 1; lra|apply bpow_le; lia]. }
  rewrite (Rabs_pos_eq (1 / B2R s)) in Ei by lra. split; [done|].
  assert (Hinv : 0 < / B2R s) by (apply Rinv_0_lt_compat; lra). assert (Hss : B2R s * / B2R s = 1) by (apply Rinv_r; lra). unfold Rdiv in Ei, Hr. rewrite Rmult_1_l in Ei, Hr.
  assert (Hsmall : hh <= uu * / B2R s).
  { apply Rmult_le_reg_r with (B2R s); [lra|]. rewrite Rmult_assoc, Rinv_l, Rmult_1_r by lra. unfold hh, uu. apply Rle_trans with (bpow radix2 (-1075) * bpow radix2 41).
    - apply Rmult_le_compat_l; [apply bpow_ge_0|lra].
    - rewrite <- bpow_plus. apply bpow_le. lia. }
  remember (B2R (fdiv fone s)) as i. remember (W / M) as T. remember (B2R s) as x. remember (/ x) as y. clear - E Ei HT HN HNu Hu Hinv Hss Hsmall Hr.
  apply Rabs_le_inv in E, Ei. assert (Hi : y * (1 - 2 * uu) <= i <= y * (1 + 2 * uu)) by nra.
  assert (Hi0 : 0 < i) by nra. split; [nra|]. remember (N * uu) as a. assert (Ha : uu <= a) by (subst; nra).
  assert (Hx : 1 - 2 * a <= i * x <= 1 + 2 * a) by nra.
  assert (HiT : i * T <= 9 / 8).
  { assert (T * (1 - 5 * a) <= x) by lra. assert (i * (T * (1 - 5 * a)) <= 1 + 2 * a) by nra. assert (i * T * (1 - 5 / 8192) <= 1 + 2 / 8192) by (assert (0 <= i * T) by nra; nra). lra. }
  assert (Rabs (i * (x - T)) <= 6 * a). { rewrite Rabs_mult, (Rabs_pos_eq i) by lra. assert (Rabs (x - T) <= 5 * a * T) by (apply Rabs_le; lra). assert (0 <= i * T) by nra.
    apply Rle_trans with (i * (5 * a * T)); [apply Rmult_le_compat_l; lra|]. nra. }
  apply Rabs_le_inv in H. apply Rabs_le. lra.
Qed.
Lemma term_err w : w ∈ ws -> Rabs (B2R (multiply_add (fdiv I wmax) fzero w) - (B2R I / M) * B2R w) <= 12 * uu.
Proof.
  intros Hw. destruct I_err as (Fi & Hi & _). remember (fdiv fone _) as i eqn:Ei0. clear Ei0. pose proof M_pos as HM. pose proof uu_pos as Hu. pose proof hh_small as Hh. pose proof hh_pos as Hh0.
  rewrite Forall_forall in ws_ok, wmax_max. destruct (ws_ok w Hw) as [Fw Hw0]. specialize (wmax_max w Hw).
  assert (Hinv : 0 < / M) by (apply Rinv_0_lt_compat; lra). assert (Hinv2 : / M <= bpow radix2 1022).
  { apply Rmult_le_reg_r with M; [lra|]. rewrite Rinv_l by lra. change 1 with (bpow radix2 0). rewrite <- (bpow_prod 1022 (-1022) 0) by lia. apply Rmult_le_compat_l; [apply bpow_ge_0|done]. }
  destruct (op_err (fdiv i wmax) (B2R i / M)) as [Fq Eq]; [apply fdiv_finite; [done|done|lra]| |].
  { unfold Rdiv. rewrite Rabs_pos_eq by (apply Rmult_le_pos; lra). apply Rle_trans with (bpow radix2 1 * bpow radix2 1022); [apply Rmult_le_compat; try lra; change (bpow radix2 1) with 2; lra|]. rewrite <- bpow_plus. apply bpow_le. lia. }
  unfold Rdiv in Eq. rewrite (Rabs_pos_eq (B2R i * / M)) in Eq by (apply Rmult_le_pos; lra).
  pose proof (ratio_range M (B2R w) ltac:(lra) ltac:(lra)) as Hr. unfold Rdiv in Hr.
  assert (Hww : hh * B2R w <= 4 * uu).
  { pose proof (finite_abs_lt w Fw) as G. rewrite Rabs_pos_eq in G by lra. apply Rle_trans with (hh * bpow radix2 1024); [apply Rmult_le_compat_l; lra|]. unfold hh, uu. rewrite <- bpow_plus.
    change (-1075 + 1024)%Z with (2 + -53)%Z. rewrite bpow_plus. change (bpow radix2 2) with 4. lra. }
  assert (Hq : Rabs (B2R (fdiv i wmax) * B2R w - B2R i * / M * B2R w) <= 6 * uu).
  { replace (B2R (fdiv i wmax) * B2R w - B2R i * / M * B2R w) with ((B2R (fdiv i wmax) - B2R i * / M) * B2R w) by ring. rewrite Rabs_mult, (Rabs_pos_eq (B2R w)) by lra.
    apply Rle_trans with ((uu * (B2R i * / M) + hh) * B2R w); [apply Rmult_le_compat_r; [lra|done]|].
    replace ((uu * (B2R i * / M) + hh) * B2R w) with (uu * (B2R i * (B2R w * / M)) + hh * B2R w) by ring. assert (B2R i * (B2R w * / M) <= 2) by nra. nra. }
  assert (Hprod : 0 <= B2R i * / M * B2R w <= 2) by (replace (B2R i * / M * B2R w) with (B2R i * (B2R w * / M)) by ring; nra).
  assert (Hqa : Rabs (B2R (fdiv i wmax) * B2R w) <= 3) by (apply Rabs_le_inv in Hq; apply Rabs_le; lra).
  destruct (op_err (fmul (fdiv i wmax) w) (B2R (fdiv i wmax) * B2R w)) as [Ft Et]; [by apply fmul_finite| |].
  { apply Rle_trans with (bpow radix2 2); [change (bpow radix2 2) with 4; lra|apply bpow_le; lia]. }
  assert (Hadd : B2R (multiply_add (fdiv i wmax) fzero w) = B2R (fmul (fdiv i wmax) w)).
  { unfold multiply_add. destruct (fadd_le (fmul (fdiv i wmax) w) fzero 1023 Ft eq_refl) as (Fa & Va & _); [lia| |].
    - cbn [fzero B2R]. rewrite Rplus_0_r. apply Rle_trans with (bpow radix2 3); [|apply bpow_le; lia]. change (bpow radix2 3) with 8. assert (uu * Rabs (B2R (fdiv i wmax) * B2R w) <= uu * 3) by (apply Rmult_le_compat_l; lra). apply Rabs_le_inv in Et, Hqa. apply Rabs_le. lra.
    - rewrite Va. cbn [fzero B2R]. rewrite Rplus_0_r. by apply srnd_id. }
  rewrite Hadd. unfold Rdiv. apply Rabs_le_inv in Hq, Et. apply Rabs_le. assert (uu * Rabs (B2R (fdiv i wmax) * B2R w) <= uu * 3) by (apply Rmult_le_compat_l; lra). lra.
Qed.
Lemma positive_close i y : cdf_of reduce ws wmax !! i = Some y -> Rabs (B2R y - total (take (Datatypes.S i) ws) / W) <= 28 * (N * uu).
Proof.
  destruct I_err as (Fi & Hi & EI). destruct (terms_ok reduce reduce_ok ws ws_len ws_ok wmax F wmax_in wmax_ge wmax_max) as (_ & T2 & _). cbn zeta in T2.
  unfold cdf_of. rewrite Fi. pose proof term_err as TE. remember (multiply_add (fdiv I wmax) fzero) as f eqn:Ef. clear Ef. remember (B2R I) as b eqn:Eb. clear Eb.
  pose proof M_pos as HM. pose proof W_ge as HW. destruct N_range as [HN HNu]. pose proof uu_pos as Hu. intros Hy.
  assert (P : forall k, Rabs (total (f <$> take k ws) - total (take k ws) / W) <= 24 * (N * uu)).
  { intros k. pose proof (total_close f (fun x => x) (b / M) (12 * uu) (take k ws)) as H. specialize (H ltac:(intros w Hw; apply TE; by apply elem_of_take in Hw as (? & ? & _); eapply elem_of_list_lookup_2)).
    assert (Hck : 0 <= count (take k ws) <= N) by (unfold count; rewrite take_length; split; apply IZR_le; lia).
    pose proof (total_take ws k ws_ok) as Hk. assert (Hs : 0 <= total (take k ws) / W <= 1) by (apply ratio_range; lra).
    replace (b / M * total (take k ws)) with (b * (W / M) * (total (take k ws) / W)) in H by (field; lra).
    remember (total (f <$> take k ws)) as t. remember (total (take k ws) / W) as x. remember (b * (W / M)) as z. remember (count (take k ws)) as c. clear - H Hck Hs EI Hu HN.
    apply Rabs_le_inv in H, EI. apply Rabs_le. assert (c * (12 * uu) <= 12 * (N * uu)) by nra. remember (N * uu) as a. split; nra. }
  assert (Pall : total (f <$> ws) <= 3).
  { specialize (P (length ws)). rewrite firstn_all in P. replace (W / W) with 1 in P by (field; lra). apply Rabs_le_inv in P. lra. }
  pose proof (scan_error f ws Pall ltac:(lra) T2 i y Hy) as E. specialize (P (Datatypes.S i)). apply Rabs_le_inv in E, P. apply Rabs_le. lra.
Qed.
End positive.

(** All weights are zero. *)
Lemma total_const (f : b64 -> b64) c l : (forall w, w ∈ l -> B2R (f w) = c) -> total (f <$> l) = count l * c.
Proof.
  unfold count, total. induction l as [|w l IH]; intros H; cbn [fmap list_fmap foldr length]; [change (IZR (Z.of_nat 0)) with 0; lra|].
  rewrite Nat2Z.inj_succ, succ_IZR, (H w) by (by left). specialize (IH ltac:(intros u Hu; apply H; by right)). unfold fmap in *. lra.
Qed.
Lemma zero_close i y : Forall (fun w => B2R w = 0) ws -> cdf_of reduce ws fsmall !! i = Some y -> Rabs (B2R y - count (take (Datatypes.S i) ws) / N) <= 28 * (N * uu).
Proof.
  intros Hz. destruct fsmall_val as [Fs Vs]. destruct fone_val as [F1 V1]. pose proof (bpow_gt_0 radix2 (-1022)) as Hp.
  destruct N_range as [HN HNu]. pose proof uu_pos as Hu. pose proof hh_small as Hh. pose proof hh_pos as Hh0.
  assert (Es : is_finite (reduce ((fun w => fdiv w fsmall) <$> ws)) = true /\ B2R (reduce ((fun w => fdiv w fsmall) <$> ws)) = 0).
  { eapply sums_zero; [apply reduce_ok|cbn [length]; rewrite fmap_length; lia|]. constructor; [done|]. apply Forall_fmap, Forall_forall. intros w Hw. cbv [compose].
    rewrite Forall_forall in Hz, ws_ok. specialize (Hz w Hw). destruct (ws_ok w Hw) as [Fw _].
    destruct (fin_srnd (fdiv w fsmall) 0 0) as [G1 G2]; [|lia|split; [lra|apply bpow_ge_0]|by rewrite G2, srnd_0].
    replace 0 with (B2R w / B2R fsmall) at 1 by (rewrite Hz; unfold Rdiv; lra). apply fdiv_finite; [done|done|lra]. }
  unfold cdf_of. remember (reduce _) as s eqn:Es'. clear Es'. destruct Es as [Fsum Vsum].
  assert (E : is_finite (fdiv fone s) = false).
  { unfold fdiv, fone. destruct s as [sg| | |sg m e He]; try done.
    cbn in Vsum. exfalso. apply (F2R_neq_0 radix2 (Float radix2 (cond_Zopp sg (Zpos m)) e)); [by destruct sg|exact Vsum]. }
  rewrite E.
  assert (Hn : is_finite (nat_to_f (length ws)) = true /\ B2R (nat_to_f (length ws)) = N) by (apply fofZ_exact; lia).
  destruct Hn as [Fn Vn]. pose proof (ratio_range N 1 ltac:(lra) ltac:(lra)) as Hr.
  destruct (op_err (fdiv fone (nat_to_f (length ws))) (1 / N)) as [Fc Ec].
  { rewrite <- V1, <- Vn. apply fdiv_finite; [done|done|rewrite Vn; lra]. } { rewrite Rabs_pos_eq by lra. apply Rle_trans with (bpow radix2 0); [change (bpow radix2 0) with 1; lra|apply bpow_le; lia]. }
  rewrite (Rabs_pos_eq (1 / N)) in Ec by lra.
  remember (fdiv fone (nat_to_f (length ws))) as c eqn:Ec0. clear Ec0.
  assert (Hc : 0 <= B2R c <= 2).
  { apply Rabs_le_inv in Ec. split; [|nra]. assert (uu <= 1 / N). { apply Rmult_le_reg_r with N; [lra|]. unfold Rdiv. rewrite Rmult_assoc, Rinv_l by lra. lra. } nra. }
  assert (Hq : is_finite (fdiv fone fsmall) = true) by (vm_compute; reflexivity). remember (fdiv fone fsmall) as q eqn:Eq. clear Eq. intros Hy.
  assert (Hterm : forall w, w ∈ ws -> is_finite (multiply_add q c w) = true /\ B2R (multiply_add q c w) = B2R c).
  { intros w Hw. rewrite Forall_forall in Hz, ws_ok. specialize (Hz w Hw). destruct (ws_ok w Hw) as [Fw _].
    destruct (fin_srnd (fmul q w) (B2R q * B2R w) 0) as [Fm Vm]; [by apply fmul_finite|lia|rewrite Hz, Rmult_0_r; split; [lra|apply bpow_ge_0]|].
    rewrite Hz, Rmult_0_r, srnd_0 in Vm. unfold multiply_add. destruct (fadd_bounded (fmul q w) c 0 2 Fm Fc) as (Fa & Va & _); [lra|lra|lia|]. split; [done|]. by rewrite Va, Vm, Rplus_0_l, rnd_id. }
  assert (P : forall k, Rabs (total (multiply_add q c <$> take k ws) - count (take k ws) / N) <= 2 * (N * uu)).
  { intros k. rewrite (total_const _ (B2R c)) by (intros w Hw; apply Hterm; by apply elem_of_take in Hw as (? & ? & _); eapply elem_of_list_lookup_2).
    assert (Hck : 0 <= count (take k ws) <= N) by (unfold count; rewrite take_length; split; apply IZR_le; lia).
    replace (count (take k ws) * B2R c - count (take k ws) / N) with (count (take k ws) * (B2R c - 1 / N)) by (field; lra). rewrite Rabs_mult, (Rabs_pos_eq (count _)) by lra.
    apply Rle_trans with (N * (2 * uu)); [|lra]. apply Rmult_le_compat; [lra|apply Rabs_pos|lra|]. eapply Rle_trans; [exact Ec|]. nra. }
  assert (Pall : total (multiply_add q c <$> ws) <= 3).
  { specialize (P (length ws)). rewrite firstn_all in P. replace (N / N) with 1 in P by (field; lra). apply Rabs_le_inv in P. lra. }
  assert (T2 : Forall (term_ok (multiply_add q c)) ws) by (apply Forall_forall; intros w Hw; destruct (Hterm w Hw) as [? E']; split; [done|lra]).
  pose proof (scan_error (multiply_add q c) ws Pall ltac:(lra) T2 i y Hy) as E'. specialize (P (Datatypes.S i)). apply Rabs_le_inv in E', P. apply Rabs_le. lra.
Qed.

Lemma total_zero : total ws = 0 -> Forall (fun w => B2R w = 0) ws.
Proof.
  intros Hz. apply Forall_forall. intros w Hw. pose proof (total_ge ws w ws_ok Hw). rewrite Forall_forall in ws_ok. destruct (ws_ok w Hw). lra.
Qed.
Lemma cdf_close : good_weights ws -> exists cdf, weightsToCdf reduce ws = Some cdf /\ length cdf = length ws /\
  forall i y x, cdf !! i = Some y -> is_share ws (Datatypes.S i) x -> Rabs (B2R y - x) <= 28 * (N * uu).
Proof.
  intros [_ Hg]. destruct (weightsToCdf_unfold reduce ws ws_ne ws_ok) as (m & Hm & Hmax & E). destruct fsmall_val as [Fs Vs]. rewrite Forall_forall in Hmax.
  assert (Fm : is_finite m = true) by (rewrite Forall_forall in ws_ok; by apply ws_ok).
  pose proof (bpow_gt_0 radix2 (-1022)) as Hp.
  destruct Hg as [Hz|(w & Hw & Hge)].
  - assert (Em : fmax fsmall m = fsmall).
    { unfold fmax. rewrite flt_finite by done. rewrite Rlt_bool_false; [done|]. rewrite Forall_forall in Hz. rewrite (Hz m Hm), Vs. apply bpow_ge_0. }
    rewrite Em in E. exists (cdf_of reduce ws fsmall). split; [done|]. split; [apply scan_length|]. intros i y x Hy [Hx _]. rewrite (Hx (zero_total ws Hz)). by apply zero_close.
  - assert (Em : is_finite (fmax fsmall m) = true /\ B2R (fmax fsmall m) = B2R m).
    { split; [by apply fmax_fin|]. unfold fmax. rewrite flt_finite by done. case Rlt_bool_spec; intros H; [done|]. specialize (Hmax w Hw). lra. }
    destruct Em as [Fx Vx]. exists (cdf_of reduce ws (fmax fsmall m)). split; [done|]. split; [apply scan_length|]. intros i y x Hy [_ Hx].
    pose proof (total_ge ws w ws_ok Hw) as Hpos. rewrite Hx by lra. apply (positive_close (fmax fsmall m)); [done|by exists m|specialize (Hmax w Hw); lra|apply Forall_forall; intros u Hu; rewrite Vx; by apply Hmax|done].
Qed.
End cdf.

(** ** The values of the weights. *)
From Verif Require Import SelectionWeights.
Lemma fadd_fin_inv (a b : b64) : is_finite (fadd a b) = true -> is_finite a = true /\ is_finite b = true.
Proof. destruct a as [|[]| |], b as [|[]| |]; done. Qed.
Lemma fmul_fin_inv (a b : b64) : is_finite (fmul a b) = true -> is_finite a = true /\ is_finite b = true.
Proof. destruct a as [[]|[]| |[]], b as [[]|[]| |[]]; done. Qed.
Lemma fin_rnd (r : b64) v : is_finite r = true -> is_nan r = false /\ fval r = srnd v -> B2R r = rnd v.
Proof.
  intros F [_ E]. rewrite fval_finite in E by done. rewrite E. unfold srnd. pose proof (finite_abs_lt r F) as G. rewrite E in G. unfold srnd in G. apply Rabs_lt_inv in G.
  unfold sat in *. change (bpow radix2 1024) with femax in G. revert G. unfold Rmax, Rmin. repeat destruct Rle_dec; intros; lra.
Qed.
(** Roulette: a third of the fitness plus two thirds of the distance of the lowest one from zero. *)
Lemma third_err : Rabs (B2R fthird - / 3) <= uu / 3 /\ Rabs (B2R ftwothird - 2 / 3) <= 2 * uu / 3.
Proof.
  destruct (fmk_val 6004799503160661 (-54)) as (F1 & V1 & _); [lia|lia|]. destruct third_vals as (_ & _ & _ & V2).
  assert (E2 : bpow radix2 (-54) = / 18014398509481984) by (vm_compute; reflexivity). pose proof uu_exact.
  assert (E : Rabs (B2R fthird - / 3) <= uu / 3). { unfold fthird. rewrite V1, E2. apply Rabs_le. lra. }
  split; [done|]. rewrite V2. apply Rabs_le_inv in E. apply Rabs_le. lra.
Qed.
Lemma roulette_values (fvec ws : list b64) (m : b64) i f w : Forall (fun f => is_finite f = true) fvec -> least fvec m -> B2R m < 0 -> Roulette_weights fvec = Some ws ->
  fvec !! i = Some f -> ws !! i = Some w ->
  is_finite w = true /\ B2R w = rnd (rnd (B2R fthird * B2R f) + rnd (B2R ftwothird * - B2R m)) /\
  Rabs (B2R w - (B2R f - 2 * B2R m) / 3) <= 4 * uu * (Rabs (B2R f) - B2R m) + 4 * hh.
Proof.
  intros Hfin [Hm Hmin] Hneg Hws Hf Hw. assert (Hne : fvec <> []) by (by intros ->; apply elem_of_nil in Hm).
  destruct (roulette_ok fvec Hne Hfin) as (ws' & E & _ & Hall & _). rewrite Hws in E. injection E as <-.
  rewrite Forall_forall in Hall. destruct (Hall w) as [Fw _]; [by eapply elem_of_list_lookup_2|]. split; [done|].
  destruct (fmin_of_ok fvec Hne Hfin) as (m' & Em & Hm' & Hmin'). unfold Roulette_weights in Hws. rewrite Em in Hws. cbn [mbind option_bind] in Hws. injection Hws as <-.
  rewrite Forall_forall in Hmin, Hmin', Hfin. pose proof (Hmin m' Hm') as L1. pose proof (Hmin' m Hm) as L2. assert (EM : B2R m' = B2R m) by lra. pose proof (Hfin m' Hm') as Fm.
  rewrite list_lookup_fmap, Hf in Hw. cbn [fmap option_fmap option_map] in Hw. injection Hw as <-. pose proof (Hfin f (elem_of_list_lookup_2 _ _ _ Hf)) as Ff.
  rewrite fle_finite in Fw |- * by done. cbn [fzero B2R] in Fw |- *. rewrite Rle_bool_false in Fw |- * by lra.
  assert (Ez : fmin fzero m' = m') by (unfold fmin; rewrite flt_finite by done; cbn [fzero B2R]; by rewrite Rlt_bool_true by lra). change (B754_zero false : b64) with fzero in *. rewrite Ez in Fw |- *.
  unfold multiply_add in *. destruct (fadd_fin_inv _ _ Fw) as [Fa Fo].
  assert (Fn : is_finite (fneg ftwothird) = true) by (vm_compute; reflexivity). assert (F3 : is_finite fthird = true) by (vm_compute; reflexivity).
  pose proof (fin_rnd _ _ Fw (fadd_finite _ _ Fa Fo)) as Vw. pose proof (fin_rnd _ _ Fa (fmul_finite _ _ F3 Ff)) as Va. pose proof (fin_rnd _ _ Fo (fmul_finite _ _ Fn Fm)) as Vo.
  assert (Vn : B2R (fneg ftwothird) * B2R m' = B2R ftwothird * - B2R m) by (unfold fneg; rewrite B2R_Bopp, EM; lra). rewrite Vn in Vo. rewrite Va, Vo in Vw. split; [done|]. rewrite Vw.
  destruct third_err as [T1 T2]. pose proof uu_pos as Hu. pose proof hh_pos as Hh. remember (- B2R m) as L eqn:EL. remember (B2R f) as x eqn:Ex.
  assert (E1 : Rabs (rnd (B2R fthird * x) - x / 3) <= uu * Rabs x + hh).
  { pose proof (rnd_err (B2R fthird * x)) as G. rewrite Rabs_mult in G. assert (G2 : Rabs (B2R fthird * x - x / 3) <= uu / 3 * Rabs x).
    { replace (B2R fthird * x - x / 3) with ((B2R fthird - / 3) * x) by field. rewrite Rabs_mult. apply Rmult_le_compat_r; [apply Rabs_pos|done]. }
    assert (G3 : Rabs (B2R fthird) <= / 2) by (apply Rabs_le_inv in T1; apply Rabs_le; lra). pose proof (Rabs_pos x) as Hx. assert (uu * (Rabs (B2R fthird) * Rabs x) <= uu * (/ 2 * Rabs x)) by (apply Rmult_le_compat_l; [lra|]; apply Rmult_le_compat_r; lra).
    assert (0 <= uu * Rabs x) by (apply Rmult_le_pos; lra). apply Rabs_le_inv in G, G2. apply Rabs_le. lra. }
  assert (E2 : Rabs (rnd (B2R ftwothird * L) - 2 * L / 3) <= 2 * uu * L + hh).
  { pose proof (rnd_err (B2R ftwothird * L)) as G. rewrite Rabs_mult, (Rabs_pos_eq L) in G by lra. assert (G2 : Rabs (B2R ftwothird * L - 2 * L / 3) <= 2 * uu / 3 * L).
    { replace (B2R ftwothird * L - 2 * L / 3) with ((B2R ftwothird - 2 / 3) * L) by field. rewrite Rabs_mult, (Rabs_pos_eq L) by lra. apply Rmult_le_compat_r; [lra|done]. }
    assert (G3 : Rabs (B2R ftwothird) <= 1) by (apply Rabs_le_inv in T2; apply Rabs_le; lra). assert (uu * (Rabs (B2R ftwothird) * L) <= uu * (1 * L)) by (apply Rmult_le_compat_l; [lra|]; apply Rmult_le_compat_r; lra).
    assert (0 <= uu * L) by (apply Rmult_le_pos; lra). apply Rabs_le_inv in G, G2. apply Rabs_le. lra. }
  remember (rnd (B2R fthird * x)) as a. remember (rnd (B2R ftwothird * L)) as o. pose proof (rnd_err (a + o)) as E3.
  assert (B : Rabs (a + o) <= Rabs x + L + 2 * hh). { pose proof (Rabs_pos x). assert (uu * Rabs x <= / 1048576 * Rabs x) by (apply Rmult_le_compat_r; lra). assert (uu * L <= / 1048576 * L) by (apply Rmult_le_compat_r; lra).
    apply Rabs_le_inv in E1, E2. assert (- Rabs x <= x <= Rabs x) by (apply Rabs_le_inv; lra). apply Rabs_le. lra. }
  assert (uu * Rabs (a + o) <= uu * (Rabs x + L + 2 * hh)) by (apply Rmult_le_compat_l; lra). assert (uu * (2 * hh) <= hh) by nra.
  assert (0 <= uu * Rabs x) by (apply Rmult_le_pos; [lra|apply Rabs_pos]). assert (0 <= uu * L) by (apply Rmult_le_pos; lra).
  assert (Em2 : B2R m = - L) by lra. rewrite Em2. clear - E1 E2 E3 H H0 H1 H2. apply Rabs_le_inv in E1, E2, E3. apply Rabs_le. lra.
Qed.
Lemma roulette_follow (fvec ws : list b64) : Forall (fun f => is_finite f = true) fvec -> Roulette_weights fvec = Some ws -> weights_follow fvec ws.
Proof.
  intros Hfin Hws i j f g v w Hf Hg Hv Hw Hle. assert (Hne : fvec <> []) by (by intros ->).
  destruct (fmin_of_ok fvec Hne Hfin) as (m & Em & Hm & Hmin). destruct (Rle_or_lt 0 (B2R m)) as [Hp|Hn].
  - destruct (roulette_nonneg fvec Hne Hfin) as (ws' & E & H). { eapply Forall_impl; [exact Hmin|cbn; intros; lra]. } rewrite Hws in E. injection E as <-.
    destruct (Forall2_lookup_lr _ _ _ _ _ _ H Hv Hf) as [_ E1]. destruct (Forall2_lookup_lr _ _ _ _ _ _ H Hw Hg) as [_ E2]. lra.
  - destruct (roulette_values fvec ws m i f v) as (_ & -> & _); [done..|]. destruct (roulette_values fvec ws m j g w) as (_ & -> & _); [done..|].
    apply rnd_mono. apply Rplus_le_compat_r. apply rnd_mono. destruct third_vals as (_ & _ & ? & _). apply Rmult_le_compat_l; lra.
Qed.

(** Rank: the weights of the candidates from the worst to the best one. *)
Lemma rank_values lerp sort (lo hi : b64) (fvec : list b64) : sort_contract sort -> (2 <= length fvec)%nat -> (Z.of_nat (length fvec) <= 2 ^ 40)%Z -> Forall (fun f => is_finite f = true) fvec ->
  exists ws order, Rank_weights lerp sort lo hi fvec = Some ws /\ length ws = length fvec /\ worst_to_best fvec order /\
    forall k j, order !! k = Some j -> exists t, ws !! j = Some (lerp lo hi t) /\ is_finite t = true /\ B2R t = rnd (IZR (Z.of_nat k) / IZR (Z.of_nat (length fvec) - 1)).
Proof.
  intros Hs Hn Hn2 Hfin. unfold Rank_weights. destruct (argsort_ok flt sort false fvec Hs (flt_swo fvec Hfin)) as [Hp Hsorted]. remember (argsort sort flt false fvec) as is eqn:Eis.
  unfold index_perm in Hp. assert (Hnd : NoDup is) by (rewrite Hp; apply NoDup_seq). assert (Hlen : length is = length fvec) by (rewrite Hp; apply seq_length).
  destruct (rank_loop_ok lerp lo hi is 0 (replicate (length fvec) fzero) Hnd) as (H1 & H2 & _). { apply Forall_forall. intros j Hj. rewrite Hp in Hj. apply elem_of_seq in Hj. rewrite replicate_length. lia. }
  rewrite replicate_length in H1, H2. eexists. exists is. split; [reflexivity|]. split; [done|]. split; [split; [done|]|].
  - intros a b i j f g Hab Ha Hb Hf Hg. destruct (decide (a = b)) as [->|Hne].
    + rewrite Ha in Hb. injection Hb as <-. rewrite Hf in Hg. injection Hg as <-. lra.
    + assert (G : flt g f = false). { apply (Hsorted a b i j f g); [apply lookup_lt_Some in Ha; lia|lia|done..]. }
      rewrite Forall_forall in Hfin. rewrite flt_finite in G by (apply Hfin; by eapply elem_of_list_lookup_2). revert G. by case Rlt_bool_spec.
  - intros k j Hk. exists (rank_t (0 + k) (length fvec)). split; [by apply H2|]. apply lookup_lt_Some in Hk as Hkl. destruct (rank_t_ok (0 + k) (length fvec)) as (T1 & T2 & _); [lia|lia|lia|]. split; [done|].
    unfold rank_t, nat_to_f in *. cbn [Nat.add] in *. destruct (fofZ_exact (Z.of_nat k)) as [F1 V1]; [lia|]. destruct (fofZ_exact (Z.of_nat (length fvec))) as [F2 V2]; [lia|]. destruct fone_val as [Fo Vo].
    destruct (fofZ_exact (Z.of_nat (length fvec) - 1)) as [F3 V3]; [lia|].
    destruct (fsub_le (fofZ (Z.of_nat (length fvec))) fone 53 F2 Fo) as (F & V & _); [lia| |].
    { rewrite V2, Vo. rewrite <- (minus_IZR _ 1). rewrite Rabs_pos_eq by (apply IZR_le; lia). rewrite bpow_IZR by lia. apply IZR_le. lia. }
    rewrite V2, Vo, <- (minus_IZR _ 1), <- V3, srnd_id, V3 in V by done.
    rewrite <- V1, <- V. apply fin_rnd; [done|]. apply fdiv_finite; [done|done|]. rewrite V. apply not_eq_sym, Rlt_not_eq. apply IZR_lt. lia.
Qed.

(** Sigma. *)
Lemma inv_bpow x e1 e2 : bpow radix2 e1 <= x <= bpow radix2 e2 -> bpow radix2 (- e2) <= / x <= bpow radix2 (- e1).
Proof. intros H. pose proof (bpow_gt_0 radix2 e1). rewrite !bpow_opp. split; apply Rinv_le; lra. Qed.
Lemma sigma_values fmean fdev (scale : b64) (fvec ws : list b64) i f w : is_finite (fmean fvec) = true -> is_finite (fdev fvec) = true -> is_finite f = true ->
  let m := B2R (fmean fvec) in let d := B2R (fdev fvec) in
  bpow radix2 (-1000) <= d <= bpow radix2 1000 -> Rabs (B2R f) <= bpow radix2 1020 -> Rabs m <= bpow radix2 1020 -> Rabs ((B2R f - m) / d) <= bpow radix2 1000 ->
  Sigma_weights fmean fdev scale fvec = Some ws -> fvec !! i = Some f -> ws !! i = Some w ->
  is_finite w = true /\ B2R w = Rmax 0 (rnd (1 + rnd (rnd (B2R f - m) * rnd (1 / d)))) /\
  Rabs (B2R w - Rmax 0 (1 + (B2R f - m) / d)) <= 8 * uu * (1 + Rabs ((B2R f - m) / d)).
Proof.
  intros Fm Fd Ff m d Hd Hf Hm Hy Hws Hfi Hwi. unfold Sigma_weights in Hws. cbn zeta in Hws. destruct fsmall_val as [Fs Vs]. assert (Fl : is_finite flarge = true) by reflexivity. destruct fone_val as [F1 V1].
  destruct (clamp_val (fdev fvec) fsmall flarge Fs Fl) as (c & Ec & _ & _ & Hc & _); [by apply flarge_ge|by apply is_finite_not_nan|].
  assert (Hsame : c = fdev fvec). { apply Hc; [done|]. rewrite Vs. split; [|by apply flarge_ge]. assert (bpow radix2 (-1022) <= bpow radix2 (-1000)) by (apply bpow_le; lia). fold d. lra. }
  rewrite Ec in Hws. cbn [mbind option_bind] in Hws. rewrite Hsame in Hws. apply mapM_Some in Hws. pose proof (Forall2_lookup_lr _ _ _ _ _ _ Hws Hfi Hwi) as Ecl. cbv beta in Ecl. clear Hws Hc Ec Hsame c.
  pose proof uu_pos as Hu. pose proof hh_small as Hh. pose proof hh_pos as Hh0. pose proof (bpow_gt_0 radix2 (-1000)) as Hp.
  assert (Hbb : forall x e, Rabs x <= bpow radix2 e -> (e <= 1023)%Z -> Rabs x <= bpow radix2 1023) by (intros x e H1 H2; eapply Rle_trans; [exact H1|]; by apply bpow_le).
  assert (B1020 : bpow radix2 1020 + bpow radix2 1020 = bpow radix2 1021) by (change 1021%Z with (1 + 1020)%Z; rewrite bpow_plus; change (bpow radix2 1) with 2; lra).
  assert (Hdiff : Rabs (B2R f - m) <= bpow radix2 1021) by (apply Rabs_le_inv in Hf, Hm; apply Rabs_le; lra).
  destruct (op_err _ _ (fsub_finite f (fmean fvec) Ff Fm)) as [Fsub Es]; [by apply (Hbb _ 1021%Z)|].
  pose proof (fin_rnd _ _ Fsub (fsub_finite f (fmean fvec) Ff Fm)) as Vsub. fold m in Es, Vsub.
  pose proof (inv_bpow d _ _ Hd) as Hinv. change (- (1000))%Z with (-1000)%Z in Hinv. change (- -1000)%Z with 1000%Z in Hinv.
  assert (E1d : 1 / d = / d) by (unfold Rdiv; lra).
  assert (Gi : is_nan (fdiv fone (fdev fvec)) = false /\ fval (fdiv fone (fdev fvec)) = srnd (1 / d)) by (rewrite <- V1; apply fdiv_finite; [done|done|fold d; lra]).
  destruct (op_err _ _ Gi) as [Fi Ei]; [rewrite E1d, Rabs_pos_eq by lra; apply Rle_trans with (bpow radix2 1000); [lra|apply bpow_le; lia]|].
  pose proof (fin_rnd _ _ Fi Gi) as Vi. rewrite E1d, (Rabs_pos_eq (/ d)) in Ei by lra. remember (fdiv fone (fdev fvec)) as iv eqn:Eiv. clear Eiv Gi. remember (fsub f (fmean fvec)) as sb eqn:Esb. clear Esb.
  assert (Hhd : hh <= uu * / d). { unfold hh, uu. apply Rle_trans with (bpow radix2 (-53) * bpow radix2 (-1000)); [rewrite <- bpow_plus; apply bpow_le; lia|]. apply Rmult_le_compat_l; [apply bpow_ge_0|lra]. }
  assert (Hhd2 : hh * / d <= uu / 1048576). { unfold hh, uu. apply Rle_trans with (bpow radix2 (-1075) * bpow radix2 1000); [apply Rmult_le_compat_l; [apply bpow_ge_0|lra]|]. rewrite <- bpow_plus.
    apply Rle_trans with (bpow radix2 (-73)); [apply bpow_le; lia|]. change (-73)%Z with (-53 + -20)%Z. rewrite bpow_plus. replace (bpow radix2 (-20)) with (/ 1048576) by (vm_compute; reflexivity). lra. }
  remember ((B2R f - m) / d) as y eqn:Ey. assert (Eyd : B2R f - m = y * d) by (subst y; field; lra). rewrite Eyd in Es. rewrite Eyd in Vsub |- *.
  assert (Ep : Rabs (B2R sb * B2R iv - y) <= 4 * uu * Rabs y + uu / 1000).
  { replace (B2R sb * B2R iv - y) with ((B2R sb - y * d) * B2R iv + (y * d) * (B2R iv - / d)) by (field; lra).
    eapply Rle_trans; [apply Rabs_triang|]. rewrite !Rabs_mult in *. rewrite (Rabs_pos_eq d) in * by lra.
    assert (Hiv : Rabs (B2R iv) <= 2 * / d) by (apply Rabs_le_inv in Ei; apply Rabs_le; nra).
    assert (Rabs (B2R sb - y * d) * Rabs (B2R iv) <= (uu * (Rabs y * d) + hh) * (2 * / d)) by (apply Rmult_le_compat; [apply Rabs_pos|apply Rabs_pos|done|done]).
    assert (Rabs y * d * Rabs (B2R iv - / d) <= Rabs y * d * (2 * uu * / d)). { apply Rmult_le_compat_l; [apply Rmult_le_pos; [apply Rabs_pos|lra]|]. lra. }
    replace ((uu * (Rabs y * d) + hh) * (2 * / d)) with (2 * uu * Rabs y + 2 * (hh * / d)) in H by (field; lra). replace (Rabs y * d * (2 * uu * / d)) with (2 * uu * Rabs y) in H0 by (field; lra). lra. }
  pose proof (Rabs_pos y) as Hyp. assert (Huy : 0 <= uu * Rabs y) by (apply Rmult_le_pos; lra). assert (Huy2 : uu * Rabs y <= / 1048576 * Rabs y) by (apply Rmult_le_compat_r; lra).
  assert (Hprod : Rabs (B2R sb * B2R iv) <= 2 * Rabs y + uu).
  { apply Rabs_le_inv in Ep. assert (- Rabs y <= y <= Rabs y) by (apply Rabs_le_inv; lra). apply Rabs_le. lra. }
  assert (B1001 : 2 * bpow radix2 1000 + 4 <= bpow radix2 1002). { change 1002%Z with (2 + 1000)%Z. rewrite bpow_plus. change (bpow radix2 2) with 4. assert (bpow radix2 2 <= bpow radix2 1000) by (apply bpow_le; lia). change (bpow radix2 2) with 4 in H. lra. }
  destruct (op_err _ _ (fmul_finite sb iv Fsub Fi)) as [Fp Ep2]; [apply (Hbb _ 1002%Z); [lra|lia]|]. pose proof (fin_rnd _ _ Fp (fmul_finite sb iv Fsub Fi)) as Vp.
  remember (fmul sb iv) as p eqn:Epp. clear Epp.
  assert (Ep3 : Rabs (B2R p - y) <= 6 * uu * Rabs y + uu / 500).
  { assert (uu * Rabs (B2R sb * B2R iv) <= uu * (2 * Rabs y + uu)) by (apply Rmult_le_compat_l; lra). assert (uu * uu <= uu / 1048576) by (replace (uu / 1048576) with (uu * / 1048576) by lra; apply Rmult_le_compat_l; lra).
    apply Rabs_le_inv in Ep, Ep2. apply Rabs_le. lra. }
  assert (Hpa : Rabs (1 + B2R p) <= 2 + 2 * Rabs y). { apply Rabs_le_inv in Ep3. assert (- Rabs y <= y <= Rabs y) by (apply Rabs_le_inv; lra). apply Rabs_le. lra. }
  pose proof (fadd_finite fone p F1 Fp) as Gv. rewrite V1 in Gv. destruct (op_err _ _ Gv) as [Fv Ev]; [apply (Hbb _ 1002%Z); [lra|lia]|]. pose proof (fin_rnd _ _ Fv Gv) as Vv.
  rewrite <- Vi, <- Vsub, <- Vp, <- Vv.
  destruct (clamp_val (fadd fone p) fzero flarge eq_refl Fl) as (u & Eu & Fu & Hur & Hin & Hlow & _); [by apply (flarge_ge fzero)|by apply is_finite_not_nan|]. rewrite Ecl in Eu. injection Eu as <-. split; [done|].
  assert (EW : B2R w = Rmax 0 (B2R (fadd fone p))).
  { cbn [fzero B2R fval] in *. rewrite fval_finite in Hlow by done. unfold Rmax. destruct Rle_dec as [H0|H0].
    - rewrite Hin; [done|done|]. split; [done|by apply flarge_ge].
    - apply Hlow. lra. }
  split; [done|]. rewrite EW.
  assert (Ev2 : Rabs (B2R (fadd fone p) - (1 + y)) <= 8 * uu * (1 + Rabs y)).
  { assert (Hb : uu * Rabs (1 + B2R p) <= uu * (1 + Rabs y + (6 * uu * Rabs y + uu / 500))). { apply Rmult_le_compat_l; [lra|]. apply Rabs_le_inv in Ep3. assert (- Rabs y <= y <= Rabs y) by (apply Rabs_le_inv; lra). apply Rabs_le. lra. }
    assert (uu * (6 * uu * Rabs y + uu / 500) <= uu * (/ 2 * Rabs y + / 500)) by (apply Rmult_le_compat_l; lra). apply Rabs_le_inv in Ev, Ep3. apply Rabs_le. lra. }
  eapply Rle_trans; [|exact Ev2]. unfold Rmax. repeat destruct Rle_dec; apply Rabs_le_inv in Ev2; try (unfold Rminus at 1; rewrite Rplus_opp_r, Rabs_R0; apply Rabs_pos); unfold Rabs; repeat destruct Rcase_abs; lra.
Qed.
Lemma least_val l a b : least l a -> least l b -> B2R a = B2R b.
Proof. intros [A1 A2] [B1 B2]. rewrite Forall_forall in A2, B2. pose proof (A2 b B1). pose proof (B2 a A1). lra. Qed.
Lemma greatest_val l a b : greatest l a -> greatest l b -> B2R a = B2R b.
Proof. intros [A1 A2] [B1 B2]. rewrite Forall_forall in A2, B2. pose proof (A2 b B1). pose proof (B2 a A1). lra. Qed.

(** Boltzmann: the argument of the exponential function. *)
Lemma quot_err (a b : b64) (B : R) : is_finite a = true -> is_finite b = true -> bpow radix2 (-900) <= B <= bpow radix2 1000 -> Rabs (B2R b - B) <= uu * B + hh -> Rabs (B2R a / B) <= bpow radix2 400 ->
  is_finite (fdiv a b) = true /\ B2R (fdiv a b) = rnd (B2R a / B2R b) /\ Rabs (B2R (fdiv a b) - B2R a / B) <= 4 * uu * Rabs (B2R a / B) + hh.
Proof.
  intros Fa Fb HB Hb Ha. pose proof uu_pos as Hu. pose proof hh_small as Hh. pose proof hh_pos as Hh0. pose proof (bpow_gt_0 radix2 (-900)) as Hp.
  assert (HhB : hh <= uu / 1048576 * B). { apply Rle_trans with (bpow radix2 (-73) * bpow radix2 (-900)); [unfold hh; rewrite <- bpow_plus; apply bpow_le; lia|].
    apply Rmult_le_compat; try apply bpow_ge_0; [|lra]. unfold uu. change (-73)%Z with (-53 + -20)%Z. rewrite bpow_plus. replace (bpow radix2 (-20)) with (/ 1048576) by (vm_compute; reflexivity). lra. }
  remember (B2R b) as b' eqn:Eb. assert (Hb2 : Rabs (b' - B) <= (uu + uu / 1048576) * B) by lra. assert (Hbr : B * (1 - 2 * uu) <= b' <= B * (1 + 2 * uu)) by (apply Rabs_le_inv in Hb2; nra).
  assert (Hb0 : 0 < b') by nra. remember (B2R a / B) as x eqn:Ex. assert (Ea : B2R a = x * B) by (subst x; field; lra).
  assert (Eq : Rabs (B2R a / b' - x) <= 2 * uu * Rabs x).
  { rewrite Ea. replace (x * B / b' - x) with (x * ((B - b') / b')) by (field; lra). rewrite Rabs_mult, Rmult_comm. apply Rmult_le_compat_r; [apply Rabs_pos|].
    unfold Rdiv. rewrite Rabs_mult, (Rabs_pos_eq (/ b')) by (left; by apply Rinv_0_lt_compat). apply Rmult_le_reg_r with b'; [lra|]. rewrite Rmult_assoc, Rinv_l, Rmult_1_r by lra.
    rewrite Rabs_minus_sym. eapply Rle_trans; [exact Hb2|]. assert (2 * uu * (B * (1 - 2 * uu)) <= 2 * uu * b') by (apply Rmult_le_compat_l; lra). assert (0 <= uu * B) by (apply Rmult_le_pos; lra). assert (uu * (uu * B) <= / 1048576 * (uu * B)) by (apply Rmult_le_compat_r; lra). lra. }
  pose proof (Rabs_pos x) as Hx0. assert (Huy : 0 <= uu * Rabs x) by (apply Rmult_le_pos; lra). assert (Huy2 : uu * Rabs x <= / 1048576 * Rabs x) by (apply Rmult_le_compat_r; lra).
  assert (Hq : Rabs (B2R a / b') <= 3 / 2 * Rabs x). { apply Rabs_le_inv in Eq. assert (- Rabs x <= x <= Rabs x) by (apply Rabs_le_inv; lra). apply Rabs_le. lra. }
  pose proof (fdiv_finite a b Fa Fb) as G. rewrite <- Eb in G. specialize (G ltac:(lra)).
  destruct (op_err _ _ G) as [F E]. { eapply Rle_trans; [exact Hq|]. apply Rle_trans with (bpow radix2 1 * bpow radix2 400); [change (bpow radix2 1) with 2; lra|]. rewrite <- bpow_plus. apply bpow_le. lia. }
  split; [done|]. split; [by apply fin_rnd|]. assert (uu * Rabs (B2R a / b') <= uu * (3 / 2 * Rabs x)) by (apply Rmult_le_compat_l; lra).
  apply Rabs_le_inv in E, Eq. apply Rabs_le. lra.
Qed.
Lemma boltzmann_values fexp (temperature : b64) (fvec ws : list b64) (m M : b64) i f : Forall (fun f => is_finite f = true) fvec -> least fvec m -> greatest fvec M -> is_finite temperature = true ->
  let D := B2R M - B2R m in let T := B2R temperature in
  bpow radix2 (-900) <= D <= bpow radix2 1000 -> bpow radix2 (-500) <= T <= bpow radix2 500 -> Rabs (B2R f / D) <= bpow radix2 400 -> Rabs (B2R m / D) <= bpow radix2 400 ->
  Boltzmann_weights fexp temperature fvec = Some ws -> fvec !! i = Some f ->
  exists e, ws !! i = Some (fmin flarge (fexp e)) /\ is_finite e = true /\ B2R e = rnd (rnd (rnd (B2R f / rnd D) - rnd (B2R m / rnd D)) / T) /\
    Rabs (B2R e - (B2R f - B2R m) / D / T) <= 8 * uu * (1 + Rabs (B2R f / D) + Rabs (B2R m / D)) / T.
Proof.
  intros Hfin Hm HM FT D T HD HT Hfd Hmd Hws Hfi. assert (Hne : fvec <> []) by (by intros ->). unfold Boltzmann_weights in Hws.
  destruct (fmax_of_ok fvec Hne Hfin) as (M' & EM & HM1 & HM2). destruct (fmin_of_ok fvec Hne Hfin) as (m' & Em & Hm1 & Hm2). rewrite EM, Em in Hws. cbn [mbind option_bind] in Hws.
  assert (EvM : B2R M' = B2R M) by (by apply (greatest_val fvec)). assert (Evm : B2R m' = B2R m) by (by apply (least_val fvec)). clear Hm HM HM2 Hm2 EM Em.
  rewrite Forall_forall in Hfin. pose proof (Hfin M' HM1) as FM. pose proof (Hfin m' Hm1) as Fm. pose proof (Hfin f (elem_of_list_lookup_2 _ _ _ Hfi)) as Ff. destruct fsmall_val as [Fs Vs].
  pose proof uu_pos as Hu. pose proof hh_small as Hh. pose proof hh_pos as Hh0. pose proof (bpow_gt_0 radix2 (-900)) as Hp. pose proof (bpow_gt_0 radix2 (-500)) as Hp5.
  pose proof (fsub_finite M' m' FM Fm) as Gd. rewrite EvM, Evm in Gd. fold D in Gd.
  destruct (op_err _ _ Gd) as [Fd Ed]. { rewrite Rabs_pos_eq by lra. apply Rle_trans with (bpow radix2 1000); [lra|apply bpow_le; lia]. } rewrite (Rabs_pos_eq D) in Ed by lra.
  pose proof (fin_rnd _ _ Fd Gd) as Vd. remember (fsub M' m') as df eqn:Edf.
  assert (Hdf : bpow radix2 (-900) <= B2R df). { rewrite Vd, <- (bpow_fmt (-900)) by lia. apply rnd_mono. lra. }
  destruct (clamp_val df fsmall flarge Fs eq_refl) as (c & Ec & _ & _ & Hc & _); [by apply flarge_ge|by apply is_finite_not_nan|].
  assert (Hsame : c = df). { apply Hc; [done|]. rewrite Vs. split; [|by apply flarge_ge]. assert (bpow radix2 (-1022) <= bpow radix2 (-900)) by (apply bpow_le; lia). lra. }
  rewrite Ec in Hws. cbn [mbind option_bind] in Hws. rewrite Hsame in Hws. injection Hws as <-. clear Ec Hc Hsame c Edf Gd.
  destruct (quot_err f df D Ff Fd HD Ed Hfd) as (Fa & Va & Ea). destruct (quot_err m' df D Fm Fd HD Ed) as (Fb & Vb & Eb); [by rewrite Evm|]. rewrite Evm in Vb, Eb. rewrite Vd in Va, Vb.
  remember (fdiv f df) as a eqn:Eqa. remember (fdiv m' df) as b eqn:Eqb.
  remember (Rabs (B2R f / D)) as x eqn:Ex. remember (Rabs (B2R m / D)) as z eqn:Ez. assert (Hx : 0 <= x) by (subst x; apply Rabs_pos). assert (Hz : 0 <= z) by (subst z; apply Rabs_pos).
  assert (Hux : uu * x <= / 1048576 * x) by (apply Rmult_le_compat_r; lra). assert (Huz : uu * z <= / 1048576 * z) by (apply Rmult_le_compat_r; lra).
  assert (Hux0 : 0 <= uu * x) by (apply Rmult_le_pos; lra). assert (Huz0 : 0 <= uu * z) by (apply Rmult_le_pos; lra).
  assert (Hxb : - x <= B2R f / D <= x) by (apply Rabs_le_inv; lra). assert (Hzb : - z <= B2R m / D <= z) by (apply Rabs_le_inv; lra).
  assert (Hab : Rabs (B2R a - B2R b) <= 2 * x + 2 * z + 2 * hh) by (apply Rabs_le_inv in Ea, Eb; apply Rabs_le; lra).
  assert (Hpow : bpow radix2 400 + bpow radix2 400 = bpow radix2 401) by (change 401%Z with (1 + 400)%Z; rewrite bpow_plus; change (bpow radix2 1) with 2; lra).
  assert (H1p : 1 <= bpow radix2 401) by (change 1 with (bpow radix2 0); apply bpow_le; lia).
  assert (Hpow2 : 4 * bpow radix2 401 = bpow radix2 403) by (change 403%Z with (2 + 401)%Z; rewrite bpow_plus; change (bpow radix2 2) with 4; lra).
  assert (Hp403 : bpow radix2 403 <= bpow radix2 1023) by (apply bpow_le; lia).
  destruct (op_err _ _ (fsub_finite a b Fa Fb)) as [Fn En]; [lra|]. pose proof (fin_rnd _ _ Fn (fsub_finite a b Fa Fb)) as Vn.
  assert (En2 : Rabs (B2R (fsub a b) - (B2R f - B2R m) / D) <= 6 * uu * (x + z) + 4 * hh).
  { assert (uu * Rabs (B2R a - B2R b) <= uu * (2 * x + 2 * z + 2 * hh)) by (apply Rmult_le_compat_l; lra). assert (uu * (2 * hh) <= hh) by nra.
    replace ((B2R f - B2R m) / D) with (B2R f / D - B2R m / D) by (field; lra). apply Rabs_le_inv in En, Ea, Eb. apply Rabs_le. lra. }
  assert (Hn : Rabs (B2R (fsub a b)) <= 2 * x + 2 * z + 4 * hh).
  { replace ((B2R f - B2R m) / D) with (B2R f / D - B2R m / D) in En2 by (field; lra). apply Rabs_le_inv in En2. apply Rabs_le. lra. }
  pose proof (inv_bpow T _ _ HT) as Hinv. change (- (500))%Z with (-500)%Z in Hinv. change (- -500)%Z with 500%Z in Hinv.
  remember (fsub a b) as n eqn:Eqn. pose proof (fdiv_finite n temperature Fn FT ltac:(fold T; lra)) as Ge. fold T in Ge.
  destruct (op_err _ _ Ge) as [Fe Ee].
  { unfold Rdiv. rewrite Rabs_mult, (Rabs_pos_eq (/ T)) by lra. apply Rle_trans with (bpow radix2 403 * bpow radix2 500); [apply Rmult_le_compat; [apply Rabs_pos|lra|lra|lra]|]. rewrite <- bpow_plus. apply bpow_le. lia. }
  exists (fdiv n temperature). split; [rewrite list_lookup_fmap, Hfi; cbn [fmap option_fmap option_map]; by rewrite Eqn, Eqa, Eqb|]. split; [done|].
  split; [rewrite (fin_rnd _ _ Fe Ge), Vn, Va, Vb; done|].
  assert (HhT : hh <= uu / 1048576 * / T). { apply Rle_trans with (bpow radix2 (-73) * bpow radix2 (-500)); [unfold hh; rewrite <- bpow_plus; apply bpow_le; lia|].
    apply Rmult_le_compat; try apply bpow_ge_0; [|lra]. unfold uu. change (-73)%Z with (-53 + -20)%Z. rewrite bpow_plus. replace (bpow radix2 (-20)) with (/ 1048576) by (vm_compute; reflexivity). lra. }
  assert (E1 : Rabs (B2R n / T - (B2R f - B2R m) / D / T) <= (6 * uu * (x + z) + 4 * hh) * / T).
  { replace (B2R n / T - (B2R f - B2R m) / D / T) with ((B2R n - (B2R f - B2R m) / D) * / T) by (field; lra). rewrite Rabs_mult, (Rabs_pos_eq (/ T)) by lra. apply Rmult_le_compat_r; [lra|done]. }
  assert (E2 : uu * Rabs (B2R n / T) <= uu * (2 * x + 2 * z + 4 * hh) * / T).
  { unfold Rdiv. rewrite Rabs_mult, (Rabs_pos_eq (/ T)) by lra. rewrite Rmult_assoc. apply Rmult_le_compat_l; [lra|]. apply Rmult_le_compat_r; [lra|done]. }
  assert (E3 : (6 * uu * (x + z) + 4 * hh) * / T + uu * (2 * x + 2 * z + 4 * hh) * / T + hh <= 8 * uu * (1 + x + z) * / T).
  { assert (uu * (4 * hh) <= hh) by nra. apply Rle_trans with ((6 * uu * (x + z) + 4 * hh + uu * (2 * x + 2 * z + 4 * hh) + uu / 1048576) * / T); [lra|]. apply Rmult_le_compat_r; lra. }
  unfold Rdiv at 3. apply Rabs_le_inv in Ee, E1. apply Rabs_le. lra.
Qed.
