(** Lemmas about the selection operators. *)
From Coq Require Import Reals ZArith Lra Lia.
From stdpp Require Import list list_numbers sets.
From Flocq Require Import Core BinarySingleNaN.
From Verif Require Import StdSort FloatBase FloatModel FloatSpec FloatProofs AlgorithmModel AlgorithmSpec AlgorithmProofs RealCrossoverModel RealSpec RealProofs RealCrossoverProofs
  RandModel RandSpec RandProofs BinomialProofs RandProps SelectionModel SelectionSpec.

Local Open Scope R_scope.

Lemma rnd_int n : (Z.abs n <= 2 ^ 53)%Z -> rnd (IZR n) = IZR n.
Proof. intros H. destruct (fofZ_exact n H) as [H1 H2]. rewrite <- H2. apply rnd_id. Qed.
(** ** Sums of numbers in [0, c]. *)
Lemma fadd_bounded a b (x y : Z) : is_finite a = true -> is_finite b = true -> 0 <= B2R a <= IZR x -> 0 <= B2R b <= IZR y -> (0 <= x + y <= 2 ^ 53)%Z ->
  is_finite (fadd a b) = true /\ B2R (fadd a b) = rnd (B2R a + B2R b) /\ B2R (fadd a b) <= IZR (x + y) /\ B2R a <= B2R (fadd a b) /\ B2R b <= B2R (fadd a b).
Proof.
  intros Fa Fb Ha Hb Hxy. assert (Hs : 0 <= B2R a + B2R b <= IZR (x + y)) by (rewrite plus_IZR; lra).
  assert (Hup : IZR (x + y) <= bpow radix2 53) by (rewrite bpow_IZR by lia; apply IZR_le; lia).
  destruct (fadd_le a b 53 Fa Fb) as (F & V & B); [lia|rewrite Rabs_pos_eq by lra; lra|].
  assert (V' : B2R (fadd a b) = rnd (B2R a + B2R b)).
  { rewrite V. unfold srnd. apply sat_id. assert (rnd (B2R a + B2R b) <= bpow radix2 53) by (rewrite <- (bpow_fmt 53) by lia; apply rnd_mono; lra).
    assert (0 <= rnd (B2R a + B2R b)) by (rewrite <- rnd_0; apply rnd_mono; lra). pose proof (bpow_lt_femax 53 ltac:(lia)). pose proof femax_pos. lra. }
  split; [done|]. split; [done|]. rewrite V'. split_and!.
  - rewrite <- (rnd_int (x + y)) by lia. apply rnd_mono. lra.
  - rewrite <- (rnd_id a) at 1. apply rnd_mono. lra.
  - rewrite <- (rnd_id b) at 1. apply rnd_mono. lra.
Qed.
Lemma sums_bounded l x : sums l x -> (Z.of_nat (length l) <= 2 ^ 53)%Z -> Forall (fun w => is_finite w = true /\ 0 <= B2R w <= 1) l ->
  is_finite x = true /\ 0 <= B2R x <= IZR (Z.of_nat (length l)) /\ Forall (fun w => B2R w <= B2R x) l.
Proof.
  induction 1 as [x|l l1 l2 a b Hp _ IH1 _ IH2]; intros Hl H.
  - apply Forall_cons in H as [[F H] _]. change (IZR (Z.of_nat (length [x]))) with 1. split; [done|]. split; [lra|]. constructor; [lra|constructor].
  - rewrite Hp in H. apply Forall_app in H as [H1 H2]. apply Permutation_length in Hp as Hlen. rewrite app_length in Hlen.
    destruct (IH1 ltac:(lia) H1) as (Fa & Ha & Ma). destruct (IH2 ltac:(lia) H2) as (Fb & Hb & Mb).
    destruct (fadd_bounded a b _ _ Fa Fb Ha Hb ltac:(lia)) as (F & V & Hle & Ga & Gb). split; [done|]. rewrite Hlen, Nat2Z.inj_add. split; [split; [lra|done]|].
    rewrite Hp. apply Forall_app. split; eapply Forall_impl; [exact Ma| |exact Mb|]; cbn; intros; lra.
Qed.
Lemma sums_zero l x : sums l x -> (Z.of_nat (length l) <= 2 ^ 53)%Z -> Forall (fun w => is_finite w = true /\ B2R w = 0) l -> is_finite x = true /\ B2R x = 0.
Proof.
  intros Hs Hl H. assert (H1 : Forall (fun w => is_finite w = true /\ 0 <= B2R w <= 1) l) by (eapply Forall_impl; [exact H|cbn; intros w [? ->]; split; [done|lra]]).
  destruct (sums_bounded l x Hs Hl H1) as (F & _). split; [done|]. clear H1. revert Hl H F.
  induction Hs as [x|l l1 l2 a b Hp Hs1 IH1 Hs2 IH2]; intros Hl H F; [by apply Forall_cons in H as [[_ H] _]|].
  rewrite Hp in H. apply Forall_app in H as [H1 H2]. apply Permutation_length in Hp as Hlen. rewrite app_length in Hlen.
  assert (G : forall k : list b64, Forall (fun w : b64 => is_finite w = true /\ B2R w = 0) k -> Forall (fun w : b64 => is_finite w = true /\ 0 <= B2R w <= 1) k).
  { intros k Hk. eapply Forall_impl; [exact Hk|]. cbn. intros w [? ->]. split; [done|lra]. }
  destruct (sums_bounded l1 a Hs1 ltac:(lia) (G _ H1)) as (Fa & _). destruct (sums_bounded l2 b Hs2 ltac:(lia) (G _ H2)) as (Fb & _).
  specialize (IH1 ltac:(lia) H1 Fa). specialize (IH2 ltac:(lia) H2 Fb).
  destruct (fadd_bounded a b 0 0 Fa Fb) as (_ & V & _); [lra..|lia|]. rewrite V, IH1, IH2, Rplus_0_r. apply rnd_0.
Qed.

(** ** The scan. *)
Lemma scan_from_length f acc l : length (scan_from f acc l) = length l.
Proof. revert acc. induction l as [|w l IH]; intros acc; cbn; [done|]. f_equal. apply IH. Qed.
Lemma scan_length f l : length (inclusive_scan f l) = length l.
Proof. destruct l; cbn; [done|]. f_equal. apply scan_from_length. Qed.
Definition term_ok (f : b64 -> b64) (w : b64) : Prop := is_finite (f w) = true /\ 0 <= B2R (f w) <= 2.
Lemma scan_from_ok f l : forall acc (x : Z), is_finite acc = true -> 0 <= B2R acc <= IZR x -> (0 <= x)%Z -> (x + 2 * Z.of_nat (length l) <= 2 ^ 53)%Z ->
  Forall (term_ok f) l ->
  is_cdf (acc :: scan_from f acc l) /\
  (forall i w, l !! i = Some w -> exists y, scan_from f acc l !! i = Some y /\ B2R (f w) <= B2R y) /\
  (forall i w, l !! i = Some w -> B2R (f w) = 0 -> cdf_weight (acc :: scan_from f acc l) (S i) = 0).
Proof.
  induction l as [|w l IH]; intros acc x Fa Ha Hx Hl H.
  - cbn. split_and!; try done. split; [constructor; [split; [done|lra]|constructor]|]. intros [|i] [|j] a b Hij E1 E2; cbn in *; try done. rewrite E2 in E1. injection E1 as ->. lra.
  - apply Forall_cons in H as [[Fw Hw] H]. cbn [length] in Hl.
    destruct (fadd_bounded acc (f w) x 2 Fa Fw Ha Hw ltac:(lia)) as (F & V & Hle & G1 & G2).
    destruct (IH (fadd acc (f w)) (x + 2)%Z F) as ((C1 & C2) & IHb & IHz); [lra|lia|lia|done|]. cbn [scan_from]. cbn zeta.
    remember (scan_from f (fadd acc (f w)) l) as r eqn:Er. split_and!.
    + split; [constructor; [split; [done|lra]|done]|]. intros [|i] [|j] a b Hij E1 E2; try lia.
      * rewrite E2 in E1. apply (inj Some) in E1. subst. lra.
      * cbn [lookup list_lookup] in E1. apply (inj Some) in E1. subst a. apply Rle_trans with (B2R (fadd acc (f w))); [done|]. apply (C2 0%nat j); [lia|done|exact E2].
      * apply (C2 i j); [lia|exact E1|exact E2].
    + intros [|i] u E; cbn [lookup list_lookup] in E |- *; [apply (inj Some) in E; subst u; by exists (fadd acc (f w))|]. by apply IHb.
    + intros [|i] u E Hz; cbn [lookup list_lookup] in E; [apply (inj Some) in E; subst u|].
      * unfold cdf_weight. cbn [fmap list_fmap nth]. rewrite V, Hz, Rplus_0_r, rnd_id. lra.
      * specialize (IHz i u E Hz). unfold cdf_weight in *. cbn [fmap list_fmap nth] in *. done.
Qed.
Lemma scan_ok f l : l <> [] -> (2 * Z.of_nat (length l) <= 2 ^ 53)%Z -> Forall (term_ok f) l ->
  is_cdf (inclusive_scan f l) /\ exists back, last (inclusive_scan f l) = Some back /\ Forall (fun w => B2R (f w) <= B2R back) l /\
  (forall i w, l !! i = Some w -> B2R (f w) = 0 -> cdf_weight (inclusive_scan f l) i = 0).
Proof.
  intros Hne Hl H. destruct l as [|w l]; [done|]. cbn [length] in Hl. apply Forall_cons in H as [[Fw Hw] H]. cbn [inclusive_scan].
  destruct (scan_from_ok f l (f w) 2 Fw) as (C & Hb & Hz); [lra|lia|lia|done|]. split; [done|].
  destruct (last_is_Some (f w :: scan_from f (f w) l)) as [_ Hlast]. destruct Hlast as [back Hback]; [done|]. exists back. split; [done|].
  assert (Hall : forall i y, (f w :: scan_from f (f w) l) !! i = Some y -> B2R y <= B2R back).
  { intros i y Hy. destruct C as [_ C]. rewrite last_lookup in Hback. eapply C; [|exact Hy|exact Hback]. apply lookup_lt_Some in Hy. lia. }
  split.
  - constructor; [apply (Hall 0%nat); done|]. apply Forall_lookup. intros i u Hu. destruct (Hb i u Hu) as (y & Hy & Hle). apply Rle_trans with (B2R y); [done|]. apply (Hall (S i)). done.
  - intros [|i] u Hu Hzu; cbn [lookup list_lookup] in Hu; [|by apply (Hz i u)]. apply (inj Some) in Hu. subst u. unfold cdf_weight. cbn [fmap list_fmap nth]. lra.
Qed.

(** ** Extreme elements of lists of finite numbers. *)
Lemma flt_finite a b : is_finite a = true -> is_finite b = true -> flt a b = Rlt_bool (B2R a) (B2R b).
Proof. intros Fa Fb. rewrite flt_fval by (by apply is_finite_not_nan). by rewrite !fval_finite. Qed.
Lemma fle_finite a b : is_finite a = true -> is_finite b = true -> fle a b = Rle_bool (B2R a) (B2R b).
Proof. intros Fa Fb. rewrite fle_fval by (by apply is_finite_not_nan). by rewrite !fval_finite. Qed.
Lemma flt_swo l : Forall (fun w => is_finite w = true) l -> swo_on flt l.
Proof.
  intros H. rewrite Forall_forall in H.
  split.
  - intros x Hx. rewrite flt_finite by auto. apply Rlt_bool_false. lra.
  - intros x y z Hx Hy Hz. rewrite !flt_finite by auto. case Rlt_bool_spec; [|done]. intros H1 _. case Rlt_bool_spec; [|done]. intros H2 _. apply Rlt_bool_true. lra.
  - intros x y z Hx Hy Hz. rewrite !flt_finite by auto. case Rlt_bool_spec; [done|]. intros H1 _. case Rlt_bool_spec; [done|]. intros H2 _. apply Rlt_bool_false. lra.
Qed.
Lemma fmax_of_ok l : l <> [] -> Forall (fun w => is_finite w = true) l -> exists m, fmax_of l = Some m /\ m ∈ l /\ Forall (fun w => B2R w <= B2R m) l.
Proof.
  intros Hne H. pose proof (max_element_ok flt (fun x => x) l Hne) as Hm. rewrite list_fmap_id in Hm. specialize (Hm (flt_swo l H)).
  destruct Hm as (m & Hm & Hmax & _). exists m. split; [done|]. pose proof (elem_of_list_lookup_2 _ _ _ Hm) as Hin. split; [done|].
  apply Forall_lookup. intros i w Hw. specialize (Hmax i w Hw). rewrite Forall_forall in H. rewrite flt_finite in Hmax by (eauto using elem_of_list_lookup_2).
  revert Hmax. by case Rlt_bool_spec.
Qed.
Lemma fmin_of_ok l : l <> [] -> Forall (fun w => is_finite w = true) l -> exists m, fmin_of l = Some m /\ m ∈ l /\ Forall (fun w => B2R m <= B2R w) l.
Proof.
  intros Hne H. unfold fmin_of. rewrite min_element_max. pose proof (max_element_ok (fun x y => flt y x) (fun x => x) l Hne) as Hm. rewrite list_fmap_id in Hm.
  specialize (Hm (swo_flip _ _ (flt_swo l H))).
  destruct Hm as (m & Hm & Hmax & _). exists m. split; [done|]. pose proof (elem_of_list_lookup_2 _ _ _ Hm) as Hin. split; [done|].
  apply Forall_lookup. intros i w Hw. specialize (Hmax i w Hw). rewrite Forall_forall in H. rewrite flt_finite in Hmax by (eauto using elem_of_list_lookup_2).
  revert Hmax. by case Rlt_bool_spec.
Qed.

(** ** The distribution of good weights. *)
Lemma fsmall_val : is_finite fsmall = true /\ B2R fsmall = bpow radix2 (-1022).
Proof. destruct (fmk_val 1 (-1022)) as (H1 & H2 & _); [lia|lia|]. split; [done|]. unfold fsmall. rewrite H2. lra. Qed.
Lemma between_ok w : is_finite w = true -> 0 <= B2R w -> between fzero flarge w = true.
Proof.
  intros F H. unfold between. rewrite !fle_finite by done. cbn [fzero B2R]. rewrite Rle_bool_true by done. cbn.
  apply Rle_bool_true. pose proof (flarge_max w F) as G. by rewrite !fval_finite in G.
Qed.
Lemma magnitude x : 0 < x -> exists e : Z, bpow radix2 (e - 1) <= x < bpow radix2 e.
Proof. intros H. destruct (mag radix2 x) as [e He]. exists e. rewrite Rabs_pos_eq in He by lra. apply He. lra. Qed.
Lemma rnd_nonneg x : 0 <= x -> 0 <= rnd x.
Proof. intros H. rewrite <- rnd_0. by apply rnd_mono. Qed.
Lemma srnd_between x (a b : Z) : (-1074 <= a)%Z -> (b <= 1023)%Z -> bpow radix2 a <= x <= bpow radix2 b -> bpow radix2 a <= srnd x <= bpow radix2 b.
Proof.
  intros Ha Hb Hx. assert (Hab : (a <= b)%Z) by (apply (le_bpow radix2); lra).
  rewrite <- (srnd_bpow a) by lia. rewrite <- (srnd_bpow b) by lia. split; apply srnd_mono; lra.
Qed.
Lemma srnd_le_bpow x (b : Z) : (-1074 <= b <= 1023)%Z -> 0 <= x <= bpow radix2 b -> 0 <= srnd x <= bpow radix2 b.
Proof. intros Hb Hx. split; [apply srnd_ge_0; lra|]. rewrite <- (srnd_bpow b) by lia. apply srnd_mono. lra. Qed.
(** A float operation with result [srnd x] below 2^1023. *)
Lemma fin_srnd (r : b64) x (b : Z) : is_nan r = false /\ fval r = srnd x -> (-1074 <= b <= 1023)%Z -> 0 <= x <= bpow radix2 b -> is_finite r = true /\ B2R r = srnd x.
Proof.
  intros [Hn Hv] Hb Hx. pose proof (srnd_le_bpow x b Hb Hx) as G. pose proof (bpow_lt_femax b ltac:(lia)).
  assert (F : is_finite r = true) by (apply finite_of_val; [done|]; rewrite Hv, Rabs_pos_eq; lra). split; [done|]. by rewrite <- fval_finite.
Qed.
Lemma bpow_prod a b c : (a + b = c)%Z -> bpow radix2 a * bpow radix2 b = bpow radix2 c.
Proof. intros <-. by rewrite bpow_plus. Qed.
Lemma ratio_range wmax w : 0 < wmax -> 0 <= w <= wmax -> 0 <= w / wmax <= 1.
Proof.
  intros Hp H. split; [unfold Rdiv; apply Rmult_le_pos; [lra|]; apply Rlt_le, Rinv_0_lt_compat; lra|]. apply Rmult_le_reg_r with wmax; [lra|]. unfold Rdiv. rewrite Rmult_assoc, Rinv_l, Rmult_1_r by lra. lra.
Qed.

Section cdf.
Variable reduce : list b64 -> b64.
Hypothesis reduce_ok : reduce_contract reduce.
Variable ws : list b64.
Hypothesis ws_ne : ws <> [].
Hypothesis ws_len : (Z.of_nat (length ws) <= 2 ^ 40)%Z.
Hypothesis ws_ok : Forall (fun w => is_finite w = true /\ 0 <= B2R w) ws.

Lemma ws_fin : Forall (fun w => is_finite w = true) ws.
Proof. eapply Forall_impl; [exact ws_ok|]. by intros w [? _]. Qed.

Definition cdf_of (wmax : b64) : list b64 :=
  let wsum := reduce ((fun w => fdiv w wmax) <$> ws) in
  let idiv := if is_finite (fdiv fone wsum) then fdiv fone wsum else fone in
  let corr := if is_finite (fdiv fone wsum) then fzero else fdiv fone (nat_to_f (length ws)) in
  inclusive_scan (multiply_add (fdiv idiv wmax) corr) ws.
Lemma weightsToCdf_unfold : exists m, m ∈ ws /\ Forall (fun w => B2R w <= B2R m) ws /\ weightsToCdf reduce ws = Some (cdf_of (fmax fsmall m)).
Proof.
  destruct (fmax_of_ok ws ws_ne ws_fin) as (m & Hm & Hin & Hmax). exists m. split; [done|]. split; [done|]. unfold weightsToCdf. rewrite decide_True by done.
  assert (E : forallb (between fzero flarge) ws = true).
  { apply forallb_forall. intros w Hw. apply elem_of_list_In in Hw. rewrite Forall_forall in ws_ok. destruct (ws_ok w Hw). by apply between_ok. }
  by rewrite E, Hm.
Qed.

(** Some weight is positive and normal. *)
Section positive.
Variable wmax : b64.
Hypothesis F : is_finite wmax = true.
Hypothesis wmax_in : exists m, m ∈ ws /\ B2R m = B2R wmax.
Hypothesis wmax_ge : bpow radix2 (-1022) <= B2R wmax.
Hypothesis wmax_max : Forall (fun w => B2R w <= B2R wmax) ws.

Lemma ratios_ok : Forall (fun w => is_finite w = true /\ 0 <= B2R w <= 1) ((fun w => fdiv w wmax) <$> ws) /\ exists x, x ∈ (fun w => fdiv w wmax) <$> ws /\ B2R x = 1.
Proof.
  pose proof (bpow_gt_0 radix2 (-1022)) as Hp.
  assert (G : forall w, w ∈ ws -> is_finite (fdiv w wmax) = true /\ B2R (fdiv w wmax) = srnd (B2R w / B2R wmax) /\ 0 <= B2R w / B2R wmax <= 1).
  { intros w Hw. rewrite Forall_forall in ws_ok, wmax_max. destruct (ws_ok w Hw) as [Fw Hw0]. specialize (wmax_max w Hw).
    pose proof (ratio_range (B2R wmax) (B2R w) ltac:(lra) ltac:(lra)) as Hr.
    destruct (fin_srnd (fdiv w wmax) (B2R w / B2R wmax) 0) as [G1 G2]; [apply fdiv_finite; [done|done|lra]|lia|change (bpow radix2 0) with 1; lra|]. done. }
  split.
  - apply Forall_fmap, Forall_forall. intros w Hw. destruct (G w Hw) as (G1 & G2 & G3). cbn. split; [done|]. rewrite G2. change 1 with (bpow radix2 0). apply srnd_le_bpow; [lia|done].
  - destruct wmax_in as (m & Hm & Em). exists (fdiv m wmax). split; [apply elem_of_list_fmap; by exists m|]. destruct (G m Hm) as (G1 & G2 & G3). rewrite G2, Em.
    unfold Rdiv. rewrite Rinv_r by lra. change 1 with (bpow radix2 0). apply srnd_bpow. lia.
Qed.
Lemma wsum_ok : let s := reduce ((fun w => fdiv w wmax) <$> ws) in is_finite s = true /\ 1 <= B2R s <= bpow radix2 41.
Proof.
  cbn zeta. destruct ratios_ok as [H1 (x & Hx & Ex)]. remember ((fun w => fdiv w wmax) <$> ws) as l eqn:El.
  assert (Hlen : length l = length ws) by (subst l; apply fmap_length).
  destruct (sums_bounded (fzero :: l) (reduce l) (reduce_ok l)) as (Fs & Hs & Hm).
  - cbn [length]. lia.
  - constructor; [split; [done|cbn; lra]|done].
  - split; [done|]. split.
    + apply Forall_cons in Hm as [_ Hm]. rewrite Forall_forall in Hm. specialize (Hm x Hx). lra.
    + apply Rle_trans with (IZR (Z.of_nat (length (fzero :: l)))); [apply Hs|]. rewrite bpow_IZR by lia. apply IZR_le. cbn [length]. lia.
Qed.
Lemma terms_ok : let q := fdiv (fdiv fone (reduce ((fun w => fdiv w wmax) <$> ws))) wmax in
  is_finite (fdiv fone (reduce ((fun w => fdiv w wmax) <$> ws))) = true /\
  Forall (term_ok (multiply_add q fzero)) ws /\
  (forall w, w ∈ ws -> B2R w = 0 -> B2R (multiply_add q fzero w) = 0) /\
  exists w, w ∈ ws /\ bpow radix2 (-42) <= B2R (multiply_add q fzero w).
Proof.
  cbn zeta. destruct wsum_ok as [Fs Hs]. cbn zeta in Fs, Hs. remember (reduce _) as s eqn:Es. clear Es. destruct fone_val as [F1 V1].
  pose proof (bpow_gt_0 radix2 (-1022)) as Hp.
  assert (Hinv : bpow radix2 (-41) <= 1 / B2R s <= 1).
  { split.
    - apply Rmult_le_reg_r with (B2R s); [lra|]. unfold Rdiv. rewrite Rmult_1_l, Rinv_l by lra. rewrite <- (bpow_prod (-41) 41 0 eq_refl : _ = 1). apply Rmult_le_compat_l; [apply bpow_ge_0|lra].
    - apply ratio_range; lra. }
  pose proof (bpow_gt_0 radix2 (-41)) as Hp41.
  destruct (fin_srnd (fdiv fone s) (1 / B2R s) 0) as [Fi Vi]; [rewrite <- V1; apply fdiv_finite; [done|done|lra]|lia|change (bpow radix2 0) with 1; lra|].
  assert (Hi : bpow radix2 (-41) <= B2R (fdiv fone s) <= 1). { rewrite Vi. apply (srnd_between _ (-41) 0); [lia|lia|]. exact Hinv. }
  split; [done|]. remember (fdiv fone s) as i eqn:Ei. clear Ei.
  destruct (magnitude (B2R wmax)) as (e & He1 & He2); [lra|].
  assert (Hel : (-1021 <= e)%Z). { destruct (Z_lt_le_dec e (-1021)) as [Hlt|]; [|done]. exfalso. assert (bpow radix2 e <= bpow radix2 (-1022)) by (apply bpow_le; lia). lra. }
  assert (Heu : (e <= 1024)%Z).
  { assert (e - 1 < 1024)%Z; [|lia]. apply (lt_bpow radix2). apply Rle_lt_trans with (B2R wmax); [done|]. pose proof (finite_abs_lt wmax F) as G. rewrite Rabs_pos_eq in G by lra. done. }
  pose proof (bpow_gt_0 radix2 e) as Hpe. pose proof (bpow_gt_0 radix2 (e - 1)) as Hpe1. pose proof (bpow_gt_0 radix2 (1 - e)) as Hpe2.
  assert (Hq0 : bpow radix2 (-41 - e) <= B2R i / B2R wmax <= bpow radix2 (1 - e)).
  { split.
    - apply Rmult_le_reg_r with (B2R wmax); [lra|]. unfold Rdiv. rewrite Rmult_assoc, Rinv_l, Rmult_1_r by lra. apply Rle_trans with (bpow radix2 (-41)); [|lra].
      rewrite <- (bpow_prod (-41 - e) e (-41)) by lia. apply Rmult_le_compat_l; [apply bpow_ge_0|lra].
    - apply Rmult_le_reg_r with (B2R wmax); [lra|]. unfold Rdiv. rewrite Rmult_assoc, Rinv_l, Rmult_1_r by lra. apply Rle_trans with 1; [lra|].
      change 1 with (bpow radix2 0). rewrite <- (bpow_prod (1 - e) (e - 1) 0) by lia. apply Rmult_le_compat_l; [lra|done]. }
  destruct (fin_srnd (fdiv i wmax) (B2R i / B2R wmax) (1 - e)) as [Fq Vq]; [apply fdiv_finite; [done|done|lra]|lia|pose proof (bpow_ge_0 radix2 (-41 - e)); lra|].
  assert (Hq : bpow radix2 (-41 - e) <= B2R (fdiv i wmax) <= bpow radix2 (1 - e)) by (rewrite Vq; apply srnd_between; [lia|lia|done]).
  remember (fdiv i wmax) as q eqn:Eq. clear Eq Vq Hq0. pose proof (bpow_ge_0 radix2 (-41 - e)) as Hpq.
  assert (T : forall w, w ∈ ws -> is_finite (multiply_add q fzero w) = true /\ B2R (multiply_add q fzero w) = srnd (B2R q * B2R w) /\ 0 <= B2R (multiply_add q fzero w) <= 2 /\ 0 <= B2R w <= B2R wmax).
  { intros w Hw. rewrite Forall_forall in ws_ok, wmax_max. destruct (ws_ok w Hw) as [Fw Hw0]. specialize (wmax_max w Hw).
    assert (Hpr : 0 <= B2R q * B2R w <= bpow radix2 1).
    { split; [apply Rmult_le_pos; lra|]. rewrite <- (bpow_prod (1 - e) e 1) by lia. apply Rmult_le_compat; lra. }
    destruct (fin_srnd (fmul q w) (B2R q * B2R w) 1) as [Ft Vt]; [by apply fmul_finite|lia|done|].
    pose proof (srnd_le_bpow _ 1 ltac:(lia) Hpr) as Hr. rewrite <- Vt in Hr. change (bpow radix2 1) with 2 in Hr.
    unfold multiply_add. destruct (fadd_bounded (fmul q w) fzero 2 0 Ft eq_refl) as (Fa & Va & _); [lra|cbn; lra|lia|].
    cbn [fzero B2R] in Va. rewrite Rplus_0_r, rnd_id in Va. rewrite Va. split_and!; try done; lra. }
  split; [|split].
  - apply Forall_forall. intros w Hw. destruct (T w Hw) as (T1 & T2 & T3 & _). by split.
  - intros w Hw Hz. destruct (T w Hw) as (_ & T2 & _). rewrite T2, Hz, Rmult_0_r. apply srnd_0.
  - destruct wmax_in as (m & Hm & Em). exists m. split; [done|]. destruct (T m Hm) as (_ & T2 & _). rewrite T2, Em.
    rewrite <- (srnd_bpow (-42)) by lia. apply srnd_mono. rewrite <- (bpow_prod (-41 - e) (e - 1) (-42)) by lia. apply Rmult_le_compat; lra.
Qed.
Lemma positive_cdf : is_cdf (cdf_of wmax) /\ exists back, last (cdf_of wmax) = Some back /\ bpow radix2 (-42) <= B2R back /\
  (forall i w, ws !! i = Some w -> B2R w = 0 -> cdf_weight (cdf_of wmax) i = 0).
Proof.
  destruct terms_ok as (T1 & T2 & T3 & w & Hw & Hge). unfold cdf_of. rewrite T1.
  destruct (scan_ok (multiply_add (fdiv (fdiv fone (reduce ((fun w => fdiv w wmax) <$> ws))) wmax) fzero) ws ws_ne ltac:(lia) T2) as (C & back & Hb & Hm & Hz).
  split; [done|]. exists back. split; [done|]. split; [rewrite Forall_forall in Hm; specialize (Hm w Hw); lra|].
  intros i u Hu Hu0. apply (Hz i u Hu). apply T3; [by eapply elem_of_list_lookup_2|done].
Qed.
End positive.

(** All weights are zero. *)
Lemma zero_cdf : Forall (fun w => B2R w = 0) ws -> is_cdf (cdf_of fsmall) /\ exists back, last (cdf_of fsmall) = Some back.
Proof.
  intros Hz. destruct fsmall_val as [Fs Vs]. destruct fone_val as [F1 V1]. pose proof (bpow_gt_0 radix2 (-1022)) as Hp.
  assert (Hlen0 : (1 <= Z.of_nat (length ws))%Z) by (destruct ws; [done|cbn [length]; lia]).
  assert (Es : is_finite (reduce ((fun w => fdiv w fsmall) <$> ws)) = true /\ B2R (reduce ((fun w => fdiv w fsmall) <$> ws)) = 0).
  { eapply sums_zero; [apply reduce_ok|cbn [length]; rewrite fmap_length; lia|]. constructor; [done|]. apply Forall_fmap, Forall_forall. intros w Hw. cbv [compose].
    rewrite Forall_forall in Hz, ws_ok. specialize (Hz w Hw). destruct (ws_ok w Hw) as [Fw _].
    destruct (fin_srnd (fdiv w fsmall) 0 0) as [G1 G2]; [|lia|split; [lra|apply bpow_ge_0]|by rewrite G2, srnd_0].
    replace 0 with (B2R w / B2R fsmall) at 1 by (rewrite Hz; unfold Rdiv; lra). apply fdiv_finite; [done|done|lra]. }
  unfold cdf_of. remember (reduce _) as s eqn:Es'. clear Es'. destruct Es as [Fsum Vsum].
  assert (E : is_finite (fdiv fone s) = false).
  { unfold fdiv, fone. destruct s as [sg| | |sg m e He]; try done.
    cbn in Vsum. exfalso. apply (F2R_neq_0 radix2 (Float radix2 (cond_Zopp sg (Zpos m)) e)); [by destruct sg|exact Vsum]. }
  rewrite E.
  assert (Hn : is_finite (nat_to_f (length ws)) = true /\ B2R (nat_to_f (length ws)) = IZR (Z.of_nat (length ws))) by (apply fofZ_exact; lia).
  destruct Hn as [Fn Vn]. assert (Hn1 : 1 <= B2R (nat_to_f (length ws))) by (rewrite Vn; apply IZR_le; lia).
  destruct (fin_srnd (fdiv fone (nat_to_f (length ws))) (1 / B2R (nat_to_f (length ws))) 0) as [Fc Vc].
  { rewrite <- V1. apply fdiv_finite; [done|done|lra]. } { lia. } { change (bpow radix2 0) with 1. apply ratio_range; lra. }
  assert (Hc : 0 <= B2R (fdiv fone (nat_to_f (length ws))) <= 1). { rewrite Vc. apply (srnd_le_bpow _ 0); [lia|]. change (bpow radix2 0) with 1. apply ratio_range; lra. }
  remember (fdiv fone (nat_to_f (length ws))) as c eqn:Ec. clear Ec Vc.
  assert (Hq : is_finite (fdiv fone fsmall) = true) by (vm_compute; reflexivity). remember (fdiv fone fsmall) as q eqn:Eq. clear Eq.
  destruct (scan_ok (multiply_add q c) ws ws_ne ltac:(lia)) as (C & back & Hb & _).
  { apply Forall_forall. intros w Hw. rewrite Forall_forall in Hz, ws_ok. specialize (Hz w Hw). destruct (ws_ok w Hw) as [Fw _].
    destruct (fin_srnd (fmul q w) (B2R q * B2R w) 0) as [Fm Vm]; [by apply fmul_finite|lia|rewrite Hz, Rmult_0_r; split; [lra|apply bpow_ge_0]|].
    rewrite Hz, Rmult_0_r, srnd_0 in Vm. unfold term_ok, multiply_add. destruct (fadd_bounded (fmul q w) c 0 1 Fm Fc) as (Fa & Va & Hle & _ & Hge); [lra|lra|lia|].
    change (IZR (0 + 1)) with 1 in Hle. split; [done|lra]. }
  split; [done|by exists back].
Qed.
Lemma good_cdf : good_weights ws ->
  exists cdf back, weightsToCdf reduce ws = Some cdf /\ length cdf = length ws /\ is_cdf cdf /\ last cdf = Some back /\
    ((exists w, w ∈ ws /\ 0 < B2R w) -> bpow radix2 (-42) <= B2R back /\ forall i w, ws !! i = Some w -> B2R w = 0 -> cdf_weight cdf i = 0).
Proof.
  intros [_ Hg]. destruct weightsToCdf_unfold as (m & Hm & Hmax & E). destruct fsmall_val as [Fs Vs]. rewrite Forall_forall in Hmax.
  assert (Fm : is_finite m = true) by (pose proof ws_fin as H; rewrite Forall_forall in H; by apply H).
  destruct Hg as [Hz|(w & Hw & Hge)].
  - assert (Em : fmax fsmall m = fsmall).
    { unfold fmax. rewrite flt_finite by done. rewrite Rlt_bool_false; [done|]. rewrite Forall_forall in Hz. rewrite (Hz m Hm), Vs. apply bpow_ge_0. }
    rewrite Em in E. destruct (zero_cdf Hz) as (C & back & Hb). exists (cdf_of fsmall), back. split; [done|]. split; [apply scan_length|]. split; [done|]. split; [done|].
    intros (w & Hw & Hp). rewrite Forall_forall in Hz. rewrite (Hz w Hw) in Hp. lra.
  - assert (Em : is_finite (fmax fsmall m) = true /\ B2R (fmax fsmall m) = B2R m).
    { split; [by apply fmax_fin|]. unfold fmax. rewrite flt_finite by done. case Rlt_bool_spec; intros H; [done|]. specialize (Hmax w Hw). lra. }
    destruct Em as [Fx Vx]. destruct (positive_cdf (fmax fsmall m)) as (C & back & Hb & Hge2 & Hzero); [done|by exists m|specialize (Hmax w Hw); lra|apply Forall_forall; intros u Hu; rewrite Vx; by apply Hmax|].
    exists (cdf_of (fmax fsmall m)), back. split; [done|]. split; [apply scan_length|]. by split_and!.
Qed.
End cdf.
