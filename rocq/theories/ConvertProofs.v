(** Lemmas about the binary encoding of real variables. *)
From Coq Require Import Reals Lra Lia Psatz.
From stdpp Require Import list.
From Flocq Require Import Core BinarySingleNaN Mult_error.
From Verif Require Import FloatBase FloatModel FloatSpec FloatProofs RealCrossoverModel RealSpec RealProofs RealCrossoverProofs RealErrorProofs ConvertModel ConvertSpec.
Import SpecFloat.
Local Open Scope R_scope.

Notation fmt := (generic_format radix2 (fexp 53 1024)).
Definition vb (b : bool) : R := if b then 1 else 0.
Definition V (l : list bool) : R := fold_left (fun a b => rnd (2 * a + vb b)) l 0.
Lemma V_snoc l b : V (l ++ [b]) = rnd (2 * V l + vb b).
Proof. unfold V. by rewrite fold_left_app. Qed.
Lemma number_app l k : number (l ++ k) = (number l * 2 ^ Z.of_nat (length k) + number k)%Z.
Proof.
  induction l as [|b l IH]; [done|]. cbn [app number]. rewrite IH, app_length, Nat2Z.inj_add, Z.pow_add_r by lia. destruct b; ring.
Qed.
Lemma number_snoc l b : number (l ++ [b]) = (2 * number l + (if b then 1 else 0))%Z.
Proof. rewrite number_app. cbn. destruct b; lia. Qed.
Lemma number_range l : (0 <= number l < 2 ^ Z.of_nat (length l))%Z.
Proof.
  induction l as [|b l IH]; [cbn; lia|]. cbn [number length]. rewrite Nat2Z.inj_succ, Z.pow_succ_r by lia. destruct b; lia.
Qed.
Lemma rnd_fmt x : fmt (rnd x).
Proof. apply generic_format_round; [apply fexp_correct; reflexivity|apply valid_rnd_N]. Qed.
Lemma fmt_rnd x : fmt x -> rnd x = x.
Proof. intros H. apply round_generic; [apply valid_rnd_N|done]. Qed.
Lemma fmt_double x : fmt x -> fmt (2 * x).
Proof. intros H. rewrite Rmult_comm. change 2 with (bpow radix2 1). apply (mult_bpow_pos_exact_FLT radix2 (3 - 1024 - 53) 53); [done|lia]. Qed.
Lemma fmt_V l : fmt (V l).
Proof. induction l as [|b l _] using rev_ind; [apply generic_format_0|]. rewrite V_snoc. apply rnd_fmt. Qed.
Lemma fmt_int z : (Z.abs z <= 2 ^ 53)%Z -> fmt (IZR z).
Proof. intros H. destruct (fmk_val z 0 H ltac:(lia)) as (_ & E & _). change (bpow radix2 0) with 1 in E. rewrite Rmult_1_r in E. rewrite <- E. apply generic_format_B2R. Qed.
Lemma rnd_int z : (Z.abs z <= 2 ^ 53)%Z -> rnd (IZR z) = IZR z.
Proof. intros H. by apply fmt_rnd, fmt_int. Qed.
Lemma p53 : IZR (2 ^ 53) = bpow radix2 53. Proof. by rewrite <- IZR_Zpower by lia. Qed.

Lemma V_exact l : (number l <= 2 ^ 53)%Z -> V l = IZR (number l).
Proof.
  induction l as [|b l IH] using rev_ind; [done|]. intros H. rewrite V_snoc. pose proof (number_range l) as R. rewrite number_snoc in *. rewrite IH by (destruct b; lia).
  replace (2 * IZR (number l) + vb b) with (IZR (2 * number l + (if b then 1 else 0))) by (rewrite plus_IZR, mult_IZR; by destruct b). apply rnd_int. destruct b; lia.
Qed.
Lemma vb_range b : 0 <= vb b <= 1. Proof. destruct b; cbn; lra. Qed.
Lemma V_large l : (2 ^ 53 <= number l)%Z -> bpow radix2 53 <= V l.
Proof.
  induction l as [|b l IH] using rev_ind; [cbn; lia|]. intros H. rewrite V_snoc. rewrite <- (bpow_fmt 53) by lia. apply rnd_mono. pose proof (vb_range b). pose proof (bpow_gt_0 radix2 53).
  destruct (Z_le_dec (2 ^ 53) (number l)) as [Hl|Hl]; [specialize (IH Hl); lra|]. rewrite V_exact by lia. rewrite number_snoc in H. rewrite <- p53.
  replace (2 * IZR (number l) + vb b) with (IZR (2 * number l + (if b then 1 else 0))) by (rewrite plus_IZR, mult_IZR; by destruct b). by apply IZR_le.
Qed.
Lemma large_int x : fmt x -> bpow radix2 53 <= x -> exists z, x = IZR z.
Proof.
  intros F H. assert (Hc : (0 <= cexp radix2 (fexp 53 1024) x)%Z).
  { unfold cexp. assert (54 <= mag radix2 x)%Z by (apply mag_ge_bpow; rewrite Rabs_pos_eq; [exact H|pose proof (bpow_gt_0 radix2 53); lra]). unfold SpecFloat.fexp, SpecFloat.emin. lia. }
  rewrite F. unfold F2R. cbn [Fnum Fexp]. rewrite <- (IZR_Zpower radix2) by done. rewrite <- mult_IZR. by eexists.
Qed.
Lemma V_int l : exists z, V l = IZR z.
Proof. destruct (Z_le_dec (number l) (2 ^ 53)) as [H|H]; [eexists; by apply V_exact|]. apply large_int; [apply fmt_V|apply V_large; lia]. Qed.
(** Adding a bit to a large number does not change it. *)
Lemma absorb x b : fmt x -> bpow radix2 53 <= x -> rnd (2 * x + vb b) = 2 * x.
Proof.
  intros F H. pose proof (vb_range b) as B. pose proof (bpow_gt_0 radix2 53). assert (F2 : fmt (2 * x)) by (by apply fmt_double). apply Rle_antisym; [|rewrite <- (fmt_rnd (2 * x)) at 1 by done; apply rnd_mono; lra].
  apply round_N_le_midp; [apply fexp_correct; reflexivity|done|]. rewrite succ_eq_pos by lra.
  assert (4 <= ulp radix2 (fexp 53 1024) (2 * x)); [|lra]. change 4 with (bpow radix2 2). rewrite ulp_neq_0 by lra. apply bpow_le. unfold cexp.
  assert (55 <= mag radix2 (2 * x))%Z. { apply mag_ge_bpow. change (55 - 1)%Z with (1 + 53)%Z. rewrite bpow_plus. change (bpow radix2 1) with 2. rewrite Rabs_pos_eq by lra. lra. }
  unfold SpecFloat.fexp, SpecFloat.emin. lia.
Qed.
Lemma V_mono a : forall b, length a = length b -> (number a <= number b)%Z -> V a <= V b.
Proof.
  induction a as [|x a IH] using rev_ind; intros b Hl Hn.
  - destruct b; [lra|done].

  - destruct b as [|y b _] using rev_ind; [rewrite app_length in Hl; cbn in Hl; lia|]. rewrite !app_length in Hl. cbn in Hl. assert (Hl' : length a = length b) by lia. rewrite !number_snoc in Hn. rewrite !V_snoc.
    pose proof (vb_range x). pose proof (vb_range y).
    destruct (Z_lt_dec (number a) (number b)) as [Hlt|Hge].
    + pose proof (IH b Hl' ltac:(lia)) as Hle. destruct (Rle_lt_or_eq_dec _ _ Hle) as [Hs|He].
      * apply rnd_mono. destruct (V_int a) as [za Ea], (V_int b) as [zb Eb]. rewrite Ea, Eb in *. apply lt_IZR in Hs. assert (IZR za + 1 <= IZR zb) by (rewrite <- plus_IZR; apply IZR_le; lia). lra.
      * assert (Hb : (2 ^ 53 <= number b)%Z). { destruct (Z_le_dec (2 ^ 53) (number b)) as [|Hn']; [done|]. exfalso. rewrite !V_exact in He by lia. apply eq_IZR in He. lia. }
        pose proof (V_large b Hb). rewrite He. rewrite !absorb by (done || apply fmt_V). lra.
    + assert (En : number a = number b) by (destruct x, y; lia). assert (Ev : V a = V b).
      { apply Rle_antisym; [apply IH; [done|lia]|]. clear -Hl' En. assert (a = b) as ->; [|lra]. revert b Hl' En. induction a as [|x a IH]; intros [|y b] Hl En; try done. cbn in Hl, En. injection Hl as Hl. pose proof (number_range a). pose proof (number_range b). rewrite Hl in *. destruct x, y; try lia; f_equal; apply IH; lia || done. }
      rewrite Ev. apply rnd_mono. destruct x, y; cbn; lra || lia.
Qed.
Definition ones (n : nat) : list bool := replicate n true.
Lemma number_ones n : number (ones n) = (2 ^ Z.of_nat n - 1)%Z.
Proof. induction n as [|n IH]; [done|]. unfold ones in *. cbn [replicate number]. rewrite IH, replicate_length, Nat2Z.inj_succ, Z.pow_succ_r by lia. lia. Qed.
Lemma ones_snoc n : ones (S n) = ones n ++ [true].
Proof. unfold ones. by rewrite replicate_S_end. Qed.
Lemma rnd_54 : rnd (bpow radix2 54 - 1) = bpow radix2 54.
Proof.
  destruct (fmk_val 1 54 ltac:(lia) ltac:(lia)) as (F & E & _). rewrite Rmult_1_l in E. destruct fone_val as [F1 E1].
  pose proof (fsub_finite (fmk 1 54) fone F F1) as [N X]. rewrite E, E1 in X.
  assert (S : fsub (fmk 1 54) fone = fmk 1 54) by (apply B2SF_inj; vm_compute; done). rewrite S in X. rewrite fval_finite in X by done. rewrite E in X. unfold srnd in X. rewrite sat_id in X; [done|].
  pose proof (bpow_gt_0 radix2 54). pose proof femax_pos. assert (rnd (bpow radix2 54 - 1) <= bpow radix2 54) by (rewrite <- (bpow_fmt 54) at 2 by lia; apply rnd_mono; lra). assert (0 <= rnd (bpow radix2 54 - 1)) by (rewrite <- rnd_0; apply rnd_mono; assert (1 <= bpow radix2 54) by (change 1 with (bpow radix2 0); apply bpow_le; lia); lra). pose proof (bpow_lt_femax 54 ltac:(lia)). lra.
Qed.
Definition den (n : nat) : R := rnd (bpow radix2 (Z.of_nat n) - 1).
Lemma bpow_IZR n : bpow radix2 (Z.of_nat n) = IZR (2 ^ Z.of_nat n).
Proof. by rewrite <- IZR_Zpower by lia. Qed.
Lemma den_small n : (n <= 53)%nat -> den n = bpow radix2 (Z.of_nat n) - 1.
Proof. intros H. unfold den. rewrite bpow_IZR, <- minus_IZR. apply rnd_int. assert (2 ^ Z.of_nat n <= 2 ^ 53)%Z by (apply Z.pow_le_mono_r; lia). assert (0 < 2 ^ Z.of_nat n)%Z by (apply Z.pow_pos_nonneg; lia). lia. Qed.
Lemma den_large n : (54 <= n)%nat -> den n = bpow radix2 (Z.of_nat n).
Proof.
  intros H. unfold den. destruct (decide (n = 54%nat)) as [->|Hn]; [apply rnd_54|]. apply Rle_antisym; [rewrite <- (bpow_fmt (Z.of_nat n)) at 2 by lia; apply rnd_mono; lra|].
  apply round_N_ge_midp; [apply fexp_correct; reflexivity|rewrite <- bpow_fmt by lia; apply rnd_fmt|]. rewrite pred_bpow. assert (4 <= bpow radix2 (fexp 53 1024 (Z.of_nat n))); [|lra]. change 4 with (bpow radix2 2). apply bpow_le. unfold SpecFloat.fexp, SpecFloat.emin. lia.
Qed.
Lemma V_ones n : V (ones n) = den n.
Proof.
  destruct (decide (n <= 53)%nat) as [Hn|Hn].
  - rewrite den_small by done. rewrite V_exact, number_ones, minus_IZR, bpow_IZR; [done|]. rewrite number_ones. assert (2 ^ Z.of_nat n <= 2 ^ 53)%Z by (apply Z.pow_le_mono_r; lia). lia.
  - rewrite den_large by lia. assert (Hk : exists k, n = (54 + k)%nat) by (exists (n - 54)%nat; lia). destruct Hk as [k ->]. clear Hn. induction k as [|k IH].
    + change (54 + 0)%nat with (S 53). rewrite ones_snoc, V_snoc. rewrite (V_exact (ones 53)) by (rewrite number_ones; lia). rewrite number_ones. change (Z.of_nat 53) with 53%Z. rewrite minus_IZR, p53. replace (2 * (bpow radix2 53 - 1) + vb true) with (bpow radix2 54 - 1); [apply rnd_54|]. change 54%Z with (1 + 53)%Z. rewrite bpow_plus. change (bpow radix2 1) with 2. cbn [vb]. lra.
    + replace (54 + S k)%nat with (S (54 + k)) by lia. rewrite ones_snoc, V_snoc, IH, absorb.
      * rewrite Nat2Z.inj_succ, <- Z.add_1_l, bpow_plus. done.
      * rewrite <- IH. apply fmt_V.
      * apply bpow_le. lia.
Qed.
Lemma V_range l : 0 <= V l <= den (length l).
Proof.
  split.
  - induction l as [|b l IH] using rev_ind; [unfold V; cbn; lra|]. rewrite V_snoc, <- rnd_0. apply rnd_mono. pose proof (vb_range b). lra.
  - rewrite <- V_ones. apply V_mono; [unfold ones; by rewrite replicate_length|]. rewrite number_ones. pose proof (number_range l). lia.
Qed.
Lemma den_range n : (1 <= n)%nat -> 1 <= den n <= bpow radix2 (Z.of_nat n).
Proof.
  intros H. assert (2 <= bpow radix2 (Z.of_nat n)) by (change 2 with (bpow radix2 1); apply bpow_le; lia). split.
  - unfold den. eapply Rle_trans; [right; symmetry; apply (rnd_int 1); lia|]. apply rnd_mono. lra.
  - unfold den. rewrite <- (bpow_fmt (Z.of_nat n)) at 2 by lia. apply rnd_mono. lra.
Qed.
(** The accumulated value is V, without overflow up to 1023 bits. *)
Lemma acc_val l : (length l <= 1023)%nat -> is_finite (accumulate_bits l) = true /\ B2R (accumulate_bits l) = V l.
Proof.
  induction l as [|b l IH] using rev_ind; [done|]. rewrite app_length. cbn [length]. intros Hl. destruct IH as [F E]; [lia|]. unfold accumulate_bits in *. rewrite fold_left_app. cbn [fold_left]. set (a := fold_left _ l fzero) in *.
  assert (R : 0 <= V l <= bpow radix2 (Z.of_nat (length l))). { pose proof (V_range l). destruct (decide (length l = 0%nat)) as [Hz|Hz]; [destruct l; [|done]; unfold V; cbn [fold_left length Z.of_nat]; change (bpow radix2 0) with 1; split; [apply Rle_refl|apply Rle_0_1]|]. pose proof (den_range (length l) ltac:(lia)). lra. }
  pose proof (V_range (l ++ [b])) as R'. rewrite app_length in R'. cbn [length] in R'. pose proof (den_range (length l + 1) ltac:(lia)) as D. rewrite V_snoc in *.
  assert (B : bpow radix2 (Z.of_nat (length l + 1)) = 2 * bpow radix2 (Z.of_nat (length l))) by (rewrite Nat2Z.inj_add, Z.add_comm, bpow_plus; done). pose proof (bpow_lt_femax (Z.of_nat (length l + 1)) ltac:(lia)) as Bl. pose proof femax_pos as Fp.
  destruct ftwo_val as [F2 E2]. destruct (fmul_finite a ftwo F F2) as [N M]. rewrite E, E2, Rmult_comm in M. unfold srnd in M. rewrite (fmt_rnd (2 * V l)) in M by (apply fmt_double, fmt_V). rewrite sat_id in M by lra.
  assert (Fm : is_finite (fmul a ftwo) = true) by (apply finite_of_val; [done|]; rewrite M, Rabs_pos_eq by lra; lra). rewrite fval_finite in M by done.
  assert (Fb : is_finite (fbit b) = true /\ B2R (fbit b) = vb b) by (destruct b; [apply fone_val|done]). destruct Fb as [Fb Eb].
  destruct (fadd_finite (fmul a ftwo) (fbit b) Fm Fb) as [Na Ma]. rewrite M, Eb in Ma. unfold srnd in Ma. rewrite sat_id in Ma by lra.
  assert (Fa : is_finite (fadd (fmul a ftwo) (fbit b)) = true) by (apply finite_of_val; [done|]; rewrite Ma, Rabs_pos_eq by lra; lra). split; [done|]. by rewrite fval_finite in Ma.
Qed.

Lemma srnd_ge_lo x (a : b64) : is_finite a = true -> B2R a <= x -> B2R a <= srnd x.
Proof. intros F H. rewrite <- (srnd_id a F). by apply srnd_mono. Qed.
(** The value of a variable. *)
Definition ratio (bits : list bool) : R := srnd (V bits / den (length bits)).
Definition width (b : bounds) : R := srnd (B2R (upper b) - B2R (lower b)).
Lemma ratio_range bits : (1 <= length bits)%nat -> 0 <= ratio bits <= 1.
Proof.
  intros H. pose proof (V_range bits) as [V0 V1]. pose proof (den_range (length bits) H) as [D _]. unfold ratio. assert (0 < / den (length bits)) by (apply Rinv_0_lt_compat; lra).
  destruct fone_val as [F1 E1]. split; [apply srnd_ge_0, Rmult_le_pos; lra|]. apply Rle_trans with (srnd 1); [|right; rewrite <- E1; by apply srnd_id]. unfold Rdiv. apply srnd_mono. apply Rle_trans with (den (length bits) * / den (length bits)); [apply Rmult_le_compat_r; lra|]. rewrite Rinv_r by lra. lra.
Qed.
Lemma Rabs_of a K : - K <= a <= K -> Rabs a <= K. Proof. apply Rabs_le. Qed.
Lemma convert_var_val pow2 bits b n : pow2_contract pow2 -> (1 <= n <= 1023)%nat -> length bits = n -> bounds_ok b -> bounded_by (bpow radix2 1021) b ->
  let x := convert_var pow2 bits b n in
  is_finite x = true /\ B2R x = srnd (srnd (ratio bits * width b) + B2R (lower b)) /\
  is_finite (fsub (upper b) (lower b)) = true /\ B2R (fsub (upper b) (lower b)) = width b /\ 0 <= width b <= bpow radix2 1022 /\
  is_finite (fadd (fsub (upper b) (lower b)) (lower b)) = true /\ B2R (fadd (fsub (upper b) (lower b)) (lower b)) = srnd (width b + B2R (lower b)).
Proof.
  intros Hp Hn Hl (Fl & Fu & Hlu) [Bl Bu] x. pose proof (ratio_range bits ltac:(lia)) as Q. apply Rabs_le_inv in Bl, Bu.
  assert (P2 : bpow radix2 1022 = 2 * bpow radix2 1021) by (change 1022%Z with (1 + 1021)%Z; by rewrite bpow_plus). assert (P3 : bpow radix2 1023 = 2 * bpow radix2 1022) by (change 1023%Z with (1 + 1022)%Z; by rewrite bpow_plus). pose proof (bpow_gt_0 radix2 1021) as P0.
  destruct (acc_val bits ltac:(lia)) as [Fa Ea]. specialize (Hp n). destruct (decide (n < 1024)%nat) as [_|]; [|lia]. destruct Hp as [Fp Ep]. destruct fone_val as [F1 E1].
  pose proof (den_range n ltac:(lia)) as D. pose proof (bpow_lt_femax (Z.of_nat n) ltac:(lia)) as BL. pose proof femax_pos as FP.
  destruct (fsub_finite (pow2 n) fone Fp F1) as [Nd Ed]. rewrite Ep, E1 in Ed. unfold srnd in Ed. fold (den n) in Ed. rewrite sat_id in Ed by lra.
  assert (Fd : is_finite (fsub (pow2 n) fone) = true) by (apply finite_of_val; [done|]; rewrite Ed, Rabs_pos_eq by lra; lra). rewrite fval_finite in Ed by done.
  destruct (fdiv_finite (accumulate_bits bits) (fsub (pow2 n) fone) Fa Fd ltac:(lra)) as [Nq Eq]. rewrite Ea, Ed in Eq. rewrite <- Hl in Eq. fold (ratio bits) in Eq. rewrite Hl in Eq.
  assert (L1 : 1 < femax) by (change 1 with (bpow radix2 0); apply bpow_lt; lia). assert (Fq : is_finite (fdiv (accumulate_bits bits) (fsub (pow2 n) fone)) = true) by (apply finite_of_val; [done|]; rewrite Eq, Rabs_pos_eq by lra; lra). rewrite fval_finite in Eq by done.
  destruct (fsub_le (upper b) (lower b) 1022 Fu Fl ltac:(lia) ltac:(apply Rabs_of; lra)) as (Fw & Ew & Lw). fold (width b) in Ew. rewrite Ew in Lw.
  assert (W0 : 0 <= width b) by (apply srnd_ge_0; lra). rewrite Rabs_pos_eq in Lw by done.
  assert (M1 : 0 <= ratio bits * width b) by (apply Rmult_le_pos; lra). assert (M2 : ratio bits * width b <= 1 * width b) by (apply Rmult_le_compat_r; lra).
  destruct (fmul_le (fdiv (accumulate_bits bits) (fsub (pow2 n) fone)) (fsub (upper b) (lower b)) 1022 Fq Fw ltac:(lia) ltac:(rewrite Eq, Ew; apply Rabs_of; lra)) as (Fm & Em & Lm). rewrite Eq, Ew in Em. apply Rabs_le_inv in Lm.
  destruct (fadd_le (fmul (fdiv (accumulate_bits bits) (fsub (pow2 n) fone)) (fsub (upper b) (lower b))) (lower b) 1023 Fm Fl ltac:(lia) ltac:(apply Rabs_of; lra)) as (Fx & Ex & _). rewrite Em in Ex.
  destruct (fadd_le (fsub (upper b) (lower b)) (lower b) 1023 Fw Fl ltac:(lia) ltac:(rewrite Ew; apply Rabs_of; lra)) as (Ft & Et & _). rewrite Ew in Et. subst x. unfold convert_var. done.
Qed.
Lemma convert_var_mono pow2 bits bits' b n : pow2_contract pow2 -> (1 <= n <= 1023)%nat -> length bits = n -> length bits' = n -> bounds_ok b -> bounded_by (bpow radix2 1021) b ->
  (number bits <= number bits')%Z -> B2R (convert_var pow2 bits b n) <= B2R (convert_var pow2 bits' b n).
Proof.
  intros Hp Hn Hl Hl' Hb Hw H. destruct (convert_var_val pow2 bits b n Hp Hn Hl Hb Hw) as (_ & E & _ & _ & [W _] & _). destruct (convert_var_val pow2 bits' b n Hp Hn Hl' Hb Hw) as (_ & E' & _). rewrite E, E'.
  apply srnd_mono, Rplus_le_compat_r, srnd_mono, Rmult_le_compat_r; [done|]. unfold ratio. rewrite Hl, Hl'. apply srnd_mono. unfold Rdiv. pose proof (den_range n ltac:(lia)). apply Rmult_le_compat_r; [left; apply Rinv_0_lt_compat; lra|]. apply V_mono; [congruence|done].
Qed.
Lemma convert_var_zero pow2 bits b n : pow2_contract pow2 -> (1 <= n <= 1023)%nat -> length bits = n -> bounds_ok b -> bounded_by (bpow radix2 1021) b -> number bits = 0%Z -> B2R (convert_var pow2 bits b n) = B2R (lower b).
Proof.
  intros Hp Hn Hl Hb Hw H. destruct (convert_var_val pow2 bits b n Hp Hn Hl Hb Hw) as (_ & E & _). rewrite E. unfold ratio. rewrite V_exact, H by lia. unfold Rdiv. rewrite Rmult_0_l, srnd_0, Rmult_0_l, srnd_0, Rplus_0_l. apply srnd_id. apply Hb.
Qed.
Lemma number_ones_only bits : number bits = (2 ^ Z.of_nat (length bits) - 1)%Z -> bits = ones (length bits).
Proof.
  induction bits as [|b l IH]; [done|]. intros H. cbn [number length] in H. rewrite Nat2Z.inj_succ, Z.pow_succ_r in H by lia. pose proof (number_range l) as R. destruct b; [|lia]. cbn [length]. unfold ones. cbn [replicate]. f_equal. apply IH. lia.
Qed.
Lemma convert_var_ones pow2 bits b n : pow2_contract pow2 -> (1 <= n <= 1023)%nat -> length bits = n -> bounds_ok b -> bounded_by (bpow radix2 1021) b -> number bits = (2 ^ Z.of_nat n - 1)%Z -> B2R (convert_var pow2 bits b n) = B2R (fadd (fsub (upper b) (lower b)) (lower b)).
Proof.
  intros Hp Hn Hl Hb Hw H. destruct (convert_var_val pow2 bits b n Hp Hn Hl Hb Hw) as (_ & E & F & E1 & _ & _ & ET). rewrite E, ET. rewrite <- Hl in H. apply number_ones_only in H. unfold ratio. rewrite H at 1. rewrite V_ones. rewrite Hl. pose proof (den_range n ltac:(lia)). unfold Rdiv. rewrite Rinv_r by lra.
  destruct fone_val as [F1 Eo]. replace (srnd 1) with 1; [|rewrite <- Eo; symmetry; by apply srnd_id]. rewrite Rmult_1_l. do 2 f_equal. rewrite <- E1. by apply srnd_id.
Qed.
Lemma block_length n bits i k : length bits = (n * k)%nat -> (i < k)%nat -> length (block n bits i) = n.
Proof. intros H Hi. unfold block. rewrite take_length, drop_length, H. nia. Qed.
Lemma convert_lookup pow2 bits bs n xs : convert pow2 bits bs n = Some xs -> length bits = (n * length bs)%nat /\ length xs = length bs /\
  forall i b, bs !! i = Some b -> xs !! i = Some (convert_var pow2 (block n bits i) b n) /\ length (block n bits i) = n.
Proof.
  unfold convert. destruct (decide _) as [Hl|]; [|done]. intros E. injection E as <-. split; [done|]. split; [by rewrite imap_length|]. intros i b Hb. rewrite list_lookup_imap, Hb. cbn. split.
  - unfold block. do 2 f_equal. f_equal. lia.
  - apply (block_length n bits i (length bs) Hl). by eapply lookup_lt_Some.
Qed.
Lemma zero_cases (x : b64) : is_finite x = true -> B2R x = 0 -> exists s, x = B754_zero s.
Proof.
  destruct x as [s| | |s m e Hb]; try done; [by eexists|]. intros _ H. exfalso. cbn in H. apply (eq_0_F2R radix2) in H. destruct s; done.
Qed.
Lemma acc_snoc l b : accumulate_bits (l ++ [b]) = fadd (fmul (accumulate_bits l) ftwo) (fbit b).
Proof. unfold accumulate_bits. by rewrite fold_left_app. Qed.
Lemma acc_inf n : (1024 <= n)%nat -> accumulate_bits (ones n) = finf.
Proof.
  intros H. assert (Hk : exists m k, m = 1023%nat /\ n = (S m + k)%nat) by (exists 1023%nat, (n - 1024)%nat; split; [done|lia]). destruct Hk as (m & k & Hm & ->). clear H. induction k as [|k IH].
  - rewrite Nat.add_0_r, ones_snoc, acc_snoc. destruct (acc_val (ones m)) as [F E]; [unfold ones; rewrite replicate_length; lia|]. rewrite V_ones, den_large in E by lia.
    destruct ftwo_val as [F2 E2]. destruct (fmul_finite _ ftwo F F2) as [N M]. rewrite E, E2 in M. replace (bpow radix2 (Z.of_nat m) * 2) with femax in M by (change 1024%Z with (1 + 1023)%Z; rewrite bpow_plus; change (bpow radix2 1) with 2; rewrite Hm; change (Z.of_nat 1023) with 1023%Z; apply Rmult_comm).
    assert (S : srnd femax = femax) by (unfold srnd; rewrite bpow_fmt by lia; apply sat_id; pose proof femax_pos; lra). rewrite S in M. apply fval_inj_inf in M; [|done]. rewrite M. done.
  - replace (S m + S k)%nat with (S (S m + k)) by lia. rewrite ones_snoc, acc_snoc, IH. done.
Qed.
(** The rounding error of a variable of at most 53 bits. *)
Lemma convert_var_near pow2 bits b n : pow2_contract pow2 -> (1 <= n <= 53)%nat -> length bits = n -> bounds_ok b -> bounded_by (bpow radix2 1021) b ->
  Rabs (B2R (convert_var pow2 bits b n) - exact_var bits b) <= 8 * uu * (Rabs (B2R (lower b)) + Rabs (B2R (upper b))) + 8 * hh.
Proof.
  intros Hp Hn Hl Hb Hw. destruct (convert_var_val pow2 bits b n Hp ltac:(lia) Hl Hb Hw) as (_ & E & _ & _ & [W0 W1] & _). rewrite E. unfold exact_var.
  pose proof (ratio_range bits ltac:(lia)) as Q. destruct Hw as [Bl Bu]. destruct Hb as (_ & _ & Hlu). pose proof (number_range bits) as NR. rewrite Hl in NR.
  assert (P2 : bpow radix2 1022 = 2 * bpow radix2 1021) by (change 1022%Z with (1 + 1021)%Z; by rewrite bpow_plus). assert (P3 : bpow radix2 1023 = 2 * bpow radix2 1022) by (change 1023%Z with (1 + 1022)%Z; by rewrite bpow_plus). pose proof (bpow_gt_0 radix2 1021) as P0.
  assert (ER : forall v, Rabs v <= bpow radix2 1023 -> Rabs (srnd v - v) <= uu * Rabs v + hh).
  { intros v Hv. assert (Es : srnd v = rnd v); [|rewrite Es; apply rnd_err]. unfold srnd. apply sat_id. pose proof (bpow_lt_femax 1023 ltac:(lia)). apply Rabs_le_inv in Hv. split; [apply Rle_trans with (- bpow radix2 1023); [lra|]; rewrite <- (bpow_fmt 1023), <- rnd_opp by lia; apply rnd_mono; lra|apply Rle_trans with (bpow radix2 1023); [|lra]; rewrite <- (bpow_fmt 1023) by lia; apply rnd_mono; lra]. }
  assert (N53 : (2 ^ Z.of_nat n <= 2 ^ 53)%Z) by (apply Z.pow_le_mono_r; lia). set (q := IZR (number bits) / (2 ^ length bits - 1)). assert (Eq : V bits / den (length bits) = q).
  { rewrite V_exact by lia. rewrite den_small by lia. unfold q. do 2 f_equal. rewrite bpow_IZR. rewrite <- (pow_IZR 2). done. }
  assert (Dp : 1 <= 2 ^ length bits - 1) by (assert (2 ^ 1 <= 2 ^ length bits) by (apply Rle_pow; [lra|lia]); lra).
  assert (Q' : 0 <= q <= 1). { assert (I : 0 < / (2 ^ length bits - 1)) by (apply Rinv_0_lt_compat; lra). unfold q, Rdiv. split; [apply Rmult_le_pos; [apply IZR_le; lia|lra]|]. apply Rle_trans with ((2 ^ length bits - 1) * / (2 ^ length bits - 1)); [|rewrite Rinv_r by lra; lra]. apply Rmult_le_compat_r; [lra|]. rewrite Hl. replace (2 ^ n - 1) with (IZR (2 ^ Z.of_nat n - 1)) by (rewrite minus_IZR, <- (pow_IZR 2); done). apply IZR_le. lia. }
  unfold ratio in *. rewrite Eq in *. set (r := srnd q) in *. set (w := width b) in *. set (lo := B2R (lower b)) in *. set (up := B2R (upper b)) in *. pose proof uu_pos as [U0 U1]. pose proof hh_pos as [H0 H1].
  assert (B1 : 1 <= bpow radix2 1021) by (change 1 with (bpow radix2 0); apply bpow_le; lia).
  set (S := Rabs lo + Rabs up). assert (SL : Rabs lo <= S /\ Rabs up <= S) by (unfold S; pose proof (Rabs_pos lo); pose proof (Rabs_pos up); lra). set (D := up - lo). assert (HD : 0 <= D <= S). { unfold D, S. pose proof (Rle_abs up). pose proof (Rle_abs (- lo)) as A. rewrite Rabs_Ropp in A. lra. }
  assert (SB : S <= bpow radix2 1022) by (unfold S; lra).
  pose proof (ER q ltac:(rewrite Rabs_pos_eq by lra; lra)) as e1. rewrite (Rabs_pos_eq q) in e1 by lra. fold r in e1. apply Rabs_le_inv in e1.
  pose proof (ER D ltac:(rewrite Rabs_pos_eq by lra; lra)) as e2. rewrite (Rabs_pos_eq D) in e2 by lra. change (srnd D) with w in e2. apply Rabs_le_inv in e2.
  assert (RW : 0 <= r * w <= w) by (split; [apply Rmult_le_pos; lra|assert (r * w <= 1 * w) by (apply Rmult_le_compat_r; lra); lra]).
  pose proof (ER (r * w) ltac:(rewrite Rabs_pos_eq by lra; lra)) as e3. rewrite (Rabs_pos_eq (r * w)) in e3 by lra. apply Rabs_le_inv in e3. set (p := srnd (r * w)) in *.
  assert (Uw : uu * w <= uu * (S * (1 + uu) + hh)) by (apply Rmult_le_compat_l; [lra|]; assert (uu * D <= uu * S) by (apply Rmult_le_compat_l; lra); lra).
  assert (US : uu * S <= / 1048576 * S) by (apply Rmult_le_compat_r; lra). assert (UUS : uu * (uu * S) <= uu * (/ 1048576 * S)) by (apply Rmult_le_compat_l; lra). assert (Uh : uu * hh <= / 1048576 * hh) by (apply Rmult_le_compat_r; lra). assert (US0 : 0 <= uu * S) by (apply Rmult_le_pos; lra).
  assert (w3 : uu * (r * w) <= uu * w) by (apply Rmult_le_compat_l; lra).
  assert (Bp : Rabs (p + lo) <= 3 * S + 3 * hh). { assert (uu * D <= uu * S) by (apply Rmult_le_compat_l; lra). apply Rabs_le_inv in Bl. destruct SL as [SL _]. apply Rabs_le_inv in SL. apply Rabs_of. lra. }
  assert (hhb : hh <= 1) by lra.
  assert (Bp' : Rabs (p + lo) <= bpow radix2 1023).
  { assert (Lp : Rabs p <= bpow radix2 1022) by (apply srnd_abs_le; [lia|]; rewrite Rabs_pos_eq by lra; lra). eapply Rle_trans; [apply Rabs_triang|]. lra. }
  pose proof (ER (p + lo) Bp') as e4. assert (u4 : uu * Rabs (p + lo) <= uu * (3 * S + 3 * hh)) by (apply Rmult_le_compat_l; lra). apply Rabs_le_inv in e4.
  assert (m1 : - (uu * w + hh * w) <= (r - q) * w <= uu * w + hh * w). { assert (- (uu + hh) <= r - q <= uu + hh). { assert (uu * q <= uu * 1) by (apply Rmult_le_compat_l; lra). lra. } split; [replace (- (uu * w + hh * w)) with (- (uu + hh) * w) by ring|replace (uu * w + hh * w) with ((uu + hh) * w) by ring]; apply Rmult_le_compat_r; lra. }
  assert (hw : hh * w <= / 1024 * (uu * w)). { assert (hh <= / 1024 * uu); [|replace (/ 1024 * (uu * w)) with (/ 1024 * uu * w) by ring; apply Rmult_le_compat_r; lra]. unfold hh, uu. change (/ 1024) with (bpow radix2 (-10)). rewrite <- bpow_plus. apply bpow_le. lia. }
  assert (m2 : - (uu * S + hh) <= q * (w - D) <= uu * S + hh). { assert (uu * D <= uu * S) by (apply Rmult_le_compat_l; lra). apply Rabs_le_inv. rewrite Rabs_mult, (Rabs_pos_eq q) by lra. apply Rle_trans with (1 * (uu * S + hh)); [|lra]. apply Rmult_le_compat; [lra|apply Rabs_pos|lra|]. apply Rabs_of. lra. }
  apply Rabs_of. replace (srnd (p + lo) - (lo + q * D)) with ((srnd (p + lo) - (p + lo)) + (p - r * w) + (r - q) * w + q * (w - D)) by ring. lra.
Qed.
