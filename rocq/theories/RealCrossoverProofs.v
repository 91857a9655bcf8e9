(** Lemmas for the real coded crossovers: every child's gene is a number before it is
    clamped. *)
From Coq Require Import Reals Lra Lia Psatz.
From stdpp Require Import list.
From Flocq Require Import Core BinarySingleNaN.
From Verif Require Import FloatBase FloatModel FloatSpec FloatProofs RealCrossoverModel RealSpec RealProofs.
Local Open Scope R_scope.

Lemma finite_abs_lt (a : b64) : is_finite a = true -> Rabs (B2R a) < femax.
Proof. intros H. pose proof (fval_finite_bound a H). rewrite fval_finite in * by done. apply Rabs_def1; lra. Qed.

Lemma floatIsEqual_same t : tol_ok t -> forall a b, is_finite a = true -> is_finite b = true -> B2R a = B2R b ->
  floatIsEqual t a b = true.
Proof.
  intros Ht a b Ha Hb E. rewrite (floatIsEqual_val t Ht) by done. rewrite E, Rminus_diag_eq by done.
  rewrite srnd_0, Rabs_R0. apply Rle_bool_true, tolv_nonneg. done.
Qed.

(** A product with a factor in [0, 1] does not overflow. *)
Lemma fmul_unit a x : is_finite a = true -> is_finite x = true -> 0 <= B2R a <= 1 -> is_finite (fmul a x) = true.
Proof.
  intros Ha Hx Hr. destruct (fmul_finite a x Ha Hx) as [Hn Hv]. apply finite_of_val; [done|]. rewrite Hv.
  assert (Hle : Rabs (srnd (B2R a * B2R x)) <= Rabs (B2R x)).
  { destruct (Rle_or_lt 0 (B2R x)) as [Hp|Hp].
    - rewrite (Rabs_pos_eq (srnd _)), (Rabs_pos_eq (B2R x)) by (try done; apply srnd_ge_0; nra).
      rewrite <- (srnd_id x Hx) at 2. apply srnd_mono. nra.
    - rewrite (Rabs_left (B2R x)) by done. rewrite Rabs_left1.
      + apply Ropp_le_contravar. rewrite <- (srnd_id x Hx) at 1. apply srnd_mono. nra.
      + rewrite <- srnd_0. apply srnd_mono. nra. }
  pose proof (finite_abs_lt x Hx). lra.
Qed.

Lemma one_minus a : is_finite a = true -> 0 <= B2R a <= 1 -> is_finite (fsub fone a) = true /\ 0 <= B2R (fsub fone a) <= 1.
Proof.
  intros Ha Hr. destruct fone_val as [H1 H1v]. 
  destruct (fsub_le fone a 0 H1 Ha) as (Hf & Hv & Hle); [lia| |].
  { rewrite H1v. change (bpow radix2 0) with 1 in *. apply Rabs_le. lra. }
  split; [done|]. change (bpow radix2 0) with 1 in *. apply Rabs_le_inv in Hle. split; [|lra].
  rewrite Hv. apply srnd_ge_0. rewrite H1v. lra.
Qed.

Lemma arithmetic_gene_in alpha b x y d : draw alpha -> bounds_ok b -> in_bound b x -> in_bound b y ->
  exists u v, arithmetic_gene alpha b x y d = Some (u, v) /\ in_bound b u /\ in_bound b v.
Proof.
  intros (Ha & _ & Hr) Hb [Hx _] [Hy _]. apply clamp2_in; [done| |].
  all: destruct (one_minus alpha Ha) as [H1 H2]; [lra|].
  all: apply fadd_finite; apply fmul_unit; (done || lra).
Qed.

Lemma wright_gene_in w b x y d : draw w.1 -> draw w.2 ->
  bounded_by (bpow radix2 1022) b \/ (B2R w.1 <> 0 /\ B2R w.2 <> 0) -> bounds_ok b -> in_bound b x -> in_bound b y ->
  exists u v, wright_gene w b x y d = Some (u, v) /\ in_bound b u /\ in_bound b v.
Proof.
  intros (W1 & _ & R1) (W2 & _ & R2) HM Hb [Hx Hxb] [Hy Hyb].
  assert (Hd : is_nan (fsub x y) = false) by (by apply fsub_finite).
  assert (H : forall w, is_finite w = true -> bounded_by (bpow radix2 1022) b \/ B2R w <> 0 -> is_nan (fadd (fmul w (fsub x y)) x) = false).
  { intros v Hv Hc. apply fadd_not_nan; [|by apply is_finite_not_nan|by right].
    destruct Hc as [[M1 M2]|Hc].
    - apply fmul_finite; [done|]. apply (fsub_le x y 1023); [done|done|lia|]. apply Rabs_le_inv in M1, M2.
      replace (bpow radix2 1023) with (bpow radix2 1022 + bpow radix2 1022) by (rewrite (bpow_plus radix2 1022 1 : bpow radix2 1023 = _); change (bpow radix2 1) with 2; lra).
      apply Rabs_le. lra.
    - apply fmul_not_nan; [by apply is_finite_not_nan|done|by left|]. right. by rewrite fval_finite. }
  apply clamp2_in; [done| |]; apply H; (done || tauto).
Qed.

(** Rounding at most doubles. *)
Lemma rnd_double x : Rabs (rnd x) <= 2 * Rabs x.
Proof.
  assert (H : forall x, 0 <= x -> rnd x <= 2 * x).
  { intros y Hy. destruct (Req_dec y 0) as [->|Hnz]; [rewrite rnd_0; lra|].
    destruct (mag radix2 y) as [e He]. specialize (He Hnz). rewrite Rabs_pos_eq in He by done.
    destruct (Z_le_dec (-1074) e) as [Hle|Hgt].
    - apply Rle_trans with (bpow radix2 e).
      + rewrite <- (bpow_fmt e Hle). apply rnd_mono. lra.
      + replace e with ((e - 1) + 1)%Z by lia. rewrite bpow_plus. change (bpow radix2 1) with 2. lra.
    - rewrite (round_N_small_pos radix2 (SpecFloat.fexp 53 1024) _ y e He).
      + lra.
      + unfold SpecFloat.fexp, SpecFloat.emin. lia. }
  destruct (Rle_or_lt 0 x) as [Hx|Hx].
  - rewrite !Rabs_pos_eq; [by apply H|done|]. rewrite <- rnd_0. by apply rnd_mono.
  - rewrite <- (Rabs_Ropp x), <- (Rabs_Ropp (rnd x)), <- rnd_opp. rewrite !Rabs_pos_eq; [apply H; lra|lra|].
    rewrite <- rnd_0. apply rnd_mono. lra.
Qed.
Lemma sat_abs x : Rabs (sat x) <= Rabs x.
Proof.
  pose proof femax_pos. unfold sat, Rmax, Rmin. unfold Rabs.
  repeat destruct (Rle_dec _ _); repeat destruct (Rcase_abs _); lra.
Qed.
Lemma srnd_double x : Rabs (srnd x) <= 2 * Rabs x.
Proof. eapply Rle_trans; [apply sat_abs|]. apply rnd_double. Qed.

(** Operations on numbers that are not too large. *)
Lemma minmax_cases x y : is_finite x = true -> is_finite y = true ->
  (fminmax x y = (x, y) /\ B2R x <= B2R y) \/ (fminmax x y = (y, x) /\ B2R y < B2R x).
Proof.
  intros Hx Hy. unfold fminmax. rewrite flt_fval by (by apply is_finite_not_nan). rewrite !fval_finite by done.
  case Rlt_bool_spec; intros H; [right|left]; split; (done || lra).
Qed.

Lemma bp1023 : bpow radix2 1023 = 2 * bpow radix2 1022.
Proof. rewrite (bpow_plus radix2 1 1022 : bpow radix2 1023 = _). reflexivity. Qed.
Lemma bp1022 : bpow radix2 1022 = 2 * bpow radix2 1021.
Proof. rewrite (bpow_plus radix2 1 1021 : bpow radix2 1022 = _). reflexivity. Qed.
Lemma bp1021 : bpow radix2 1021 = 2 * bpow radix2 1020.
Proof. rewrite (bpow_plus radix2 1 1020 : bpow radix2 1021 = _). reflexivity. Qed.
Lemma bp1020 : bpow radix2 1020 = 4 * bpow radix2 1018.
Proof. rewrite (bpow_plus radix2 2 1018 : bpow radix2 1020 = _). change (bpow radix2 2) with 4. reflexivity. Qed.

(** An interval of moderate size is sampled without overflow. *)
Lemma randomReal_in_ok l u r : is_finite l = true -> is_finite u = true -> draw r -> B2R l <= B2R u ->
  Rabs (B2R l) <= bpow radix2 1022 -> Rabs (B2R u) <= bpow radix2 1022 ->
  exists v, randomReal_in l u r = Some v /\ is_nan v = false.
Proof.
  intros Hl Hu (Hr & _ & Hr1) Hlu Ml Mu. unfold randomReal_in.
  rewrite fle_fval by (by apply is_finite_not_nan). rewrite !fval_finite by done. rewrite Rle_bool_true by done.
  eexists. split; [done|]. apply Rabs_le_inv in Ml, Mu.
  destruct (fsub_le u l 1023 Hu Hl) as (Hf & _ & _); [lia|rewrite bp1023; apply Rabs_le; lra|].
  apply fadd_not_nan; [by apply is_finite_not_nan|by apply fmul_finite|by left].
Qed.
Lemma blx_gene_in M alpha b x y r : is_finite alpha = true -> 0 <= B2R alpha -> bounded_by M b -> (1 + B2R alpha) * M <= bpow radix2 1018 ->
  draw r.1 -> draw r.2 -> bounds_ok b -> in_bound b x -> in_bound b y ->
  exists u v, blx_gene alpha b x y r = Some (u, v) /\ in_bound b u /\ in_bound b v.
Proof.
  intros Ha Ha0 [M1 M2] HM R1 R2 Hb [Hx Hxb] [Hy Hyb]. unfold blx_gene.
  pose proof (bpow_gt_0 radix2 1018) as H1018. apply Rabs_le_inv in M1, M2.
  assert (HM0 : 0 <= M) by lra. assert (HM1 : M <= bpow radix2 1018) by nra.
  assert (H : forall lo hi, is_finite lo = true -> is_finite hi = true -> B2R lo <= B2R hi -> - M <= B2R lo -> B2R hi <= M ->
    let ext := fmul alpha (fsub hi lo) in forall r, draw r ->
    exists v, randomReal_in (fsub lo ext) (fadd hi ext) r = Some v /\ is_nan v = false).
  { intros lo hi Hlo Hhi Hle Hl Hh ext v Hv.
    destruct (fsub_le hi lo 1020 Hhi Hlo) as (Fd & Vd & _); [lia|rewrite bp1020; apply Rabs_le; lra|].
    assert (Hd0 : 0 <= B2R (fsub hi lo)) by (rewrite Vd; apply srnd_ge_0; lra).
    assert (Hd2 : B2R (fsub hi lo) <= 4 * M).
    { pose proof (srnd_double (B2R hi - B2R lo)) as Hd. rewrite <- Vd in Hd. rewrite !Rabs_pos_eq in Hd by lra. lra. }
    assert (Hprod : B2R alpha * B2R (fsub hi lo) <= bpow radix2 1020).
    { rewrite bp1020. assert (B2R alpha * B2R (fsub hi lo) <= B2R alpha * (4 * M)) by nra. nra. }
    destruct (fmul_le alpha (fsub hi lo) 1020 Ha Fd) as (Fe & Ve & Be); [lia|rewrite Rabs_pos_eq by nra; done|].
    fold ext in Fe, Ve, Be. assert (He0 : 0 <= B2R ext) by (rewrite Ve; apply srnd_ge_0; nra).
    apply Rabs_le_inv in Be.
    destruct (fsub_le lo ext 1021 Hlo Fe) as (F1 & V1 & B1); [lia|rewrite bp1021; rewrite bp1020 in *; apply Rabs_le; lra|].
    destruct (fadd_le hi ext 1021 Hhi Fe) as (F2 & V2 & B2); [lia|rewrite bp1021; rewrite bp1020 in *; apply Rabs_le; lra|].
    pose proof bp1022. pose proof (bpow_gt_0 radix2 1021).
    apply randomReal_in_ok; try done; try lra. rewrite V1, V2. apply srnd_mono. lra. }
  destruct (minmax_cases x y Hx Hy) as [[-> Hxy]|[-> Hxy]]; cbn zeta beta iota.
  - destruct (H x y Hx Hy ltac:(lra) ltac:(lra) ltac:(lra) r.1 R1) as (u & -> & Hu). cbn [mbind option_bind].
    destruct (H x y Hx Hy ltac:(lra) ltac:(lra) ltac:(lra) r.2 R2) as (v & -> & Hv). cbn [mbind option_bind]. by apply clamp2_in.
  - destruct (H y x Hy Hx ltac:(lra) ltac:(lra) ltac:(lra) r.1 R1) as (u & -> & Hu). cbn [mbind option_bind].
    destruct (H y x Hy Hx ltac:(lra) ltac:(lra) ltac:(lra) r.2 R2) as (v & -> & Hv). cbn [mbind option_bind]. by apply clamp2_in.
Qed.

(** ** Simulated binary crossover *)
Lemma double_exact (u : b64) : rnd (B2R u * 2) = B2R u * 2.
Proof.
  apply round_generic; [apply valid_rnd_N|].
  assert (H : generic_format radix2 (SpecFloat.fexp 53 1024) (B2R u)) by apply (generic_format_B2R 53 1024).
  apply (FLT_format_generic radix2 (3 - 1024 - 53) 53) in H. destruct H as [[m e] H1 H2 H3].
  apply (generic_format_FLT radix2 (3 - 1024 - 53) 53). exists (Float radix2 m (e + 1)); [|done|cbn in *; lia].
  rewrite H1. unfold F2R. cbn [Fnum Fexp]. rewrite bpow_plus. change (bpow radix2 1) with 2. ring.
Qed.
Lemma fmul_nonneg a b : is_finite a = true -> is_finite b = true -> Bsign a = false -> Bsign b = false -> nonneg (fmul a b).
Proof.
  intros Ha Hb Sa Sb. destruct (fmul_finite a b Ha Hb) as [Hn _]. split; [done|].
  pose proof (Bmult_correct 53 1024 _ _ mode_NE a b) as H. unfold fmul in *. cbn [round_mode] in H. revert H.
  case Rlt_bool_spec; intros _ H.
  - destruct H as (_ & _ & H). rewrite H by done. by rewrite Sa, Sb.
  - cbn in H. apply fval_of_B2SF_inf in H as ->. by rewrite Sa, Sb.
Qed.

Section sbx.
Variable pow : b64 -> b64 -> b64.
Hypothesis Hpow : pow_contract pow.
Variable eta : b64.
Hypothesis Heta : nonneg eta.

Lemma exponent_ok : is_nan (sbx_exponent eta) = false /\ fval (sbx_exponent eta) <= 0.
Proof.
  destruct fone_val as [H1 H1v]. unfold sbx_exponent. rewrite fneg_nan, fneg_val.
  split; [apply fadd_not_nan; [apply Heta|done|by right]|].
  destruct (is_finite eta) eqn:F.
  - destruct (fadd_finite eta fone F H1) as [_ ->]. assert (0 <= srnd (B2R eta + B2R fone)); [|lra]. apply srnd_ge_0.
    pose proof (nonneg_val eta Heta) as H. rewrite fval_finite in H by done. lra.
  - destruct Heta as [Hn Hs]. destruct eta as [|[]| |]; try done.
    assert (E : fadd (B754_infinity false) fone = B754_infinity false) by reflexivity. rewrite E. cbn -[bpow]. pose proof femax_pos. lra.
Qed.

(** beta = 1 + 2 * n / d. *)
Lemma beta_ok n d : is_finite n = true -> is_finite d = true -> 0 <= B2R n <= bpow radix2 1021 -> 0 < B2R d ->
  let beta := fadd fone (fdiv (fmul ftwo n) d) in nonneg beta /\ 1 <= fval beta.
Proof.
  intros Hn Hd Hnb Hd0 beta. destruct fone_val as [H1 H1v]. destruct ftwo_val as [H2 H2v].
  destruct (fmul_le ftwo n 1022 H2 Hn) as (F2 & V2 & _); [lia|rewrite bp1022; rewrite H2v; rewrite Rabs_pos_eq; lra|].
  assert (H20 : 0 <= B2R (fmul ftwo n)) by (rewrite V2; apply srnd_ge_0; rewrite H2v; lra).
  destruct (fdiv_finite (fmul ftwo n) d F2 Hd) as [Nq Vq]; [lra|].
  assert (Hq0 : 0 <= fval (fdiv (fmul ftwo n) d)).
  { rewrite Vq. apply srnd_ge_0. apply Rmult_le_pos; [done|]. apply Rlt_le, Rinv_0_lt_compat, Hd0. }
  assert (Hge : is_nan beta = false /\ 1 <= fval beta).
  { unfold beta. destruct (is_finite (fdiv (fmul ftwo n) d)) eqn:F.
    - destruct (fadd_finite fone _ H1 F) as [-> ->]. split; [done|]. rewrite fval_finite in Hq0 by done.
      replace 1 with (srnd (B2R fone)); [|rewrite srnd_id by done; done]. apply srnd_mono. lra.
    - destruct (fdiv (fmul ftwo n) d) as [|[]| |] eqn:E; try done.
      + cbn -[bpow] in Hq0. pose proof femax_pos. lra.
      + assert (E' : fadd fone (B754_infinity false) = B754_infinity false) by reflexivity. rewrite E'. cbn -[bpow]. split; [done|].
        change 1 with (bpow radix2 0). apply bpow_le. lia. }
  destruct Hge as [Hge1 Hge2]. split; [|done]. apply nonneg_pos; [done|]. lra.
Qed.
(** alpha = 2 - beta^-(eta+1). *)
Lemma alpha_ok beta : nonneg beta -> 1 <= fval beta ->
  let alpha := fsub ftwo (pow beta (sbx_exponent eta)) in is_finite alpha = true /\ 1 <= B2R alpha <= 2.
Proof.
  intros Hb Hb1 alpha. destruct exponent_ok as [E1 E2]. destruct ftwo_val as [H2 H2v]. destruct fone_val as [H1 H1v].
  pose proof (pow_nonneg _ Hpow beta _ Hb E1) as Hp. pose proof (pow_le_1 _ Hpow beta _ Hb E1 Hb1 E2) as Hp1.
  pose proof (nonneg_val _ Hp) as Hp0.
  assert (Fp : is_finite (pow beta (sbx_exponent eta)) = true).
  { apply finite_of_val; [apply Hp|]. rewrite Rabs_pos_eq by done. pose proof (bpow_lt_femax 0 ltac:(lia)). change (bpow radix2 0) with 1 in *. lra. }
  rewrite fval_finite in Hp0, Hp1 by done.
  destruct (fsub_le ftwo _ 1 H2 Fp) as (Fa & Va & Ba); [lia|rewrite H2v; change (bpow radix2 1) with 2; apply Rabs_le; lra|].
  split; [done|]. change (bpow radix2 1) with 2 in Ba. apply Rabs_le_inv in Ba. split; [|unfold alpha; lra].
  unfold alpha. rewrite Va. replace 1 with (srnd (B2R fone)); [|rewrite srnd_id by done; done]. apply srnd_mono. lra.
Qed.
Lemma betaPrime_ok alpha u : is_finite alpha = true -> 1 <= B2R alpha <= 2 -> draw u ->
  nonneg (alphaToBetaPrime pow eta alpha u).
Proof.
  intros Fa Ha (Fu & Su & Hu). destruct exponent_ok as [E1 E2]. destruct ftwo_val as [H2 H2v]. destruct fone_val as [H1 H1v].
  unfold alphaToBetaPrime. destruct (fle u (fdiv fone alpha)).
  - apply (pow_nonneg _ Hpow); [|done]. apply fmul_nonneg; try done. apply Bsign_pos. lra.
  - apply (pow_nonneg _ Hpow); [|done].
    destruct (fmul_le u alpha 1 Fu Fa) as (Fm & Vm & Bm); [lia| |].
    { change (bpow radix2 1) with 2. rewrite Rabs_pos_eq; nra. }
    assert (Hm : 0 <= B2R (fmul u alpha) < 2).
    { split; [rewrite Vm; apply srnd_ge_0; nra|]. apply Rle_lt_trans with (B2R u * 2); [|lra]. rewrite Vm.
      assert (Hg : rnd (B2R u * 2) = B2R u * 2).
      { apply double_exact. }
      assert (Hs : srnd (B2R u * 2) = B2R u * 2).
      { unfold srnd. rewrite Hg. apply sat_id. pose proof (bpow_lt_femax 1 ltac:(lia)). change (bpow radix2 1) with 2 in *. pose proof femax_pos. lra. }
      rewrite <- Hs. apply srnd_mono. nra. }
    destruct (fsub_le ftwo (fmul u alpha) 1 H2 Fm) as (Fs & Vs & Bs); [lia|rewrite H2v; change (bpow radix2 1) with 2; apply Rabs_le; lra|].
    change (bpow radix2 1) with 2 in Bs. apply Rabs_le_inv in Bs.
    assert (Hs0 : 0 < B2R (fsub ftwo (fmul u alpha))).
    { assert (H0 : 0 <= B2R (fsub ftwo (fmul u alpha))) by (rewrite Vs; apply srnd_ge_0; lra).
      destruct (Req_dec (B2R (fsub ftwo (fmul u alpha))) 0) as [E|E]; [|lra]. exfalso. rewrite Vs in E.
      assert (E' : rnd (B2R ftwo - B2R (fmul u alpha)) = 0).
      { revert E. unfold srnd, sat, Rmax, Rmin. pose proof femax_pos. repeat destruct (Rle_dec _ _); lra. }
      apply rnd_minus_eq_0 in E'. lra. }
    destruct (fdiv_finite fone _ H1 Fs) as [Nq Vq]; [lra|]. apply nonneg_pos; [done|]. rewrite Vq.
    apply Rlt_le_trans with (bpow radix2 (-1)); [apply bpow_gt_0|]. rewrite <- (srnd_bpow (-1)) by lia. apply srnd_mono.
    rewrite H1v. change (bpow radix2 (-1)) with (/2). unfold Rdiv. rewrite Rmult_1_l. apply Rinv_le_contravar; lra.
Qed.

Lemma sbx_gene_in t b x y u : tol_ok t -> bounded_by (bpow radix2 1020) b -> draw u.1 -> draw u.2 -> bounds_ok b ->
  in_bound b x -> in_bound b y ->
  exists v w, sbx_gene t pow eta b x y u = Some (v, w) /\ in_bound b v /\ in_bound b w.
Proof.
  intros Ht [M1 M2] U1 U2 Hb Hxb Hyb. pose proof Hxb as [Hx Hxr]. pose proof Hyb as [Hy Hyr]. pose proof Hb as (Hl & Hu & Hlu).
  apply Rabs_le_inv in M1, M2. unfold sbx_gene.
  assert (Hmm : exists lo hi, fminmax x y = (lo, hi) /\ is_finite lo = true /\ is_finite hi = true /\ B2R lo <= B2R hi /\
    B2R (lower b) <= B2R lo /\ B2R hi <= B2R (upper b) /\ (B2R lo < B2R hi -> B2R x <> B2R y)).
  { destruct (minmax_cases x y Hx Hy) as [[-> H]|[-> H]].
    - exists x, y. split_and!; (done || lra).
    - exists y, x. split_and!; (done || lra). }
  destruct Hmm as (lo & hi & -> & Hlo & Hhi & Hle & Hl' & Hu' & Hne).
  destruct (floatIsEqual t hi lo) eqn:Eq; [by exists x, y|].
  assert (Hlt : B2R lo < B2R hi).
  { destruct (Req_dec (B2R lo) (B2R hi)) as [E|E]; [|lra]. exfalso.
    rewrite (floatIsEqual_same t Ht hi lo Hhi Hlo (eq_sym E)) in Eq. done. }
  specialize (Hne Hlt). pose proof (bpow_gt_0 radix2 1020) as Hp.
  assert (Hdiff : forall p q, is_finite p = true -> is_finite q = true -> - bpow radix2 1020 <= B2R p <= bpow radix2 1020 ->
    - bpow radix2 1020 <= B2R q <= bpow radix2 1020 -> is_finite (fsub p q) = true /\ (B2R q <= B2R p -> 0 <= B2R (fsub p q) <= bpow radix2 1021) /\
    (B2R p <> B2R q -> B2R (fsub p q) <> 0)).
  { intros p q Fp Fq Hp' Hq'. destruct (fsub_le p q 1021 Fp Fq) as (F & V & B); [lia|rewrite bp1021; apply Rabs_le; lra|].
    split; [done|]. split.
    - intros Hpq. apply Rabs_le_inv in B. split; [|lra]. rewrite V. apply srnd_ge_0. lra.
    - intros Hpq. rewrite V. intros E. assert (E' : rnd (B2R p - B2R q) = 0).
      { revert E. unfold srnd, sat, Rmax, Rmin. pose proof femax_pos. repeat destruct (Rle_dec _ _); lra. }
      by apply rnd_minus_eq_0 in E'. }
  destruct (Hdiff hi lo) as (Fd & Hd1 & Hd2); try done; try lra. specialize (Hd1 Hle). specialize (Hd2 ltac:(lra)).
  destruct (Hdiff lo (lower b)) as (F1 & Hn1 & _); try done; try lra. specialize (Hn1 Hl').
  destruct (Hdiff (upper b) hi) as (F2 & Hn2 & _); try done; try lra. specialize (Hn2 Hu').
  destruct (Hdiff x y) as (Fxy & _ & Hxy); try done; try lra. specialize (Hxy Hne).
  destruct (fadd_le x y 1021 Hx Hy) as (Fs & _ & _); [lia|rewrite bp1021; apply Rabs_le; lra|].
  destruct fhalf_val as [Fh Hh].
  destruct (beta_ok (fsub lo (lower b)) (fsub hi lo)) as [B1 B1']; try done; [lra|].
  destruct (beta_ok (fsub (upper b) hi) (fsub hi lo)) as [B2 B2']; try done; [lra|].
  destruct (alpha_ok _ B1 B1') as [A1 A1']. destruct (alpha_ok _ B2 B2') as [A2 A2'].
  pose proof (betaPrime_ok _ u.1 A1 A1' U1) as P1. pose proof (betaPrime_ok _ u.2 A2 A2' U2) as P2.
  assert (Fabs : is_finite (fabs (fsub x y)) = true /\ fval (fabs (fsub x y)) <> 0).
  { rewrite fabs_fin, fabs_val, fval_finite by done. split; [done|]. by apply Rabs_no_R0. }
  assert (Hhalf : forall z, is_nan z = false -> is_nan (fmul fhalf z) = false).
  { intros z Hz. apply fmul_not_nan; [done|done|by left|right]. rewrite fval_finite by done. rewrite Hh. lra. }
  assert (Hmul : forall beta, nonneg beta -> is_nan (fmul beta (fabs (fsub x y))) = false).
  { intros beta [Nb _]. apply fmul_not_nan; [done|apply is_finite_not_nan, Fabs|right; apply Fabs|left; apply Fabs]. }
  apply clamp2_in; [done| |].
  - apply Hhalf, fsub_not_nan; [by apply is_finite_not_nan|by apply Hmul|by left].
  - apply Hhalf, fadd_not_nan; [by apply is_finite_not_nan|by apply Hmul|by left].
Qed.
End sbx.
