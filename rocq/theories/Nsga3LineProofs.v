(** Proofs about the distances from the reference lines of NSGA-III, /repo/src/algorithm/nsga3.cpp. *)
From Coq Require Import Reals ZArith Lra Lia Psatz.
From stdpp Require Import list list_numbers sets.
From Flocq Require Import Core BinarySingleNaN.
From Verif Require Import FloatBase FloatSpec FrontSpec RealProofs RealErrorProofs SelectionMoreSpec SelectionMoreProofs Nsga3Model Nsga3MoreSpec.
Local Open Scope R_scope.

(** ** Real vectors *)
Lemma rdist2_expand x : forall l t, length l = length x -> rdist2 x t l = rdot x x - 2 * t * rdot x l + t * t * rdot l l.
Proof. induction x as [|p x IH]; intros [|q l] t H; try done; cbn in *; [ring|]. rewrite IH by lia. ring. Qed.
Lemma rdist2_nonneg x : forall l t, 0 <= rdist2 x t l.
Proof.
  induction x as [|p x IH]; intros [|q l] t; cbn [rdist2]; try lra. pose proof (IH l t) as G. pose proof (Rle_0_sqr (p - t * q)) as G2. unfold Rsqr in G2. lra.
Qed.
Lemma rdot_sq x : 0 <= rdot x x.
Proof. induction x as [|p x IH]; cbn; nra. Qed.
Lemma cauchy x l : length l = length x -> 0 < rdot l l -> rdot x l * rdot x l <= rdot x x * rdot l l.
Proof.
  intros Hl Hp. pose proof (rdist2_nonneg x l (rdot x l / rdot l l)) as H. rewrite rdist2_expand in H by done.
  set (X := rdot x x) in *. set (P := rdot x l) in *. set (L := rdot l l) in *.
  replace (X - 2 * (P / L) * P + P / L * (P / L) * L) with (X - P * P / L) in H by (field; lra).
  apply Rmult_le_reg_r with (/ L); [by apply Rinv_0_lt_compat|]. replace (X * L * / L) with X by (field; lra). change (P * P * / L) with (P * P / L). lra.
Qed.
(** The nearest point of the line. *)
Lemma rdist2_min x l t : length l = length x -> 0 < rdot l l -> rdot x x - rdot x l * rdot x l / rdot l l <= rdist2 x t l.
Proof.
  intros Hl Hp. rewrite rdist2_expand by done. set (X := rdot x x). set (P := rdot x l). set (L := rdot l l) in *.
  replace (X - 2 * t * P + t * t * L) with (X - P * P / L + (t * L - P) * (t * L - P) / L) by (field; lra).
  assert (0 <= (t * L - P) * (t * L - P) / L) by (apply Rmult_le_pos; [apply Rle_0_sqr|left; by apply Rinv_0_lt_compat]). lra.
Qed.
Lemma rdist2_foot x l : length l = length x -> 0 < rdot l l -> rdist2 x (rdot x l / rdot l l) l = rdot x x - rdot x l * rdot x l / rdot l l.
Proof. intros Hl Hp. rewrite rdist2_expand by done. field. lra. Qed.
Lemma closest_exact (x lc lj : list R) (t : R) : length lc = length x -> length lj = length x -> rdot lc lc = 1 -> rdot lj lj = 1 ->
  0 <= rdot x lj <= rdot x lc -> rdist2 x (rdot x lc) lc <= rdist2 x t lj.
Proof. intros H1 H2 H3 H4 H5. rewrite !rdist2_expand by done. rewrite H3, H4.
  pose proof (Rle_0_sqr (t - rdot x lj)) as G. unfold Rsqr in G. assert (rdot x lj * rdot x lj <= rdot x lc * rdot x lc) by (apply Rmult_le_compat; lra). lra.
Qed.

(** ** Floating point *)
Notation "'nn' v" := (Forall (fun w : b64 => is_finite w = true /\ 0 <= B2R w) v) (at level 10).
Lemma rdot_nonneg a : forall b, nn a -> nn b -> 0 <= rdot (reals a) (reals b).
Proof.
  induction a as [|x a IH]; intros [|y b] Ha Hb; cbn; try lra. inversion Ha as [|? ? [_ ?] ?]; subst. inversion Hb as [|? ? [_ ?] ?]; subst.
  pose proof (IH b ltac:(done) ltac:(done)). unfold reals in *. nra.
Qed.
Lemma inner_from_err (N T : R) a : forall b acc A k, nn a -> nn b -> length b = length a -> is_finite acc = true -> 0 <= A ->
  A + rdot (reals a) (reals b) <= T -> T <= bpow radix2 1000 -> (0 <= k)%R -> k + IZR (Z.of_nat (length a)) <= N -> N * uu <= / 4096 ->
  Rabs (B2R acc - A) <= 4 * k * (uu * T + hh) ->
  is_finite (inner_from acc a b) = true /\ Rabs (B2R (inner_from acc a b) - (A + rdot (reals a) (reals b))) <= 4 * N * (uu * T + hh).
Proof.
  destruct uu_pos as [Hu Hu2]. destruct hh_pos as [Hh Hh2].
  induction a as [|x a IH]; intros [|y b] acc A k Ha Hb Hl Facc HA HT HTb Hk HkN HN He; try done.
  - cbn [inner_from]. split; [done|]. change (rdot (reals []) (reals [])) with 0 in *. change (IZR (Z.of_nat (length []))) with 0 in HkN. rewrite Rplus_0_r in HT, HkN |- *. eapply Rle_trans; [exact He|].
    assert (HT0 : 0 <= T) by lra. pose proof (Rmult_le_pos uu T ltac:(lra) HT0). apply Rmult_le_compat_r; lra.
  - inversion Ha as [|? ? [Fx Hx] Ha']; subst. inversion Hb as [|? ? [Fy Hy] Hb']; subst. cbn in Hl. injection Hl as Hl.
    cbn [inner_from]. pose proof (rdot_nonneg a b Ha' Hb') as Hr. change (rdot (reals (x :: a)) (reals (y :: b))) with (B2R x * B2R y + rdot (reals a) (reals b)) in *.
    cbn [length] in HkN. rewrite Nat2Z.inj_succ, succ_IZR in HkN. assert (Hlen : 0 <= IZR (Z.of_nat (length a))) by (apply IZR_le; lia).
    set (rr := rdot (reals a) (reals b)) in *. set (n := IZR (Z.of_nat (length a))) in *.
    assert (Hxy : 0 <= B2R x * B2R y <= T) by nra.
    assert (Hbp : bpow radix2 1000 * 8 <= bpow radix2 1023).
    { change 8 with (bpow radix2 3). rewrite <- bpow_plus. apply bpow_le. lia. }
    assert (Hb1 : 1 <= bpow radix2 1000) by (change 1 with (bpow radix2 0); apply bpow_le; lia).
    destruct (op_err _ _ (fmul_finite x y Fx Fy)) as [Fp Ep]; [rewrite Rabs_pos_eq; lra|]. rewrite (Rabs_pos_eq (B2R x * B2R y)) in Ep by lra.
    assert (HkN' : k * uu <= / 4096) by nra.
    set (p := B2R (fmul x y)) in *.
    assert (Hs : Rabs (B2R acc + p) <= 2 * T + hh * (4 * k + 1)).
    { assert (G : Rabs (B2R acc + p - (A + B2R x * B2R y)) <= 4 * k * (uu * T + hh) + (uu * (B2R x * B2R y) + hh)).
      { replace (B2R acc + p - (A + B2R x * B2R y)) with ((B2R acc - A) + (p - B2R x * B2R y)) by ring.
        eapply Rle_trans; [apply Rabs_triang|]. lra. }
      apply Rabs_le_inv in G. apply Rabs_le.
      assert (4 * k * (uu * T + hh) <= T / 1024 + 4 * k * hh) by nra. assert (uu * (B2R x * B2R y) <= T / 1024) by nra. nra. }
    assert (Hkh : hh * (4 * k + 1) <= 1) by nra.
    destruct (op_err _ _ (fadd_finite acc (fmul x y) Facc Fp)) as [Fs Es]; [fold p; lra|]. fold p in Es.
    destruct (IH b (fadd acc (fmul x y)) (A + B2R x * B2R y) (k + 1) Ha' Hb' Hl Fs) as [G1 G2]; try done; try (fold rr; fold n; lra).
    { set (s := B2R (fadd acc (fmul x y))) in *.
      replace (s - (A + B2R x * B2R y)) with ((s - (B2R acc + p)) + (B2R acc - A) + (p - B2R x * B2R y)) by ring.
      eapply Rle_trans; [apply Rabs_triang|]. eapply Rle_trans; [apply Rplus_le_compat_r, Rabs_triang|].
      assert (uu * Rabs (B2R acc + p) <= 2 * (uu * T) + hh / 2) by nra.
      assert (uu * (B2R x * B2R y) <= uu * T) by nra. nra. }
    split; [done|]. replace (A + (B2R x * B2R y + rr)) with (A + B2R x * B2R y + rr) by ring. done.
Qed.
Lemma inner_err a b : nn a -> nn b -> length b = length a -> (Z.of_nat (length a) <= 2 ^ 40)%Z -> rdot (reals a) (reals b) <= bpow radix2 1000 ->
  is_finite (inner a b) = true /\
  Rabs (B2R (inner a b) - rdot (reals a) (reals b)) <= 4 * IZR (Z.of_nat (length a)) * (uu * rdot (reals a) (reals b) + hh).
Proof.
  intros Ha Hb Hl Hn HT. pose proof (rdot_nonneg a b Ha Hb). destruct uu_pos. destruct hh_pos.
  assert (HN : IZR (Z.of_nat (length a)) * uu <= / 4096).
  { pose proof uu_exact. apply IZR_le in Hn. change (IZR (2 ^ 40)) with 1099511627776 in Hn. nra. }
  destruct (inner_from_err (IZR (Z.of_nat (length a))) (rdot (reals a) (reals b)) a b fzero 0 0 Ha Hb Hl) as [G1 G2]; try done; try lra.
  { change (B2R fzero) with 0. rewrite Rminus_0_r, Rabs_R0. lra. }
  rewrite Rplus_0_l in G2. split; [exact G1|exact G2].
Qed.
(** The numbers behind the choice of a line. *)
Lemma choice_bound (X pc pj Lc Lj e eta delta : R) :
  0 <= pc -> 0 <= pj -> 0 <= e <= / 4096 -> 0 <= eta <= e -> 0 <= delta <= / 4 -> Rabs (Lc - 1) <= delta -> Rabs (Lj - 1) <= delta ->
  pj * pj <= X * Lj -> pj * (1 - 4 * e) - 8 * eta <= pc * (1 + 4 * e) ->
  X - pc * pc / Lc <= X - pj * pj / Lj + (3 * delta + 48 * e) * X + 16 * eta.
Proof.
  intros Hpc Hpj He Heta Hd HLc HLj HX H. apply Rabs_le_inv in HLc, HLj.
  assert (H1 : pj * (1 - 8 * e) - 8 * eta <= pc).
  { apply Rmult_le_reg_r with (1 + 4 * e); [lra|]. eapply Rle_trans; [|exact H].
    assert (0 <= e * eta) by (apply Rmult_le_pos; lra). assert (0 <= pj * (e * e)) by (apply Rmult_le_pos; [lra|apply Rmult_le_pos; lra]). lra. }
  assert (H2 : pj * pj * (1 - 16 * e) - 16 * eta * pj <= pc * pc).
  { destruct (Rle_dec (pj * (1 - 8 * e) - 8 * eta) 0) as [Hn|Hn].
    - assert (0 <= pc * pc) by (apply Rmult_le_pos; lra). assert (0 <= pj * e) by (apply Rmult_le_pos; lra).
      assert (pj * (pj * (1 - 16 * e) - 16 * eta) <= 0).
      { rewrite <- (Rmult_0_r pj). apply Rmult_le_compat_l; [lra|]. lra. }
      lra.
    - assert (Q : (pj * (1 - 8 * e) - 8 * eta) * (pj * (1 - 8 * e) - 8 * eta) <= pc * pc) by (apply Rmult_le_compat; lra).
      assert (0 <= pj * pj * (e * e)) by (apply Rmult_le_pos; apply Rmult_le_pos; lra). assert (0 <= eta * eta) by (apply Rmult_le_pos; lra).
      assert (0 <= eta * pj * e) by (apply Rmult_le_pos; [apply Rmult_le_pos; lra|lra]). lra. }
  assert (Hrc : 0 < / Lc <= 4 / 3).
  { split; [apply Rinv_0_lt_compat; lra|]. replace (4 / 3) with (/ (3 / 4)) by field. apply Rinv_le; lra. }
  assert (Hrj : 0 < / Lj) by (apply Rinv_0_lt_compat; lra).
  assert (HQ : 0 <= pj * pj) by (apply Rmult_le_pos; lra).
  assert (HX0 : 0 <= X). { destruct (Rle_dec 0 X) as [?|G]; [done|]. assert (X * Lj < 0 * Lj) by (apply Rmult_lt_compat_r; lra). lra. }
  (* the share of line j *)
  assert (HS : 0 <= pj * pj * / Lj <= X).
  { split; [apply Rmult_le_pos; lra|]. apply Rmult_le_reg_r with Lj; [lra|]. rewrite Rmult_assoc, Rinv_l by lra. lra. }
  assert (HK : pj * pj * (1 - 16 * e) * / Lc - 16 * eta * pj * / Lc <= pc * pc * / Lc).
  { apply Rmult_le_compat_r with (r := / Lc) in H2; [|lra]. lra. }
  assert (HD : pj * pj * / Lj - pj * pj * / Lc <= 3 * delta * X).
  { replace (pj * pj * / Lj - pj * pj * / Lc) with (pj * pj * / Lj * ((Lc - Lj) * / Lc)) by (field; lra).
    assert (G : (Lc - Lj) * / Lc <= 3 * delta).
    { eapply Rle_trans; [apply Rmult_le_compat_r with (r2 := 2 * delta); lra|]. assert (0 <= 2 * delta * (4 / 3 - / Lc)) by (apply Rmult_le_pos; lra). lra. }
    eapply Rle_trans; [apply Rmult_le_compat_l; [lra|exact G]|]. rewrite Rmult_comm. apply Rmult_le_compat_l; lra. }
  assert (HP : pj * pj <= 5 / 4 * X). { assert (X * Lj <= X * (5 / 4)) by (apply Rmult_le_compat_l; lra). lra. }
  assert (HE : 16 * e * (pj * pj) * / Lc <= 27 * e * X).
  { assert (G : 16 * e * (pj * pj) <= 20 * e * X). { assert (0 <= e * (5 / 4 * X - pj * pj)) by (apply Rmult_le_pos; lra). lra. }
    assert (G0 : 0 <= 16 * e * (pj * pj)) by (apply Rmult_le_pos; lra).
    assert (0 <= 16 * e * (pj * pj) * (4 / 3 - / Lc)) by (apply Rmult_le_pos; lra). lra. }
  assert (HT : 16 * eta * pj * / Lc <= 11 * eta + 14 * e * X).
  { assert (Hp2 : pj <= / 2 + 5 / 8 * X). { pose proof (Rle_0_sqr (pj - 1)) as G. unfold Rsqr in G. lra. }
    assert (G0 : 0 <= 16 * eta * pj) by (apply Rmult_le_pos; lra).
    assert (0 <= 16 * eta * pj * (4 / 3 - / Lc)) by (apply Rmult_le_pos; lra).
    assert (eta * pj <= eta * (/ 2 + 5 / 8 * X)) by (apply Rmult_le_compat_l; lra).
    assert (eta * X <= e * X) by (apply Rmult_le_compat_r; lra). assert (0 <= e * X) by (apply Rmult_le_pos; lra). lra. }
  unfold Rdiv. assert (0 <= e * X) by (apply Rmult_le_pos; lra). lra.
Qed.
Definition near_unit (delta : R) (l : list b64) : Prop := Rabs (rdot (reals l) (reals l) - 1) <= delta.
Lemma closest_float (x lc lj : list b64) (delta : R) : nn x -> nn lc -> nn lj -> length lc = length x -> length lj = length x -> (Z.of_nat (length x) <= 2 ^ 40)%Z ->
  rdot (reals x) (reals lc) <= bpow radix2 1000 -> rdot (reals x) (reals lj) <= bpow radix2 1000 -> delta <= / 4 -> near_unit delta lc -> near_unit delta lj ->
  flt (inner x lc) (inner x lj) = false ->
  forall t, rdist2 (reals x) (rdot (reals x) (reals lc) / rdot (reals lc) (reals lc)) (reals lc) <=
    rdist2 (reals x) t (reals lj) + (3 * delta + 48 * (IZR (Z.of_nat (length x)) * uu)) * rdot (reals x) (reals x) + 16 * (IZR (Z.of_nat (length x)) * hh).
Proof.
  intros Hx Hlc Hlj Ec Ej Hn Bc Bj Hd Uc Uj Hlt t. destruct (inner_err x lc) as [Fc Gc]; try done. destruct (inner_err x lj) as [Fj Gj]; try done.
  pose proof (rdot_nonneg x lc Hx Hlc) as Pc. pose proof (rdot_nonneg x lj Hx Hlj) as Pj.
  rewrite flt_fval, !fval_finite in Hlt by (done || by apply is_finite_not_nan). revert Hlt. case Rlt_bool_spec; [done|]. intros Hlt _.
  assert (Rc : length (reals lc) = length (reals x)) by (unfold reals; by rewrite !fmap_length).
  assert (Rj : length (reals lj) = length (reals x)) by (unfold reals; by rewrite !fmap_length).
  destruct uu_pos as [Hu _]. destruct hh_pos as [Hh Hh2].
  assert (Hn0 : 0 <= IZR (Z.of_nat (length x))) by (apply IZR_le; lia).
  assert (HN : IZR (Z.of_nat (length x)) * uu <= / 4096).
  { pose proof uu_exact. apply IZR_le in Hn. change (IZR (2 ^ 40)) with 1099511627776 in Hn. nra. }
  set (n := IZR (Z.of_nat (length x))) in *. unfold near_unit in Uc, Uj.
  assert (Hd0 : 0 <= delta) by (pose proof (Rabs_pos (rdot (reals lc) (reals lc) - 1)); lra).
  pose proof (Rabs_le_inv _ _ Uc) as Uc'. pose proof (Rabs_le_inv _ _ Uj) as Uj'.
  rewrite rdist2_foot by (done || lra).
  assert (HC : rdot (reals x) (reals lj) * rdot (reals x) (reals lj) <= rdot (reals x) (reals x) * rdot (reals lj) (reals lj)) by (apply cauchy; [done|lra]).
  pose proof (rdist2_min (reals x) (reals lj) t Rj ltac:(lra)) as HM.
  apply Rabs_le_inv in Gc, Gj.
  assert (HB : rdot (reals x) (reals x) - rdot (reals x) (reals lc) * rdot (reals x) (reals lc) / rdot (reals lc) (reals lc) <=
    rdot (reals x) (reals x) - rdot (reals x) (reals lj) * rdot (reals x) (reals lj) / rdot (reals lj) (reals lj) + (3 * delta + 48 * (n * uu)) * rdot (reals x) (reals x) + 16 * (n * hh)).
  { apply choice_bound; try done; try lra.
    - split; [apply Rmult_le_pos; lra|done].
    - split; [apply Rmult_le_pos; lra|]. apply Rmult_le_compat_l; lra. }
  lra.
Qed.
