(** Lemmas about the population statistics. *)
From Coq Require Import Reals ZArith Lia Lra.
From Flocq Require Import Core BinarySingleNaN Plus_error Relative.
From stdpp Require Import list list_numbers sets.
From Verif Require Import FloatBase FloatModel FloatSpec FloatProofs AlgorithmModel RealSpec RealProofs StatsModel StatsSpec.

Lemma elementwise_Some (f : b64 -> b64 -> b64) a : forall r, length a = length r ->
  exists p, elementwise f a r = Some p /\ length p = length a /\ forall k x y, a !! k = Some x -> r !! k = Some y -> p !! k = Some (f x y).
Proof.
  induction a as [|x a IH]; intros [|y r] H; try discriminate.
  - exists []. split; [done|]. split; [done|]. intros k x y Hx. done.
  - injection H as H. destruct (IH r H) as (p & Hp & Hl & Hk). exists (f x y :: p). cbn. rewrite Hp. cbn. split; [done|]. split; [by rewrite Hl|].
    intros [|k] x' y' Hx Hy; cbn in *; [congruence|]. by apply Hk.
Qed.
Lemma rows_loop_Some (f : b64 -> b64 -> b64) m : forall a, Forall (fun r => length r = length a) m ->
  exists p, rows_loop f m a = Some p /\ length p = length a /\ forall k x, a !! k = Some x -> p !! k = Some (fold_left f (objective k m) x).
Proof.
  induction m as [|r m IH]; intros a Hm.
  - exists a. done.
  - apply Forall_cons in Hm as [Hr Hm]. destruct (elementwise_Some f a r) as (b & Hb & Hl & Hk); [done|].
    destruct (IH b) as (p & Hp & Hpl & Hpk); [rewrite Hl; done|]. exists p. unfold rows_loop in *. cbn [fold_left mbind option_bind]. rewrite Hb.
    split; [done|]. split; [congruence|]. intros k x Hx.
    destruct (lookup_lt_is_Some_2 r k) as [y Hy]; [rewrite Hr; by apply lookup_lt_Some in Hx|].
    rewrite (Hpk k (f x y)) by (by apply Hk). unfold objective. cbn [omap list_omap]. rewrite Hy. done.
Qed.
Lemma objective_length d k m : Forall (fun r => length r = d) m -> k < d -> length (objective k m) = length m.
Proof.
  intros H Hk. induction m as [|r m IH]; [done|]. apply Forall_cons in H as [Hr H]. unfold objective in *. cbn [omap list_omap].
  destruct (lookup_lt_is_Some_2 r k) as [x ->]; [lia|]. cbn [length]. by rewrite IH.
Qed.
Lemma objective_Forall (P : b64 -> Prop) k m : Forall (Forall P) m -> Forall P (objective k m).
Proof.
  intros H. apply Forall_forall. intros x Hx. apply elem_of_list_omap in Hx as (r & Hr & Hx). rewrite Forall_forall in H. specialize (H r Hr). rewrite Forall_forall in H.
  apply H. by eapply elem_of_list_lookup_2.
Qed.

Section extremes.
Local Open Scope R_scope.
Notation ok l := (Forall (fun x : b64 => is_nan x = false) l).
Lemma min_fold l : forall x, is_nan x = false -> ok l -> minimum_of (x :: l) (fold_left (std_min flt) l x).
Proof.
  induction l as [|y l IH]; intros x Hx Hl; cbn [fold_left].
  - split; [set_solver|]. intros y Hy. apply elem_of_list_singleton in Hy as ->. lra.
  - apply Forall_cons in Hl as [Hy Hl]. unfold std_min at 2. rewrite (flt_fval y x Hy Hx). case Rlt_bool_spec; intros H.
    + destruct (IH y Hy Hl) as [Hin Hmin]. split; [set_solver|]. intros z Hz. pose proof (Hmin y ltac:(set_solver)).
      apply elem_of_cons in Hz as [->|Hz]; [lra|]. by apply Hmin.
    + destruct (IH x Hx Hl) as [Hin Hmin]. split; [set_solver|]. intros z Hz. pose proof (Hmin x ltac:(set_solver)).
      apply elem_of_cons in Hz as [->|Hz]; [lra|]. apply elem_of_cons in Hz as [->|Hz]; [lra|]. apply Hmin. set_solver.
Qed.
Lemma max_fold l : forall x, is_nan x = false -> ok l -> maximum_of (x :: l) (fold_left (std_max flt) l x).
Proof.
  induction l as [|y l IH]; intros x Hx Hl; cbn [fold_left].
  - split; [set_solver|]. intros y Hy. apply elem_of_list_singleton in Hy as ->. lra.
  - apply Forall_cons in Hl as [Hy Hl]. unfold std_max at 2. rewrite (flt_fval x y Hx Hy). case Rlt_bool_spec; intros H.
    + destruct (IH y Hy Hl) as [Hin Hmin]. split; [set_solver|]. intros z Hz. pose proof (Hmin y ltac:(set_solver)).
      apply elem_of_cons in Hz as [->|Hz]; [lra|]. by apply Hmin.
    + destruct (IH x Hx Hl) as [Hin Hmin]. split; [set_solver|]. intros z Hz. pose proof (Hmin x ltac:(set_solver)).
      apply elem_of_cons in Hz as [->|Hz]; [lra|]. apply elem_of_cons in Hz as [->|Hz]; [lra|]. apply Hmin. set_solver.
Qed.
End extremes.

(** ** The mean *)
Section mean.
Local Open Scope R_scope.
Notation eta := (bpow radix2 (-1075)).
Lemma u_val : bpow radix2 (-53) = / 9007199254740992. Proof. reflexivity. Qed.
Lemma srnd_error x : Rabs x <= bpow radix2 1020 -> Rabs (srnd x - x) <= / 9007199254740992 * Rabs x + eta.
Proof.
  intros Hx. assert (E : srnd x = rnd x).
  { unfold srnd. apply sat_id. pose proof (bpow_lt radix2 1020 1024 ltac:(lia)) as Hl.
    pose proof (rnd_mono x (bpow radix2 1020) ltac:(pose proof (Rle_abs x); lra)) as H1. rewrite bpow_fmt in H1 by lia.
    pose proof (rnd_mono (- bpow radix2 1020) x ltac:(pose proof (Rle_abs (-x)) as H; rewrite Rabs_Ropp in H; lra)) as H2. rewrite rnd_opp, bpow_fmt in H2 by lia.
    lra. }
  rewrite E. destruct (error_N_FLT radix2 (3 - 1024 - 53) 53 ltac:(done) (fun z => negb (Z.even z)) x) as (eps & et & H1 & H2 & _ & H3).
  change (FLT_exp (3 - 1024 - 53) 53) with (SpecFloat.fexp 53 1024) in H3. change (Znearest (fun z : Z => negb (Z.even z))) with ZnearestE in H3. rewrite H3.
  replace (x * (1 + eps) + et - x) with (x * eps + et) by ring.
  pose proof (Rabs_triang (x * eps) et) as H4. rewrite Rabs_mult in H4.
  assert (H5 : Rabs x * Rabs eps <= Rabs x * / 9007199254740992).
  { apply Rmult_le_compat_l; [apply Rabs_pos|]. eapply Rle_trans; [exact H1|]. change (/ 2 * bpow radix2 (- (53) + 1)) with (/2 * / 4503599627370496). lra. }
  assert (H6 : Rabs et <= eta).
  { eapply Rle_trans; [exact H2|]. change (3 - 1024 - 53)%Z with (1 + -1075)%Z. rewrite bpow_plus. change (bpow radix2 1) with 2. lra. }
  lra.
Qed.
Lemma eta_small (x : R) : bpow radix2 (-1003) <= x -> eta <= / 4722366482869645213696 * x.
Proof.
  intros H. replace (-1075)%Z with (-72 + -1003)%Z by lia. rewrite bpow_plus. change (bpow radix2 (-72)) with (/ 4722366482869645213696).
  apply Rmult_le_compat_l; [lra|done].
Qed.

Section fixed.
(** [N] values, bounded by [M]; [q] = M / N. *)
Variables M N q : R.
Hypothesis HN : 1 <= N <= 1125899906842624. (* 2^50 *)
Hypothesis Hq : M = N * q.
Hypothesis HM1 : bpow radix2 (-900) <= M.
Hypothesis HM2 : M <= bpow radix2 1000.
Notation u := (/ 9007199254740992).
Lemma Mpos : 0 < M. Proof. pose proof (bpow_gt_0 radix2 (-900)). lra. Qed.
Lemma qpos : 0 < q. Proof. pose proof Mpos. nra. Qed.
Lemma q_le : q <= M. Proof. pose proof qpos. nra. Qed.
Lemma q_big : bpow radix2 (-950) <= q.
Proof.
  pose proof qpos. replace (-950)%Z with (-900 + -50)%Z by lia. rewrite bpow_plus. change (bpow radix2 (-50)) with (/ 1125899906842624). nra.
Qed.
Lemma uq_big : bpow radix2 (-1003) <= u * q.
Proof. pose proof q_big. replace (-1003)%Z with (-53 + -950)%Z by lia. rewrite bpow_plus, u_val. nra. Qed.
Lemma big_small x : x <= 4 * M -> x <= bpow radix2 1020.
Proof. intros H. pose proof (bpow_gt_0 radix2 1000). replace 1020%Z with (20 + 1000)%Z by lia. rewrite bpow_plus. change (bpow radix2 20) with 1048576. lra. Qed.
Lemma fin_of (r : b64) x : is_nan r = false /\ fval r = srnd x -> Rabs x <= 4 * M ->
  is_finite r = true /\ Rabs (B2R r - x) <= u * Rabs x + eta.
Proof.
  intros H Hx. apply big_small in Hx. destruct (op_le r x 1020 H ltac:(lia) Hx) as (H1 & H2 & _). split; [done|]. rewrite H2. by apply srnd_error.
Qed.
Variable v : b64.
Hypothesis Hv : is_finite v = true.
Hypothesis Hv2 : Rabs (B2R v * M - q) <= 2 * u * q.
(** A term. *)
Lemma term_error (x : b64) : is_finite x = true -> Rabs (B2R x) <= M ->
  is_finite (fmul x v) = true /\ Rabs (B2R (fmul x v) - B2R x / N) <= 4 * u * q.
Proof.
  intros Hx Hxm. pose proof Mpos as Hm. pose proof qpos as Hqp. pose proof q_le as Hql.
  set (y := B2R x). assert (Hxv : Rabs (y * B2R v - y / N) <= 2 * u * q).
  { replace (y * B2R v - y / N) with ((y / M) * (B2R v * M - q)) by (rewrite Hq; field; nra).
    rewrite Rabs_mult. assert (Rabs (y / M) <= 1).
    { unfold Rdiv. rewrite Rabs_mult, Rabs_inv, (Rabs_pos_eq M) by lra. apply Rmult_le_reg_r with M; [done|]. rewrite Rmult_assoc, Rinv_l by lra. fold y in Hxm. lra. }
    pose proof (Rabs_pos (B2R v * M - q)). pose proof (Rabs_pos (y / M)). nra. }
  assert (Hyn : Rabs (y / N) <= q).
  { unfold Rdiv. rewrite Rabs_mult, Rabs_inv, (Rabs_pos_eq N) by lra. apply Rmult_le_reg_r with N; [lra|]. rewrite Rmult_assoc, Rinv_l by lra. fold y in Hxm. lra. }
  assert (Hyv : Rabs (y * B2R v) <= q * (1 + 2 * u)).
  { replace (y * B2R v) with ((y * B2R v - y / N) + y / N) by ring. pose proof (Rabs_triang (y * B2R v - y / N) (y / N)). lra. }
  destruct (fin_of (fmul x v) (y * B2R v) (fmul_finite x v Hx Hv)) as [Hf He]; [lra|]. split; [done|].
  replace (B2R (fmul x v) - y / N) with ((B2R (fmul x v) - y * B2R v) + (y * B2R v - y / N)) by ring.
  pose proof (Rabs_triang (B2R (fmul x v) - y * B2R v) (y * B2R v - y / N)). pose proof (eta_small _ uq_big). lra.
Qed.
Lemma fold_error (l : list b64) : forall (k : R) (s : b64) (S : R), Forall (fun x => is_finite x = true /\ Rabs (B2R x) <= M) l ->
  0 <= k -> k + INR (length l) <= N -> is_finite s = true -> Rabs S <= k * M -> Rabs (B2R s - S / N) <= k * (4 * u * q + 2 * u * M) ->
  is_finite (fold_left (fun acc x => fadd acc (fmul x v)) l s) = true /\
  Rabs (B2R (fold_left (fun acc x => fadd acc (fmul x v)) l s) - (S + sum_of l) / N) <= (k + INR (length l)) * (4 * u * q + 2 * u * M).
Proof.
  induction l as [|x l IH]; intros k s S Hl Hk HkN Hs HS He; cbn [fold_left].
  - split; [done|]. unfold sum_of. cbn. replace (S + 0) with S by ring. lra.
  - apply Forall_cons in Hl as [[Hx Hxm] Hl]. cbn [length] in HkN |- *. rewrite S_INR in HkN |- *. pose proof (pos_INR (length l)) as Hpos.
    destruct (term_error x Hx Hxm) as [Hf Ht]. set (t := fmul x v) in *. pose proof Mpos as Hm. pose proof qpos as Hqp. pose proof q_le as Hql.
    set (c := 4 * u * q + 2 * u * M) in *.
    assert (Hkc : k * c <= 4 * u * M + / 4 * M).
    { apply Rle_trans with (N * c); [apply Rmult_le_compat_r; [unfold c; lra|lra]|]. unfold c. replace (N * (4 * u * q + 2 * u * M)) with (4 * u * M + 2 * u * (N * M)) by (rewrite Hq; ring).
      assert (N * M <= 1125899906842624 * M) by (apply Rmult_le_compat_r; lra). lra. }
    assert (HSN : Rabs (S / N) <= k * q).
    { unfold Rdiv. rewrite Rabs_mult, Rabs_inv, (Rabs_pos_eq N) by lra. apply Rmult_le_reg_r with N; [lra|]. rewrite Rmult_assoc, Rinv_l by lra. rewrite Hq in HS. lra. }
    assert (Hyn : Rabs (B2R x / N) <= q).
    { unfold Rdiv. rewrite Rabs_mult, Rabs_inv, (Rabs_pos_eq N) by lra. apply Rmult_le_reg_r with N; [lra|]. rewrite Rmult_assoc, Rinv_l by lra. lra. }
    assert (Hkq : (k + 1) * q <= M) by (rewrite Hq; apply Rmult_le_compat_r; lra).
    assert (Hsum : Rabs (B2R s + B2R t) <= (k + 1) * q + k * c + 4 * u * q).
    { replace (B2R s + B2R t) with ((B2R s - S / N) + (B2R t - B2R x / N) + (S / N + B2R x / N)) by ring.
      pose proof (Rabs_triang ((B2R s - S / N) + (B2R t - B2R x / N)) (S / N + B2R x / N)). pose proof (Rabs_triang (B2R s - S / N) (B2R t - B2R x / N)).
      pose proof (Rabs_triang (S / N) (B2R x / N)). lra. }
    destruct (fin_of (fadd s t) (B2R s + B2R t) (fadd_finite s t Hs Hf)) as [Hfs Hes]; [lra|].
    destruct (IH (k + 1) (fadd s t) (S + B2R x)) as [H1 H2]; [done|lra|lra|done| | |].
    + pose proof (Rabs_triang S (B2R x)). lra.
    + replace (B2R (fadd s t) - (S + B2R x) / N) with ((B2R (fadd s t) - (B2R s + B2R t)) + (B2R s - S / N) + (B2R t - B2R x / N)) by (field; lra).
      pose proof (Rabs_triang ((B2R (fadd s t) - (B2R s + B2R t)) + (B2R s - S / N)) (B2R t - B2R x / N)).
      pose proof (Rabs_triang (B2R (fadd s t) - (B2R s + B2R t)) (B2R s - S / N)). pose proof (eta_small _ uq_big).
      replace ((k + 1) * c) with (k * c + c) by ring. unfold c at 2. lra.
    + split; [done|]. replace (S + sum_of (x :: l)) with (S + B2R x + sum_of l) by (unfold sum_of; cbn; ring).
      replace (k + (INR (length l) + 1)) with (k + 1 + INR (length l)) by ring. done.
Qed.
End fixed.

Lemma mean_error (l : list b64) (M : R) : (0 < length l)%nat -> (Z.of_nat (length l) <= 2 ^ 50)%Z -> bpow radix2 (-900) <= M <= bpow radix2 1000 ->
  Forall (fun x => is_finite x = true /\ Rabs (B2R x) <= M) l ->
  let r := fold_left (fun acc x => fadd acc (fmul x (fdiv (fmk 1 0) (fmk (Z.of_nat (length l)) 0)))) l fzero in
  is_finite r = true /\ Rabs (B2R r - mean_of l) <= (2 * INR (length l) + 4) * (bpow radix2 (-53) * M).
Proof.
  intros H0 Hn [HM1 HM2] Hl r. set (N := INR (length l)).
  assert (HN : 1 <= N <= 1125899906842624).
  { unfold N. rewrite INR_IZR_INZ. split; [apply (IZR_le 1); lia|]. apply (IZR_le _ 1125899906842624). lia. }
  destruct (fmk_val 1 0) as (F1 & V1 & _); [lia|lia|]. destruct (fmk_val (Z.of_nat (length l)) 0) as (F2 & V2 & _); [lia|lia|].
  change (bpow radix2 0) with 1 in V1, V2. rewrite Rmult_1_r in V1, V2. rewrite <- INR_IZR_INZ in V2. fold N in V2.
  set (q := M / N). assert (Hq : M = N * q) by (unfold q; field; lra).
  set (v := fdiv (fmk 1 0) (fmk (Z.of_nat (length l)) 0)) in *.
  assert (Hi : 0 < / N <= 1). { split; [apply Rinv_0_lt_compat; lra|]. rewrite <- Rinv_1. apply Rinv_le; lra. }
  assert (Hx : B2R (fmk 1 0) / B2R (fmk (Z.of_nat (length l)) 0) = / N). { rewrite V1, V2. field. lra. }
  assert (Hb : Rabs (/ N) <= bpow radix2 1020). { rewrite Rabs_pos_eq by lra. pose proof (bpow_le radix2 0 1020 ltac:(lia)) as H. change (bpow radix2 0) with 1 in H. lra. }
  pose proof (fdiv_finite _ _ F1 F2 ltac:(rewrite V2; lra)) as Hd. rewrite Hx in Hd. fold v in Hd.
  destruct (op_le v (/ N) 1020 Hd ltac:(lia) Hb) as (Fv & Vv & _).
  assert (Hm : 0 < M) by (pose proof (bpow_gt_0 radix2 (-900)); lra).
  assert (Hv2 : Rabs (B2R v * M - q) <= 2 * / 9007199254740992 * q).
  { replace (B2R v * M - q) with (M * (B2R v - / N)) by (unfold q; field; lra). rewrite Rabs_mult, (Rabs_pos_eq M) by lra. rewrite Vv.
    pose proof (srnd_error (/ N) Hb) as He. rewrite (Rabs_pos_eq (/ N)) in He by lra.
    assert (eta <= / 9007199254740992 * / N).
    { apply Rle_trans with (/ 9007199254740992 * / 1125899906842624); [|apply Rmult_le_compat_l; [lra|]; apply Rinv_le; lra].
      replace (-1075)%Z with (-103 + -972)%Z by lia. rewrite bpow_plus. change (bpow radix2 (-103)) with (/ 10141204801825835211973625643008).
      pose proof (bpow_le radix2 (-972) 0 ltac:(lia)) as H. change (bpow radix2 0) with 1 in H. lra. }
    unfold q, Rdiv. replace (2 * / 9007199254740992 * (M * / N)) with (M * (2 * / 9007199254740992 * / N)) by ring. apply Rmult_le_compat_l; lra. }
  destruct (fold_error M N q HN Hq HM1 HM2 v Fv Hv2 l 0 fzero 0 Hl) as [H1 H2]; [lra|fold N; lra|done| | |].
  - rewrite Rabs_R0. lra.
  - unfold fzero. cbn [B2R]. replace (0 - 0 / N) with 0 by (field; lra). rewrite Rabs_R0. lra.
  - split; [done|]. unfold mean_of. fold N. rewrite Rplus_0_l in H2. fold r in H2. eapply Rle_trans; [exact H2|]. fold N. rewrite u_val, Rplus_0_l. rewrite Rmult_plus_distr_l.
    right. rewrite Hq. ring.
Qed.
End mean.
