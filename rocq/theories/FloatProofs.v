From Coq Require Import Reals ZArith Bool List Lra Lia.
From Flocq Require Import Core BinarySingleNaN.
From Verif Require Import FloatBase FloatModel FloatSpec.
Import ListNotations.
Local Open Scope R_scope.

Lemma Rlt_bool_iff x y : Rlt_bool x y = true <-> x < y.
Proof. case Rlt_bool_spec; intros H; split; intros H'; try easy; lra. Qed.
Lemma Rlt_bool_iff_false x y : Rlt_bool x y = false <-> y <= x.
Proof. case Rlt_bool_spec; intros H; split; intros H'; try easy; lra. Qed.
Lemma Rle_bool_iff x y : Rle_bool x y = true <-> x <= y.
Proof. case Rle_bool_spec; intros H; split; intros H'; try easy; lra. Qed.

Section Cmp.
Variable t : tolerances.
Hypothesis Ht : tol_ok t.

(** The value of the tolerance for a non-negative scale. *)
Definition tolv (s : R) : R := Rmax (srnd (B2R (relative_tolerance t) * s)) (B2R (absolute_tolerance t)).
Definition scale2 (a b : b64) : R := Rmax (Rabs (B2R a)) (Rabs (B2R b)).

Lemma tolv_nonneg s : 0 <= tolv s.
Proof. destruct Ht as (_&_&H&_). unfold tolv. eapply Rle_trans; [exact H|apply Rmax_r]. Qed.
Lemma tolv_mono s s' : s <= s' -> tolv s <= tolv s'.
Proof.
  intros H. destruct Ht as (_&_&_&Hr). unfold tolv. apply Rle_max_compat_r. apply srnd_mono.
  apply Rmult_le_compat_l; assumption.
Qed.
Lemma tol_val s : is_finite s = true ->
  is_nan (fmax (tol_rel t s) (tol_abs t)) = false /\ fval (fmax (tol_rel t s) (tol_abs t)) = tolv (B2R s).
Proof.
  intros Hs. destruct Ht as (H1&H2&H3&H4). unfold tol_rel, tol_abs.
  destruct (fmul_finite (relative_tolerance t) s H2 Hs) as [Hn Hv].
  pose proof (is_finite_not_nan _ H1) as Hna. split; [apply fmax_nan; assumption|].
  rewrite fmax_val by assumption. rewrite Hv, (fval_finite _ H1). reflexivity.
Qed.
Lemma scale_val (a b : b64) : is_finite a = true -> is_finite b = true ->
  is_finite (fmax (fabs a) (fabs b)) = true /\ B2R (fmax (fabs a) (fabs b)) = scale2 a b.
Proof.
  intros Ha Hb. assert (is_finite (fabs a) = true) as Ha' by (rewrite fabs_fin; exact Ha).
  assert (is_finite (fabs b) = true) as Hb' by (rewrite fabs_fin; exact Hb).
  pose proof (fmax_fin _ _ Ha' Hb') as Hf. split; [exact Hf|]. rewrite <- (fval_finite _ Hf).
  rewrite fmax_val by (apply is_finite_not_nan; assumption). rewrite !fabs_val, !fval_finite by assumption. reflexivity.
Qed.
Lemma fabs_B2R (a : b64) : is_finite a = true -> B2R (fabs a) = Rabs (B2R a).
Proof. intros Ha. unfold fabs. apply B2R_Babs. Qed.

Lemma floatIsLess_val (a b : b64) : is_finite a = true -> is_finite b = true ->
  floatIsLess t a b = Rlt_bool (tolv (scale2 a b)) (srnd (B2R b - B2R a)).
Proof.
  intros Ha Hb. unfold floatIsLess. destruct (scale_val a b Ha Hb) as [Hs Hv]. rewrite feq_inf_finite by exact Hs.
  destruct (tol_val _ Hs) as [Hn Ht']. destruct (fsub_finite b a Hb Ha) as [Hdn Hd].
  rewrite flt_fval by assumption. rewrite Ht', Hd, Hv. reflexivity.
Qed.
Lemma floatIsGreater_val (a b : b64) : is_finite a = true -> is_finite b = true ->
  floatIsGreater t a b = Rlt_bool (tolv (scale2 a b)) (srnd (B2R a - B2R b)).
Proof.
  intros Ha Hb. unfold floatIsGreater. destruct (scale_val a b Ha Hb) as [Hs Hv]. rewrite feq_inf_finite by exact Hs.
  destruct (tol_val _ Hs) as [Hn Ht']. destruct (fsub_finite a b Ha Hb) as [Hdn Hd].
  rewrite flt_fval by assumption. rewrite Ht', Hd, Hv. reflexivity.
Qed.
Lemma floatIsLessAssume_val (a b : b64) : is_finite a = true -> is_finite b = true ->
  floatIsLessAssumeNotGreater t a b = Rlt_bool (tolv (Rabs (B2R b))) (srnd (B2R b - B2R a)).
Proof.
  intros Ha Hb. unfold floatIsLessAssumeNotGreater.
  assert (is_finite (fabs b) = true) as Hs by (rewrite fabs_fin; exact Hb). rewrite feq_inf_finite by exact Hs.
  destruct (tol_val _ Hs) as [Hn Ht']. destruct (fsub_finite b a Hb Ha) as [Hdn Hd].
  rewrite flt_fval by assumption. rewrite Ht', Hd, fabs_B2R by exact Hb. reflexivity.
Qed.
Lemma floatIsEqual_val (a b : b64) : is_finite a = true -> is_finite b = true ->
  floatIsEqual t a b = Rle_bool (Rabs (srnd (B2R a - B2R b))) (tolv (scale2 a b)).
Proof.
  intros Ha Hb. unfold floatIsEqual. destruct (scale_val a b Ha Hb) as [Hs Hv]. rewrite feq_inf_finite by exact Hs.
  destruct (tol_val _ Hs) as [Hn Ht']. destruct (fsub_finite a b Ha Hb) as [Hdn Hd].
  rewrite fle_fval; [|rewrite fabs_nan; exact Hdn|exact Hn]. rewrite Ht', fabs_val, Hd, Hv. reflexivity.
Qed.
Lemma floatCompare_val (a b : b64) : is_finite a = true -> is_finite b = true ->
  floatCompare t a b =
    if Rlt_bool (tolv (scale2 a b)) (srnd (B2R a - B2R b)) then Gt
    else if Rlt_bool (srnd (B2R a - B2R b)) (- tolv (scale2 a b)) then Lt else Eq.
Proof.
  intros Ha Hb. unfold floatCompare. destruct (scale_val a b Ha Hb) as [Hs Hv].
  assert (fmin (fmax (fabs a) (fabs b)) flarge = fmax (fabs a) (fabs b)) as ->.
  { unfold fmin. rewrite flt_fval; [|reflexivity|apply is_finite_not_nan, Hs].
    rewrite Rlt_bool_false; [reflexivity|]. apply flarge_max, Hs. }
  destruct (tol_val _ Hs) as [Hn Ht']. destruct (fsub_finite a b Ha Hb) as [Hdn Hd].
  rewrite !flt_fval; [|assumption|rewrite fneg_nan; assumption|assumption..].
  rewrite fneg_val, Ht', Hd, Hv. reflexivity.
Qed.

Lemma scale2_comm a b : scale2 a b = scale2 b a.
Proof. apply Rmax_comm. Qed.
Lemma srnd_minus_swap x y : srnd (y - x) = - srnd (x - y).
Proof. rewrite <- srnd_opp. f_equal. ring. Qed.

Lemma float_trichotomy (a b : b64) : is_finite a = true -> is_finite b = true ->
  match floatCompare t a b with
  | Lt => floatIsLess t a b = true /\ floatIsEqual t a b = false /\ floatIsGreater t a b = false
  | Eq => floatIsLess t a b = false /\ floatIsEqual t a b = true /\ floatIsGreater t a b = false
  | Gt => floatIsLess t a b = false /\ floatIsEqual t a b = false /\ floatIsGreater t a b = true
  end.
Proof.
  intros Ha Hb. rewrite floatCompare_val, floatIsLess_val, floatIsEqual_val, floatIsGreater_val by assumption.
  rewrite (srnd_minus_swap (B2R a) (B2R b)). pose proof (tolv_nonneg (scale2 a b)) as H0.
  set (T := tolv (scale2 a b)) in *. set (d := srnd (B2R a - B2R b)).
  case (Rlt_bool_spec T d); intros H1.
  - rewrite Rlt_bool_false by lra. rewrite Rle_bool_false; [easy|]. rewrite Rabs_pos_eq by lra. exact H1.
  - case (Rlt_bool_spec d (- T)); intros H2.
    + rewrite Rlt_bool_true by lra. rewrite Rle_bool_false; [easy|]. rewrite Rabs_left by lra. lra.
    + rewrite Rlt_bool_false by lra. rewrite Rle_bool_true; [easy|]. apply Rabs_le. lra.
Qed.
Lemma float_greater_less (a b : b64) : is_finite a = true -> is_finite b = true -> floatIsGreater t a b = floatIsLess t b a.
Proof. intros Ha Hb. rewrite floatIsGreater_val, floatIsLess_val by assumption. rewrite scale2_comm. reflexivity. Qed.
Lemma float_equal_sym (a b : b64) : is_finite a = true -> is_finite b = true -> floatIsEqual t a b = floatIsEqual t b a.
Proof.
  intros Ha Hb. rewrite !floatIsEqual_val by assumption. rewrite scale2_comm.
  rewrite (srnd_minus_swap (B2R b) (B2R a)), Rabs_Ropp. reflexivity.
Qed.
Lemma float_equal_refl (a : b64) : is_finite a = true -> floatIsEqual t a a = true.
Proof.
  intros Ha. rewrite floatIsEqual_val by assumption. rewrite Rminus_diag_eq by reflexivity.
  rewrite srnd_0, Rabs_R0. apply Rle_bool_true, tolv_nonneg.
Qed.
Lemma floatIsLess_lt (a b : b64) : is_finite a = true -> is_finite b = true -> floatIsLess t a b = true -> B2R a < B2R b.
Proof.
  intros Ha Hb. rewrite floatIsLess_val by assumption. rewrite Rlt_bool_iff. intros H.
  destruct (Rlt_or_le (B2R a) (B2R b)) as [|Hle]; [assumption|]. exfalso.
  assert (srnd (B2R b - B2R a) <= 0) by (rewrite <- srnd_0; apply srnd_mono; lra).
  pose proof (tolv_nonneg (scale2 a b)). lra.
Qed.
Lemma floatIsLessAssume_lt (a b : b64) : is_finite a = true -> is_finite b = true ->
  floatIsLessAssumeNotGreater t a b = true -> B2R a < B2R b.
Proof.
  intros Ha Hb. rewrite floatIsLessAssume_val by assumption. rewrite Rlt_bool_iff. intros H.
  destruct (Rlt_or_le (B2R a) (B2R b)) as [|Hle]; [assumption|]. exfalso.
  assert (srnd (B2R b - B2R a) <= 0) by (rewrite <- srnd_0; apply srnd_mono; lra).
  pose proof (tolv_nonneg (Rabs (B2R b))). lra.
Qed.
(** "Less" implies "less, assuming not greater"; the converse needs the scales to agree. *)
Lemma floatIsLess_assume (a b : b64) : is_finite a = true -> is_finite b = true ->
  floatIsLess t a b = true -> floatIsLessAssumeNotGreater t a b = true.
Proof.
  intros Ha Hb. rewrite floatIsLess_val, floatIsLessAssume_val by assumption. rewrite !Rlt_bool_iff.
  intros H. eapply Rle_lt_trans; [|exact H]. apply tolv_mono. apply Rmax_r.
Qed.
Lemma floatIsLessAssume_iff (a b : b64) : is_finite a = true -> is_finite b = true ->
  (0 <= B2R a \/ B2R (relative_tolerance t) = 0) ->
  floatIsLessAssumeNotGreater t a b = floatIsLess t a b.
Proof.
  intros Ha Hb Hc. destruct (floatIsLess t a b) eqn:E; [apply floatIsLess_assume; assumption|].
  destruct (floatIsLessAssumeNotGreater t a b) eqn:E'; [|reflexivity]. rewrite <- E. symmetry.
  pose proof (floatIsLessAssume_lt a b Ha Hb E') as Hlt.
  rewrite floatIsLessAssume_val in E' by assumption. rewrite floatIsLess_val by assumption. rewrite <- E'. f_equal.
  destruct Hc as [Hc|Hc].
  - f_equal. unfold scale2. rewrite !Rabs_pos_eq by lra. apply Rmax_right. lra.
  - unfold tolv. rewrite Hc, !Rmult_0_l. reflexivity.
Qed.

Section Exact.
Hypothesis Habs : B2R (absolute_tolerance t) = 0.
Hypothesis Hrel : B2R (relative_tolerance t) = 0.
Lemma tolv_exact s : tolv s = 0.
Proof. unfold tolv. rewrite Hrel, Habs, Rmult_0_l, srnd_0. apply Rmax_left. lra. Qed.
Lemma srnd_pos_iff (a b : b64) : is_finite a = true -> is_finite b = true -> (0 < srnd (B2R b - B2R a) <-> B2R a < B2R b).
Proof.
  intros Ha Hb. split.
  - intros H. destruct (Rlt_or_le (B2R a) (B2R b)) as [|Hle]; [assumption|]. exfalso.
    assert (srnd (B2R b - B2R a) <= 0) by (rewrite <- srnd_0; apply srnd_mono; lra). lra.
  - intros H. assert (0 <= rnd (B2R b - B2R a)) as Hge by (rewrite <- rnd_0; apply rnd_mono; lra).
    destruct (Req_dec (rnd (B2R b - B2R a)) 0) as [E|E]; [apply rnd_minus_eq_0 in E; lra|].
    unfold srnd, sat. pose proof femax_pos. unfold Rmax, Rmin. repeat destruct (Rle_dec _ _); lra.
Qed.
Lemma floatIsLess_exact (a b : b64) : is_finite a = true -> is_finite b = true -> floatIsLess t a b = Rlt_bool (B2R a) (B2R b).
Proof.
  intros Ha Hb. rewrite floatIsLess_val, tolv_exact by assumption. apply eq_true_iff_eq. rewrite !Rlt_bool_iff.
  apply srnd_pos_iff; assumption.
Qed.
Lemma floatIsLessAssume_exact (a b : b64) : is_finite a = true -> is_finite b = true ->
  floatIsLessAssumeNotGreater t a b = Rlt_bool (B2R a) (B2R b).
Proof.
  intros Ha Hb. rewrite floatIsLessAssume_iff by auto. apply floatIsLess_exact; assumption.
Qed.
Lemma floatCompare_exact (a b : b64) : is_finite a = true -> is_finite b = true -> floatCompare t a b = Rcompare (B2R a) (B2R b).
Proof.
  intros Ha Hb. pose proof (float_trichotomy a b Ha Hb) as H. rewrite float_greater_less in H by assumption.
  rewrite !floatIsLess_exact in H by assumption.
  destruct (floatCompare t a b); destruct H as (H1&_&H2); rewrite ?Rlt_bool_iff, ?Rlt_bool_iff_false in *; symmetry.
  - apply Rcompare_Eq. lra.
  - apply Rcompare_Lt. lra.
  - apply Rcompare_Gt. lra.
Qed.
Lemma floatIsEqual_exact (a b : b64) : is_finite a = true -> is_finite b = true -> floatIsEqual t a b = Req_bool (B2R a) (B2R b).
Proof.
  intros Ha Hb. pose proof (float_trichotomy a b Ha Hb) as H. rewrite floatCompare_exact in H by assumption.
  case (Rcompare_spec (B2R a) (B2R b)) in H; destruct H as (_&->&_); symmetry;
    [apply Req_bool_false; lra|apply Req_bool_true; lra|apply Req_bool_false; lra].
Qed.
End Exact.

(** ** Dominance *)
Lemma any_less_rev_true u v : any_less_rev t u v = true <->
  exists i x y, nth_error u i = Some x /\ nth_error v i = Some y /\ floatIsLess t y x = true.
Proof.
  revert v. induction u as [|x u IH]; intros v; cbn.
  - split; [easy|]. intros (i&x&y&H&_). destruct i; discriminate.
  - destruct v as [|y v].
    + split; [easy|]. intros (i&x'&y&_&H&_). destruct i; discriminate.
    + destruct (floatIsLess t y x) eqn:E.
      * split; [|easy]. intros _. exists O, x, y. easy.
      * rewrite IH. split; intros (i&x'&y'&H1&H2&H3); [exists (S i), x', y'; easy|].
        destruct i as [|i]; [cbn in *; congruence|exists i, x', y'; easy].
Qed.
Lemma any_less_assume_true u v : any_less_assume t u v = true <->
  exists i x y, nth_error u i = Some x /\ nth_error v i = Some y /\ floatIsLessAssumeNotGreater t x y = true.
Proof.
  revert v. induction u as [|x u IH]; intros v; cbn.
  - split; [easy|]. intros (i&x&y&H&_). destruct i; discriminate.
  - destruct v as [|y v].
    + split; [easy|]. intros (i&x'&y&_&H&_). destruct i; discriminate.
    + destruct (floatIsLessAssumeNotGreater t x y) eqn:E.
      * split; [|easy]. intros _. exists O, x, y. easy.
      * rewrite IH. split; intros (i&x'&y'&H1&H2&H3); [exists (S i), x', y'; easy|].
        destruct i as [|i]; [cbn in *; congruence|exists i, x', y'; easy].
Qed.
Lemma pareto_less_iff u v : paretoCompareLess t u v = true <->
  (forall i x y, nth_error u i = Some x -> nth_error v i = Some y -> floatIsLess t y x = false) /\
  (exists i x y, nth_error u i = Some x /\ nth_error v i = Some y /\ floatIsLessAssumeNotGreater t x y = true).
Proof.
  unfold paretoCompareLess. destruct (any_less_rev t u v) eqn:E.
  - split; [easy|]. intros [H _]. apply any_less_rev_true in E as (i&x&y&H1&H2&H3). rewrite (H i x y H1 H2) in H3. easy.
  - rewrite any_less_assume_true. split; [|easy]. intros H. split; [|exact H].
    intros i x y Hx Hy. destruct (floatIsLess t y x) eqn:E'; [|reflexivity]. rewrite <- E. symmetry.
    apply any_less_rev_true. exists i, x, y. easy.
Qed.

Lemma finite_nth v i x : nth_error v i = Some x -> finite_vec v -> is_finite x = true.
Proof. intros Hx H. unfold finite_vec in H. rewrite Forall_forall in H. apply H. eapply nth_error_In, Hx. Qed.
Lemma nonneg_nth v i x : nth_error v i = Some x -> nonneg_vec v -> 0 <= B2R x.
Proof. intros Hx H. unfold nonneg_vec in H. rewrite Forall_forall in H. apply H. eapply nth_error_In, Hx. Qed.

Lemma pareto_less_irrefl u : finite_vec u -> paretoCompareLess t u u = false.
Proof.
  intros Hf. destruct (paretoCompareLess t u u) eqn:E; [|reflexivity].
  apply pareto_less_iff in E as [_ (i&x&y&H1&H2&H3)]. rewrite H1 in H2. injection H2 as <-.
  pose proof (finite_nth u i x H1 Hf). apply floatIsLessAssume_lt in H3; [lra|assumption..].
Qed.

(** Under the side condition both tests see the same strict comparison. *)
Definition same_scale (u v : list b64) : Prop :=
  B2R (relative_tolerance t) = 0 \/ (nonneg_vec u /\ nonneg_vec v).
Lemma assume_same u v i x y : finite_vec u -> finite_vec v -> same_scale u v ->
  nth_error u i = Some x -> nth_error v i = Some y ->
  floatIsLessAssumeNotGreater t x y = floatIsLess t x y.
Proof.
  intros Hu Hv Hs Hx Hy. apply floatIsLessAssume_iff; [eapply finite_nth; eassumption..|].
  destruct Hs as [H|[H _]]; [auto|]. left. eapply nonneg_nth; eassumption.
Qed.
Lemma pareto_less_asym u v : finite_vec u -> finite_vec v -> same_scale u v ->
  paretoCompareLess t u v = true -> paretoCompareLess t v u = false.
Proof.
  intros Hu Hv Hs H. destruct (paretoCompareLess t v u) eqn:E; [|reflexivity].
  apply pareto_less_iff in H as [_ (i&x&y&Hx&Hy&Hl)]. apply pareto_less_iff in E as [H1 _].
  rewrite (assume_same u v i x y) in Hl by assumption. rewrite (H1 i y x Hy Hx) in Hl. easy.
Qed.

(** ** paretoCompare *)
Definition some_lt (u v : list b64) : Prop :=
  exists i x y, nth_error u i = Some x /\ nth_error v i = Some y /\ floatIsLess t x y = true.
Lemma some_lt_cons x u y v : some_lt (x :: u) (y :: v) <-> floatIsLess t x y = true \/ some_lt u v.
Proof.
  split.
  - intros (i&a&b&H1&H2&H3). destruct i as [|i]; cbn in *; [left; congruence|right; exists i, a, b; easy].
  - intros [H|(i&a&b&H1&H2&H3)]; [exists O, x, y; easy|exists (S i), a, b; easy].
Qed.
Lemma some_lt_nil_l v : some_lt [] v <-> False.
Proof. split; [|easy]. intros (i&x&y&H&_). destruct i; discriminate. Qed.

Lemma paretoCompare_loop_spec u : forall v l r, length u = length v -> finite_vec u -> finite_vec v ->
  l && r = false ->
  (paretoCompare_loop t u v l r = (-1)%Z <-> (l = true \/ some_lt u v) /\ ~ (r = true \/ some_lt v u)) /\
  (paretoCompare_loop t u v l r = 1%Z <-> ~ (l = true \/ some_lt u v) /\ (r = true \/ some_lt v u)) /\
  (paretoCompare_loop t u v l r = (-1)%Z \/ paretoCompare_loop t u v l r = 0%Z \/ paretoCompare_loop t u v l r = 1%Z).
Proof.
  induction u as [|x u IH]; intros [|y v] l r Hlen Hu Hv Hlr; try discriminate.
  - cbn [paretoCompare_loop]. rewrite !some_lt_nil_l. destruct l, r; try discriminate Hlr; cbn; intuition (try discriminate; try lia).
  - cbn [paretoCompare_loop]. rewrite !some_lt_cons.
    assert (Hx : is_finite x = true) by (inversion Hu; assumption).
    assert (Hy : is_finite y = true) by (inversion Hv; assumption).
    assert (Hu' : finite_vec u) by (inversion Hu; assumption).
    assert (Hv' : finite_vec v) by (inversion Hv; assumption).
    injection Hlen as Hlen. pose proof (float_trichotomy x y Hx Hy) as Htri.
    rewrite (float_greater_less x y) in Htri by assumption.
    destruct (floatCompare t x y); destruct Htri as (-> & _ & ->).
    + specialize (IH v l r Hlen Hu' Hv' Hlr). intuition discriminate.
    + destruct r; [intuition (try discriminate; try lia)|]. specialize (IH v true false Hlen Hu' Hv' eq_refl). intuition discriminate.
    + destruct l; [intuition (try discriminate; try lia)|]. specialize (IH v false true Hlen Hu' Hv' eq_refl). intuition discriminate.
Qed.
Lemma paretoCompare_spec u v : length u = length v -> finite_vec u -> finite_vec v ->
  (paretoCompare t u v = (-1)%Z <-> some_lt u v /\ ~ some_lt v u) /\
  (paretoCompare t u v = 1%Z <-> ~ some_lt u v /\ some_lt v u) /\
  (paretoCompare t u v = (-1)%Z \/ paretoCompare t u v = 0%Z \/ paretoCompare t u v = 1%Z).
Proof.
  intros Hl Hu Hv. pose proof (paretoCompare_loop_spec u v false false Hl Hu Hv eq_refl) as H.
  unfold paretoCompare. intuition discriminate.
Qed.
Lemma not_some_lt u v : ~ some_lt v u <->
  (forall i x y, nth_error u i = Some x -> nth_error v i = Some y -> floatIsLess t y x = false).
Proof.
  split.
  - intros H i x y Hx Hy. destruct (floatIsLess t y x) eqn:E; [|reflexivity]. exfalso. apply H. exists i, y, x. easy.
  - intros H (i&y&x&Hy&Hx&Hl). rewrite (H i x y Hx Hy) in Hl. easy.
Qed.
Lemma paretoCompare_less u v : length u = length v -> finite_vec u -> finite_vec v ->
  paretoCompare t u v = (-1)%Z -> paretoCompareLess t u v = true.
Proof.
  intros Hl Hu Hv H. apply paretoCompare_spec in H as [(i&x&y&Hx&Hy&Hlt) Hn]; try assumption.
  apply pareto_less_iff. split; [apply not_some_lt, Hn|]. exists i, x, y. split; [exact Hx|]. split; [exact Hy|].
  apply floatIsLess_assume; [eapply finite_nth; eassumption..|exact Hlt].
Qed.
Lemma paretoCompare_swap u v : length u = length v -> finite_vec u -> finite_vec v ->
  (paretoCompare t u v = 1%Z <-> paretoCompare t v u = (-1)%Z).
Proof.
  intros Hl Hu Hv. destruct (paretoCompare_spec u v Hl Hu Hv) as (_&H1&_).
  destruct (paretoCompare_spec v u (eq_sym Hl) Hv Hu) as (H2&_). rewrite H1, H2. tauto.
Qed.
Lemma paretoCompare_agree u v : length u = length v -> finite_vec u -> finite_vec v -> same_scale u v ->
  (paretoCompare t u v = (-1)%Z <-> paretoCompareLess t u v = true).
Proof.
  intros Hl Hu Hv Hs. split; [apply paretoCompare_less; assumption|]. intros H.
  apply pareto_less_iff in H as [H1 (i&x&y&Hx&Hy&H2)]. apply paretoCompare_spec; try assumption.
  split; [|apply not_some_lt, H1]. exists i, x, y. split; [exact Hx|]. split; [exact Hy|].
  rewrite <- (assume_same u v i x y) by assumption. exact H2.
Qed.

Section ExactDom.
Hypothesis Habs : B2R (absolute_tolerance t) = 0.
Hypothesis Hrel : B2R (relative_tolerance t) = 0.
Lemma Forall2_nth (P : b64 -> b64 -> Prop) u v : length u = length v ->
  (Forall2 P u v <-> forall i x y, nth_error u i = Some x -> nth_error v i = Some y -> P x y).
Proof.
  intros Hl. split.
  - intros H. induction H as [|a b u v Hab H IH]; intros i x y Hx Hy; destruct i as [|i]; cbn in *; try discriminate.
    + congruence.
    + apply (IH (eq_add_S _ _ Hl) i); assumption.
  - revert v Hl. induction u as [|a u IH]; intros [|b v] Hl H; try discriminate; constructor.
    + apply (H O); reflexivity.
    + apply IH; [apply eq_add_S, Hl|]. intros i x y Hx Hy. apply (H (S i)); assumption.
Qed.
Lemma pareto_less_exact u v : length u = length v -> finite_vec u -> finite_vec v ->
  (paretoCompareLess t u v = true <-> dominated_by u v).
Proof.
  intros Hl Hu Hv. rewrite pareto_less_iff. unfold dominated_by. rewrite Forall2_nth by exact Hl. split.
  - intros [H1 (i&x&y&Hx&Hy&H2)]. split.
    + intros j a b Ha Hb. specialize (H1 j a b Ha Hb).
      rewrite floatIsLess_exact, Rlt_bool_iff_false in H1; [assumption..|eapply finite_nth; eassumption|eapply finite_nth; eassumption].
    + exists i, x, y. split; [exact Hx|]. split; [exact Hy|].
      rewrite floatIsLessAssume_exact, Rlt_bool_iff in H2; [assumption..|eapply finite_nth; eassumption|eapply finite_nth; eassumption].
  - intros [H1 (i&x&y&Hx&Hy&H2)]. split.
    + intros j a b Ha Hb. specialize (H1 j a b Ha Hb).
      rewrite floatIsLess_exact, Rlt_bool_iff_false; [assumption..|eapply finite_nth; eassumption|eapply finite_nth; eassumption].
    + exists i, x, y. split; [exact Hx|]. split; [exact Hy|].
      rewrite floatIsLessAssume_exact, Rlt_bool_iff; [assumption..|eapply finite_nth; eassumption|eapply finite_nth; eassumption].
Qed.
End ExactDom.
End Cmp.

Lemma Forall2_len {A B} (P : A -> B -> Prop) u v : Forall2 P u v -> length u = length v.
Proof. induction 1; cbn; congruence. Qed.
Lemma dominated_trans u v w : dominated_by u v -> dominated_by v w -> dominated_by u w.
Proof.
  intros [H1 (i&x&y&Hx&Hy&Hlt)] [H2 _].
  assert (Hle : Forall2 (fun x y : b64 => B2R x <= B2R y) u w).
  { clear - H1 H2. revert w H2. induction H1 as [|a b u v Hab H IH]; intros w H2; inversion H2; subst; constructor.
    - lra.
    - apply IH. assumption. }
  split; [exact Hle|]. pose proof (Forall2_len _ _ _ H2) as Hl.
  destruct (nth_error w i) as [z|] eqn:Hz.
  - exists i, x, z. split; [exact Hx|]. split; [exact Hz|].
    apply (Forall2_nth (fun x y : b64 => B2R x <= B2R y) v w Hl) with (i := i) (x := y) (y := z) in H2; [lra|assumption..].
  - apply nth_error_None in Hz. assert (nth_error v i <> None) as Hne by congruence. apply nth_error_Some in Hne. lia.
Qed.
Lemma dominated_irrefl u : ~ dominated_by u u.
Proof. intros [_ (i&x&y&Hx&Hy&Hlt)]. rewrite Hx in Hy. injection Hy as <-. lra. Qed.

(** ** Scoped tolerances *)
Lemma texec_tlex p : forall g, texec p g = (g, fst (tlex p g), snd (tlex p g)).
Proof.
  induction p as [| | |p IHp q IHq|p IHp q IHq|a r p IH]; intros g; cbn; try reflexivity.
  - rewrite IHp. destruct (tlex p g) as [o e]. cbn. destruct e; [reflexivity|]. rewrite IHq.
    destruct (tlex q g) as [o' e']. reflexivity.
  - rewrite IHp. destruct (tlex p g) as [o e]. cbn. destruct e; [|reflexivity]. rewrite IHq.
    destruct (tlex q g) as [o' e']. reflexivity.
  - rewrite IH. cbn. destruct g; reflexivity.
Qed.

Lemma nonneg_check (x : b64) : is_finite x && fle fzero x = true -> 0 <= B2R x.
Proof.
  intros H. apply andb_true_iff in H as [H1 H2]. unfold fle in H2. rewrite Bleb_correct in H2 by easy.
  apply Rle_bool_iff in H2. exact H2.
Qed.
Lemma nonneg_vec_check (v : list b64) : forallb (fun x => is_finite x && fle fzero x) v = true -> nonneg_vec v.
Proof. intros H. rewrite forallb_forall in H. apply Forall_forall. intros x Hx. apply nonneg_check. auto. Qed.
