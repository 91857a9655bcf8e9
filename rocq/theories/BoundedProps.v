(** C113: a bounded value lies in its interval. *)
From Coq Require Import Reals ZArith Bool Lra Lia.
From Flocq Require Import Core BinarySingleNaN.
Import SpecFloat.
From Verif Require Import FloatBase BoundedModel.
Local Open Scope R_scope.

(** Integers: exactly the values of the interval are accepted, unchanged. *)
Theorem C113_integer l r li ri v w :
  int_value (Interval l r li ri) v = Some w <->
  w = v /\ (l <= v <= r)%Z /\ (li = false -> v <> l) /\ (ri = false -> v <> r).
Proof.
  unfold int_value, bounded_value, contains. cbn [left_ right_ left_inclusive_ right_inclusive_].
  destruct (Z.ltb_spec v l); destruct (Z.ltb_spec r v); destruct (Z.eqb_spec v l); destruct (Z.eqb_spec v r); destruct li, ri; cbn [orb andb negb];
    (split; [intros [= <-]; repeat split; (lia || discriminate)|intros (-> & ? & H1 & H2); try (specialize (H1 eq_refl)); try (specialize (H2 eq_refl)); first [reflexivity|exfalso; lia]]).
Qed.
Theorem C113_positive_size n w : int_value Positive_size n = Some w <-> w = n /\ (1 <= n < 2 ^ 64)%Z.
Proof. unfold Positive_size. rewrite C113_integer. unfold size_max. split; [intros (-> & ? & H & _); specialize (H eq_refl); lia|]. intros [-> ?]. repeat split; try lia; discriminate. Qed.
Theorem C113_non_negative_size n w : int_value NonNegative_size n = Some w <-> w = n /\ (0 <= n < 2 ^ 64)%Z.
Proof. unfold NonNegative_size. rewrite C113_integer. unfold size_max. split; [intros (-> & ? & _); lia|]. intros [-> ?]. repeat split; try lia; discriminate. Qed.

(** Doubles: the same for every value that is a number. *)
Lemma feq_iff a b : is_nan a = false -> is_nan b = false -> (feq a b = true <-> fval a = fval b).
Proof. intros Ha Hb. rewrite (feq_fval a b Ha Hb). destruct (Req_bool_spec (fval a) (fval b)); split; easy. Qed.
Theorem C113_double l r li ri v w : is_nan l = false -> is_nan r = false -> is_nan v = false ->
  (double_value (Interval l r li ri) v = Some w <->
   w = v /\ fval l <= fval v <= fval r /\ (li = false -> fval v <> fval l) /\ (ri = false -> fval v <> fval r)).
Proof.
  intros Hl Hr Hv. unfold double_value, bounded_value, contains. cbn [left_ right_ left_inclusive_ right_inclusive_].
  rewrite (flt_fval v l Hv Hl), (flt_fval r v Hr Hv). pose proof (feq_iff v l Hv Hl) as E1. pose proof (feq_iff v r Hv Hr) as E2.
  destruct (Rlt_bool_spec (fval v) (fval l)); destruct (Rlt_bool_spec (fval r) (fval v)); destruct (feq v l); destruct (feq v r); destruct E1 as [E1 E1']; destruct E2 as [E2 E2'];
    destruct li, ri; cbn [orb andb negb];
    (split; [intros [= <-]; repeat split; try lra; try discriminate; intros _ Q; first [discriminate (E1' Q)|discriminate (E2' Q)]
            |intros (-> & ? & H1 & H2); try (specialize (E1 eq_refl)); try (specialize (E2 eq_refl)); try (specialize (H1 eq_refl)); try (specialize (H2 eq_refl)); first [reflexivity|exfalso; (lra || tauto)]]).
Qed.
Lemma fneg_fval v : fval (fneg v) = - fval v.
Proof. unfold fneg. destruct v as [s|[]| |s m e H]; [cbn; lra|cbn -[bpow]; lra|reflexivity|cbn; lra|]. rewrite !fval_finite by reflexivity. apply B2R_Bopp. Qed.
Lemma finite_iff v : is_nan v = false -> (is_finite v = true <-> - fval flarge <= fval v <= fval flarge).
Proof.
  intros Hv. pose proof (fval_finite_bound flarge flarge_fin) as B. split.
  - intros F. split; [|now apply flarge_max]. assert (F' : is_finite (fneg v) = true) by (unfold fneg; now rewrite is_finite_Bopp). apply flarge_max in F'. rewrite fneg_fval in F'. lra.
  - intros H. destruct v as [|[]| |]; try easy; change (fval (B754_infinity false)) with femax in *; change (fval (B754_infinity true)) with (- femax) in *; lra.
Qed.
Lemma fval_fone : fval fone = 1.
Proof.
  unfold fone. rewrite fval_finite by reflexivity. rewrite <- SF2R_B2SF. replace (B2SF (fmk 1 0)) with (S754_finite false 4503599627370496 (-52)) by (vm_compute; reflexivity).
  unfold SF2R, F2R. cbn [Fnum Fexp cond_Zopp]. change (bpow radix2 (-52)) with (/ IZR 4503599627370496). field.
Qed.
Lemma fval_fzero : fval fzero = 0. Proof. reflexivity. Qed.
(** The accepted values of the aliases, among the values that are not NaN: infinities are refused. *)
Theorem C113_probability v w : is_nan v = false -> (double_value Probability v = Some w <-> w = v /\ is_finite v = true /\ 0 <= B2R v <= 1).
Proof.
  intros Hv. unfold Probability. rewrite C113_double by easy. rewrite fval_fone, fval_fzero. rewrite (finite_iff v Hv). assert (1 <= fval flarge) by (rewrite <- fval_fone; apply flarge_max; reflexivity).
  destruct (is_finite v) eqn:F; [rewrite (fval_finite v F); intuition (try lra; try discriminate)|]. split.
  - intros (-> & Hb & _). exfalso. assert (- fval flarge <= fval v <= fval flarge) as Q by lra. apply finite_iff in Q; [congruence|easy].
  - intros (_ & Q & _). exfalso. apply finite_iff in Q; [congruence|easy].
Qed.
Theorem C113_non_negative v w : is_nan v = false -> (double_value NonNegative_double v = Some w <-> w = v /\ is_finite v = true /\ 0 <= B2R v).
Proof.
  intros Hv. unfold NonNegative_double. rewrite C113_double by easy. rewrite fval_fzero. assert (0 <= fval flarge) by (rewrite <- fval_fzero; apply flarge_max; reflexivity). destruct (finite_iff v Hv) as [G1 G2].
  destruct (is_finite v) eqn:F.
  - specialize (G1 eq_refl). rewrite (fval_finite v F) in *. intuition (try lra; try discriminate).
  - split; [intros (_ & Q & _)|intros (_ & Q & _); discriminate Q]. discriminate G2. lra.
Qed.
Theorem C113_positive v w : is_nan v = false -> (double_value Positive_double v = Some w <-> w = v /\ is_finite v = true /\ 0 < B2R v).
Proof.
  intros Hv. unfold Positive_double. rewrite C113_double by easy. rewrite fval_fzero. assert (0 <= fval flarge) by (rewrite <- fval_fzero; apply flarge_max; reflexivity). destruct (finite_iff v Hv) as [G1 G2].
  destruct (is_finite v) eqn:F.
  - specialize (G1 eq_refl). rewrite (fval_finite v F) in *. split; [intros (-> & ? & Q & _); specialize (Q eq_refl); repeat split; lra|]. intros (-> & _ & ?). repeat split; try lra; discriminate.
  - split; [intros (_ & Q & _)|intros (_ & Q & _); discriminate Q]. discriminate G2. lra.
Qed.
Theorem C113_negative v w : is_nan v = false -> (double_value Negative_double v = Some w <-> w = v /\ is_finite v = true /\ B2R v < 0).
Proof.
  intros Hv. unfold Negative_double. rewrite C113_double by easy. rewrite fval_fzero, fneg_fval. assert (0 <= fval flarge) by (rewrite <- fval_fzero; apply flarge_max; reflexivity). destruct (finite_iff v Hv) as [G1 G2].
  destruct (is_finite v) eqn:F.
  - specialize (G1 eq_refl). rewrite (fval_finite v F) in *. split; [intros (-> & ? & _ & Q); specialize (Q eq_refl); repeat split; lra|]. intros (-> & _ & ?). repeat split; try lra; discriminate.
  - split; [intros (_ & Q & _)|intros (_ & Q & _); discriminate Q]. discriminate G2. lra.
Qed.
(** The statement without the restriction fails: every interval accepts NaN. *)
Theorem C113_nan I : double_value I B754_nan = Some B754_nan.
Proof. unfold double_value, bounded_value, contains. destruct I as [l r [] []]; destruct l as [|[]| |[]], r as [|[]| |[]]; reflexivity. Qed.
Theorem C113_bounded_value_refuted : exists p, double_value Probability p = Some p /\ ~ (fle fzero p = true /\ fle p fone = true).
Proof. exists B754_nan. split; [apply C113_nan|]. now intros [H _]. Qed.

Example C113_nonvacuous :
  double_value Probability (fmk 3 (-2)) = Some (fmk 3 (-2)) /\ double_value Probability (fmk 3 (-1)) = None /\ double_value Probability (fneg (fmk 1 (-1074))) = None /\
  double_value Positive_double fzero = None /\ double_value Positive_double (fneg fzero) = None /\ double_value NonNegative_double (fneg fzero) = Some (fneg fzero) /\ double_value NonNegative_double finf = None /\
  double_value Negative_double fzero = None /\ double_value Negative_double (fneg fone) = Some (fneg fone) /\ int_value Positive_size 0 = None /\ int_value Positive_size 1 = Some 1%Z.
Proof.
  unfold double_value, int_value, bounded_value.
  repeat match goal with |- context [if contains ?a ?b ?i ?v then _ else _] => let c := eval vm_compute in (contains a b i v) in replace (contains a b i v) with c by (vm_compute; reflexivity) end.
  repeat split.
Qed.
Print Assumptions C113_integer.
Print Assumptions C113_positive_size.
Print Assumptions C113_non_negative_size.
Print Assumptions C113_double.
Print Assumptions C113_probability.
Print Assumptions C113_non_negative.
Print Assumptions C113_positive.
Print Assumptions C113_negative.
Print Assumptions C113_nan.
Print Assumptions C113_bounded_value_refuted.
