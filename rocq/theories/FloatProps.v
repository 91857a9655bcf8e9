(** Properties of the tolerant comparisons and of dominance (C14, C15, C16, C17). *)
From Coq Require Import Reals ZArith Bool List Lra.
From Flocq Require Import Core BinarySingleNaN.
From Verif Require Import FloatBase FloatModel FloatSpec FloatProofs.
Import ListNotations.

(** The default tolerances, math.hpp 51-52: 1E-12 and 10 * eps. *)
Definition default_tolerances : tolerances := Tol (fmk 4951760157141521 (-92)) (fmk 10 (-52)).
Definition zero_tolerances : tolerances := Tol fzero fzero.

Lemma default_tolerances_ok : tol_ok default_tolerances.
Proof.
  split; [reflexivity|]. split; [reflexivity|].
  split; (apply Rle_bool_iff; rewrite <- (Bleb_correct 53 1024 fzero) by reflexivity; vm_compute; reflexivity).
Qed.
Lemma zero_tolerances_ok : tol_ok zero_tolerances.
Proof. repeat split; cbn; apply Rle_refl. Qed.

(** C14 *)
Theorem C14_float_comparison_trichotomy (t : tolerances) (a b : b64) :
  tol_ok t -> is_finite a = true -> is_finite b = true ->
  (* exactly one of less, equal, greater, and floatCompare says which *)
  match floatCompare t a b with
  | Lt => floatIsLess t a b = true /\ floatIsEqual t a b = false /\ floatIsGreater t a b = false
  | Eq => floatIsLess t a b = false /\ floatIsEqual t a b = true /\ floatIsGreater t a b = false
  | Gt => floatIsLess t a b = false /\ floatIsEqual t a b = false /\ floatIsGreater t a b = true
  end /\
  floatIsEqual t a b = floatIsEqual t b a /\
  floatIsGreater t a b = floatIsLess t b a /\
  (floatIsLess t a b = true -> floatIsLess t b a = false /\ (B2R a < B2R b)%R) /\
  floatIsEqual t a a = true /\
  floatIsLessEq t a b = floatIsLess t a b || floatIsEqual t a b /\
  floatIsGreaterEq t a b = floatIsGreater t a b || floatIsEqual t a b.
Proof.
  intros Ht Ha Hb. pose proof (float_trichotomy t Ht a b Ha Hb) as H.
  split; [exact H|]. split; [apply float_equal_sym; assumption|]. split; [apply float_greater_less; assumption|].
  split; [|split; [apply float_equal_refl; assumption|]].
  - intros Hl. split; [|apply (floatIsLess_lt t); assumption].
    rewrite <- float_greater_less by assumption. destruct (floatCompare t a b); destruct H as (H1&H2&H3); congruence.
  - unfold floatIsLessEq, floatIsGreaterEq. destruct (floatCompare t a b); destruct H as (->&->&->); split; reflexivity.
Qed.
Print Assumptions C14_float_comparison_trichotomy.

Theorem C14_float_comparison_exact (t : tolerances) (a b : b64) :
  tol_ok t -> B2R (absolute_tolerance t) = 0%R -> B2R (relative_tolerance t) = 0%R ->
  is_finite a = true -> is_finite b = true ->
  floatCompare t a b = Rcompare (B2R a) (B2R b) /\
  (floatIsLess t a b = true <-> (B2R a < B2R b)%R) /\
  (floatIsEqual t a b = true <-> B2R a = B2R b) /\
  (floatIsGreater t a b = true <-> (B2R b < B2R a)%R).
Proof.
  intros Ht H1 H2 Ha Hb. split; [apply floatCompare_exact; assumption|].
  rewrite float_greater_less, !floatIsLess_exact, floatIsEqual_exact by assumption. rewrite !Rlt_bool_iff.
  split; [easy|]. split; [|easy]. case Req_bool_spec; intros E; split; easy.
Qed.
Print Assumptions C14_float_comparison_exact.

Example C14_nonvacuous :
  tol_ok default_tolerances /\
  floatCompare default_tolerances (fmk 1 0) (fmk (2 ^ 52 + 3) (-52)) = Eq /\
  floatCompare default_tolerances (fmk 1 0) (fmk (2 ^ 38 + 1) (-38)) = Lt /\
  floatCompare zero_tolerances (fmk 1 (-1074)) (fmk 2 (-1074)) = Lt.
Proof. split; [apply default_tolerances_ok|]. vm_compute. easy. Qed.

(** C14: vectors are equal if they have the same length and equal components. *)
Theorem C14_vector_equality (t : tolerances) (u v : list b64) :
  floatVecIsEqual t u v = true <-> Forall2 (fun a b => floatIsEqual t a b = true) u v.
Proof.
  revert v. induction u as [|a u IH]; intros [|b v]; cbn; split; intros H; try discriminate; try (inversion H; fail); try constructor.
  - apply andb_true_iff in H. apply H.
  - apply IH. apply andb_true_iff in H. apply H.
  - inversion H; subst. apply andb_true_iff. split; [assumption|]. apply IH. assumption.
Qed.
Print Assumptions C14_vector_equality.
Example C14_vector_equality_nonvacuous :
  floatVecIsEqual default_tolerances [fmk 1 0; fmk 2 0] [fmk (2 ^ 52 + 3) (-52); fmk 2 0] = true /\
  floatVecIsEqual default_tolerances [fmk 1 0] [fmk 1 0; fmk 2 0] = false /\
  floatVecIsEqual default_tolerances [fmk 1 0; fmk 2 0] [fmk 1 0; fmk 3 0] = false.
Proof. vm_compute. easy. Qed.

(** C15: whatever the program, the globals are restored, and every read sees the
    values of the innermost enclosing scope. *)
Theorem C15_scoped_tolerances_restored (p : tprog) (g : tolerances) :
  texec p g = (g, fst (tlex p g), snd (tlex p g)).
Proof. apply texec_tlex. Qed.
Print Assumptions C15_scoped_tolerances_restored.

Example C15_nonvacuous :
  let p := Seq (Try (Scope finf fzero (Seq Observe (Scope fzero finf (Seq Observe Throw)))) Observe) Observe in
  texec p default_tolerances =
    (default_tolerances, [Tol finf fzero; Tol fzero finf; default_tolerances; default_tolerances], false).
Proof. reflexivity. Qed.

(** C16 (refuted): with the default tolerances two vectors dominate each other, and
    dominance is not transitive, even for non-negative vectors. *)
Definition w1 : b64 := fmk (-1024) 0.
Definition w2 : b64 := fmk (-1024 * 2 ^ 43 + 20) (-43).
Theorem C16_dominance_strict_partial_order_refuted :
  tol_ok default_tolerances /\
  (paretoCompareLess default_tolerances [w1; w2] [w2; w1] = true /\
   paretoCompareLess default_tolerances [w2; w1] [w1; w2] = true) /\
  (let a := [fzero; fmk 1 (-39)] in let b := [fmk 1 0; fmk 1 (-40)] in let c := [fmk 2 0; fzero] in
   paretoCompareLess default_tolerances a b = true /\ paretoCompareLess default_tolerances b c = true /\
   paretoCompareLess default_tolerances a c = false).
Proof. split; [apply default_tolerances_ok|]. vm_compute. easy. Qed.
Print Assumptions C16_dominance_strict_partial_order_refuted.

(** C16, what holds: irreflexive always; asymmetric when the relative tolerance is 0
    or the vectors are non-negative; equal to exact dominance, hence a strict partial
    order, when both tolerances are 0. *)
Theorem C16_dominance_strict_partial_order_partial (t : tolerances) (u v w : list b64) :
  tol_ok t -> finite_vec u -> finite_vec v -> finite_vec w ->
  length u = length v -> length v = length w ->
  paretoCompareLess t u u = false /\
  (B2R (relative_tolerance t) = 0%R \/ nonneg_vec u /\ nonneg_vec v ->
   paretoCompareLess t u v = true -> paretoCompareLess t v u = false) /\
  (B2R (absolute_tolerance t) = 0%R -> B2R (relative_tolerance t) = 0%R ->
   (paretoCompareLess t u v = true <-> dominated_by u v) /\
   (paretoCompareLess t u v = true -> paretoCompareLess t v w = true -> paretoCompareLess t u w = true)).
Proof.
  intros Ht Hu Hv Hw Hl Hl'. split; [apply pareto_less_irrefl; assumption|]. split.
  - intros Hs. apply pareto_less_asym; assumption.
  - intros H1 H2. split; [apply pareto_less_exact; assumption|].
    rewrite !(pareto_less_exact t Ht H1 H2) by (assumption || congruence). apply dominated_trans.
Qed.
Print Assumptions C16_dominance_strict_partial_order_partial.

Example C16_nonvacuous :
  tol_ok zero_tolerances /\ finite_vec [w1; fzero] /\ finite_vec [w2; fzero] /\ finite_vec [w2; fmk 1 0] /\
  paretoCompareLess zero_tolerances [w1; fzero] [w2; fzero] = true /\
  paretoCompareLess zero_tolerances [w2; fzero] [w2; fmk 1 0] = true.
Proof. split; [apply zero_tolerances_ok|]. repeat split; repeat constructor. Qed.

(** C17 (refuted): paretoCompare finds the two vectors equivalent, paretoCompareLess
    finds the first dominated. *)
Theorem C17_dominance_tests_agree_refuted :
  paretoCompare default_tolerances [w1] [w2] = 0%Z /\ paretoCompareLess default_tolerances [w1] [w2] = true.
Proof. vm_compute. easy. Qed.
Print Assumptions C17_dominance_tests_agree_refuted.

(** C17, what holds: a non-zero paretoCompare always agrees with paretoCompareLess, it
    is antisymmetric, and the two agree fully when the relative tolerance is 0 or the
    vectors are non-negative. *)
Theorem C17_dominance_tests_agree_partial (t : tolerances) (u v : list b64) :
  tol_ok t -> finite_vec u -> finite_vec v -> length u = length v ->
  (paretoCompare t u v = -1 \/ paretoCompare t u v = 0 \/ paretoCompare t u v = 1)%Z /\
  (paretoCompare t u v = 1 <-> paretoCompare t v u = -1)%Z /\
  (paretoCompare t u v = (-1)%Z -> paretoCompareLess t u v = true) /\
  (paretoCompare t u v = 1%Z -> paretoCompareLess t v u = true) /\
  (B2R (relative_tolerance t) = 0%R \/ nonneg_vec u /\ nonneg_vec v ->
   (paretoCompare t u v = (-1)%Z <-> paretoCompareLess t u v = true) /\
   (paretoCompare t u v = 1%Z <-> paretoCompareLess t v u = true)).
Proof.
  intros Ht Hu Hv Hl. pose proof (paretoCompare_swap t Ht u v Hl Hu Hv) as Hsw.
  split; [apply paretoCompare_spec; assumption|]. split; [exact Hsw|].
  split; [apply paretoCompare_less; assumption|].
  split; [intros H; apply Hsw in H; apply paretoCompare_less; (assumption || congruence)|].
  intros Hs. split; [apply paretoCompare_agree; assumption|]. rewrite Hsw.
  apply paretoCompare_agree; try assumption; [congruence|]. destruct Hs as [Hs|[H1 H2]]; [left; exact Hs|right; split; assumption].
Qed.
Print Assumptions C17_dominance_tests_agree_partial.

Example C17_nonvacuous :
  let u := [fmk 3 (-1); fmk 5 0] in let v := [fmk 7 (-2); fmk 5 0] in
  finite_vec u /\ finite_vec v /\ nonneg_vec u /\ nonneg_vec v /\ paretoCompare default_tolerances u v = (-1)%Z.
Proof.
  cbv zeta. split; [repeat constructor|]. split; [repeat constructor|].
  split; [apply nonneg_vec_check; reflexivity|]. split; [apply nonneg_vec_check; reflexivity|vm_compute; reflexivity].
Qed.
