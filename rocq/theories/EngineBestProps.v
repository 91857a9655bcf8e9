(** C42: the best fitness of the populations of a run. *)
From stdpp Require Import list list_numbers sets.
From Coq Require Import Lia Reals Lra.
From Flocq Require Import Core BinarySingleNaN.
From Verif Require Import FloatBase FloatModel FloatSpec FloatProofs FloatProps StdSort AlgorithmModel AlgorithmProofs AlgorithmProps ReplacementModel ReplacementSpec ReplacementProps CacheModel CacheSpec CacheProofs CrossoverModel OperatorModel OperatorSpec.
From Verif Require Import EngineModel EngineSpec EngineProofs EngineRuns EngineProps.

(** The best of [q] is at least the best of [p], as real numbers. *)
Definition best_kept {T} (p q : list (candidate T)) : Prop :=
  forall y v, y ∈ p -> fitness y = [v] -> exists x w, x ∈ q /\ fitness x = [w] /\ (B2R v <= B2R w)%R.
Definition one_number (r : list b64) : Prop := exists a, r = [a] /\ is_finite a = true.

Section c42.
Context {T : Type} `{EqDecision T}.
Notation cand := (candidate T).
Variable cf : settings T.
Variable oc : outcomes T.
Hypothesis HC : contract cf oc 1 one_number.
Hypothesis Hcache : dynamic cf = false \/ cached_generations cf = 0 \/ debug cf = false.
(** Elitism with at least one elite, or KeepBest. *)
Variable t : tolerances.
Variable sort0 : (nat -> nat -> bool) -> list nat -> list nat.
Variable psort0 : (nat -> nat -> bool) -> nat -> list nat -> list nat.
Variable full : bool.
Variable n : nat.
Hypothesis Hsort0 : sort_contract sort0.
Hypothesis Hpsort0 : partial_sort_contract psort0.
Hypothesis Htol : tol_ok t /\ B2R (absolute_tolerance t) = 0%R /\ B2R (relative_tolerance t) = 0%R.
Hypothesis Hn : 0 < n.
Hypothesis Hnext : (forall gen m, o_next oc gen m = Elitism t sort0 psort0 full (population_size cf) n m) \/
                   (forall gen m, o_next oc gen m = KeepBest t sort0 psort0 full (population_size cf) m).

Lemma best_refl (p : list cand) : best_kept p p.
Proof. intros y v Hy Hv. exists y, v. split; [done|]. split; [done|]. lra. Qed.
Lemma best_trans (p q r : list cand) : best_kept p q -> best_kept q r -> best_kept p r.
Proof.
  intros H1 H2 y v Hy Hv. destruct (H1 y v Hy Hv) as (x & w & Hx & Hw & Hle). destruct (H2 x w Hx Hw) as (z & u & Hz & Hu & Hle2). exists z, u. split; [done|]. split; [done|]. lra.
Qed.
Lemma advance_best g g' : runs cf 1 one_number g -> advance cf oc g = Some g' -> best_kept (population g) (population g').
Proof.
  intros R H. pose proof R as [R1 R2 R3 R4 R5].
  apply advance_Some in H as (ch0 & ch & cs & is & [A1 A2 A3 A4 A5 A6 A7 A8 (A9 & A10 & A11 & A12)]).
  destruct (make_children_runs cf oc 1 one_number HC Hcache (generation_cntr g) g R) as (l & E1 & Hl & Hll). rewrite A1 in E1. apply (inj Some) in E1. subst l.
  destruct (finish_runs cf oc 1 one_number HC Hcache ch0 (generation_cntr g) 0 g Hl R1 R5) as (l' & cs' & E2 & Hl' & Hll'). rewrite A2 in E2. apply (inj Some) in E2. injection E2 as <- _.
  set (m := fitness <$> population g ++ ch) in *.
  assert (Ho : one_objective m).
  { unfold m. apply (tight_rows cf one_number (population g ++ ch)). by apply Forall_app. }
  assert (Hlm : length m = 2 * population_size cf) by (unfold m; rewrite fmap_length, app_length; lia).
  pose proof (k_size _ _ _ _ HC) as Hsz. destruct Htol as (T1 & T2 & T3).
  assert (Hk : keeps_best greater1 (population_size cf) m is).
  { destruct (C42_one_generation t sort0 psort0 full (population_size cf) n m Hsort0 Hpsort0 T1 T2 T3 Ho Hlm Hsz Hn) as [(is1 & E & Hk) (is2 & E' & Hk')].
    destruct Hnext as [Hx|Hx]; rewrite Hx in A4.
    - rewrite A4 in E. by injection E as <-.
    - rewrite A4 in E'. injection E' as <-. intros j y Hj Hy. apply (Hk' j y); [lia|done]. }
  destruct (k_next _ _ _ _ HC (generation_cntr g) m Hlm Ho) as (is' & E3 & (Li & Ni & Bi)). rewrite A4 in E3. injection E3 as <-. unfold m in Bi. rewrite fmap_length in Bi. rewrite Forall_forall in Bi.
  destruct (C13_select _ (population g ++ ch) is Bi) as [(k & Hk' & Lk & Kk) Hm]. rewrite (Hm Ni), Hk' in A5. apply (inj Some) in A5.
  intros y v Hy Hv. apply elem_of_list_lookup in Hy as [j Hj]. pose proof (lookup_lt_Some _ _ _ Hj) as Hjl.
  destruct (Hk j [v]) as (i & x & Hi & Hx & Hnb); [lia|unfold m; rewrite list_lookup_fmap, (lookup_app_l_Some _ _ _ _ Hj); cbn; by rewrite Hv|].
  unfold m in Hx. rewrite list_lookup_fmap in Hx. destruct ((population g ++ ch) !! i) as [c|] eqn:Hc; [|done]. cbn in Hx. apply (inj Some) in Hx. subst x.
  apply elem_of_list_lookup in Hi as [a Ha]. specialize (Kk a i Ha). rewrite Hc, A5 in Kk.
  assert (Hrow : one_number (fitness c)).
  { unfold one_objective in Ho. rewrite Forall_lookup in Ho. apply (Ho i). unfold m. by rewrite list_lookup_fmap, Hc. }
  destruct Hrow as (w & Ew & _). exists c, w. split; [apply elem_of_list_lookup; eauto|]. split; [done|].
  destruct (Rle_lt_dec (B2R v) (B2R w)) as [Hle|Hlt]; [done|]. exfalso. apply Hnb. by exists v, w.
Qed.

Record best_state (g : ga T) : Prop := {
  b_runs : runs cf 1 one_number g;
  b_last : exists v, last (callbacks (log g)) = Some v /\ v_pop v = population g;
  b_log : forall i j v w, i <= j -> callbacks (log g) !! i = Some v -> callbacks (log g) !! j = Some w -> best_kept (v_pop v) (v_pop w);
}.
(** The statement is about the populations on_generation_end sees, which are those of all
    generations, see C51; the last of them is the population after the run. *)
Theorem C42_best_never_decreases_partial s generations initial g sols g' :
  valid_initial cf one_number initial -> crepr (fitness_cache g) s ->
  solve cf oc generations initial g = Some (sols, g') ->
  forall i j v w, i <= j -> callbacks (log g') !! i = Some v -> callbacks (log g') !! j = Some w -> best_kept (v_pop v) (v_pop w) /\ best_kept (v_pop v) (population g').
Proof.
  intros Hi Hca H.
  assert (Hinv : exists gl, best_state gl /\ stop_now oc gl /\ solved cf oc g gl sols g').
  { eapply solve_inv; [| |exact H].
    - intros g1 H1. destruct (initialize_runs cf oc 1 one_number HC Hcache (fun _ _ => True) initial (set_max_gen generations g) Hi) as (g2 & E & Hr & _); [by exists s|]. rewrite H1 in E. apply (inj Some) in E. subst g2.
      apply initialize_Some in H1 as (pop0 & cs & [I1 I2 I3 I4 I5 I6 I7]).
      assert (Hcb : callbacks (log g1) = [View 0 (length cs) (population g1) (fitness_matrix g1)]) by (rewrite I6; cbn zeta; by logs).
      split; [done|rewrite Hcb; eexists; done|]. rewrite Hcb. intros i j v w _ Hv Hw. destruct i, j; try done. cbn in Hv, Hw. apply (inj Some) in Hv, Hw. subst v w. apply best_refl.
    - intros g0 g1 [R (v0 & L & Lp) Lg] _ H1. destruct (advance_runs cf oc 1 one_number HC Hcache _ (runs_stopped cf 1 one_number _ R)) as (g2 & E & R'). rewrite H1 in E. apply (inj Some) in E. subst g2.
      pose proof (advance_best _ _ (runs_stopped cf 1 one_number _ R) H1) as Hb. cbn [stopped emit population] in Hb.
      apply advance_Some in H1 as (ch0 & ch & cs & is & [A1 A2 A3 A4 A5 A6 A7 A8 A9]).
      set (w0 := View (generation_cntr g0) (num_fitness_evals g0 + length cs) (population g1) (fitness_matrix g1)).
      assert (Hcb : callbacks (log g1) = callbacks (log g0) ++ [w0]) by (rewrite A8; cbn zeta; by logs).
      assert (Hall : forall i v, callbacks (log g0) !! i = Some v -> best_kept (v_pop v) (population g1)).
      { intros i v Hv. apply (best_trans _ (population g0)); [|done]. rewrite <- Lp. rewrite last_lookup in L. eapply Lg; [|exact Hv|exact L]. apply lookup_lt_Some in Hv. lia. }
      split; [done|rewrite Hcb, last_snoc; by exists w0|]. rewrite Hcb. intros i j v w Hij Hv Hw. apply lookup_app_Some in Hw as [Hw|[Hw1 Hw]].
      + apply lookup_app_Some in Hv as [Hv|[Hv1 Hv]]; [by eapply Lg|]. apply lookup_lt_Some in Hw. lia.
      + assert (Ew : w = w0). { apply list_lookup_singleton_Some in Hw as [_ Hw]. done. } subst w. apply lookup_app_Some in Hv as [Hv|[Hv1 Hv]]; [by eapply Hall|].
        apply list_lookup_singleton_Some in Hv as [_ <-]. apply best_refl. }
  destruct Hinv as (gl & [R (v0 & L & Lp) Lg] & _ & [Z1 Z2 (Z3 & Z4 & Z5 & Z6 & Z7 & Z8) _ _]).
  assert (Hcb : callbacks (log g') = callbacks (log gl)) by (rewrite Z1; by logs). rewrite Hcb, Z6. intros i j v w Hij Hv Hw. split; [by eapply Lg|].
  rewrite <- Lp. rewrite last_lookup in L. eapply Lg; [|exact Hv|exact L]. apply lookup_lt_Some in Hv. lia.
Qed.
End c42.
Print Assumptions C42_best_never_decreases_partial.
