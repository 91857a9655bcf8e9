(** C49-C53, C56, C57: invariants of whole runs. *)
From stdpp Require Import list list_numbers sets.
From Coq Require Import Lia.
From Verif Require Import FloatBase FloatModel FloatSpec StdSort AlgorithmModel AlgorithmProofs AlgorithmProps FrontSpec FrontModel FrontProps ReplacementSpec CacheModel CacheSpec CacheProofs CrossoverModel OperatorModel OperatorSpec CrossoverOpProps.
From Verif Require Import EngineModel EngineSpec EngineProofs EngineRuns.

Section logs.
Context {T : Type}.
Lemma callbacks_app (a b : list (event T)) : callbacks (a ++ b) = callbacks a ++ callbacks b. Proof. apply omap_app. Qed.
Lemma calls_app (a b : list (event T)) : calls (a ++ b) = calls a ++ calls b. Proof. apply omap_app. Qed.
Lemma hook_app (a b : list (event T)) : hook_order (a ++ b) = hook_order a ++ hook_order b. Proof. apply omap_app. Qed.
Lemma callbacks_calls (cs : list (list T)) : callbacks (ECall <$> cs) = []. Proof. induction cs; [done|]. exact IHcs. Qed.
Lemma hook_calls (cs : list (list T)) : hook_order (ECall <$> cs) = []. Proof. induction cs; [done|]. exact IHcs. Qed.
Lemma calls_calls (cs : list (list T)) : calls (ECall <$> cs) = cs. Proof. induction cs as [|c cs IH]; [done|]. cbn. f_equal. exact IH. Qed.
Lemma callbacks_hooks (v w : view T) : callbacks [EMetrics v; ECallback w] = [w]. Proof. done. Qed.
Lemma callbacks_stop (v : view T) : callbacks [EStop v] = []. Proof. done. Qed.
Lemma calls_hooks (v w : view T) : calls [EMetrics v; ECallback w] = []. Proof. done. Qed.
Lemma calls_metrics (v : view T) : calls [EMetrics v] = []. Proof. done. Qed.
Lemma calls_callback (v : view T) : calls [ECallback v] = []. Proof. done. Qed.
Lemma calls_stop (v : view T) : calls [EStop v] = []. Proof. done. Qed.
Lemma hook_hooks (v w : view T) : hook_order [EMetrics v; ECallback w] = [HMetrics; HCallback]. Proof. done. Qed.
Lemma hook_stop (v : view T) : hook_order [EStop v] = [HStop]. Proof. done. Qed.
Lemma log_stopped (g : ga T) : log (stopped g) = log g ++ [EStop (view_of g)]. Proof. done. Qed.
End logs.
Ltac logs := rewrite ?log_stopped, ?callbacks_app, ?calls_app, ?hook_app, ?callbacks_calls, ?calls_calls, ?hook_calls, ?callbacks_hooks, ?callbacks_stop, ?calls_hooks, ?calls_metrics, ?calls_callback, ?calls_stop, ?hook_hooks, ?hook_stop, ?app_nil_r, ?app_nil_l.
Ltac logs_in H := rewrite ?log_stopped, ?callbacks_app, ?calls_app, ?hook_app, ?callbacks_calls, ?calls_calls, ?hook_calls, ?callbacks_hooks, ?callbacks_stop, ?calls_hooks, ?calls_metrics, ?calls_callback, ?calls_stop, ?hook_hooks, ?hook_stop, ?app_nil_r, ?app_nil_l in H.

Section members.
Context {T : Type} `{EqDecision T}.
Lemma select_copy_in {A} (l : list A) is : forall k, select_copy l is = Some k -> forall x, x ∈ k -> x ∈ l.
Proof.
  induction is as [|i is IH]; intros k Hk x Hx; cbn in Hk.
  - injection Hk as <-. by apply elem_of_nil in Hx.
  - destruct (l !! i) eqn:Ei; [|done]. destruct (select_copy l is) as [k'|] eqn:El; [|done]. injection Hk as <-.
    apply elem_of_cons in Hx as [->|Hx]; [by eapply elem_of_list_lookup_2|]. by apply (IH k').
Qed.
Lemma select_move_loop_in {A} is : forall (l : list (option A)) k, select_move_loop l is = Some k -> length k = length is /\ forall x, x ∈ k -> Some x ∈ l.
Proof.
  induction is as [|i is IH]; intros l k Hk; cbn in Hk.
  - injection Hk as <-. split; [done|]. intros x Hx. by apply elem_of_nil in Hx.
  - destruct (l !! i) as [c|] eqn:Ei; [|done]. cbn in Hk. destruct c as [y|]; [|done]. cbn in Hk. destruct (select_move_loop _ is) as [k'|] eqn:El; [|done]. injection Hk as <-.
    destruct (IH _ _ El) as [L Hin]. split; [cbn; by rewrite L|]. intros x Hx. apply elem_of_cons in Hx as [->|Hx]; [by eapply elem_of_list_lookup_2|].
    specialize (Hin x Hx). apply elem_of_list_lookup in Hin as [j Hj]. destruct (decide (i = j)) as [->|Hne].
    + rewrite list_lookup_insert in Hj by (by eapply lookup_lt_Some). done.
    + rewrite list_lookup_insert_ne in Hj by done. by eapply elem_of_list_lookup_2.
Qed.
Lemma select_move_in {A} (l : list A) is k : select_move l is = Some k -> length k = length is /\ forall x, x ∈ k -> x ∈ l.
Proof.
  intros H. apply select_move_loop_in in H as [L H]. split; [done|]. intros x Hx. apply H in Hx. by apply (elem_of_list_fmap_inj Some).
Qed.
Lemma unique_in {A} (eqb : A -> A -> bool) l x : x ∈ unique eqb l -> x ∈ l.
Proof.
  destruct l as [|y l]; [done|]. cbn. assert (H : forall y, x ∈ unique_from eqb y l -> x ∈ l).
  { induction l as [|z l IH]; intros y'; [done|]. cbn. destruct (eqb y' z); [intros Hx; apply elem_of_cons; right; by apply (IH y')|].
    intros Hx. apply elem_of_cons in Hx as [->|Hx]; apply elem_of_cons; [by left|right; by apply (IH z)]. }
  intros Hx. apply elem_of_cons in Hx as [->|Hx]; apply elem_of_cons; [by left|right; by apply (H y)].
Qed.
Variable cf : settings T.
Variable oc : outcomes T.
Lemma optimal_in gen g l : optimalSolutions cf oc gen g = Some l -> forall x, x ∈ l -> x ∈ population g.
Proof.
  unfold optimalSolutions. intros H. apply assertion_Some in H as [H _]. destruct (o_optimal oc gen (fitness_matrix g)); [|by eapply select_copy_in].
  unfold findParetoFrontPop in H. case_decide; [injection H as <-; intros x Hx; by apply elem_of_nil in Hx|]. apply bind_Some in H as (is & _ & H). by eapply select_copy_in.
Qed.
Lemma pareto_in (t : tolerances) d (pop l : list (candidate T)) : findParetoFrontPop t fitness d pop = Some l -> forall x, x ∈ l -> x ∈ pop.
Proof.
  intros H. unfold findParetoFrontPop in H. case_decide; [injection H as <-; intros x Hx; by apply elem_of_nil in Hx|]. apply bind_Some in H as (is & _ & H). by eapply select_copy_in.
Qed.
End members.

(** Order and sorting of chromosomes as std::sort needs them; merging two Pareto sets
    only drops candidates. *)
Definition sorts_chromosomes {T} (cf : settings T) : Prop :=
  sort_contract (sort cf) /\ forall l, swo_on (fun a b : candidate T => chrom_less cf (chromosome a) (chromosome b)) l.
Definition merge_drops {T} (oc : outcomes T) : Prop := forall gen l r x, x ∈ o_merge oc gen l r -> x ∈ l \/ x ∈ r.

(** ** Runs do not fail and terminate, see C51 and C57 *)
Theorem run_terminates {T : Type} `{EqDecision T} (cf : settings T) (oc : outcomes T) (d : nat) (row : list b64 -> Prop)
    (generations : nat) (initial : list (candidate T)) (g : ga T) (s : fifo (list T) (list b64)) :
  contract cf oc d row -> dynamic cf = false \/ cached_generations cf = 0 \/ debug cf = false ->
  valid_initial cf row initial -> crepr (fitness_cache g) s -> 0 < generations ->
  exists sols g' s', solve cf oc generations initial g = Some (sols, g') /\ crepr (fitness_cache g') s'.
Proof.
  intros HC Hc Hi Hr Hn. destruct (solve_runs cf oc d row HC Hc (fun _ _ => True) generations initial g Hi) as (sols & g' & E & (s' & Hs' & _)); [by exists s|done|].
  by exists sols, g', s'.
Qed.
Print Assumptions run_terminates.

(** ** C49 *)
Section c49.
Context {T : Type} `{EqDecision T}.
Notation cand := (candidate T).
Variable cf : settings T.
Variable oc : outcomes T.
Variable f0 : list T -> list b64.
Hypothesis static : dynamic cf = false.
Hypothesis f_static : forall n c, fitness_function cf n c = f0 c.
Hypothesis eq_exact : forall a b, chrom_eq cf a b = true -> a = b.
Hypothesis Hsort : sorts_chromosomes cf.
Hypothesis Hmerge : merge_drops oc.

Lemma update_in (sols opt : list cand) gen x :
  x ∈ unique (fun l r : cand => bool_decide (chromosome l = chromosome r)) (sort cf (fun l r : cand => chrom_less cf (chromosome l) (chromosome r)) (o_merge oc gen sols opt)) ->
  x ∈ sols \/ x ∈ opt.
Proof. intros Hx. apply unique_in in Hx. destruct Hsort as [Hs Hw]. destruct (Hs _ (o_merge oc gen sols opt) (Hw _)) as [Hp _]. rewrite <- Hp in Hx. by apply Hmerge in Hx. Qed.
Record sound_state (g : ga T) : Prop := {
  s_pop : Forall (evaluated_by f0) (population g);
  s_sols : Forall (evaluated_by f0) (solutions g);
  s_cache : cache_ok (fun k v => v = f0 k) (fitness_cache g);
  s_log : forall v, v ∈ callbacks (log g) -> Forall (evaluated_by f0) (v_pop v);
}.
Lemma sound_cache c : cache_ok (fun k v => v = f0 k) c -> cache_sound f0 c.
Proof. intros H k v Hv. exact (cache_ok_get _ _ _ _ H Hv). Qed.
Lemma insert_sound (c c' : cache (list T) (list b64)) (pop : list cand) : Forall (evaluated_by f0) pop -> cache_ok (fun k v => v = f0 k) c ->
  cache_insert_range c ((fun s : cand => (chromosome s, fitness s)) <$> pop) = Some c' -> cache_ok (fun k v => v = f0 k) c'.
Proof.
  intros Hp Hc H. destruct (cache_ok_insert (fun k v => v = f0 k) c ((fun s : cand => (chromosome s, fitness s)) <$> pop) Hc) as (c2 & E & Hok).
  { intros k v Hin. apply elem_of_list_fmap in Hin as (x & [= -> ->] & Hin). rewrite Forall_forall in Hp. by apply Hp. }
  rewrite E in H. by injection H as <-.
Qed.
Lemma evaluate_all_sound l : forall g l' g', Forall (fitness_sound f0) l -> cache_sound f0 (fitness_cache g) -> evaluate_all cf l g = Some (l', g') -> Forall (evaluated_by f0) l'.
Proof.
  induction l as [|c l IH]; intros g l' g' Hl Hc H; cbn [evaluate_all] in H; [injection H as <- <-; constructor|].
  apply bind_Some in H as ([c1 g1] & E1 & H). apply bind_Some in H as ([l2 g2] & E2 & H). injection H as <- <-. apply Forall_cons in Hl as [H1 Hl].
  destruct (evaluate_called _ _ _ _ _ E1) as (cs & -> & _). constructor; [by eapply evaluate_sound|]. exact (IH (called cs g) _ _ Hl Hc E2).
Qed.
Lemma initialize_sound Q initial g g' : Forall (fitness_sound f0) initial -> cache_ok Q (fitness_cache g) -> initializeAlgorithm cf oc initial g = Some g' -> sound_state g'.
Proof.
  intros Hi Hca H. apply initialize_Some in H as (pop0 & cs & [I1 I2 I3 I4 I5 I6 I7]).
  destruct (cache_ok_reset (fun k v => v = f0 k) Q (fitness_cache g) ((if dynamic cf then 0 else 1) * cached_generations cf * population_size cf) Hca) as (c' & E & Hok).
  rewrite I1 in E. injection E as <-.
  assert (Hp0 : Forall (fitness_sound f0) pop0).
  { unfold generatePopulation in I2. apply assertion_Some in I2 as [I2 _]. cbn zeta in I2. apply assertion_Some in I2 as [I2 _]. injection I2 as <-. apply Forall_app. split; [by apply Forall_take|].
    apply Forall_fmap. apply Forall_forall. by intros k _. }
  assert (Hp : Forall (evaluated_by f0) (population g')) by (eapply evaluate_all_sound; [exact Hp0| |exact I3]; by apply sound_cache).
  split; [done| |done|].
  - destruct (keep_all cf); [|rewrite I5; constructor]. apply Forall_forall. intros x Hx. rewrite Forall_forall in Hp. apply Hp. by eapply pareto_in.
  - intros v Hv. rewrite I6, callbacks_app, callbacks_calls in Hv. cbn in Hv. apply elem_of_list_singleton in Hv as ->. done.
Qed.
Lemma advance_sound g g' : sound_state g -> advance cf oc g = Some g' -> sound_state g'.
Proof.
  intros [H1 H2 H3 H4] H. apply advance_Some in H as (ch0 & ch & cs & is & [A1 A2 A3 A4 A5 A6 A7 A8 A9]).
  assert (Hch0 : Forall (fitness_sound f0) ch0).
  { eapply make_children_Forall; [|exact A1]. intros i p1 p2 pc r c1 c2 Hp1 Hp2 Hc. rewrite Forall_forall in H1. pose proof (proj2 (H1 p1 Hp1)) as F1. pose proof (proj2 (H1 p2 Hp2)) as F2.
    destruct (crossover_op_flags (chrom_eq cf) (num_objectives g) (chrom_len cf) (variable_length cf) eq (fun _ => eq_refl) eq_exact _ _ _ _ _ _ _ Hc) as [K1 K2].
    assert (Hone : forall c, flag_from eq [p1; p2] c -> fitness_sound f0 c).
    { intros c Hf He. destruct (Hf He) as (p & Hp & _ & -> & ->). apply elem_of_cons in Hp as [->|Hp]; [done|]. by apply elem_of_list_singleton in Hp as ->. }
    split; by apply Hone. }
  pose proof (finish_sound cf oc f0 ch0 static f_static eq_exact _ _ _ _ _ (sound_cache _ H3) Hch0 A2) as Hch.
  assert (Hp : Forall (evaluated_by f0) (population g')).
  { apply Forall_forall. intros x Hx. apply select_move_in in A5 as [_ A5]. apply A5 in Hx. apply elem_of_app in Hx as [Hx|Hx]; [rewrite Forall_forall in H1; by apply H1|rewrite Forall_forall in Hch; by apply Hch]. }
  split; [done| |exact (insert_sound _ _ _ H1 H3 A3)|].
  - destruct (keep_all cf); [|by rewrite A7]. destruct A7 as (opt & Ho & ->). apply Forall_forall. intros x Hx. apply update_in in Hx as [Hx|Hx]; [rewrite Forall_forall in H2; by apply H2|].
    rewrite Forall_forall in Hp. apply Hp. exact (optimal_in cf oc _ _ _ Ho x Hx).
  - intros v Hv. rewrite A8, !callbacks_app, callbacks_calls in Hv. apply elem_of_app in Hv as [Hv|Hv]; [by apply H4|]. cbn in Hv. apply elem_of_list_singleton in Hv as ->. done.
Qed.
Lemma sound_stopped g : sound_state g -> sound_state (stopped g).
Proof. intros [H1 H2 H3 H4]. split; try done. intros v Hv. unfold stopped, emit in Hv. cbn [log] in Hv. rewrite callbacks_app in Hv. apply H4. apply elem_of_app in Hv as [Hv|Hv]; [done|]. by apply elem_of_nil in Hv. Qed.
Lemma solve_sound s generations initial g sols g' : Forall (fitness_sound f0) initial -> crepr (fitness_cache g) s ->
  solve cf oc generations initial g = Some (sols, g') -> exists gl, sound_state gl /\ stop_now oc gl /\ solved cf oc g gl sols g'.
Proof.
  intros Hi Hr. apply solve_inv.
  - intros g1 H1. eapply (initialize_sound (fun _ _ => True)); [exact Hi| |exact H1]. by exists s.
  - intros g0 g1 Hs _ H1. eapply advance_sound; [|exact H1]. by apply sound_stopped.
Qed.
Theorem C49_fitness_sound_partial s generations initial g sols g' :
  Forall (fitness_sound f0) initial -> crepr (fitness_cache g) s ->
  solve cf oc generations initial g = Some (sols, g') ->
  (forall v, v ∈ callbacks (log g') -> forall c, c ∈ v_pop v -> is_evaluated c = true /\ fitness c = f0 (chromosome c)) /\
  (forall c, c ∈ population g' -> is_evaluated c = true /\ fitness c = f0 (chromosome c)) /\
  (forall c, c ∈ sols -> is_evaluated c = true /\ fitness c = f0 (chromosome c)).
Proof.
  intros Hi Hr H. destruct (solve_sound _ _ _ _ _ _ Hi Hr H) as (gl & [S1 S2 S3 S4] & _ & [L M (_ & _ & _ & P & _) _ Z]). rewrite Forall_forall in S1, S2. split_and!.
  - intros v Hv c Hc. rewrite L, callbacks_app in Hv. apply elem_of_app in Hv as [Hv|Hv]; [|by apply elem_of_nil in Hv]. specialize (S4 v Hv). rewrite Forall_forall in S4. by apply S4.
  - intros c Hc. rewrite P in Hc. by apply S1.
  - intros c Hc. destruct (keep_all cf); [subst sols; by apply S2|]. destruct Z as (opt & Ho & ->). apply update_in in Hc as [Hc|Hc]; [by apply S2|].
    apply S1. exact (optimal_in cf oc _ _ _ Ho c Hc).
Qed.
End c49.
Print Assumptions C49_fitness_sound_partial.

(** ** C50 *)
Theorem C50_population_size {T : Type} `{EqDecision T} (cf : settings T) (oc : outcomes T) generations initial g sols g' :
  (forall gen m is, o_next oc gen m = Some is -> length is = population_size cf) ->
  solve cf oc generations initial g = Some (sols, g') ->
  (forall v, v ∈ callbacks (log g') -> length (v_pop v) = population_size cf /\ v_fmat v = fitness <$> v_pop v) /\
  length (population g') = population_size cf /\ fitness_matrix g' = fitness <$> population g'.
Proof.
  intros Hn H.
  assert (Hinv : exists gl, (length (population gl) = population_size cf /\ fitness_matrix gl = fitness <$> population gl /\
      forall v, v ∈ callbacks (log gl) -> length (v_pop v) = population_size cf /\ v_fmat v = fitness <$> v_pop v) /\ stop_now oc gl /\ solved cf oc g gl sols g').
  { eapply solve_inv; [| |exact H].
    - intros g1 H1. apply initialize_Some in H1 as (pop0 & cs & [I1 I2 I3 I4 I5 I6 I7]).
      assert (Hl : length (population g1) = population_size cf).
      { destruct (evaluate_all_Some _ _ _ _ _ I3) as (_ & _ & _ & -> & _). unfold generatePopulation in I2. apply assertion_Some in I2 as [I2 _]. cbn zeta in I2. apply assertion_Some in I2 as [I2 _]. injection I2 as <-.
        rewrite app_length, take_length, fmap_length, seq_length. lia. }
      split; [done|]. split; [done|]. intros v Hv. rewrite I6, callbacks_app, callbacks_calls in Hv. cbn in Hv. apply elem_of_list_singleton in Hv as ->. done.
    - intros g0 g1 (L0 & F0 & V0) _ H1. apply advance_Some in H1 as (ch0 & ch & cs & is & [A1 A2 A3 A4 A5 A6 A7 A8 A9]).
      assert (Hl : length (population g1) = population_size cf). { apply select_move_in in A5 as [-> _]. exact (Hn _ _ _ A4). }
      split; [done|]. split; [done|]. intros v Hv. rewrite A8 in Hv. cbn zeta in Hv. logs_in Hv. apply elem_of_app in Hv as [Hv|Hv]; [by apply V0|]. apply elem_of_list_singleton in Hv as ->. done. }
  destruct Hinv as (gl & (L0 & F0 & V0) & _ & [L M (_ & _ & _ & P & F & _) _ Z]). rewrite P, F. split; [|done].
  intros v Hv. rewrite L, callbacks_app in Hv. apply elem_of_app in Hv as [Hv|Hv]; [by apply V0|by apply elem_of_nil in Hv].
Qed.
Print Assumptions C50_population_size.

(** ** C51 *)
Lemma mjoin_snoc {A} (l : list (list A)) x : mjoin (l ++ [x]) = mjoin l ++ x.
Proof.
  induction l as [|y l IH]; [change (x ++ [] = x); apply app_nil_r|]. change (y ++ mjoin (l ++ [x]) = (y ++ mjoin l) ++ x). by rewrite IH, app_assoc.
Qed.
Lemma once_snoc n : once_per_generation (S n) = once_per_generation n ++ [HMetrics; HCallback; HStop].
Proof. unfold once_per_generation. by rewrite replicate_S_end, mjoin_snoc. Qed.
Theorem C51_generations {T : Type} `{EqDecision T} (cf : settings T) (oc : outcomes T) generations initial g sols g' :
  solve cf oc generations initial g = Some (sols, g') ->
  exists n, 1 <= n <= Nat.max 1 generations /\
    hook_order (log g') = once_per_generation n /\
    (* it is the stop condition or the limit that ends the run, at the first opportunity *)
    (forall k, k + 1 < n -> o_stop oc k = false /\ k + 1 < generations) /\
    (o_stop oc (n - 1) = true \/ generations <= n) /\
    generation_cntr g' = n - 1 /\ max_gen g' = max_gen g.
Proof.
  intros H.
  assert (Hinv : exists gl, (max_gen gl = generations /\ hook_order (log gl) = once_per_generation (generation_cntr gl) ++ [HMetrics; HCallback] /\
      forall k, k < generation_cntr gl -> o_stop oc k = false /\ k + 1 < generations) /\ stop_now oc gl /\ solved cf oc g gl sols g').
  { eapply solve_inv; [| |exact H].
    - intros g1 H1. apply initialize_Some in H1 as (pop0 & cs & [I1 I2 I3 I4 I5 I6 (I7 & I8 & _)]). rewrite I7, I6, I8. cbn zeta. logs. split; [done|]. split; [done|]. lia.
    - intros g0 g1 (M0 & L0 & V0) Hns H1. apply advance_Some in H1 as (ch0 & ch & cs & is & [A1 A2 A3 A4 A5 A6 A7 A8 (A9 & A10 & _)]). rewrite A9, A10, A8. cbn zeta.
      split; [done|]. split; [logs; cbn [stopped emit generation_cntr]; rewrite once_snoc, L0, <- !app_assoc; done|]. cbn [stopped emit generation_cntr]. intros k Hk.
      assert (Hc : k < generation_cntr g0 \/ k = generation_cntr g0) by lia. destruct Hc as [Hc| ->]; [by apply V0|].
      unfold stop_now in Hns. rewrite M0 in Hns. split; [destruct (o_stop oc (generation_cntr g0)); [exfalso; apply Hns; by left|done]|]. destruct (decide (generation_cntr g0 + 1 < generations)); [done|]. exfalso. apply Hns. right. lia. }
  destruct Hinv as (gl & (M0 & L0 & V0) & Hs & [L M (C & _) _ _]). exists (S (generation_cntr gl)).
  assert (Hmax : generation_cntr gl + 1 <= Nat.max 1 generations).
  { destruct (generation_cntr gl) as [|k] eqn:E; [lia|]. destruct (V0 k); lia. }
  split; [lia|]. split; [rewrite L, hook_app, L0, once_snoc, <- app_assoc; done|]. split; [intros k Hk; apply V0; lia|]. split; [|split; [rewrite C; lia|done]].
  replace (S (generation_cntr gl) - 1) with (generation_cntr gl) by lia. destruct Hs as [Hs|Hs]; [by left|]. right. lia.
Qed.
Print Assumptions C51_generations.
(** The rest of C51: a run does not depend on what earlier runs left in the counters and
    the other members (the cache is emptied, see [run_terminates] for its state). *)
Section c51.
Context {T : Type} `{EqDecision T}.
Variable cf : settings T.
Variable oc : outcomes T.
Definition with_fmat (m : list (list b64)) (g : ga T) : ga T :=
  Ga (max_gen g) (generation_cntr g) (num_fitness_evals g) (num_objectives g) (population g) m (solutions g) (fitness_cache g) (log g).
Lemma evaluate_fmat m c g : evaluate cf c (with_fmat m g) = (fun p => (p.1, with_fmat m p.2)) <$> evaluate cf c g.
Proof.
  unfold evaluate, assertion, check. destruct (debug cf); destruct (dynamic cf), (is_evaluated c), (Nat.eqb (cached_generations cf) 0); cbn [negb andb];
    repeat case_decide; cbn [with_fmat fitness_cache num_objectives num_fitness_evals] in *; try done; destruct (cache_get (fitness_cache g) (chromosome c)); cbn; try done; by repeat case_decide.
Qed.
Lemma evaluate_all_fmat m l : forall g, evaluate_all cf l (with_fmat m g) = (fun p => (p.1, with_fmat m p.2)) <$> evaluate_all cf l g.
Proof.
  induction l as [|c l IH]; intros g; [done|]. cbn [evaluate_all]. rewrite evaluate_fmat. destruct (evaluate cf c g) as [[c' g']|]; [|done]. cbn [fmap option_fmap option_map mbind option_bind fst snd].
  rewrite IH. destruct (evaluate_all cf l g') as [[l' g'']|]; done.
Qed.
Theorem C51_counters_reset (generations : nat) (initial : list (candidate T)) (g : ga T) cntr evals objectives pop m s lg :
  solve cf oc generations initial (Ga (max_gen g) cntr evals objectives pop m s (fitness_cache g) lg) = solve cf oc generations initial g.
Proof.
  unfold solve. cbn [max_gen]. assert (E : forall g', initializeAlgorithm cf oc initial (set_max_gen generations (Ga (max_gen g') cntr evals objectives pop m s (fitness_cache g') lg)) = initializeAlgorithm cf oc initial (set_max_gen generations g')).
  { intros g'. unfold initializeAlgorithm. cbn [set_max_gen fitness_cache max_gen fitness_matrix]. destruct (cache_reset _ _) as [c|]; [|done]. cbn [mbind option_bind]. cbn zeta.
    destruct (generatePopulation cf oc initial (length (fitness_function cf 0 (o_probe oc)))) as [p|]; cbn [mbind option_bind]; [|done].
    match goal with |- context [evaluate_all cf p ?a] => change (evaluate_all cf p a) with (evaluate_all cf p (with_fmat m (with_fmat [] a))) end.
    match goal with |- context [evaluate_all cf p (with_fmat m ?a)] => rewrite (evaluate_all_fmat m p a) end.
    match goal with |- _ = assertion _ _ (evaluate_all cf p ?a ≫= _) => change (evaluate_all cf p a) with (evaluate_all cf p (with_fmat (fitness_matrix g') (with_fmat [] a))) end.
    match goal with |- context [evaluate_all cf p (with_fmat (fitness_matrix g') ?a)] => rewrite (evaluate_all_fmat (fitness_matrix g') p a) end.
    unfold with_fmat at 2 4. cbn. destruct (evaluate_all cf p _) as [[l h]|]; cbn; done. }
  rewrite E. done.
Qed.
End c51.
Print Assumptions C51_counters_reset.

(** ** C52: the counter is one too low in every callback but the first *)
Theorem C52_generation_counter_partial {T : Type} `{EqDecision T} (cf : settings T) (oc : outcomes T) generations initial g sols g' :
  solve cf oc generations initial g = Some (sols, g') ->
  v_gen <$> callbacks (log g') = 0 :: seq 0 (generation_cntr g').
Proof.
  intros H.
  assert (Hinv : exists gl, (v_gen <$> callbacks (log gl) = 0 :: seq 0 (generation_cntr gl)) /\ stop_now oc gl /\ solved cf oc g gl sols g').
  { eapply solve_inv; [| |exact H].
    - intros g1 H1. apply initialize_Some in H1 as (pop0 & cs & [I1 I2 I3 I4 I5 I6 (I7 & I8 & _)]). rewrite I6, I8. cbn zeta. logs. done.
    - intros g0 g1 L0 Hns H1. apply advance_Some in H1 as (ch0 & ch & cs & is & [A1 A2 A3 A4 A5 A6 A7 A8 (A9 & A10 & _)]). rewrite A8, A10. cbn zeta.
      logs. rewrite fmap_app, L0. cbn [fmap list_fmap v_gen stopped emit generation_cntr app]. f_equal. change (0 :: seq 1 (generation_cntr g0)) with (seq 0 (S (generation_cntr g0))). by rewrite seq_S. }
  destruct Hinv as (gl & L0 & Hs & [L M (C & _) _ _]). rewrite L, C. by logs.
Qed.
Print Assumptions C52_generation_counter_partial.

(** ** C53 *)
Theorem C53_evals_counted {T : Type} `{EqDecision T} (cf : settings T) (oc : outcomes T) generations initial g sols g' :
  solve cf oc generations initial g = Some (sols, g') ->
  num_fitness_evals g' = length (calls (log g')) /\
  (forall before e after v, log g' = before ++ e :: after -> e = EMetrics v \/ e = ECallback v \/ e = EStop v -> v_evals v = length (calls before)) /\
  length (calls (log g')) <= population_size cf * (generation_cntr g' + 1).
Proof.
  intros H. set (good := fun l : list (event T) => forall before e after v, l = before ++ e :: after -> e = EMetrics v \/ e = ECallback v \/ e = EStop v -> v_evals v = length (calls before)).
  assert (Hgood : forall l e, good l -> (forall v, e = EMetrics v \/ e = ECallback v \/ e = EStop v -> v_evals v = length (calls l)) -> good (l ++ [e])).
  { intros l e Hl He before e' after v E Hv.
    assert (Hcase : after = [] \/ exists a x, after = a ++ [x]). { destruct after as [|y after] using rev_ind; [by left|right; by eexists _, _]. }
    destruct Hcase as [->|(a & x & ->)].
    - apply app_inj_tail in E as [-> ->]. by apply He.
    - rewrite app_comm_cons, app_assoc in E. apply app_inj_tail in E as [-> ->]. by eapply Hl. }
  assert (Hgcalls : forall cs l, good l -> good (l ++ (ECall <$> cs))).
  { induction cs as [|c cs IH] using rev_ind; intros l Hl; [by rewrite app_nil_r|]. rewrite fmap_app, app_assoc. apply Hgood; [by apply IH|]. intros v [Hv|[Hv|Hv]]; discriminate. }
  assert (Hinv : exists gl, (num_fitness_evals gl = length (calls (log gl)) /\ good (log gl) /\ length (calls (log gl)) <= population_size cf * (generation_cntr gl + 1)) /\ stop_now oc gl /\ solved cf oc g gl sols g').
  { eapply solve_inv; [| |exact H].
    - intros g1 H1. apply initialize_Some in H1 as (pop0 & cs & [I1 I2 I3 I4 I5 I6 (I7 & I8 & I9 & _)]). rewrite I6, I8, I9. cbn zeta. logs. split; [done|]. split.
      + change [EMetrics (View 0 (length cs) (population g1) (fitness_matrix g1)); ECallback (View 0 (length cs) (population g1) (fitness_matrix g1))] with
          ([EMetrics (View 0 (length cs) (population g1) (fitness_matrix g1))] ++ [ECallback (View 0 (length cs) (population g1) (fitness_matrix g1))]). rewrite app_assoc.
        apply Hgood; [apply Hgood|].
        * rewrite <- (app_nil_l (ECall <$> cs)). apply Hgcalls. intros b e a v E. by destruct b.
        * intros v [[= <-]|[?|?]]; [by rewrite calls_calls|done|done].
        * intros v [?|[[= <-]|?]]; [done| |done]. by logs.
      + destruct (evaluate_all_Some _ _ _ _ _ I3) as (cs' & E & Hle & _). assert (length cs = length cs').
        { apply (f_equal num_fitness_evals) in E. cbn in E. done. }
        assert (length pop0 = population_size cf). { unfold generatePopulation in I2. apply assertion_Some in I2 as [I2 _]. cbn zeta in I2. apply assertion_Some in I2 as [I2 _]. injection I2 as <-.
          rewrite app_length, take_length, fmap_length, seq_length. lia. } lia.
    - intros g0 g1 (N0 & L0 & B0) Hns H1. apply advance_Some in H1 as (ch0 & ch & cs & is & [A1 A2 A3 A4 A5 A6 A7 A8 (A9 & A10 & A11 & _)]). rewrite A8, A10, A11. cbn zeta.
      logs. rewrite app_length. cbn [stopped emit generation_cntr num_fitness_evals]. rewrite N0. split; [done|]. split.
      + set (v0 := View _ _ _ _). change [EMetrics v0; ECallback v0] with ([EMetrics v0] ++ [ECallback v0]). rewrite !app_assoc. apply Hgood; [apply Hgood|].
        * apply Hgcalls. apply Hgood; [done|]. intros v [?|[?|[= <-]]]; [done|done|]. cbn. done.
        * intros v [[= <-]|[?|?]]; [|done|done]. logs. rewrite app_length. cbn. lia.
        * intros v [?|[[= <-]|?]]; [done| |done]. logs. rewrite app_length. cbn. lia.
      + destruct (finish_Some _ _ _ _ _ _ _ _ A2) as (cs' & E & Hle & _). assert (length cs = length cs').
        { apply (f_equal num_fitness_evals) in E. cbn in E. lia. }
        pose proof (make_children_length _ _ _ _ _ A1). lia. }
  destruct Hinv as (gl & (N0 & L0 & B0) & Hs & [L M (C & N & _) _ _]). rewrite N, C, N0, L. logs. split; [done|]. split; [|done].
  apply Hgood; [done|]. intros v [?|[?|[= <-]]]; [done|done|]. cbn. done.
Qed.
Print Assumptions C53_evals_counted.
Theorem C53_not_evaluated_again {T : Type} `{EqDecision T} (cf : settings T) (c : candidate T) (g : ga T) (c' : candidate T) (g' : ga T) :
  dynamic cf = false -> is_evaluated c = true \/ (cached_generations cf <> 0 /\ cache_get (fitness_cache g) (chromosome c) <> None) ->
  evaluate cf c g = Some (c', g') -> g' = g /\ (is_evaluated c = true -> c' = c).
Proof.
  intros Hd Hc H. apply evaluate_Some in H as (_ & _ & [(_ & _ & -> & ->)|[(f & _ & _ & _ & -> & _ & H)|(_ & _ & H1 & H2)]]); [done| |].
  - split; [done|]. intros E. specialize (H Hd). congruence.
  - exfalso. specialize (H1 Hd). destruct Hc as [Hc|[Hc1 Hc2]]; [congruence|]. apply Hc2. by apply H2.
Qed.
Print Assumptions C53_not_evaluated_again.

(** ** C56 *)
Theorem C56_initial_population {T : Type} `{EqDecision T} (cf : settings T) (oc : outcomes T) (initial pop : list (candidate T)) (d : nat) :
  generatePopulation cf oc initial d = Some pop ->
  let n := Nat.min (population_size cf) (length initial) in
  length pop = population_size cf /\ take n pop = take n initial /\
  (forall k, n <= k < population_size cf -> pop !! k = Some (Cand [] (o_generate oc k) false)).
Proof.
  unfold generatePopulation. intros H. apply assertion_Some in H as [H _]. cbn zeta in *. apply assertion_Some in H as [H _]. injection H as <-.
  assert (Hl : length (take (Nat.min (population_size cf) (length initial)) initial) = Nat.min (population_size cf) (length initial)) by (rewrite take_length; lia).
  split; [rewrite app_length, Hl, fmap_length, seq_length; lia|]. split; [by rewrite take_app_alt|].
  intros k Hk. rewrite lookup_app_r by lia. rewrite Hl, list_lookup_fmap, lookup_seq_lt by lia. cbn. do 3 f_equal. lia.
Qed.
Print Assumptions C56_initial_population.
Lemma evaluate_all_lookup {T : Type} `{EqDecision T} (cf : settings T) (l : list (candidate T)) : forall k c g l' g', evaluate_all cf l g = Some (l', g') -> l !! k = Some c ->
  exists c', l' !! k = Some c' /\ chromosome c' = chromosome c /\ (dynamic cf = false -> is_evaluated c = true -> c' = c).
Proof.
  induction l as [|x l IH]; intros k c g l' g' E Hk; [done|]. cbn [evaluate_all] in E.
  apply bind_Some in E as ([c1 g2] & E1 & E). apply bind_Some in E as ([l2 g3] & E2 & E). injection E as <- _. destruct k as [|k].
  - cbn in Hk. injection Hk as ->. exists c1. split; [done|]. apply evaluate_Some in E1 as (Hc & _ & Hcase). split; [done|]. intros Hd He.
    destruct Hcase as [(_ & _ & -> & _)|[(f & _ & _ & _ & _ & _ & Hx)|(_ & _ & Hx & _)]]; [done| |]; specialize (Hx Hd); congruence.
  - exact (IH k c _ _ _ E2 Hk).
Qed.
(** In the first generation the given candidates have at most been evaluated. *)
Theorem C56_first_generation {T : Type} `{EqDecision T} (cf : settings T) (oc : outcomes T) generations initial g sols g' :
  solve cf oc generations initial g = Some (sols, g') ->
  exists v rest, callbacks (log g') = v :: rest /\ length (v_pop v) = population_size cf /\
    forall k c, initial !! k = Some c -> k < population_size cf ->
      exists c', v_pop v !! k = Some c' /\ chromosome c' = chromosome c /\ (dynamic cf = false -> is_evaluated c = true -> c' = c).
Proof.
  intros H.
  assert (Hinv : exists gl, (exists v rest, callbacks (log gl) = v :: rest /\ length (v_pop v) = population_size cf /\ forall k c, initial !! k = Some c -> k < population_size cf ->
      exists c', v_pop v !! k = Some c' /\ chromosome c' = chromosome c /\ (dynamic cf = false -> is_evaluated c = true -> c' = c)) /\ stop_now oc gl /\ solved cf oc g gl sols g').
  { eapply solve_inv; [| |exact H].
    - intros g1 H1. apply initialize_Some in H1 as (pop0 & cs & [I1 I2 I3 I4 I5 I6 I7]). rewrite I6. cbn zeta. logs. eexists _, []. split; [done|]. cbn [v_pop].
      destruct (C56_initial_population cf oc _ _ _ I2) as (L & Ht & _). destruct (evaluate_all_Some _ _ _ _ _ I3) as (_ & _ & _ & L' & Hch & _). split; [congruence|].
      intros k c Hk Hlt. pose proof (lookup_lt_Some _ _ _ Hk) as Hk'.
      assert (Hp0 : pop0 !! k = Some c). { rewrite <- Hk. rewrite <- (lookup_take pop0 (Nat.min (population_size cf) (length initial)) k), Ht by lia. apply lookup_take. lia. }
      by eapply evaluate_all_lookup.
    - intros g0 g1 (v & rest & E & Hv) Hns H1. apply advance_Some in H1 as (ch0 & ch & cs' & is & [A1 A2 A3 A4 A5 A6 A7 A8 A9]). rewrite A8. cbn zeta. logs. rewrite E. eexists v, _. split; [done|]. exact Hv. }
  destruct Hinv as (gl & (v & rest & E & Hv) & Hs & [L M _ _ _]). rewrite L. logs. by exists v, rest.
Qed.
Print Assumptions C56_first_generation.

(** ** C57 *)
Section c57.
Context {T : Type} `{EqDecision T}.
Variable cf : settings T.
Variable oc : outcomes T.
Hypothesis is_dynamic : dynamic cf = true.
(** The code asserts that the fitness function is not dynamic whenever the cache size is
    not zero: with assertions there is no run at all. *)
Theorem C57_dynamic_cache_refuted generations initial g :
  debug cf = true -> cached_generations cf <> 0 -> population_size cf <> 0 -> solve cf oc generations initial g = None.
Proof.
  intros Hdb Hc Hp. destruct (solve cf oc generations initial g) as [[sols g']|] eqn:E; [exfalso|done].
  unfold solve in E. cbn zeta in E. apply assertion_Some in E as [E _]. apply bind_Some in E as (g1 & E & _). apply initialize_Some in E as (pop0 & cs & [I1 I2 I3 _ _ _ _]).
  destruct (C56_initial_population cf oc _ _ _ I2) as (L & _). destruct pop0 as [|c pop0]; [cbn in L; lia|]. cbn [evaluate_all] in I3. apply bind_Some in I3 as ([c' g2] & E & _).
  unfold evaluate in E. apply assertion_Some in E as [E _]. rewrite is_dynamic in E. cbn [negb andb] in E. cbn zeta in E. destruct (Nat.eqb (cached_generations cf) 0) eqn:Ec; [by apply Nat.eqb_eq in Ec|].
  apply assertion_Some in E as [_ E]. specialize (E Hdb). discriminate.
Qed.
(** Without assertions the cache has capacity zero and changes nothing. *)
Lemma get_empty (c : cache (list T) (list b64)) k : crepr c (Fifo 0 []) -> cache_get c k = None.
Proof. intros Hr. apply crepr_looks_like in Hr as (_ & _ & _ & Hg & _). by rewrite Hg. Qed.
Theorem C57_dynamic_evaluates c g c' g' : crepr (fitness_cache g) (Fifo 0 []) -> evaluate cf c g = Some (c', g') ->
  fitness c' = fitness_function cf (num_fitness_evals g) (chromosome c) /\ chromosome c' = chromosome c /\ is_evaluated c' = true /\
  num_fitness_evals g' = S (num_fitness_evals g) /\ calls (log g') = calls (log g) ++ [chromosome c].
Proof.
  intros Hr H. apply evaluate_Some in H as (Hch & Hev & [(E & _)|[(f & _ & Hg & _)|(Hf & -> & _)]]); [congruence|by rewrite get_empty in Hg|].
  split_and!; try done; [cbn; lia|]. cbn [called log]. by logs.
Qed.
Lemma evaluate_dynamic c g c' g' : crepr (fitness_cache g) (Fifo 0 []) -> evaluate cf c g = Some (c', g') -> g' = called [chromosome c] g.
Proof. intros Hr H. apply evaluate_Some in H as (Hch & Hev & [(E & _)|[(f & _ & Hg & _)|(Hf & -> & _)]]); [congruence|by rewrite get_empty in Hg|done]. Qed.
Lemma evaluate_all_dynamic l : forall g l' g', crepr (fitness_cache g) (Fifo 0 []) -> evaluate_all cf l g = Some (l', g') -> g' = called (chromosome <$> l) g.
Proof.
  induction l as [|c l IH]; intros g l' g' Hr E; cbn [evaluate_all] in E; [injection E as _ <-; symmetry; apply called_nil|].
  apply bind_Some in E as ([c1 g1] & E1 & E). apply bind_Some in E as ([l2 g2] & E2 & E). injection E as _ <-. apply evaluate_dynamic in E1 as ->; [|done]. apply IH in E2 as ->; [|done]. by rewrite called_app.
Qed.
Lemma finish_dynamic l : forall gen k g l' g', crepr (fitness_cache g) (Fifo 0 []) -> finish_children cf oc gen k l g = Some (l', g') -> g' = called (chromosome <$> l') g.
Proof.
  induction l as [|c l IH]; intros gen k g l' g' Hr E; cbn [finish_children] in E; [injection E as <- <-; symmetry; apply called_nil|].
  apply bind_Some in E as (c1 & _ & E). apply bind_Some in E as (c2 & _ & E). apply bind_Some in E as ([c3 g3] & E3 & E). apply bind_Some in E as ([l4 g4] & E4 & E). injection E as <- <-.
  pose proof (evaluate_Some _ _ _ _ _ E3) as (Hch & _). apply evaluate_dynamic in E3 as ->; [|done]. apply IH in E4 as ->; [|done]. rewrite called_app. cbn. by rewrite Hch.
Qed.
Lemma insert_empty (c c' : cache (list T) (list b64)) l : crepr c (Fifo 0 []) -> cache_insert_range c l = Some c' -> crepr c' (Fifo 0 []).
Proof. intros Hr H. destruct (crepr_insert_range c _ l Hr) as (c2 & E & Hr2). rewrite E in H. injection H as <-. by rewrite fadds_nocap in Hr2. Qed.
(** In a whole run every member of the initial population and every child is evaluated, and
    the cache is empty. *)
Theorem C57_dynamic_run_partial s generations initial g sols g' : crepr (fitness_cache g) s ->
  solve cf oc generations initial g = Some (sols, g') ->
  crepr (fitness_cache g') (Fifo 0 []) /\ (forall k, cache_get (fitness_cache g') k = None) /\
  num_fitness_evals g' = population_size cf * (generation_cntr g' + 1) /\ length (calls (log g')) = num_fitness_evals g'.
Proof.
  intros Hr H.
  assert (Hinv : exists gl, (crepr (fitness_cache gl) (Fifo 0 []) /\ num_fitness_evals gl = population_size cf * (generation_cntr gl + 1)) /\ stop_now oc gl /\ solved cf oc g gl sols g').
  { eapply solve_inv; [| |exact H].
    - intros g1 H1. apply initialize_Some in H1 as (pop0 & cs & [I1 I2 I3 I4 I5 I6 (I7 & I8 & I9 & _)]). rewrite is_dynamic in I1. cbn in I1.
      destruct (crepr_reset _ _ 0 Hr) as (c2 & E & Hr2). rewrite E in I1. injection I1 as E1. rewrite <- E1. split; [done|]. rewrite I8, I9.
      apply evaluate_all_dynamic in I3; [|cbn; by rewrite <- E1]. apply (f_equal num_fitness_evals) in I3. cbn in I3. rewrite I3, fmap_length.
      destruct (C56_initial_population cf oc _ _ _ I2) as (-> & _). lia.
    - intros g0 g1 (R0 & N0) Hns H1. apply advance_Some in H1 as (ch0 & ch & cs' & is & [A1 A2 A3 A4 A5 A6 A7 A8 (A9 & A10 & A11 & _)]). split; [by eapply insert_empty|].
      rewrite A10, A11. cbn [stopped emit generation_cntr num_fitness_evals]. pose proof (finish_Some _ _ _ _ _ _ _ _ A2) as (_ & _ & _ & L & _). pose proof (make_children_length _ _ _ _ _ A1).
      apply finish_dynamic in A2; [|done]. apply (f_equal num_fitness_evals) in A2. cbn in A2. rewrite fmap_length in A2. lia. }
  destruct Hinv as (gl & (R0 & N0) & Hs & [L M (C & N & _ & _ & _ & F) _ _]). rewrite F, C, N. split; [done|]. split; [intros k; by apply get_empty|]. split; [done|].
  rewrite <- N. symmetry. by apply (C53_evals_counted cf oc generations initial g sols g').
Qed.
End c57.
Print Assumptions C57_dynamic_cache_refuted.
Print Assumptions C57_dynamic_evaluates.
Print Assumptions C57_dynamic_run_partial.
