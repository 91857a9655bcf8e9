(** Runs under the contract of EngineSpec.v do not fail; their populations keep their form. *)
From stdpp Require Import list list_numbers sets.
From Coq Require Import Lia.
From Verif Require Import FloatBase FloatModel FloatSpec StdSort AlgorithmModel AlgorithmProofs AlgorithmProps FrontSpec FrontModel FrontProps ReplacementSpec CacheModel CacheSpec CacheProofs CrossoverModel OperatorModel OperatorSpec.
From Verif Require Import EngineModel EngineSpec EngineProofs.

Section runs.
Context {T : Type} `{EqDecision T}.
Notation cand := (candidate T).
Variable cf : settings T.
Variable oc : outcomes T.
Variable d : nat.
Variable row : list b64 -> Prop.
Hypothesis HC : contract cf oc d row.
(** No failing assertion about the cache. *)
Hypothesis Hcache : dynamic cf = false \/ cached_generations cf = 0 \/ debug cf = false.

Definition loose (c : cand) : Prop := right_length cf (chromosome c) /\ (is_evaluated c = true -> row (fitness c)).
Definition tight (c : cand) : Prop := right_length cf (chromosome c) /\ is_evaluated c = true /\ row (fitness c).
Lemma tight_loose c : tight c -> loose c. Proof. intros (? & ? & ?). by split. Qed.
Definition rows_cached : cache (list T) (list b64) -> Prop := cache_ok (fun _ v => row v).
Record runs (g : ga T) : Prop := {
  r_obj : num_objectives g = d;
  r_len : length (population g) = population_size cf;
  r_pop : Forall tight (population g);
  r_fmat : fitness_matrix g = fitness <$> population g;
  r_cache : rows_cached (fitness_cache g);
}.
Lemma right_ok c : right_length cf (chromosome c) -> length_ok (chrom_len cf) (variable_length cf) c. Proof. done. Qed.
Lemma check_true {A} (P : Prop) `{Decision P} (k : option A) : P -> check P k = k.
Proof. intros. unfold check. by rewrite decide_True. Qed.

Lemma evaluate_runs c g : loose c -> num_objectives g = d -> rows_cached (fitness_cache g) ->
  exists c' cs, evaluate cf c g = Some (c', called cs g) /\ tight c'.
Proof.
  intros [Hl Hr] Hd Hca. destruct (evaluate cf c g) as [[c' g']|] eqn:E.
  - destruct (evaluate_called _ _ _ _ _ E) as (cs & -> & _). exists c', cs. split; [done|]. apply evaluate_Some in E as (Hch & Hev & Hcase).
    split; [by rewrite Hch|]. split; [done|]. destruct Hcase as [(_ & He & -> & _)|[(f & _ & Hg & -> & _)|(-> & _)]].
    + by apply Hr.
    + by apply (cache_ok_get _ _ _ _ Hca Hg).
    + apply (k_fitness _ _ _ _ HC).
  - exfalso. unfold evaluate in E. rewrite assertion_true in E by done. destruct (negb (dynamic cf) && is_evaluated c); [done|]. cbn zeta in E.
    assert (Hv : valid_fitness (num_objectives g) (Cand (fitness_function cf (num_fitness_evals g) (chromosome c)) (chromosome c) true)).
    { split; [done|]. rewrite Hd. apply (k_row _ _ _ _ HC), (k_fitness _ _ _ _ HC). }
    rewrite (assertion_true cf (valid_fitness (num_objectives g) (Cand (fitness_function cf (num_fitness_evals g) (chromosome c)) (chromosome c) true))) in E by done.
    destruct (Nat.eqb (cached_generations cf) 0) eqn:Ec; [done|]. apply Nat.eqb_neq in Ec.
    assert (E' : match cache_get (fitness_cache g) (chromosome c) with Some f => Some (Cand f (chromosome c) true, g) | None => Some (Cand (fitness_function cf (num_fitness_evals g) (chromosome c)) (chromosome c) true, emit (ECall (chromosome c)) (set_evals (S (num_fitness_evals g)) g)) end = None).
    { destruct Hcache as [Hc|[Hc|Hc]]; [|done|]. - by rewrite assertion_true in E. - unfold assertion in E. by rewrite Hc in E. }
    by destruct (cache_get (fitness_cache g) (chromosome c)).
Qed.
Lemma evaluate_all_runs l : forall g, Forall loose l -> num_objectives g = d -> rows_cached (fitness_cache g) ->
  exists l' cs, evaluate_all cf l g = Some (l', called cs g) /\ Forall tight l' /\ length l' = length l.
Proof.
  induction l as [|c l IH]; intros g Hl Hd Hc; cbn [evaluate_all].
  - exists [], []. rewrite called_nil. split; [done|]. split; [constructor|done].
  - apply Forall_cons in Hl as [Hcl Hl]. destruct (evaluate_runs c g Hcl Hd Hc) as (c' & cs & -> & Ht). cbn [mbind option_bind].
    destruct (IH (called cs g) Hl Hd Hc) as (l' & cs' & -> & Ht' & Hl'). cbn [mbind option_bind]. rewrite called_app. exists (c' :: l'), (cs ++ cs').
    split; [done|]. split; [by constructor|]. cbn. by rewrite Hl'.
Qed.

Lemma select_runs gen k g : runs g -> exists c, select cf oc gen k g = Some c /\ tight c.
Proof.
  intros [H1 H2 H3 H4 H5]. unfold select. rewrite assertion_true by (rewrite H4, fmap_length; lia).
  assert (Hlt : o_select oc gen k (fitness_matrix g) < length (population g)).
  { rewrite H2. apply (k_select _ _ _ _ HC); rewrite H4; [by rewrite fmap_length|]. apply Forall_fmap. eapply Forall_impl; [exact H3|]. by intros c (_ & _ & Hr). }
  destruct (lookup_lt_is_Some_2 _ _ Hlt) as [c Hc]. exists c. split; [done|]. rewrite Forall_forall in H3. apply H3. by eapply elem_of_list_lookup_2.
Qed.
Lemma inherit_loose p1 p2 c : tight p1 -> tight p2 -> right_length cf (chromosome c) -> loose (inherit (chrom_eq cf) p1 p2 c).
Proof.
  intros (_ & _ & R1) (_ & _ & R2) Hc. unfold inherit. destruct (chrom_eq cf _ (chromosome p1)); [by split|]. destruct (chrom_eq cf _ _); by split.
Qed.
Lemma crossover_runs gen i g : runs g -> exists c1 c2, crossover cf oc gen i g = Some (c1, c2) /\ loose c1 /\ loose c2.
Proof.
  intros Hg. unfold crossover. destruct (select_runs gen (2 * i) g Hg) as (p1 & -> & Ht1). cbn [mbind option_bind].
  destruct (select_runs gen (2 * i + 1) g Hg) as (p2 & -> & Ht2). cbn [mbind option_bind]. destruct (o_rate oc gen i) as [pc r].
  pose proof Ht1 as (L1 & E1 & R1). pose proof Ht2 as (L2 & E2 & R2). pose proof (k_row _ _ _ _ HC _ R1) as Z1. pose proof (k_row _ _ _ _ HC _ R2) as Z2.
  unfold crossover_op. rewrite (r_obj _ Hg). rewrite !check_true by (done || congruence). 
  destruct (fle pc r); [exists p1, p2; split; [done|]; split; by apply tight_loose|].
  destruct (chrom_eq cf _ _); [exists p1, p2; split; [done|]; split; by apply tight_loose|].
  destruct (k_cross _ _ _ _ HC gen i p1 p2 L1 L2) as (c1 & c2 & -> & K1 & K2). cbn [mbind option_bind]. rewrite !check_true by done.
  eexists _, _. split; [done|]. split; by apply inherit_loose.
Qed.
Lemma make_children_runs gen g : runs g -> exists l, make_children cf oc gen g = Some l /\ Forall loose l /\ length l = population_size cf.
Proof.
  intros Hg. assert (Hex : exists l, make_children cf oc gen g = Some l).
  { unfold make_children. destruct (mapM (fun i => crossover cf oc gen i g) (seq 0 (population_size cf / 2))) as [pairs|] eqn:E.
    - cbn [mbind option_bind]. destruct (Nat.odd _); [|eauto]. destruct (crossover_runs gen (population_size cf / 2) g Hg) as (c1 & c2 & -> & _). cbn [mbind option_bind]. eauto.
    - exfalso. assert (Hs : is_Some (mapM (fun i => crossover cf oc gen i g) (seq 0 (population_size cf / 2)))).
      { apply mapM_is_Some. apply Forall_forall. intros i _. destruct (crossover_runs gen i g Hg) as (c1 & c2 & Ecr & _). exists (c1, c2). exact Ecr. }
      rewrite E in Hs. by destruct Hs. }
  destruct Hex as [l Hl]. exists l. split; [done|]. split; [|by eapply make_children_length].
  unfold make_children in Hl. apply bind_Some in Hl as (pairs & Hp & Hl). cbn zeta in Hl.
  assert (Hpair : forall i c, crossover cf oc gen i g = Some c -> loose c.1 /\ loose c.2).
  { intros i c Hc. destruct (crossover_runs gen i g Hg) as (c1 & c2 & E & Hh). rewrite E in Hc. by injection Hc as <-. }
  assert (Hb : Forall loose (pairs ≫= (fun p : cand * cand => [p.1; p.2]))).
  { apply mapM_Some in Hp. apply Forall_forall. intros c Hc. apply elem_of_list_bind in Hc as (p & Hc & Hin).
    apply elem_of_list_lookup in Hin as [k Hk]. destruct (Forall2_lookup_r _ _ _ _ _ Hp Hk) as (i & _ & Hi). destruct (Hpair i p Hi).
    apply elem_of_cons in Hc as [->|Hc]; [done|]. by apply elem_of_list_singleton in Hc as ->. }
  destruct (Nat.odd (population_size cf)).
  - apply bind_Some in Hl as (c & Hc & Hl). injection Hl as <-. apply Forall_app. split; [done|]. constructor; [by apply (Hpair _ _ Hc)|constructor].
  - by injection Hl as <-.
Qed.
Lemma mutation_runs gen k c : loose c -> exists c', mutation_op (chrom_eq cf) d (chrom_len cf) (variable_length cf) (o_mutate oc gen k) c = Some c' /\ loose c'.
Proof.
  intros [Hl Hr]. unfold mutation_op. rewrite check_true.
  2:{ destruct (is_evaluated c); [right|by left]. by apply (k_row _ _ _ _ HC), Hr. }
  rewrite check_true by done. destruct (k_mutate _ _ _ _ HC gen k c Hl) as (l & -> & Hll). cbn [mbind option_bind]. cbn zeta.
  destruct (is_evaluated c) eqn:Ee; rewrite check_true by done; eexists; (split; [done|]); split; cbn; try done. intros _. by apply Hr.
Qed.
Lemma repair_runs gen k c : loose c -> exists c', repair cf oc gen k c = Some c' /\ loose c'.
Proof.
  intros [Hl Hr]. unfold repair. rewrite assertion_true by done. destruct (o_repair oc) as [r|] eqn:Er; [|exists c; by split]. cbn zeta.
  pose proof (k_repair _ _ _ _ HC r gen k _ Er Hl) as Hrl. case_decide; (rewrite assertion_true by done); eexists; (split; [done|]); by split.
Qed.
Lemma finish_runs l : forall gen k g, Forall loose l -> num_objectives g = d -> rows_cached (fitness_cache g) ->
  exists l' cs, finish_children cf oc gen k l g = Some (l', called cs g) /\ Forall tight l' /\ length l' = length l.
Proof.
  induction l as [|c l IH]; intros gen k g Hl Hd Hc; cbn [finish_children].
  - exists [], []. rewrite called_nil. split; [done|]. split; [constructor|done].
  - apply Forall_cons in Hl as [Hcl Hl]. rewrite Hd. destruct (mutation_runs gen k c Hcl) as (c1 & -> & Hc1). cbn [mbind option_bind].
    destruct (repair_runs gen k c1 Hc1) as (c2 & -> & Hc2). cbn [mbind option_bind].
    destruct (evaluate_runs c2 g Hc2 Hd Hc) as (c' & cs & -> & Ht). cbn [mbind option_bind].
    destruct (IH gen (S k) (called cs g) Hl Hd Hc) as (l' & cs' & -> & Ht' & Hl'). cbn [mbind option_bind]. rewrite called_app. exists (c' :: l'), (cs ++ cs').
    split; [done|]. split; [by constructor|]. cbn. by rewrite Hl'.
Qed.
Lemma toFitnessMatrix_runs pop : Forall tight pop -> toFitnessMatrix pop = Some (fitness <$> pop).
Proof.
  intros H. destruct pop as [|c pop]; [done|]. cbn [toFitnessMatrix]. apply check_true. 
  assert (Hlen : forall x, tight x -> length (fitness x) = d) by (intros x (_ & _ & Hr); by apply (k_row _ _ _ _ HC)).
  pose proof (Forall_inv H) as Hc. eapply Forall_impl; [exact H|]. intros x Hx. by rewrite (Hlen x Hx), (Hlen c Hc).
Qed.
Lemma tight_rows pop : Forall tight pop -> Forall row (fitness <$> pop).
Proof. intros H. apply Forall_fmap. eapply Forall_impl; [exact H|]. by intros c (_ & _ & Hr). Qed.
Lemma optimal_runs gen g : runs g -> exists l, optimalSolutions cf oc gen g = Some l /\ forall x, x ∈ l -> x ∈ population g.
Proof.
  intros [H1 H2 H3 H4 H5]. unfold optimalSolutions. rewrite assertion_true by done. 
  assert (Hsel : forall is l, select_copy (population g) is = Some l -> forall x, x ∈ l -> x ∈ population g).
  { intros is. induction is as [|i is IH]; intros l Hl x Hx; cbn in Hl.
    - injection Hl as <-. by apply elem_of_nil in Hx.
    - destruct (population g !! i) eqn:Ei; [|done]. destruct (select_copy (population g) is) as [l'|] eqn:El; [|done]. injection Hl as <-.
      apply elem_of_cons in Hx as [->|Hx]; [by eapply elem_of_list_lookup_2|]. by apply (IH l'). }
  destruct (o_optimal oc gen (fitness_matrix g)) as [|i is] eqn:Eo.
  - rewrite H1. destruct (k_front _ _ _ _ HC (population g)) as [l Hl]; [eapply Forall_impl; [exact H3|]; by intros c (_ & _ & Hr)|].
    exists l. split; [done|]. unfold findParetoFrontPop in Hl. case_decide; [injection Hl as <-; intros x Hx; by apply elem_of_nil in Hx|].
    apply bind_Some in Hl as (is & _ & Hl). by eapply Hsel.
  - rewrite <- Eo. destruct (proj1 (C13_select _ (population g) (o_optimal oc gen (fitness_matrix g)) ltac:(
      intros j Hj; rewrite H2; apply (k_optimal _ _ _ _ HC gen (fitness_matrix g)); [rewrite H4, fmap_length; done|rewrite H4; by apply tight_rows|done]))) as (l & Hl & _).
    exists l. rewrite Eo in *. split; [done|]. by eapply Hsel.
Qed.
Lemma runs_stopped g : runs g -> runs (stopped g). Proof. by intros []. Qed.
Lemma advance_runs g : runs g -> exists g', advance cf oc g = Some g' /\ runs g'.
Proof.
  intros Hg. pose proof Hg as [H1 H2 H3 H4 H5].
  assert (Hex : exists g', advance cf oc g = Some g').
  { unfold advance. cbn zeta. rewrite assertion_true by done. destruct (make_children_runs (generation_cntr g) g Hg) as (l & -> & Hl & Hll). cbn [mbind option_bind].
    destruct (finish_runs l (generation_cntr g) 0 g Hl H1 H5) as (l' & cs & -> & Hl' & Hll'). cbn [mbind option_bind].
    unfold updatePopulation. rewrite assertion_true.
    2:{ cbn. eapply Forall_impl; [exact H3|]. intros c (L & E & R). split; [done|]. split; [done|]. rewrite H1. by apply (k_row _ _ _ _ HC). }
    cbn [fitness_cache called population]. destruct (cache_ok_insert (fun _ v => row v) (fitness_cache g) ((fun s : cand => (chromosome s, fitness s)) <$> population g) H5) as (ca & -> & Hca).
    { intros k v Hin. apply elem_of_list_fmap in Hin as (c & [= -> ->] & Hin). rewrite Forall_forall in H3. by apply H3. }
    cbn [mbind option_bind]. unfold nextPopulation. rewrite assertion_true by lia. cbn zeta.
    assert (Hpc : Forall tight (population g ++ l')) by (by apply Forall_app). rewrite toFitnessMatrix_runs by done. cbn [mbind option_bind].
    destruct (k_next _ _ _ _ HC (generation_cntr g) (fitness <$> population g ++ l')) as (is & -> & (Li & Ni & Bi)).
    { rewrite fmap_length, app_length. lia. } { by apply tight_rows. }
    cbn [mbind option_bind]. rewrite fmap_length in Bi. rewrite Forall_forall in Bi.
    destruct (C13_select _ (population g ++ l') is Bi) as [(k & Hk & Lk & Kk) Hm]. rewrite (Hm Ni), Hk. cbn [mbind option_bind].
    assert (Hkt : Forall tight k). 
    { apply Forall_lookup. intros a c Hc. destruct (lookup_lt_is_Some_2 is a) as [i Hi]; [rewrite <- Lk; by eapply lookup_lt_Some|].
      rewrite (Kk _ _ Hi) in Hc. rewrite Forall_lookup in Hpc. by eapply Hpc. }
    rewrite toFitnessMatrix_runs by done. cbn [mbind option_bind]. destruct (keep_all cf); [|eexists; done].
    unfold updateOptimalSolutions. match goal with |- context [optimalSolutions cf oc ?a ?b] => destruct (optimal_runs a b) as (opt & -> & _) end.
    { split; cbn; try done. by rewrite Lk. } cbn [mbind option_bind]. eexists; done. }
  destruct Hex as [g' Hg']. exists g'. split; [done|]. apply advance_Some in Hg' as (ch0 & ch & cs & is & [A1 A2 A3 A4 A5 A6 _ _ A8]).
  destruct (make_children_runs (generation_cntr g) g Hg) as (l & E1 & Hl & Hll). rewrite A1 in E1. injection E1 as <-.
  destruct (finish_runs ch0 (generation_cntr g) 0 g Hl H1 H5) as (l' & cs' & E2 & Hl' & Hll'). rewrite A2 in E2. injection E2 as <- Ecs.
  assert (Hpc : Forall tight (population g ++ ch)) by (by apply Forall_app).
  destruct (k_next _ _ _ _ HC (generation_cntr g) (fitness <$> population g ++ ch)) as (is' & E3 & (Li & Ni & Bi)).
  { rewrite fmap_length, app_length. lia. } { by apply tight_rows. }
  rewrite A4 in E3. injection E3 as <-. rewrite fmap_length in Bi. rewrite Forall_forall in Bi.
  destruct (C13_select _ (population g ++ ch) is Bi) as [(k & Hk & Lk & Kk) Hm]. rewrite (Hm Ni), Hk in A5. apply (inj Some) in A5.
  destruct A8 as (_ & _ & _ & A8). split.
  - by rewrite A8.
  - rewrite <- A5. by rewrite Lk.
  - rewrite <- A5. apply Forall_lookup. intros a c Hc. destruct (lookup_lt_is_Some_2 is a) as [i Hi]; [rewrite <- Lk; by eapply lookup_lt_Some|].
    rewrite (Kk _ _ Hi) in Hc. rewrite Forall_lookup in Hpc. by eapply Hpc.
  - done.
  - destruct (cache_ok_insert (fun _ v => row v) (fitness_cache g) ((fun s : cand => (chromosome s, fitness s)) <$> population g) H5) as (ca & E & Hca).
    { intros k' v Hin. apply elem_of_list_fmap in Hin as (c & [= -> ->] & Hin). rewrite Forall_forall in H3. by apply H3. }
    rewrite A3 in E. by injection E as <-.
Qed.

Lemma initialize_runs Q initial g : valid_initial cf row initial -> cache_ok Q (fitness_cache g) -> exists g', initializeAlgorithm cf oc initial g = Some g' /\ runs g' /\ max_gen g' = max_gen g /\ generation_cntr g' = 0.
Proof.
  intros Hi Hca. unfold initializeAlgorithm. destruct (cache_ok_reset (fun _ v => row v) Q (fitness_cache g) ((if dynamic cf then 0 else 1) * cached_generations cf * population_size cf) Hca) as (ca & -> & Hok).
  cbn [mbind option_bind]. cbn zeta. assert (Hd : length (fitness_function cf 0 (o_probe oc)) = d) by (apply (k_row _ _ _ _ HC), (k_fitness _ _ _ _ HC)). rewrite Hd.
  rewrite assertion_true by apply (k_objectives _ _ _ _ HC). unfold generatePopulation. rewrite assertion_true.
  2:{ eapply Forall_impl; [exact Hi|]. intros c [L R]. split; [done|]. destruct (is_evaluated c) eqn:E; [right|by left]. split; [done|]. by apply (k_row _ _ _ _ HC), R. }
  cbn zeta. rewrite assertion_true.
  2:{ apply Forall_fmap. apply Forall_forall. intros k _. apply (k_generate _ _ _ _ HC). }
  cbn [mbind option_bind]. match goal with |- context [evaluate_all cf ?l ?g0] => destruct (evaluate_all_runs l g0) as (l' & cs & -> & Ht & Hll) end; try done.
  { apply Forall_app. split; [by apply Forall_take|]. apply Forall_fmap. apply Forall_forall. intros k _. split; [apply (k_generate _ _ _ _ HC)|done]. }
  cbn [mbind option_bind]. rewrite toFitnessMatrix_runs by done. cbn [mbind option_bind].
  assert (Hl' : length l' = population_size cf). { rewrite Hll, app_length, take_length, fmap_length, seq_length. lia. }
  assert (Hv : valid_evaluated cf d l'). { eapply Forall_impl; [exact Ht|]. intros c (L & E & R). split; [done|]. split; [done|]. by apply (k_row _ _ _ _ HC). }
  destruct (keep_all cf).
  - destruct (k_front _ _ _ _ HC l') as [s ->]; [eapply Forall_impl; [exact Ht|]; by intros c (_ & _ & Hr)|]. cbn [mbind option_bind].
    unfold assertion, check. destruct (debug cf); [|eexists; split; [done|]; split; [by split|done]]. destruct (decide (valid_evaluated cf d l')); [|done]. eexists; split; [done|]. split; [by split|done].
  - cbn [mbind option_bind]. unfold assertion, check. destruct (debug cf); [|eexists; split; [done|]; split; [by split|done]]. destruct (decide (valid_evaluated cf d l')); [|done]. eexists; split; [done|]. split; [by split|done].
Qed.
Lemma solve_loop_runs fuel : forall g, runs g -> max_gen g <= generation_cntr g + 1 + fuel -> exists g', solve_loop cf oc fuel g = Some g' /\ runs g'.
Proof.
  induction fuel as [|fuel IH]; intros g Hg Hf; cbn [solve_loop]; unfold stopCondition; fold (stopped g).
  - assert (E : max_gen g <=? generation_cntr g + 1 = true) by (apply Nat.leb_le; lia). rewrite E, orb_true_r. exists (stopped g). split; [done|]. by apply runs_stopped.
  - destruct (o_stop oc (generation_cntr g) || _); [exists (stopped g); split; [done|]; by apply runs_stopped|].
    destruct (advance_runs (stopped g) (runs_stopped g Hg)) as (g1 & E & Hg1). rewrite E. cbn [mbind option_bind]. apply IH; [done|].
    apply advance_Some in E as (ch0 & ch & cs & is & A). destruct (ad_counters _ _ _ _ _ _ _ _ A) as (-> & -> & _). cbn. lia.
Qed.
Lemma solve_runs Q generations initial g : valid_initial cf row initial -> cache_ok Q (fitness_cache g) -> 0 < generations ->
  exists sols g', solve cf oc generations initial g = Some (sols, g') /\ cache_ok (fun _ v => row v) (fitness_cache g').
Proof.
  intros Hi Hca Hn. unfold solve. cbn zeta. rewrite assertion_true by done. destruct (initialize_runs Q initial (set_max_gen generations g) Hi Hca) as (g1 & -> & Hg1 & M1 & C1).
  cbn [mbind option_bind]. destruct (solve_loop_runs generations g1 Hg1) as (g2 & -> & Hg2); [rewrite M1; cbn; lia|]. cbn [mbind option_bind]. destruct (keep_all cf).
  - cbn [mbind option_bind]. eexists _, _. split; [done|]. apply Hg2.
  - unfold updateOptimalSolutions. destruct (optimal_runs (generation_cntr g2) g2 Hg2) as (opt & -> & _). cbn [mbind option_bind]. eexists _, _. split; [done|]. apply Hg2.
Qed.
End runs.
