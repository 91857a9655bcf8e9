(** Lemmas about runs. *)
From stdpp Require Import list list_numbers sets.
From Coq Require Import Lia.
From Verif Require Import FloatBase FloatModel FloatSpec StdSort AlgorithmModel AlgorithmProofs AlgorithmProps FrontSpec FrontModel CacheModel CacheSpec CacheProofs CrossoverModel OperatorModel OperatorSpec.
From Verif Require Import EngineModel EngineSpec.

Section engine.
Context {T : Type} `{EqDecision T}.
Notation cand := (candidate T).
Variable cf : settings T.
Variable oc : outcomes T.

Lemma assertion_Some {A} (P : Prop) `{Decision P} (k : option A) x : assertion cf P k = Some x -> k = Some x /\ (debug cf = true -> P).
Proof. unfold assertion, check. destruct (debug cf); [|done]. case_decide; [done|discriminate]. Qed.
Lemma assertion_true {A} (P : Prop) `{Decision P} (k : option A) : P -> assertion cf P k = k.
Proof. intros H1. unfold assertion, check. destruct (debug cf); [|done]. by rewrite decide_True. Qed.
Lemma check_Some {A} (P : Prop) `{Decision P} (k : option A) x : check P k = Some x -> k = Some x /\ P.
Proof. unfold check. by case_decide. Qed.

(** ** Evaluation *)
Definition called (cs : list (list T)) (g : ga T) : ga T :=
  Ga (max_gen g) (generation_cntr g) (num_fitness_evals g + length cs) (num_objectives g) (population g) (fitness_matrix g) (solutions g) (fitness_cache g)
     (log g ++ (ECall <$> cs)).
Lemma called_nil g : called [] g = g.
Proof. destruct g. unfold called. cbn. by rewrite Nat.add_0_r, app_nil_r. Qed.
Lemma called_app cs cs' g : called cs' (called cs g) = called (cs ++ cs') g.
Proof. unfold called. cbn. rewrite fmap_app, app_length, <- app_assoc. f_equal. lia. Qed.

(** What a candidate needs evaluating for. *)
Definition skips (g : ga T) (c : cand) : Prop :=
  dynamic cf = false /\ (is_evaluated c = true \/ (cached_generations cf <> 0 /\ cache_get (fitness_cache g) (chromosome c) <> None)).
Lemma evaluate_Some c g c' g' : evaluate cf c g = Some (c', g') ->
  chromosome c' = chromosome c /\ is_evaluated c' = true /\
  ((dynamic cf = false /\ is_evaluated c = true /\ c' = c /\ g' = g) \/
   (exists f, cached_generations cf <> 0 /\ cache_get (fitness_cache g) (chromosome c) = Some f /\ fitness c' = f /\ g' = g /\ (debug cf = true -> dynamic cf = false) /\ (dynamic cf = false -> is_evaluated c = false)) \/
   (fitness c' = fitness_function cf (num_fitness_evals g) (chromosome c) /\ g' = called [chromosome c] g /\
    (dynamic cf = false -> is_evaluated c = false) /\
    (cached_generations cf <> 0 -> cache_get (fitness_cache g) (chromosome c) = None))).
Proof.
  unfold evaluate. intros H. apply assertion_Some in H as [H _].
  destruct (negb (dynamic cf) && is_evaluated c) eqn:E.
  { injection H as <- <-. apply andb_prop in E as [E1 E2]. apply negb_true_iff in E1. split; [done|]. split; [done|]. left. done. }
  assert (Hne : dynamic cf = false -> is_evaluated c = false) by (intros Hd; rewrite Hd in E; by destruct (is_evaluated c)).
  assert (Hcall : forall x, assertion cf (valid_fitness (num_objectives g) (Cand (fitness_function cf (num_fitness_evals g) (chromosome c)) (chromosome c) true))
      (Some (Cand (fitness_function cf (num_fitness_evals g) (chromosome c)) (chromosome c) true, emit (ECall (chromosome c)) (set_evals (S (num_fitness_evals g)) g))) = Some x ->
      x = (Cand (fitness_function cf (num_fitness_evals g) (chromosome c)) (chromosome c) true, called [chromosome c] g)).
  { intros x Hx. apply assertion_Some in Hx as [Hx _]. injection Hx as <-. f_equal. unfold called, emit, set_evals. cbn. f_equal. lia. }
  cbn zeta in H. destruct (Nat.eqb (cached_generations cf) 0) eqn:Ec.
  { apply Nat.eqb_eq in Ec. apply Hcall in H. injection H as -> ->. cbn. split; [done|]. split; [done|]. right; right. split_and!; done. }
  apply Nat.eqb_neq in Ec. apply assertion_Some in H as [H Hd]. destruct (cache_get (fitness_cache g) (chromosome c)) as [f|] eqn:Eg.
  { injection H as <- <-. cbn. split; [done|]. split; [done|]. right; left. exists f. done. }
  apply Hcall in H. injection H as -> ->. cbn. split; [done|]. split; [done|]. right; right. done.
Qed.

(** ** A static fitness function *)
Section static.
Variable f0 : list T -> list b64.
Hypothesis static : dynamic cf = false.
Hypothesis f_static : forall n c, fitness_function cf n c = f0 c.
Definition cache_sound (c : cache (list T) (list b64)) : Prop := forall k v, cache_get c k = Some v -> v = f0 k.
Lemma evaluate_sound c g c' g' : fitness_sound f0 c -> cache_sound (fitness_cache g) -> evaluate cf c g = Some (c', g') -> evaluated_by f0 c'.
Proof.
  intros Hs Hc H. apply evaluate_Some in H as (Hch & He & [(_ & E & -> & _)|[(f & _ & Hg & Hf & _)|(Hf & _)]]).
  - split; [done|]. by apply Hs.
  - split; [done|]. rewrite Hf, Hch. by apply Hc.
  - split; [done|]. by rewrite Hf, Hch, f_static.
Qed.
End static.

Lemma evaluate_called c g c' g' : evaluate cf c g = Some (c', g') -> exists cs, g' = called cs g /\ length cs <= 1 /\ forall x, x ∈ cs -> x = chromosome c.
Proof.
  intros H. apply evaluate_Some in H as (_ & _ & [(_ & _ & _ & ->)|[(f & _ & _ & _ & -> & _)|(_ & -> & _)]]).
  - exists []. rewrite called_nil. cbn. split; [done|]. split; [lia|]. intros x Hx. by apply elem_of_nil in Hx.
  - exists []. rewrite called_nil. cbn. split; [done|]. split; [lia|]. intros x Hx. by apply elem_of_nil in Hx.
  - exists [chromosome c]. split; [done|]. split; [cbn; lia|]. intros x Hx. by apply elem_of_list_singleton in Hx.
Qed.
Lemma evaluate_all_Some l : forall g l' g', evaluate_all cf l g = Some (l', g') -> exists cs, g' = called cs g /\ length cs <= length l /\ length l' = length l /\ chromosome <$> l' = chromosome <$> l /\ Forall (fun c => is_evaluated c = true) l'.
Proof.
  induction l as [|c l IH]; intros g l' g' H; cbn [evaluate_all] in H.
  - injection H as <- <-. exists []. rewrite called_nil. done.
  - destruct (evaluate cf c g) as [[c1 g1]|] eqn:E; [|done]. cbn [mbind option_bind] in H.
    destruct (evaluate_all cf l g1) as [[l2 g2]|] eqn:E2; [|done]. cbn [mbind option_bind] in H. injection H as <- <-.
    destruct (evaluate_called _ _ _ _ E) as (cs1 & -> & L1 & _). destruct (IH _ _ _ E2) as (cs2 & -> & L2 & L3 & L4 & L5).
    apply evaluate_Some in E as (Ech & Ev & _).
    exists (cs1 ++ cs2). rewrite called_app, app_length. cbn. split; [done|]. split; [lia|]. split; [lia|]. split; [by rewrite Ech, L4|]. by constructor.
Qed.

(** ** The children *)
Lemma bind_Some {A B} (m : option A) (k : A -> option B) y : m ≫= k = Some y -> exists x, m = Some x /\ k x = Some y.
Proof. destruct m as [x|]; [|done]. intros H. by exists x. Qed.
Lemma select_Some gen k g c : select cf oc gen k g = Some c -> c ∈ population g.
Proof. unfold select. intros H. apply assertion_Some in H as [H _]. by eapply elem_of_list_lookup_2. Qed.
Lemma crossover_Some gen i g c1 c2 : crossover cf oc gen i g = Some (c1, c2) ->
  exists p1 p2 pc r, p1 ∈ population g /\ p2 ∈ population g /\ crossover_op (chrom_eq cf) (num_objectives g) (chrom_len cf) (variable_length cf) (o_cross oc gen i) pc r p1 p2 = Some (c1, c2).
Proof.
  unfold crossover. intros H. apply bind_Some in H as (p1 & H1 & H). apply bind_Some in H as (p2 & H2 & H). destruct (o_rate oc gen i) as [pc r].
  exists p1, p2, pc, r. split; [by eapply select_Some|]. split; [by eapply select_Some|]. done.
Qed.
Lemma make_children_length gen g l : make_children cf oc gen g = Some l -> length l = population_size cf.
Proof.
  unfold make_children. intros H. apply bind_Some in H as (pairs & Hp & H). cbn zeta in H. pose proof (mapM_length _ _ _ Hp) as Hl. rewrite seq_length in Hl.
  assert (Hc : length (pairs ≫= (fun p : cand * cand => [p.1; p.2])) = 2 * length pairs).
  { clear. induction pairs as [|p pairs IH]; [done|]. cbn [mbind list_bind]. rewrite app_length. cbn [length]. cbn [mbind list_bind] in IH. lia. }
  pose proof (Nat.div_mod (population_size cf) 2 ltac:(lia)) as Hdm. pose proof (Nat.bit0_mod (population_size cf)) as Hb. rewrite Nat.bit0_odd in Hb.
  destruct (Nat.odd (population_size cf)) eqn:Eo; cbn [Nat.b2n] in Hb.
  - apply bind_Some in H as (c & _ & H). injection H as <-. rewrite app_length, Hc. cbn [length]. lia.
  - injection H as <-. rewrite Hc. lia.
Qed.
(** A property of all members of the population that crossovers keep holds of the children. *)
Lemma make_children_Forall (P : cand -> Prop) gen g l :
  (forall i p1 p2 pc r c1 c2, p1 ∈ population g -> p2 ∈ population g ->
    crossover_op (chrom_eq cf) (num_objectives g) (chrom_len cf) (variable_length cf) (o_cross oc gen i) pc r p1 p2 = Some (c1, c2) -> P c1 /\ P c2) ->
  make_children cf oc gen g = Some l -> Forall P l.
Proof.
  intros HP H. unfold make_children in H. apply bind_Some in H as (pairs & Hp & H). cbn zeta in H.
  assert (Hpair : forall i c, crossover cf oc gen i g = Some c -> P c.1 /\ P c.2).
  { intros i [c1 c2] Hc. apply crossover_Some in Hc as (p1 & p2 & pc & r & H1 & H2 & Hc). cbn. exact (HP _ _ _ _ _ _ _ H1 H2 Hc). }
  assert (Hb : Forall P (pairs ≫= (fun p : cand * cand => [p.1; p.2]))).
  { apply mapM_Some in Hp. apply Forall_forall. intros c Hc. apply elem_of_list_bind in Hc as (p & Hc & Hin).
    apply elem_of_list_lookup in Hin as [k Hk]. destruct (Forall2_lookup_r _ _ _ _ _ Hp Hk) as (i & _ & Hi). destruct (Hpair i p Hi).
    apply elem_of_cons in Hc as [->|Hc]; [done|]. by apply elem_of_list_singleton in Hc as ->. }
  destruct (Nat.odd (population_size cf)).
  - apply bind_Some in H as (c & Hc & H). injection H as <-. apply Forall_app. split; [done|]. constructor; [by apply (Hpair _ _ Hc)|constructor].
  - by injection H as <-.
Qed.

(** The chromosome a child ends up with. *)
Lemma repair_Some gen k c c' : repair cf oc gen k c = Some c' ->
  (o_repair oc = None /\ c' = c) \/ exists r, o_repair oc = Some r /\ chromosome c' = r gen k (chromosome c) /\
    ((r gen k (chromosome c) = chromosome c /\ c' = c) \/ is_evaluated c' = false).
Proof.
  unfold repair. intros H. apply assertion_Some in H as [H _]. destruct (o_repair oc) as [r|].
  - right. exists r. split; [done|]. apply assertion_Some in H as [H _]. injection H as <-. case_decide as E; cbn.
    + split; [done|]. by right.
    + assert (E' : r gen k (chromosome c) = chromosome c) by (by destruct (decide (r gen k (chromosome c) = chromosome c))). split; [done|]. by left.
  - left. by injection H as <-.
Qed.
Lemma repair_sound gen k c c' f : repair cf oc gen k c = Some c' -> fitness_sound f c -> fitness_sound f c'.
Proof.
  intros H Hs. apply repair_Some in H as [(_ & ->)|(r & _ & _ & [(_ & ->)|He])]; [done|done|]. intros E. congruence.
Qed.
Lemma mutation_Some d mut c c' : mutation_op (chrom_eq cf) d (chrom_len cf) (variable_length cf) mut c = Some c' ->
  mut c = Some (chromosome c') /\ (is_evaluated c' = true -> is_evaluated c = true /\ fitness c' = fitness c /\ chrom_eq cf (chromosome c') (chromosome c) = true).
Proof.
  unfold mutation_op. intros H. apply check_Some in H as [H _]. apply check_Some in H as [H _]. apply bind_Some in H as (g & Hg & H).
  cbn zeta in H. apply check_Some in H as [H _]. injection H as <-. destruct (is_evaluated c); cbn; done.
Qed.
Lemma mutation_sound d mut c c' f : (forall a b, chrom_eq cf a b = true -> a = b) ->
  mutation_op (chrom_eq cf) d (chrom_len cf) (variable_length cf) mut c = Some c' -> fitness_sound f c -> fitness_sound f c'.
Proof.
  intros Heq H Hs He. apply mutation_Some in H as [_ H]. destruct (H He) as (H1 & H2 & H3). apply Heq in H3. rewrite H2, H3. by apply Hs.
Qed.
Lemma finish_Some l : forall gen k g l' g', finish_children cf oc gen k l g = Some (l', g') ->
  exists cs, g' = called cs g /\ length cs <= length l /\ length l' = length l /\ Forall (fun c => is_evaluated c = true) l'.
Proof.
  induction l as [|c l IH]; intros gen k g l' g' H; cbn [finish_children] in H.
  - injection H as <- <-. exists []. rewrite called_nil. done.
  - apply bind_Some in H as (c1 & H1 & H). apply bind_Some in H as (c2 & H2 & H). apply bind_Some in H as ([c3 g3] & H3 & H). apply bind_Some in H as ([l4 g4] & H4 & H).
    injection H as <- <-. destruct (evaluate_called _ _ _ _ H3) as (cs1 & -> & L1 & _). destruct (IH _ _ _ _ _ H4) as (cs2 & -> & L2 & L3 & L4).
    apply evaluate_Some in H3 as (_ & Ev & _).
    exists (cs1 ++ cs2). rewrite called_app, app_length. cbn. split; [done|]. split; [lia|]. split; [lia|]. by constructor.
Qed.
Lemma finish_sound f0 l : dynamic cf = false -> (forall n c, fitness_function cf n c = f0 c) -> (forall a b, chrom_eq cf a b = true -> a = b) ->
  forall gen k g l' g', cache_sound f0 (fitness_cache g) -> Forall (fitness_sound f0) l -> finish_children cf oc gen k l g = Some (l', g') -> Forall (evaluated_by f0) l'.
Proof.
  intros Hd Hf Heq. induction l as [|c l IH]; intros gen k g l' g' Hc Hl H; cbn [finish_children] in H.
  - injection H as <- <-. constructor.
  - apply bind_Some in H as (c1 & H1 & H). apply bind_Some in H as (c2 & H2 & H). apply bind_Some in H as ([c3 g3] & H3 & H). apply bind_Some in H as ([l4 g4] & H4 & H).
    injection H as <- <-. apply Forall_cons in Hl as [Hs Hl]. apply (mutation_sound _ _ _ _ f0 Heq) in H1; [|done]. apply (repair_sound _ _ _ _ f0) in H2; [|done].
    destruct (evaluate_called _ _ _ _ H3) as (cs1 & -> & _). constructor; [by eapply (evaluate_sound f0)|]. eapply IH; [|done|exact H4]. done.
Qed.

(** ** One generation *)
Lemma toFitnessMatrix_Some (pop : list cand) m : toFitnessMatrix pop = Some m -> m = fitness <$> pop.
Proof. destruct pop as [|c pop]; cbn [toFitnessMatrix]; intros H; [by injection H as <-|]. apply check_Some in H as [H _]. by injection H as <-. Qed.
Record advanced (g : ga T) (children0 children : list cand) (cs : list (list T)) (is : list nat) (g' : ga T) : Prop := {
  ad_made : make_children cf oc (generation_cntr g) g = Some children0;
  ad_done : finish_children cf oc (generation_cntr g) 0 children0 g = Some (children, called cs g);
  ad_cache : cache_insert_range (fitness_cache g) ((fun s : cand => (chromosome s, fitness s)) <$> population g) = Some (fitness_cache g');
  ad_next : o_next oc (generation_cntr g) (fitness <$> population g ++ children) = Some is;
  ad_pop : select_move (population g ++ children) is = Some (population g');
  ad_fmat : fitness_matrix g' = fitness <$> population g';
  ad_sols : if keep_all cf then exists opt, optimalSolutions cf oc (S (generation_cntr g)) g' = Some opt /\
                solutions g' = unique (fun l r : cand => bool_decide (chromosome l = chromosome r)) (sort cf (fun l r : cand => chrom_less cf (chromosome l) (chromosome r)) (o_merge oc (S (generation_cntr g)) (solutions g) opt))
            else solutions g' = solutions g;
  ad_log : log g' = log g ++ (ECall <$> cs) ++ (let v := View (generation_cntr g) (num_fitness_evals g + length cs) (population g') (fitness_matrix g') in [EMetrics v; ECallback v]);
  ad_counters : max_gen g' = max_gen g /\ generation_cntr g' = S (generation_cntr g) /\ num_fitness_evals g' = num_fitness_evals g + length cs /\ num_objectives g' = num_objectives g;
}.
Lemma advance_Some g g' : advance cf oc g = Some g' -> exists children0 children cs is, advanced g children0 children cs is g'.
Proof.
  unfold advance. intros H. cbn zeta in H. apply assertion_Some in H as [H _]. apply bind_Some in H as (ch0 & H0 & H). apply bind_Some in H as ([ch g1] & H1 & H).
  destruct (finish_Some _ _ _ _ _ _ H1) as (cs & E1 & _ & _ & _). subst g1. apply bind_Some in H as (g2 & H2 & H). apply bind_Some in H as (g3 & H3 & H). injection H as <-.
  unfold updatePopulation in H2. apply assertion_Some in H2 as [H2 _]. apply bind_Some in H2 as (ca & Hca & H2). apply bind_Some in H2 as (pop & Hpop & H2).
  apply bind_Some in H2 as (fm & Hfm & H2). injection H2 as <-. apply toFitnessMatrix_Some in Hfm as ->.
  unfold nextPopulation in Hpop. apply assertion_Some in Hpop as [Hpop _]. cbn zeta in Hpop. apply bind_Some in Hpop as (fm2 & Hfm2 & Hpop). apply toFitnessMatrix_Some in Hfm2 as ->.
  apply bind_Some in Hpop as (is & His & Hsel). cbn [called population fitness_cache generation_cntr] in *.
  exists ch0, ch, cs, is. destruct (keep_all cf) eqn:Ek.
  - unfold updateOptimalSolutions in H3. apply bind_Some in H3 as (opt & Hopt & H3). cbn zeta in H3. injection H3 as <-.
    split; cbn; try done; [|by rewrite <- !app_assoc]. rewrite Ek. exists opt. split; [|done]. exact Hopt.
  - injection H3 as <-. split; cbn; try done; [by rewrite Ek|]. by rewrite <- !app_assoc.
Qed.

(** The first generation. *)
Record initialized (initial : list cand) (g : ga T) (pop0 : list cand) (cs : list (list T)) (g' : ga T) : Prop := {
  in_cache : cache_reset (fitness_cache g) ((if dynamic cf then 0 else 1) * cached_generations cf * population_size cf) = Some (fitness_cache g');
  in_gen : generatePopulation cf oc initial (length (fitness_function cf 0 (o_probe oc))) = Some pop0;
  in_eval : evaluate_all cf pop0 (Ga (max_gen g) 0 0 (length (fitness_function cf 0 (o_probe oc))) [] (fitness_matrix g) [] (fitness_cache g') []) =
    Some (population g', called cs (Ga (max_gen g) 0 0 (length (fitness_function cf 0 (o_probe oc))) [] (fitness_matrix g) [] (fitness_cache g') []));
  in_fmat : fitness_matrix g' = fitness <$> population g';
  in_sols : if keep_all cf then findParetoFrontPop (tols cf) fitness (num_objectives g') (population g') = Some (solutions g') else solutions g' = [];
  in_log : log g' = (ECall <$> cs) ++ (let v := View 0 (length cs) (population g') (fitness_matrix g') in [EMetrics v; ECallback v]);
  in_counters : max_gen g' = max_gen g /\ generation_cntr g' = 0 /\ num_fitness_evals g' = length cs /\ num_objectives g' = length (fitness_function cf 0 (o_probe oc));
}.
Lemma initialize_Some initial g g' : initializeAlgorithm cf oc initial g = Some g' -> exists pop0 cs, initialized initial g pop0 cs g'.
Proof.
  unfold initializeAlgorithm. intros H. apply bind_Some in H as (ca & Hca & H). cbn zeta in H. apply assertion_Some in H as [H _]. apply bind_Some in H as (pop0 & Hpop & H).
  apply bind_Some in H as ([pop g1] & He & H). destruct (evaluate_all_Some _ _ _ _ He) as (cs & E1 & _). subst g1. apply bind_Some in H as (fm & Hfm & H).
  apply toFitnessMatrix_Some in Hfm as ->. apply bind_Some in H as (g3 & H3 & H). apply assertion_Some in H as [H _]. injection H as <-.
  exists pop0, cs. destruct (keep_all cf) eqn:Ek.
  - apply bind_Some in H3 as (s & Hs & H3). injection H3 as <-. split; cbn; try done; [by rewrite Ek|]. by rewrite <- !app_assoc.
  - injection H3 as <-. split; cbn; try done; [by rewrite Ek|]. by rewrite <- !app_assoc.
Qed.

(** ** Whole runs: an invariant of the states between the generations *)
Definition stopped (g : ga T) : ga T := emit (EStop (view_of g)) g.
Definition stop_now (g : ga T) : Prop := o_stop oc (generation_cntr g) = true \/ max_gen g <= generation_cntr g + 1.
Lemma stop_now_dec g : o_stop oc (generation_cntr g) || (max_gen g <=? generation_cntr g + 1) = true <-> stop_now g.
Proof. unfold stop_now. by rewrite orb_true_iff, Nat.leb_le. Qed.
Lemma solve_loop_inv (I : ga T -> Prop) fuel : (forall g g', I g -> ~ stop_now g -> advance cf oc (stopped g) = Some g' -> I g') ->
  forall g g', I g -> solve_loop cf oc fuel g = Some g' -> exists gl, I gl /\ g' = stopped gl /\ stop_now gl.
Proof.
  intros Hadv. induction fuel as [|fuel IH]; intros g g' Hg H; cbn [solve_loop] in H; unfold stopCondition in H; fold (stopped g) in H;
    destruct (o_stop oc (generation_cntr g) || _) eqn:E.
  - injection H as <-. exists g. apply stop_now_dec in E. done.
  - done.
  - injection H as <-. exists g. apply stop_now_dec in E. done.
  - apply bind_Some in H as (g1 & H1 & H). apply (IH g1); [|done]. apply (Hadv g); [done| |done]. intros Hs. apply stop_now_dec in Hs. congruence.
Qed.
(** What the caller of solve sees, given the state when the loop ended. *)
Record solved (g gl : ga T) (sols : list cand) (g' : ga T) : Prop := {
  so_log : log g' = log gl ++ [EStop (view_of gl)];
  so_max : max_gen g' = max_gen g;
  so_same : generation_cntr g' = generation_cntr gl /\ num_fitness_evals g' = num_fitness_evals gl /\ num_objectives g' = num_objectives gl /\ population g' = population gl /\ fitness_matrix g' = fitness_matrix gl /\ fitness_cache g' = fitness_cache gl;
  so_solutions : solutions g' = sols;
  so_sols : if keep_all cf then sols = solutions gl else exists opt, optimalSolutions cf oc (generation_cntr gl) (stopped gl) = Some opt /\
     sols = unique (fun l r : cand => bool_decide (chromosome l = chromosome r)) (sort cf (fun l r : cand => chrom_less cf (chromosome l) (chromosome r)) (o_merge oc (generation_cntr gl) (solutions gl) opt));
}.
Lemma solve_inv (I : ga T -> Prop) generations initial g sols g' :
  (forall g1, initializeAlgorithm cf oc initial (set_max_gen generations g) = Some g1 -> I g1) ->
  (forall g g', I g -> ~ stop_now g -> advance cf oc (stopped g) = Some g' -> I g') ->
  solve cf oc generations initial g = Some (sols, g') -> exists gl, I gl /\ stop_now gl /\ solved g gl sols g'.
Proof.
  intros Hi Ha H. unfold solve in H. cbn zeta in H. apply assertion_Some in H as [H _]. apply bind_Some in H as (g1 & H1 & H). apply bind_Some in H as (g2 & H2 & H).
  apply bind_Some in H as (g3 & H3 & H). injection H as <- <-. destruct (solve_loop_inv I _ Ha _ _ (Hi _ H1) H2) as (gl & HI & -> & Hs). exists gl. split; [done|]. split; [done|].
  destruct (keep_all cf) eqn:Ek.
  - injection H3 as <-. split; try done. by rewrite Ek.
  - unfold updateOptimalSolutions in H3. apply bind_Some in H3 as (opt & Ho & H3). cbn zeta in H3. injection H3 as <-. split; try done. rewrite Ek. exists opt. split; [exact Ho|done].
Qed.

(** ** The cache *)
Lemma fadd_sound (P : list T -> list b64 -> Prop) s k v : (forall k v, (k, v) ∈ fitems s -> P k v) -> P k v -> forall k' v', (k', v') ∈ fitems (CacheSpec.fadd s k v) -> P k' v'.
Proof.
  intros Hs Hv k' v'. unfold CacheSpec.fadd. case_decide; [apply Hs|]. case_decide.
  - cbn. rewrite elem_of_list_In, in_map_iff. intros ([a b] & E & Hin). apply elem_of_list_In in Hin. case_decide as Hk; cbn in *; injection E as <- <-; [by subst|by apply Hs].
  - case_decide; cbn; rewrite elem_of_app, elem_of_list_singleton; intros [Hin|[= -> ->]]; auto. apply Hs. destruct (fitems s); [done|]. cbn in Hin. apply elem_of_cons. by right.
Qed.
Lemma fadds_sound (P : list T -> list b64 -> Prop) l : forall s, (forall k v, (k, v) ∈ fitems s -> P k v) -> (forall k v, (k, v) ∈ l -> P k v) -> forall k' v', (k', v') ∈ fitems (fadds s l) -> P k' v'.
Proof.
  induction l as [|[k v] l IH]; intros s Hs Hl; [done|]. cbn [fadds fold_left]. apply IH.
  - apply fadd_sound; [done|]. apply Hl, elem_of_cons. by left.
  - intros k' v' H'. apply Hl, elem_of_cons. by right.
Qed.
(** A cache that represents some FIFO map with sound entries. *)
Definition cache_ok (P : list T -> list b64 -> Prop) (c : cache (list T) (list b64)) : Prop := exists s, crepr c s /\ forall k v, (k, v) ∈ fitems s -> P k v.
Lemma cache_ok_get P c k v : cache_ok P c -> cache_get c k = Some v -> P k v.
Proof.
  intros (s & Hr & Hs) H. apply crepr_looks_like in Hr as (_ & _ & _ & Hg & _). rewrite Hg, fget_assoc in H. apply Hs.
  revert H. generalize (fitems s). clear. intros l. induction l as [|[a b] l IH]; [done|]. cbn. case_decide as E; [intros [= ->]; subst; apply elem_of_cons; by left|]. intros H. apply elem_of_cons. right. by apply IH.
Qed.
Lemma cache_ok_reset P Q c n : cache_ok Q c -> exists c', cache_reset c n = Some c' /\ cache_ok P c'.
Proof.
  intros (s & Hr & _). destruct (crepr_reset c s n Hr) as (c' & E & Hr'). exists c'. split; [done|]. exists (Fifo n []). split; [done|]. intros k v Hin. by apply elem_of_nil in Hin.
Qed.
Lemma cache_ok_insert P c l : cache_ok P c -> (forall k v, (k, v) ∈ l -> P k v) -> exists c', cache_insert_range c l = Some c' /\ cache_ok P c'.
Proof.
  intros (s & Hr & Hs) Hl. destruct (crepr_insert_range c s l Hr) as (c' & E & Hr'). exists c'. split; [done|]. eexists. split; [exact Hr'|].
  apply fadds_sound; [done|]. intros k v Hin. apply Hl. eapply elem_of_list_lookup in Hin as [i Hin]. rewrite lookup_drop in Hin. by eapply elem_of_list_lookup_2.
Qed.
End engine.
