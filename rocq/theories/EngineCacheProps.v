(** C54: the fitness cache is transparent. *)
From stdpp Require Import list list_numbers sets.
From Coq Require Import Lia.
From Verif Require Import FloatBase FloatModel FloatSpec StdSort AlgorithmModel AlgorithmProofs AlgorithmProps FrontSpec FrontModel CacheModel CacheSpec CacheProofs CrossoverModel OperatorModel OperatorSpec CrossoverOpProps.
From Verif Require Import EngineModel EngineSpec EngineProofs EngineProps.

(** The same settings without a cache. *)
Definition no_cache {T} (cf : settings T) : settings T :=
  Settings (population_size cf) 0 (keep_all cf) (dynamic cf) (debug cf) (chrom_len cf) (variable_length cf) (tols cf) (chrom_eq cf) (chrom_less cf) (sort cf) (fitness_function cf).
(** What a callback sees, except for the number of evaluations. *)
Definition seen {T} (v : view T) : nat * list (candidate T) * list (list b64) := (v_gen v, v_pop v, v_fmat v).

Section c54.
Context {T : Type} `{EqDecision T}.
Notation cand := (candidate T).
Variable cf : settings T.
Variable oc : outcomes T.
Variable f0 : list T -> list b64.
Hypothesis static : dynamic cf = false.
Hypothesis f_static : forall n c, fitness_function cf n c = f0 c.
Hypothesis f_len : forall c c', length (f0 c) = length (f0 c').
Hypothesis eq_exact : forall a b, chrom_eq cf a b = true -> a = b.
Hypothesis Hsort : sorts_chromosomes cf.
Hypothesis Hmerge : merge_drops oc.

(** The state of the run without a cache that corresponds to [g]. *)
Definition other (n : nat) (c : cache (list T) (list b64)) (l : list (event T)) (g : ga T) : ga T :=
  Ga (max_gen g) (generation_cntr g) n (num_objectives g) (population g) (fitness_matrix g) (solutions g) c l.
Definition related (g h : ga T) : Prop :=
  exists n c l, h = other n c l g /\ num_fitness_evals g <= n /\ cache_ok (fun _ _ => True) c /\
    seen <$> callbacks l = seen <$> callbacks (log g) /\ Forall2 (fun v w : view T => v_evals v <= v_evals w) (callbacks (log g)) (callbacks l) /\
    hook_order l = hook_order (log g).

Lemma other_called n c l g cs cs' : called cs' (other n c l g) = other (n + length cs') c (l ++ (ECall <$> cs')) (called cs g).
Proof. done. Qed.
Lemma evaluate_other x g x' g' n c l : num_objectives g = length (f0 []) -> fitness_sound f0 x -> cache_sound f0 (fitness_cache g) -> evaluate cf x g = Some (x', g') ->
  exists cs cs', g' = called cs g /\ evaluate (no_cache cf) x (other n c l g) = Some (x', called cs' (other n c l g)) /\ length cs <= length cs'.
Proof.
  intros Hd Hs Hc H. pose proof (evaluate_sound cf f0 f_static _ _ _ _ Hs Hc H) as [He Hf].
  unfold evaluate at 1. cbn [no_cache dynamic cached_generations Nat.eqb fitness_function]. cbn zeta.
  assert (Hv : forall k : option (cand * ga T), assertion (no_cache cf) (valid_chromosome (no_cache cf) x) k = k).
  { intros k. assert (Hvc : debug cf = true -> valid_chromosome cf x) by (unfold evaluate in H; by apply assertion_Some in H as [_ H]).
    destruct (debug cf) eqn:Edb; [apply assertion_true; exact (Hvc eq_refl)|]. unfold assertion. cbn. by rewrite Edb. }
  rewrite Hv. pose proof (evaluate_Some _ _ _ _ _ H) as (Hch & _ & Hcase). rewrite static in *. cbn [negb andb].
  destruct (is_evaluated x) eqn:Ex.
  - destruct Hcase as [(_ & _ & -> & ->)|[(f & _ & _ & _ & _ & _ & Hx)|(_ & _ & Hx & _)]]; [|by specialize (Hx eq_refl)..].
    exists [], []. rewrite !called_nil. done.
  - assert (Hval : valid_fitness (num_objectives g) (Cand (fitness_function cf n (chromosome x)) (chromosome x) true)).
    { split; [done|]. cbn. rewrite f_static, Hd. apply f_len. }
    cbn [other num_fitness_evals num_objectives]. rewrite assertion_true by done.
    assert (Hx' : x' = Cand (fitness_function cf n (chromosome x)) (chromosome x) true). { destruct x' as [fx cx ex]. cbn in *. subst. by rewrite f_static. }
    assert (Hcall : Some (Cand (fitness_function cf n (chromosome x)) (chromosome x) true, emit (ECall (chromosome x)) (set_evals (S n) (other n c l g))) =
       Some (x', called [chromosome x] (other n c l g))).
    { rewrite <- Hx'. do 2 f_equal. unfold emit, set_evals, called, other. cbn. f_equal. lia. }
    rewrite Hcall. destruct Hcase as [(_ & E & _)|[(f & _ & _ & _ & -> & _)|(_ & -> & _)]]; [done| |].
    + exists [], [chromosome x]. rewrite called_nil. split; [done|]. split; [done|]. cbn. lia.
    + exists [chromosome x], [chromosome x]. done.
Qed.
Lemma evaluate_all_other xs : forall g xs' g' n c l, num_objectives g = length (f0 []) -> Forall (fitness_sound f0) xs -> cache_sound f0 (fitness_cache g) -> evaluate_all cf xs g = Some (xs', g') ->
  exists cs cs', g' = called cs g /\ evaluate_all (no_cache cf) xs (other n c l g) = Some (xs', called cs' (other n c l g)) /\ length cs <= length cs'.
Proof.
  induction xs as [|x xs IH]; intros g xs' g' n c l Hd Hs Hc H; cbn [evaluate_all] in *.
  - injection H as <- <-. exists [], []. rewrite !called_nil. done.
  - apply bind_Some in H as ([x1 g1] & E1 & H). apply bind_Some in H as ([xs2 g2] & E2 & H). injection H as <- <-. apply Forall_cons in Hs as [Hs1 Hs2].
    destruct (evaluate_other x g x1 g1 n c l Hd Hs1 Hc E1) as (cs & cs' & -> & E1' & Hle). rewrite E1'. cbn [mbind option_bind]. rewrite (other_called n c l g cs cs').
    destruct (IH (called cs g) _ _ (n + length cs') c (l ++ (ECall <$> cs')) Hd Hs2 Hc E2) as (ds & ds' & -> & E2' & Hle'). rewrite E2'. cbn [mbind option_bind].
    exists (cs ++ ds), (cs' ++ ds'). rewrite !app_length, <- !called_app, <- (other_called n c l g cs cs'). split; [done|]. split; [done|]. lia.
Qed.
Lemma finish_other xs : forall gen k g xs' g' n c l, num_objectives g = length (f0 []) -> Forall (fitness_sound f0) xs -> cache_sound f0 (fitness_cache g) -> finish_children cf oc gen k xs g = Some (xs', g') ->
  exists cs cs', g' = called cs g /\ finish_children (no_cache cf) oc gen k xs (other n c l g) = Some (xs', called cs' (other n c l g)) /\ length cs <= length cs'.
Proof.
  induction xs as [|x xs IH]; intros gen k g xs' g' n c l Hd Hs Hc H; cbn [finish_children] in *.
  - injection H as <- <-. exists [], []. rewrite !called_nil. done.
  - apply bind_Some in H as (x1 & E1 & H). apply bind_Some in H as (x2 & E2 & H). apply bind_Some in H as ([x3 g3] & E3 & H). apply bind_Some in H as ([xs4 g4] & E4 & H). injection H as <- <-. apply Forall_cons in Hs as [Hs1 Hs2].
    pose proof (mutation_sound cf _ _ _ _ f0 eq_exact E1 Hs1) as S1. pose proof (repair_sound cf oc _ _ _ _ f0 E2 S1) as S2.
    change (mutation_op (chrom_eq (no_cache cf)) (num_objectives (other n c l g)) (chrom_len (no_cache cf)) (variable_length (no_cache cf)) (o_mutate oc gen k) x) with
      (mutation_op (chrom_eq cf) (num_objectives g) (chrom_len cf) (variable_length cf) (o_mutate oc gen k) x). rewrite E1. cbn [mbind option_bind].
    change (repair (no_cache cf) oc gen k x1) with (repair cf oc gen k x1). rewrite E2. cbn [mbind option_bind].
    destruct (evaluate_other x2 g x3 g3 n c l Hd S2 Hc E3) as (cs & cs' & -> & E3' & Hle). rewrite E3'. cbn [mbind option_bind]. rewrite (other_called n c l g cs cs').
    destruct (IH _ _ (called cs g) _ _ (n + length cs') c (l ++ (ECall <$> cs')) Hd Hs2 Hc E4) as (ds & ds' & -> & E4' & Hle'). rewrite E4'. cbn [mbind option_bind].
    exists (cs ++ ds), (cs' ++ ds'). rewrite !app_length, <- !called_app, <- (other_called n c l g cs cs'). split; [done|]. split; [done|]. lia.
Qed.

(** Both runs keep the invariant of C49. *)
Record both (g h : ga T) : Prop := { b_sound : sound_state f0 g; b_obj : num_objectives g = length (f0 []); b_rel : related g h }.
Lemma initialize_other Q1 Q2 initial g h g' : max_gen h = max_gen g -> Forall (fitness_sound f0) initial -> cache_ok Q1 (fitness_cache g) -> cache_ok Q2 (fitness_cache h) ->
  initializeAlgorithm cf oc initial g = Some g' -> exists h', initializeAlgorithm (no_cache cf) oc initial h = Some h' /\ both g' h'.
Proof.
  intros Hm Hi Hc1 Hc2 H. pose proof (initialize_sound cf oc f0 f_static Q1 initial g g' Hi Hc1 H) as Hs.
  unfold initializeAlgorithm in H. apply bind_Some in H as (ca & Eca & H). cbn zeta in H. apply assertion_Some in H as [H Hd0].
  apply bind_Some in H as (pop0 & Ep & H). apply bind_Some in H as ([pop g1] & Ee & H). apply bind_Some in H as (fm & Ef & H). apply bind_Some in H as (g3 & E3 & H).
  apply assertion_Some in H as [H Hval]. injection H as <-.
  destruct (cache_ok_reset (fun k v => v = f0 k) Q1 (fitness_cache g) ((if dynamic cf then 0 else 1) * cached_generations cf * population_size cf) Hc1) as (ca' & E & Hok). rewrite Eca in E. injection E as <-.
  destruct (cache_ok_reset (fun _ _ => True) Q2 (fitness_cache h) ((if dynamic cf then 0 else 1) * 0 * population_size cf) Hc2) as (cb & Ecb & Hokb).
  unfold initializeAlgorithm. cbn [no_cache dynamic cached_generations population_size fitness_function]. rewrite Ecb. cbn [mbind option_bind]. cbn zeta.
  change (generatePopulation (no_cache cf) oc initial) with (generatePopulation cf oc initial). rewrite Ep. cbn [mbind option_bind].
  assert (Hd : length (fitness_function cf 0 (o_probe oc)) = length (f0 [])) by (rewrite f_static; apply f_len).
  assert (Hp0 : Forall (fitness_sound f0) pop0).
  { unfold generatePopulation in Ep. apply assertion_Some in Ep as [Ep _]. cbn zeta in Ep. apply assertion_Some in Ep as [Ep _]. injection Ep as <-. apply Forall_app. split; [by apply Forall_take|].
    apply Forall_fmap. apply Forall_forall. by intros k _. }
  match type of Ee with evaluate_all _ _ ?g0 = _ => destruct (evaluate_all_other pop0 g0 pop g1 0 cb [] Hd Hp0 (sound_cache f0 _ Hok) Ee) as (cs & cs' & -> & Ee' & Hle) end.
  assert (Ee2 : evaluate_all (no_cache cf) pop0 (Ga (max_gen h) 0 0 (length (fitness_function cf 0 (o_probe oc))) [] (fitness_matrix h) [] cb []) =
     Some (pop, with_fmat (fitness_matrix h) (called cs' (other 0 cb [] (Ga (max_gen g) 0 0 (length (fitness_function cf 0 (o_probe oc))) [] (fitness_matrix g) [] ca []))))).
  { rewrite <- Hm in Ee'. change (Ga (max_gen h) 0 0 (length (fitness_function cf 0 (o_probe oc))) [] (fitness_matrix h) [] cb []) with
     (with_fmat (fitness_matrix h) (other 0 cb [] (Ga (max_gen h) 0 0 (length (fitness_function cf 0 (o_probe oc))) [] (fitness_matrix g) [] ca []))). rewrite evaluate_all_fmat, Ee'. cbn. by rewrite Hm. }
  rewrite Ee2. cbn [mbind option_bind]. rewrite Ef. cbn [mbind option_bind].
  assert (Hdb : debug (no_cache cf) = debug cf) by done.
  assert (Ha : forall (P : Prop) {HP : Decision P} (k : option (ga T)), (debug cf = true -> P) -> assertion (no_cache cf) P k = k).
  { intros P HP k Hh. destruct (debug cf) eqn:Edb; [apply assertion_true; by apply Hh|]. unfold assertion. cbn. by rewrite Edb. }
  destruct (keep_all cf) eqn:Ek.
  - apply bind_Some in E3 as (s & Es & E3). injection E3 as <-. cbn [no_cache tols keep_all]. rewrite Ek, Es. cbn [mbind option_bind]. rewrite Ha by done. rewrite Ha by exact Hval.
    eexists. split; [done|]. split; [exact Hs|done|]. eexists (length cs'), cb, ((ECall <$> cs') ++ (let v := View 0 (length cs') pop fm in [EMetrics v; ECallback v])). split.
    { unfold hooks, emit, other, view_of. cbn. by rewrite <- !app_assoc. }
    split; [cbn; done|]. split; [done|]. cbn zeta. unfold hooks, emit, view_of. cbn [log called set_solutions set_population generation_cntr num_fitness_evals population fitness_matrix].
    rewrite <- !app_assoc. cbn [app]. logs. split; [done|]. split; [constructor; [exact Hle|constructor]|done].
  - injection E3 as <-. cbn [no_cache tols keep_all]. rewrite Ek. cbn [mbind option_bind]. rewrite Ha by done. rewrite Ha by exact Hval.
    eexists. split; [done|]. split; [exact Hs|done|]. eexists (length cs'), cb, ((ECall <$> cs') ++ (let v := View 0 (length cs') pop fm in [EMetrics v; ECallback v])). split.
    { unfold hooks, emit, other, view_of. cbn. by rewrite <- !app_assoc. }
    split; [cbn; done|]. split; [done|]. cbn zeta. unfold hooks, emit, view_of. cbn [log called set_solutions set_population generation_cntr num_fitness_evals population fitness_matrix].
    rewrite <- !app_assoc. cbn [app]. logs. split; [done|]. split; [constructor; [exact Hle|constructor]|done].
Qed.
Lemma both_stopped g h : both g h -> both (stopped g) (stopped h).
Proof.
  intros [S O (n & c & l & -> & Hn & Hc & H1 & H2 & H3)]. split; [by apply sound_stopped|done|]. exists n, c, (l ++ [EStop (View (generation_cntr g) n (population g) (fitness_matrix g))]).
  split; [done|]. split; [done|]. split; [done|]. rewrite log_stopped. logs. rewrite H3. done.
Qed.
Lemma other_hooks n c l (g : ga T) s pop fm ca cb cs cs' :
  incr_generation (hooks (set_solutions s (set_population pop fm (set_cache cb (called cs' (other n c l g)))))) =
  other (n + length cs') cb (l ++ (ECall <$> cs') ++ [EMetrics (View (generation_cntr g) (n + length cs') pop fm); ECallback (View (generation_cntr g) (n + length cs') pop fm)])
    (incr_generation (hooks (set_solutions s (set_population pop fm (set_cache ca (called cs g)))))).
Proof.
  set (v := View (generation_cntr g) (n + length cs') pop fm).
  transitivity (Ga (max_gen g) (S (generation_cntr g)) (n + length cs') (num_objectives g) pop fm s cb (((l ++ (ECall <$> cs')) ++ [EMetrics v]) ++ [ECallback v])); [reflexivity|].
  rewrite <- !app_assoc. reflexivity.
Qed.
Lemma advance_other g h g' : both g h -> advance cf oc g = Some g' -> exists h', advance (no_cache cf) oc h = Some h' /\ both g' h'.
Proof.
  intros [S O (n & c & l & -> & Hn & Hc & H1 & H2 & H3)] H. pose proof (advance_sound cf oc f0 static f_static eq_exact Hsort Hmerge _ _ S H) as S'.
  assert (Ha : forall {A} (P : Prop) {HP : Decision P} (k : option A), (debug cf = true -> P) -> assertion (no_cache cf) P k = k).
  { intros A P HP k Hh. destruct (debug cf) eqn:Edb; [apply assertion_true; by apply Hh|]. unfold assertion. cbn. by rewrite Edb. }
  pose proof (advance_Some _ _ _ _ H) as (ch0 & ch & cs & is & [A1 A2 A3 A4 A5 A6 A7 A8 (A9 & A10 & A11 & A12)]).
  assert (Hch0 : Forall (fitness_sound f0) ch0).
  { pose proof (s_pop _ _ S) as Hpop. eapply make_children_Forall; [|exact A1]. intros i p1 p2 pc r c1 c2 Hp1 Hp2 Hx. rewrite Forall_forall in Hpop. pose proof (proj2 (Hpop p1 Hp1)) as F1. pose proof (proj2 (Hpop p2 Hp2)) as F2.
    destruct (crossover_op_flags (chrom_eq cf) (num_objectives g) (chrom_len cf) (variable_length cf) eq (fun _ => eq_refl) eq_exact _ _ _ _ _ _ _ Hx) as [K1 K2].
    assert (Hone : forall c, flag_from eq [p1; p2] c -> fitness_sound f0 c).
    { intros x Hf He. destruct (Hf He) as (p & Hp & _ & -> & ->). apply elem_of_cons in Hp as [->|Hp]; [done|]. by apply elem_of_list_singleton in Hp as ->. }
    split; [exact (Hone _ K1)|exact (Hone _ K2)]. }
  destruct (finish_other ch0 _ _ g _ _ n c l O Hch0 (sound_cache f0 _ (s_cache _ _ S)) A2) as (cs0 & cs' & Ecs & A2' & Hle).
  assert (Hlen : length cs <= length cs'). { apply (f_equal num_fitness_evals) in Ecs. cbn in Ecs. lia. }
  unfold advance in H. cbn zeta in H. apply assertion_Some in H as [H D1]. rewrite A1 in H. cbn [mbind option_bind] in H. rewrite A2 in H. cbn [mbind option_bind] in H.
  apply bind_Some in H as (g2 & E2 & H). apply bind_Some in H as (g3 & E3 & H). apply (inj Some) in H.
  unfold updatePopulation in E2. apply assertion_Some in E2 as [E2 D2]. apply bind_Some in E2 as (ca & Eca & E2). apply bind_Some in E2 as (pop & Epop & E2). apply bind_Some in E2 as (fm & Efm & E2). apply (inj Some) in E2.
  destruct (cache_ok_insert (fun _ _ => True) c ((fun s : cand => (chromosome s, fitness s)) <$> population g) Hc) as (cb & Ecb & Hokb); [done|].
  unfold advance. cbn zeta. rewrite Ha by exact D1. change (generation_cntr (other n c l g)) with (generation_cntr g).
  change (make_children (no_cache cf) oc (generation_cntr g) (other n c l g)) with (make_children cf oc (generation_cntr g) g). rewrite A1. cbn [mbind option_bind]. rewrite A2'. cbn [mbind option_bind].
  unfold updatePopulation. rewrite Ha by exact D2. cbn [called other fitness_cache population]. rewrite Ecb. cbn [mbind option_bind].
  change (nextPopulation (no_cache cf) oc) with (nextPopulation cf oc). cbn [called population] in Epop. rewrite Epop. cbn [mbind option_bind]. rewrite Efm. cbn [mbind option_bind].
  cbn [no_cache keep_all].
  set (v' := View (generation_cntr g) (n + length cs') pop fm).
  assert (Hfin : forall s : list cand, g3 = set_solutions s (set_population pop fm (set_cache ca (called cs g))) ->
    both g' (incr_generation (hooks (set_solutions s (set_population pop fm (set_cache cb (called cs' (other n c l g)))))))).
  { intros s Eg3. split; [exact S'|by rewrite A12|]. exists (n + length cs'), cb, (l ++ (ECall <$> cs') ++ [EMetrics v'; ECallback v']). split.
    - rewrite <- H, Eg3. apply other_hooks.
    - split; [rewrite A11; lia|]. split; [done|]. rewrite A8. cbn zeta. logs. rewrite !fmap_app, H1, H3.
      assert (Epf : population g' = pop /\ fitness_matrix g' = fm) by (rewrite <- H, Eg3; done). destruct Epf as [-> ->].
      split; [done|]. split; [|done]. apply Forall2_app; [done|]. constructor; [|constructor]. cbn. lia. }
  destruct (keep_all cf) eqn:Ek.
  - unfold updateOptimalSolutions in E3. apply bind_Some in E3 as (opt & Eo & E3). cbn zeta in E3. apply (inj Some) in E3. unfold updateOptimalSolutions.
    match goal with |- context [optimalSolutions (no_cache cf) oc ?a ?b] => change (optimalSolutions (no_cache cf) oc a b) with (optimalSolutions cf oc a (set_population pop fm (set_cache ca (called cs g)))) end.
    rewrite <- E2 in Eo. rewrite Eo. cbn [mbind option_bind]. cbn zeta. eexists. split; [done|]. apply Hfin. by rewrite <- E3, <- E2.
  - apply (inj Some) in E3. cbn [mbind option_bind]. eexists. split; [done|]. apply (Hfin (solutions g)). rewrite <- E3, <- E2. done.
Qed.
Lemma solve_loop_other fuel : forall g h g', both g h -> solve_loop cf oc fuel g = Some g' -> exists h', solve_loop (no_cache cf) oc fuel h = Some h' /\ both g' h'.
Proof.
  induction fuel as [|fuel IH]; intros g h g' Hb H; cbn [solve_loop] in *; unfold stopCondition in *; fold (stopped g) in H; fold (stopped h);
    pose proof (b_rel _ _ Hb) as (n & c & l & E & _); assert (Hs : o_stop oc (generation_cntr h) || (max_gen h <=? generation_cntr h + 1) = o_stop oc (generation_cntr g) || (max_gen g <=? generation_cntr g + 1)) by (by rewrite E); rewrite Hs;
    destruct (o_stop oc (generation_cntr g) || _).
  - injection H as <-. exists (stopped h). split; [done|]. by apply both_stopped.
  - done.
  - injection H as <-. exists (stopped h). split; [done|]. by apply both_stopped.
  - apply bind_Some in H as (g1 & E1 & H). destruct (advance_other _ _ _ (both_stopped _ _ Hb) E1) as (h1 & -> & Hb1). cbn [mbind option_bind]. by apply (IH g1).
Qed.
Theorem C54_cache_transparent_partial sg sh generations initial g h sols g' :
  max_gen h = max_gen g -> Forall (fitness_sound f0) initial -> crepr (fitness_cache g) sg -> crepr (fitness_cache h) sh ->
  solve cf oc generations initial g = Some (sols, g') ->
  exists h', solve (no_cache cf) oc generations initial h = Some (sols, h') /\
    seen <$> callbacks (log h') = seen <$> callbacks (log g') /\ population h' = population g' /\ generation_cntr h' = generation_cntr g' /\
    num_fitness_evals g' <= num_fitness_evals h' /\ Forall2 (fun v w : view T => v_evals v <= v_evals w) (callbacks (log g')) (callbacks (log h')).
Proof.
  intros Hm Hi Hg Hh H. unfold solve in H. cbn zeta in H. apply assertion_Some in H as [H D]. apply bind_Some in H as (g1 & E1 & H). apply bind_Some in H as (g2 & E2 & H). apply bind_Some in H as (g3 & E3 & H).
  apply (inj Some) in H. injection H as Hsols Hg'.
  assert (Cg : cache_ok (fun _ _ => True) (fitness_cache (set_max_gen generations g))) by (by exists sg).
  assert (Ch : cache_ok (fun _ _ => True) (fitness_cache (set_max_gen generations h))) by (by exists sh).
  destruct (initialize_other (fun _ _ => True) (fun _ _ => True) initial (set_max_gen generations g) (set_max_gen generations h) g1 eq_refl Hi Cg Ch E1) as (h1 & F1 & B1).
  destruct (solve_loop_other _ _ _ _ B1 E2) as (h2 & F2 & B2). destruct B2 as [S2 O2 (n & c & l & Eh & Hn & Hc & H1 & H2 & H3)].
  unfold solve. cbn zeta. assert (Ha : forall {A} (P : Prop) {HP : Decision P} (k : option A), (debug cf = true -> P) -> assertion (no_cache cf) P k = k).
  { intros A P HP k Hx. destruct (debug cf) eqn:Edb; [apply assertion_true; by apply Hx|]. unfold assertion. cbn. by rewrite Edb. }
  rewrite Ha by exact D. rewrite F1. cbn [mbind option_bind]. rewrite F2. cbn [mbind option_bind no_cache keep_all]. destruct (keep_all cf).
  - apply (inj Some) in E3. subst g3. cbn [mbind option_bind]. rewrite Hm. eexists. split; [rewrite <- Hsols, Eh; done|]. subst. done.
  - unfold updateOptimalSolutions in *. apply bind_Some in E3 as (opt & Eo & E3). cbn zeta in E3. apply (inj Some) in E3.
    rewrite Eh. change (optimalSolutions (no_cache cf) oc (generation_cntr (other n c l g2)) (other n c l g2)) with (optimalSolutions cf oc (generation_cntr g2) g2). rewrite Eo.
    cbn [mbind option_bind]. cbn zeta. eexists. split; [rewrite <- Hsols, <- E3; done|]. subst. done.
Qed.
End c54.
Print Assumptions C54_cache_transparent_partial.
