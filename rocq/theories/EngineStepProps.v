(** C102: where the members of a population come from.  C103: what the fitness cache saves. *)
From stdpp Require Import list list_numbers sets.
From Coq Require Import Lia.
From Verif Require Import FloatBase FloatModel FloatSpec StdSort AlgorithmModel AlgorithmProofs AlgorithmProps FrontSpec FrontModel CacheModel CacheSpec CacheProofs CrossoverModel OperatorModel OperatorSpec.
From Verif Require Import EngineModel EngineSpec EngineProofs EngineProps EngineStepSpec.

Lemma select_move_loop_lookup {A} (l0 : list A) is : forall (l : list (option A)) k, (forall i x, l !! i = Some (Some x) -> l0 !! i = Some x) ->
  select_move_loop l is = Some k -> Forall2 (fun i c => l0 !! i = Some c) is k.
Proof.
  induction is as [|i is IH]; intros l k Hl Hk; cbn in Hk.
  - injection Hk as <-. constructor.
  - destruct (l !! i) as [c|] eqn:Ei; [|done]. cbn in Hk. destruct c as [y|]; [|done]. cbn in Hk. destruct (select_move_loop _ is) as [k'|] eqn:El; [|done]. injection Hk as <-.
    constructor; [by apply Hl|]. eapply IH; [|exact El]. intros j x Hj. destruct (decide (i = j)) as [->|Hne].
    + rewrite list_lookup_insert in Hj by (by eapply lookup_lt_Some). done.
    + rewrite list_lookup_insert_ne in Hj by done. by apply Hl.
Qed.
Lemma select_move_lookup {A} (l : list A) is k : select_move l is = Some k -> Forall2 (fun i c => l !! i = Some c) is k.
Proof.
  intros H. eapply select_move_loop_lookup; [|exact H]. intros i x Hi. rewrite list_lookup_fmap in Hi. destruct (l !! i); [|done]. cbn in Hi. congruence.
Qed.
Lemma bind_pairs {A} (pairs : list (A * A)) : forall j c, (pairs ≫= (fun p : A * A => [p.1; p.2])) !! j = Some c ->
  exists p, pairs !! (j / 2) = Some p /\ c = if Nat.even j then p.1 else p.2.
Proof.
  setoid_rewrite <- Nat.div2_div. induction pairs as [|p pairs IH]; intros j c H; [done|]. destruct j as [|[|j]].
  - injection H as <-. by exists p.
  - injection H as <-. by exists p.
  - cbn [Nat.div2 Nat.even]. apply IH. exact H.
Qed.

Section step.
Context {T : Type} `{EqDecision T}.
Notation cand := (candidate T).
Variable cf : settings T.
Variable oc : outcomes T.

Lemma inherit_chromosome p1 p2 (c : cand) : chromosome (inherit (chrom_eq cf) p1 p2 c) = chromosome c.
Proof. unfold inherit. repeat case_match; done. Qed.
Lemma crossover_traced gen i g c1 c2 : fitness_matrix g = fitness <$> population g -> crossover cf oc gen i g = Some (c1, c2) ->
  exists p1 p2, population g !! o_select oc gen (2 * i) (fitness <$> population g) = Some p1 /\
    population g !! o_select oc gen (2 * i + 1) (fitness <$> population g) = Some p2 /\
    offspring cf oc gen i p1 p2 (chromosome c1) (chromosome c2).
Proof.
  intros Hf H. unfold crossover in H. apply bind_Some in H as (p1 & H1 & H). apply bind_Some in H as (p2 & H2 & H). unfold select in H1, H2. apply assertion_Some in H1 as [H1 _], H2 as [H2 _].
  rewrite Hf in H1, H2. exists p1, p2. split; [done|]. split; [done|]. unfold offspring. destruct (o_rate oc gen i) as [pc r]. cbn [fst snd]. unfold crossover_op in H.
  do 4 apply check_Some in H as [H _]. destruct (fle pc r); cbn [orb]; [by injection H as <- <-|]. destruct (chrom_eq cf (chromosome p1) (chromosome p2)); [by injection H as <- <-|].
  apply bind_Some in H as ([d1 d2] & Hd & H). do 2 apply check_Some in H as [H _]. injection H as <- <-. exists d1, d2. rewrite !inherit_chromosome. done.
Qed.
Lemma make_traced gen g l : make_children cf oc gen g = Some l -> forall k c, l !! k = Some c ->
  exists p, crossover cf oc gen (k / 2) g = Some p /\ c = if Nat.even k then p.1 else p.2.
Proof.
  unfold make_children. intros H k c Hk. apply bind_Some in H as (pairs & Hp & H). cbn zeta in H. pose proof (mapM_length _ _ _ Hp) as Hl. rewrite seq_length in Hl.
  assert (Hc : length (pairs ≫= (fun p : cand * cand => [p.1; p.2])) = 2 * length pairs).
  { clear. induction pairs as [|p pairs IH]; [done|]. cbn [mbind list_bind]. rewrite app_length. cbn [length]. cbn [mbind list_bind] in IH. lia. }
  assert (Hmain : forall k c, (pairs ≫= (fun p : cand * cand => [p.1; p.2])) !! k = Some c -> exists p, crossover cf oc gen (k / 2) g = Some p /\ c = if Nat.even k then p.1 else p.2).
  { intros k' c' Hk'. apply bind_pairs in Hk' as (p & Hk' & Hc'). exists p. split; [|done]. apply mapM_Some in Hp. destruct (Forall2_lookup_r _ _ _ _ _ Hp Hk') as (i & Hi & Hx).
    apply lookup_seq in Hi as [-> _]. done. }
  destruct (Nat.odd (population_size cf)).
  - apply bind_Some in H as (p & Hcr & H). injection H as <-. apply lookup_app_Some in Hk as [Hk|[Hge Hk]]; [by apply Hmain|]. rewrite Hc in Hge, Hk. apply list_lookup_singleton_Some in Hk as [Hk <-].
    assert (k = 2 * (population_size cf / 2)) as -> by lia. exists p. rewrite (Nat.mul_comm 2), Nat.div_mul by lia. split; [done|]. by rewrite Nat.even_mul, orb_true_r.
  - injection H as <-. by apply Hmain.
Qed.
Lemma finish_traced l : forall gen k g l' g', finish_children cf oc gen k l g = Some (l', g') -> forall j c', l' !! j = Some c' ->
  exists c m, l !! j = Some c /\ o_mutate oc gen (k + j) c = Some m /\ chromosome c' = repaired oc gen (k + j) m.
Proof.
  induction l as [|c l IH]; intros gen k g l' g' H j c' Hj; cbn [finish_children] in H.
  - injection H as <- <-. done.
  - apply bind_Some in H as (c1 & H1 & H). apply bind_Some in H as (c2 & H2 & H). apply bind_Some in H as ([c3 g3] & H3 & H). apply bind_Some in H as ([l4 g4] & H4 & H).
    injection H as <- <-. destruct j as [|j].
    + injection Hj as <-. exists c, (chromosome c1). rewrite Nat.add_0_r. split; [done|]. apply mutation_Some in H1 as [H1 _]. split; [done|]. apply evaluate_Some in H3 as (E3 & _). rewrite E3. unfold repaired.
      apply repair_Some in H2 as [(-> & ->)|(r & -> & -> & _)]; done.
    + cbn in Hj. destruct (IH _ _ _ _ _ H4 j c' Hj) as (d & m & Hd). exists d, m. replace (k + S j) with (S k + j) by lia. exact Hd.
Qed.
Lemma advanced_step g ch0 ch cs is g' : fitness_matrix g = fitness <$> population g -> advanced cf oc g ch0 ch cs is g' -> generation_step cf oc (generation_cntr g) (population g) (population g').
Proof.
  intros Hf [A1 A2 A3 A4 A5 A6 A7 A8 A9]. exists ch, is. pose proof (make_children_length _ _ _ _ _ A1) as L1. destruct (finish_Some _ _ _ _ _ _ _ _ A2) as (_ & _ & _ & L2 & _).
  split; [lia|]. split; [|split; [done|by apply select_move_lookup]]. intros k c Hk. destruct (finish_traced _ _ _ _ _ _ A2 k c Hk) as (d & m & Hd & Hm & Hr). cbn in Hm, Hr.
  destruct (make_traced _ _ _ A1 k d Hd) as ([c1 c2] & Hp & Ed). apply crossover_traced in Hp as (p1 & p2 & P1 & P2 & Ho); [|done].
  exists p1, p2, (chromosome c1), (chromosome c2), d, m. split_and!; try done. rewrite Ed. by destruct (Nat.even k).
Qed.
End step.

(** ** C102 *)
Theorem C102_generation {T : Type} `{EqDecision T} (cf : settings T) (oc : outcomes T) generations initial g sols g' gen v w :
  solve cf oc generations initial g = Some (sols, g') ->
  callbacks (log g') !! gen = Some v -> callbacks (log g') !! S gen = Some w ->
  generation_step cf oc gen (v_pop v) (v_pop w).
Proof.
  intros H.
  assert (Hinv : exists gl, (fitness_matrix gl = fitness <$> population gl /\ length (callbacks (log gl)) = S (generation_cntr gl) /\
      (exists v, callbacks (log gl) !! generation_cntr gl = Some v /\ v_pop v = population gl) /\
      (forall gen v w, callbacks (log gl) !! gen = Some v -> callbacks (log gl) !! S gen = Some w -> generation_step cf oc gen (v_pop v) (v_pop w))) /\ stop_now oc gl /\ solved cf oc g gl sols g').
  { eapply solve_inv; [| |exact H].
    - intros g1 H1. apply initialize_Some in H1 as (pop0 & cs & [I1 I2 I3 I4 I5 I6 (I7 & I8 & _)]). rewrite I6, I8. cbn zeta. rewrite callbacks_app, callbacks_calls. cbn.
      split; [done|]. split; [done|]. split; [by eexists|]. intros [|gen0] v0 w0 _ Hw; done.
    - intros g0 g1 (F0 & L0 & (vl & Hvl & Pl) & V0) _ H1. apply advance_Some in H1 as (ch0 & ch & cs & is & Had). pose proof (advanced_step cf oc (stopped g0) _ _ _ _ _ F0 Had) as Hstep.
      destruct Had as [A1 A2 A3 A4 A5 A6 A7 A8 (A9 & A10 & _)]. rewrite A10, A8. cbn zeta. rewrite !callbacks_app, callbacks_calls. cbn [stopped emit generation_cntr log population fitness_matrix num_fitness_evals] in *.
      rewrite callbacks_app. cbn [callbacks omap list_omap app]. rewrite app_nil_r. split; [done|]. split; [rewrite app_length; cbn; lia|].
      split; [eexists; split; [by rewrite lookup_app_r, L0, Nat.sub_diag by lia|done]|].
      intros gen0 v0 w0 Hv Hw. apply lookup_app_Some in Hw as [Hw|[Hge Hw]].
      + rewrite lookup_app_l in Hv by (apply lookup_lt_Some in Hw; lia). by apply V0.
      + apply list_lookup_singleton_Some in Hw as [Hz <-]. assert (gen0 = generation_cntr g0) as -> by lia. rewrite lookup_app_l in Hv by lia. cbn [v_pop]. assert (v0 = vl) as -> by congruence. rewrite Pl. exact Hstep. }
  destruct Hinv as (gl & (F0 & L0 & _ & V0) & _ & [L _ _ _ _]). rewrite L, callbacks_app. cbn [callbacks omap list_omap]. rewrite app_nil_r. apply V0.
Qed.
Print Assumptions C102_generation.
Theorem C102_first {T : Type} `{EqDecision T} (cf : settings T) (oc : outcomes T) generations initial g sols g' v :
  solve cf oc generations initial g = Some (sols, g') ->
  callbacks (log g') !! 0 = Some v ->
  length (v_pop v) = population_size cf /\
  forall k c, v_pop v !! k = Some c ->
    chromosome c = match initial !! k with Some i => chromosome i | None => o_generate oc k end.
Proof.
  intros H.
  assert (Hinv : exists gl, (exists w, callbacks (log gl) !! 0 = Some w /\ chromosome <$> v_pop w = take (Nat.min (population_size cf) (length initial)) (chromosome <$> initial) ++ (o_generate oc <$> seq (Nat.min (population_size cf) (length initial)) (population_size cf - Nat.min (population_size cf) (length initial)))) /\ stop_now oc gl /\ solved cf oc g gl sols g').
  { eapply solve_inv; [| |exact H].
    - intros g1 H1. apply initialize_Some in H1 as (pop0 & cs & [I1 I2 I3 I4 I5 I6 (I7 & I8 & _)]). rewrite I6. cbn zeta. rewrite callbacks_app, callbacks_calls. eexists. split; [done|]. cbn [v_pop].
      destruct (evaluate_all_Some _ _ _ _ _ I3) as (_ & _ & _ & _ & -> & _). unfold generatePopulation in I2. apply assertion_Some in I2 as [I2 _]. cbn zeta in I2. apply assertion_Some in I2 as [I2 _]. injection I2 as <-.
      rewrite fmap_app, fmap_take, <- list_fmap_compose. done.
    - intros g0 g1 (w & Hw & Pw) _ H1. apply advance_Some in H1 as (ch0 & ch & cs & is & [A1 A2 A3 A4 A5 A6 A7 A8 _]). exists w. split; [|done]. rewrite A8. cbn [stopped emit log].
      rewrite !callbacks_app. rewrite <- app_assoc. by apply lookup_app_l_Some. }
  destruct Hinv as (gl & (w & Hw & Pw) & _ & [L _ _ _ _]). rewrite L, callbacks_app. intros Hv. rewrite (lookup_app_l_Some _ _ _ _ Hw) in Hv. injection Hv as ->.
  split. { rewrite <- (fmap_length chromosome), Pw, app_length, take_length, !fmap_length, seq_length. lia. }
  intros k c Hk. assert (Hx : (chromosome <$> v_pop v) !! k = Some (chromosome c)) by (by rewrite list_lookup_fmap, Hk). rewrite Pw in Hx.
  apply lookup_app_Some in Hx as [Hx|[Hge Hx]].
  - rewrite lookup_take_Some, list_lookup_fmap in Hx. destruct Hx as [Hx _]. destruct (initial !! k); [|done]. cbn in Hx. congruence.
  - rewrite take_length, fmap_length in Hge, Hx. rewrite list_lookup_fmap in Hx. destruct (seq _ _ !! _) as [j|] eqn:Ej; [|done]. apply lookup_seq in Ej as [-> Hlt]. cbn in Hx. injection Hx as Hx.
    rewrite lookup_ge_None_2 by lia. rewrite <- Hx. f_equal. lia.
Qed.
Print Assumptions C102_first.

(** ** C103 *)
Section fifo.
Context {K V : Type} `{EqDecision K}.
Implicit Types s : fifo K V.
(** At most [m] keys are younger than [x]. *)
Definition near (x : K) (m : nat) s : Prop := exists a v b, fitems s = a ++ (x, v) :: b /\ length b <= m.
Lemma near_get x m s : near x m s -> fget s x <> None.
Proof. intros (a & v & b & E & _). rewrite fget_assoc, assoc_None, E. intros Hn. apply Hn. rewrite fmap_app, elem_of_app. right. cbn. apply elem_of_cons. by left. Qed.
Lemma fadd_near x m s k v : near x m s -> m + 1 < fcap s -> near x (m + 1) (fadd s k v).
Proof.
  intros (a & w & b & E & Hb) Hm. unfold fadd. destruct (decide (fcap s = 0)); [lia|]. destruct (decide (k ∈ (fitems s).*1)).
  - unfold near. cbn [fitems]. rewrite E, map_app. cbn [map fst]. destruct (decide (x = k)) as [->|]; do 3 eexists; (split; [reflexivity|rewrite map_length; lia]).
  - destruct (decide (length (fitems s) = fcap s)) as [El|]; unfold near; cbn [fitems]; rewrite E.
    + destruct a as [|p a]; [rewrite E in El; cbn in El; lia|]. cbn [tail app]. exists a, w, (b ++ [(k, v)]). rewrite app_comm_cons, app_assoc, app_length. cbn. split; [done|lia].
    + exists a, w, (b ++ [(k, v)]). rewrite <- app_assoc, app_length. cbn. split; [done|lia].
Qed.
Lemma fadds_near x l : forall m s, near x m s -> m + length l < fcap s -> near x (m + length l) (fadds s l).
Proof.
  induction l as [|[k v] l IH]; intros m s Hn Hm; cbn [length fadds fold_left] in *; [by rewrite Nat.add_0_r|].
  replace (m + S (length l)) with ((m + 1) + length l) by lia. apply IH; [apply fadd_near; [done|lia]|]. rewrite fadd_cap. cbn. lia.
Qed.
Lemma fadd_new x v s : fcap s <> 0 -> x ∉ (fitems s).*1 -> near x 0 (fadd s x v).
Proof.
  intros Hc Hx. unfold fadd. destruct (decide (fcap s = 0)); [done|]. destruct (decide (x ∈ (fitems s).*1)); [done|]. destruct (decide _); unfold near; cbn [fitems]; do 2 eexists; exists []; done.
Qed.
Lemma fadd_keys x s k v : x ∉ (fitems s).*1 -> x <> k -> x ∉ (fitems (fadd s k v)).*1.
Proof.
  intros Hx Hk. unfold fadd. destruct (decide (fcap s = 0)); [done|]. destruct (decide (k ∈ (fitems s).*1)).
  - cbn [fitems]. change (x ∉ (assign (fitems s) k v).*1). by rewrite assign_keys.
  - destruct (decide _); cbn [fitems]; rewrite fmap_app, elem_of_app; cbn; rewrite elem_of_list_singleton; intros [Hin|Hin]; try done. apply Hx. destruct (fitems s); [done|]. cbn in *. apply elem_of_cons. by right.
Qed.
Lemma fadds_keys x l : forall s, x ∉ (fitems s).*1 -> x ∉ l.*1 -> x ∉ (fitems (fadds s l)).*1.
Proof.
  induction l as [|[k v] l IH]; intros s Hs Hl; [done|]. cbn [fmap list_fmap fst] in Hl. apply not_elem_of_cons in Hl as [Hk Hl]. cbn [fadds fold_left fst snd]. apply IH; [|done]. by apply fadd_keys.
Qed.
Lemma fadds_first x l s : fcap s <> 0 -> length l <= fcap s -> x ∉ (fitems s).*1 -> x ∈ l.*1 -> near x (length l - 1) (fadds s l).
Proof.
  revert s. induction l as [|[k v] l IH]; intros s Hc Hl Hs Hx; [by apply elem_of_nil in Hx|]. cbn [fadds fold_left fst snd length] in *. destruct (decide (x = k)) as [<-|Hne].
  - replace (S (length l) - 1) with (0 + length l) by lia. apply fadds_near; [by apply fadd_new|]. rewrite fadd_cap. lia.
  - cbn in Hx. apply elem_of_cons in Hx as [Hx|Hx]; [done|]. destruct (IH (fadd s k v)) as (a & w & b & E & Hb); [by rewrite fadd_cap|rewrite fadd_cap; lia|by apply fadd_keys|done|].
    exists a, w, b. split; [exact E|]. lia.
Qed.
(** The cache after the insertion of some batches. *)
Definition filled (cap : nat) (ls : list (list (K * V))) : fifo K V := fold_left (fun s l => fadds s (drop (length l - fcap s) l)) ls (Fifo cap []).
Lemma filled_snoc cap ls l : filled cap (ls ++ [l]) = fadds (filled cap ls) (drop (length l - fcap (filled cap ls)) l).
Proof. unfold filled. by rewrite fold_left_app. Qed.
Lemma filled_cap cap ls : fcap (filled cap ls) = cap.
Proof. induction ls as [|l ls IH] using rev_ind; [done|]. by rewrite filled_snoc, fadds_cap. Qed.
Lemma filled_keys cap ls x : (forall l, l ∈ ls -> x ∉ l.*1) -> x ∉ (fitems (filled cap ls)).*1.
Proof.
  induction ls as [|l ls IH] using rev_ind; intros Hx; [by apply not_elem_of_nil|]. rewrite filled_snoc. apply fadds_keys.
  - apply IH. intros l' Hl'. apply Hx, elem_of_app. by left.
  - intros Hin. rewrite fmap_drop in Hin. apply elem_of_list_lookup in Hin as [i Hi]. rewrite lookup_drop in Hi. apply (Hx l); [apply elem_of_app; right; by apply elem_of_list_singleton|]. by eapply elem_of_list_lookup_2.
Qed.
(** A key first seen in one of the last [n] batches of [p] bindings each is in a cache for [n * p] of them. *)
Lemma filled_near n p ls1 l ls2 x : 0 < p -> Forall (fun l => length l = p) (l :: ls2) -> (forall l', l' ∈ ls1 -> x ∉ l'.*1) -> x ∈ l.*1 -> length ls2 < n ->
  fget (filled (n * p) (ls1 ++ l :: ls2)) x <> None.
Proof.
  intros Hp Hl H1 Hx Hn. apply Forall_cons in Hl as [Hl Hls]. apply (near_get x ((length ls2 + 1) * p - 1)).
  assert (Hnp : p <= n * p) by (destruct n; [lia|cbn; lia]).
  revert Hn Hls. induction ls2 as [|l2 ls2 IH] using rev_ind; intros Hn Hls.
  - rewrite filled_snoc, fadds_drop_short by (rewrite filled_cap; lia). replace ((length [] + 1) * p - 1) with (length l - 1) by (cbn; lia).
    apply fadds_first; [rewrite filled_cap; lia|rewrite filled_cap; lia|by apply filled_keys|done].
  - apply Forall_app in Hls as [Hls Hl2]. apply Forall_cons in Hl2 as [Hl2 _]. rewrite app_length in *. cbn [length] in *. rewrite app_comm_cons, app_assoc, filled_snoc.
    rewrite fadds_drop_short by (rewrite filled_cap; lia). assert (Hle : (length ls2 + 1 + 1) * p <= n * p) by (apply Nat.mul_le_mono_r; lia).
    replace ((length ls2 + 1 + 1) * p - 1) with (((length ls2 + 1) * p - 1) + length l2) by lia.
    apply fadds_near; [apply IH; [lia|done]|]. rewrite filled_cap. lia.
Qed.
End fifo.

Section cached.
Context {T : Type} `{EqDecision T}.
Notation cand := (candidate T).
Variable cf : settings T.
Variable oc : outcomes T.
Lemma called_inj cs cs' (g : ga T) : called cs g = called cs' g -> cs = cs'.
Proof.
  intros E. apply (f_equal (fun g => log g)) in E. cbn in E. apply app_inv_head in E. revert cs' E. induction cs as [|x cs IH]; intros [|y cs'] E; try done.
  cbn in E. injection E as -> E. f_equal. by apply IH.
Qed.
Lemma evaluate_missing c g c' cs : evaluate cf c g = Some (c', called cs g) -> cached_generations cf <> 0 -> Forall (fun x => cache_get (fitness_cache g) x = None) cs.
Proof.
  intros H Hn. apply evaluate_Some in H as (_ & _ & [(_ & _ & _ & E)|[(f & _ & _ & _ & E & _)|(_ & E & _ & Hx)]]).
  - rewrite <- (called_nil g) in E at 2. apply called_inj in E as ->. constructor.
  - rewrite <- (called_nil g) in E at 2. apply called_inj in E as ->. constructor.
  - apply called_inj in E as ->. constructor; [by apply Hx|constructor].
Qed.
Lemma evaluate_all_missing l : cached_generations cf <> 0 -> forall g l' cs, evaluate_all cf l g = Some (l', called cs g) -> Forall (fun x => cache_get (fitness_cache g) x = None) cs.
Proof.
  intros Hn. induction l as [|c l IH]; intros g l' cs H; cbn [evaluate_all] in H.
  - injection H as _ E. rewrite <- (called_nil g) in E at 1. apply called_inj in E as <-. constructor.
  - apply bind_Some in H as ([c1 g1] & H1 & H). apply bind_Some in H as ([l2 g2] & H2 & H). injection H as _ E.
    destruct (evaluate_called _ _ _ _ _ H1) as (cs1 & -> & _). destruct (evaluate_all_Some _ _ _ _ _ H2) as (cs2 & -> & _). rewrite called_app in E. apply called_inj in E as <-.
    apply Forall_app. split; [by eapply evaluate_missing|]. exact (IH _ _ _ H2).
Qed.
Lemma finish_missing l : cached_generations cf <> 0 -> forall gen k g l' cs, finish_children cf oc gen k l g = Some (l', called cs g) -> Forall (fun x => cache_get (fitness_cache g) x = None) cs.
Proof.
  intros Hn. induction l as [|c l IH]; intros gen k g l' cs H; cbn [finish_children] in H.
  - injection H as _ E. rewrite <- (called_nil g) in E at 1. apply called_inj in E as <-. constructor.
  - apply bind_Some in H as (c1 & H1 & H). apply bind_Some in H as (c2 & H2 & H). apply bind_Some in H as ([c3 g3] & H3 & H). apply bind_Some in H as ([l4 g4] & H4 & H).
    injection H as _ E. destruct (evaluate_called _ _ _ _ _ H3) as (cs1 & -> & _). destruct (finish_Some _ _ _ _ _ _ _ _ H4) as (cs2 & -> & _). rewrite called_app in E. apply called_inj in E as <-.
    apply Forall_app. split; [by eapply evaluate_missing|]. exact (IH _ _ _ _ _ H4).
Qed.
Definition bindings (pop : list cand) : list (list T * list b64) := (fun s : cand => (chromosome s, fitness s)) <$> pop.
Definition cached_pops (cap : nat) (vs : list (view T)) : fifo (list T) (list b64) := filled cap (bindings ∘ v_pop <$> take (length vs - 1) vs).
(** Where the calls in a log are. *)
Definition calls_ok (P : list (view T) -> list T -> Prop) (l : list (event T)) : Prop := forall before x after, l = before ++ ECall x :: after -> P (callbacks before) x.
Lemma calls_ok_app P l cs rest : calls_ok P l -> Forall (P (callbacks l)) cs -> calls rest = [] -> calls_ok P (l ++ (ECall <$> cs) ++ rest).
Proof.
  intros Hl Hcs Hr before x after E. apply app_eq_inv in E as [(k & -> & E)|(k & -> & E)].
  - destruct k as [|e k]; cbn in E.
    + rewrite app_nil_r in *. destruct cs as [|y cs]; cbn in E.
      * subst rest. done.
      * injection E as -> _. by apply Forall_cons in Hcs as [Hcs _].
    + injection E as <- ->. by eapply Hl.
  - apply app_eq_inv in E as [(k' & E1 & E)|(k' & -> & E)].
    + assert (Hc : exists a b, cs = a ++ b /\ k = ECall <$> a /\ k' = ECall <$> b). { apply fmap_app_inv in E1 as (a & b & -> & -> & ->). by exists a, b. }
      destruct Hc as (a & b & -> & -> & ->). rewrite callbacks_app, callbacks_calls, app_nil_r. destruct b as [|y b]; cbn in E.
      * subst rest. done.
      * injection E as -> _. apply Forall_app in Hcs as [_ Hcs]. by apply Forall_cons in Hcs as [Hcs _].
    + subst rest. unfold calls in Hr. rewrite omap_app in Hr. apply app_eq_nil in Hr as [_ Hr]. done.
Qed.
End cached.

Lemma take_snoc_pred {A} (l : list A) x : take (length (l ++ [x]) - 1) (l ++ [x]) = l.
Proof. rewrite app_length. cbn. replace (length l + 1 - 1) with (length l) by lia. by rewrite take_app. Qed.
Lemma bindings_keys {T} (l : list (candidate T)) : (bindings l).*1 = chromosome <$> l.
Proof. unfold bindings. by rewrite <- list_fmap_compose. Qed.
(** A chromosome that the fitness function is called with, if it was in a population before, first
    was so in the current population or more than [n] generations before that one. *)
Theorem C103_cached_partial {T : Type} `{EqDecision T} (cf : settings T) (oc : outcomes T) generations initial g sols g' before x after j :
  dynamic cf = false -> 0 < cached_generations cf -> 0 < population_size cf ->
  (forall gen m is, o_next oc gen m = Some is -> length is = population_size cf) ->
  (exists s, crepr (fitness_cache g) s) ->
  solve cf oc generations initial g = Some (sols, g') ->
  log g' = before ++ ECall x :: after ->
  first_seen (callbacks before) x j ->
  let current := length (callbacks before) - 1 in
  j = current \/ j + cached_generations cf < current.
Proof.
  intros Hd Hn Hp Hnext [s0 Hs0] H. set (n := cached_generations cf) in *. set (p := population_size cf) in *.
  pose proof (C50_population_size cf oc generations initial g sols g' Hnext H) as (Hsize & _).
  assert (Hinv : exists gl, (calls_ok (fun vs x => fget (cached_pops (n * p) vs) x = None) (log gl) /\ crepr (fitness_cache gl) (cached_pops (n * p) (callbacks (log gl))) /\
      exists vs v, callbacks (log gl) = vs ++ [v] /\ v_pop v = population gl) /\ stop_now oc gl /\ solved cf oc g gl sols g').
  { eapply solve_inv; [| |exact H].
    - intros g1 H1. apply initialize_Some in H1 as (pop0 & cs & [I1 I2 I3 I4 I5 I6 (I7 & I8 & _)]). rewrite Hd in I1. rewrite Nat.mul_1_l in I1. fold n p in I1.
      destruct (crepr_reset (fitness_cache g) s0 (n * p) Hs0) as (c & Ec & Hc). cbn [set_max_gen fitness_cache] in I1. rewrite I1 in Ec. injection Ec as <-.
      apply evaluate_all_missing in I3; [|lia]. cbn [fitness_cache] in I3. rewrite I6. cbn zeta. split; [|split].
      + change (calls_ok (fun vs x0 => fget (cached_pops (n * p) vs) x0 = None) ([] ++ (ECall <$> cs) ++ [EMetrics (View 0 (length cs) (population g1) (fitness_matrix g1)); ECallback (View 0 (length cs) (population g1) (fitness_matrix g1))])).
        apply calls_ok_app; [intros [|? ?] ? ? E; discriminate E|by apply Forall_forall|done].
      + rewrite callbacks_app, callbacks_calls. exact Hc.
      + rewrite callbacks_app, callbacks_calls. exists []. eexists. done.
    - intros g0 g1 (C0 & R0 & (vs & v & Ev & Pv)) _ H1. apply advance_Some in H1 as (ch0 & ch & cs & is & [A1 A2 A3 A4 A5 A6 A7 A8 _]).
      apply finish_missing in A2; [|lia]. cbn [stopped emit fitness_cache population log generation_cntr num_fitness_evals] in *.
      assert (Hcb : callbacks (log g0 ++ [EStop (view_of g0)]) = callbacks (log g0)) by (rewrite callbacks_app; cbn; by rewrite app_nil_r).
      destruct (crepr_insert_range _ _ (bindings (population g0)) R0) as (c & Ec & Hc). unfold bindings at 1 in Ec. rewrite A3 in Ec. injection Ec as <-.
      rewrite A8. split; [|split].
      + apply calls_ok_app; [|rewrite Hcb|done].
        * change (log g0 ++ [EStop (view_of g0)]) with (log g0 ++ (ECall <$> []) ++ [EStop (view_of g0)]). apply calls_ok_app; [done|constructor|done].
        * apply Forall_forall. intros y Hy. rewrite Forall_forall in A2. specialize (A2 y Hy). apply crepr_looks_like in R0 as (_ & _ & _ & Hg & _). by rewrite <- Hg.
      + rewrite callbacks_app, Hcb, callbacks_app, callbacks_calls. cbn [callbacks omap list_omap app]. unfold cached_pops in *. rewrite take_snoc_pred. rewrite Ev in Hc |- *. rewrite take_snoc_pred in Hc.
        rewrite fmap_app. cbn [fmap list_fmap]. rewrite filled_snoc. unfold compose at 2 4. rewrite Pv. exact Hc.
      + rewrite callbacks_app, Hcb, callbacks_app, callbacks_calls. cbn [callbacks omap list_omap app]. eexists _, _. split; [done|done]. }
  destruct Hinv as (gl & (C0 & _ & _) & _ & [L _ _ _ _]). intros Elog [(v & Hv & Hx) Hfirst]. cbn zeta.
  assert (Hcall : fget (cached_pops (n * p) (callbacks before)) x = None).
  { assert (Hc : calls_ok (fun vs x => fget (cached_pops (n * p) vs) x = None) (log g')).
    { rewrite L. change (log gl ++ [EStop (view_of gl)]) with (log gl ++ (ECall <$> []) ++ [EStop (view_of gl)]). apply calls_ok_app; [done|constructor|done]. }
    by eapply Hc. }
  pose proof (lookup_lt_Some _ _ _ Hv) as Hj. destruct (decide (j = length (callbacks before) - 1)) as [|Hne]; [by left|right].
  destruct (decide (j + n < length (callbacks before) - 1)) as [|Hge]; [done|exfalso].
  assert (Hall : forall w, w ∈ callbacks before -> length (v_pop w) = p).
  { intros w Hw. apply Hsize. rewrite Elog, callbacks_app. apply elem_of_app. by left. }
  set (vs := callbacks before) in *. set (us := take (length vs - 1) vs) in *.
  assert (Hu : us !! j = Some v) by (unfold us; rewrite lookup_take by lia; done).
  assert (Hul : length us = length vs - 1) by (unfold us; rewrite take_length; lia).
  assert (Hus : forall w, w ∈ us -> w ∈ vs) by (intros w Hw; unfold us in Hw; by eapply elem_of_take in Hw as (i & Hw & _); eapply elem_of_list_lookup_2).
  unfold cached_pops in Hcall. fold us in Hcall. rewrite <- (take_drop_middle us j v Hu), fmap_app in Hcall. cbn [fmap list_fmap] in Hcall. revert Hcall. apply filled_near.
  - done.
  - change (Forall (fun l => length l = p) ((bindings ∘ v_pop) <$> (v :: drop (S j) us))). apply Forall_fmap, Forall_forall. intros w Hw. cbv [compose]. unfold bindings. rewrite fmap_length. apply Hall, Hus.
    apply elem_of_cons in Hw as [->|Hw]; [by eapply elem_of_list_lookup_2|]. apply elem_of_list_lookup in Hw as [i Hw]. rewrite lookup_drop in Hw. by eapply elem_of_list_lookup_2.
  - intros l' Hl'. apply elem_of_list_fmap in Hl' as (w & -> & Hw). cbv [compose]. rewrite bindings_keys. apply elem_of_list_lookup in Hw as [i Hw]. apply lookup_take_Some in Hw as [Hw Hi].
    apply (Hfirst i w); [done|]. unfold us in Hw. by apply lookup_take_Some in Hw as [Hw _].
  - cbv [compose]. rewrite bindings_keys. exact Hx.
  - rewrite fmap_length, drop_length. lia.
Qed.
Print Assumptions C103_cached_partial.
