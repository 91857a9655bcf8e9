(** A concrete genetic algorithm that meets the hypotheses of the theorems about runs, and
    runs that refute the stronger claims. *)
From stdpp Require Import list list_numbers sets.
From Coq Require Import Lia Reals Lra.
From Flocq Require Import Core BinarySingleNaN.
From Verif Require Import FloatBase FloatModel FloatSpec FloatProofs FloatProps StdSort AlgorithmModel AlgorithmProofs AlgorithmProps FrontSpec FrontModel FrontProofs FrontProps MergeModel MergeSpec MergeProps NdSortProps ReplacementModel ReplacementSpec ReplacementProps CacheModel CacheSpec CacheProofs CrossoverModel OperatorModel OperatorSpec.
From Verif Require Import EngineModel EngineSpec EngineProofs EngineRuns EngineProps EngineCacheProps EngineSolutionsProps EngineBestProps.

(** ** Lexicographic order of vectors *)
Fixpoint lex (a b : list nat) : bool :=
  match a, b with
  | _, [] => false
  | [], _ :: _ => true
  | x :: a, y :: b => (x <? y) || ((x =? y) && lex a b)
  end.
Lemma lex_irr a : lex a a = false.
Proof. induction a as [|x a IH]; [done|]. cbn [lex]. rewrite IH, Nat.ltb_irrefl. by rewrite andb_false_r. Qed.
Lemma lex_cons x a y b : lex (x :: a) (y :: b) = true <-> x < y \/ (x = y /\ lex a b = true).
Proof. cbn [lex]. rewrite orb_true_iff, andb_true_iff, Nat.ltb_lt, Nat.eqb_eq. done. Qed.
Lemma lex_tra a : forall b c, lex a b = true -> lex b c = true -> lex a c = true.
Proof.
  induction a as [|x a IH]; intros b c Hab Hbc; destruct b as [|y b], c as [|z c]; try done. apply lex_cons in Hab, Hbc. apply lex_cons.
  destruct Hab as [?|[-> Hab]], Hbc as [?|[-> Hbc]]; [left; lia|by left|by left|right]. split; [done|]. by apply (IH b).
Qed.
Lemma lex_tot a : forall b, lex a b = false -> lex b a = false -> a = b.
Proof.
  induction a as [|x a IH]; intros [|y b] H1 H2; try done. cbn [lex] in H1, H2. apply orb_false_iff in H1 as [L1 H1], H2 as [L2 H2]. apply Nat.ltb_ge in L1, L2.
  assert (x = y) as -> by lia. rewrite Nat.eqb_refl in H1, H2. cbn in H1, H2. f_equal. by apply IH.
Qed.
Lemma lex_swo {A} (key : A -> list nat) (l : list A) : swo_on (fun a b => lex (key a) (key b)) l.
Proof.
  split.
  - intros x _. apply lex_irr.
  - intros x y z _ _ _. apply lex_tra.
  - intros x y z _ _ _ H1 H2. destruct (lex (key x) (key z)) eqn:E; [|done]. destruct (lex (key y) (key x)) eqn:E2.
    + rewrite (lex_tra _ _ _ E2 E) in H2. done.
    + rewrite (lex_tot _ _ H1 E2) in E. congruence.
Qed.

(** ** The settings: three candidates with one gene; the fitness is the gene, at most 10 *)
Definition ex_fitness (c : list nat) : list b64 := [fmk (Z.of_nat (Nat.min (hd 0 c) 10)) 0].
Definition ex_cf (cached : nat) (keep dyn dbg : bool) (t : tolerances) (f : nat -> list nat -> list b64) : settings nat :=
  Settings 3 cached keep dyn dbg 1 false t (fun a b => bool_decide (a = b)) lex isort f.
Definition ex_merge (t : tolerances) (l r : list (candidate nat)) : list (candidate nat) :=
  let '(big, small) := if decide (length l < length r) then (r, l) else (l, r) in
  undominated (cand_less t fitness) (big ++ small) big ++ undominated (cand_less t fitness) (big ++ small) small.
Definition ex_oc (t : tolerances) (next : list (list b64) -> option (list nat)) : outcomes nat :=
  Outcomes nat [0] (fun k => [k]) (fun _ k _ => k `mod` 3) (fun _ _ => (fmk 1 0, fmk 0 0))
    (fun _ _ p1 p2 => Some (Cand [] (chromosome p2) false, Cand [] (chromosome p1) false))
    (fun gen k c => Some (if k =? 1 then chromosome c else (fun x => x + gen + k) <$> chromosome c)) None (fun _ => next) (fun _ _ => []) (fun _ => ex_merge t) (fun _ => false).
Definition psort0 {A} (lt : A -> A -> bool) (_ : nat) (l : list A) : list A := isort lt l.
Definition ex_keep_best (t : tolerances) : list (list b64) -> option (list nat) := KeepBest t isort psort0 true 3.
Definition ex_elitism (t : tolerances) : list (list b64) -> option (list nat) := Elitism t isort psort0 true 3 1.
Definition ex_ga : ga nat := Ga 7 5 100 3 [] [] [] (cache_new 0) [].
Definition ex_initial : list (candidate nat) := [Cand [] [2] false; Cand [] [2] false].

Lemma ex_row c : one_number (ex_fitness c).
Proof.
  eexists. split; [done|]. assert (H : Nat.min (hd 0 c) 10 <= 10) by lia. revert H. generalize (Nat.min (hd 0 c) 10). intros n Hn.
  do 11 (destruct n as [|n]; [vm_compute; reflexivity|]). lia.
Qed.
Lemma one_matrix (l : list (candidate nat)) : Forall (fun c => one_number (fitness c)) l -> matrix 1 (fitness <$> l).
Proof. intros H. apply Forall_fmap. eapply Forall_impl; [exact H|]. intros c (a & E & Hf). cbv [compose]. rewrite E. split; [done|]. by apply Forall_singleton. Qed.
Lemma keep_best_ok t m : exact t -> length m = 6 -> one_objective m -> exists is, ex_keep_best t m = Some is /\ distinct_indices 3 (length m) is.
Proof.
  intros (T1 & T2 & T3) Hl Ho. destruct (C41_exact_partial t isort psort0 true 3 1 m isort_contract isort_partial_contract T1 T2 T3 Ho Hl) as [_ (is & E & [Hd _])]. exists is. done.
Qed.
Lemma elitism_ok t m : exact t -> length m = 6 -> one_objective m -> exists is, ex_elitism t m = Some is /\ distinct_indices 3 (length m) is.
Proof.
  intros (T1 & T2 & T3) Hl Ho. destruct (C41_elitism t isort psort0 isort_contract isort_partial_contract true 3 1 m Hl) as (best & E & _ & Hd); [apply descending1_swo; try done; by apply Forall_take|]. eexists. split; [exact E|exact Hd].
Qed.
Lemma ex_contract cached keep dyn dbg next : (next = ex_keep_best zero_tolerances \/ next = ex_elitism zero_tolerances) ->
  contract (ex_cf cached keep dyn dbg zero_tolerances (fun _ => ex_fitness)) (ex_oc zero_tolerances next) 1 one_number.
Proof.
  intros Hn. split; cbn; try done; try lia.
  - intros r (a & Ea & _). by rewrite Ea.
  - intros _ c. apply ex_row.
  - intros k. by right.
  - intros gen i p1 p2 H1 H2. do 2 eexists. split; [done|]. done.
  - intros gen k c H. eexists. split; [done|]. destruct (k =? 1); [done|]. destruct H as [H|H]; [by left|right]. cbn in *. by rewrite fmap_length.
  - intros gen m Hl Hr. destruct Hn as [En|En]; rewrite En; [by apply keep_best_ok; [apply zero_exact| |]|by apply elitism_ok; [apply zero_exact| |]].
  - intros gen m i _ _ H. by apply elem_of_nil in H.
  - intros pop Hp. destruct (C18_population_front _ zero_tolerances fitness 1 pop zero_exact ltac:(lia) (one_matrix pop Hp)) as (fr & -> & _). done.
Qed.
Lemma ex_initial_ok cached keep dyn dbg t f : valid_initial (ex_cf cached keep dyn dbg t f) one_number ex_initial.
Proof. repeat (apply Forall_cons; split; [split; [by right|done]|]). by apply Forall_nil. Qed.
Lemma ex_initial_sound f0 : Forall (fitness_sound f0) ex_initial.
Proof. repeat (apply Forall_cons; split; [done|]). by apply Forall_nil. Qed.
Lemma ex_sorts cached keep dyn dbg t f : sorts_chromosomes (ex_cf cached keep dyn dbg t f).
Proof. split; [apply isort_contract|]. intros l. apply lex_swo. Qed.
Lemma ex_drops t next : merge_drops (ex_oc t next).
Proof.
  intros gen l r x. cbn. unfold ex_merge. intros Hx. destruct (decide (length l < length r)); apply elem_of_app in Hx; unfold undominated in Hx; rewrite !elem_of_list_filter in Hx; tauto.
Qed.
Lemma ex_merged next gen (l r : list (candidate nat)) : Forall (fun c => one_number (fitness c)) (l ++ r) -> antichain (cand_less zero_tolerances fitness) l -> antichain (cand_less zero_tolerances fitness) r ->
  merged (cand_less zero_tolerances fitness) (cand_cmp zero_tolerances fitness) l r (o_merge (ex_oc zero_tolerances next) gen l r).
Proof.
  intros Hr Hl Hr2. destruct (C21_merge_possible (cand_less zero_tolerances fitness) (cand_cmp zero_tolerances fitness) l r) as [res Hres].
  pose proof (C21_merge_every_schedule_partial _ zero_tolerances fitness 1 l r res zero_exact (one_matrix _ Hr) Hl Hr2 Hres) as E. cbn. unfold ex_merge.
  destruct (decide (length l < length r)); rewrite <- E; done.
Qed.

(** ** What the runs look like *)
Definition summary (r : option (list (candidate nat) * ga nat)) :=
  match r with
  | Some (sols, g) => Some (chromosome <$> sols, generation_cntr g, num_fitness_evals g, hook_order (log g), calls (log g), (fun v => (v_gen v, chromosome <$> v_pop v)) <$> callbacks (log g))
  | None => None
  end.
Notation ex_run keep cached next := (solve (ex_cf cached keep false true zero_tolerances (fun _ => ex_fitness)) (ex_oc zero_tolerances next) 3 ex_initial ex_ga).
Example ex_run_keep_best : summary (ex_run true 1 (ex_keep_best zero_tolerances)) =
  Some ([[7]], 2, 6, [HMetrics; HCallback; HStop; HMetrics; HCallback; HStop; HMetrics; HCallback; HStop], [[2]; [2]; [2]; [4]; [3]; [7]],
    [(0, [[2]; [2]; [2]]); (0, [[4]; [2]; [2]]); (1, [[7]; [4]; [4]])]).
Proof. vm_compute. reflexivity. Qed.
Example ex_run_elitism : summary (ex_run false 0 (ex_elitism zero_tolerances)) =
  Some ([[3]], 2, 6, [HMetrics; HCallback; HStop; HMetrics; HCallback; HStop; HMetrics; HCallback; HStop], [[2]; [2]; [2]; [4]; [3]; [5]],
    [(0, [[2]; [2]; [2]]); (0, [[2]; [2]; [2]]); (1, [[2]; [3]; [2]])]).
Proof. vm_compute. reflexivity. Qed.

(** ** The hypotheses of the theorems are met by these runs *)
Lemma ex_run_ok keep cached next : (next = ex_keep_best zero_tolerances \/ next = ex_elitism zero_tolerances) -> exists sols g', ex_run keep cached next = Some (sols, g').
Proof.
  intros Hn. destruct (run_terminates (ex_cf cached keep false true zero_tolerances (fun _ => ex_fitness)) (ex_oc zero_tolerances next) 1 one_number 3 ex_initial ex_ga (Fifo 0 [])
    (ex_contract cached keep false true next Hn) ltac:(by left) (ex_initial_ok _ _ _ _ _ _) (crepr_new 0) ltac:(lia)) as (sols & g' & s' & E & _). by exists sols, g'.
Qed.
Lemma ex_c42 keep cached (b : bool) sols g' :
  let next := if b then ex_elitism zero_tolerances else ex_keep_best zero_tolerances in
  ex_run keep cached next = Some (sols, g') ->
  forall i j v w, i <= j -> callbacks (log g') !! i = Some v -> callbacks (log g') !! j = Some w -> best_kept (v_pop v) (v_pop w) /\ best_kept (v_pop v) (population g').
Proof.
  intros next E.
  assert (Hn : next = ex_keep_best zero_tolerances \/ next = ex_elitism zero_tolerances) by (unfold next; destruct b; [by right|by left]).
  assert (Hnext : (forall (gen : nat) m, o_next (ex_oc zero_tolerances next) gen m = Elitism zero_tolerances isort psort0 true 3 1 m) \/
    (forall (gen : nat) m, o_next (ex_oc zero_tolerances next) gen m = KeepBest zero_tolerances isort psort0 true 3 m)).
  { unfold next. destruct b; [left|right]; intros gen m; reflexivity. }
  clearbody next.
  exact (C42_best_never_decreases_partial (ex_cf cached keep false true zero_tolerances (fun _ => ex_fitness)) (ex_oc zero_tolerances next)
    (ex_contract cached keep false true next Hn) (or_introl eq_refl) zero_tolerances isort psort0 true 1 isort_contract isort_partial_contract zero_exact (le_n 1) Hnext (Fifo 0 []) 3 ex_initial ex_ga sols g' (ex_initial_ok _ _ _ _ _ _) (crepr_new 0) E).
Qed.
Example C42_nonvacuous : exists sols g', ex_run true 1 (ex_keep_best zero_tolerances) = Some (sols, g') /\
  forall i j v w, i <= j -> callbacks (log g') !! i = Some v -> callbacks (log g') !! j = Some w -> best_kept (v_pop v) (v_pop w) /\ best_kept (v_pop v) (population g').
Proof.
  destruct (ex_run_ok true 1 (ex_keep_best zero_tolerances) ltac:(by left)) as (sols & g' & E). exists sols, g'. split; [exact E|]. exact (ex_c42 true 1 false sols g' E).
Qed.
Example C42_elitism_nonvacuous : exists sols g', ex_run false 0 (ex_elitism zero_tolerances) = Some (sols, g') /\
  forall i j v w, i <= j -> callbacks (log g') !! i = Some v -> callbacks (log g') !! j = Some w -> best_kept (v_pop v) (v_pop w) /\ best_kept (v_pop v) (population g').
Proof.
  destruct (ex_run_ok false 0 (ex_elitism zero_tolerances) ltac:(by right)) as (sols & g' & E). exists sols, g'. split; [exact E|]. exact (ex_c42 false 0 true sols g' E).
Qed.
Lemma ex_eq : forall a b : list nat, bool_decide (a = b) = true -> a = b. Proof. intros a b. apply bool_decide_eq_true. Qed.
Example C49_nonvacuous : exists sols g', ex_run true 1 (ex_keep_best zero_tolerances) = Some (sols, g') /\ forall c, c ∈ sols -> is_evaluated c = true /\ fitness c = ex_fitness (chromosome c).
Proof.
  destruct (ex_run_ok true 1 (ex_keep_best zero_tolerances) ltac:(by left)) as (sols & g' & E). exists sols, g'. split; [exact E|].
  destruct (C49_fitness_sound_partial (ex_cf 1 true false true zero_tolerances (fun _ => ex_fitness)) (ex_oc zero_tolerances (ex_keep_best zero_tolerances)) ex_fitness
    eq_refl (fun _ _ => eq_refl) ex_eq (ex_sorts _ _ _ _ _ _) (ex_drops _ _) (Fifo 0 []) 3 ex_initial ex_ga sols g' (ex_initial_sound _) (crepr_new 0) E) as (_ & _ & H). exact H.
Qed.
Example C50_nonvacuous : exists sols g', ex_run true 1 (ex_keep_best zero_tolerances) = Some (sols, g') /\ length (population g') = 3.
Proof.
  destruct (ex_run_ok true 1 (ex_keep_best zero_tolerances) ltac:(by left)) as (sols & g' & E). exists sols, g'. split; [exact E|].
  assert (Hn : forall (gen : nat) m is, o_next (ex_oc zero_tolerances (ex_keep_best zero_tolerances)) gen m = Some is -> length is = 3).
  2:{ destruct (C50_population_size (ex_cf 1 true false true zero_tolerances (fun _ => ex_fitness)) _ _ _ _ _ _ Hn E) as (_ & H & _). exact H. }
  intros gen m is. cbn [o_next ex_oc]. unfold ex_keep_best, KeepBest. case_decide as Hl; [|done].
  intros H. apply bind_Some in H as (k & Hk & H). apply (inj Some) in H. subst is. rewrite take_length. unfold partial_argsort in Hk. cbn in Hk.
  rewrite decide_True in Hk by done. apply (inj Some) in Hk. subst k. rewrite <- isort_perm. unfold index_vector. rewrite seq_length. lia.
Qed.
Example C51_nonvacuous : exists sols g', ex_run true 1 (ex_keep_best zero_tolerances) = Some (sols, g') /\ hook_order (log g') = once_per_generation 3 /\ generation_cntr g' = 2 /\ max_gen g' = 7.
Proof.
  destruct (ex_run_ok true 1 (ex_keep_best zero_tolerances) ltac:(by left)) as (sols & g' & E). exists sols, g'. split; [exact E|].
  pose proof ex_run_keep_best as Hs. rewrite E in Hs. cbn [summary] in Hs. apply (inj Some) in Hs. injection Hs as _ Hg _ Hh _ _. split; [exact Hh|]. split; [exact Hg|].
  by destruct (C51_generations _ _ _ _ _ _ _ E) as (_ & _ & _ & _ & _ & _ & ->).
Qed.
(** C52: the second callback, of generation 1, still sees the generation counter 0. *)
Theorem C52_generation_counter_refuted : exists (cf : settings nat) (oc : outcomes nat) sols g',
  contract cf oc 1 one_number /\ solve cf oc 3 ex_initial ex_ga = Some (sols, g') /\ v_gen <$> callbacks (log g') = [0; 0; 1].
Proof.
  destruct (ex_run_ok true 1 (ex_keep_best zero_tolerances) ltac:(by left)) as (sols & g' & E). do 4 eexists. split; [apply (ex_contract 1 true false true (ex_keep_best zero_tolerances)); by left|]. split; [exact E|].
  pose proof ex_run_keep_best as Hs. rewrite E in Hs. cbn [summary] in Hs. apply (inj Some) in Hs. injection Hs as _ _ _ _ _ Hv.
  apply (f_equal (fmap fst)) in Hv. rewrite <- list_fmap_compose in Hv. exact Hv.
Qed.
Print Assumptions C52_generation_counter_refuted.
Example C53_nonvacuous : exists sols g', ex_run true 1 (ex_keep_best zero_tolerances) = Some (sols, g') /\ num_fitness_evals g' = 6 /\ calls (log g') = [[2]; [2]; [2]; [4]; [3]; [7]].
Proof.
  destruct (ex_run_ok true 1 (ex_keep_best zero_tolerances) ltac:(by left)) as (sols & g' & E). exists sols, g'. split; [exact E|].
  pose proof ex_run_keep_best as Hs. rewrite E in Hs. cbn [summary] in Hs. apply (inj Some) in Hs. injection Hs as _ _ Hg _ Hc _. split; [exact Hg|exact Hc].
Qed.
Example C54_nonvacuous : exists sols g' h', ex_run true 1 (ex_keep_best zero_tolerances) = Some (sols, g') /\ ex_run true 0 (ex_keep_best zero_tolerances) = Some (sols, h') /\ num_fitness_evals g' <= num_fitness_evals h'.
Proof.
  destruct (ex_run_ok true 1 (ex_keep_best zero_tolerances) ltac:(by left)) as (sols & g' & E). exists sols, g'.
  destruct (C54_cache_transparent_partial (ex_cf 1 true false true zero_tolerances (fun _ => ex_fitness)) (ex_oc zero_tolerances (ex_keep_best zero_tolerances)) ex_fitness
    eq_refl (fun _ _ => eq_refl) (fun _ _ => eq_refl) ex_eq (ex_sorts _ _ _ _ _ _) (ex_drops _ _) (Fifo 0 []) (Fifo 0 []) 3 ex_initial ex_ga ex_ga sols g' eq_refl (ex_initial_sound _) (crepr_new 0) (crepr_new 0) E) as (h' & E' & _ & _ & _ & Hle & _).
  exists h'. split; [exact E|]. split; [exact E'|exact Hle].
Qed.
Example C55_nonvacuous : exists sols g', ex_run true 1 (ex_keep_best zero_tolerances) = Some (sols, g') /\ chromosome <$> sols = [[7]] /\ forall v, v ∈ callbacks (log g') -> covers (v_pop v) sols.
Proof.
  destruct (ex_run_ok true 1 (ex_keep_best zero_tolerances) ltac:(by left)) as (sols & g' & E). exists sols, g'. split; [exact E|]. split.
  { pose proof ex_run_keep_best as Hs. rewrite E in Hs. cbn [summary] in Hs. apply (inj Some) in Hs. injection Hs as Hsols _ _ _ _ _. exact Hsols. }
  assert (Hfin : forall r, one_number r -> finite_vec r) by (intros r (a & Ea & Hf); rewrite Ea; by apply Forall_singleton).
  destruct (C55_solutions_partial (ex_cf 1 true false true zero_tolerances (fun _ => ex_fitness)) (ex_oc zero_tolerances (ex_keep_best zero_tolerances)) 1 one_number ex_fitness
    (ex_contract 1 true false true _ (or_introl eq_refl)) Hfin zero_exact eq_refl (fun _ _ => eq_refl) ex_eq (ex_sorts _ _ _ _ _ _) lex_tot (ex_drops _ _) (ex_merged _) (fun _ _ _ _ => or_introl eq_refl) (or_introl eq_refl) (Fifo 0 []) 3 ex_initial ex_ga sols g' (ex_initial_ok _ _ _ _ _ _) (ex_initial_sound _) (crepr_new 0) E) as (_ & _ & H & _). exact H.
Qed.
(** C55: if all optimal solutions are kept and the run ends with the initial population,
    the same chromosome may be returned more than once. *)
Theorem C55_duplicate_solutions_refuted : exists (cf : settings nat) (oc : outcomes nat) sols g',
  contract cf oc 1 one_number /\ keep_all cf = true /\ solve cf oc 1 ex_initial ex_ga = Some (sols, g') /\ chromosome <$> sols = [[2]; [2]; [2]].
Proof.
  exists (ex_cf 1 true false true zero_tolerances (fun _ => ex_fitness)), (ex_oc zero_tolerances (ex_keep_best zero_tolerances)).
  destruct (run_terminates (ex_cf 1 true false true zero_tolerances (fun _ => ex_fitness)) (ex_oc zero_tolerances (ex_keep_best zero_tolerances)) 1 one_number 1 ex_initial ex_ga (Fifo 0 [])
    (ex_contract 1 true false true _ ltac:(by left)) ltac:(by left) (ex_initial_ok _ _ _ _ _ _) (crepr_new 0) ltac:(lia)) as (sols & g' & s' & E & _).
  exists sols, g'. split; [apply ex_contract; by left|]. split; [reflexivity|]. split; [exact E|].
  assert (Hs : match solve (ex_cf 1 true false true zero_tolerances (fun _ => ex_fitness)) (ex_oc zero_tolerances (ex_keep_best zero_tolerances)) 1 ex_initial ex_ga with Some (s, _) => chromosome <$> s = [[2]; [2]; [2]] | None => False end) by (vm_compute; reflexivity).
  rewrite E in Hs. exact Hs.
Qed.
Print Assumptions C55_duplicate_solutions_refuted.
Example C56_nonvacuous : exists sols g' v rest, ex_run true 1 (ex_keep_best zero_tolerances) = Some (sols, g') /\ callbacks (log g') = v :: rest /\ chromosome <$> v_pop v = [[2]; [2]; [2]].
Proof.
  destruct (ex_run_ok true 1 (ex_keep_best zero_tolerances) ltac:(by left)) as (sols & g' & E). exists sols, g'.
  destruct (C56_first_generation _ _ _ _ _ _ _ E) as (v & rest & Hv & _). exists v, rest. split; [exact E|]. split; [exact Hv|].
  pose proof ex_run_keep_best as Hs. rewrite E in Hs. cbn [summary] in Hs. apply (inj Some) in Hs. injection Hs as _ _ _ _ _ Hc. rewrite Hv in Hc. injection Hc as _ Hc _. exact Hc.
Qed.
(** A fitness function that changes from call to call. *)
Definition ex_dynamic (n : nat) (c : list nat) : list b64 := ex_fitness [n + hd 0 c].
Example C57_nonvacuous :
  summary (solve (ex_cf 0 true true true zero_tolerances ex_dynamic) (ex_oc zero_tolerances (ex_keep_best zero_tolerances)) 2 ex_initial ex_ga) =
    Some ([[4]], 1, 6, [HMetrics; HCallback; HStop; HMetrics; HCallback; HStop], [[2]; [2]; [2]; [2]; [2]; [4]], [(0, [[2]; [2]; [2]]); (0, [[4]; [2]; [2]])]) /\
  summary (solve (ex_cf 1 true true true zero_tolerances ex_dynamic) (ex_oc zero_tolerances (ex_keep_best zero_tolerances)) 2 ex_initial ex_ga) = None.
Proof. split; vm_compute; reflexivity. Qed.

(** ** C42 with the default tolerances: the elite may be a worse candidate *)
Definition bad_fitness (c : list nat) : list b64 := [if hd 0 c =? 1 then fmk (2 ^ 40 + 1) (-40) else fmk 1 0].
Definition bad_oc : outcomes nat :=
  Outcomes nat [0] (fun k => [k]) (fun _ k _ => k `mod` 3) (fun _ _ => (fmk 1 0, fmk 0 0))
    (fun _ _ p1 p2 => Some (Cand [] [0] false, Cand [] [0] false)) (fun _ _ c => Some (chromosome c)) None
    (fun _ => ex_elitism default_tolerances) (fun _ _ => []) (fun _ => ex_merge default_tolerances) (fun _ => false).
Definition numbers (c : candidate nat) : list SpecFloat.spec_float := B2SF <$> fitness c.
Theorem C42_default_tolerances_refuted : exists sols g' v w,
  solve (ex_cf 0 false false true default_tolerances (fun _ => bad_fitness)) bad_oc 2 [] ex_ga = Some (sols, g') /\
  callbacks (log g') = [v; w] /\ ~ best_kept (v_pop v) (v_pop w).
Proof.
  set (r := solve (ex_cf 0 false false true default_tolerances (fun _ => bad_fitness)) bad_oc 2 [] ex_ga).
  assert (Hr : match r with Some (_, g') => (fun v => numbers <$> v_pop v) <$> callbacks (log g') | None => [] end =
    (fmap (fun n => B2SF <$> bad_fitness [n])) <$> [[0; 1; 2]; [0; 0; 0]]) by (vm_compute; reflexivity).
  destruct r as [[sols g']|]; [|discriminate]. cbn in Hr.
  destruct (callbacks (log g')) as [|v [|w [|? ?]]] eqn:Ec; try discriminate. exists sols, g', v, w. split; [done|]. split; [done|]. clear Ec.
  rewrite !fmap_cons in Hr. injection Hr as Hv Hw. intros Hb.
  destruct (v_pop v) as [|y0 [|y1 l]]; try discriminate. rewrite !fmap_cons in Hv. injection Hv as _ Hy _.
  assert (Ey : exists a, fitness y1 = [a] /\ B2SF a = B2SF (fmk (2 ^ 40 + 1) (-40))).
  { unfold numbers in Hy. destruct (fitness y1) as [|a [|? ?]]; try discriminate. exists a. split; [done|]. cbn [fmap list_fmap] in Hy. injection Hy as Hy. exact Hy. }
  destruct Ey as (a & Ea & Sa). destruct (Hb y1 a) as (x & b & Hx & Eb & Hle); [right; left|done|].
  assert (Sb : B2SF b = B2SF (fmk 1 0)).
  { apply (elem_of_list_fmap_1 numbers) in Hx. change (fmap numbers (v_pop w)) with (numbers <$> v_pop w) in Hx. rewrite Hw in Hx. unfold numbers in Hx. rewrite Eb in Hx. cbn [fmap list_fmap] in Hx.
    rewrite !elem_of_cons in Hx. destruct Hx as [Hx|[Hx|[Hx|Hx]]]; [injection Hx as Hx; exact Hx..|by apply elem_of_nil in Hx]. }
  rewrite <- !SF2R_B2SF, Sa, Sb, !SF2R_B2SF in Hle. apply Rle_not_lt in Hle. apply Hle.
  assert (H : flt (fmk 1 0) (fmk (2 ^ 40 + 1) (-40)) = true) by (vm_compute; reflexivity).
  rewrite flt_B2R in H by (vm_compute; reflexivity). by destruct (Rlt_bool_spec (B2R (fmk 1 0)) (B2R (fmk (2 ^ 40 + 1) (-40)))).
Qed.
Print Assumptions C42_default_tolerances_refuted.
