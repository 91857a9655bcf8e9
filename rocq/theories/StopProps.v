(** C58-C60: the stop conditions. *)
From Coq Require Import Reals ZArith Lia Lra.
From Flocq Require Import Core BinarySingleNaN.
From stdpp Require Import list list_numbers sets.
From Verif Require Import FloatBase FloatModel FloatSpec FloatProofs FloatProps FrontSpec FrontProofs FrontProps RealProofs StatsModel StatsSpec StatsProofs StopModel StopSpec StopProofs.

Lemma last_final i : last_generation i = bool_decide (final i).
Proof. unfold last_generation. apply eq_true_iff_eq. rewrite Nat.leb_le, bool_decide_eq_true. unfold final. lia. Qed.
Lemma last_false i : last_generation i = false <-> ~ final i.
Proof. rewrite last_final. apply bool_decide_eq_false. Qed.

(** ** C58 *)
(** The stall conditions, for any metric, any values of it and any state left from a previous
    run: in every generation the answer is true exactly when the values have not improved by at
    least delta in more than [patience] consecutive generations (or it is the last generation).
    What is missing from the property is the word "more" in "by more than delta". *)
Theorem C58_stall_partial (metric : list (list b64) -> option (list b64)) (patience : nat) (delta : b64) (old : stall) (h : list info) vals :
  (Z.of_nat patience + 1 < 2 ^ 64)%Z ->
  values (Leaf (stall_condition metric patience delta old)) h = Some vals ->
  exists ms, Forall2 (fun i m => metric (fmat i) = Some m) h ms /\ length vals = length h /\
  forall t i, h !! t = Some i -> exists b, vals !! t = Some b /\ (b = true <-> stalled patience delta ms t \/ final i).
Proof.
  intros Hp Hv. destruct h as [|i0 h]; [injection Hv as <-; exists []; split; [constructor|]; split; [done|]; intros t i Hi; done|].
  change (values_from (Leaf (stall_condition metric patience delta (stall_initialize patience i0 old))) (i0 :: h) = Some vals) in Hv.
  destruct (values_stall patience delta Hp metric _ _ _ _ _ _ (stall_state_initial patience delta Hp (objectives i0) i0 old eq_refl) Hv) as (ms & flags & s & H1 & H2 & H3 & H4).
  exists ms. split; [done|]. split; [done|]. intros t i Hi. eexists. split; [by apply H4|]. rewrite orb_true_iff, Nat.ltb_lt, last_final, bool_decide_eq_true. cbn [length plus].
  rewrite (streak_stalled patience delta _ _ _ _ t H2); [done|]. rewrite app_nil_l. apply lookup_lt_Some in Hi. apply Forall2_length in H1. lia.
Qed.
Print Assumptions C58_stall_partial.

Lemma level_in delta xs : level delta xs = fneg finf \/ level delta xs ∈ xs.
Proof.
  induction xs as [|x xs IH] using rev_ind; [by left|]. unfold level. rewrite fold_left_app. fold (level delta xs). cbn [fold_left].
  destruct (fle (fadd (level delta xs) delta) x); [right; set_solver|]. destruct IH as [->|IH]; [by left|right; set_solver].
Qed.
Lemma not_improves_real delta ms t : is_finite delta = true -> Forall (Forall (fun x => is_finite x = true)) ms ->
  ~ improves_at delta ms t -> no_real_improvement delta ms t.
Proof.
  intros Hd Hms Hn k m x Hm Hx. assert (Hfx : is_finite x = true).
  { rewrite Forall_forall in Hms. specialize (Hms m (elem_of_list_lookup_2 _ _ _ Hm)). rewrite Forall_forall in Hms. apply Hms. by eapply elem_of_list_lookup_2. }
  assert (Hle : fle (fadd (level delta (objective k (take t ms))) delta) x = false).
  { destruct (fle _ x) eqn:E; [|done]. exfalso. apply Hn. by exists k, m, x. }
  destruct (level_in delta (objective k (take t ms))) as [E|Hin].
  { exfalso. rewrite E in Hle. clear -Hle Hd Hfx. destruct delta as [s|s| |s mm e H]; try done; destruct x; done. }
  eexists. split; [exact Hin|]. set (L := level delta (objective k (take t ms))) in *.
  assert (HL : is_finite L = true).
  { unfold objective in Hin. apply elem_of_list_omap in Hin as (r & Hr & HrL). rewrite Forall_forall in Hms. specialize (Hms r ltac:(rewrite <- (take_drop t ms); set_solver)).
    rewrite Forall_forall in Hms. apply Hms. by eapply elem_of_list_lookup_2. }
  destruct (fadd_finite L delta HL Hd) as [Hnan Hval]. rewrite fle_fval in Hle by (done || by apply is_finite_not_nan).
  rewrite Hval, (fval_finite x Hfx) in Hle. unfold Rle_bool in Hle. destruct (Rcompare_spec (srnd (B2R L + B2R delta)) (B2R x)) as [H|H|H]; [done|done|].
  destruct (Rle_or_lt (B2R x) (B2R L + B2R delta)) as [Hg|Hg]; [done|]. exfalso. apply Rlt_le, srnd_mono in Hg. rewrite (srnd_id x Hfx) in Hg. lra.
Qed.
(** Never before: when they stop, then in more than [patience] generations no value was by more
    than delta better than all earlier ones. *)
Theorem C58_never_before_partial (metric : list (list b64) -> option (list b64)) (patience : nat) (delta : b64) (old : stall) (h : list info) vals :
  (Z.of_nat patience + 1 < 2 ^ 64)%Z -> is_finite delta = true ->
  values (Leaf (stall_condition metric patience delta old)) h = Some vals ->
  (forall i m, i ∈ h -> metric (fmat i) = Some m -> Forall (fun x => is_finite x = true) m) ->
  exists ms, Forall2 (fun i m => metric (fmat i) = Some m) h ms /\
  forall t i, h !! t = Some i -> vals !! t = Some true -> ~ final i -> really_stalled patience delta ms t.
Proof.
  intros Hp Hd Hv Hf. destruct (C58_stall_partial metric patience delta old h vals Hp Hv) as (ms & H1 & _ & H2). exists ms. split; [done|].
  intros t i Hi Ht Hl. destruct (H2 t i Hi) as (b & Hb & Hiff). rewrite Ht in Hb. injection Hb as <-. destruct (proj1 Hiff eq_refl) as [[Hs1 Hs2]|?]; [|done].
  split; [done|]. intros r Hr. apply not_improves_real; [done| |by apply Hs2].
  clear -H1 Hf. induction H1 as [|i m h ms H1 H IH]; constructor; [eapply Hf; [|exact H1]; set_solver|]. apply IH. intros i' m' Hi'. apply Hf. set_solver.
Qed.
Print Assumptions C58_never_before_partial.

(** A history in which the best fitness is constant. *)
Definition flat (n : nat) : list info := (fun g => Info g 100 (10 * (g + 1)) 1 [[fmk 1 0]; [fmk 3 0]]) <$> seq 0 n.
Definition falling : list info := (fun gx => Info gx.1 100 (10 * (gx.1 + 1)) 1 [[fmk gx.2 0]; [fmk (-7) 0]]) <$> [(0, 3%Z); (1, 5%Z); (2, 5%Z); (3, 4%Z); (4, 2%Z); (5, 9%Z)].
Example C58_nonvacuous :
  values (Leaf (FitnessBestStall 1 (fmk 1 0) (Stall [fmk 99 0] 0))) falling = Some [false; false; false; true; true; false] /\
  values (Leaf (FitnessMeanStall 1 (fmk 1 0) (Stall [] 0))) falling = Some [false; false; false; true; true; false] /\
  (forall i m, i ∈ falling -> maxFitness (fmat i) = Some m -> Forall (fun x => is_finite x = true) m).
Proof.
  split; [vm_compute; reflexivity|]. split; [vm_compute; reflexivity|].
  intros i m Hi Hm. assert (H : forallb (fun i => match maxFitness (fmat i) with Some m => forallb is_finite m | None => true end) falling = true) by (vm_compute; reflexivity).
  pose proof (proj1 (forallb_forall _ _) H i (proj1 (elem_of_list_In _ _) Hi)) as H0. cbv beta in H0. rewrite Hm in H0. clear Hm H. rename H0 into H.
  induction m as [|x m IH]; [constructor|]. cbn in H. apply andb_prop in H as [H1 H2]. constructor; [done|]. by apply IH.
Qed.

(** The property as worded is false: with delta = 0 a value that equals the best so far counts as
    an improvement, and the run does not stop. *)
Theorem C58_stall_refuted :
  values (Leaf (FitnessBestStall 1 fzero (Stall [] 0))) (flat 6) = Some [false; false; false; false; false; false] /\
  really_stalled 1 fzero (replicate 6 [fmk 3 0]) 5 /\ Forall2 (fun i m => map B2SF <$> maxFitness (fmat i) = Some (map B2SF m)) (flat 6) (replicate 6 [fmk 3 0]).
Proof.
  split; [vm_compute; reflexivity|]. split.
  - split; [lia|]. intros s Hs k m x Hm Hx. apply lookup_replicate in Hm as [-> Hs']. destruct k as [|k]; [|done]. cbn [lookup list_lookup] in Hx. apply (inj Some) in Hx. rewrite <- Hx.
    exists (fmk 3 0). split; [destruct s as [|s]; [lia|left]|change (B2R fzero) with 0%R; lra].
  - repeat (apply Forall2_cons; split; [vm_compute; reflexivity|]). apply Forall2_nil_2.
Qed.
Print Assumptions C58_stall_refuted.
(** With the largest patience the counter wraps around and the run stops immediately. *)
Theorem C58_patience_refuted (patience : nat) (old : stall) : Z.of_nat patience = (2 ^ 64 - 1)%Z ->
  values (Leaf (FitnessBestStall patience fzero old)) (flat 1) = Some [true].
Proof.
  intros Hp. assert (Hr : reset_value patience = 0%Z) by (unfold reset_value; rewrite Hp; reflexivity).
  cbn [values flat seq fmap list_fmap init values_from step]. cbn [FitnessBestStall stall_condition with_current initialize stop_condition current].
  unfold stall_stop, stall_initialize, stall_observe. cbn [best cntr fmat objectives]. rewrite Hr. vm_compute. reflexivity.
Qed.
Print Assumptions C58_patience_refuted.

(** ** C59 *)
Lemma fitness_value_true t threshold i : fitness_value t threshold i = Some true <->
  objectives i = length threshold /\ exists v, v ∈ fmat i /\ paretoCompareLess t v threshold = false.
Proof.
  unfold fitness_value. case_decide as Hd.
  - split.
    + intros [= H]. split; [done|]. apply existsb_exists in H as (v & Hv & H). exists v. split; [by apply elem_of_list_In|]. by apply negb_true_iff.
    + intros [_ (v & Hv & H)]. f_equal. apply existsb_exists. exists v. split; [by apply elem_of_list_In|]. by rewrite H.
  - split; [done|]. by intros [? _].
Qed.
(** The property is false with two objectives: no candidate reaches the threshold, but the run
    stops, because the candidate is not dominated by it. *)
Theorem C59_incomparable_refuted : exists threshold i, objectives i = 2 /\
  fitness_value default_tolerances threshold i = Some true /\ ~ (exists v, v ∈ fmat i /\ reaches threshold v).
Proof.
  exists [fmk 1 0; fmk 1 0], (Info 0 100 10 2 [[fmk 2 0; fzero]]). split; [done|]. split; [vm_compute; reflexivity|].
  intros (v & Hv & H). cbn [fmat] in Hv. apply elem_of_list_singleton in Hv as ->. apply Forall2_cons in H as [_ H]. apply Forall2_cons in H as [H _].
  destruct (fmk_val 1 0) as (_ & V & _); [lia|lia|]. rewrite V in H. change (B2R fzero) with 0%R in H. change (bpow radix2 0) with 1%R in H. lra.
Qed.
Print Assumptions C59_incomparable_refuted.
(** A candidate that reaches the threshold stops the run, with any tolerances. *)
Theorem C59_reached_stops (t : tolerances) (threshold : list b64) (i : info) : tol_ok t -> finite_vec threshold ->
  Forall (fun v => finite_vec v /\ length v = objectives i) (fmat i) -> objectives i = length threshold ->
  (exists v, v ∈ fmat i /\ reaches threshold v) -> fitness_value t threshold i = Some true.
Proof.
  intros Ht Hth Hm Ho (v & Hv & Hr). apply fitness_value_true. split; [done|]. exists v. split; [done|]. rewrite Forall_forall in Hm. destruct (Hm v Hv) as [Hf Hl].
  destruct (paretoCompareLess t v threshold) eqn:E; [|done]. exfalso. apply (pareto_less_iff t) in E as [_ (k & x & y & Hx & Hy & H)].
  pose proof (finite_nth _ _ _ Hx Hf) as Fx. pose proof (finite_nth _ _ _ Hy Hth) as Fy. apply (floatIsLessAssume_lt t Ht) in H; [|done|done].
  unfold reaches in Hr. rewrite Forall2_nth in Hr by congruence. specialize (Hr k y x Hy Hx). lra.
Qed.
Print Assumptions C59_reached_stops.
(** When the run stops, some candidate is not dominated by the threshold; with one objective,
    some candidate reaches it (exact comparison). *)
Theorem C59_not_dominated_partial (t : tolerances) (threshold : list b64) (i : info) : exact t -> finite_vec threshold ->
  Forall (fun v => finite_vec v /\ length v = objectives i) (fmat i) ->
  fitness_value t threshold i = Some true -> exists v, v ∈ fmat i /\ ~ dominated_by v threshold.
Proof.
  intros (Ht & Ht1 & Ht2) Hth Hm H. apply fitness_value_true in H as (Ho & v & Hv & H). exists v. split; [done|]. rewrite Forall_forall in Hm. destruct (Hm v Hv) as [Hf Hl].
  intros Hd. apply (pareto_less_exact t Ht) in Hd; [congruence|try done..]. congruence.
Qed.
Print Assumptions C59_not_dominated_partial.
Theorem C59_single_objective (t : tolerances) (threshold : list b64) (i : info) : exact t -> finite_vec threshold -> length threshold = 1 ->
  Forall (fun v => finite_vec v /\ length v = objectives i) (fmat i) -> objectives i = 1 ->
  fitness_value t threshold i = Some true <-> exists v, v ∈ fmat i /\ reaches threshold v.
Proof.
  intros (Ht & Ht1 & Ht2) Hth H1 Hm Ho. rewrite fitness_value_true. split.
  - intros (_ & v & Hv & H). exists v. split; [done|]. rewrite Forall_forall in Hm. destruct (Hm v Hv) as [Hf Hl].
    destruct threshold as [|y [|]]; [done| |done]. destruct v as [|x [|]]; cbn in Hl; [lia| |lia]. constructor; [|constructor].
    destruct (Rle_or_lt (B2R y) (B2R x)) as [Hle|Hlt]; [done|]. exfalso. assert (Hd : dominated_by [x] [y]).
    { split; [constructor; [lra|constructor]|]. by exists 0, x, y. }
    apply (pareto_less_exact t Ht) in Hd; [congruence|done..].
  - intros (v & Hv & Hr). split; [congruence|]. exists v. split; [done|]. rewrite Forall_forall in Hm. destruct (Hm v Hv) as [Hf Hl].
    destruct (paretoCompareLess t v threshold) eqn:E; [|done]. exfalso. apply (pareto_less_exact t Ht) in E as [_ (k & x & y & Hx & Hy & Hlt)]; [|done|done|congruence|done|done].
    unfold reaches in Hr. rewrite Forall2_nth in Hr by congruence. specialize (Hr k y x Hy Hx). lra.
Qed.
Print Assumptions C59_single_objective.
Example C59_nonvacuous :
  exact zero_tolerances /\ finite_vec [fmk 3 0] /\
  fitness_value zero_tolerances [fmk 3 0] (Info 0 100 10 1 [[fmk 2 0]; [fmk 3 0]]) = Some true /\
  fitness_value zero_tolerances [fmk 3 0] (Info 0 100 10 1 [[fmk 2 0]; [fzero]]) = Some false.
Proof. split; [apply zero_exact|]. split; [by repeat constructor|]. split; vm_compute; reflexivity. Qed.

(** ** C60 *)
(** Expressions in which no || has a right operand with memory: in every generation the value is
    the boolean combination of the parts' own values (every condition is true in the last
    generation).  Missing: other expressions. *)
Theorem C60_strict_partial (e : expr) (h : list info) : strict e -> (forall c, c ∈ parts e -> is_Some (values (Leaf c) h)) ->
  exists l, values e h = Some l /\ length l = length h /\
    forall t i, h !! t = Some i -> exists b, combination (own_value h t) e = Some b /\ l !! t = Some (b || bool_decide (final i)).
Proof.
  intros Hs Hd. destruct h as [|i0 h]; [exists []; split; [done|]; split; [done|]; intros t i Hi; done|].
  unfold values. rewrite init_map. destruct (values_strict (i0 :: h) (map_parts (init1 i0) e)) as (l & H1 & H2 & H3).
  - by apply strict_init.
  - intros c Hc. rewrite parts_map in Hc. apply elem_of_list_fmap in Hc as (c0 & -> & Hc). apply (Hd c0 Hc).
  - exists l. split; [done|]. split; [done|]. intros t i Hi. destruct (H3 t i Hi) as (b & Hb & Hl). rewrite last_final in Hl. exists b. split; [|done]. rewrite combination_map in Hb. exact Hb.
Qed.
Print Assumptions C60_strict_partial.
(** Such expressions joined by ||, called until the first true as in a run. *)
Theorem C60_disjunction_partial (e : expr) (h : list info) : disjunction e -> (forall c, c ∈ parts e -> is_Some (values (Leaf c) h)) ->
  exists l, run e h = Some l /\ (length l = length h \/ last l = Some true) /\ length l <= length h /\ (forall t, S t < length l -> l !! t = Some false) /\
    forall t i, t < length l -> h !! t = Some i -> exists b, combination (own_value h t) e = Some b /\ l !! t = Some (b || bool_decide (final i)).
Proof.
  intros Hs Hd. destruct h as [|i0 h]; [exists []; split; [done|]; split; [by left|]; split; [done|]; split; [cbn; lia|]; intros t i Ht; cbn in Ht; lia|].
  unfold run. rewrite init_map. destruct (run_disjunction (i0 :: h) (map_parts (init1 i0) e)) as (l & H1 & H2 & H3 & H4 & H5).
  - by apply disjunction_init.
  - intros c Hc. rewrite parts_map in Hc. apply elem_of_list_fmap in Hc as (c0 & -> & Hc). apply (Hd c0 Hc).
  - exists l. split; [done|]. split; [done|]. split; [done|]. split; [done|]. intros t i Ht Hi. destruct (H5 t i Ht Hi) as (b & Hb & Hl). rewrite last_final in Hl. exists b. split; [|done]. rewrite combination_map in Hb. exact Hb.
Qed.
Print Assumptions C60_disjunction_partial.
(** The property is false in general: the right operand of || is not asked in the first
    generation and misses the best fitness found there, so it does not see the stall in the
    second. *)
Definition short_circuit : expr :=
  And (Or (Leaf (FitnessValue default_tolerances [fmk 5 0])) (Leaf (FitnessBestStall 0 fzero (Stall [] 0)))) (Leaf (FitnessEvals 15)).
Definition two_generations : list info := [Info 0 100 10 1 [[fmk 5 0]]; Info 1 100 20 1 [[fmk 3 0]]].
Theorem C60_short_circuit_refuted :
  run short_circuit two_generations = Some [false; false] /\ combination (own_value two_generations 1) short_circuit = Some true /\
  Forall (fun i => ~ final i) two_generations.
Proof. split; [vm_compute; reflexivity|]. split; [vm_compute; reflexivity|]. repeat constructor; unfold final; cbn; lia. Qed.
Print Assumptions C60_short_circuit_refuted.
(** And in the last generation a negated condition answers true although its part does too. *)
Theorem C60_not_last_refuted :
  values (Not (Leaf NoEarlyStop)) [Info 0 1 10 1 [[fmk 5 0]]] = Some [true] /\ combination (own_value [Info 0 1 10 1 [[fmk 5 0]]] 0) (Not (Leaf NoEarlyStop)) = Some false.
Proof. split; vm_compute; reflexivity. Qed.
Print Assumptions C60_not_last_refuted.

Definition composed : expr :=
  And (Or (Leaf (FitnessBestStall 1 (fmk 1 0) (Stall [] 0))) (Leaf (FitnessEvals 55))) (Not (Leaf (FitnessMeanStall 2 (fmk 1 0) (Stall [] 0)))).
Example C60_nonvacuous :
  strict composed /\ values composed falling = Some [false; false; false; true; false; true] /\
  Forall (fun t => combination (own_value falling t) composed = nth_error [false; false; false; true; false; true] t) (seq 0 6) /\
  (forall c, c ∈ parts composed -> is_Some (values (Leaf c) falling)) /\
  disjunction (Or composed (Leaf (FitnessBestStall 2 (fmk 1 0) (Stall [] 0)))) /\
  run (Or composed (Leaf (FitnessBestStall 2 (fmk 1 0) (Stall [] 0)))) falling = Some [false; false; false; true].
Proof.
  assert (Hs : strict composed). { split; [split; [done|]; split; [done|]|done]. constructor; [|constructor]. intros i s b s' H. by injection H as _ <-. }
  split; [exact Hs|]. split; [vm_compute; reflexivity|]. split.
  { repeat (apply Forall_cons; split; [vm_compute; reflexivity|]). apply Forall_nil. exact I. }
  split; [|split; [|vm_compute; reflexivity]].
  - assert (H : forallb (fun c => match values (Leaf c) falling with Some _ => true | None => false end) (parts composed) = true) by (vm_compute; reflexivity).
    intros c Hc. pose proof (proj1 (forallb_forall _ _) H c (proj1 (elem_of_list_In _ _) Hc)) as H1. cbv beta in H1. revert H1. generalize (values (Leaf c) falling). intros [?|]; [eauto|done].
  - apply D_or; [by apply D_strict|]. by apply D_strict.
Qed.
