(** C63: the population statistics and the metrics. *)
From Coq Require Import Reals ZArith Lia Lra.
From Flocq Require Import Core BinarySingleNaN.
From stdpp Require Import list list_numbers sets.
From Verif Require Import FloatBase FloatModel FloatSpec FloatProps AlgorithmModel RealProofs OperatorModel EngineModel EngineSpec EngineProofs EngineProps EngineExample StatsModel StatsSpec StatsProofs.

(** The minimum and the maximum, for populations without NaNs. *)
Theorem C63_min (d : nat) (m : list (list b64)) : rectangular d m -> m <> [] ->
  exists p, minFitness m = Some p /\ length p = d /\ forall k x, p !! k = Some x -> minimum_of (objective k m) x.
Proof.
  intros Hm Hne. destruct m as [|r m]; [done|]. apply Forall_cons in Hm as [[Hr Hn] Hm].
  destruct (rows_loop_Some (std_min flt) m r) as (p & Hp & Hl & Hk); [eapply Forall_impl; [exact Hm|]; intros r' [H _]; congruence|].
  exists p. split; [done|]. split; [congruence|]. intros k x Hx.
  destruct (lookup_lt_is_Some_2 r k) as [y Hy]; [apply lookup_lt_Some in Hx; congruence|]. rewrite (Hk k y Hy) in Hx. injection Hx as <-.
  unfold objective at 1. cbn [omap list_omap]. rewrite Hy. apply min_fold.
  - rewrite Forall_forall in Hn. apply Hn. by eapply elem_of_list_lookup_2.
  - apply objective_Forall. eapply Forall_impl; [exact Hm|]. by intros r' [_ H].
Qed.
Theorem C63_max (d : nat) (m : list (list b64)) : rectangular d m -> m <> [] ->
  exists p, maxFitness m = Some p /\ length p = d /\ forall k x, p !! k = Some x -> maximum_of (objective k m) x.
Proof.
  intros Hm Hne. destruct m as [|r m]; [done|]. apply Forall_cons in Hm as [[Hr Hn] Hm].
  destruct (rows_loop_Some (std_max flt) m r) as (p & Hp & Hl & Hk); [eapply Forall_impl; [exact Hm|]; intros r' [H _]; congruence|].
  exists p. split; [done|]. split; [congruence|]. intros k x Hx.
  destruct (lookup_lt_is_Some_2 r k) as [y Hy]; [apply lookup_lt_Some in Hx; congruence|]. rewrite (Hk k y Hy) in Hx. injection Hx as <-.
  unfold objective at 1. cbn [omap list_omap]. rewrite Hy. apply max_fold.
  - rewrite Forall_forall in Hn. apply Hn. by eapply elem_of_list_lookup_2.
  - apply objective_Forall. eapply Forall_impl; [exact Hm|]. by intros r' [_ H].
Qed.
Print Assumptions C63_min.
Print Assumptions C63_max.

(** The mean, up to a bound on the rounding errors: [M] bounds the absolute values. *)
Theorem C63_mean (d : nat) (m : list (list b64)) (M : R) :
  m <> [] -> (Z.of_nat (length m) <= 2 ^ 50)%Z -> (bpow radix2 (-900) <= M <= bpow radix2 1000)%R ->
  Forall (fun r => length r = d /\ Forall (fun x => is_finite x = true /\ (Rabs (B2R x) <= M)%R) r) m ->
  exists p, fitnessMean m = Some p /\ length p = d /\
    forall k x, p !! k = Some x ->
      is_finite x = true /\ (Rabs (B2R x - mean_of (objective k m)) <= (2 * INR (length m) + 4) * (bpow radix2 (-53) * M))%R.
Proof.
  intros Hne Hlen HM Hm. destruct m as [|r m0] eqn:E; [done|]. unfold fitnessMean. rewrite <- E in *. clear Hne.
  assert (Hr : length r = d) by (rewrite E in Hm; apply Forall_cons in Hm as [[H _] _]; done).
  assert (Hd : Forall (fun r => length r = d) m) by (eapply Forall_impl; [exact Hm|]; by intros r' [H _]).
  destruct (rows_loop_Some (fun acc x => fadd acc (fmul x (fdiv (fmk 1 0) (fmk (Z.of_nat (length m)) 0)))) m (replicate (length r) fzero)) as (p & Hp & Hl & Hk).
  { eapply Forall_impl; [exact Hd|]. intros r' H. cbn beta in H. rewrite replicate_length. congruence. }
  rewrite replicate_length, Hr in Hl. exists p. split; [exact Hp|]. split; [done|]. intros k x Hx.
  assert (Hkd : k < d) by (apply lookup_lt_Some in Hx; congruence).
  rewrite (Hk k fzero) in Hx by (apply lookup_replicate; split; [done|congruence]). apply (inj Some) in Hx. subst x.
  pose proof (objective_length d k m Hd Hkd) as Hol. rewrite <- Hol.
  apply mean_error; [rewrite Hol, E; cbn; lia|by rewrite Hol|done|]. apply objective_Forall. eapply Forall_impl; [exact Hm|]. by intros r' [_ H].
Qed.
Print Assumptions C63_mean.

(** ** Metrics over whole runs *)
Section run.
Context {T : Type} `{EqDecision T}.
Lemma shown_app (a b : list (event T)) : shown (a ++ b) = shown a ++ shown b. Proof. apply omap_app. Qed.
Lemma shown_calls (cs : list (list T)) : shown (ECall <$> cs) = []. Proof. induction cs; [done|]. exact IHcs. Qed.
Lemma shown_hooks (v w : view T) : shown [EMetrics v; ECallback w] = [v]. Proof. done. Qed.
Lemma shown_stop (v : view T) : shown [EStop v] = []. Proof. done. Qed.

Record counts (g : ga T) (c : list nat) : Prop := {
  c_seen : v_evals <$> shown (log g) = c ++ [num_fitness_evals g];
  c_sorted : forall i j x y, i <= j -> (c ++ [num_fitness_evals g]) !! i = Some x -> (c ++ [num_fitness_evals g]) !! j = Some y -> x <= y;
  c_callbacks : shown (log g) = callbacks (log g);
}.
Lemma sorted_snoc (l : list nat) (x y : nat) : x <= y -> (forall i j a b, i <= j -> (l ++ [x]) !! i = Some a -> (l ++ [x]) !! j = Some b -> a <= b) ->
  forall i j a b, i <= j -> ((l ++ [x]) ++ [y]) !! i = Some a -> ((l ++ [x]) ++ [y]) !! j = Some b -> a <= b.
Proof.
  intros Hxy Hs i j a b Hij Ha Hb.
  assert (Hlast : forall i a, (l ++ [x]) !! i = Some a -> a <= x).
  { intros i' a' Hi. apply (Hs i' (length l)); [apply lookup_lt_Some in Hi; rewrite app_length in Hi; cbn in Hi; lia|done|]. rewrite lookup_app_r by lia. by rewrite Nat.sub_diag. }
  destruct (decide (j < length (l ++ [x]))) as [Hj|Hj].
  - rewrite lookup_app_l in Ha, Hb by lia. by apply (Hs i j).
  - rewrite lookup_app_r in Hb by lia. apply list_lookup_singleton_Some in Hb as [_ <-].
    destruct (decide (i < length (l ++ [x]))) as [Hi|Hi].
    + rewrite lookup_app_l in Ha by lia. specialize (Hlast i a Ha). lia.
    + rewrite lookup_app_r in Ha by lia. apply list_lookup_singleton_Some in Ha as [_ <-]. lia.
Qed.
Lemma run_counts cf oc generations initial g sols g' : solve cf oc generations initial g = Some (sols, g') ->
  exists c, counts g' c.
Proof.
  intros H. destruct (solve_inv cf oc (fun g => exists c, counts g c) generations initial g sols g') as (gl & (c & [C1 C2 C3]) & _ & [L _ (_ & N & _) _ _]); [| |done|].
  - intros g1 H1. apply initialize_Some in H1 as (pop0 & cs & [_ _ _ _ _ I6 (_ & _ & N & _)]). exists []. split.
    + rewrite I6, shown_app, shown_calls, N. done.
    + intros i j x y Hij Hx Hy. apply list_lookup_singleton_Some in Hx as [_ <-]. apply list_lookup_singleton_Some in Hy as [_ <-]. done.
    + rewrite I6, shown_app, shown_calls. logs. done.
  - intros g0 g1 (c & [C1 C2 C3]) _ H1. apply advance_Some in H1 as (ch0 & ch & cs & is & [_ _ _ _ _ _ _ A8 (_ & _ & N & _)]).
    change (num_fitness_evals (stopped g0)) with (num_fitness_evals g0) in *.
    exists (c ++ [num_fitness_evals g0]). split.
    + rewrite A8, log_stopped. cbn zeta. rewrite !shown_app, shown_calls, shown_hooks, shown_stop, app_nil_r, app_nil_l, fmap_app, C1, N. done.
    + apply sorted_snoc; [lia|done].
    + rewrite A8, log_stopped. cbn zeta. rewrite !shown_app, shown_calls, shown_hooks, shown_stop, C3. logs. done.
  - exists c. split.
    + rewrite L, shown_app, shown_stop, app_nil_r, N. done.
    + by rewrite N.
    + rewrite L, shown_app, shown_stop, callbacks_app, C3. done.
Qed.
End run.

Global Instance hook_eq_dec : EqDecision hook.
Proof. solve_decision. Defined.
Lemma monitor_updates_Some {R} (f : list (list b64) -> option R) ms : forall data out, monitor_updates f data ms = Some out ->
  exists l, out = data ++ l /\ Forall2 (fun m r => f m = Some r) ms l.
Proof.
  induction ms as [|m ms IH]; intros data out H; cbn [monitor_updates] in H; unfold monitor_update in H.
  - injection H as <-. exists []. by rewrite app_nil_r.
  - destruct (f m) as [r|] eqn:E; [|done]. cbn [mbind option_bind] in H. apply IH in H as (l & -> & Hl). exists (r :: l). rewrite <- app_assoc. split; [done|]. by constructor.
Qed.
(** A metric that records a function [f] of the fitness matrix has one entry for each
    generation of the run, the value for the fitness matrix of that generation (the one the
    callback of that generation sees); there is no failure if [f] never fails. *)
Theorem C63_one_entry_per_generation {T : Type} `{EqDecision T} {R : Type} (cf : settings T) (oc : outcomes T) generations initial g sols g'
    (f : list (list b64) -> option R) (old data : list R) :
  solve cf oc generations initial g = Some (sols, g') ->
  monitor_run f old (v_fmat <$> shown (log g')) = Some data ->
  length data = generation_cntr g' + 1 /\
  Forall2 (fun v r => f (v_fmat v) = Some r) (callbacks (log g')) data.
Proof.
  intros H Hd. destruct (run_counts _ _ _ _ _ _ _ H) as (c & [_ _ E]). apply monitor_updates_Some in Hd as (l & -> & Hl). cbn [monitor_initialize app] in *.
  rewrite E in Hl. rewrite Forall2_fmap_l in Hl. split; [|exact Hl].
  pose proof (Forall2_length _ _ _ Hl) as <-. 
  assert (Hn : forall l : list (event T), length (callbacks l) = length (filter (fun h => h = HCallback) (hook_order l))).
  { clear. intros l. induction l as [|e l IH]; [done|]. change (e :: l) with ([e] ++ l). rewrite callbacks_app, hook_app, filter_app, !app_length, IH. f_equal. by destruct e. }
  destruct (C51_generations _ _ _ _ _ _ _ H) as (n & Hn1 & Ho & _ & _ & -> & _). rewrite Hn, Ho.
  assert (Hf : forall n, length (filter (fun h => h = HCallback) (once_per_generation n)) = n).
  { clear. induction n as [|n IH]; [done|]. rewrite once_snoc, filter_app, app_length, IH. change (length (filter (fun h => h = HCallback) [HMetrics; HCallback; HStop])) with 1. lia. }
  rewrite Hf. lia.
Qed.
Print Assumptions C63_one_entry_per_generation.

Lemma evaluations_fold (c : list nat) : forall e : evaluations,
  (Z.of_nat (List.last c 0%nat) < 2 ^ 64)%Z -> (forall x, c !! 0%nat = Some x -> (0 <= ev_sum e <= Z.of_nat x)%Z) ->
  (forall i j x y, i <= j -> c !! i = Some x -> c !! j = Some y -> x <= y) ->
  exists l, ev_data (fold_left evaluations_update c e) = ev_data e ++ l /\ length l = length c /\
    fold_right Z.add 0%Z l = (match c with [] => 0 | _ => Z.of_nat (List.last c 0%nat) - ev_sum e end)%Z /\ Forall (fun n => 0 <= n)%Z l.
Proof.
  induction c as [|x c IH]; intros e Hb H0 Hs; cbn [fold_left].
  - exists []. rewrite app_nil_r. done.
  - assert (Hx : x <= List.last (x :: c) 0).
    { destruct (exists_last (l := x :: c)) as (l' & y & E); [done|]. rewrite E, last_last.
      apply (Hs 0 (length l')); [lia|done|]. rewrite E, lookup_app_r by lia. by rewrite Nat.sub_diag. }
    destruct (IH (evaluations_update e x)) as (l & E1 & E2 & E3 & E4).
    + destruct c as [|y c]; [cbn; lia|exact Hb].
    + intros y Hy. cbn. pose proof (Hs 0 1 x y ltac:(lia) eq_refl Hy). lia.
    + intros i j a b Hij Ha Hb'. apply (Hs (S i) (S j)); [lia|done|done].
    + specialize (H0 x eq_refl). exists (((Z.of_nat x - ev_sum e) mod 2 ^ 64)%Z :: l). rewrite E1. cbn [ev_data evaluations_update]. rewrite <- app_assoc. split; [done|].
      split; [cbn; by rewrite E2|]. rewrite Z.mod_small by lia. split; [|constructor; [lia|done]].
      cbn [fold_right]. rewrite E3. destruct c as [|y c]; [cbn; lia|]. cbn [ev_sum evaluations_update]. change (List.last (x :: y :: c) 0) with (List.last (y :: c) 0). lia.
Qed.
(** The evaluations metric: one entry per generation, none negative; the entries up to
    generation k add up to the evaluations until then, all of them to the number of calls of
    the fitness function in the run. *)
Theorem C63_evaluations {T : Type} `{EqDecision T} (cf : settings T) (oc : outcomes T) generations initial g sols g' (old : evaluations) :
  solve cf oc generations initial g = Some (sols, g') -> (Z.of_nat (length (calls (log g'))) < 2 ^ 64)%Z ->
  let data := ev_data (evaluations_run old (v_evals <$> shown (log g'))) in
  length data = generation_cntr g' + 1 /\ Forall (fun n => 0 <= n)%Z data /\
  fold_right Z.add 0%Z data = Z.of_nat (length (calls (log g'))).
Proof.
  intros H Hlt data. destruct (run_counts _ _ _ _ _ _ _ H) as (c & [Hseen Hs E]). destruct (C53_evals_counted _ _ _ _ _ _ _ H) as (Hn & _ & _).
  destruct (evaluations_fold (c ++ [num_fitness_evals g']) (evaluations_initialize old)) as (l & E1 & E2 & E3 & E4).
  - rewrite last_last. by rewrite Hn.
  - intros x Hx. cbn. lia.
  - exact Hs.
  - unfold data, evaluations_run. rewrite Hseen, E1. cbn [evaluations_initialize ev_data app]. 
    assert (Hlen : length l = generation_cntr g' + 1).
    { rewrite E2, <- Hseen, fmap_length. 
      destruct (C63_one_entry_per_generation cf oc generations initial g sols g' (fun _ => Some tt) [] (replicate (length (shown (log g'))) tt) H) as [Hl _]; [|by rewrite replicate_length in Hl].
      assert (Hr : forall ms d, monitor_updates (fun _ : list (list b64) => Some tt) d ms = Some (d ++ replicate (length ms) tt)).
      { clear. induction ms as [|m ms IH]; intros d; cbn; [by rewrite app_nil_r|]. rewrite IH, <- app_assoc. done. }
      unfold monitor_run. rewrite Hr, fmap_length. done. }
    split; [done|]. split; [done|]. rewrite E3. rewrite last_last. cbn [evaluations_initialize ev_sum]. rewrite <- Hn. destruct c; cbn; lia.
Qed.
Print Assumptions C63_evaluations.

(** The hypotheses are met: a population of three candidates with two objectives; the run of
    EngineExample.v. *)
Definition stats_ex : list (list b64) := [[fmk 1 0; fmk 5 0]; [fmk 4 0; fmk (-2) 0]; [fmk 4 0; finf]].
Example C63_nonvacuous :
  rectangular 2 stats_ex /\ (map B2SF <$> minFitness stats_ex = Some (map B2SF [fmk 1 0; fmk (-2) 0])) /\
  (map B2SF <$> maxFitness stats_ex = Some (map B2SF [fmk 4 0; finf])) /\
  (map B2SF <$> fitnessMean (take 2 stats_ex) = Some (map B2SF [fmk 5 (-1); fmk 3 (-1)])) /\
  Forall (fun r => length r = 2 /\ Forall (fun x => is_finite x = true /\ (Rabs (B2R x) <= bpow radix2 3)%R) r) (take 2 stats_ex).
Proof.
  split; [by repeat constructor|]. split; [vm_compute; reflexivity|]. split; [vm_compute; reflexivity|]. split; [vm_compute; reflexivity|].
  assert (Hone : forall z, (Z.abs z <= 8)%Z -> is_finite (fmk z 0) = true /\ (Rabs (B2R (fmk z 0)) <= bpow radix2 3)%R).
  { intros z Hz. destruct (fmk_val z 0) as (F & V & _); [lia|lia|]. split; [done|]. rewrite V. change (bpow radix2 0) with 1%R. change (bpow radix2 3) with 8%R. rewrite Rmult_1_r, <- abs_IZR. by apply (IZR_le _ 8). }
  unfold stats_ex. cbn [take]. repeat (apply Forall_cons; split; [split; [done|]; repeat (apply Forall_cons; split; [apply Hone; lia|]); apply Forall_nil; exact I|]). apply Forall_nil. exact I.
Qed.
Example C63_run_nonvacuous :
  (r ← ex_run true 1 (ex_keep_best zero_tolerances); Some (ev_data (evaluations_run (Evaluations [9%Z] 9) (v_evals <$> shown (log r.2))), length (shown (log r.2)), length (calls (log r.2))))
  = Some ([3; 1; 2]%Z, 3, 6).
Proof. vm_compute. reflexivity. Qed.
