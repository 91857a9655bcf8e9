(** Parallel evaluation: the calls of GA::evaluate that a parallel_for makes, in any
    interleaving (/repo/src/core/ga_base.impl.hpp 339, 456-485 and 524-529).

    A call of evaluate that does not return early is two steps: the atomic fetch_add on
    num_fitness_evals_ (line 478), and the call of the fitness function with the writes to
    its own candidate (480-481).  The fitness cache is only read.  fetch_add is atomic, so it
    always adds to the last value in the modification order of the counter. *)
From stdpp Require Import list list_numbers relations.
From Coq Require Import Lia.
From Verif Require Import FloatBase FloatModel FloatSpec AlgorithmModel FrontModel CacheModel CacheSpec CacheProofs CrossoverModel OperatorModel OperatorSpec.
From Verif Require Import FloatProps EngineModel EngineSpec EngineProofs EngineProps EngineExample.

Section schedule.
Context {T : Type} `{EqDecision T}.
Notation cand := (candidate T).
Variable cf : settings T.
Variable fcache : cache (list T) (list b64).

(** 463-476: the candidate if evaluate returns early. *)
Definition early (x : cand) : option cand :=
  if negb (dynamic cf) && is_evaluated x then Some x
  else if Nat.eqb (cached_generations cf) 0 then None
  else match cache_get fcache (chromosome x) with Some f => Some (Cand f (chromosome x) true) | None => None end.

(** A task: not started, counted but not called yet, or done. *)
Inductive task := Ready (x : cand) | Counted (x : cand) | Done (x : cand).
Record pstate := PState { tasks : list task; counter : nat; made : list (list T) }.
Definition start (xs : list cand) (n : nat) : pstate := PState (Ready <$> xs) n [].
Inductive pstep : pstate -> pstate -> Prop :=
| step_early ts n cs i x y : ts !! i = Some (Ready x) -> early x = Some y -> pstep (PState ts n cs) (PState (<[i := Done y]> ts) n cs)
| step_count ts n cs i x : ts !! i = Some (Ready x) -> early x = None -> pstep (PState ts n cs) (PState (<[i := Counted x]> ts) (S n) cs)
| step_call ts n cs i x k : ts !! i = Some (Counted x) ->
    pstep (PState ts n cs) (PState (<[i := Done (Cand (fitness_function cf k (chromosome x)) (chromosome x) true)]> ts) n (cs ++ [chromosome x])).
Definition all_done (s : pstate) : Prop := Forall (fun t => match t with Done _ => True | _ => False end) (tasks s).
Definition results (s : pstate) : list cand := (fun t => match t with Ready x | Counted x | Done x => x end) <$> tasks s.

(** ** Invariant *)
Definition pending (t : task) : list (list T) :=
  match t with Ready x => match early x with Some _ => [] | None => [chromosome x] end | Counted x => [chromosome x] | Done _ => [] end.
Definition flying (t : task) : list (list T) := match t with Counted x => [chromosome x] | _ => [] end.
Lemma bind_insert {A B} (F : A -> list B) (ts : list A) i p q : ts !! i = Some p -> (<[i := q]> ts ≫= F) ++ F p ≡ₚ F q ++ (ts ≫= F).
Proof.
  intros Hi. pose proof (lookup_lt_Some _ _ _ Hi). rewrite insert_take_drop by done. rewrite <- (take_drop_middle ts i p Hi) at 3. rewrite !bind_app. cbn [mbind list_bind].
  change (list_bind A B F) with (mbind (M := list) F). solve_Permutation.
Qed.
Record pinv (xs : list cand) (n0 : nat) (s : pstate) : Prop := {
  p_made : made s ++ (tasks s ≫= pending) ≡ₚ (xs ≫= (fun x => pending (Ready x)));
  p_counter : counter s = n0 + length (made s) + length (tasks s ≫= flying);
  p_task : Forall2 (fun x t => match t with Ready y => y = x | Counted y => y = x /\ early x = None
      | Done y => chromosome y = chromosome x /\ (early x = Some y \/ early x = None /\ exists k, y = Cand (fitness_function cf k (chromosome x)) (chromosome x) true) end) xs (tasks s);
}.
Lemma start_inv xs n : pinv xs n (start xs n).
Proof.
  split; cbn.
  - induction xs as [|x xs IH]; [done|]. cbn. by rewrite IH.
  - induction xs as [|x xs IH]; [cbn; lia|]. exact IH.
  - induction xs; [constructor|]. cbn. by constructor.
Qed.
Lemma early_chromosome x y : early x = Some y -> chromosome y = chromosome x.
Proof. unfold early. destruct (_ && _); [by intros [= ->]|]. destruct (_ =? _); [done|]. destruct (cache_get _ _); [|done]. by intros [= <-]. Qed.
Lemma step_inv xs n s s' : pinv xs n s -> pstep s s' -> pinv xs n s'.
Proof.
  intros [H1 H2 H3] Hs. destruct Hs as [ts m cs i x y Hi Hy|ts m cs i x Hi Hy|ts m cs i x k Hi]; cbn in *.
  - destruct (Forall2_lookup_r _ _ _ _ _ H3 Hi) as (x0 & Hx & ->). split; cbn.
    + pose proof (bind_insert pending ts i (Ready x0) (Done y) Hi) as E. cbn in E. rewrite Hy, app_nil_r in E. cbn in E. by rewrite E.
    + pose proof (bind_insert flying ts i (Ready x0) (Done y) Hi) as E. cbn in E. rewrite app_nil_r in E. by rewrite E.
    + rewrite <- (list_insert_id xs i x0) by done. apply Forall2_insert; [done|]. split; [by apply early_chromosome|by left].
  - destruct (Forall2_lookup_r _ _ _ _ _ H3 Hi) as (x0 & Hx & ->). split; cbn.
    + pose proof (bind_insert pending ts i (Ready x0) (Counted x0) Hi) as E. cbn in E. rewrite Hy in E. rewrite (Permutation_app_comm _ [_]) in E. cbn in E. apply Permutation_cons_inv in E. by rewrite E.
    + pose proof (bind_insert flying ts i (Ready x0) (Counted x0) Hi) as E. cbn in E. rewrite app_nil_r in E. rewrite E. cbn. lia.
    + rewrite <- (list_insert_id xs i x0) by done. apply Forall2_insert; [done|]. done.
  - destruct (Forall2_lookup_r _ _ _ _ _ H3 Hi) as (x0 & Hx & -> & He). split; cbn.
    + pose proof (bind_insert pending ts i (Counted x0) (Done (Cand (fitness_function cf k (chromosome x0)) (chromosome x0) true)) Hi) as E. cbn in E. rewrite <- H1, <- E. solve_Permutation.
    + pose proof (bind_insert flying ts i (Counted x0) (Done (Cand (fitness_function cf k (chromosome x0)) (chromosome x0) true)) Hi) as E. cbn in E. apply Permutation_length in E. rewrite app_length in *. cbn in *. lia.
    + rewrite <- (list_insert_id xs i x0) by done. apply Forall2_insert; [done|]. split; [done|]. right. split; [done|]. by exists k.
Qed.
Lemma reach_inv xs n s : rtc pstep (start xs n) s -> pinv xs n s.
Proof.
  intros Hr. assert (H : pinv xs n (start xs n)) by apply start_inv. induction Hr as [|x y z Hs _ IH]; [done|]. apply IH. by eapply step_inv.
Qed.

(** ** C53 for every schedule of a parallel_for *)
(** Unless all is done some task can go on, and every step of a task is one of at most two. *)
Theorem C53_schedule_progress s : ~ all_done s -> exists s', pstep s s'.
Proof.
  intros H. destruct s as [ts n cs]. unfold all_done in H. cbn in H.
  apply not_Forall_Exists in H; [|intros []; apply _]. apply Exists_exists in H as (t & Ht & Hn). apply elem_of_list_lookup in Ht as [i Hi]. destruct t as [x|x|x].
  - destruct (early x) as [y|] eqn:E; eexists; [by eapply step_early|by eapply step_count].
  - eexists. by eapply (step_call _ _ _ _ _ 0).
  - exfalso; by apply Hn.
Qed.
Theorem C53_every_schedule xs n s : rtc pstep (start xs n) s ->
  n + length (made s) <= counter s /\
  (all_done s -> counter s = n + length (made s) /\ made s ≡ₚ chromosome <$> filter (fun x => early x = None) xs /\
    forall i x, xs !! i = Some x -> exists y, results s !! i = Some y /\ chromosome y = chromosome x /\
      (early x = Some y \/ early x = None /\ exists k, y = Cand (fitness_function cf k (chromosome x)) (chromosome x) true)).
Proof.
  intros Hr. destruct (reach_inv _ _ _ Hr) as [H1 H2 H3]. split; [lia|]. intros Hd. unfold all_done in Hd.
  assert (E1 : tasks s ≫= pending = []). { clear -Hd. induction Hd as [|t ts Ht _ IH]; [done|]. cbn. rewrite IH. by destruct t. }
  assert (E2 : tasks s ≫= flying = []). { clear -Hd. induction Hd as [|t ts Ht _ IH]; [done|]. cbn. rewrite IH. by destruct t. }
  rewrite E1, app_nil_r in H1. rewrite E2 in H2. cbn in H2. split; [lia|]. split.
  - rewrite H1. clear. induction xs as [|x xs IH]; [done|]. rewrite filter_cons. cbn [mbind list_bind]. change (list_bind cand (list T)) with (@mbind list _ cand (list T)).
    destruct (decide (early x = None)) as [E|E]; cbn; [rewrite E|destruct (early x); [|done]]; cbn; by rewrite IH.
  - intros i x Hx. destruct (Forall2_lookup_l _ _ _ _ _ H3 Hx) as (t & Ht & Hp). rewrite Forall_forall in Hd.
    assert (Hdt := Hd t (elem_of_list_lookup_2 _ _ _ Ht)). destruct t as [y|y|y]; try done. exists y. split; [|done]. unfold results. by rewrite list_lookup_fmap, Ht.
Qed.
(** With a static fitness function the outcome is that of the sequential evaluation of
    EngineModel.v, whatever the schedule. *)
Variable f0 : list T -> list b64.
Hypothesis f_static : forall n c, fitness_function cf n c = f0 c.
Lemma evaluate_early x g x' g' : fitness_cache g = fcache -> evaluate cf x g = Some (x', g') ->
  match early x with Some y => x' = y /\ g' = g | None => x' = Cand (f0 (chromosome x)) (chromosome x) true /\ g' = called [chromosome x] g end.
Proof.
  intros Hc H. unfold evaluate in H. apply assertion_Some in H as [H _]. unfold early. rewrite <- Hc.
  assert (Hcall : forall z, assertion cf (valid_fitness (num_objectives g) (Cand (fitness_function cf (num_fitness_evals g) (chromosome x)) (chromosome x) true))
     (Some (Cand (fitness_function cf (num_fitness_evals g) (chromosome x)) (chromosome x) true, emit (ECall (chromosome x)) (set_evals (S (num_fitness_evals g)) g))) = Some z ->
     z = (Cand (f0 (chromosome x)) (chromosome x) true, called [chromosome x] g)).
  { intros z Hz. apply assertion_Some in Hz as [Hz _]. apply (inj Some) in Hz. rewrite <- Hz, f_static. f_equal. unfold emit, set_evals, called. cbn. f_equal. lia. }
  destruct (negb (dynamic cf) && is_evaluated x); [by injection H as <- <-|]. cbn zeta in H. destruct (Nat.eqb (cached_generations cf) 0).
  - apply Hcall in H. by injection H as -> ->.
  - apply assertion_Some in H as [H _]. destruct (cache_get (fitness_cache g) (chromosome x)); [by injection H as <- <-|]. apply Hcall in H. by injection H as -> ->.
Qed.
Theorem C53_schedules_agree xs : forall g xs' g' s, fitness_cache g = fcache -> evaluate_all cf xs g = Some (xs', g') ->
  rtc pstep (start xs (num_fitness_evals g)) s -> all_done s ->
  results s = xs' /\ counter s = num_fitness_evals g' /\ exists cs, made s ≡ₚ cs /\ log g' = log g ++ (ECall <$> cs).
Proof.
  intros g xs' g' s Hc He Hr Hd. destruct (C53_every_schedule _ _ _ Hr) as [_ H]. destruct (H Hd) as (H1 & H2 & H3). clear H.
  assert (Hseq : xs' = (fun x => match early x with Some y => y | None => Cand (f0 (chromosome x)) (chromosome x) true end) <$> xs /\ g' = called (chromosome <$> filter (fun x => early x = None) xs) g).
  { clear H1 H2 H3 Hr Hd s. revert g xs' g' Hc He. induction xs as [|x xs IH]; intros g xs' g' Hc He; cbn [evaluate_all] in He.
    - injection He as <- <-. split; [done|]. symmetry. apply called_nil.
    - apply bind_Some in He as ([x1 g1] & E1 & He). apply bind_Some in He as ([l2 g2] & E2 & He). injection He as <- <-. pose proof (evaluate_early _ _ _ _ Hc E1) as Hx.
      rewrite filter_cons, fmap_cons. destruct (early x) as [y|] eqn:Ey.
      + destruct Hx as [-> ->]. destruct (IH _ _ _ Hc E2) as [-> ->]. done.
      + destruct Hx as [-> ->]. destruct (IH (called [chromosome x] g) _ _ Hc E2) as [-> ->]. split; [done|]. rewrite called_app. done. }
  destruct Hseq as [-> ->]. split_and!.
  - apply list_eq. intros i. rewrite list_lookup_fmap. destruct (xs !! i) as [x|] eqn:Hx; cbn.
    + destruct (H3 i x Hx) as (y & Hy & _ & Hy2). rewrite Hy. f_equal. destruct Hy2 as [->|[-> (k & ->)]]; [done|]. by rewrite f_static.
    + apply lookup_ge_None in Hx. apply lookup_ge_None. unfold results. rewrite fmap_length. destruct (reach_inv _ _ _ Hr) as [_ _ Hl]. by rewrite <- (Forall2_length _ _ _ Hl).
  - cbn. rewrite H1. by rewrite (Permutation_length H2).
  - eexists. split; [exact H2|done].
Qed.
End schedule.
Print Assumptions C53_schedule_progress.
Print Assumptions C53_every_schedule.
Print Assumptions C53_schedules_agree.

(** Three candidates, one of them evaluated already; the other two are counted before one of
    them is called. *)
Example C53_schedule_nonvacuous :
  let cf := ex_cf 0 false false true zero_tolerances (fun _ => ex_fitness) in
  let xs := [Cand [] [4] false; Cand (ex_fitness [2]) [2] true; Cand [] [5] false] in
  exists s, rtc (pstep cf (cache_new 0)) (start xs 7) s /\ all_done s /\ counter s = 9 /\ made s = [[5]; [4]] /\ chromosome <$> results s = [[4]; [2]; [5]].
Proof.
  cbn zeta. eexists. split.
  - unfold start. cbn [fmap list_fmap].
    eapply rtc_l; [eapply (step_count _ _ _ _ _ 0); reflexivity|]. cbn [insert list_insert].
    eapply rtc_l; [eapply (step_count _ _ _ _ _ 2); reflexivity|]. cbn [insert list_insert].
    eapply rtc_l; [eapply (step_call _ _ _ _ _ 2 _ 0); reflexivity|]. cbn [insert list_insert].
    eapply rtc_l; [eapply (step_early _ _ _ _ _ 1); reflexivity|]. cbn [insert list_insert].
    eapply rtc_l; [eapply (step_call _ _ _ _ _ 0 _ 0); reflexivity|]. cbn [insert list_insert]. apply rtc_refl.
  - split; [repeat constructor|]. done.
Qed.
