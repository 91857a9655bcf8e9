(** C101: the length of a run, and what the stop conditions of the library look at. *)
From Coq Require Import Reals ZArith Lia Lra.
From Flocq Require Import Core BinarySingleNaN.
From stdpp Require Import list list_numbers.
From Verif Require Import FloatBase FloatModel FloatSpec StatsModel StatsSpec StatsProps StopModel StopSpec StopProofs StopProps.

Lemma step_final e i b e' : step e i = Some (b, e') -> final i -> b = true.
Proof.
  intros H Hf. destruct e; cbn [step] in H.
  all: match type of H with (?x ≫= _) = _ => destruct x as [[b0 e0]|]; [|done] end; cbn [mbind option_bind] in H; injection H as <- _.
  all: rewrite last_final, (bool_decide_eq_true_2 _ Hf); apply orb_true_r.
Qed.
Lemma run_from_length max_gen h : forall e l k, (forall t i, h !! t = Some i -> generation i = k + t /\ max_generations i = max_gen) ->
  k < max_gen -> run_from e h = Some l ->
  length l <= length h /\ length l <= max_gen - k /\ (length l = length h \/ last l = Some true) /\
  (forall t, S t < length l -> l !! t = Some false) /\ (max_gen - k <= length h -> last l = Some true).
Proof.
  induction h as [|i h IH]; intros e l k Hn Hk H; cbn [run_from] in H.
  { injection H as <-. cbn. repeat split; try lia. }
  destruct (step e i) as [[b e']|] eqn:E; [|done]. cbn [mbind option_bind] in H.
  destruct (Hn 0 i eq_refl) as [Hg Hm]. destruct b.
  { injection H as <-. cbn. repeat split; try lia. by right. }
  assert (Hnf : ~ final i). { intros Hf. pose proof (step_final _ _ _ _ E Hf). done. }
  unfold final in Hnf. destruct (run_from e' h) as [l'|] eqn:E'; [|done]. cbn [mbind option_bind] in H. injection H as <-.
  destruct (IH e' l' (S k)) as (H1 & H2 & H3 & H4 & H5); [intros t j Hj; destruct (Hn (S t) j Hj); split; [lia|done]|lia|done|].
  cbn [length]. split; [lia|]. split; [lia|]. split.
  { destruct H3 as [H3|H3]; [left; lia|right]. destruct l'; [done|exact H3]. }
  split. { intros [|t] Ht; [done|]. apply H4. lia. }
  intros Hl. assert (H6 : last l' = Some true) by (apply H5; lia). destruct l'; [done|exact H6].
Qed.
(** Whatever the condition is, a run has at most max_gen generations, ends with the first true,
    and stops in generation max_gen at the latest. *)
Theorem C101_max_gen (e : expr) (max_gen : nat) (h : list info) l : 0 < max_gen -> numbered max_gen h -> run e h = Some l ->
  length l <= length h /\ length l <= max_gen /\ (length l = length h \/ last l = Some true) /\
  (forall t, S t < length l -> l !! t = Some false) /\ (max_gen <= length h -> last l = Some true).
Proof.
  intros Hg Hn H. destruct h as [|i h]; [injection H as <-; cbn; repeat split; try lia; by left|].
  unfold run in H. destruct (run_from_length max_gen (i :: h) (init e i) l 0) as (H1 & H2 & H3 & H4 & H5); [exact Hn|done|done|].
  rewrite Nat.sub_0_r in H2, H5. done.
Qed.
Print Assumptions C101_max_gen.

(** The conditions without memory. *)
Definition plain (f : info -> bool) (c : condition) : Prop :=
  (forall i s, initialize c i s = s) /\ forall i, stop_condition c i (current c) = Some (f i, current c).
Lemma plain_values f c h : plain f c -> values_from (Leaf c) h = Some ((fun i => f i || bool_decide (final i)) <$> h).
Proof.
  intros [_ H]. induction h as [|i h IH]; [done|]. cbn [values_from step]. rewrite H. cbn [mbind option_bind]. rewrite with_current_id, IH. cbn [mbind option_bind].
  by rewrite last_final.
Qed.
Lemma plain_all f c h : plain f c -> values (Leaf c) h = Some ((fun i => f i || bool_decide (final i)) <$> h).
Proof. intros H. destruct h as [|i h]; [done|]. unfold values. cbn [init]. rewrite (proj1 H), with_current_id. by apply plain_values. Qed.
Lemma plain_run f c : forall h, plain f c -> (forall t i, h !! t = Some i -> f i = false /\ (S t < length h -> ~ final i)) ->
  run_from (Leaf c) h = Some ((fun i => bool_decide (final i)) <$> h).
Proof.
  intros h Hp. induction h as [|i h IH]; intros Hf; [done|]. cbn [run_from step]. rewrite (proj2 Hp). cbn [mbind option_bind]. rewrite with_current_id.
  destruct (Hf 0 i eq_refl) as [-> Hl]. rewrite last_final. cbn [orb fmap list_fmap].
  destruct h as [|j h].
  { destruct (bool_decide (final i)); done. }
  rewrite (bool_decide_eq_false_2 (final i)) by (apply Hl; cbn; lia). rewrite IH; [done|]. intros t k Hk. destruct (Hf (S t) k Hk) as [H1 H2]. split; [done|]. intros Ht. apply H2. cbn in *. lia.
Qed.

(** FitnessEvals: true exactly when the number of evaluations has reached the limit. *)
Theorem C101_evals (n : nat) (h : list info) :
  exists l, values (Leaf (FitnessEvals n)) h = Some l /\ length l = length h /\
    forall t i b, h !! t = Some i -> l !! t = Some b -> (b = true <-> n <= evals i \/ final i).
Proof.
  assert (Hp : plain (fun i => n <=? evals i) (FitnessEvals n)) by done.
  eexists. split; [apply (plain_all _ _ _ Hp)|]. split; [apply fmap_length|]. intros t i b Hi Hb. rewrite list_lookup_fmap, Hi in Hb. injection Hb as <-.
  by rewrite orb_true_iff, Nat.leb_le, bool_decide_eq_true.
Qed.
Print Assumptions C101_evals.
(** FitnessValue asks every generation anew, see C59. *)
Theorem C101_value (t : tolerances) (threshold : list b64) (h : list info) (g : nat) i l b : values (Leaf (FitnessValue t threshold)) h = Some l ->
  h !! g = Some i -> l !! g = Some b -> exists b', fitness_value t threshold i = Some b' /\ (b = true <-> b' = true \/ final i).
Proof.
  assert (H : forall h l g, values_from (Leaf (FitnessValue t threshold)) h = Some l -> h !! g = Some i -> l !! g = Some b -> exists b', fitness_value t threshold i = Some b' /\ (b = true <-> b' = true \/ final i)).
  { clear. induction h as [|j h IH]; intros l g Hl Hi Hb; [done|]. cbn [values_from step FitnessValue stop_condition current] in Hl.
    destruct (fitness_value t threshold j) as [b'|] eqn:E; [|done]. cbn [mbind option_bind] in Hl.
    match type of Hl with (?x ≫= _) = _ => destruct x as [l'|] eqn:E'; [|done] end. cbn [mbind option_bind] in Hl. injection Hl as <-. destruct g as [|g].
    - injection Hi as ->. injection Hb as <-. exists b'. split; [done|]. by rewrite orb_true_iff, last_final, bool_decide_eq_true.
    - by apply (IH l' g). }
  intros Hl. destruct h as [|j h]; [done|]. by apply H.
Qed.
Print Assumptions C101_value.
(** NoEarlyStop: a run lasts for exactly max_gen generations. *)
Theorem C101_no_early_stop (max_gen : nat) (h : list info) : 0 < max_gen -> numbered max_gen h -> length h = max_gen ->
  run (Leaf NoEarlyStop) h = Some (replicate (max_gen - 1) false ++ [true]).
Proof.
  intros Hg Hn Hl. assert (Hp : plain (fun _ => false) NoEarlyStop) by done.
  assert (Hr : run (Leaf NoEarlyStop) h = Some ((fun i => bool_decide (final i)) <$> h)).
  { destruct h as [|i h]; [done|]. unfold run. cbn [init]. apply (plain_run _ _ _ Hp). intros t j Hj. split; [done|]. intros Ht. destruct (Hn t j Hj) as [H1 H2]. unfold final. lia. }
  rewrite Hr. f_equal. apply list_eq. intros t. rewrite list_lookup_fmap. destruct (h !! t) as [i|] eqn:E.
  - destruct (Hn t i E) as [H1 H2]. pose proof (lookup_lt_Some _ _ _ E). cbn [fmap option_fmap option_map].
    destruct (decide (t = max_gen - 1)) as [Ht|Ht].
    + rewrite lookup_app_r by (rewrite replicate_length; lia). rewrite replicate_length, Ht, Nat.sub_diag. cbn. f_equal. apply bool_decide_eq_true. unfold final. lia.
    + rewrite lookup_app_l by (rewrite replicate_length; lia). rewrite (proj2 (lookup_replicate _ _ _ _)) by (split; [done|lia]). f_equal. apply bool_decide_eq_false. unfold final. lia.
  - apply lookup_ge_None in E. symmetry. apply lookup_ge_None. rewrite app_length, replicate_length. cbn. lia.
Qed.
Print Assumptions C101_no_early_stop.

(** FitnessBestStall is the stall condition of C58 for the best values of the objectives. *)
Theorem C101_best_stall (patience : nat) (delta : b64) (old : stall) (h : list info) vals :
  (Z.of_nat patience + 1 < 2 ^ 64)%Z -> Forall (fun i => fmat i <> [] /\ rectangular (objectives i) (fmat i)) h ->
  values (Leaf (FitnessBestStall patience delta old)) h = Some vals ->
  exists ms, Forall2 (fun i m => length m = objectives i /\ forall k x, m !! k = Some x -> maximum_of (objective k (fmat i)) x) h ms /\
    length vals = length h /\ forall t i, h !! t = Some i -> exists b, vals !! t = Some b /\ (b = true <-> stalled patience delta ms t \/ final i).
Proof.
  intros Hp Hr Hv. destruct (C58_stall_partial maxFitness patience delta old h vals Hp Hv) as (ms & H1 & H2 & H3). exists ms. split; [|done].
  clear -H1 Hr. revert ms H1. induction h as [|i h IH]; intros ms H1; inversion H1 as [|? m ? ms' Hm Hms]; subst; [constructor|]. apply Forall_cons in Hr as [[Hne Hi] Hr].
  constructor; [|by apply IH]. destruct (C63_max (objectives i) (fmat i) Hi Hne) as (p & Hp & Hl & Hk). rewrite Hm in Hp. injection Hp as ->. done.
Qed.
Print Assumptions C101_best_stall.
(** FitnessMeanStall for their means, up to rounding. *)
Theorem C101_mean_stall (patience : nat) (delta : b64) (old : stall) (h : list info) vals (M : R) :
  (Z.of_nat patience + 1 < 2 ^ 64)%Z -> (bpow radix2 (-900) <= M <= bpow radix2 1000)%R ->
  Forall (fun i => fmat i <> [] /\ (Z.of_nat (length (fmat i)) <= 2 ^ 50)%Z /\
    Forall (fun r => length r = objectives i /\ Forall (fun x => is_finite x = true /\ (Rabs (B2R x) <= M)%R) r) (fmat i)) h ->
  values (Leaf (FitnessMeanStall patience delta old)) h = Some vals ->
  exists ms, Forall2 (fun i m => length m = objectives i /\ forall k x, m !! k = Some x ->
      (Rabs (B2R x - mean_of (objective k (fmat i))) <= (2 * INR (length (fmat i)) + 4) * (bpow radix2 (-53) * M))%R) h ms /\
    length vals = length h /\ forall t i, h !! t = Some i -> exists b, vals !! t = Some b /\ (b = true <-> stalled patience delta ms t \/ final i).
Proof.
  intros Hp HM Hr Hv. destruct (C58_stall_partial fitnessMean patience delta old h vals Hp Hv) as (ms & H1 & H2 & H3). exists ms. split; [|done].
  clear -H1 Hr HM. revert ms H1. induction h as [|i h IH]; intros ms H1; inversion H1 as [|? m ? ms' Hm Hms]; subst; [constructor|]. apply Forall_cons in Hr as [(Hne & Hlen & Hi) Hr].
  constructor; [|by apply IH]. destruct (C63_mean (objectives i) (fmat i) M Hne Hlen HM Hi) as (p & Hp & Hl & Hk). rewrite Hm in Hp. injection Hp as ->. split; [done|].
  intros k x Hx. by apply Hk.
Qed.
Print Assumptions C101_mean_stall.

(** A run with a limit of 3 generations, one that ends earlier, and the difference between the
    best and the mean. *)
Definition short_history : list info := (fun g => Info g 3 (10 * (g + 1)) 1 [[fmk 1 0]; [fmk 3 0]]) <$> seq 0 3.
Definition rising : list info := (fun g => Info g 9 (10 * (g + 1)) 1 [[fmk (Z.of_nat g) 0]; [fmk 7 0]]) <$> seq 0 4.
Example C101_nonvacuous :
  numbered 3 short_history /\ run (Leaf NoEarlyStop) short_history = Some [false; false; true] /\
  run (Leaf (FitnessEvals 20)) short_history = Some [false; true] /\
  Forall (fun i => fmat i <> [] /\ rectangular (objectives i) (fmat i)) rising /\
  values (Leaf (FitnessBestStall 1 (fmk 1 (-2)) (Stall [] 0))) rising = Some [false; false; true; true] /\
  values (Leaf (FitnessMeanStall 1 (fmk 1 (-2)) (Stall [] 0))) rising = Some [false; false; false; false].
Proof.
  split. { intros t i H. do 3 (destruct t as [|t]; [injection H as <-; done|]). done. }
  split; [vm_compute; reflexivity|]. split; [vm_compute; reflexivity|]. split.
  { unfold rising. cbn [seq fmap list_fmap]. repeat (apply Forall_cons; split; [split; [done|repeat constructor]|]). constructor. }
  split; vm_compute; reflexivity.
Qed.
