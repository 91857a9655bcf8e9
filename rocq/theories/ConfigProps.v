(** C116: what was not set explicitly is deduced for each run. *)
From stdpp Require Import list.
From Coq Require Import Reals ZArith Lra Lia.
From Flocq Require Import Core BinarySingleNaN.
From Verif Require Import FloatBase RandModel RandProofs RealProofs QrngModel QrngProps BoundedModel BoundedProps ConfigModel.

Section config.
Context {P U : Type} (trait_rate : nat -> P).
Implicit Types (k : constructor P U) (xs : list (action P U)) (c : config P U).

(** What the program asked for, following the documentation of the constructors and setters; None: the default. *)
Definition asked_first k : option algorithm :=
  match k with CtorDefault _ => None | CtorAlgorithm a _ => a | CtorOperators _ _ => None | CtorOperatorsValue _ _ => None | CtorAll a _ _ => a end.
Definition asked_algorithm k xs : option algorithm := foldl (fun w x => match x with Do (SetAlgorithm a) => a | _ => w end) (asked_first k) xs.
Definition asked_rate k xs : option P :=
  foldl (fun w x => match x with Do (SetMutation p) => Some p | Do (SetRate p) => Some p | Do (SetMutationCallable _) => None | _ => w end)
    match k with CtorDefault _ => None | CtorAlgorithm _ _ => None | CtorOperators p _ => Some p | CtorOperatorsValue p _ => Some p | CtorAll _ p _ => Some p end xs.
Definition asked_stop k xs : option (stop_condition U) :=
  foldl (fun w x => match x with Do (SetStop s) => s | _ => w end)
    match k with CtorDefault _ => None | CtorAlgorithm _ _ => None | CtorOperators _ s => s | CtorOperatorsValue _ s => Some s | CtorAll _ _ s => s end xs.

(** What is in effect. *)
Definition first_algorithm k : option algorithm :=
  match k with CtorAlgorithm None _ => Some SingleObjective | CtorOperatorsValue _ _ => Some SingleObjective | _ => asked_first k end.
Definition real_algorithm k xs : option algorithm := foldl (fun w x => match x with Do (SetAlgorithm a) => a | _ => w end) (first_algorithm k) xs.
Definition real_rate k xs : option P :=
  foldl (fun w x => match x with Do (SetMutation p) => Some p | Do (SetRate p) => Some p | Do (SetMutationCallable _) => None | Solve _ l => Some (default (trait_rate l) w) | _ => w end)
    match k with CtorDefault _ => None | CtorAlgorithm _ _ => None | CtorOperators p _ => Some p | CtorOperatorsValue p _ => Some p | CtorAll _ p _ => Some p end xs.

Lemma acts_snoc c xs x : acts trait_rate c (xs ++ [x]) = acts trait_rate c xs ≫= fun c' => act trait_rate c' x.
Proof. revert c. induction xs as [|y xs IH]; intros c; cbn; [by destruct (act trait_rate c x)|]. destruct (act trait_rate c y) as [c'|]; cbn; [apply IH|done]. Qed.
Definition agrees (a : option algorithm) (r : option P) (s : option (stop_condition U)) c : Prop :=
  match a with Some a => use_default_algorithm_ c = false /\ algorithm_ c = a | None => use_default_algorithm_ c = true end /\
  match r with Some p => use_default_mutation_rate_ c = false /\ rate_ c = p | None => use_default_mutation_rate_ c = true end /\
  stop_condition_ c = default NoEarlyStop s.
Lemma agree k xs c : acts trait_rate (construct k) xs = Some c -> agrees (real_algorithm k xs) (real_rate k xs) (asked_stop k xs) c.
Proof.
  revert c. induction xs as [|x xs IH] using rev_ind; intros c H.
  - apply (inj Some) in H as <-. unfold real_algorithm, real_rate, asked_stop. cbn [foldl]. by destruct k as [p0|[a|] p0|p [s|]|p s|[a|] p [s|]].
  - rewrite acts_snoc in H. destruct (acts trait_rate (construct k) xs) as [c0|] eqn:E; [|done]. cbn [mbind option_bind] in H. specialize (IH c0 eq_refl). destruct IH as (Ha & Hr & Hs). unfold real_algorithm, real_rate, asked_stop in *. rewrite !foldl_app. cbn [foldl].
    set (A := foldl _ (first_algorithm k) xs) in *. set (R := foldl _ _ xs) in Hr |- *. set (S := foldl _ _ xs) in Hs |- *. clearbody A R S. destruct x as [[a|p|p|p|s]|m l]; cbn in H.
    + apply (inj Some) in H as <-. by destruct a.
    + by apply (inj Some) in H as <-.
    + by apply (inj Some) in H as <-.
    + by apply (inj Some) in H as <-.
    + by apply (inj Some) in H as <-.
    + unfold initialize in H. destruct A as [a|]; destruct R as [p|]; cbn [default] in *; repeat match goal with H : _ /\ _ |- _ => destruct H end;
        repeat match goal with E : use_default_algorithm_ _ = _ |- _ => rewrite E in H; cbn in H end; repeat match goal with E : use_default_mutation_rate_ _ = _ |- _ => rewrite E in H; cbn in H end;
        match type of H with (if ?b then _ else _) = _ => destruct b; [|done] end; apply (inj Some) in H as <-; cbn; by split_and!.
Qed.
(** The default algorithm accepts the fitness function. *)
Theorem C116_default_accepts m : 0 < m -> accepts (default_algorithm m) m = true.
Proof. intros H. unfold default_algorithm. destruct m as [|[|m]]; [lia|done|done]. Qed.

Definition documented k xs : Prop := (exists a, Do (SetAlgorithm a) ∈ xs) \/ ((forall p0, k <> CtorAlgorithm None p0) /\ (forall p s, k <> CtorOperatorsValue p s)).
Lemma real_asked k xs : documented k xs -> real_algorithm k xs = asked_algorithm k xs.
Proof.
  intros [[a Ha]|[H1 H2]].
  - unfold real_algorithm, asked_algorithm. apply elem_of_list_split in Ha as (l1 & l2 & ->). by rewrite !foldl_app.
  - unfold real_algorithm, asked_algorithm. f_equal. destruct k as [| [|] | | |]; try done; [by edestruct H1|by edestruct H2].
Qed.
(** The algorithm of a run is the one asked for, or the default for its number of objectives, and with the default
    no assertion fails - unless the GA was made by one of the two constructors below, and no algorithm was set. *)
Theorem C116_algorithm_partial k xs m l : documented k xs -> 0 < m -> acts trait_rate (construct k) xs <> None ->
  (asked_algorithm k xs = None -> acts trait_rate (construct k) (xs ++ [Solve m l]) <> None) /\
  (forall c, acts trait_rate (construct k) (xs ++ [Solve m l]) = Some c -> algorithm_ c = default (default_algorithm m) (asked_algorithm k xs)).
Proof.
  intros Hd Hm Hx. destruct (acts trait_rate (construct k) xs) as [c0|] eqn:E; [|done]. destruct (agree k xs c0 E) as (Ha & _). rewrite (real_asked k xs Hd) in Ha. split.
  - intros Hn. rewrite Hn in Ha. rewrite acts_snoc, E. cbn. unfold initialize. rewrite Ha. cbn. rewrite C116_default_accepts by done. done.
  - intros c Hc. rewrite acts_snoc, E in Hc. cbn in Hc. unfold initialize in Hc. destruct (asked_algorithm k xs) as [a|]; [destruct Ha as [Ha1 Ha2]; rewrite Ha1 in Hc|rewrite Ha in Hc]; cbn in *;
      match type of Hc with (if ?b then _ else _) = _ => destruct b; [|done] end; apply (inj Some) in Hc as <-; by destruct (use_default_mutation_rate_ c0).
Qed.
(** GA(size, nullptr) and GA(size, crossover, mutation, stop) by value run SingleObjective, whatever the number of
    objectives is, and so fail for more than one. *)
Theorem C116_algorithm_refuted k m l : (exists p0, k = CtorAlgorithm None p0) \/ (exists p s, k = CtorOperatorsValue p s) -> 1 < m ->
  asked_algorithm k [] = None /\ acts trait_rate (construct k) [Solve m l] = None.
Proof.
  intros Hk Hm. assert (E : Nat.eqb m 1 = false) by (apply Nat.eqb_neq; lia). destruct Hk as [[p0 ->]|(p & s & ->)]; (split; [done|]); cbn; unfold initialize; cbn; by rewrite E.
Qed.

(** A rate that was given is used in every run.  If none was given, the rate is deduced in the first run after the
    construction or after mutation_method(callable), which leaves the rate to be deduced. *)
Theorem C116_rate_given k xs p m l c : asked_rate k xs = Some p -> acts trait_rate (construct k) (xs ++ [Solve m l]) = Some c -> rate_ c = p.
Proof.
  intros Hp Hc. assert (G : forall ys, match asked_rate k ys with Some q => real_rate k ys = Some q | None => True end).
  { intros ys. induction ys as [|y ys IH] using rev_ind; [unfold asked_rate, real_rate; cbn; by destruct k|]. unfold asked_rate, real_rate in *. rewrite !foldl_app. cbn [foldl]. destruct y as [[]|]; try done. destruct (foldl _ _ ys) as [q|]; [|done]. by rewrite IH. }
  destruct (agree k _ c Hc) as (_ & Hr & _). specialize (G xs). rewrite Hp in G. unfold real_rate in *. rewrite foldl_app in Hr. cbn [foldl] in Hr. rewrite G in Hr. cbn in Hr. by destruct Hr.
Qed.
Theorem C116_rate_partial k ys zs m l c :
  (ys = [] \/ exists ys' p0, ys = ys' ++ [Do (SetMutationCallable p0)]) -> (forall m' l', Solve m' l' ∉ zs) ->
  acts trait_rate (construct k) (ys ++ zs ++ [Solve m l]) = Some c -> rate_ c = default (trait_rate l) (asked_rate k (ys ++ zs)).
Proof.
  intros Hy Hn Hc. rewrite app_assoc in Hc. assert (G : real_rate k (ys ++ zs) = asked_rate k (ys ++ zs)).
  { assert (G0 : real_rate k ys = asked_rate k ys) by (destruct Hy as [->|(ys' & p0 & ->)]; [done|]; unfold real_rate, asked_rate; by rewrite !foldl_app).
    unfold real_rate, asked_rate in *. rewrite !foldl_app, G0. generalize (foldl (fun w x => match x with Do (SetMutation p) => Some p | Do (SetRate p) => Some p | Do (SetMutationCallable _) => None | _ => w end)
      match k with CtorDefault _ => None | CtorAlgorithm _ _ => None | CtorOperators p _ => Some p | CtorOperatorsValue p _ => Some p | CtorAll _ p _ => Some p end ys).
    clear Hc G0. induction zs as [|x zs IH]; intros w; [done|]. cbn [foldl]. destruct x as [x|m' l']; [|exfalso; apply (Hn m' l'), elem_of_list_here]. apply IH. intros m' l' Hin. apply (Hn m' l'). by apply elem_of_list_further. }
  destruct (agree k _ c Hc) as (_ & Hr & _). unfold real_rate in *. rewrite foldl_app in Hr. cbn [foldl] in Hr. rewrite G in Hr. by destruct Hr.
Qed.
(** The second run of a GA keeps the rate that was deduced for the first. *)
Theorem C116_rate_refuted p0 l1 l2 : exists c, acts trait_rate (construct (U := U) (CtorDefault p0)) [Solve 1 l1; Solve 1 l2] = Some c /\ asked_rate (CtorDefault p0) [@Solve P U 1 l1] = None /\ rate_ c = trait_rate l1.
Proof. eexists. split; [reflexivity|]. done. Qed.

Theorem C116_stop k xs c : acts trait_rate (construct k) xs = Some c -> stop_condition_ c = default NoEarlyStop (asked_stop k xs).
Proof. intros H. by destruct (agree k xs c H) as (_ & _ & Hs). Qed.
End config.

(** The deduced rates are probabilities, for every chromosome length. *)
Local Open Scope R_scope.
Theorem C116_inverse_length (n : Z) : (1 <= n < 2 ^ 64)%Z ->
  double_value Probability (inverse_length n) = Some (inverse_length n) /\ B2R (inverse_length n) = rnd (1 / rnd (IZR n)).
Proof.
  intros Hn. destruct (fofZ_val n) as [D1 D2]; [lia|].
  assert (H1 : 1 <= B2R (fofZ n)). { rewrite D2. change 1 with (bpow radix2 0). rewrite <- (bpow_fmt 0) by lia. apply rnd_mono. change (bpow radix2 0) with 1. apply IZR_le. lia. }
  assert (Hg : ge1 (fofZ n)) by (split; [by destruct (fofZ n)|by rewrite fval_finite]).
  destruct (ge1_inv _ Hg) as [F V]. change (is_finite (inverse_length n) = true) in F. change (0 <= B2R (inverse_length n) <= 1) in V. split.
  - apply C113_probability; [revert F; by destruct (inverse_length n)|]. split_and!; [done|exact F|apply V|apply V].
  - assert (O1 : is_finite (fmk 1 0) = true) by apply fone_val. assert (O2 : B2R (fmk 1 0) = 1) by apply fone_val. destruct (fdiv_finite (fmk 1 0) (fofZ n) O1 D1) as [A1 A2]; [lra|].
    rewrite O2, D2 in A2. change (fval (inverse_length n) = srnd (1 / rnd (IZR n))) in A2. rewrite fval_finite in A2 by done. rewrite A2. unfold srnd. apply sat_id.
    rewrite D2 in H1. assert (Hd : 0 <= 1 / rnd (IZR n) <= 1). { split; [apply Rlt_le, Rdiv_lt_0_compat; lra|]. apply Rmult_le_reg_r with (rnd (IZR n)); [lra|]. field_simplify; lra. }
    pose proof femax_1. pose proof (rnd_mono _ _ (proj1 Hd)) as L1. pose proof (rnd_mono _ _ (proj2 Hd)) as L2. rewrite rnd_0 in L1. change 1 with (bpow radix2 0) in L2 at 2. rewrite bpow_fmt in L2 by lia. change (bpow radix2 0) with 1 in L2. lra.
Qed.
Theorem C116_permutation_rate : double_value Probability permutation_rate = Some permutation_rate /\ Rabs (B2R permutation_rate - 6 / 10) <= / IZR (2 ^ 53).
Proof.
  split; [unfold double_value, bounded_value; replace (contains flt feq Probability permutation_rate) with true by (vm_compute; reflexivity); done|].
  destruct (fmk_val 5404319552844595 (-53)) as (_ & V & _); [lia|lia|]. unfold permutation_rate. rewrite V. change (bpow radix2 (-53)) with (/ IZR (2 ^ 53)). change (2 ^ 53)%Z with 9007199254740992%Z. apply Rabs_le. lra.
Qed.
(** A length of zero gives infinity, which is refused. *)
Theorem C116_zero_length : double_value Probability (inverse_length 0) = None.
Proof. unfold double_value, bounded_value. replace (contains flt feq Probability (inverse_length 0)) with false by (vm_compute; reflexivity). done. Qed.

(** Rates are the numbers of genes here. *)
Example C116_example :
  let run k xs := (fun c => (algorithm_ c, rate_ c)) <$> acts (U := nat) (fun l => l) (construct k) xs in
  run (CtorDefault 0%nat) [Solve 1 10] = Some (SingleObjective, 10%nat) /\ run (CtorDefault 0%nat) [Solve 3 10] = Some (NSGA3, 10%nat) /\
  run (CtorDefault 0%nat) [Solve 1 10; Solve 2 50] = Some (NSGA3, 10%nat) /\ run (CtorOperators 7%nat None) [Solve 2 10] = Some (NSGA3, 7%nat) /\
  run (CtorOperatorsValue 7%nat NoEarlyStop) [Solve 2 10] = None /\ run (CtorOperatorsValue 7%nat NoEarlyStop) [Do (SetAlgorithm None); Solve 2 10] = Some (NSGA3, 7%nat) /\
  run (CtorDefault 0%nat) [Solve 1 10; Do (SetMutationCallable 3%nat); Solve 1 50] = Some (SingleObjective, 50%nat).
Proof. done. Qed.
Print Assumptions C116_default_accepts.
Print Assumptions C116_algorithm_partial.
Print Assumptions C116_algorithm_refuted.
Print Assumptions C116_rate_given.
Print Assumptions C116_rate_partial.
Print Assumptions C116_rate_refuted.
Print Assumptions C116_stop.
Print Assumptions C116_inverse_length.
Print Assumptions C116_permutation_rate.
Print Assumptions C116_zero_length.
