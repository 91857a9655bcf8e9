(** C38 - C40 and C82: integer and binary mutation, the mutation operator, rates 0 and 1. *)
From Coq Require Import Reals ZArith Lra Lia.
From stdpp Require Import list list_numbers.
From Flocq Require Import Core BinarySingleNaN.
From Verif Require Import FloatBase FloatModel FloatSpec FloatProofs FloatProps RealCrossoverModel RealSpec RealProofs RealCrossoverProofs RealCrossoverProps
  CrossoverModel OperatorModel OperatorSpec CrossoverOpProps RandModel RandSpec RandProofs BinomialProofs RandProps MutationModel MutationSpec PermMutationProofs PermMutationProps
  MutationProofs MutationProofs2 MutationProps.

Local Open Scope Z_scope.

(** ** C38 *)
(** A returned chromosome: different genes within their bounds at distinct positions, the
    others unchanged.  (For longer chromosomes the positions may repeat, see C65; then a
    gene still is unchanged or within its bounds.) *)
Theorem C38_integer_uniform_result_partial (bs : list (Z * Z)) (fuel : nat) (pm : b64) (c d : list Z) (s s' : stream) :
  Z.of_nat (length c) < 65536 -> IntegerUniform bs fuel pm c s = Some (d, s') ->
  length d = length c /\ exists (k : Z) (s1 : stream) (pos : list nat),
    randomBinomial fuel (Z.of_nat (length c)) pm s = Some (k, s1) /\ Z.of_nat (length pos) = k /\ NoDup pos /\
    forall i, (i ∉ pos -> d !! i = c !! i) /\
      (i ∈ pos -> exists b x y, bs !! i = Some b /\ c !! i = Some x /\ d !! i = Some y /\ b.1 <= y <= b.2 /\ y <> x).
Proof.
  intros Hc H. unfold IntegerUniform in H. apply rassert_Some in H as [Hl H]. apply rbind_Some in H as (k & s1 & Hk & H). apply rbind_Some in H as (l & s2 & Hl2 & H).
  pose proof (randomBinomial_range fuel (size c) pm s k s1 ltac:(unfold size; lia) Hk) as Hkr.
  destruct (sampleUnique_ok 0 (size c) k s1) as (l' & s2' & Hl' & Ll & Fl & Nl); [lia|unfold size; lia|]. rewrite Hl' in Hl2. injection Hl2 as -> ->.
  assert (Hnd : NoDup l) by (apply Nl; left; unfold size; lia).
  apply for_indices_result in H as [Hlen Hi]; [| |done|eapply Forall_impl; [exact Fl|]; cbn; lia].
  2: { intros i x. apply adv_bind; [apply adv_lift|]. intros b. apply adv_redraw. }
  split; [done|]. exists k, s1, (Z.to_nat <$> l).
  assert (Hmem : forall i : nat, i ∈ Z.to_nat <$> l <-> Z.of_nat i ∈ l).
  { intros i. rewrite elem_of_list_fmap. split.
    - intros (z & -> & Hz). rewrite Forall_forall in Fl. specialize (Fl z Hz). by rewrite Z2Nat.id by lia.
    - intros Hz. exists (Z.of_nat i). by rewrite Nat2Z.id. }
  split_and!; [done|by rewrite fmap_length| |].
  - apply NoDup_fmap_2_strong; [|done]. intros x y Hx Hy E. rewrite Forall_forall in Fl. pose proof (Fl x Hx). pose proof (Fl y Hy). lia.
  - intros i. rewrite Hmem. destruct (Hi i) as [H1 H2]. split; [done|]. intros Hin. destruct (H2 Hin) as (x & y & s3 & s4 & Hx & Hy & _ & Hg).
    apply rbind_Some in Hg as (b & s5 & Hb & Hg). unfold rlift in Hb. destruct (bs !! i) as [b'|] eqn:Ebs; [|done]. injection Hb as -> ->.
    apply redraw_Some in Hg as [Hr Hne]. exists b, x, y. done.
Qed.
Theorem C38_integer_uniform_in_bounds (bs : list (Z * Z)) (fuel : nat) (pm : b64) (c d : list Z) (s s' : stream) :
  IntegerUniform bs fuel pm c s = Some (d, s') ->
  length d = length c /\ forall i, d !! i = c !! i \/ exists b y, bs !! i = Some b /\ d !! i = Some y /\ b.1 <= y <= b.2.
Proof.
  intros H. unfold IntegerUniform in H. apply rassert_Some in H as [Hl H]. apply rbind_Some in H as (k & s1 & Hk & H). apply rbind_Some in H as (l & s2 & Hl2 & H).
  apply for_indices_drawn in H as [Hlen Hi]. split; [done|]. intros i. destruct (Hi i) as [E|(x & y & s3 & s4 & Hy & Hg)]; [by left|right].
  apply rbind_Some in Hg as (b & s5 & Hb & Hg). unfold rlift in Hb. destruct (bs !! i) as [b'|] eqn:Ebs; [|done]. injection Hb as -> ->.
  apply redraw_Some in Hg as [Hr Hne]. by exists b, y.
Qed.
(** It ends if every gene has at least two values, and the generator does not return the
    same number for ever. *)
Theorem C38_integer_uniform_terminates_partial (bs : list (Z * Z)) (fuel : nat) (pm : b64) (c : list Z) (s s1 : stream) (k : Z) :
  Forall (fun b => b.1 < b.2) bs -> length bs = length c -> Z.of_nat (length c) < 2 ^ 64 ->
  randomBinomial fuel (Z.of_nat (length c)) pm s = Some (k, s1) ->
  (forall m v : Z, 2 <= m -> forall j, exists n, (j <= n)%nat /\ bits (s n) mod m <> v) ->
  exists fuel' d s', IntegerUniform bs fuel' pm c s = Some (d, s').
Proof.
  intros Hb Hl Hc Hk Hv. pose proof Hk as Hr. apply randomBinomial_range in Hr; [|lia].
  destruct (sampleUnique_ok 0 (size c) k s1) as (l & s2 & Hl2 & _ & Fl & _); [unfold size; lia|unfold size; lia|].
  assert (Hv2 : varied s2). { eapply varied_later; [|eapply adv_sampleUnique, Hl2]. eapply varied_later; [exact Hv|]. eapply adv_randomBinomial, Hk. }
  destruct (int_loop_ends bs l c s2 Hb Hl Hv2 Fl) as (f & Hf). destruct (Hf (Nat.max f fuel) ltac:(lia)) as (d & s' & Hd).
  exists (Nat.max f fuel), d, s'. unfold IntegerUniform. rewrite rassert_true by (by apply Nat.eqb_eq). unfold mutate_some, size in *.
  rewrite (rbind_eq _ _ _ _ _ (randomBinomial_fuel fuel (Nat.max f fuel) _ _ _ _ ltac:(lia) Hk)). rewrite (rbind_eq _ _ _ _ _ Hl2). exact Hd.
Qed.
Print Assumptions C38_integer_uniform_result_partial.
Print Assumptions C38_integer_uniform_in_bounds.
Print Assumptions C38_integer_uniform_terminates_partial.
Example C38_nonvacuous :
  (* the draws of the count, of the second gene (its old value first) and of the first *)
  option_map fst (IntegerUniform [(0, 9); (-5, 5)] 3 fone [4; 2] (stream_of [0; 0; 7; 7; 1])) = Some [7; -4] /\
  option_map fst (IntegerUniform [(0, 9); (-5, 5)] 3 fone [7; 2] (stream_of [0; 0; 7; 8; 7; 1])) = Some [8; -4] /\
  (forall m v : Z, 2 <= m -> forall j, exists n, (j <= n)%nat /\ bits (Word (Z.of_nat n) fzero 0) mod m <> v).
Proof.
  split; [vm_compute; reflexivity|]. split; [vm_compute; reflexivity|]. intros m v Hm j. cbn [bits].
  destruct (decide (Z.of_nat j mod m = v)) as [E|E]; [|by exists j]. exists (S j). split; [lia|]. rewrite <- E.
  replace (Z.of_nat (S j)) with (Z.of_nat j + 1) by lia. intros E2. apply (f_equal (fun z => (z - Z.of_nat j mod m) mod m)) in E2.
  rewrite Zminus_mod_idemp_l, Zminus_mod_idemp_r, Z.sub_diag, Z.mod_0_l in E2 by lia.
  replace (Z.of_nat j + 1 - Z.of_nat j) with 1 in E2 by lia. rewrite Z.mod_1_l in E2 by lia. done.
Qed.
(** Refuted for a gene with one value: the loop never ends, whatever is drawn. *)
Theorem C38_integer_uniform_refuted :
  Forall (fun b => b.1 <= b.2) [(3, 3)] /\ forall (fuel : nat) (s : stream), IntegerUniform [(3, 3)] fuel fone [3] s = None.
Proof.
  split; [constructor; [cbn; lia|constructor]|]. intros fuel s. unfold IntegerUniform. rewrite rassert_true by done. unfold mutate_some, size. cbn [length].
  destruct (exact_loop_one 1 0 s) as [s1 H1].
  assert (Hk : randomBinomial fuel (Z.of_nat 1) fone s = Some (1, s1)).
  { unfold randomBinomial. rewrite rassert_true by reflexivity. rewrite rassert_true by reflexivity. cbn zeta.
    assert (E : (flt fone ffifth) = false) by (vm_compute; reflexivity). rewrite E. cbn [negb andb orb Z.ltb Z.compare Z.of_nat Pos.compare Pos.compare_cont Pos.of_succ_nat].
    unfold randomBinomialExact. rewrite rassert_true by reflexivity. rewrite rassert_true by reflexivity. exact H1. }
  rewrite (rbind_eq _ _ _ _ _ Hk). destruct (sampleUnique_ok 0 (Z.of_nat 1) 1 s1) as (l & s2 & Hl & Ll & Fl & _); [lia|lia|]. rewrite (rbind_eq _ _ _ _ _ Hl).
  destruct l as [|i l]; [done|]. apply Forall_cons in Fl as [Hi _]. assert (i = 0) as -> by lia.
  cbn [for_indices]. rewrite (rbind_eq _ _ s2 3 s2) by done. unfold rbind at 1. rewrite (rbind_eq _ _ s2 (3, 3) s2) by done. by rewrite redraw_fixed.
Qed.
Print Assumptions C38_integer_uniform_refuted.

(** ** C39 *)
Lemma mutation_op_flag {T} (eqb : list T -> list T -> bool) (same : list T -> list T -> Prop) num_objectives chrom_len variable_length mutate (c c' : candidate T) :
  (forall g h, eqb g h = true -> same g h) ->
  mutation_op eqb num_objectives chrom_len variable_length mutate c = Some c' ->
  flag_from same [c] c' /\ mutate c = Some (chromosome c').
Proof.
  intros He H. unfold mutation_op, check in H. case_decide; [|done]. case_decide; [|done]. destruct (mutate c) as [g|] eqn:Eg; [|done].
  cbn [mbind option_bind] in H. case_decide; [|done]. injection H as <-. destruct (is_evaluated c) eqn:Ee.
  - split; [|done]. intros Hev. cbn [is_evaluated chromosome fitness] in *. exists c. split; [left|]. split; [done|]. split; [by apply He|done].
  - split; [|done]. intros Hev. done.
Qed.
(** For the integral gene types, whatever the mutation does. *)
Theorem C39_mutation_flag {T : Type} (eqb : list T -> list T -> bool) (num_objectives chrom_len : nat) (variable_length : bool)
    (mutate : candidate T -> option (list T)) (c : candidate T) (g : list T) :
  (forall g h, eqb g h = true -> g = h) ->
  (is_evaluated c = true -> length (fitness c) = num_objectives) -> length_ok chrom_len variable_length c ->
  mutate c = Some g -> length g = length (chromosome c) ->
  exists c', mutation_op eqb num_objectives chrom_len variable_length mutate c = Some c' /\ chromosome c' = g /\ flag_from eq [c] c' /\
    (is_evaluated c' = true -> g = chromosome c) /\ forall f, fitness_sound f c -> fitness_sound f c'.
Proof.
  intros He Hf Hl Hm Hg.
  assert (Hop : is_Some (mutation_op eqb num_objectives chrom_len variable_length mutate c)).
  { unfold mutation_op, check. rewrite decide_True by (destruct (is_evaluated c); [right; by apply Hf|by left]). rewrite decide_True by done. rewrite Hm. cbn [mbind option_bind].
    rewrite decide_True; [by eexists|]. unfold length_ok in *. destruct (is_evaluated c); cbn [chromosome]; by rewrite Hg. }
  destruct Hop as [c' Hc']. exists c'. pose proof Hc' as Hc2. apply (mutation_op_flag _ eq) in Hc2 as [Hfl Hch]; [|done]. rewrite Hm in Hch. injection Hch as Hch.
  split; [done|]. split; [done|]. split; [done|]. split.
  - intros Hev. destruct (Hfl Hev) as (p & Hp & _ & Hs & _). apply elem_of_list_singleton in Hp as ->. congruence.
  - intros f Hsnd Hev. destruct (Hfl Hev) as (p & Hp & Ep & Hs & Hfit). apply elem_of_list_singleton in Hp as ->. rewrite Hfit, Hs. by apply Hsnd.
Qed.
Print Assumptions C39_mutation_flag.
Example C39_mutation_flag_nonvacuous :
  let c := Cand [fone] [1; 0; 2]%nat true in
  mutation_op (fun g h => bool_decide (g = h)) 1 3 false (fun c => Some (reverse (chromosome c))) c = Some (Cand [fone] [2; 0; 1]%nat false) /\
  mutation_op (fun g h => bool_decide (g = h)) 1 3 false (fun c => Some (chromosome c)) c = Some c.
Proof. split; reflexivity. Qed.
(** For real genes: the chromosome of an evaluated candidate passes operator==. *)
Theorem C39_mutation_flag_real_partial (t : tolerances) (num_objectives chrom_len : nat) (variable_length : bool)
    (mutate : candidate b64 -> option (list b64)) (c c' : candidate b64) :
  mutation_op (floatVecIsEqual t) num_objectives chrom_len variable_length mutate c = Some c' ->
  flag_from (fun g h => floatVecIsEqual t g h = true) [c] c'.
Proof. intros H. by apply (mutation_op_flag _ (fun g h => floatVecIsEqual t g h = true)) in H as [H _]. Qed.
Theorem C39_mutation_flag_exact_real_partial (t : tolerances) (num_objectives chrom_len : nat) (variable_length : bool)
    (mutate : candidate b64 -> option (list b64)) (c c' : candidate b64) :
  tol_ok t -> B2R (absolute_tolerance t) = 0%R -> B2R (relative_tolerance t) = 0%R -> finite_vec (chromosome c) -> finite_vec (chromosome c') ->
  mutation_op (floatVecIsEqual t) num_objectives chrom_len variable_length mutate c = Some c' -> flag_from same_values [c] c'.
Proof.
  intros Ht H1 H2 F1 F2 H. apply C39_mutation_flag_real_partial in H. intros He. destruct (H He) as (p & Hp & Ep & Hs & Hf).
  exists p. split; [done|]. split; [done|]. split; [|done]. apply elem_of_list_singleton in Hp as ->. revert Hs. unfold same_values.
  generalize dependent (chromosome c'). intros a. clear -Ht H1 H2 F1. generalize dependent (chromosome c). intros b Fb. revert a b Fb.
  induction a as [|x a IH]; intros [|y b] Fb Fa E; try done. cbn in E. apply andb_prop in E as [E1 E2].
  apply Forall_cons in Fa as [Fx Fa]. apply Forall_cons in Fb as [Fy Fb].
  rewrite (floatIsEqual_exact t Ht H1 H2) in E1 by done. cbn. f_equal; [|by apply IH]. revert E1. by case Req_bool_spec.
Qed.
Print Assumptions C39_mutation_flag_real_partial.
Print Assumptions C39_mutation_flag_exact_real_partial.
(** Refuted for real genes with the default tolerances: uniform mutation of the gene 0.5
    within [0, 1] draws 0.5 + 2^-53, and the candidate keeps its flag and its fitness. *)
Definition unit_bounds : bounds := Bounds fzero fone.
Definition unit_mutate (c : candidate b64) : option (list b64) :=
  option_map fst (RealUniform [unit_bounds] 0 fone (chromosome c) (stream_of [0; 2 ^ 63 + 2 ^ 11])).
Theorem C39_mutation_flag_refuted :
  let c := Cand [fmk 5 0] [fhalf] true in
  Forall bounds_ok [unit_bounds] /\ in_bounds [unit_bounds] (chromosome c) /\
  exists c', mutation_op (floatVecIsEqual default_tolerances) 1 1 false unit_mutate c = Some c' /\ is_evaluated c' = true /\ ~ flag_from same_values [c] c'.
Proof.
  cbn zeta. destruct fone_val as [F1 V1]. destruct fhalf_val as [Fh Vh].
  split. { constructor; [|constructor]. split; [done|]. split; [done|]. cbn [lower upper unit_bounds fzero B2R]. rewrite V1. lra. }
  split. { cbn [chromosome]. constructor; [|constructor]. split; [done|]. cbn [lower upper unit_bounds fzero B2R]. rewrite V1, Vh. lra. }
  set (op := mutation_op _ _ _ _ _ _).
  assert (H : option_map (fun c => (B2SF <$> chromosome c, is_evaluated c)) op = Some ([B2SF (fmk (2 ^ 52 + 1) (-53))], true)) by (vm_compute; reflexivity).
  destruct op as [c1|]; [|done]. cbn [option_map] in H. remember (fmk (2 ^ 52 + 1) (-53)) as z eqn:Hz. injection H as Hc He. exists c1. split; [done|]. split; [done|].
  intros Hflag. destruct (Hflag He) as (p & Hp & _ & Hs & _). apply elem_of_list_singleton in Hp as ->.
  destruct (chromosome c1) as [|x [|y l]]; try done. injection Hc as Hx. apply B2SF_inj in Hx. subst x z.
  destruct (fmk_val (2 ^ 52 + 1) (-53)) as (_ & Vx & _); [lia|lia|].
  unfold same_values in Hs. cbn [chromosome fmap list_fmap] in Hs. apply (f_equal (fun l => nth 0 l 0%R)) in Hs. cbn [nth] in Hs. rewrite Vx, Vh, plus_IZR in Hs.
  assert (H1 : (IZR (2 ^ 52) * bpow radix2 (-53) = /2)%R) by (rewrite <- bpow_IZR, <- bpow_plus by lia; reflexivity).
  pose proof (bpow_gt_0 radix2 (-53)) as Hb. lra.
Qed.
Print Assumptions C39_mutation_flag_refuted.

(** ** C40, rate 0 *)
(** Crossover and inversion mutation. *)
Theorem C40_crossover_rate_zero {T : Type} (eqb : list T -> list T -> bool) (num_objectives chrom_len : nat) (variable_length : bool)
    (crossover : candidate T -> candidate T -> option (candidate T * candidate T)) (r : b64) (p1 p2 : candidate T) :
  draw r -> is_evaluated p1 = true -> is_evaluated p2 = true ->
  length (fitness p1) = num_objectives -> length (fitness p2) = num_objectives ->
  length_ok chrom_len variable_length p1 -> length_ok chrom_len variable_length p2 ->
  crossover_op eqb num_objectives chrom_len variable_length crossover fzero r p1 p2 = Some (p1, p2).
Proof.
  intros (Fr & _ & Hr) H1 H2 H3 H4 H5 H6. unfold crossover_op, check. rewrite !decide_True by (done || congruence).
  assert (E : fle fzero r = true); [|by rewrite E]. rewrite fle_fval by (done || by apply is_finite_not_nan). rewrite !fval_finite by done. cbn [fzero B2R]. apply Rle_bool_true. lra.
Qed.
Theorem C40_inversion_rate_zero {A : Type} (rm : b64) (c : list A) (s : stream) : exists s', Inversion fzero rm c s = Some (c, s').
Proof.
  unfold Inversion. cbn zeta. destruct (size c <? 2); [by exists s|]. destruct (randomReal_draw s) as (r & Hr & Fr & _ & Br). rewrite (rbind_eq _ _ _ _ _ Hr).
  assert (E : flt r fzero = false); [|rewrite E; by eexists]. rewrite flt_fval by (done || by apply is_finite_not_nan). rewrite !fval_finite by done. apply Rlt_bool_false. cbn [fzero B2R]. lra.
Qed.
(** The other permutation mutations: unless the draw is exactly 0. *)
Theorem C40_permutation_rate_zero_partial {A : Type} (shuffle : list A -> rand (list A)) (rm : b64) (c : list A) (s : stream) :
  (bits (s 0%nat) mod 2 ^ 64) / 2 ^ 11 <> 0 ->
  (exists s', Swap2 fzero c s = Some (c, s')) /\ (exists s', Swap3 fzero c s = Some (c, s')) /\
  (exists s', Shuffle shuffle fzero rm c s = Some (c, s')) /\ (exists s', Shift fzero rm c s = Some (c, s')).
Proof.
  intros Hs. destruct (randomReal_val s) as (r & Hr & Fr & _ & Vr & _).
  assert (E : fle r fzero = false).
  { rewrite fle_fval by (done || by apply is_finite_not_nan). rewrite !fval_finite by done. apply Rle_bool_false. cbn [fzero B2R]. rewrite Vr.
    apply Rmult_lt_0_compat; [|apply bpow_gt_0]. apply IZR_lt. assert (0 <= (bits (s 0%nat) mod 2 ^ 64) / 2 ^ 11) by (apply Z.div_pos; [apply Z.mod_pos_bound; lia|lia]). lia. }
  split_and!; [unfold Swap2|unfold Swap3|unfold Shuffle|unfold Shift]; cbn zeta; (destruct (size c <? _); [by exists s|]); rewrite (rbind_eq _ _ _ _ _ Hr), E; by eexists.
Qed.
(** The operators that choose the number of genes: for more than 5 genes always, for up to
    5 genes unless a draw is exactly 0. *)
Theorem C40_gene_count_rate_zero_partial {A : Type} (gene : nat -> A -> rand A) (fuel : nat) (c : list A) (s : stream) :
  Z.of_nat (length c) < 2 ^ 64 ->
  5 < Z.of_nat (length c) \/ (forall i, (i < length c)%nat -> (bits (s i) mod 2 ^ 64) / 2 ^ 11 <> 0) ->
  exists s', mutate_some gene fuel fzero c s = Some (c, s').
Proof.
  intros Hc Hs.
  assert (Hk : exists s1, randomBinomial fuel (size c) fzero s = Some (0, s1)).
  { unfold size. destruct (Z.lt_ge_cases 5 (Z.of_nat (length c))) as [H5|H5]; [eexists; apply randomBinomial_zero; lia|]. destruct Hs as [Hs|Hs]; [lia|].
    destruct (exact_loop_zero (length c) 0 s Hs) as [s1 H1]. exists s1. unfold randomBinomial. rewrite rassert_true by lia. rewrite rassert_true by reflexivity. cbn zeta.
    destruct (Z.ltb_spec 50 (Z.of_nat (length c))); [lia|]. destruct (Z.ltb_spec 5 (Z.of_nat (length c))); [lia|]. cbn [andb orb negb].
    unfold randomBinomialExact. rewrite rassert_true by lia. rewrite rassert_true by reflexivity. by rewrite Nat2Z.id. }
  destruct Hk as [s1 Hk]. unfold mutate_some. rewrite (rbind_eq _ _ _ _ _ Hk). destruct (sampleUnique_ok 0 (size c) 0 s1) as (l & s2 & Hl & Ll & _); [unfold size; lia|unfold size; lia|].
  rewrite (rbind_eq _ _ _ _ _ Hl). destruct l; [|done]. by exists s2.
Qed.
Print Assumptions C40_crossover_rate_zero.
Print Assumptions C40_inversion_rate_zero.
Print Assumptions C40_permutation_rate_zero_partial.
Print Assumptions C40_gene_count_rate_zero_partial.
(** Refuted for a draw of exactly 0. *)
Theorem C40_rate_zero_refuted :
  let c := [10; 11; 12; 13] in let s := stream_of [] in
  option_map fst (Swap2 fzero c s) = Some [10; 12; 11; 13] /\
  option_map fst (Swap3 fzero c s) = Some [10; 13; 11; 12] /\
  option_map fst (Shuffle shuffle_reverse fzero fhalf c s) = Some [11; 10; 12; 13] /\
  option_map fst (Shift fzero fhalf c s) = Some [10; 12; 11; 13] /\
  option_map fst (Flip 0 fzero [0; 1; 0] s) = Some [1; 0; 1].
Proof. cbn zeta. split_and!; vm_compute; reflexivity. Qed.
Print Assumptions C40_rate_zero_refuted.
Example C40_rate_zero_nonvacuous :
  (bits (stream_of [2 ^ 11] 0%nat) mod 2 ^ 64) / 2 ^ 11 <> 0 /\ draw fzero /\
  option_map fst (Swap2 fzero [1; 2; 3] (stream_of [2 ^ 11])) = Some [1; 2; 3] /\
  option_map fst (Flip 0 fzero [0; 1; 0; 0; 0; 0] (stream_of [])) = Some [0; 1; 0; 0; 0; 0].
Proof. split; [vm_compute; discriminate|]. split; [split; [done|]; split; [done|]; cbn; lra|]. split; vm_compute; reflexivity. Qed.

(** ** C40, rate 1: all genes are chosen, and the crossover is applied to different parents. *)
Theorem C40_gene_count_rate_one (fuel : nat) (n : Z) (s : stream) :
  0 <= n < 2 ^ 52 -> (0 < fuel)%nat -> is_finite (std_normal (s 0%nat)) = true -> exists s', randomBinomial fuel n fone s = Some (n, s').
Proof. apply randomBinomial_one. Qed.
Theorem C40_crossover_rate_one {T : Type} (eqb : list T -> list T -> bool) (num_objectives chrom_len : nat) (variable_length : bool)
    (crossover : candidate T -> candidate T -> option (candidate T * candidate T)) (r : b64) (p1 p2 c1 c2 : candidate T) :
  draw r -> is_evaluated p1 = true -> is_evaluated p2 = true ->
  length (fitness p1) = num_objectives -> length (fitness p2) = num_objectives ->
  length_ok chrom_len variable_length p1 -> length_ok chrom_len variable_length p2 ->
  eqb (chromosome p1) (chromosome p2) = false -> crossover p1 p2 = Some (c1, c2) -> length_ok chrom_len variable_length c1 -> length_ok chrom_len variable_length c2 ->
  exists d1 d2, crossover_op eqb num_objectives chrom_len variable_length crossover fone r p1 p2 = Some (d1, d2) /\
    chromosome d1 = chromosome c1 /\ chromosome d2 = chromosome c2.
Proof.
  intros (Fr & _ & Hr) H1 H2 H3 H4 H5 H6 Hne Hc L1 L2. unfold crossover_op, check. do 4 rewrite decide_True by (done || congruence).
  destruct fone_val as [F1 V1]. assert (E : fle fone r = false).
  { rewrite fle_fval by (by apply is_finite_not_nan). rewrite !fval_finite, V1 by done. apply Rle_bool_false. lra. }
  rewrite E, Hne, Hc. cbn [mbind option_bind]. rewrite !decide_True by done. eexists _, _. split; [done|]. unfold inherit.
  split; repeat case_match; done.
Qed.
Print Assumptions C40_gene_count_rate_one.
Print Assumptions C40_crossover_rate_one.
Example C40_rate_one_nonvacuous :
  option_map fst (randomBinomial 1 100 fone (stream_of [])) = Some 100 /\ option_map fst (Flip 1 fone [0; 1; 0; 0; 1; 1; 1] (stream_of [])) = Some [1; 0; 1; 1; 0; 0; 0].
Proof. split; vm_compute; reflexivity. Qed.

(** ** C82: bit flip mutation flips distinct positions, as many as the count says, and
    keeps the genes binary. *)
Theorem C82_flip (fuel : nat) (pm : b64) (c : list Z) (s s1 : stream) (k : Z) :
  Z.of_nat (length c) < 65536 -> Forall (fun x => x = 0 \/ x = 1) c -> randomBinomial fuel (Z.of_nat (length c)) pm s = Some (k, s1) ->
  exists d s' (pos : list nat), Flip fuel pm c s = Some (d, s') /\ Forall (fun x => x = 0 \/ x = 1) d /\ length d = length c /\
    Z.of_nat (length pos) = k /\ NoDup pos /\ Forall (fun i => i < length c)%nat pos /\
    forall i x, c !! i = Some x -> d !! i = Some (if decide (i ∈ pos) then 1 - x else x).
Proof.
  intros Hc Hbin Hk. rewrite Forall_lookup in Hbin.
  destruct (mutate_some_ok (fun _ x => rret (Z.lxor x 1)) (fun _ => True) ltac:(done) (fun _ x => x = 0 \/ x = 1)) with (fuel := fuel) (pm := pm) (c := c) (s := s) (k := k) (s1 := s1)
    as (d & s' & Hd & Ld & Bd & _); [|done|unfold size; lia|done|done|].
  { intros i x s0 _ Hx. eexists _, _. split; [reflexivity|]. split; [|done]. destruct Hx as [->| ->]; [by right|by left]. }
  pose proof Hd as H. unfold mutate_some in H. unfold size in *. rewrite (rbind_eq _ _ _ _ _ Hk) in H. apply rbind_Some in H as (l & s2 & Hl2 & H).
  pose proof Hk as Hkr. apply randomBinomial_range in Hkr; [|lia].
  destruct (sampleUnique_ok 0 (Z.of_nat (length c)) k s1) as (l' & s2' & Hl' & Ll & Fl & Nl); [lia|lia|]. rewrite Hl' in Hl2. injection Hl2 as -> ->.
  assert (Hnd : NoDup l) by (apply Nl; left; lia).
  apply for_indices_result in H as [Hlen Hi]; [| |done|eapply Forall_impl; [exact Fl|]; cbn; lia]; [|intros i x; apply adv_ret].
  assert (Hmem : forall i : nat, i ∈ Z.to_nat <$> l <-> Z.of_nat i ∈ l).
  { intros i. rewrite elem_of_list_fmap. split.
    - intros (z & -> & Hz). rewrite Forall_forall in Fl. specialize (Fl z Hz). by rewrite Z2Nat.id by lia.
    - intros Hz. exists (Z.of_nat i). by rewrite Nat2Z.id. }
  exists d, s', (Z.to_nat <$> l). split_and!; [done|by apply Forall_lookup|done|by rewrite fmap_length| | |].
  - apply NoDup_fmap_2_strong; [|done]. intros x y Hx Hy E. rewrite Forall_forall in Fl. pose proof (Fl x Hx). pose proof (Fl y Hy). lia.
  - apply Forall_fmap. eapply Forall_impl; [exact Fl|]. cbn. lia.
  - intros i x Hx. destruct (Hi i) as [H1 H2]. case_decide as Hin; rewrite Hmem in Hin.
    + destruct (H2 Hin) as (x' & y & s3 & s4 & Hx' & Hy & _ & Hg). rewrite Hx in Hx'. injection Hx' as <-. injection Hg as <- _. rewrite Hy. f_equal.
      destruct (Hbin i x Hx) as [->| ->]; done.
    + rewrite H1; done.
Qed.
Print Assumptions C82_flip.
Example C82_nonvacuous :
  option_map fst (Flip 0 fhalf [0; 1; 0; 1] (stream_of [0; 2 ^ 64 - 1; 0; 2 ^ 64 - 1; 1])) = Some [0; 1; 1; 0] /\ option_map fst (randomBinomial 0 4 fhalf (stream_of [0; 2 ^ 64 - 1; 0; 2 ^ 64 - 1; 1])) = Some 2.
Proof. split; vm_compute; reflexivity. Qed.
