(** C33: the crossover operator marks a child as evaluated only with a correct fitness. *)
From Coq Require Import Reals Lra Lia.
From stdpp Require Import list.
From Flocq Require Import Core BinarySingleNaN.
From Verif Require Import FloatBase FloatModel FloatSpec FloatProofs FloatProps CrossoverModel CrossoverProofs OperatorModel OperatorSpec
  RealCrossoverModel RealSpec RealProofs RealCrossoverProps.

Section op.
Context {T : Type}.
Variable eqb : list T -> list T -> bool.
Variables (num_objectives chrom_len : nat) (variable_length : bool).
Variable same : list T -> list T -> Prop.
Hypothesis same_refl : forall c, same c c.
Hypothesis eqb_same : forall c d, eqb c d = true -> same c d.

Lemma inherit_flag p1 p2 c : is_evaluated p1 = true -> is_evaluated p2 = true ->
  flag_from same [p1; p2] (inherit eqb p1 p2 c) /\ chromosome (inherit eqb p1 p2 c) = chromosome c.
Proof.
  intros E1 E2. unfold inherit. destruct (eqb (chromosome c) (chromosome p1)) eqn:B1; [|destruct (eqb (chromosome c) (chromosome p2)) eqn:B2].
  - split; [|done]. intros _. exists p1. split; [left|]. split; [done|]. split; [by apply eqb_same|done].
  - split; [|done]. intros _. exists p2. split; [right; left|]. split; [done|]. split; [by apply eqb_same|done].
  - done.
Qed.
Lemma crossover_op_flags crossover pc r p1 p2 c1 c2 :
  crossover_op eqb num_objectives chrom_len variable_length crossover pc r p1 p2 = Some (c1, c2) ->
  flag_from same [p1; p2] c1 /\ flag_from same [p1; p2] c2.
Proof.
  unfold crossover_op, check. intros H. repeat (case_decide; [|done]).
  assert (Hpar : flag_from same [p1; p2] p1 /\ flag_from same [p1; p2] p2).
  { split; intros _; [exists p1|exists p2]; split; [left|split; [tauto|done]|right; left|split; [tauto|done]]. }
  destruct (fle pc r); [injection H as <- <-; done|]. destruct (eqb (chromosome p1) (chromosome p2)); [injection H as <- <-; done|].
  destruct (crossover p1 p2) as [[d1 d2]|]; [|done]. cbn [mbind option_bind] in H. repeat (case_decide; [|done]).
  injection H as <- <-. split; apply inherit_flag; tauto.
Qed.
End op.

(** The operator returns a pair whenever the asserted preconditions hold and the
    crossover function returns children of the right length. *)
Theorem C33_crossover_flag {T : Type} (eqb : list T -> list T -> bool) (num_objectives chrom_len : nat) (variable_length : bool)
    (crossover : candidate T -> candidate T -> option (candidate T * candidate T)) (pc r : b64) (p1 p2 : candidate T) :
  (forall c d, eqb c d = true -> c = d) ->
  is_evaluated p1 = true -> is_evaluated p2 = true ->
  length (fitness p1) = num_objectives -> length (fitness p2) = num_objectives ->
  length_ok chrom_len variable_length p1 -> length_ok chrom_len variable_length p2 ->
  (exists d1 d2, crossover p1 p2 = Some (d1, d2) /\ length_ok chrom_len variable_length d1 /\ length_ok chrom_len variable_length d2) ->
  exists c1 c2, crossover_op eqb num_objectives chrom_len variable_length crossover pc r p1 p2 = Some (c1, c2) /\
    flag_from eq [p1; p2] c1 /\ flag_from eq [p1; p2] c2 /\
    (* so a sound fitness stays sound *)
    (forall f, fitness_sound f p1 -> fitness_sound f p2 -> fitness_sound f c1 /\ fitness_sound f c2).
Proof.
  intros Heq E1 E2 F1 F2 L1 L2 (d1 & d2 & Hd & D1 & D2).
  assert (Hsome : exists c1 c2, crossover_op eqb num_objectives chrom_len variable_length crossover pc r p1 p2 = Some (c1, c2)).
  { unfold crossover_op. rewrite !check_true by (done || congruence). destruct (fle pc r); [eauto|].
    destruct (eqb (chromosome p1) (chromosome p2)); [eauto|]. rewrite Hd. cbn [mbind option_bind]. rewrite !check_true by done. eauto. }
  destruct Hsome as (c1 & c2 & Hc). exists c1, c2. split; [done|].
  destruct (crossover_op_flags eqb num_objectives chrom_len variable_length eq (fun _ => eq_refl) Heq _ _ _ _ _ _ _ Hc) as [K1 K2].
  split; [done|]. split; [done|]. intros f S1 S2.
  assert (H : forall c, flag_from eq [p1; p2] c -> fitness_sound f c).
  { intros c Hc0 He. destruct (Hc0 He) as (p & Hp & Ep & Hch & ->). rewrite Hch. apply elem_of_cons in Hp as [->|Hp]; [by apply S1|].
    apply elem_of_list_singleton in Hp as ->. by apply S2. }
  split; by apply H.
Qed.
Print Assumptions C33_crossover_flag.
(** The instances of operator==: exact equality for the integral gene types. *)
Lemma exact_eqb {T : Type} `{EqDecision T} (c d : list T) : bool_decide (c = d) = true -> c = d.
Proof. apply bool_decide_eq_true. Qed.
Example C33_crossover_flag_nonvacuous :
  let p1 := Cand [fone] [1; 2; 3] true in let p2 := Cand [ftwo] [4; 2; 5] true in
  let cross := fun p q : candidate nat => '(c, d) ← uniform (chromosome p) (chromosome q) [0; 2]; Some (Cand (fitness p) c true, Cand (fitness q) d true) in
  let cross1 := fun p q : candidate nat => '(c, d) ← uniform (chromosome p) (chromosome q) [0]; Some (Cand (fitness p) c true, Cand (fitness q) d true) in
  (* the children are the swapped parents: evaluated with the other's fitness *)
  crossover_op (fun c d => bool_decide (c = d)) 1 3 false cross fone fzero p1 p2 =
    Some (Cand [ftwo] [4; 2; 5] true, Cand [fone] [1; 2; 3] true) /\
  (* new children: not evaluated *)
  crossover_op (fun c d => bool_decide (c = d)) 1 3 false cross1 fone fzero p1 p2 =
    Some (Cand [fone] [4; 2; 3] false, Cand [ftwo] [1; 2; 5] false).
Proof. cbn zeta. split; reflexivity. Qed.

(** For real genes operator== has a tolerance: what is true. *)
Theorem C33_crossover_flag_real_partial (t : tolerances) (num_objectives chrom_len : nat) (variable_length : bool)
    (crossover : candidate b64 -> candidate b64 -> option (candidate b64 * candidate b64)) (pc r : b64) (p1 p2 c1 c2 : candidate b64) :
  crossover_op (floatVecIsEqual t) num_objectives chrom_len variable_length crossover pc r p1 p2 = Some (c1, c2) ->
  let same := fun c d => c = d \/ floatVecIsEqual t c d = true in
  flag_from same [p1; p2] c1 /\ flag_from same [p1; p2] c2.
Proof. intros H same. eapply crossover_op_flags; [by left|by right|done]. Qed.
(** With zero tolerances an evaluated child has the values of the parent's genes. *)
Theorem C33_crossover_flag_exact_real_partial (t : tolerances) (num_objectives chrom_len : nat) (variable_length : bool)
    (crossover : candidate b64 -> candidate b64 -> option (candidate b64 * candidate b64)) (pc r : b64) (p1 p2 c1 c2 : candidate b64) :
  tol_ok t -> B2R (absolute_tolerance t) = 0%R -> B2R (relative_tolerance t) = 0%R ->
  finite_vec (chromosome p1) -> finite_vec (chromosome p2) -> finite_vec (chromosome c1) -> finite_vec (chromosome c2) ->
  crossover_op (floatVecIsEqual t) num_objectives chrom_len variable_length crossover pc r p1 p2 = Some (c1, c2) ->
  flag_from same_values [p1; p2] c1 /\ flag_from same_values [p1; p2] c2.
Proof.
  intros Ht H1 H2 F1 F2 G1 G2 H.
  assert (Hvec : forall a b, finite_vec a -> finite_vec b -> floatVecIsEqual t a b = true -> same_values a b).
  { induction a as [|x a IH]; intros [|y b] Fa Fb E; try done. cbn in E. apply andb_prop in E as [E1 E2].
    apply Forall_cons in Fa as [Fx Fa]. apply Forall_cons in Fb as [Fy Fb].
    rewrite (floatIsEqual_exact t Ht H1 H2) in E1 by done. unfold same_values in *. cbn. f_equal; [|by apply IH].
    revert E1. by case Req_bool_spec. }
  apply C33_crossover_flag_real_partial in H as [K1 K2].
  assert (Hgen : forall c, finite_vec (chromosome c) -> flag_from (fun c d => c = d \/ floatVecIsEqual t c d = true) [p1; p2] c -> flag_from same_values [p1; p2] c).
  { intros c Fc Hc He. destruct (Hc He) as (p & Hp & Ep & [Hs|Hs] & Hf).
    - exists p. unfold same_values. rewrite Hs. done.
    - exists p. split; [done|]. split; [done|]. split; [|done]. apply Hvec; [done| |done].
      apply elem_of_cons in Hp as [->|Hp]; [done|]. by apply elem_of_list_singleton in Hp as ->. }
  split; by apply Hgen.
Qed.
Print Assumptions C33_crossover_flag_real_partial.
Print Assumptions C33_crossover_flag_exact_real_partial.

(** Refuted for real genes with the default tolerances: arithmetic crossover of [1] and
    [2] with alpha = 1 - 2^-52 has the child [1 + 2^-52], which gets the fitness of [1]
    and is marked as evaluated. *)
Definition arithmetic_crossover (alpha : b64) (bs : list bounds) (p1 p2 : candidate b64) : option (candidate b64 * candidate b64) :=
  '(c1, c2) ← Arithmetic alpha bs (chromosome p1) (chromosome p2);
  Some (Cand (fitness p1) c1 (is_evaluated p1), Cand (fitness p2) c2 (is_evaluated p2)).
Definition alpha_near_one : b64 := fmk (2 ^ 52 - 1) (-52).
Theorem C33_crossover_flag_refuted :
  let p1 := Cand [fmk 5 0] [fone] true in let p2 := Cand [fmk 7 0] [ftwo] true in
  draw alpha_near_one /\ Forall bounds_ok [small] /\ in_bounds [small] (chromosome p1) /\ in_bounds [small] (chromosome p2) /\
  exists c1 c2,
    crossover_op (floatVecIsEqual default_tolerances) 1 1 false (arithmetic_crossover alpha_near_one [small]) fone fzero p1 p2 = Some (c1, c2) /\
    is_evaluated c1 = true /\ ~ flag_from same_values [p1; p2] c1.
Proof.
  cbn zeta. destruct fone_val as [F1 V1]. destruct ftwo_val as [F2 V2].
  destruct (fmk_val (2 ^ 52 - 1) (-52)) as (Fa & Va & Sa); [lia|lia|].
  assert (Ha : (0 <= B2R alpha_near_one < 1)%R).
  { unfold alpha_near_one. rewrite Va. split; [apply Rmult_le_pos; [apply IZR_le; lia|apply bpow_ge_0]|].
    apply Rlt_le_trans with (IZR (2 ^ 52) * bpow radix2 (-52))%R.
    + apply Rmult_lt_compat_r; [apply bpow_gt_0|]. apply IZR_lt. lia.
    + change (2 ^ 52)%Z with (radix_val radix2 ^ 52)%Z. rewrite IZR_Zpower by lia. rewrite <- bpow_plus. right. reflexivity. }
  split; [split; [exact Fa|split; [exact Sa|exact Ha]]|].
  split. { constructor; [|constructor]. assert (H : in_bound small (fmk (-1) 0)) by (apply in_small; vm_compute; reflexivity).
    unfold bounds_ok. split_and!; [done|done|apply H]. }
  split; [constructor; [apply in_small; vm_compute; reflexivity|constructor]|].
  split; [constructor; [apply in_small; vm_compute; reflexivity|constructor]|].
  set (op := crossover_op _ _ _ _ _ _ _ _ _).
  assert (H : option_map (fun c => (B2SF <$> chromosome c.1, is_evaluated c.1)) op = Some ([B2SF (fmk (2 ^ 52 + 1) (-52))], true)) by (vm_compute; reflexivity).
  destruct op as [[c1 c2]|]; [|done]. cbn [option_map fst] in H. remember (fmk (2 ^ 52 + 1) (-52)) as z eqn:Hz. injection H as Hc He. exists c1, c2. split; [done|]. split; [done|].
  intros Hflag. destruct (Hflag He) as (p & Hp & _ & Hs & _).
  destruct (chromosome c1) as [|x [|y l]]; try done. injection Hc as Hx. apply B2SF_inj in Hx. subst x z.
  destruct (fmk_val (2 ^ 52 + 1) (-52)) as (_ & Vx & _); [lia|lia|].
  assert (Hx : (1 < B2R (fmk (2 ^ 52 + 1) (-52)) < 2)%R).
  { rewrite Vx. assert (H1 : (IZR (2 ^ 52) * bpow radix2 (-52) = 1)%R).
    { change (2 ^ 52)%Z with (radix_val radix2 ^ 52)%Z. rewrite IZR_Zpower by lia. rewrite <- bpow_plus. reflexivity. }
    pose proof (bpow_gt_0 radix2 (-52)) as Hb. rewrite plus_IZR. split; [nra|].
    assert (bpow radix2 (-52) < 1)%R by (apply (bpow_lt radix2 (-52) 0); lia). nra. }
  unfold same_values in Hs. apply elem_of_cons in Hp as [->|Hp]; [|apply elem_of_list_singleton in Hp as ->]; cbn [chromosome fmap list_fmap] in Hs; apply (f_equal (fun l => nth 0 l 0%R)) in Hs; cbn [nth] in Hs.
  - rewrite V1 in Hs. lra.
  - rewrite V2 in Hs. lra.
Qed.
Print Assumptions C33_crossover_flag_refuted.
