(** Lemmas about the real, integer and binary mutations. *)
From Coq Require Import Reals ZArith Lra Lia.
From stdpp Require Import list list_numbers.
From Flocq Require Import Core BinarySingleNaN.
From Verif Require Import FloatBase FloatProofs RealCrossoverModel RealSpec RealProofs RealCrossoverProofs RandModel RandSpec RandProofs BinomialProofs
  MutationModel MutationSpec.

Local Open Scope Z_scope.

(** ** Drawing numbers only moves on in the stream *)
Lemma later_refl s : later s s. Proof. by exists O. Qed.
Lemma later_trans s1 s2 s3 : later s1 s2 -> later s2 s3 -> later s1 s3.
Proof. intros [k Hk] [l Hl]. exists (k + l)%nat. intros n. rewrite Hl, Hk. f_equal. lia. Qed.
Lemma later_stail s : later s (stail s). Proof. by exists 1%nat. Qed.
Definition advances {A} (m : rand A) : Prop := forall s a s', m s = Some (a, s') -> later s s'.
Lemma adv_ret {A} (a : A) : advances (rret a). Proof. intros s b s' H. injection H as _ ->. apply later_refl. Qed.
Lemma adv_fail {A} : advances (@rfail A). Proof. intros s b s' H. done. Qed.
Lemma adv_lift {A} (o : option A) : advances (rlift o). Proof. intros s b s' H. unfold rlift in H. destruct o; [|done]. injection H as _ ->. apply later_refl. Qed.
Lemma adv_next : advances rnext. Proof. intros s b s' H. unfold rnext in H. assert (E : s' = stail s) by congruence. rewrite E. apply later_stail. Qed.
Lemma adv_assert {A} b (m : rand A) : advances m -> advances (rassert b m). Proof. intros Hm. destruct b; [exact Hm|apply adv_fail]. Qed.
Lemma adv_bind {A B} (m : rand A) (f : A -> rand B) : advances m -> (forall a, advances (f a)) -> advances (rbind m f).
Proof. intros Hm Hf s b s' H. apply rbind_Some in H as (a & s1 & H1 & H2). eapply later_trans; [by eapply Hm|by eapply Hf]. Qed.
Ltac adv := repeat first [apply adv_ret|apply adv_fail|apply adv_lift|apply adv_next|apply adv_assert|apply adv_bind; [|intros ?]|progress cbn zeta].
Lemma adv_randomReal : advances randomReal. Proof. unfold randomReal, prng. adv. Qed.
Lemma adv_randomInt lb ub : advances (randomInt lb ub). Proof. unfold randomInt. adv. Qed.
Lemma adv_randomBinomial fuel n p : advances (randomBinomial fuel n p).
Proof.
  unfold randomBinomial. adv. destruct (_ || _)%bool; [|destruct (_ && _)%bool].
  - unfold randomBinomialApproxPoisson. adv. destruct (feq p fzero); [adv|]. destruct (feq p fone); [adv|].
    induction fuel; cbn [poisson_loop]; [adv|]. unfold randomPoisson. adv. destruct (n <? _); [done|adv].
  - unfold randomBinomialApproxNormal. adv. generalize (fneg fhalf), (fadd (fofZ n) fhalf), (fsqrt (fmul (fmul (fofZ n) p) (fsub fone p))), (fmul (fofZ n) p).
    intros lo hi sd mean. induction fuel; cbn [normal_loop]; [adv|]. unfold randomNormal. adv. destruct (_ && _)%bool; [adv|done].
  - unfold randomBinomialExact. adv. generalize 0. induction (Z.to_nat n); intros r; cbn [exact_loop]; [adv|]. apply adv_bind; [apply adv_randomReal|]. intros a. apply IHn0.
Qed.
Lemma adv_sampleUnique lb ub count : advances (sampleUnique lb ub count).
Proof.
  assert (H1 : forall k lb limit sel, advances (set_loop lb limit k sel)).
  { induction k; intros lb' limit sel; cbn [set_loop]; [adv|]. apply adv_bind; [apply adv_randomInt|]. intros a. adv. apply IHk. }
  assert (H2 : forall k lb limit sel, advances (few_loop lb limit k sel)).
  { induction k; intros lb' limit sel; cbn [few_loop]; [adv|]. apply adv_bind; [apply adv_randomInt|]. intros a. adv. apply IHk. }
  assert (H3 : forall k lb limit sel, advances (many_loop lb limit k sel)).
  { induction k; intros lb' limit sel; cbn [many_loop]; [adv|]. apply adv_bind; [apply adv_randomInt|]. intros a. adv. apply IHk. }
  unfold sampleUnique. adv. destruct (65536 <=? _); [apply H1|]. destruct (negb _); [apply H2|]. apply adv_bind; [apply H3|]. intros sel. adv.
Qed.

(** ** The loop over the chosen positions *)
Section loop.
Context {A : Type}.
Variable gene : nat -> A -> rand A.
(** What a returned chromosome is. *)
Lemma for_indices_result idxs : forall c s d s', (forall i x, advances (gene i x)) -> NoDup idxs -> Forall (fun i => 0 <= i) idxs -> for_indices gene idxs c s = Some (d, s') ->
  length d = length c /\ forall i : nat, (Z.of_nat i ∉ idxs -> d !! i = c !! i) /\
    (Z.of_nat i ∈ idxs -> exists x y s1 s2, c !! i = Some x /\ d !! i = Some y /\ later s s1 /\ gene i x s1 = Some (y, s2)).
Proof.
  induction idxs as [|k idxs IH]; intros c s d s' Ha Hd Hr H.
  { injection H as <- _. split; [done|]. intros i. split; [done|]. intros Hi. by apply elem_of_nil in Hi. }
  apply Forall_cons in Hr as [Hk Hr]. apply NoDup_cons in Hd as [Hnk Hd]. cbn [for_indices] in H. apply rbind_Some in H as (x & s0 & Hx & H).
  unfold rlift in Hx. destruct (c !! Z.to_nat k) as [x'|] eqn:Ex; [|done]. injection Hx as -> ->.
  apply rbind_Some in H as (y & s1 & Hy & H). destruct (IH _ _ _ _ Ha Hd Hr H) as [Hl Hi]. rewrite insert_length in Hl. split; [done|]. intros i. destruct (Hi i) as [Hi1 Hi2]. split.
  - intros Hni. apply not_elem_of_cons in Hni as [Hik Hni]. rewrite (Hi1 Hni). apply list_lookup_insert_ne. lia.
  - intros Hin. apply elem_of_cons in Hin as [Heq|Hin].
    + rewrite Heq in Hi1. assert (Ei : i = Z.to_nat k) by lia. exists x, y, s0, s1. rewrite Hi1, Ei by done.
      rewrite list_lookup_insert by (by eapply lookup_lt_Some). split_and!; try done. apply later_refl.
    + destruct (Hi2 Hin) as (x1 & y1 & s2 & s3 & H1 & H2 & H3 & H4). exists x1, y1, s2, s3.
      rewrite list_lookup_insert_ne in H1; [|intros Hki; apply Hnk; rewrite <- (Z2Nat.id k), Hki by done; done].
      split_and!; try done. eapply later_trans; [by eapply Ha|done].
Qed.

Variable I : stream -> Prop.
Hypothesis I_later : forall s s', I s -> later s s' -> I s'.
Variable P : nat -> A -> Prop.
Hypothesis gene_ok : forall i x s, I s -> P i x -> exists y s', gene i x s = Some (y, s') /\ P i y /\ I s'.
Lemma for_indices_ok idxs : forall c s, I s -> Forall (fun i => 0 <= i < size c) idxs -> (forall i x, c !! i = Some x -> P i x) ->
  exists d s', for_indices gene idxs c s = Some (d, s') /\ length d = length c /\ (forall i x, d !! i = Some x -> P i x) /\ I s'.
Proof.
  induction idxs as [|i idxs IH]; intros c s HI Hr Hc; [by exists c, s|].
  apply Forall_cons in Hr as [Hi Hr]. cbn [for_indices]. unfold size in *.
  destruct (lookup_lt_is_Some_2 c (Z.to_nat i)) as [x Hx]; [lia|]. rewrite (rbind_eq _ _ _ _ _ (rlift_eq _ _ _ Hx)).
  destruct (gene_ok (Z.to_nat i) x s HI (Hc _ _ Hx)) as (y & s1 & Hy & Py & HI1). rewrite (rbind_eq _ _ _ _ _ Hy).
  destruct (IH (<[Z.to_nat i := y]> c) s1 HI1) as (d & s' & Hd & Ld & Pd).
  - by rewrite insert_length.
  - intros j z Hz. destruct (decide (j = Z.to_nat i)) as [->|Hne].
    + rewrite list_lookup_insert in Hz by (by eapply lookup_lt_Some). by injection Hz as <-.
    + rewrite list_lookup_insert_ne in Hz by done. by apply Hc.
  - exists d, s'. rewrite insert_length in Ld. done.
Qed.
Lemma mutate_some_ok fuel pm c s k s1 : I s -> size c < 2 ^ 64 -> randomBinomial fuel (size c) pm s = Some (k, s1) -> (forall i x, c !! i = Some x -> P i x) ->
  exists d s', mutate_some gene fuel pm c s = Some (d, s') /\ length d = length c /\ (forall i x, d !! i = Some x -> P i x) /\ I s'.
Proof.
  intros HI Hc Hk HP. unfold mutate_some. rewrite (rbind_eq _ _ _ _ _ Hk). assert (H0 : 0 <= size c) by (unfold size; lia).
  pose proof (I_later _ _ HI (adv_randomBinomial _ _ _ _ _ _ Hk)) as HI1.
  apply randomBinomial_range in Hk; [|lia]. destruct (sampleUnique_ok 0 (size c) k s1) as (l & s2 & Hl & _ & Fl & _); [lia|lia|].
  pose proof (I_later _ _ HI1 (adv_sampleUnique _ _ _ _ _ _ Hl)) as HI2. rewrite (rbind_eq _ _ _ _ _ Hl). by apply for_indices_ok.
Qed.
End loop.

(** ** Real genes *)
Local Open Scope R_scope.
Definition width_finite (b : bounds) : Prop := is_finite (fsub (upper b) (lower b)) = true.

Lemma in_bounds_lookup bs c : in_bounds bs c <-> length bs = length c /\ forall i x, c !! i = Some x -> exists b, bs !! i = Some b /\ in_bound b x.
Proof.
  split.
  - intros H. split; [by eapply Forall2_length|]. intros i x Hx. destruct (Forall2_lookup_r _ _ _ _ _ H Hx) as (b & Hb & Hin). by exists b.
  - intros [Hl H]. apply Forall2_same_length_lookup. split; [done|]. intros i b x Hb Hx. destruct (H i x Hx) as (b' & Hb' & Hin). congruence.
Qed.
Lemma with_bounds_ok (I : stream -> Prop) bs (gene : bounds -> b64 -> rand b64) (Q : bounds -> Prop) fuel pm c s k s1 :
  (forall s s', I s -> later s s' -> I s') ->
  (forall b x s, I s -> Q b -> bounds_ok b -> in_bound b x -> exists y s', gene b x s = Some (y, s') /\ in_bound b y /\ later s s') ->
  I s -> Forall Q bs -> Forall bounds_ok bs -> in_bounds bs c -> (size c < 2 ^ 64)%Z -> randomBinomial fuel (size c) pm s = Some (k, s1) ->
  exists d s', with_bounds bs gene fuel pm c s = Some (d, s') /\ in_bounds bs d.
Proof.
  intros HIl Hg HI HQ Hb Hc Hs Hk. apply in_bounds_lookup in Hc as [Hlen Hc]. unfold with_bounds. rewrite rassert_true by (by apply Nat.eqb_eq).
  rewrite Forall_forall in HQ. rewrite Forall_forall in Hb.
  destruct (mutate_some_ok (fun idx x => rbind (rlift (bs !! idx)) (fun b => gene b x)) I HIl (fun i x => exists b, bs !! i = Some b /\ in_bound b x))
    with (fuel := fuel) (pm := pm) (c := c) (s := s) (k := k) (s1 := s1) as (d & s' & Hd & Ld & Pd & _); try done.
  - intros i x s0 HI0 (b & Hbi & Hin). rewrite (rbind_eq _ _ _ _ _ (rlift_eq _ _ _ Hbi)).
    destruct (Hg b x s0) as (y & s2 & Hy & Py & Hl); [done|by eapply HQ, elem_of_list_lookup_2|by eapply Hb, elem_of_list_lookup_2|done|].
    exists y, s2. split; [done|]. split; [by exists b|by eapply HIl].
  - exists d, s'. split; [done|]. apply in_bounds_lookup. split; [congruence|done].
Qed.

Lemma fsub_nonneg a b : is_finite a = true -> is_finite b = true -> Bsign a = false -> B2R b <= B2R a -> nonneg (fsub a b).
Proof.
  intros Fa Fb Sa Hle. destruct (fsub_finite a b Fa Fb) as [Hn Hv]. split; [done|].
  pose proof (Bminus_correct 53 1024 _ _ mode_NE a b Fa Fb) as H. cbn [round_mode] in H. revert H. case Rlt_bool_spec; intros Hlt H.
  - destruct H as (H1 & H2 & H3). unfold fsub. rewrite H3. case Rcompare_spec; intros E; [|by rewrite Sa|done].
    exfalso. lra.
  - destruct H as (H1 & H2). rewrite Sa in H1. unfold fsub. destruct (Bminus mode_NE a b); try done; cbn in H1; by injection H1.
Qed.
(** A distance within the bounds is finite. *)
Lemma inner_diff b x y : bounds_ok b -> width_finite b -> is_finite x = true -> is_finite y = true ->
  Rabs (B2R x - B2R y) <= B2R (upper b) - B2R (lower b) -> is_finite (fsub x y) = true.
Proof.
  intros (Fl & Fu & Hlu) Hw Fx Fy Hd. destruct (fsub_finite x y Fx Fy) as [Hn Hv]. apply finite_of_val; [done|]. rewrite Hv.
  destruct (fsub_finite (upper b) (lower b) Fu Fl) as [_ Hwv]. pose proof (fval_finite_bound _ Hw) as Hwb. rewrite Hwv in Hwb.
  apply Rabs_le_inv in Hd. apply Rle_lt_trans with (srnd (B2R (upper b) - B2R (lower b))); [|lra]. apply Rabs_le. split.
  - rewrite <- srnd_opp. apply srnd_mono. lra.
  - apply srnd_mono. lra.
Qed.
(** x + d * m for a finite d and a factor m in [-1, 1] is a number. *)
Lemma step_not_nan x p : is_finite x = true -> is_finite p = true -> is_nan (fadd x p) = false.
Proof. intros Fx Fp. by destruct (fadd_finite x p Fx Fp). Qed.

Section genes.
Variable pow : b64 -> b64 -> b64.
Hypothesis Hpow : pow_contract pow.

Lemma uniform_gene_in b x s : width_finite b -> bounds_ok b -> in_bound b x -> exists y s', uniform_gene b x s = Some (y, s') /\ in_bound b y /\ later s s'.
Proof.
  intros Hw (Fl & Fu & Hlu) _. destruct (randomReal_between_ok (lower b) (upper b) s Fl Fu Hlu Hw) as (v & Hv & Fv & Bv). exists v, (stail s). split; [done|]. split; [done|]. apply later_stail.
Qed.
Lemma boundary_gene_in b x s : True -> bounds_ok b -> in_bound b x -> exists y s', boundary_gene b x s = Some (y, s') /\ in_bound b y /\ later s s'.
Proof.
  intros _ (Fl & Fu & Hlu) _. unfold boundary_gene, randomBool, rbind, rnext, rret. cbn [mbind option_bind].
  eexists _, _. split; [reflexivity|]. split; [|apply later_stail]. destruct (Z.odd _); split; try done; lra.
Qed.
(** The probability pow returns for arguments in [0, 1]. *)
Lemma pow_unit x y : nonneg x -> fval x <= 1 -> nonneg y -> is_finite (pow x y) = true /\ 0 <= B2R (pow x y) <= 1.
Proof.
  intros Hx Hx1 Hy. pose proof (pow_nonneg _ Hpow x y Hx (proj1 Hy)) as Hp. pose proof (pow_le_1_unit _ Hpow x y Hx Hx1 Hy) as Hp1.
  pose proof (nonneg_val _ Hp) as Hp0. assert (H1 : 1 < femax) by (apply (bpow_lt radix2 0 1024); lia).
  assert (F : is_finite (pow x y) = true) by (apply finite_of_val; [apply Hp|apply Rabs_def1; lra]). rewrite fval_finite in Hp0, Hp1 by done. done.
Qed.
Lemma draw_nonneg r : draw r -> nonneg r /\ fval r <= 1.
Proof. intros (F & S & H). split; [split; [by apply is_finite_not_nan|done]|]. rewrite fval_finite by done. lra. Qed.
Lemma nonuniform_gene_in beta gen maxg b x s : nonneg beta -> (0 <= gen <= maxg)%Z -> (0 < maxg <= 2 ^ 64)%Z ->
  width_finite b -> bounds_ok b -> in_bound b x -> exists y s', nonuniform_gene pow beta gen maxg b x s = Some (y, s') /\ in_bound b y /\ later s s'.
Proof.
  intros Hbeta Hgen Hmax Hw Hb [Fx Hx]. pose proof Hb as (Fl & Fu & Hlu). unfold nonuniform_gene.
  destruct (randomReal_draw s) as (r & Hr & Dr). rewrite (rbind_eq _ _ _ _ _ Hr). unfold randomBool at 1. unfold rbind, rnext, rret. cbn [mbind option_bind].
  (* the exponent *)
  destruct fone_val as [F1 V1].
  assert (S1 : Bsign fone = false) by reflexivity.
  destruct (fofZ_val gen) as [Fg Vg]; [lia|]. destruct (fofZ_val maxg) as [Fm Vm]; [lia|].
  assert (Hm1 : 1 <= rnd (IZR maxg)). { rewrite <- V1, <- (rnd_id fone). apply rnd_mono. rewrite V1. apply IZR_le. lia. }
  assert (Hg0 : 0 <= rnd (IZR gen) <= rnd (IZR maxg)). { split; [rewrite <- rnd_0; apply rnd_mono, IZR_le; lia|apply rnd_mono, IZR_le; lia]. }
  destruct (fdiv_finite (fofZ gen) (fofZ maxg) Fg Fm) as [Nd Vd]; [rewrite Vm; lra|]. rewrite Vg, Vm in Vd.
  assert (Hq : 0 <= rnd (IZR gen) / rnd (IZR maxg) <= 1).
  { split; [apply Rmult_le_pos; [lra|left; apply Rinv_0_lt_compat; lra]|]. apply (Rmult_le_reg_r (rnd (IZR maxg))); [lra|]. unfold Rdiv. rewrite Rmult_assoc, Rinv_l by lra. lra. }
  assert (Hd : 0 <= srnd (rnd (IZR gen) / rnd (IZR maxg)) <= 1). { split; [apply srnd_ge_0; lra|]. rewrite <- V1, <- (srnd_id fone) by done. apply srnd_mono. rewrite V1. lra. }
  assert (Hone : 1 < femax) by (apply (bpow_lt radix2 0 1024); lia).
  assert (Fd : is_finite (fdiv (fofZ gen) (fofZ maxg)) = true) by (apply finite_of_val; [done|]; rewrite Vd; apply Rabs_def1; lra).
  rewrite fval_finite in Vd by done.
  assert (Hexp : nonneg (pow (fsub fone (fdiv (fofZ gen) (fofZ maxg))) beta)).
  { apply (pow_nonneg _ Hpow); [|apply Hbeta]. apply fsub_nonneg; [done|done|done|]. rewrite Vd, V1. lra. }
  (* the multiplier *)
  destruct (draw_nonneg r Dr) as [Nr Vr]. destruct (pow_unit r _ Nr Vr Hexp) as [Fp Hp]. destruct (one_minus _ Fp Hp) as [Fmul Hmul].
  remember (fsub fone (pow r (pow (fsub fone (fdiv (fofZ gen) (fofZ maxg))) beta))) as mult eqn:Em. clear Em.
  remember (if Z.odd (bits (stail s 0%nat)) then lower b else upper b) as bound eqn:Ebound.
  assert (Hbd : is_finite bound = true /\ B2R (lower b) <= B2R bound <= B2R (upper b)) by (subst bound; destruct (Z.odd _); split; try done; lra).
  destruct Hbd as [Fbd Hbd].
  assert (Fdiff : is_finite (fsub bound x) = true) by (apply (inner_diff b); try done; apply Rabs_le; lra).
  assert (Fprod : is_finite (fmul (fsub bound x) mult) = true).
  { destruct (fmul_finite (fsub bound x) mult Fdiff Fmul) as [Np Vp]. destruct (fmul_finite mult (fsub bound x) Fmul Fdiff) as [_ Vp'].
    pose proof (fmul_unit mult (fsub bound x) Fmul Fdiff Hmul) as Ff. apply finite_of_val; [done|]. rewrite Vp, Rmult_comm, <- Vp'.
    pose proof (fval_finite_bound _ Ff). apply Rabs_def1; lra. }
  destruct (clamp_in b (fadd x (fmul (fsub bound x) mult)) Hb (step_not_nan _ _ Fx Fprod)) as (u & Hu & Hin).
  rewrite (rlift_eq _ _ _ Hu). eexists _, _. split; [reflexivity|]. split; [done|].
  first [exact (later_stail s)|exact (later_trans _ _ _ (later_stail s) (later_stail (stail s)))].
Qed.
Lemma gauss_gene_in sigma b x s : normals_finite s -> is_finite sigma = true -> 0 < B2R sigma ->
  width_finite b /\ is_finite (fdiv (fsub (upper b) (lower b)) sigma) = true -> bounds_ok b -> in_bound b x ->
  exists y s', gauss_gene sigma b x s = Some (y, s') /\ in_bound b y /\ later s s'.
Proof.
  intros Hn Fs Hs [Hw Fsd] Hb [Fx Hx]. pose proof Hb as (Fl & Fu & Hlu). unfold gauss_gene. cbn zeta.
  destruct (fsub_finite (upper b) (lower b) Fu Fl) as [_ Vw]. rewrite fval_finite in Vw by done.
  destruct (fdiv_finite _ sigma Hw Fs) as [_ Vsd]; [lra|]. rewrite fval_finite in Vsd by done.
  assert (Hsd : 0 <= B2R (fdiv (fsub (upper b) (lower b)) sigma)).
  { rewrite Vsd. apply srnd_ge_0. apply Rmult_le_pos; [rewrite Vw; apply srnd_ge_0; lra|left; by apply Rinv_0_lt_compat]. }
  unfold randomNormal. rewrite rassert_true.
  2: { rewrite fle_fval by (done || by apply is_finite_not_nan). rewrite !fval_finite by done. cbn [fzero B2R]. by apply Rle_bool_true. }
  unfold rbind, rnext, rret. cbn [mbind option_bind].
  assert (Np : is_nan (fmul (fdiv (fsub (upper b) (lower b)) sigma) (std_normal (s 0%nat))) = false) by (by apply fmul_finite).
  assert (Na : is_nan (fadd (fmul (fdiv (fsub (upper b) (lower b)) sigma) (std_normal (s 0%nat))) fzero) = false) by (apply fadd_not_nan; [done|done|by right]).
  assert (Nx : is_nan (fadd x (fadd (fmul (fdiv (fsub (upper b) (lower b)) sigma) (std_normal (s 0%nat))) fzero)) = false).
  { apply fadd_not_nan; [by apply is_finite_not_nan|done|by left]. }
  destruct (clamp_in b _ Hb Nx) as (u & Hu & Hin). rewrite (rlift_eq _ _ _ Hu). eexists _, _. split; [reflexivity|]. split; [done|].
  first [exact (later_stail s)|exact (later_trans _ _ _ (later_stail s) (later_stail (stail s)))].
Qed.
Lemma fmul_two (r : b64) : is_finite r = true -> 0 <= B2R r <= 1 -> is_finite (fmul ftwo r) = true /\ B2R (fmul ftwo r) = 2 * B2R r.
Proof.
  intros F H. destruct ftwo_val as [F2 V2]. destruct (fmul_le ftwo r 1 F2 F) as (Fp & Vp & _); [lia|rewrite V2; change (bpow radix2 1) with 2; rewrite Rabs_pos_eq; lra|].
  split; [done|]. rewrite Vp, V2. unfold srnd. rewrite (Rmult_comm 2), double_exact. apply sat_id. assert (2 < femax) by (apply (bpow_lt radix2 1 1024); lia). lra.
Qed.
Lemma polynomial_gene_in eta b x s : nonneg eta -> is_finite eta = true -> width_finite b -> bounds_ok b -> in_bound b x ->
  exists y s', polynomial_gene pow eta b x s = Some (y, s') /\ in_bound b y /\ later s s'.
Proof.
  intros Heta Feta Hw Hb [Fx Hx]. pose proof Hb as (Fl & Fu & Hlu). unfold polynomial_gene.
  destruct (randomReal_draw s) as (r & Hr & Dr). rewrite (rbind_eq _ _ _ _ _ Hr). pose proof Dr as (Fr & Sr & Br).
  destruct fone_val as [F1 V1]. destruct ftwo_val as [F2 V2]. destruct fhalf_val as [Fh Vh].
  assert (H0 : 0 <= B2R eta). { rewrite <- fval_finite by done. by apply nonneg_val. }
  (* the exponent 1 / (1 + eta) *)
  assert (Hexp : nonneg (fdiv fone (fadd fone eta))).
  { destruct (fadd_finite fone eta F1 Feta) as [Na Va]. rewrite V1 in Va.
    assert (Ha : 1 <= fval (fadd fone eta)). { rewrite Va, <- V1, <- (srnd_id fone) at 1 by done. apply srnd_mono. rewrite V1. lra. }
    destruct (is_finite (fadd fone eta)) eqn:Fa.
    - rewrite fval_finite in Ha by done. destruct (fdiv_finite fone (fadd fone eta) F1 Fa) as [Nd Vd]; [lra|]. split; [done|].
      pose proof (Bdiv_correct 53 1024 _ _ mode_NE fone (fadd fone eta)) as H. specialize (H ltac:(lra)). cbn [round_mode] in H.
      assert (Sa : Bsign (fadd fone eta) = false) by (apply Bsign_pos; lra).
      destruct (Rlt_bool _ _).
      + destruct H as (_ & _ & H). unfold fdiv in *. rewrite H by done. rewrite Sa. reflexivity.
      + rewrite Sa in H. unfold fdiv in *. destruct (Bdiv mode_NE fone (fadd fone eta)); try done; cbn in H; by injection H.
    - assert (E : fadd fone eta = B754_infinity false).
      { destruct (fadd fone eta) as [| [] | |]; try done. exfalso. cbn [fval] in Ha. pose proof femax_pos. lra. }
      rewrite E. split; reflexivity. }
  destruct (fmul_two r Fr ltac:(lra)) as [Ft Vt].
  remember (fdiv fone (fadd fone eta)) as ex eqn:Eex. clear Eex.
  assert (Hnn : is_nan (if fle r fhalf then fadd x (fmul (fsub (pow (fmul ftwo r) ex) fone) (fsub x (lower b)))
      else fadd x (fmul (fsub fone (pow (fsub ftwo (fmul ftwo r)) ex)) (fsub (upper b) x))) = false).
  { rewrite fle_fval by (by apply is_finite_not_nan). rewrite !fval_finite, Vh by done. case Rle_bool_spec; intros Hr2.
    - assert (N2 : nonneg (fmul ftwo r)) by (apply fmul_nonneg; try done; reflexivity).
      destruct (pow_unit (fmul ftwo r) ex N2 ltac:(rewrite fval_finite, Vt by done; lra) Hexp) as [Fp Hp].
      destruct (fsub_le (pow (fmul ftwo r) ex) fone 0 Fp F1) as (Fd & Vd & Bd); [lia|rewrite V1; cbn [bpow]; apply Rabs_le; lra|]. cbn [bpow] in Bd.
      assert (Fl' : is_finite (fsub x (lower b)) = true) by (apply (inner_diff b); try done; apply Rabs_le; lra).
      apply fadd_not_nan; [by apply is_finite_not_nan|by apply fmul_finite|by left].
    - destruct (fsub_le ftwo (fmul ftwo r) 1 F2 Ft) as (Fs & Vs & _); [lia|rewrite V2, Vt; change (bpow radix2 1) with 2; apply Rabs_le; lra|].
      assert (N2 : nonneg (fsub ftwo (fmul ftwo r))) by (apply fsub_nonneg; try done; rewrite V2, Vt; lra).
      destruct (pow_unit (fsub ftwo (fmul ftwo r)) ex N2) as [Fp Hp]; [|done|].
      { rewrite fval_finite, Vs, V2, Vt by done. rewrite <- V1, <- (srnd_id fone) by done. apply srnd_mono. rewrite V1. lra. }
      destruct (one_minus _ Fp Hp) as [Fd _].
      assert (Fl' : is_finite (fsub (upper b) x) = true) by (apply (inner_diff b); try done; apply Rabs_le; lra).
      apply fadd_not_nan; [by apply is_finite_not_nan|by apply fmul_finite|by left]. }
  destruct (clamp_in b _ Hb Hnn) as (u & Hu & Hin). rewrite (rlift_eq _ _ _ Hu). eexists _, _. split; [reflexivity|]. split; [done|].
  first [exact (later_stail s)|exact (later_trans _ _ _ (later_stail s) (later_stail (stail s)))].
Qed.
End genes.
