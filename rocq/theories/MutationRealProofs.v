(** The values the real coded mutations produce. *)
From Coq Require Import Reals ZArith Lra Lia Psatz.
From stdpp Require Import list list_numbers.
From Flocq Require Import Core Relative Plus_error Sterbenz BinarySingleNaN.
From Verif Require Import FloatBase FloatModel FloatSpec FloatProofs RealCrossoverModel RealSpec RealProofs RealCrossoverProofs RealErrorProofs
  RandModel RandSpec RandProofs BinomialProofs MutationModel MutationSpec PermMutationProofs MutationProofs MutationMoreProofs.
Local Open Scope R_scope.
#[local] Existing Instance fexp_valid.

(** ** The positions *)
Lemma with_bounds_genes (I : stream -> Prop) bs (gene : bounds -> b64 -> rand b64) (Q : bounds -> Prop) fuel pm c s k s1
    (P : stream -> bounds -> b64 -> b64 -> Prop) :
  (forall s s', I s -> later s s' -> I s') ->
  (forall b x s, I s -> Q b -> bounds_ok b -> in_bound b x -> exists y s', gene b x s = Some (y, s') /\ in_bound b y /\ later s s' /\ P s b x y) ->
  (forall b x, advances (gene b x)) ->
  I s -> Forall Q bs -> Forall bounds_ok bs -> in_bounds bs c -> (size c < 65536)%Z -> randomBinomial fuel (size c) pm s = Some (k, s1) ->
  exists d s', with_bounds bs gene fuel pm c s = Some (d, s') /\ in_bounds bs d /\
    mutated_at (fun i x y => exists b s2, bs !! i = Some b /\ later s s2 /\ P s2 b x y) k c d.
Proof.
  intros HIl Hg Hadv HI HQ Hb Hc Hs Hk.
  destruct (with_bounds_ok I bs gene Q fuel pm c s k s1) as (d & s' & Hd & Hin); try done; [|lia|].
  { intros b x s0 H1 H2 H3 H4. destruct (Hg b x s0 H1 H2 H3 H4) as (y & s2 & ? & ? & ? & _). eauto. }
  exists d, s'. split; [done|]. split; [done|].
  apply in_bounds_lookup in Hc as [Hlen Hc]. rewrite Forall_forall in HQ. rewrite Forall_forall in Hb.
  unfold with_bounds in Hd. apply rassert_Some in Hd as [_ H]. unfold mutate_some in H. rewrite (rbind_eq _ _ _ _ _ Hk) in H. apply rbind_Some in H as (l & s2 & Hl2 & H).
  assert (H0 : (0 <= size c)%Z) by (unfold size; lia).
  pose proof Hk as Hkr. apply randomBinomial_range in Hkr; [|lia].
  destruct (sampleUnique_ok 0 (size c) k s1) as (l' & s2' & Hl' & Ll & Fl & Nl); [lia|lia|]. rewrite Hl' in Hl2. injection Hl2 as -> ->.
  assert (Hnd : NoDup l) by (apply Nl; left; lia).
  assert (L2 : later s s2). { eapply later_trans; [by eapply adv_randomBinomial|by eapply adv_sampleUnique]. }
  apply for_indices_result in H as [Hld Hi]; [| |done|eapply Forall_impl; [exact Fl|]; cbn; lia]; [|intros i x; apply adv_bind; [apply adv_lift|done]].
  assert (Hmem : forall i : nat, i ∈ Z.to_nat <$> l <-> Z.of_nat i ∈ l).
  { intros i. rewrite elem_of_list_fmap. split.
    - intros (z & -> & Hz). rewrite Forall_forall in Fl. specialize (Fl z Hz). by rewrite Z2Nat.id by lia.
    - intros Hz. exists (Z.of_nat i). by rewrite Nat2Z.id. }
  split; [done|]. exists (Z.to_nat <$> l). split_and!; [by rewrite fmap_length| | |].
  - apply NoDup_fmap_2_strong; [|done]. intros x y Hx Hy E. rewrite Forall_forall in Fl. pose proof (Fl x Hx). pose proof (Fl y Hy). lia.
  - apply Forall_fmap. eapply Forall_impl; [exact Fl|]. cbn. unfold size. lia.
  - intros i x Hx. destruct (Hi i) as [H1 H2]. destruct (decide (Z.of_nat i ∈ l)) as [Hin2|Hout].
    + destruct (H2 Hin2) as (x' & y & s3 & s4 & Hx' & Hy & L3 & Hgene). rewrite Hx in Hx'. injection Hx' as <-.
      exists y. split; [done|]. rewrite Hmem. split; [intros _|done].
      destruct (Hc i x Hx) as (b & Hbi & Hbx). rewrite (rbind_eq _ _ _ _ _ (rlift_eq _ _ _ Hbi)) in Hgene.
      assert (L3' : later s s3) by (by eapply later_trans).
      destruct (Hg b x s3) as (y' & s5 & Hy' & _ & _ & HP); [by eapply HIl|by eapply HQ, elem_of_list_lookup_2|by eapply Hb, elem_of_list_lookup_2|done|].
      rewrite Hgene in Hy'. injection Hy' as <- _. by exists b, s3.
    + exists x. split; [by rewrite H1|]. by rewrite Hmem.
Qed.

(** ** The values *)
Lemma prod_comm_val (a b : b64) : is_finite a = true -> is_finite b = true -> is_nan (fmul b a) = false /\ fval (fmul b a) = srnd (B2R a * B2R b).
Proof. intros Fa Fb. destruct (fmul_finite b a Fb Fa) as [N V]. split; [done|]. by rewrite V, Rmult_comm. Qed.
Lemma affine_near (x a b m : b64) (mu : R) (p : b64) :
  is_finite x = true -> is_finite a = true -> is_finite b = true -> is_finite m = true ->
  Rabs (B2R x) <= bpow radix2 1020 -> Rabs (B2R a) <= bpow radix2 1020 -> Rabs (B2R b) <= bpow radix2 1020 ->
  Rabs (B2R m) <= 1 -> Rabs (B2R m - mu) <= 2 * uu ->
  is_nan p = false /\ fval p = srnd (B2R (fsub a b) * B2R m) ->
  is_finite p = true /\ near (16 * uu * (Rabs (B2R x) + Rabs (B2R a) + Rabs (B2R b)) / 2 + 4 * hh) (fadd x p) (B2R x + (B2R a - B2R b) * mu).
Proof.
  intros Fx Fa Fb Fm Hx Ha Hb Hm Em Hp. pose proof uu_pos as Hu. pose proof hh_pos as Hh.
  assert (Bp : bpow radix2 1023 = 8 * bpow radix2 1020) by (rewrite (bpow_plus radix2 3 1020 : bpow radix2 1023 = _); reflexivity).
  assert (B1 : 1 <= bpow radix2 1020) by (change 1 with (bpow radix2 0); apply bpow_le; lia).
  pose proof (Rabs_pos (B2R x)) as Px. pose proof (Rabs_pos (B2R a)) as Pa. pose proof (Rabs_pos (B2R b)) as Pb.
  set (X := Rabs (B2R x)) in *. set (Y := Rabs (B2R a)) in *. set (Z0 := Rabs (B2R b)) in *.
  assert (Q0 : Rabs (B2R a - B2R b) <= Y + Z0) by (unfold Rminus; eapply Rle_trans; [apply Rabs_triang|rewrite Rabs_Ropp; fold Y Z0; lra]).
  destruct (op_err (fsub a b) _ (fsub_finite a b Fa Fb)) as (F1 & E1); [lra|].
  set (d := B2R (fsub a b)) in *.
  assert (E1' : Rabs (d - (B2R a - B2R b)) <= uu * (Y + Z0) + hh) by (clear - E1 Q0 Hu; nra).
  assert (Q1 : Rabs d <= 2 * (Y + Z0) + hh).
  { replace d with ((d - (B2R a - B2R b)) + (B2R a - B2R b)) by ring. eapply Rle_trans; [apply Rabs_triang|]. clear - E1' Q0 Hu Pa Pb. nra. }
  assert (Q2 : Rabs (d * B2R m) <= Rabs d) by (rewrite Rabs_mult; pose proof (Rabs_pos d); clear - H Hm; nra).
  destruct (op_err p _ Hp) as (F2 & E2); [lra|]. split; [done|]. set (q := B2R p) in *.
  assert (E2' : Rabs (q - d * B2R m) <= uu * (2 * (Y + Z0) + hh) + hh) by (clear - E2 Q1 Q2 Hu; nra).
  assert (U1 : uu * (Y + Z0) <= Y + Z0) by (clear - Hu Pa Pb; nra). assert (U2 : uu * hh <= hh) by (clear - Hu Hh; nra).
  assert (Q3' : Rabs q <= 3 * (Y + Z0) + 4 * hh).
  { replace q with ((q - d * B2R m) + d * B2R m) by ring. eapply Rle_trans; [apply Rabs_triang|]. assert (uu * (Y + Z0) <= (Y + Z0) / 2) by (clear - Hu Pa Pb; nra). clear - E2' Q1 Q2 U2 Hh H. lra. }
  assert (Hh2 : hh <= bpow radix2 1020 / 16) by (clear - Hh Hu B1; lra).
  assert (Q4 : Rabs (B2R x + q) <= X + (3 * (Y + Z0) + 4 * hh)) by (eapply Rle_trans; [apply Rabs_triang|]; fold X; lra).
  destruct (op_err (fadd x p) _ (fadd_finite x p Fx F2)) as (F3 & E3).
  { fold q. eapply Rle_trans; [exact Q4|]. clear - Hx Ha Hb Bp B1 Hh2. lra. }
  split; [done|]. fold q in E3. set (v := B2R (fadd x p)) in *.
  assert (E3' : Rabs (v - (B2R x + q)) <= uu * (X + (3 * (Y + Z0) + 4 * hh)) + hh) by (clear - E3 Q4 Hu; nra).
  assert (E4 : Rabs (d * B2R m - (B2R a - B2R b) * B2R m) <= uu * (Y + Z0) + hh).
  { rewrite <- Rmult_minus_distr_r, Rabs_mult. pose proof (Rabs_pos (d - (B2R a - B2R b))). clear - E1' Hm H. nra. }
  assert (E5 : Rabs ((B2R a - B2R b) * B2R m - (B2R a - B2R b) * mu) <= 2 * uu * (Y + Z0)).
  { rewrite <- Rmult_minus_distr_l, Rabs_mult. pose proof (Rabs_pos (B2R a - B2R b)). pose proof (Rabs_pos (B2R m - mu)). clear - Em Q0 H H0 Hu. nra. }
  replace (v - (B2R x + (B2R a - B2R b) * mu)) with
    ((v - (B2R x + q)) + (q - d * B2R m) + (d * B2R m - (B2R a - B2R b) * B2R m) + ((B2R a - B2R b) * B2R m - (B2R a - B2R b) * mu)) by ring.
  assert (U3 : uu * hh <= hh / 100) by (clear - Hu Hh; nra).
  assert (U4 : 0 <= uu * X) by (clear - Hu Px; nra). assert (U5 : 0 <= uu * Y) by (clear - Hu Pa; nra). assert (U6 : 0 <= uu * Z0) by (clear - Hu Pb; nra).
  clear - E3' E2' E4 E5 U3 U4 U5 U6 Hu Hh. rab. apply Rabs_le. split; lra.
Qed.
Lemma step_rounding_eq b x : step_rounding b x = 16 * uu * (Rabs (B2R (lower b)) + Rabs (B2R (upper b)) + Rabs (B2R x)) + 16 * hh.
Proof.
  unfold step_rounding. assert (R1 : bpow radix2 (-49) = 16 * uu). { unfold uu. change 16 with (bpow radix2 4). rewrite <- bpow_plus. reflexivity. }
  assert (R2 : bpow radix2 (-1071) = 16 * hh). { unfold hh. change 16 with (bpow radix2 4). rewrite <- bpow_plus. reflexivity. }
  by rewrite R1, R2.
Qed.
Lemma near_weaken e e' u v : near e u v -> e <= e' -> near e' u v.
Proof. intros [F H] He. split; [done|lra]. Qed.
Lemma clamp_near b v t e : bounds_ok b -> near e v t -> exists u, clamp v (lower b) (upper b) = Some u /\ near e u (Rclamp b t).
Proof.
  intros Hb [Fv Ev]. destruct (clamp_val b v Hb Fv) as (u & Hu & Fu & Vu). exists u. split; [done|]. split; [done|]. rewrite Vu. pose proof (Rclamp_lip b (B2R v) t). lra.
Qed.
Lemma big_width b : bounded_by (bpow radix2 1020) b -> bounds_ok b -> width_finite b.
Proof.
  intros [H1 H2] (Fl & Fu & _). unfold width_finite. apply (op_err _ _ (fsub_finite _ _ Fu Fl)).
  assert (Bp : bpow radix2 1023 = 8 * bpow radix2 1020) by (rewrite (bpow_plus radix2 3 1020 : bpow radix2 1023 = _); reflexivity).
  pose proof (bpow_gt_0 radix2 1020). rab. apply Rabs_le. lra.
Qed.
Lemma in_bound_big b x : bounded_by (bpow radix2 1020) b -> in_bound b x -> Rabs (B2R x) <= bpow radix2 1020.
Proof. intros [H1 H2] [_ H]. rab. apply Rabs_le. lra. Qed.

Lemma uniform_gene_near b x s : bounded_by (bpow radix2 1020) b -> bounds_ok b -> in_bound b x ->
  exists y s', uniform_gene b x s = Some (y, s') /\ in_bound b y /\ later s s' /\
    near (step_rounding b x) y (B2R (lower b) + (B2R (upper b) - B2R (lower b)) * unit_draw (s 0%nat)).
Proof.
  intros Hm Hb Hx. destruct (uniform_gene_in b x s (big_width b Hm Hb) Hb Hx) as (y & s' & Hy & Hin & Hl). exists y, s'. split_and!; try done.
  unfold uniform_gene, randomReal_between in Hy. apply rassert_Some in Hy as [_ Hy].
  destruct (randomReal_unit s) as (r & Hr & Fr & Vr & _). rewrite (rbind_eq _ _ _ _ _ Hr) in Hy. injection Hy as <- _.
  destruct Hb as (Fl & Fu & Hlu). destruct Hm as [M1 M2]. pose proof uu_pos as Hu. pose proof hh_pos as Hh. pose proof (unit_draw_range (s 0%nat)) as Hd.
  destruct (affine_near (lower b) (upper b) (lower b) r (B2R r) (fmul (fsub (upper b) (lower b)) r)) as [Fp Hn]; try done.
  - rewrite Vr. apply Rabs_le. lra.
  - rewrite Rminus_diag_eq, Rabs_R0; [lra|done].
  - apply fmul_finite; [|done]. apply big_width; [split; done|split; done].
  - rewrite Vr in Hn. eapply near_weaken; [exact Hn|]. rewrite step_rounding_eq.
    pose proof (Rabs_pos (B2R (lower b))). pose proof (Rabs_pos (B2R (upper b))). pose proof (Rabs_pos (B2R x)). clear - H H0 H1 Hu Hh. nra.
Qed.
Lemma boundary_gene_val b x s : bounds_ok b -> in_bound b x ->
  exists y s', boundary_gene b x s = Some (y, s') /\ in_bound b y /\ later s s' /\ y = (if Z.odd (bits (s 0%nat)) then lower b else upper b).
Proof.
  intros Hb Hx. destruct (boundary_gene_in b x s I Hb Hx) as (y & s' & Hy & Hin & Hl). exists y, s'. split_and!; try done.
  unfold boundary_gene, randomBool, rbind, rnext, rret in Hy. cbn [mbind option_bind] in Hy. by injection Hy as <- _.
Qed.
(** One minus a probability, and the other way. *)
Lemma one_minus_near (p : b64) : is_finite p = true -> 0 <= B2R p <= 1 ->
  is_finite (fsub fone p) = true /\ Rabs (B2R (fsub fone p)) <= 1 /\ Rabs (B2R (fsub fone p) - (1 - B2R p)) <= 2 * uu.
Proof.
  intros Fp Hp. destruct (one_minus p Fp Hp) as [F H]. split; [done|]. split; [apply Rabs_le; lra|].
  destruct fone_val as [Fo Vo]. pose proof uu_pos as Hu. pose proof hh_pos as Hh.
  destruct (op_err (fsub fone p) _ (fsub_finite fone p Fo Fp)) as (_ & E1).
  { rewrite Vo. apply Rle_trans with 1; [apply Rabs_le; lra|]. change 1 with (bpow radix2 0). apply bpow_le. lia. }
  rewrite Vo in E1. assert (Rabs (1 - B2R p) <= 1) by (apply Rabs_le; lra). nra.
Qed.
Lemma minus_one_near (p : b64) : is_finite p = true -> 0 <= B2R p <= 1 ->
  is_finite (fsub p fone) = true /\ -1 <= B2R (fsub p fone) <= 0 /\ Rabs (B2R (fsub p fone) - (B2R p - 1)) <= 2 * uu.
Proof.
  intros Fp Hp. destruct fone_val as [Fo Vo]. pose proof uu_pos as Hu. pose proof hh_pos as Hh.
  destruct (fsub_finite p fone Fp Fo) as [N V]. rewrite Vo in V.
  destruct (op_err (fsub p fone) _ (conj N V)) as (F & E1).
  { apply Rle_trans with 1; [apply Rabs_le; lra|]. change 1 with (bpow radix2 0). apply bpow_le. lia. }
  split; [done|]. rewrite fval_finite in V by done. split; [split|].
  - rewrite V. assert (E : srnd (-1) = -1). { replace (-1) with (- B2R fone) by (rewrite Vo; lra). rewrite <- B2R_Bopp. apply srnd_id. by rewrite is_finite_Bopp. }
    rewrite <- E at 1. apply srnd_mono. lra.
  - rewrite V. assert (E : srnd 0 = 0) by (change 0 with (B2R fzero); by apply srnd_id). rewrite <- E. apply srnd_mono. lra.
  - assert (Rabs (B2R p - 1) <= 1) by (apply Rabs_le; lra). nra.
Qed.

Section genes.
Variable pow : b64 -> b64 -> b64.
Hypothesis Hpow : pow_contract pow.
(** The remaining share of the generations. *)
Lemma remaining_near gen maxg : (0 <= gen <= maxg)%Z -> (0 < maxg <= 2 ^ 53)%Z ->
  near (bpow radix2 (-50)) (fsub fone (fdiv (fofZ gen) (fofZ maxg))) (1 - IZR gen / IZR maxg) /\ nonneg (fsub fone (fdiv (fofZ gen) (fofZ maxg))).
Proof.
  intros Hgen Hmax. destruct (fofZ_exact gen) as [Fg Vg]; [lia|]. destruct (fofZ_exact maxg) as [Fm Vm]; [lia|]. destruct fone_val as [F1 V1].
  pose proof uu_pos as Hu. pose proof hh_pos as Hh.
  assert (G0 : 0 <= IZR gen) by (apply IZR_le; lia). assert (G1 : IZR gen <= IZR maxg) by (apply IZR_le; lia). assert (G2 : 1 <= IZR maxg) by (apply IZR_le; lia).
  assert (Hq : 0 <= IZR gen / IZR maxg <= 1).
  { split; [apply Rmult_le_pos; [lra|left; apply Rinv_0_lt_compat; lra]|]. apply (Rmult_le_reg_r (IZR maxg)); [lra|]. unfold Rdiv. rewrite Rmult_assoc, Rinv_l by lra. lra. }
  destruct (fdiv_finite (fofZ gen) (fofZ maxg) Fg Fm) as [Nd Vd]; [rewrite Vm; lra|]. rewrite Vg, Vm in Vd.
  assert (B1 : 1 <= bpow radix2 1023) by (change 1 with (bpow radix2 0); apply bpow_le; lia).
  destruct (op_err _ _ (conj Nd Vd)) as (Fd & Ed); [apply Rle_trans with 1; [apply Rabs_le; lra|done]|].
  rewrite fval_finite in Vd by done.
  assert (Hd : 0 <= B2R (fdiv (fofZ gen) (fofZ maxg)) <= 1).
  { rewrite Vd. split; [apply srnd_ge_0; lra|]. rewrite <- V1, <- (srnd_id fone) by done. apply srnd_mono. rewrite V1. lra. }
  destruct (one_minus_near _ Fd Hd) as (Fs & _ & Es). split.
  - split; [done|]. assert (R1 : bpow radix2 (-50) = 8 * uu) by (unfold uu; change 8 with (bpow radix2 3); rewrite <- bpow_plus; reflexivity). rewrite R1.
    set (q := IZR gen / IZR maxg) in *. rewrite (Rabs_pos_eq q) in Ed by lra. assert (uu * q <= uu) by (clear - Hq Hu; nra).
    clear - Es Ed H Hu Hh. rab. apply Rabs_le. split; lra.
  - apply fsub_nonneg; [done|done|reflexivity|]. rewrite V1. lra.
Qed.
Lemma nonuniform_gene_near beta gen maxg b x s : nonneg beta -> (0 <= gen <= maxg)%Z -> (0 < maxg <= 2 ^ 53)%Z ->
  bounded_by (bpow radix2 1020) b -> bounds_ok b -> in_bound b x ->
  exists y s', nonuniform_gene pow beta gen maxg b x s = Some (y, s') /\ in_bound b y /\ later s s' /\
    exists r q, is_finite r = true /\ B2R r = unit_draw (s 0%nat) /\ near (bpow radix2 (-50)) q (1 - IZR gen / IZR maxg) /\
    near (step_rounding b x) y (B2R x + (B2R (if Z.odd (bits (s 1%nat)) then lower b else upper b) - B2R x) * (1 - B2R (pow r (pow q beta)))).
Proof.
  intros Hbeta Hgen Hmax Hm Hb Hx. pose proof (big_width b Hm Hb) as Hw.
  destruct (nonuniform_gene_in pow Hpow beta gen maxg b x s Hbeta Hgen ltac:(lia) Hw Hb Hx) as (y & s' & Hy & Hin & Hl). exists y, s'. split_and!; try done.
  unfold nonuniform_gene in Hy. destruct (randomReal_unit s) as (r & Hr & Fr & Vr & Dr). rewrite (rbind_eq _ _ _ _ _ Hr) in Hy.
  unfold randomBool in Hy. unfold rbind, rnext, rret in Hy. cbn [mbind option_bind] in Hy. change (stail s 0%nat) with (s 1%nat) in Hy.
  destruct (remaining_near gen maxg Hgen Hmax) as [Nq Pq]. remember (fsub fone (fdiv (fofZ gen) (fofZ maxg))) as q eqn:Eq. clear Eq.
  exists r, q. split; [done|]. split; [done|]. split; [done|].
  assert (Hexp : nonneg (pow q beta)) by (apply (pow_nonneg _ Hpow); [done|apply Hbeta]).
  destruct (draw_nonneg r Dr) as [Nr V1r]. destruct (pow_unit pow Hpow r _ Nr V1r Hexp) as [Fp Hp]. destruct (one_minus_near _ Fp Hp) as (Fmul & Bmul & Emul).
  destruct (one_minus _ Fp Hp) as [_ Pmul].
  remember (if Z.odd (bits (s 1%nat)) then lower b else upper b) as bound eqn:Ebound.
  pose proof Hb as (Fl & Fu & Hlu). destruct Hx as [Fx Bx]. pose proof (in_bound_big b x Hm (conj Fx Bx)) as Mx. destruct Hm as [M1 M2].
  assert (Hbd : is_finite bound = true /\ B2R (lower b) <= B2R bound <= B2R (upper b) /\ Rabs (B2R bound) <= bpow radix2 1020 /\ Rabs (B2R bound) <= Rabs (B2R (lower b)) + Rabs (B2R (upper b))).
  { pose proof (Rabs_pos (B2R (lower b))). pose proof (Rabs_pos (B2R (upper b))). subst bound. destruct (Z.odd _); split_and!; try done; lra. }
  destruct Hbd as (Fbd & Bbd & Mbd & Abd).
  assert (Fdiff : is_finite (fsub bound x) = true) by (apply (inner_diff b); try done; apply Rabs_le; lra).
  destruct (affine_near x bound x (fsub fone (pow r (pow q beta))) (1 - B2R (pow r (pow q beta))) (fmul (fsub bound x) (fsub fone (pow r (pow q beta))))) as [Fprod Hn]; try done.
  { by apply fmul_finite. }
  destruct (clamp_near b _ _ _ Hb Hn) as (u & Hu & Nu). rewrite (rlift_eq _ _ _ Hu) in Hy. injection Hy as <- _.
  rewrite Rclamp_in in Nu.
  - eapply near_weaken; [exact Nu|]. rewrite step_rounding_eq. pose proof uu_pos as Huu. pose proof hh_pos as Hhh.
    pose proof (Rabs_pos (B2R (lower b))). pose proof (Rabs_pos (B2R (upper b))). pose proof (Rabs_pos (B2R x)). clear - H H0 H1 Huu Hhh Abd. nra.
  - remember (1 - B2R (pow r (pow q beta))) as mu eqn:Emu. assert (Hmu : 0 <= mu <= 1) by lra. clear - Hmu Bbd Bx. split; nra.
Qed.
(** 1 / (1 + eta). *)
Lemma exponent_near (eta : b64) : is_finite eta = true -> 0 <= B2R eta <= bpow radix2 1020 ->
  near (bpow radix2 (-50)) (fdiv fone (fadd fone eta)) (/ (1 + B2R eta)) /\ nonneg (fdiv fone (fadd fone eta)).
Proof.
  intros Fe He. destruct fone_val as [F1 V1]. pose proof uu_pos as Hu. pose proof hh_pos as Hh.
  assert (Bp : bpow radix2 1023 = 8 * bpow radix2 1020) by (rewrite (bpow_plus radix2 3 1020 : bpow radix2 1023 = _); reflexivity).
  assert (B1 : 1 <= bpow radix2 1020) by (change 1 with (bpow radix2 0); apply bpow_le; lia).
  destruct (fadd_finite fone eta F1 Fe) as [Na Va]. rewrite V1 in Va.
  destruct (op_err _ _ (conj Na Va)) as (Fa & Ea); [apply Rabs_le; lra|]. rewrite fval_finite in Va by done.
  set (a := fadd fone eta) in *. rewrite (Rabs_pos_eq (1 + B2R eta)) in Ea by lra.
  assert (Ha : 1 <= B2R a). { rewrite Va, <- V1, <- (srnd_id fone) at 1 by done. apply srnd_mono. rewrite V1. lra. }
  destruct (fdiv_finite fone a F1 Fa) as [Nd Vd]; [lra|]. rewrite V1 in Vd. unfold Rdiv in Vd. rewrite Rmult_1_l in Vd.
  assert (Hi : 0 < / B2R a <= 1). { split; [apply Rinv_0_lt_compat; lra|]. rewrite <- Rinv_1 at 1. apply Rinv_le; lra. }
  destruct (op_err _ _ (conj Nd Vd)) as (Fd & Ed); [apply Rabs_le; lra|]. rewrite (Rabs_pos_eq (/ B2R a)) in Ed by lra.
  assert (Hj : 0 < / (1 + B2R eta) <= 1). { split; [apply Rinv_0_lt_compat; lra|]. rewrite <- Rinv_1. apply Rinv_le; lra. }
  assert (Hdiff : Rabs (/ B2R a - / (1 + B2R eta)) <= 2 * uu).
  { replace (/ B2R a - / (1 + B2R eta)) with (- ((B2R a - (1 + B2R eta)) * / (1 + B2R eta)) * / B2R a) by (field; lra).
    rewrite Rabs_mult, Rabs_Ropp, Rabs_mult. rewrite (Rabs_pos_eq (/ B2R a)) by lra. rewrite (Rabs_pos_eq (/ (1 + B2R eta))) by lra.
    assert (Hx : Rabs (B2R a - (1 + B2R eta)) * / (1 + B2R eta) <= 2 * uu).
    { apply (Rmult_le_reg_r (1 + B2R eta)); [lra|]. rewrite Rmult_assoc, Rinv_l by lra. clear - Ea He Hu Hh. nra. }
    assert (0 <= Rabs (B2R a - (1 + B2R eta)) * / (1 + B2R eta)) by (apply Rmult_le_pos; [apply Rabs_pos|lra]). clear - Hx H Hi. nra. }
  split.
  - split; [done|]. assert (R1 : bpow radix2 (-50) = 8 * uu) by (unfold uu; change 8 with (bpow radix2 3); rewrite <- bpow_plus; reflexivity). rewrite R1.
    assert (uu * / B2R a <= uu) by (clear - Hi Hu; nra). clear - Ed Hdiff H Hu Hh. rab. apply Rabs_le. split; lra.
  - split; [done|]. pose proof (Bdiv_correct 53 1024 _ _ mode_NE fone a) as H. specialize (H ltac:(lra)). cbn [round_mode] in H.
    assert (Sa : Bsign a = false) by (apply Bsign_pos; lra).
    destruct (Rlt_bool _ _).
    + destruct H as (_ & _ & H). unfold fdiv in *. rewrite H by done. rewrite Sa. reflexivity.
    + rewrite Sa in H. unfold fdiv in *. destruct (Bdiv mode_NE fone a); try done; cbn in H; by injection H.
Qed.
(** 2 - 2a is exact for a > 1/2. *)
Lemma two_minus (r : b64) : is_finite r = true -> / 2 < B2R r <= 1 ->
  is_finite (fsub ftwo (fmul ftwo r)) = true /\ B2R (fsub ftwo (fmul ftwo r)) = 2 - 2 * B2R r /\ nonneg (fsub ftwo (fmul ftwo r)).
Proof.
  intros Fr Hr. destruct ftwo_val as [F2 V2]. destruct (fmul_two r Fr ltac:(lra)) as [Ft Vt].
  destruct (fsub_le ftwo (fmul ftwo r) 1 F2 Ft) as (Fs & Vs & _); [lia|rewrite V2, Vt; change (bpow radix2 1) with 2; apply Rabs_le; lra|].
  split; [done|]. split; [|apply fsub_nonneg; [done|done|reflexivity|rewrite V2, Vt; lra]].
  rewrite Vs, V2, Vt. unfold srnd.
  assert (E : rnd (2 - 2 * B2R r) = 2 - 2 * B2R r).
  { apply round_generic; [apply valid_rnd_N|]. rewrite <- V2 at 1. rewrite <- Vt.
    apply (sterbenz radix2 (FLT_exp (3 - 1024 - 53) 53)); [apply generic_format_B2R|apply generic_format_B2R|]. rewrite V2, Vt. lra. }
  rewrite E. apply sat_id. assert (2 < femax) by (apply (bpow_lt radix2 1 1024); lia). lra.
Qed.
Lemma step_down (x p : b64) : is_finite x = true -> is_finite p = true -> B2R p <= 0 -> is_finite (fadd x p) = true -> B2R (fadd x p) <= B2R x.
Proof.
  intros Fx Fp Hp Fa. destruct (fadd_finite x p Fx Fp) as [_ V]. rewrite fval_finite in V by done. rewrite V, <- (srnd_id x) by done. apply srnd_mono. rewrite (srnd_id x) by done. lra.
Qed.
Lemma step_up (x p : b64) : is_finite x = true -> is_finite p = true -> 0 <= B2R p -> is_finite (fadd x p) = true -> B2R x <= B2R (fadd x p).
Proof.
  intros Fx Fp Hp Fa. destruct (fadd_finite x p Fx Fp) as [_ V]. rewrite fval_finite in V by done. rewrite V. rewrite <- (srnd_id x) at 1 by done. apply srnd_mono. lra.
Qed.
Lemma polynomial_gene_near (eta : b64) b x s : is_finite eta = true -> Bsign eta = false -> B2R eta <= bpow radix2 1020 ->
  bounded_by (bpow radix2 1020) b -> bounds_ok b -> in_bound b x ->
  exists y s', polynomial_gene pow eta b x s = Some (y, s') /\ in_bound b y /\ later s s' /\
    exists t e, is_finite t = true /\ near (bpow radix2 (-50)) e (/ (1 + B2R eta)) /\
    ((unit_draw (s 0%nat) <= / 2 /\ B2R t = 2 * unit_draw (s 0%nat) /\ B2R y <= B2R x /\
        near (step_rounding b x) y (B2R x - (B2R x - B2R (lower b)) * (1 - B2R (pow t e)))) \/
     (/ 2 < unit_draw (s 0%nat) /\ B2R t = 2 - 2 * unit_draw (s 0%nat) /\ B2R x <= B2R y /\
        near (step_rounding b x) y (B2R x + (B2R (upper b) - B2R x) * (1 - B2R (pow t e))))).
Proof.
  intros Fe Se He Hm Hb Hx. pose proof (big_width b Hm Hb) as Hw.
  assert (Ne : nonneg eta) by (split; [by apply is_finite_not_nan|done]).
  destruct (polynomial_gene_in pow Hpow eta b x s Ne Fe Hw Hb Hx) as (y & s' & Hy & Hin & Hl). exists y, s'. split_and!; try done.
  unfold polynomial_gene in Hy. destruct (randomReal_unit s) as (r & Hr & Fr & Vr & Dr). rewrite (rbind_eq _ _ _ _ _ Hr) in Hy. cbn zeta in Hy.
  assert (H0 : 0 <= B2R eta). { rewrite <- fval_finite by done. by apply nonneg_val. }
  destruct (exponent_near eta Fe ltac:(lra)) as [Nex Pex]. remember (fdiv fone (fadd fone eta)) as ex eqn:Eex. clear Eex.
  destruct fhalf_val as [Fh Vh]. destruct ftwo_val as [F2 V2]. pose proof (unit_draw_range (s 0%nat)) as Hd. destruct (fmul_two r Fr ltac:(lra)) as [Ft Vt].
  pose proof Hb as (Fl & Fu & Hlu). destruct Hx as [Fx Bx]. pose proof (in_bound_big b x Hm (conj Fx Bx)) as Mx. destruct Hm as [M1 M2].
  pose proof uu_pos as Huu. pose proof hh_pos as Hhh.
  pose proof (Rabs_pos (B2R (lower b))) as A1. pose proof (Rabs_pos (B2R (upper b))) as A2. pose proof (Rabs_pos (B2R x)) as A3.
  rewrite fle_fval in Hy by (by apply is_finite_not_nan). rewrite !fval_finite, Vh, Vr in Hy by done. revert Hy. case Rle_bool_spec; intros Hr2 Hy.
  - destruct Dr as (_ & Sr & _). assert (N2 : nonneg (fmul ftwo r)) by (apply fmul_nonneg; try done; reflexivity).
    destruct (pow_unit pow Hpow (fmul ftwo r) ex N2 ltac:(rewrite fval_finite, Vt by done; lra) Pex) as [Fp Hp].
    destruct (minus_one_near _ Fp Hp) as (Fd & Bd & Ed).
    assert (Fl' : is_finite (fsub x (lower b)) = true) by (apply (inner_diff b); try done; apply Rabs_le; lra).
    destruct (affine_near x x (lower b) _ _ _ Fx Fx Fl Fd Mx Mx M1 ltac:(apply Rabs_le; lra) Ed (prod_comm_val _ _ Fl' Fd)) as [Fprod Hn].
    destruct (clamp_near b _ _ _ Hb Hn) as (u & Hu & Nu). rewrite (rlift_eq _ _ _ Hu) in Hy. injection Hy as <- _.
    exists (fmul ftwo r), ex. split; [done|]. split; [done|]. left. split; [done|]. split; [by rewrite Vt, Vr|].
    destruct (clamp_val b _ Hb (proj1 Hn)) as (u' & Hu' & _ & Vu). rewrite Hu in Hu'. injection Hu' as <-.
    split.
    + rewrite Vu. enough (Hneg : B2R (fmul (fsub (pow (fmul ftwo r) ex) fone) (fsub x (lower b))) <= 0).
      * pose proof (step_down x _ Fx Fprod Hneg (proj1 Hn)) as Hs. unfold Rclamp, Rmax, Rmin. repeat destruct (Rle_dec _ _); lra.
      * destruct (fmul_finite _ _ Fd Fl') as [_ V]. rewrite fval_finite in V by done. rewrite V.
        destruct (fsub_finite x (lower b) Fx Fl) as [_ Vd]. rewrite fval_finite in Vd by done.
        assert (0 <= B2R (fsub x (lower b))) by (rewrite Vd; apply srnd_ge_0; lra).
        assert (E : srnd 0 = 0) by (change 0 with (B2R fzero); by apply srnd_id). rewrite <- E. apply srnd_mono. clear - H Bd. nra.
    + rewrite Rclamp_in in Nu.
      * replace (B2R x - (B2R x - B2R (lower b)) * (1 - B2R (pow (fmul ftwo r) ex))) with (B2R x + (B2R x - B2R (lower b)) * (B2R (pow (fmul ftwo r) ex) - 1)) by ring.
        eapply near_weaken; [exact Nu|]. rewrite step_rounding_eq. clear - A1 A2 A3 Huu Hhh. nra.
      * clear - Hp Bx. split; nra.
  - destruct (two_minus r Fr ltac:(lra)) as (Fs & Vs & N2).
    destruct (pow_unit pow Hpow (fsub ftwo (fmul ftwo r)) ex N2 ltac:(rewrite fval_finite, Vs by done; lra) Pex) as [Fp Hp].
    destruct (one_minus_near _ Fp Hp) as (Fd & Bd & Ed). destruct (one_minus _ Fp Hp) as [_ Bd'].
    assert (Fl' : is_finite (fsub (upper b) x) = true) by (apply (inner_diff b); try done; apply Rabs_le; lra).
    destruct (affine_near x (upper b) x _ _ _ Fx Fu Fx Fd Mx M2 Mx Bd Ed (prod_comm_val _ _ Fl' Fd)) as [Fprod Hn].
    destruct (clamp_near b _ _ _ Hb Hn) as (u & Hu & Nu). rewrite (rlift_eq _ _ _ Hu) in Hy. injection Hy as <- _.
    exists (fsub ftwo (fmul ftwo r)), ex. split; [done|]. split; [done|]. right. split; [done|]. split; [by rewrite Vs, Vr|].
    destruct (clamp_val b _ Hb (proj1 Hn)) as (u' & Hu' & _ & Vu). rewrite Hu in Hu'. injection Hu' as <-.
    split.
    + rewrite Vu. enough (Hpos : 0 <= B2R (fmul (fsub fone (pow (fsub ftwo (fmul ftwo r)) ex)) (fsub (upper b) x))).
      * pose proof (step_up x _ Fx Fprod Hpos (proj1 Hn)) as Hs. unfold Rclamp, Rmax, Rmin. repeat destruct (Rle_dec _ _); lra.
      * destruct (fmul_finite _ _ Fd Fl') as [_ V]. rewrite fval_finite in V by done. rewrite V.
        destruct (fsub_finite (upper b) x Fu Fx) as [_ Vd]. rewrite fval_finite in Vd by done.
        assert (0 <= B2R (fsub (upper b) x)) by (rewrite Vd; apply srnd_ge_0; lra).
        apply srnd_ge_0. clear - H Bd'. nra.
    + rewrite Rclamp_in in Nu.
      * eapply near_weaken; [exact Nu|]. rewrite step_rounding_eq. clear - A1 A2 A3 Huu Hhh. nra.
      * clear - Hp Bx. split; nra.
Qed.
End genes.

(** ** Gauss *)
(** A difference has no underflow error. *)
Lemma rnd_err_sub (a b : b64) : Rabs (rnd (B2R a - B2R b) - (B2R a - B2R b)) <= uu * Rabs (B2R a - B2R b).
Proof.
  pose proof uu_pos as Hu. destruct (Rle_lt_dec (bpow radix2 (-1022)) (Rabs (B2R a - B2R b))) as [Hbig|Hsmall].
  - pose proof (relative_error_N_FLT radix2 (-1074) 53 eq_refl (fun n => negb (Z.even n)) (B2R a - B2R b)) as H.
    specialize (H Hbig). change (rnd (B2R a - B2R b)) with (round radix2 (FLT_exp (-1074) 53) ZnearestE (B2R a - B2R b)).
    replace (/ 2 * bpow radix2 (- (53) + 1)) with uu in H; [exact H|]. unfold uu. change (- (53) + 1)%Z with (-53 + 1)%Z. rewrite bpow_plus. change (bpow radix2 1) with 2. lra.
  - assert (E : rnd (B2R a - B2R b) = B2R a - B2R b).
    { apply round_generic; [apply valid_rnd_N|]. unfold Rminus. rewrite <- B2R_Bopp.
      apply (FLT_format_plus_small radix2 (-1074) 53); [apply generic_format_B2R|apply generic_format_B2R|]. rewrite B2R_Bopp. left. apply Rlt_trans with (1 := Hsmall). apply bpow_lt. lia. }
    rewrite E, Rminus_diag_eq, Rabs_R0 by done. pose proof (Rabs_pos (B2R a - B2R b)). nra.
Qed.
Lemma gauss_gene_near (sigma : b64) b x s : normals_finite s -> is_finite sigma = true -> 0 < B2R sigma ->
  bounded_by (bpow radix2 1020) b /\ (B2R (upper b) - B2R (lower b)) / B2R sigma <= bpow radix2 1020 -> bounds_ok b -> in_bound b x ->
  let z := B2R (std_normal (s 0%nat)) in
  let step := (B2R (upper b) - B2R (lower b)) / B2R sigma * z in
  exists y s', gauss_gene sigma b x s = Some (y, s') /\ in_bound b y /\ later s s' /\
    (Rabs step <= bpow radix2 1020 ->
     near (bpow radix2 (-49) * (Rabs (B2R x) + Rabs step) + bpow radix2 (-1071) * (1 + Rabs z)) y (Rclamp b (B2R x + step))).
Proof.
  intros Hn Fs Hs [Hm Hsd] Hb Hx z step. pose proof (big_width b Hm Hb) as Hw.
  pose proof Hb as (Fl & Fu & Hlu). pose proof uu_pos as Huu. pose proof hh_pos as Hhh.
  assert (Bp : bpow radix2 1023 = 8 * bpow radix2 1020) by (rewrite (bpow_plus radix2 3 1020 : bpow radix2 1023 = _); reflexivity).
  assert (B1 : 1 <= bpow radix2 1020) by (change 1 with (bpow radix2 0); apply bpow_le; lia).
  destruct (fsub_finite (upper b) (lower b) Fu Fl) as [Nw Vw]. rewrite fval_finite in Vw by done.
  set (w := fsub (upper b) (lower b)) in *. set (W := B2R (upper b) - B2R (lower b)) in *. assert (HW : 0 <= W) by (unfold W; lra).
  assert (MW : W <= 2 * bpow radix2 1020) by (destruct Hm as [M1 M2]; unfold W; clear - M1 M2; rab; lra).
  assert (Ew : B2R w = rnd W).
  { rewrite Vw. unfold srnd. apply sat_id. assert (0 <= rnd W) by (rewrite <- rnd_0; by apply rnd_mono).
    assert (rnd W <= bpow radix2 1023) by (rewrite <- (bpow_fmt 1023) by lia; apply rnd_mono; lra).
    pose proof (bpow_lt_femax 1023 ltac:(lia)). pose proof femax_pos. lra. }
  assert (Hwe : Rabs (B2R w - W) <= uu * W). { rewrite Ew. unfold W. eapply Rle_trans; [apply rnd_err_sub|]. fold W. rewrite Rabs_pos_eq by done. lra. }
  assert (Is : 0 < / B2R sigma) by (by apply Rinv_0_lt_compat).
  destruct (fdiv_finite w sigma Hw Fs) as [Nsd Vsd]; [lra|].
  set (G := W / B2R sigma) in *. assert (HG : 0 <= G) by (apply Rmult_le_pos; lra).
  assert (Hg1 : Rabs (B2R w / B2R sigma - G) <= uu * G).
  { unfold G, Rdiv. rewrite <- Rmult_minus_distr_r, Rabs_mult, (Rabs_pos_eq (/ B2R sigma)) by lra. rewrite <- Rmult_assoc. apply Rmult_le_compat_r; [lra|done]. }
  assert (Ug : uu * G <= G / 1000) by (clear - Huu HG; nra).
  destruct (op_err _ _ (conj Nsd Vsd)) as (Fsd & Esd). { clear - Hg1 Ug Hsd HG Bp B1. rab. apply Rabs_le. lra. }
  destruct (gauss_gene_in sigma b x s Hn Fs Hs (conj Hw Fsd) Hb Hx) as (y & s' & Hy & Hin & Hl). exists y, s'. split_and!; try done. intros Hstep.
  unfold gauss_gene in Hy. cbn zeta in Hy. fold w in Hy. unfold randomNormal in Hy. apply rbind_Some in Hy as (n & s2 & Hnn & Hy). apply rassert_Some in Hnn as [_ Hnn].
  unfold rbind, rnext, rret in Hnn. cbn [mbind option_bind] in Hnn. injection Hnn as <- <-.
  set (sd := fdiv w sigma) in *. set (zf := std_normal (s 0%nat)) in *. pose proof (Hn 0%nat : is_finite zf = true) as Fz. fold z in step.
  assert (Esd' : Rabs (B2R sd - G) <= 2 * uu * G + uu * G / 1000 + hh).
  { assert (uu * Rabs (B2R w / B2R sigma) <= uu * (G + G / 1000)). { apply Rmult_le_compat_l; [lra|]. clear - Hg1 Ug HG. rab. apply Rabs_le. lra. }
    clear - Esd Hg1 H Huu HG. assert (0 <= uu * G) by nra. rab. apply Rabs_le. lra. }
  pose proof (Rabs_pos z) as Pz. set (Zz := Rabs z) in *.
  assert (Estep : Rabs step = G * Zz) by (unfold step; rewrite Rabs_mult, (Rabs_pos_eq G) by done; done).
  set (T := Rabs step) in *. assert (PT : 0 <= T) by (unfold T; apply Rabs_pos).
  assert (Ep : Rabs (B2R sd * z - step) <= 2 * uu * T + uu * T / 1000 + hh * Zz).
  { unfold step. rewrite <- Rmult_minus_distr_r, Rabs_mult. fold Zz. rewrite Estep.
    replace (2 * uu * (G * Zz) + uu * (G * Zz) / 1000 + hh * Zz) with ((2 * uu * G + uu * G / 1000 + hh) * Zz) by (unfold Rdiv; ring). by apply Rmult_le_compat_r. }
  assert (Mz : hh * Zz <= bpow radix2 1020).
  { assert (Zz <= bpow radix2 1024) by (unfold Zz, z; left; rewrite <- (fval_finite zf) by done; apply Rabs_def1; pose proof (fval_finite_bound zf Fz); lra).
    apply Rle_trans with (hh * bpow radix2 1024); [apply Rmult_le_compat_l; lra|]. unfold hh. rewrite <- bpow_plus. apply bpow_le. lia. }
  assert (Ut : uu * T <= T / 1000) by (clear - Huu PT; nra). assert (Ut0 : 0 <= uu * T) by (clear - Huu PT; nra).
  assert (Q1 : Rabs (B2R sd * z) <= T + 2 * uu * T + uu * T / 1000 + hh * Zz).
  { replace (B2R sd * z) with ((B2R sd * z - step) + step) by ring. eapply Rle_trans; [apply Rabs_triang|]. fold T. lra. }
  destruct (op_err _ _ (fmul_finite sd zf Fsd Fz)) as (Fp & Ep2). { fold z. eapply Rle_trans; [exact Q1|]. clear - Ut Hstep Mz Bp B1 PT. lra. }
  fold z in Ep2. set (p := fmul sd zf) in *.
  destruct (fadd_finite p fzero Fp eq_refl) as [Na Va]. cbn [fzero B2R] in Va. rewrite Rplus_0_r, srnd_id in Va by done.
  assert (Fa : is_finite (fadd p fzero) = true) by (apply finite_of_val; [done|]; rewrite Va, <- (fval_finite p) by done; apply Rabs_def1; pose proof (fval_finite_bound p Fp); lra).
  rewrite fval_finite in Va by done. set (n := fadd p fzero) in *.
  assert (Uz : uu * (hh * Zz) <= hh * Zz / 1000) by (assert (0 <= hh * Zz) by (clear - Hhh Pz; nra); clear - Huu H; nra).
  assert (Uz0 : 0 <= hh * Zz) by (clear - Hhh Pz; nra).
  assert (En : Rabs (B2R n - step) <= 4 * uu * T + 2 * (hh * Zz) + hh).
  { rewrite Va. assert (uu * Rabs (B2R sd * z) <= uu * (T + 2 * uu * T + uu * T / 1000 + hh * Zz)) by (apply Rmult_le_compat_l; lra).
    assert (uu * (uu * T) <= uu * T / 1000) by (clear - Huu Ut0; nra).
    clear - Ep Ep2 H H0 Uz Uz0 Ut0. rab. apply Rabs_le. split; lra. }
  destruct Hx as [Fx Bx]. pose proof (in_bound_big b x Hm (conj Fx Bx)) as Mx. pose proof (Rabs_pos (B2R x)) as Px. set (X := Rabs (B2R x)) in *.
  assert (Q2 : Rabs (B2R n) <= T + 4 * uu * T + 2 * (hh * Zz) + hh).
  { replace (B2R n) with ((B2R n - step) + step) by ring. eapply Rle_trans; [apply Rabs_triang|]. fold T. lra. }
  assert (Q3 : Rabs (B2R x + B2R n) <= X + (T + 4 * uu * T + 2 * (hh * Zz) + hh)) by (eapply Rle_trans; [apply Rabs_triang|]; fold X; lra).
  destruct (op_err _ _ (fadd_finite x n Fx Fa)) as (Fv & Ev). { eapply Rle_trans; [exact Q3|]. clear - Ut Hstep Mz Mx Bp B1 Huu Hhh PT. lra. }
  destruct (clamp_val b _ Hb Fv) as (u & Hu & F4 & Vu). rewrite (rlift_eq _ _ _ Hu) in Hy. injection Hy as <- _. split; [done|]. rewrite Vu.
  eapply Rle_trans; [apply Rclamp_lip|].
  assert (R1 : bpow radix2 (-49) = 16 * uu). { unfold uu. change 16 with (bpow radix2 4). rewrite <- bpow_plus. reflexivity. }
  assert (R2 : bpow radix2 (-1071) = 16 * hh). { unfold hh. change 16 with (bpow radix2 4). rewrite <- bpow_plus. reflexivity. }
  rewrite R1, R2.
  assert (uu * Rabs (B2R x + B2R n) <= uu * (X + (T + 4 * uu * T + 2 * (hh * Zz) + hh))) by (apply Rmult_le_compat_l; lra).
  assert (uu * (uu * T) <= uu * T / 1000) by (clear - Huu Ut0; nra). assert (uu * hh <= hh / 100) by (clear - Huu Hhh; nra).
  assert (0 <= uu * X) by (clear - Huu Px; nra).
  clear - En Ev H H0 H1 H2 Uz Uz0 Ut0 Hhh. rab. apply Rabs_le. split; lra.
Qed.
