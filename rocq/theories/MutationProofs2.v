(** Lemmas about the number of mutated genes and about the integer mutation. *)
From Coq Require Import Reals ZArith Lra Lia.
From stdpp Require Import list list_numbers.
From Flocq Require Import Core BinarySingleNaN.
From Verif Require Import FloatBase FloatProofs RealCrossoverModel RealSpec RealProofs RealCrossoverProofs RandModel RandSpec RandProofs BinomialProofs
  MutationModel MutationSpec MutationProofs.

Local Open Scope Z_scope.

(** ** More fuel does not change a result *)
Lemma normal_loop_fuel f g lo hi mean sd s r : (f <= g)%nat -> normal_loop f lo hi mean sd s = Some r -> normal_loop g lo hi mean sd s = Some r.
Proof.
  revert g s. induction f as [|f IH]; intros [|g] s Hfg H; try done; [lia|]. cbn [normal_loop] in *. destruct r as [r s'].
  apply rbind_Some in H as (x & s1 & Hx & H). rewrite (rbind_eq _ _ _ _ _ Hx). destruct (_ && _); [done|]. apply IH; [lia|done].
Qed.
Lemma poisson_loop_fuel f g n mean s r : (f <= g)%nat -> poisson_loop f n mean s = Some r -> poisson_loop g n mean s = Some r.
Proof.
  revert g s. induction f as [|f IH]; intros [|g] s Hfg H; try done; [lia|]. cbn [poisson_loop] in *. destruct r as [r s'].
  apply rbind_Some in H as (x & s1 & Hx & H). rewrite (rbind_eq _ _ _ _ _ Hx). destruct (n <? x); [|done]. apply IH; [lia|done].
Qed.
Lemma randomBinomial_fuel f g n p s r : (f <= g)%nat -> randomBinomial f n p s = Some r -> randomBinomial g n p s = Some r.
Proof.
  intros Hfg. unfold randomBinomial. destruct (0 <=? n) eqn:E0; [|done]. destruct (is_probability p) eqn:E1; [|done]. cbn [rassert]. cbn zeta.
  destruct (_ || _)%bool; [|destruct (_ && _)%bool]; [| |done].
  - unfold randomBinomialApproxPoisson. rewrite E0, E1. cbn [rassert]. destruct (feq p fzero); [done|]. destruct (feq p fone); [done|]. by apply poisson_loop_fuel.
  - unfold randomBinomialApproxNormal. rewrite E0, E1. cbn [rassert]. cbn zeta. destruct r as [r s']. intros H. apply rbind_Some in H as (x & s1 & Hx & H).
    rewrite (rbind_eq _ _ _ _ _ (normal_loop_fuel _ _ _ _ _ _ _ _ Hfg Hx)). done.
Qed.
Lemma redraw_fuel f g lb ub old s r : (f <= g)%nat -> redraw f lb ub old s = Some r -> redraw g lb ub old s = Some r.
Proof.
  revert g s. induction f as [|f IH]; intros [|g] s Hfg H; try done; [lia|]. cbn [redraw] in *. destruct r as [r s'].
  apply rbind_Some in H as (x & s1 & Hx & H). rewrite (rbind_eq _ _ _ _ _ Hx). destruct (x =? old); [|done]. apply IH; [lia|done].
Qed.

(** ** Redrawing *)
Lemma redraw_Some f lb ub old s y s' : redraw f lb ub old s = Some (y, s') -> lb <= y <= ub /\ y <> old.
Proof.
  revert s. induction f as [|f IH]; intros s H; [done|]. cbn [redraw] in H. apply rbind_Some in H as (x & s1 & Hx & H).
  destruct (Z.eqb_spec x old) as [->|Hne]; [by apply IH in H|]. injection H as <- _. split; [|done].
  unfold randomInt in Hx. apply rassert_Some in Hx as [Hle Hx]. unfold rbind, rnext, rret in Hx. cbn [mbind option_bind] in Hx. injection Hx as <- _.
  pose proof (Z.mod_pos_bound (bits (s 0%nat)) (ub - lb + 1) ltac:(lia)). lia.
Qed.
Lemma adv_redraw f lb ub old : advances (redraw f lb ub old).
Proof. induction f; cbn [redraw]; [apply adv_fail|]. apply adv_bind; [apply adv_randomInt|]. intros x. destruct (x =? old); [done|apply adv_ret]. Qed.
(** Sooner or later the generator does not return a given number again. *)
Definition varied (s : stream) : Prop := forall m v : Z, 2 <= m -> forall k, exists n, (k <= n)%nat /\ bits (s n) mod m <> v.
Lemma varied_later s s' : varied s -> later s s' -> varied s'.
Proof.
  intros Hs [j Hj] m v Hm k. destruct (Hs m v Hm (j + k)%nat) as (n & Hn & Hv). exists (n - j)%nat. split; [lia|]. rewrite Hj. by replace (j + (n - j))%nat with n by lia.
Qed.
Lemma redraw_ends lb ub old s : lb < ub -> varied s -> exists f y s', redraw f lb ub old s = Some (y, s').
Proof.
  intros Hlt Hv. destruct (Hv (ub - lb + 1) (old - lb) ltac:(lia) O) as (n & _ & Hn). clear Hv. revert s Hn. induction n as [|n IH]; intros s Hn.
  - exists 1%nat, (lb + bits (s 0%nat) mod (ub - lb + 1)), (stail s). cbn [redraw]. unfold randomInt. rewrite rassert_true by lia.
    unfold rbind, rnext, rret. cbn [mbind option_bind]. destruct (Z.eqb_spec (lb + bits (s 0%nat) mod (ub - lb + 1)) old); [lia|done].
  - destruct (IH (stail s) Hn) as (f & y & s' & H). destruct (Z.eqb_spec (lb + bits (s 0%nat) mod (ub - lb + 1)) old) as [E|E].
    + exists (S f), y, s'. cbn [redraw]. unfold randomInt. rewrite rassert_true by lia. unfold rbind, rnext, rret. cbn [mbind option_bind].
      destruct (Z.eqb_spec (lb + bits (s 0%nat) mod (ub - lb + 1)) old); [done|lia].
    + exists 1%nat, (lb + bits (s 0%nat) mod (ub - lb + 1)), (stail s). cbn [redraw]. unfold randomInt. rewrite rassert_true by lia.
      unfold rbind, rnext, rret. cbn [mbind option_bind]. destruct (Z.eqb_spec (lb + bits (s 0%nat) mod (ub - lb + 1)) old); [lia|done].
Qed.
Lemma redraw_fixed f lb s : redraw f lb lb lb s = None.
Proof.
  revert s. induction f as [|f IH]; intros s; [done|]. cbn [redraw]. unfold randomInt. rewrite rassert_true by lia. unfold rbind, rnext, rret. cbn [mbind option_bind].
  replace (lb - lb + 1) with 1 by lia. rewrite Z.mod_1_r, Z.add_0_r, Z.eqb_refl. apply IH.
Qed.
(** Without assumptions about the positions: a changed gene was drawn for its position. *)
Lemma for_indices_drawn {A} (gene : nat -> A -> rand A) idxs : forall c s d s', for_indices gene idxs c s = Some (d, s') ->
  length d = length c /\ forall i, d !! i = c !! i \/ exists x y s1 s2, d !! i = Some y /\ gene i x s1 = Some (y, s2).
Proof.
  induction idxs as [|k idxs IH]; intros c s d s' H; [injection H as <- _; split; [done|]; by left|].
  cbn [for_indices] in H. apply rbind_Some in H as (x & s0 & Hx & H). unfold rlift in Hx. destruct (c !! Z.to_nat k) as [x'|] eqn:Ex; [|done]. injection Hx as -> ->.
  apply rbind_Some in H as (y & s1 & Hy & H). destruct (IH _ _ _ _ H) as [Hl Hi]. rewrite insert_length in Hl. split; [done|]. intros i. destruct (Hi i) as [E|E]; [|by right].
  destruct (decide (i = Z.to_nat k)) as [->|Hne].
  - right. exists x, y, s0, s1. rewrite E, list_lookup_insert by (by eapply lookup_lt_Some). done.
  - left. by rewrite E, list_lookup_insert_ne.
Qed.

(** ** Termination of the loop *)
Definition int_gene (bs : list (Z * Z)) (fuel : nat) : nat -> Z -> rand Z := fun idx old => rbind (rlift (bs !! idx)) (fun b => redraw fuel b.1 b.2 old).
Lemma int_loop_ends bs idxs : forall c s, Forall (fun b => b.1 < b.2) bs -> length bs = length c -> varied s -> Forall (fun i => 0 <= i < size c) idxs ->
  exists f, forall g, (f <= g)%nat -> exists d s', for_indices (int_gene bs g) idxs c s = Some (d, s').
Proof.
  induction idxs as [|i idxs IH]; intros c s Hb Hl Hv Hr; [exists O; intros g _; by exists c, s|].
  apply Forall_cons in Hr as [Hi Hr]. unfold size in *.
  destruct (lookup_lt_is_Some_2 c (Z.to_nat i)) as [x Hx]; [lia|]. destruct (lookup_lt_is_Some_2 bs (Z.to_nat i)) as [b Hbi]; [lia|].
  assert (Hlt : b.1 < b.2) by (rewrite Forall_forall in Hb; eapply Hb, elem_of_list_lookup_2; done).
  destruct (redraw_ends b.1 b.2 x s Hlt Hv) as (f1 & y & s1 & H1).
  destruct (IH (<[Z.to_nat i := y]> c) s1) as (f2 & H2); [done|by rewrite insert_length|by eapply varied_later, adv_redraw|by rewrite insert_length|].
  exists (Nat.max f1 f2). intros g Hg. destruct (H2 g ltac:(lia)) as (d & s' & Hd). exists d, s'. cbn [for_indices].
  rewrite (rbind_eq _ _ _ _ _ (rlift_eq _ _ _ Hx)). unfold int_gene at 1. rewrite (rbind_eq _ _ s y s1); [done|].
  rewrite (rbind_eq _ _ _ _ _ (rlift_eq _ _ _ Hbi)). eapply redraw_fuel; [|exact H1]. lia.
Qed.

(** ** Rates 0 and 1 *)
Lemma randomBinomial_zero fuel n s : 5 < n <= 2 ^ 64 -> randomBinomial fuel n fzero s = Some (0, s).
Proof.
  intros Hn. destruct (fofZ_val n) as [Fn Vn]; [lia|]. unfold randomBinomial. rewrite rassert_true by lia. rewrite rassert_true by reflexivity. cbn zeta.
  assert (Hpoi : ((50 <? n) && flt (fmul fzero (fofZ n)) ften || (5 <? n) && (n <=? 50) && flt fzero ffifth)%bool = true).
  { destruct (fmul_le fzero (fofZ n) 0) as (Fp & Vp & _); [done|done|lia|cbn [fzero B2R]; rewrite Rmult_0_l, Rabs_R0; apply bpow_ge_0|].
    cbn [fzero B2R] in Vp. rewrite Rmult_0_l, srnd_0 in Vp.
    assert (H1 : flt (fmul fzero (fofZ n)) ften = true).
    { rewrite flt_fval by (done || by apply is_finite_not_nan). rewrite !fval_finite, Vp by done. apply Rlt_bool_true. unfold ften.
      destruct (fmk_val 10 0) as (_ & -> & _); [lia|lia|]. cbn. lra. }
    assert (H2 : flt fzero ffifth = true) by (vm_compute; reflexivity). rewrite H1, H2. lia. }
  rewrite Hpoi. unfold randomBinomialApproxPoisson. rewrite rassert_true by lia. by rewrite rassert_true by reflexivity.
Qed.
Lemma exact_loop_zero n : forall res s, (forall i, (i < n)%nat -> (bits (s i) mod 2 ^ 64) / 2 ^ 11 <> 0) -> exists s', exact_loop n fzero res s = Some (res, s').
Proof.
  induction n as [|n IH]; intros res s Hs; [by exists s|]. cbn [exact_loop]. destruct (randomReal_val s) as (r & Hr & Fr & _ & Vr & _).
  rewrite (rbind_eq _ _ _ _ _ Hr). assert (E : fle r fzero = false).
  { rewrite fle_fval by (done || by apply is_finite_not_nan). rewrite !fval_finite by done. apply Rle_bool_false. cbn [fzero B2R]. rewrite Vr.
    apply Rmult_lt_0_compat; [|apply bpow_gt_0]. apply IZR_lt. pose proof (Hs O ltac:(lia)). assert (0 <= (bits (s 0%nat) mod 2 ^ 64) / 2 ^ 11) by (apply Z.div_pos; [apply Z.mod_pos_bound; lia|lia]). lia. }
  rewrite E. apply IH. intros i Hi. apply (Hs (S i)). lia.
Qed.
Lemma exact_loop_one n : forall res s, exists s', exact_loop n fone res s = Some (res + Z.of_nat n, s').
Proof.
  destruct fone_val as [F1 V1].
  induction n as [|n IH]; intros res s; [exists s; cbn [exact_loop]; unfold rret; do 2 f_equal; lia|]. cbn [exact_loop]. destruct (randomReal_draw s) as (r & Hr & Fr & _ & Br).
  rewrite (rbind_eq _ _ _ _ _ Hr). assert (E : fle r fone = true).
  { rewrite fle_fval by (by apply is_finite_not_nan). rewrite !fval_finite, V1 by done. apply Rle_bool_true. lra. }
  rewrite E. destruct (IH (res + 1) (stail s)) as [s' H]. exists s'. rewrite H. do 2 f_equal. lia.
Qed.
Lemma randomBinomial_one fuel n s : 0 <= n < 2 ^ 52 -> (0 < fuel)%nat -> is_finite (std_normal (s 0%nat)) = true ->
  exists s', randomBinomial fuel n fone s = Some (n, s').
Proof.
  intros Hn Hf Hz. destruct fone_val as [F1 V1]. destruct fhalf_val as [Fh Vh]. destruct (fofZ_exact n) as [Fn Vn]; [lia|].
  assert (Hn2 : (0 <= IZR n <= bpow radix2 53)%R) by (rewrite bpow_IZR by lia; split; apply IZR_le; lia).
  unfold randomBinomial. rewrite rassert_true by lia. rewrite rassert_true by reflexivity. cbn zeta.
  destruct (fmul_le fone (fofZ n) 53 F1 Fn) as (Fm & Vm & _); [lia|rewrite V1, Vn, Rmult_1_l, Rabs_pos_eq; lra|]. rewrite V1, Rmult_1_l, srnd_id, Vn in Vm by done.
  assert (Hpoi : ((50 <? n) && flt (fmul fone (fofZ n)) ften || (5 <? n) && (n <=? 50) && flt fone ffifth)%bool = false).
  { assert (H2 : flt fone ffifth = false) by (vm_compute; reflexivity). rewrite H2, andb_false_r, orb_false_r.
    destruct (Z.ltb_spec 50 n) as [H50|H50]; [|done]. cbn [andb]. rewrite flt_fval by (by apply is_finite_not_nan || reflexivity). rewrite !fval_finite, Vm by done. apply Rlt_bool_false. unfold ften.
    destruct (fmk_val 10 0) as (_ & -> & _); [lia|lia|]. cbn [bpow]. rewrite Rmult_1_r. apply IZR_le. lia. }
  rewrite Hpoi. cbn [negb andb]. destruct (5 <? n).
  - unfold randomBinomialApproxNormal. rewrite rassert_true by lia. rewrite rassert_true by reflexivity. cbn zeta.
    destruct (fmul_le (fofZ n) fone 53 Fn F1) as (Fm' & Vm' & _); [lia|rewrite V1, Vn, Rmult_1_r, Rabs_pos_eq; lra|]. rewrite V1, Rmult_1_r, srnd_id, Vn in Vm' by done.
    assert (Es : fsub fone fone = fzero) by (apply B2SF_inj; vm_compute; reflexivity). rewrite Es.
    destruct (fmul_le (fmul (fofZ n) fone) fzero 0 Fm') as (Fv & Vv & _); [done|lia|cbn [fzero B2R]; rewrite Rmult_0_r, Rabs_R0; apply bpow_ge_0|].
    cbn [fzero B2R] in Vv. rewrite Rmult_0_r, srnd_0 in Vv.
    destruct (fsqrt_nonneg _ Fv ltac:(rewrite Vv; lra)) as [Fsd Hsd].
    assert (Vsd : B2R (fsqrt (fmul (fmul (fofZ n) fone) fzero)) = 0%R).
    { unfold fsqrt. pose proof (Bsqrt_correct 53 1024 _ _ mode_NE (fmul (fmul (fofZ n) fone) fzero)) as (-> & _). rewrite Vv, sqrt_0. apply rnd_0. }
    remember (fsqrt (fmul (fmul (fofZ n) fone) fzero)) as sd eqn:Esd. clear Esd.
    destruct (fmul_le sd (std_normal (s 0%nat)) 0 Fsd Hz) as (Fx & Vx & _); [lia|rewrite Vsd, Rmult_0_l, Rabs_R0; apply bpow_ge_0|]. rewrite Vsd, Rmult_0_l, srnd_0 in Vx.
    destruct (fadd_le (fmul sd (std_normal (s 0%nat))) (fmul (fofZ n) fone) 53 Fx Fm') as (Fy & Vy & _); [lia|rewrite Vx, Vm', Rplus_0_l, Rabs_pos_eq; lra|].
    rewrite Vx, Rplus_0_l, srnd_id, Vm' in Vy by done.
    assert (Ea : is_finite (fadd (fofZ n) fhalf) = true /\ B2R (fadd (fofZ n) fhalf) = (IZR n + /2)%R).
    { destruct (fadd_le (fofZ n) fhalf 54 Fn Fh) as (Fa & Va & _); [lia| |].
      { rewrite Vn, Vh, Rabs_pos_eq by lra. change 54 with (53 + 1). rewrite bpow_plus. change (bpow radix2 1) with 2%R. rewrite bpow_IZR in * by lia. assert (1 <= IZR (2 ^ 53))%R by (apply IZR_le; lia). lra. }
      split; [done|]. destruct (fmk_val (2 * n + 1) (-1)) as (F & V & _); [lia|lia|].
      assert (E : (IZR n + /2)%R = B2R (fmk (2 * n + 1) (-1))). { rewrite V, plus_IZR, mult_IZR. change (bpow radix2 (-1)) with (/2)%R. field. }
      rewrite Va, Vn, Vh, E. by apply srnd_id. }
    destruct Ea as [Fa Va]. destruct fuel as [|fuel]; [lia|]. cbn [normal_loop]. unfold randomNormal. rewrite rassert_true.
    2: { rewrite fle_fval by (done || by apply is_finite_not_nan). rewrite !fval_finite by done. apply Rle_bool_true. cbn [fzero B2R]. lra. }
    remember (fadd (fmul sd (std_normal (s 0%nat))) (fmul (fofZ n) fone)) as x eqn:Ex.
    assert (H1 : (flt (fneg fhalf) x && flt x (fadd (fofZ n) fhalf))%bool = true).
    { apply andb_true_intro. split.
      - rewrite flt_fval by (done || by apply is_finite_not_nan). rewrite fneg_val, !fval_finite, Vh, Vy by done. apply Rlt_bool_true. lra.
      - rewrite flt_fval by (by apply is_finite_not_nan). rewrite !fval_finite, Vy, Va by done. apply Rlt_bool_true. lra. }
    exists (stail s). rewrite (rbind_eq _ _ s x (stail s)).
    + apply rlift_eq. rewrite (fround_val x Fy), Vy. destruct (Rlt_dec (IZR n) 0); [lra|]. f_equal. apply Zfloor_imp. rewrite plus_IZR. lra.
    + unfold rbind, rnext, rret. cbn [mbind option_bind]. rewrite <- Ex, H1. done.
  - unfold randomBinomialExact. rewrite rassert_true by lia. rewrite rassert_true by reflexivity.
    destruct (exact_loop_one (Z.to_nat n) 0 s) as [s' H]. exists s'. rewrite H. do 2 f_equal. lia.
Qed.
