(** Proofs about the reference lines of NSGA-III. *)
From Coq Require Import Reals ZArith Lra Lia.
From stdpp Require Import list list_numbers sets.
From Flocq Require Import Core BinarySingleNaN.
From Verif Require Import StdSort FloatBase FloatModel FloatSpec FloatProofs AlgorithmModel AlgorithmSpec AlgorithmProofs FrontModel FrontSpec FrontProofs RealProofs.
From Verif Require Import RealCrossoverModel Nsga2Model Nsga3Model Nsga3Spec Nsga3Proofs Nsga3MoreSpec.
Local Open Scope nat_scope.

Lemma std_max_ge (x y : b64) : is_finite x = true -> is_finite y = true ->
  is_finite (std_max flt x y) = true /\ (B2R x <= B2R (std_max flt x y))%R /\ (B2R y <= B2R (std_max flt x y))%R.
Proof.
  intros Hx Hy. unfold std_max. destruct (flt x y) eqn:E; rewrite flt_fval in E by (by apply is_finite_not_nan); rewrite !fval_finite in E by done; revert E;
    case Rlt_bool_spec; intros; try done; split; (done || lra).
Qed.
Lemma elementwise_max_ok (a : list b64) : forall r, length r = length a -> finite_vec a -> finite_vec r ->
  exists p, elementwise_max flt a r = Some p /\ length p = length a /\ finite_vec p /\
    forall k z, p !! k = Some z -> exists x y, a !! k = Some x /\ r !! k = Some y /\ (z = x \/ z = y) /\ (B2R x <= B2R z)%R /\ (B2R y <= B2R z)%R.
Proof.
  induction a as [|x a IH]; intros [|y r] Hl Ha Hr; try done.
  - exists []. split; [done|]. split; [done|]. split; [done|]. intros k z Hz. by rewrite lookup_nil in Hz.
  - cbn in Hl. injection Hl as Hl. inversion Ha as [|? ? Hx Ha']; subst. inversion Hr as [|? ? Hy Hr']; subst.
    destruct (IH r Hl Ha' Hr') as (p & E & Lp & Fp & Hp). destruct (std_max_ge x y Hx Hy) as (G1 & G2 & G3).
    exists (std_max flt x y :: p). unfold elementwise_max in *. cbn [elementwise]. rewrite E. cbn [mbind option_bind]. split; [done|].
    split; [cbn; lia|]. split; [by constructor|]. intros [|k] z Hz; cbn [lookup list_lookup] in Hz |- *; [|by apply Hp].
    apply (inj Some) in Hz as <-. exists x, y. split; [done|]. split; [done|]. split; [unfold std_max; destruct (flt x y); auto|]. done.
Qed.
Lemma fold_max_ok d rest : forall a, matrix d (a :: rest) ->
  exists p, fold_left (fun acc r => a ← acc; elementwise_max flt a r) rest (Some a) = Some p /\ finite_vec p /\ componentwise_max d (fun r => r ∈ a :: rest) p.
Proof.
  induction rest as [|r rest IH]; intros a Hm; inversion Hm as [|? ? [La Fa] Hm']; subst; cbn [fold_left].
  - exists a. split; [done|]. split; [done|]. split; [done|]. intros k x Hx. split; [exists a; split; [set_solver|done]|].
    intros r y Hr Hy. apply elem_of_list_singleton in Hr as ->. assert (y = x) as -> by congruence. apply Rle_refl.
  - inversion Hm' as [|? ? [Lr Fr] Hm'']; subst. destruct (elementwise_max_ok a r Lr Fa Fr) as (b & E & Lb & Fb & Hb).
    cbn [mbind option_bind]. rewrite E. destruct (IH b) as (p & Ep & Fp & Lp & Hp); [constructor; [by rewrite Lb|done]|].
    exists p. split; [done|]. split; [done|]. split; [done|]. intros k x Hx. destruct (Hp k x Hx) as [(r0 & Hr0 & Hk) Hmax].
    assert (Hkl : k < length a) by (apply lookup_lt_Some in Hx; lia). destruct (lookup_lt_is_Some_2 b k) as [z Hz]; [lia|].
    destruct (Hb k z Hz) as (u & v & Hu & Hv & Hor & Gu & Gv). pose proof (Hmax b z ltac:(set_solver) Hz) as Gz. split.
    + apply elem_of_cons in Hr0 as [->|Hr0]; [|exists r0; split; [set_solver|done]]. assert (x = z) as -> by congruence.
      destruct Hor as [-> | ->]; [exists a|exists r]; (split; [set_solver|done]).
    + intros r1 y Hr1 Hy. apply elem_of_cons in Hr1 as [->|Hr1]; [assert (y = u) as -> by congruence; lra|].
      apply elem_of_cons in Hr1 as [->|Hr1]; [assert (y = v) as -> by congruence; lra|]. apply (Hmax r1); [set_solver|done].
Qed.
Lemma maxFitness_ok d m : matrix d m -> m <> [] -> exists p, maxFitness m = Some p /\ finite_vec p /\ componentwise_max d (fun r => r ∈ m) p.
Proof. intros Hm Hne. destruct m as [|a rest]; [done|]. by apply fold_max_ok. Qed.
Lemma updateIdeal_ok d m ideal : matrix d m -> m <> [] -> length ideal = d -> finite_vec ideal ->
  exists p, updateIdealPoint m ideal = Some p /\ finite_vec p /\ componentwise_max d (fun r => r = ideal \/ r ∈ m) p.
Proof.
  intros Hm Hne Li Fi. unfold updateIdealPoint. destruct (maxFitness_ok d m Hm Hne) as (q & E & Fq & Lq & Hq). rewrite E. cbn [mbind option_bind].
  destruct (elementwise_max_ok ideal q) as (p & Ep & Lp & Fp & Hp); [lia|done|done|]. exists p. split; [done|]. split; [done|]. split; [lia|].
  intros k x Hx. destruct (Hp k x Hx) as (u & v & Hu & Hv & Hor & Gu & Gv). destruct (Hq k v Hv) as [(r & Hr & Hrv) Hmax]. split.
  - destruct Hor as [-> | ->]; [exists ideal|exists r]; auto.
  - intros r1 y [->|Hr1] Hy; [assert (y = u) as -> by congruence; lra|]. pose proof (Hmax r1 y Hr1 Hy). lra.
Qed.

(** ** The achievement scalarization *)
Lemma flt_nn (l : list b64) : Forall (fun x => is_nan x = false) l -> swo_on flt l.
Proof.
  intros H. rewrite Forall_forall in H. split.
  - intros x Hx. rewrite flt_fval by auto. apply Rlt_bool_false. lra.
  - intros x y z Hx Hy Hz. rewrite !flt_fval by auto. repeat case Rlt_bool_spec; try done; lra.
  - intros x y z Hx Hy Hz. rewrite !flt_fval by auto. repeat case Rlt_bool_spec; try done; lra.
Qed.
Lemma ninf_least (x : b64) : is_nan x = false -> flt x (fneg finf) = false.
Proof. intros H. destruct x as [s|s| |s mx e Hb]; try done; by destruct s. Qed.
Lemma asf_loop_ok (q : nat -> b64 -> b64 -> b64) ideal : forall ws x o dmax, length ws = length ideal -> length x = length ideal ->
  is_nan dmax = false ->
  (forall j i f w, ideal !! j = Some i -> x !! j = Some f -> ws !! j = Some w -> fdiv (fsub i f) w = q (o + j) i f /\ is_nan (q (o + j) i f) = false) ->
  let v := asf_loop ideal ws x dmax in
  is_nan v = false /\ flt v dmax = false /\ (v = dmax \/ exists j i f, ideal !! j = Some i /\ x !! j = Some f /\ v = q (o + j) i f) /\
  forall j i f, ideal !! j = Some i -> x !! j = Some f -> flt v (q (o + j) i f) = false.
Proof.
  induction ideal as [|i ideal IH]; intros [|w ws] [|f x] o dmax Hw Hx Hn Hq; try done; cbn [asf_loop].
  - cbn zeta. split; [done|]. split; [rewrite flt_fval by done; apply Rlt_bool_false; lra|]. split; [by left|]. intros j i f Hi. by rewrite lookup_nil in Hi.
  - cbn in Hw, Hx. injection Hw as Hw. injection Hx as Hx. destruct (Hq 0 i f w eq_refl eq_refl eq_refl) as [E0 N0].
    rewrite E0. rewrite Nat.add_0_r in N0 |- *.
    destruct (IH ws x (S o) (fmax dmax (q o i f))) as (G1 & G2 & G3 & G4); [done|done|by apply fmax_nan|..].
    { intros j i' f' w' Hi Hf Hw'. replace (S o + j) with (o + S j) by lia. by apply (Hq (S j)). }
    cbn zeta in G1, G2, G3, G4 |- *. remember (asf_loop ideal ws x (fmax dmax (q o i f))) as v eqn:Ev. clear Ev. split; [done|].
    assert (Hv : (fval dmax <= fval v /\ fval (q o i f) <= fval v)%R).
    { rewrite flt_fval in G2 by (done || by apply fmax_nan). rewrite fmax_val in G2 by done. revert G2. case Rlt_bool_spec; [done|]. intros G2 _.
      pose proof (Rmax_l (fval dmax) (fval (q o i f))). pose proof (Rmax_r (fval dmax) (fval (q o i f))). lra. }
    split; [rewrite flt_fval by done; apply Rlt_bool_false; lra|]. split.
    + destruct G3 as [->|(j & i' & f' & Hi & Hf & ->)].
      * unfold fmax. destruct (flt dmax (q o i f)); [|by left]. right. exists 0, i, f. by rewrite Nat.add_0_r.
      * right. exists (S j), i', f'. split; [done|]. split; [done|]. f_equal. lia.
    + intros [|j] i' f' Hi Hf; cbn [lookup list_lookup] in Hi, Hf.
      * apply (inj Some) in Hi as <-. apply (inj Some) in Hf as <-. rewrite Nat.add_0_r. rewrite flt_fval by done. apply Rlt_bool_false. lra.
      * replace (o + S j) with (S o + j) by lia. by apply G4.
Qed.
Lemma f1em6_val : is_finite f1em6 = true /\ (0 < B2R f1em6)%R.
Proof.
  destruct (fmk_val 4722366482869645 (-72)) as (H1 & H2 & _); [lia|lia|]. unfold f1em6. split; [done|]. rewrite H2.
  apply Rmult_lt_0_compat; [by apply IZR_lt|apply bpow_gt_0].
Qed.
Lemma f1em8_val : is_finite f1em8 = true /\ (0 < B2R f1em8)%R.
Proof.
  destruct (fmk_val 6044629098073146 (-79)) as (H1 & H2 & _); [lia|lia|]. unfold f1em8. split; [done|]. rewrite H2.
  apply Rmult_lt_0_compat; [by apply IZR_lt|apply bpow_gt_0].
Qed.
(** The quotient of a difference is not NaN, even if the difference overflows. *)
Lemma quot_nan (i f w : b64) : is_finite i = true -> is_finite f = true -> is_finite w = true -> (0 < B2R w)%R -> is_nan (fdiv (fsub i f) w) = false.
Proof.
  intros Hi Hf Hw Hp. destruct (fsub_finite i f Hi Hf) as [Hn _]. destruct (is_finite (fsub i f)) eqn:E.
  - apply fdiv_finite; [done|done|lra].
  - destruct (fsub i f) as [s|s| |s mx e Hb]; try done. destruct w as [s'|s'| |s' mx e Hb]; try done.
Qed.
Lemma ASF_ok d (ideal x : list b64) k : 0 < d -> length ideal = d -> length x = d -> finite_vec ideal -> finite_vec x ->
  exists v, ASF ideal (weightVector (length ideal) k) x = Some v /\ is_nan v = false /\ distance_along ideal k x v.
Proof.
  intros Hd Li Lx Fi Fx. unfold ASF. rewrite decide_True.
  2:{ rewrite weight_len. split; [|lia]. intros ->. cbn in Li. lia. }
  eexists. split; [done|].
  pose (q := fun j (i f : b64) => fdiv (fsub i f) (if decide (j = k) then fmk 1 0 else fmk 4722366482869645 (-72))).
  unfold finite_vec in Fi, Fx. rewrite Forall_forall in Fi, Fx.
  destruct (asf_loop_ok q ideal (weightVector (length ideal) k) x 0 (fneg finf)) as (G1 & _ & G3 & G4).
  - apply weight_len.
  - lia.
  - done.
  - intros j i f w Hi Hf Hw. cbn [Nat.add]. unfold weightVector in Hw.
    assert (Ew : w = if decide (j = k) then fmk 1 0 else fmk 4722366482869645 (-72)).
    { case_decide as Hj.
      - subst j. rewrite list_lookup_insert in Hw by (rewrite replicate_length; by eapply lookup_lt_Some). by apply (inj Some) in Hw.
      - rewrite list_lookup_insert_ne in Hw by done. apply lookup_replicate in Hw as [-> _]. done. }
    split; [unfold q; by rewrite Ew|]. unfold q. rewrite <- Ew.
    assert (Hwv : is_finite w = true /\ (0 < B2R w)%R).
    { rewrite Ew. case_decide; [|exact f1em6_val]. destruct fone_val as [H1 H2]. split; [exact H1|]. change (B2R (fmk 1 0)) with (B2R fone). rewrite H2. lra. }
    destruct Hwv. apply quot_nan; try done; [apply Fi|apply Fx]; by eapply elem_of_list_lookup_2.
  - cbn zeta in G1, G3, G4. split; [done|]. split; [|by intros; apply (G4 j)]. destruct G3 as [E|G3]; [|done].
    destruct ideal as [|i0 ideal]; [cbn in Li; lia|]. destruct x as [|x0 x]; [cbn in Lx, Li; lia|].
    exists 0, i0, x0. split; [done|]. split; [done|]. change (fdiv (fsub i0 x0) (if decide (0 = k) then fmk 1 0 else fmk 4722366482869645 (-72))) with (q 0 i0 x0).
    specialize (G4 0 i0 x0 eq_refl eq_refl). rewrite E in G4 |- *. cbn [Nat.add] in G4.
    assert (Hn : is_nan (q 0 i0 x0) = false).
    { unfold q. assert (is_finite i0 = true) by (apply Fi; set_solver). assert (is_finite x0 = true) by (apply Fx; set_solver).
      case_decide; [|apply quot_nan; try done; apply f1em6_val]. destruct fone_val as [V1 V2]. apply quot_nan; try done. change (B2R (fmk 1 0)) with (B2R fone). rewrite V2. lra. }
    clear -G4 Hn. destruct (q 0 i0 x0) as [[]|[]| |[] ? ? ?]; done.
Qed.
Lemma distance_nan ideal k x v : finite_vec ideal -> finite_vec x -> distance_along ideal k x v -> is_nan v = false.
Proof.
  intros Fi Fx [(j & i & f & Hi & Hf & ->) _]. unfold finite_vec in Fi, Fx. rewrite Forall_forall in Fi, Fx. apply elem_of_list_lookup_2 in Hi, Hf.
  assert (Hone : is_finite (fmk 1 0) = true /\ (0 < B2R (fmk 1 0))%R).
  { destruct fone_val as [G1 G2]. split; [exact G1|]. change (B2R (fmk 1 0)) with (B2R fone). rewrite G2. lra. }
  case_decide; apply quot_nan; auto; try apply f1em6_val; apply Hone.
Qed.
Lemma distance_unique ideal k x v w : finite_vec ideal -> finite_vec x -> distance_along ideal k x v -> distance_along ideal k x w -> fval v = fval w.
Proof.
  intros Fi Fx Dv Dw. pose proof (distance_nan _ _ _ _ Fi Fx Dv) as Nv. pose proof (distance_nan _ _ _ _ Fi Fx Dw) as Nw.
  destruct Dv as [(j & i & f & Hi & Hf & Ev) Hv]. destruct Dw as [(j' & i' & f' & Hi' & Hf' & Ew) Hw]. specialize (Hv _ _ _ Hi' Hf'). specialize (Hw _ _ _ Hi Hf).
  rewrite <- Ew in Hv. rewrite <- Ev in Hw. rewrite flt_fval in Hv, Hw by done. revert Hv Hw. repeat case Rlt_bool_spec; try done. lra.
Qed.
Lemma extreme_point_ok d fmat extreme ideal k : 0 < d -> matrix d fmat -> matrix d extreme -> length ideal = d -> finite_vec ideal -> fmat <> [] ->
  exists e, extreme_point fmat extreme ideal k = Some e /\ length e = d /\ finite_vec e /\ extreme_along ideal k (fmat ++ extreme) e.
Proof.
  intros Hd Hm He Li Fi Hne. unfold extreme_point. assert (Hall : matrix d (fmat ++ extreme)) by (by apply Forall_app).
  remember (fmat ++ extreme) as pts eqn:Epts. assert (Hpne : pts <> []) by (rewrite Epts; by destruct fmat). clear Epts Hm He Hne fmat extreme.
  assert (Hrow : forall x, x ∈ pts -> length x = d /\ finite_vec x) by (unfold matrix in Hall; by rewrite Forall_forall in Hall).
  assert (HA : forall x, x ∈ pts -> exists v, ASF ideal (weightVector (length ideal) k) x = Some v /\ is_nan v = false /\ distance_along ideal k x v).
  { intros x Hx. destruct (Hrow x Hx). by apply (ASF_ok d). }
  destruct (mapM (ASF ideal (weightVector (length ideal) k)) pts) as [ds|] eqn:Em.
  2:{ exfalso. apply mapM_None in Em. apply Exists_exists in Em as (x & Hx & E). destruct (HA x Hx) as (v & E' & _). congruence. }
  apply mapM_Some in Em. cbn [mbind option_bind]. pose proof (Forall2_length _ _ _ Em) as Hlen.
  assert (Hnn : Forall (fun x => is_nan x = false) ds).
  { apply Forall_lookup. intros j v Hv. destruct (Forall2_lookup_r _ _ _ _ _ Em Hv) as (x & Hx & E). apply elem_of_list_lookup_2 in Hx.
    destruct (HA x Hx) as (v' & E' & N & _). congruence. }
  assert (Hdne : ds <> []) by (intros ->; by destruct pts).
  unfold argmin. rewrite decide_True by (destruct ds; [done|cbn; lia]). cbn [mbind option_bind].
  assert (Hswo : swo_on (fun x y => flt y x) ((fun x : b64 => x) <$> ds)) by (rewrite list_fmap_id; by apply swo_flip, flt_nn).
  pose proof (max_element_ok (fun x y => flt y x) (fun x : b64 => x) ds Hdne Hswo) as (w & Hw & Hmin & _). rewrite <- min_element_max in Hw.
  rewrite list_fmap_id in Hw, Hmin. destruct (Forall2_lookup_r _ _ _ _ _ Em Hw) as (e & He & Ee). rewrite He. exists e. split; [done|].
  pose proof (elem_of_list_lookup_2 _ _ _ He) as Hin. destruct (Hrow e Hin) as [Le Fe]. split; [done|]. split; [done|].
  destruct (HA e Hin) as (w' & E' & Nw & Dw). assert (w' = w) as -> by congruence. split; [done|]. split; [by exists w|].
  intros x v w' Hx Dv Dw'. destruct (Hrow x Hx) as [Lx Fx]. destruct (HA x Hx) as (v' & E2 & Nv' & Dv').
  apply elem_of_list_lookup in Hx as [j Hj]. destruct (Forall2_lookup_l _ _ _ _ _ Em Hj) as (v2 & Hv2 & E3). assert (v2 = v') as -> by congruence.
  specialize (Hmin j v' Hv2). cbn beta in Hmin. pose proof (distance_unique _ _ _ _ _ Fi Fx Dv Dv') as Q1. pose proof (distance_unique _ _ _ _ _ Fi Fe Dw' Dw) as Q2.
  rewrite flt_fval in Hmin by done. rewrite flt_fval; [by rewrite Q1, Q2|exact (distance_nan _ _ _ _ Fi Fx Dv)|exact (distance_nan _ _ _ _ Fi Fe Dw')].
Qed.
Lemma updateExtreme_ok d fmat extreme ideal : 0 < d -> matrix d fmat -> matrix d extreme -> length ideal = d -> finite_vec ideal -> fmat <> [] ->
  exists es, updateExtremePoints fmat extreme ideal = Some es /\ matrix d es /\ length es = d /\ forall k e, es !! k = Some e -> extreme_along ideal k (fmat ++ extreme) e.
Proof.
  intros Hd Hm He Li Fi Hne. unfold updateExtremePoints. destruct fmat as [|r0 fmat'] eqn:Ef; [done|]. rewrite <- Ef in *.
  assert (Hh : head fmat = Some r0) by (by rewrite Ef). rewrite Hh. cbn [mbind option_bind].
  assert (Hr0 : length r0 = d) by (rewrite Ef in Hm; by inversion Hm as [|? ? [? ?] ?]; subst). rewrite decide_True by lia.
  destruct (mapM (extreme_point fmat extreme ideal) (seq 0 (length ideal))) as [es|] eqn:Em.
  2:{ exfalso. apply mapM_None in Em. apply Exists_exists in Em as (k & Hk & E). destruct (extreme_point_ok d fmat extreme ideal k) as (e & E' & _); try done. congruence. }
  apply mapM_Some in Em. pose proof (Forall2_length _ _ _ Em) as Hlen. rewrite seq_length in Hlen. exists es. split; [done|].
  assert (Hes : forall k e, es !! k = Some e -> extreme_point fmat extreme ideal k = Some e).
  { intros k e Hk. destruct (Forall2_lookup_r _ _ _ _ _ Em Hk) as (k' & Hk' & E). apply lookup_seq in Hk' as [-> _]. done. }
  split; [|split; [lia|]].
  - apply Forall_lookup. intros k e Hk. specialize (Hes k e Hk). destruct (extreme_point_ok d fmat extreme ideal k) as (e' & E' & Le & Fe & _); try done.
    assert (e' = e) as -> by congruence. done.
  - intros k e Hk. specialize (Hes k e Hk). destruct (extreme_point_ok d fmat extreme ideal k) as (e' & E' & _ & _ & G); try done. by assert (e' = e) as -> by congruence.
Qed.

(** ** Association *)
Lemma inner_fold a : forall b acc, foldl (fun acc p => fadd acc (fmul p.1 p.2)) acc (zip a b) = inner_from acc a b.
Proof. induction a as [|x a IH]; intros [|y b] acc; try done. cbn. apply IH. Qed.
Lemma inner_product_eq a b : inner_product a b = inner a b.
Proof. unfold inner_product, inner. apply inner_fold. Qed.
Lemma normalize_ok f : forall ideal nadir, length ideal = length f -> length nadir = length f -> normalized f ideal nadir (normalize_loop f ideal nadir).
Proof.
  induction f as [|x f IH]; intros [|i ideal] [|n nadir] Hi Hn; try done. cbn in Hi, Hn. destruct (IH ideal nadir) as [L G]; [lia|lia|].
  split; [cbn; by rewrite L|]. intros [|j] fj ij nj Hf Hi' Hn'; cbn [lookup list_lookup] in Hf, Hi', Hn'; [|exact (G j fj ij nj Hf Hi' Hn')].
  apply (inj Some) in Hf as <-. apply (inj Some) in Hi' as <-. apply (inj Some) in Hn' as <-. done.
Qed.
Lemma associate_spec reduce square d lines ideal nadir f : lines <> [] -> Forall (fun l => length l = d) lines -> length ideal = d -> length nadir = d -> length f = d ->
  exists x r v line, associate reduce square lines ideal nadir f = Some (r, v) /\ normalized f ideal nadir x /\ lines !! r = Some line /\ line_distance reduce square line x v /\
    ((forall l, l ∈ lines -> is_nan (inner x l) = false) -> first_max flt (inner x <$> lines) r).
Proof.
  intros Hne Hl Hi Hn Hf. pose proof (normalize_ok f ideal nadir ltac:(lia) ltac:(lia)) as Hx.
  unfold associate, normalizeFitnessVec. rewrite decide_True by lia. cbn [mbind option_bind]. remember (normalize_loop f ideal nadir) as x eqn:Ex. clear Ex.
  pose proof (max_element_lt flt (fun line => inner_product x line) lines Hne) as Hlt. cbn zeta.
  assert (Hfm : (forall l, l ∈ lines -> is_nan (inner x l) = false) -> first_max flt (inner x <$> lines) (max_element flt (fun line => inner_product x line) lines)).
  { intros Hnn. assert (E : inner x <$> lines = (fun line => inner_product x line) <$> lines) by (apply list_fmap_ext; intros ? l _; by rewrite inner_product_eq).
    rewrite E. apply max_element_ok; [done|]. rewrite <- E. apply flt_nn. apply Forall_fmap, Forall_forall. exact Hnn. }
  remember (max_element flt _ lines) as c eqn:Ec. clear Ec. destruct (lookup_lt_is_Some_2 lines c Hlt) as [line Hline]. rewrite Hline. cbn [mbind option_bind].
  destruct Hx as [Lx Hx]. assert (Lline : length line = d) by (rewrite Forall_forall in Hl; apply Hl; by eapply elem_of_list_lookup_2).
  unfold perpendicularDistanceSq. rewrite decide_True by lia. eexists x, c, _, line. split; [done|]. split; [done|]. split; [done|]. split; [|done].
  eexists. split; [|split; [reflexivity|]].
  - rewrite fmap_length, zip_with_length. lia.
  - intros j l p Hj Hp. rewrite list_lookup_fmap, lookup_zip_with, Hj. cbn [mbind option_bind]. rewrite Hp. cbn [fmap option_fmap option_map mbind option_bind].
    rewrite !inner_product_eq. done.
Qed.
Lemma associate_all_spec reduce square d lines fmat ideal nadir els : lines <> [] -> Forall (fun l => length l = d) lines -> length ideal = d -> length nadir = d -> Forall (fun l => length l = d) fmat ->
  NoDup els.*1 -> forall info, length info = length fmat -> (forall e, e ∈ els -> e.1 < length fmat) ->
  exists info', associate_all reduce square lines fmat ideal nadir els info = Some info' /\ length info' = length info /\
    (forall k, k ∉ els.*1 -> info' !! k = info !! k) /\
    forall idx rk f, (idx, rk) ∈ els -> fmat !! idx = Some f -> exists r v c0, associate reduce square lines ideal nadir f = Some (r, v) /\ info !! idx = Some c0 /\ info' !! idx = Some (CInfo (c_rank c0) r v).
Proof.
  intros Hne Hl Hi Hn Hm. induction els as [|[idx rk] els IH]; intros Hnd info Hlen Hels; cbn [associate_all].
  - exists info. split; [done|]. split; [done|]. split; [done|]. intros idx rk f H. by apply elem_of_nil in H.
  - rewrite fmap_cons in Hnd. apply NoDup_cons in Hnd as [Hnin Hnd]. cbn [fst] in Hnin.
    assert (Hidx : idx < length fmat) by (apply (Hels (idx, rk)), elem_of_cons; by left).
    destruct (lookup_lt_is_Some_2 fmat idx Hidx) as [f Hf]. rewrite Hf. cbn [mbind option_bind].
    destruct (associate_spec reduce square d lines ideal nadir f) as (x & r & v & line & E & _); try done.
    { rewrite Forall_forall in Hm. apply Hm. by eapply elem_of_list_lookup_2. }
    rewrite E. cbn [mbind option_bind]. destruct (lookup_lt_is_Some_2 info idx) as [c0 Hc0]; [lia|]. rewrite Hc0. cbn [mbind option_bind].
    destruct (IH Hnd (<[idx := CInfo (c_rank c0) r v]> info)) as (info' & E' & L' & G1 & G2); [by rewrite insert_length|intros e He; apply Hels, elem_of_cons; by right|].
    rewrite insert_length in L'. exists info'. split; [done|]. split; [done|]. split.
    + intros k Hk. rewrite fmap_cons in Hk. apply not_elem_of_cons in Hk as [Hk1 Hk2]. rewrite G1 by done. by apply list_lookup_insert_ne.
    + intros i' rk' f' Hin Hf'. apply elem_of_cons in Hin as [[= -> ->]|Hin].
      * assert (f' = f) as -> by congruence. exists r, v, c0. split; [done|]. split; [done|]. rewrite G1 by done. apply list_lookup_insert. lia.
      * destruct (G2 i' rk' f' Hin Hf') as (r' & v' & c' & Q1 & Q2 & Q3). exists r', v', c'. split; [done|]. split; [|done].
        rewrite list_lookup_insert_ne in Q2; [done|]. intros <-. apply Hnin. apply elem_of_list_fmap. by exists (idx, rk').
Qed.
Lemma nadir_finite rest : forall a p, finite_vec a -> Forall finite_vec rest -> nadir_loop rest (Some a) = Some p -> finite_vec p.
Proof.
  induction rest as [|r rest IH]; intros a p Fa Fr E; [injection E as <-; done|]. inversion Fr as [|? ? F1 F2]; subst.
  unfold nadir_loop in *. cbn [fold_left mbind option_bind] in E. destruct (elementwise_min flt a r) as [b|] eqn:Eb.
  - apply (IH b); try done. clear -Eb Fa F1. revert r b Eb F1. unfold elementwise_min. induction a as [|x a IH]; intros [|y r] b Eb F1; try done; cbn [elementwise] in Eb.
    + injection Eb as <-. done.
    + destruct (elementwise (std_min flt) a r) as [k|] eqn:Ek; [|done]. cbn [mbind option_bind] in Eb. injection Eb as <-. inversion Fa; subst. inversion F1; subst.
      constructor; [unfold std_min; by destruct (flt y x)|]. by apply (IH ltac:(done) r).
  - exfalso. clear -E. induction rest as [|r' rest IH]; [done|]. by apply IH.
Qed.
Lemma association_ok reduce square d m els st : 0 < d -> nsga3_ok d st -> finite_vec (ideal_point st) -> matrix d (extreme_points st) -> matrix d m -> m <> [] ->
  length (sol_info st) = length m -> NoDup els.*1 -> (forall e, e ∈ els -> e.1 < length m) ->
  exists st', associatePopWithRefs reduce square m els st = Some st' /\ associated reduce square d m els st st'.
Proof.
  intros Hd (H1 & H2 & H3 & H4 & H5) Fi He Hm Hne Hlen Hnd Hels. unfold associatePopWithRefs. rewrite decide_True by done.
  destruct (updateIdeal_ok d m (ideal_point st) Hm Hne H4 Fi) as (ideal & Ei & Fi' & Hi). rewrite Ei. cbn [mbind option_bind].
  unfold updateNadirPoint. destruct (updateExtreme_ok d m (extreme_points st) ideal) as (es & Ee & Mes & Les & Hes); try done; [apply Hi|].
  rewrite Ee. cbn [mbind option_bind]. assert (Hesne : es <> []) by (intros ->; cbn in Les; lia).
  destruct (front_nadir_ok d es Mes Hesne) as (nadir & En & Hn). rewrite En. cbn [mbind option_bind].
  assert (Ers : resize_info (length m) (sol_info st) = sol_info st).
  { unfold resize_info. rewrite take_ge by lia. rewrite Hlen, Nat.sub_diag. by rewrite app_nil_r. }
  rewrite Ers. assert (Hmd : Forall (fun l => length l = d) m) by (eapply Forall_impl; [exact Hm|]; by intros ? [? _]).
  destruct (associate_all_spec reduce square d (ref_lines st) m ideal nadir els H1 H2 (proj1 Hi) (proj1 Hn) Hmd Hnd (sol_info st) Hlen Hels) as (info & Ea & La & G1 & G2).
  rewrite Ea. cbn [mbind option_bind]. eexists. split; [done|]. constructor; cbn [ref_lines sol_info niche_counts ideal_point nadir_point extreme_points]; try done.
  - split; [done|]. split; [done|]. destruct es as [|e0 es']; [done|]. inversion Mes as [|? ? [_ F0] Mes']; subst. apply (nadir_finite es' e0); try done.
    eapply Forall_impl; [exact Mes'|]. by intros ? [_ ?].
  - intros idx rk f Hin Hf. destruct (G2 idx rk f Hin Hf) as (r & v & c0 & E & Hc0 & Hc).
    destruct (associate_spec reduce square d (ref_lines st) ideal nadir f) as (x & r' & v' & line & E' & Q1 & Q2 & Q3 & Q4); try done; [apply Hi|apply Hn| |].
    { rewrite Forall_forall in Hmd. apply Hmd. by eapply elem_of_list_lookup_2. }
    assert (r' = r /\ v' = v) as [-> ->] by (split; congruence). exists x, (CInfo (c_rank c0) r v), line. split; [done|]. split; [done|]. split; [by exists c0|]. done.
Qed.
