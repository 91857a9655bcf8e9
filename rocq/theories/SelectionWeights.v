(** The weights computed by the selection operators are good weights. *)
From Coq Require Import Reals ZArith Lra Lia.
From stdpp Require Import list list_numbers sets.
From Flocq Require Import Core BinarySingleNaN.
From Flocq Require Import Relative.
From Verif Require Import StdSort FloatBase FloatModel FloatSpec FloatProofs AlgorithmModel AlgorithmSpec AlgorithmProofs RealCrossoverModel RealSpec RealProofs RealCrossoverProofs
  RandModel RandSpec RandProofs BinomialProofs RandProps SelectionModel SelectionSpec SelectionProofs.

Local Open Scope R_scope.

(** ** Roulette *)
Lemma flarge_ge (a : b64) : is_finite a = true -> B2R a <= B2R flarge.
Proof. intros F. pose proof (flarge_max a F) as G. by rewrite !fval_finite in G. Qed.
Lemma srnd_abs_large x : Rabs x <= B2R flarge -> srnd x = rnd x /\ Rabs (rnd x) <= B2R flarge.
Proof.
  intros H. apply Rabs_le_inv in H. pose proof (finite_abs_lt flarge eq_refl) as G. apply Rabs_lt_inv in G.
  assert (- B2R flarge <= rnd x <= B2R flarge).
  { rewrite <- (rnd_id flarge) at 2. split; [|apply rnd_mono; lra]. rewrite <- (rnd_id flarge), <- rnd_opp. apply rnd_mono. lra. }
  split; [unfold srnd; apply sat_id; lra|]. apply Rabs_le. lra.
Qed.
Lemma third_vals : is_finite fthird = true /\ is_finite ftwothird = true /\ / 4 <= B2R fthird <= / 3 /\ B2R ftwothird = 2 * B2R fthird.
Proof.
  destruct (fmk_val 6004799503160661 (-54)) as (F1 & V1 & _); [lia|lia|]. destruct (fmk_val 6004799503160661 (-53)) as (F2 & V2 & _); [lia|lia|].
  assert (E : bpow radix2 (-53) = 2 * bpow radix2 (-54)) by (change (-53)%Z with (1 + -54)%Z; rewrite bpow_plus; reflexivity).
  split; [done|]. split; [done|]. unfold fthird, ftwothird. rewrite V1, V2, E. split; [|lra].
  assert (E2 : bpow radix2 (-54) = / 18014398509481984) by (vm_compute; reflexivity). rewrite E2. lra.
Qed.
Section roulette.
Variable fvec : list b64.
Hypothesis ne : fvec <> [].
Hypothesis fin : Forall (fun f => is_finite f = true) fvec.

Lemma roulette_nonneg : Forall (fun f => 0 <= B2R f) fvec ->
  exists ws, Roulette_weights fvec = Some ws /\ Forall2 (fun w f => is_finite w = true /\ B2R w = B2R f) ws fvec.
Proof.
  intros Hn. destruct (fmin_of_ok fvec ne fin) as (m & Hm & Hin & _). unfold Roulette_weights. rewrite Hm. cbn [mbind option_bind].
  rewrite Forall_forall in Hn, fin. pose proof (fin m Hin) as Fm. pose proof (Hn m Hin) as Hm0. destruct fone_val as [F1 V1].
  rewrite fle_finite by done. cbn [fzero B2R]. rewrite Rle_bool_true by done.
  assert (E : fmin fzero m = fzero) by (unfold fmin; rewrite flt_finite by done; cbn [fzero B2R]; by rewrite Rlt_bool_false by done). rewrite E. cbn zeta.
  assert (Eo : fmul (fneg ftwothird) fzero = B754_zero true) by (vm_compute; reflexivity). rewrite Eo.
  eexists. split; [reflexivity|]. apply Forall2_fmap_l. apply Forall_Forall2_diag. apply Forall_forall. intros f Hf. unfold multiply_add.
  pose proof (fin f Hf) as Ff. pose proof (finite_abs_lt f Ff) as Gf.
  destruct (fmul_finite fone f F1 Ff) as [N1 E1]. rewrite V1, Rmult_1_l, srnd_id in E1 by done.
  assert (Fx : is_finite (fmul fone f) = true) by (apply finite_of_val; [done|]; by rewrite E1). rewrite fval_finite in E1 by done.
  destruct (fadd_finite (fmul fone f) (B754_zero true) Fx eq_refl) as [N2 E2]. rewrite E1 in E2. cbn [B2R] in E2. rewrite Rplus_0_r, srnd_id in E2 by done.
  assert (Fy : is_finite (fadd (fmul fone f) (B754_zero true)) = true) by (apply finite_of_val; [done|]; by rewrite E2). rewrite fval_finite in E2 by done. done.
Qed.

Lemma half_large x : Rabs x <= B2R flarge / 3 -> srnd (2 * x) = rnd (2 * x) /\ srnd x = rnd x.
Proof.
  intros H. assert (0 <= B2R flarge) by (pose proof (flarge_ge fzero eq_refl) as G; cbn [fzero B2R] in G; done). split; apply srnd_abs_large.
  - rewrite Rabs_mult, (Rabs_pos_eq 2) by lra. lra.
  - lra.
Qed.
Lemma rel_error x : bpow radix2 (-1022) <= x -> Rabs (rnd x - x) <= x / 8.
Proof.
  intros H. pose proof (bpow_gt_0 radix2 (-1022)).
  pose proof (relative_error_N_FLT radix2 (-1074) 53 ltac:(lia) (fun x => negb (Z.even x)) x) as G. rewrite (Rabs_pos_eq x) in G by lra.
  specialize (G H). eapply Rle_trans; [exact G|]. assert (Hb : bpow radix2 (-53 + 1) <= bpow radix2 (-2)) by (apply bpow_le; lia). assert (E4 : bpow radix2 (-2) = / 4) by reflexivity. rewrite E4 in Hb. apply Rle_trans with (/ 2 * / 4 * x); [|lra]. apply Rmult_le_compat_r; [lra|]. apply Rmult_le_compat_l; [lra|done].
Qed.
Lemma roulette_negative m : fmin_of fvec = Some m -> m ∈ fvec -> Forall (fun w => B2R m <= B2R w) fvec -> B2R m < 0 ->
  exists ws, Roulette_weights fvec = Some ws /\ length ws = length fvec /\ Forall (fun w => is_finite w = true /\ 0 <= B2R w) ws /\
  ((exists f, f ∈ fvec /\ bpow radix2 (-1019) <= Rabs (B2R f)) -> exists w, w ∈ ws /\ bpow radix2 (-1022) <= B2R w).
Proof.
  intros Hm Hin Hmin Hneg. unfold Roulette_weights. rewrite Hm. cbn [mbind option_bind]. rewrite Forall_forall in fin, Hmin. pose proof (fin m Hin) as Fm.
  rewrite fle_finite by done. cbn [fzero B2R]. rewrite Rle_bool_false by done.
  assert (E : fmin fzero m = m) by (unfold fmin; rewrite flt_finite by done; cbn [fzero B2R]; by rewrite Rlt_bool_true by done). rewrite E. cbn zeta.
  destruct third_vals as (F3 & F23 & Ht & V23). remember (B2R fthird) as t eqn:Et. remember (- B2R m) as L eqn:EL.
  assert (HL : 0 < L <= B2R flarge).
  { split; [lra|]. pose proof (flarge_ge (fneg m)) as G. assert (Ff : is_finite (fneg m) = true) by (unfold fneg; by rewrite is_finite_Bopp). specialize (G Ff).
    assert (B2R (fneg m) = L) as <- by (unfold fneg; rewrite B2R_Bopp; lra). done. }
  assert (Fn : is_finite (fneg ftwothird) = true) by (vm_compute; reflexivity).
  assert (Vn : B2R (fneg ftwothird) = - (2 * t)) by (unfold fneg; rewrite B2R_Bopp, V23; lra).
  assert (HtL : 0 <= t * L <= B2R flarge / 3) by (split; [apply Rmult_le_pos; lra|]; apply Rle_trans with (/ 3 * L); [apply Rmult_le_compat_r; lra|lra]).
  destruct (half_large (t * L)) as [S2 S1]; [rewrite Rabs_pos_eq by lra; lra|].
  assert (Fl : is_finite flarge = true) by reflexivity.
  destruct (fmul_finite (fneg ftwothird) m Fn Fm) as [No Eo]. rewrite Vn in Eo. replace (- (2 * t) * B2R m) with (2 * (t * L)) in Eo by (rewrite EL; lra).
  assert (Fo : is_finite (fmul (fneg ftwothird) m) = true).
  { apply finite_of_val; [done|]. rewrite Eo. rewrite S2. destruct (srnd_abs_large (2 * (t * L))) as [_ G]; [rewrite Rabs_pos_eq by lra; lra|].
    pose proof (finite_abs_lt flarge Fl) as G2. rewrite Rabs_pos_eq in G2 by lra. lra. }
  rewrite fval_finite in Eo by done. remember (fmul (fneg ftwothird) m) as o eqn:Eqo. clear Eqo.
  assert (Hob : B2R o <= B2R (fmul ftwothird flarge)).
  { destruct (fmul_finite ftwothird flarge F23 Fl) as [_ E2]. assert (F2 : is_finite (fmul ftwothird flarge) = true) by (vm_compute; reflexivity). rewrite fval_finite in E2 by done.
    rewrite E2, Eo, V23. apply srnd_mono. rewrite Rmult_assoc. apply Rmult_le_compat_l; [lra|]. apply Rmult_le_compat_l; lra. }
  assert (W : forall f, f ∈ fvec -> is_finite (multiply_add fthird o f) = true /\ B2R (multiply_add fthird o f) = srnd (srnd (t * B2R f) + B2R o) /\ 0 <= B2R (multiply_add fthird o f)).
  { intros f Hf. pose proof (fin f Hf) as Ff. specialize (Hmin f Hf). unfold multiply_add.
    pose proof (fmul_unit fthird f F3 Ff ltac:(lra)) as Fx. destruct (fmul_finite fthird f F3 Ff) as [_ Ex]. rewrite fval_finite in Ex by done. rewrite <- Et in Ex.
    destruct (fadd_finite (fmul fthird f) o Fx Fo) as [Ns Es]. rewrite Ex in Es.
    assert (Hge : 0 <= srnd (t * B2R f) + B2R o).
    { rewrite Eo. assert (- srnd (t * L) <= srnd (t * B2R f)). { rewrite <- srnd_opp. apply srnd_mono. assert (t * (- L) <= t * B2R f); [apply Rmult_le_compat_l; lra|lra]. }
      assert (srnd (t * L) <= srnd (2 * (t * L))) by (apply srnd_mono; lra). lra. }
    assert (Hle : srnd (t * B2R f) + B2R o <= B2R (fmul fthird flarge) + B2R (fmul ftwothird flarge)).
    { apply Rplus_le_compat; [|done]. assert (F2 : is_finite (fmul fthird flarge) = true) by (vm_compute; reflexivity).
      destruct (fmul_finite fthird flarge F3 Fl) as [_ E2]. rewrite fval_finite in E2 by done. rewrite E2, <- Et. apply srnd_mono. apply Rmult_le_compat_l; [lra|]. by apply flarge_ge. }
    assert (Fs : is_finite (fadd (fmul fthird f) o) = true).
    { apply finite_of_val; [done|]. rewrite Es. rewrite Rabs_pos_eq by (by apply srnd_ge_0). eapply Rle_lt_trans; [apply srnd_mono; exact Hle|].
      assert (Fa : is_finite (fadd (fmul fthird flarge) (fmul ftwothird flarge)) = true) by (vm_compute; reflexivity).
      destruct (fadd_finite (fmul fthird flarge) (fmul ftwothird flarge)) as [_ E2]; [vm_compute; reflexivity|vm_compute; reflexivity|]. rewrite fval_finite in E2 by done. rewrite <- E2.
      pose proof (finite_abs_lt _ Fa) as G. apply Rabs_lt_inv in G. apply G. }
    rewrite fval_finite in Es by done. split; [done|]. split; [done|]. rewrite Es. by apply srnd_ge_0. }
  eexists. split; [reflexivity|]. split; [apply fmap_length|]. split.
  - apply Forall_fmap, Forall_forall. intros f Hf. destruct (W f Hf) as (W1 & W2 & W3). by split.
  - intros (f & Hf & Hbig). assert (Hb1 : bpow radix2 (-1019) = 4 * bpow radix2 (-1021)) by (change (-1019)%Z with (2 + -1021)%Z; rewrite bpow_plus; reflexivity).
    assert (Hb2 : bpow radix2 (-1021) = 2 * bpow radix2 (-1022)) by (change (-1021)%Z with (1 + -1022)%Z; rewrite bpow_plus; reflexivity).
    pose proof (bpow_gt_0 radix2 (-1022)) as Hp. destruct (Rle_or_lt 0 (B2R f)) as [Hpos|Hn].
    + exists (multiply_add fthird o f). split; [apply elem_of_list_fmap; by exists f|]. destruct (W f Hf) as (_ & W2 & _). rewrite W2. rewrite Rabs_pos_eq in Hbig by done.
      rewrite <- (srnd_bpow (-1022)) by lia. apply srnd_mono. assert (srnd (bpow radix2 (-1022)) <= srnd (t * B2R f)).
      { apply srnd_mono. apply Rle_trans with (/ 4 * B2R f); [lra|]. apply Rmult_le_compat_r; lra. }
      rewrite srnd_bpow in H by lia. assert (0 <= B2R o) by (rewrite Eo; apply srnd_ge_0; lra). lra.
    + exists (multiply_add fthird o m). split; [apply elem_of_list_fmap; by exists m|]. destruct (W m Hin) as (_ & W2 & _). rewrite W2.
      rewrite <- (srnd_bpow (-1022)) by lia. apply srnd_mono. replace (t * B2R m) with (- (t * L)) by (rewrite EL; lra). rewrite srnd_opp, S1, Eo, S2.
      assert (HL2 : 4 * bpow radix2 (-1021) <= L). { specialize (Hmin f Hf). rewrite Rabs_left in Hbig by done. lra. }
      assert (Hx : bpow radix2 (-1021) <= t * L). { apply Rle_trans with (/ 4 * L); [lra|]. apply Rmult_le_compat_r; lra. }
      pose proof (rel_error (t * L) ltac:(lra)) as R1. pose proof (rel_error (2 * (t * L)) ltac:(lra)) as R2. apply Rabs_le_inv in R1, R2. lra.
Qed.
Lemma roulette_ok : exists ws, Roulette_weights fvec = Some ws /\ length ws = length fvec /\ Forall (fun w => is_finite w = true /\ 0 <= B2R w) ws /\
  (Forall (fun f => B2R f = 0) fvec \/ (exists f, f ∈ fvec /\ bpow radix2 (-1019) <= Rabs (B2R f)) -> good_weights ws).
Proof.
  destruct (fmin_of_ok fvec ne fin) as (m & Hm & Hin & Hmin). destruct (Rle_or_lt 0 (B2R m)) as [Hp|Hn].
  - assert (H0 : Forall (fun f => 0 <= B2R f) fvec) by (eapply Forall_impl; [exact Hmin|cbn; intros; lra]). destruct (roulette_nonneg H0) as (ws & Hw & Heq). exists ws. split; [done|].
    split; [by eapply Forall2_length|].
    assert (Hall : Forall (fun w => is_finite w = true /\ 0 <= B2R w) ws).
    { apply Forall_lookup. intros i w Hi. destruct (Forall2_lookup_l _ _ _ _ _ Heq Hi) as (f & Hf & E1 & E2). split; [done|]. rewrite E2. rewrite Forall_forall in H0. apply H0. by eapply elem_of_list_lookup_2. }
    split; [done|]. intros Hc. split; [done|]. destruct Hc as [Hz|(f & Hf & Hb)].
    + left. apply Forall_lookup. intros i w Hi. destruct (Forall2_lookup_l _ _ _ _ _ Heq Hi) as (f & Hf & E1 & E2). rewrite E2. rewrite Forall_forall in Hz. apply Hz. by eapply elem_of_list_lookup_2.
    + right. apply elem_of_list_lookup in Hf as [i Hi]. destruct (Forall2_lookup_r _ _ _ _ _ Heq Hi) as (w & Hwi & E1 & E2). exists w. split; [by eapply elem_of_list_lookup_2|].
      rewrite Forall_forall in H0. specialize (H0 f (elem_of_list_lookup_2 _ _ _ Hi)). rewrite Rabs_pos_eq in Hb by done. rewrite E2.
      assert (bpow radix2 (-1022) <= bpow radix2 (-1019)) by (apply bpow_le; lia). lra.
  - destruct (roulette_negative m Hm Hin Hmin Hn) as (ws & Hw & Hl & Hall & Hb). exists ws. split; [done|]. split; [done|]. split; [done|]. intros [Hz|Hc]; [|by split; [|right; apply Hb]].
    exfalso. rewrite Forall_forall in Hz. rewrite (Hz m Hin) in Hn. lra.
Qed.
End roulette.

(** ** Rank *)
Section rank.
Variable lerp : b64 -> b64 -> b64 -> b64.
Hypothesis lerp_ok : lerp_contract lerp.
Variable sort : (nat -> nat -> bool) -> list nat -> list nat.
Hypothesis sort_ok : sort_contract sort.
Variables lo hi : b64.
Hypothesis Flo : is_finite lo = true.
Hypothesis Fhi : is_finite hi = true.
Hypothesis lo0 : 0 <= B2R lo.
Hypothesis lohi : B2R lo <= B2R hi.
Definition rank_t (i n : nat) : b64 := fdiv (nat_to_f i) (fsub (nat_to_f n) fone).
Lemma rank_loop_ok is : forall i ws, NoDup is -> Forall (fun j => j < length ws)%nat is ->
  let r := rank_loop lerp lo hi i is ws in
  length r = length ws /\ (forall k j, is !! k = Some j -> r !! j = Some (lerp lo hi (rank_t (i + k) (length ws)))) /\ (forall j, j ∉ is -> r !! j = ws !! j).
Proof.
  induction is as [|j is IH]; intros i ws Hnd Hb; cbn [rank_loop]; cbn zeta; [done|]. apply NoDup_cons in Hnd as [Hj Hnd]. apply Forall_cons in Hb as [Hjb Hb].
  remember (<[j:=lerp lo hi (fdiv (nat_to_f i) (fsub (nat_to_f (length ws)) fone))]> ws) as ws2 eqn:E2. assert (Hl : length ws2 = length ws) by (subst ws2; apply insert_length).
  destruct (IH (S i) ws2 Hnd) as (H1 & H2 & H3); [by rewrite Hl|]. rewrite Hl in *. split; [done|]. split.
  - intros [|k] j' Hk; cbn in Hk.
    + injection Hk as <-. rewrite H3 by done. subst ws2. rewrite list_lookup_insert by done. unfold rank_t. by rewrite Nat.add_0_r.
    + rewrite (H2 k j' Hk). by rewrite Nat.add_succ_r.
  - intros j' Hj'. apply not_elem_of_cons in Hj' as [Hne Hj']. rewrite H3 by done. subst ws2. by rewrite list_lookup_insert_ne.
Qed.
Lemma rank_t_ok i n : (2 <= n)%nat -> (Z.of_nat n <= 2 ^ 40)%Z -> (i < n)%nat -> is_finite (rank_t i n) = true /\ 0 <= B2R (rank_t i n) <= 1 /\ (S i = n -> B2R (rank_t i n) = 1).
Proof.
  intros Hn Hn2 Hi. unfold rank_t, nat_to_f. destruct (fofZ_exact (Z.of_nat i)) as [F1 V1]; [lia|]. destruct (fofZ_exact (Z.of_nat n)) as [F2 V2]; [lia|]. destruct fone_val as [Fo Vo].
  destruct (fofZ_exact (Z.of_nat n - 1)) as [F3 V3]; [lia|].
  destruct (fsub_le (fofZ (Z.of_nat n)) fone 53 F2 Fo) as (F & V & _); [lia| |].
  { rewrite V2, Vo. rewrite <- (minus_IZR _ 1). rewrite Rabs_pos_eq by (apply IZR_le; lia). rewrite bpow_IZR by lia. apply IZR_le. lia. }
  rewrite V2, Vo, <- (minus_IZR _ 1), <- V3, srnd_id, V3 in V by done.
  assert (Hpos : 1 <= IZR (Z.of_nat n - 1)) by (apply IZR_le; lia).
  assert (Hir : 0 <= IZR (Z.of_nat i) <= IZR (Z.of_nat n - 1)) by (split; apply IZR_le; lia).
  destruct (fin_srnd (fdiv (fofZ (Z.of_nat i)) (fsub (fofZ (Z.of_nat n)) fone)) (IZR (Z.of_nat i) / IZR (Z.of_nat n - 1)) 0) as [Fd Vd].
  { rewrite <- V1, <- V. apply fdiv_finite; [done|done|rewrite V; lra]. } { lia. } { change (bpow radix2 0) with 1. apply ratio_range; lra. }
  split; [done|]. rewrite Vd. split.
  - apply (srnd_le_bpow _ 0); [lia|]. change (bpow radix2 0) with 1. apply ratio_range; lra.
  - intros E. replace (Z.of_nat i) with (Z.of_nat n - 1)%Z by lia. unfold Rdiv. rewrite Rinv_r by lra. apply (srnd_bpow 0). lia.
Qed.
Lemma rank_ok fvec : (2 <= length fvec)%nat -> (Z.of_nat (length fvec) <= 2 ^ 40)%Z -> Forall (fun f => is_finite f = true) fvec ->
  exists ws, Rank_weights lerp sort lo hi fvec = Some ws /\ length ws = length fvec /\ Forall (fun w => is_finite w = true /\ 0 <= B2R w) ws /\
    (B2R hi = 0 \/ bpow radix2 (-1022) <= B2R hi -> good_weights ws).
Proof.
  intros Hn Hn2 Hfin. unfold Rank_weights. destruct (argsort_ok flt sort false fvec sort_ok (flt_swo fvec Hfin)) as [Hp _]. remember (argsort sort flt false fvec) as is eqn:Eis.
  unfold index_perm in Hp. assert (Hnd : NoDup is) by (rewrite Hp; apply NoDup_seq). assert (Hlen : length is = length fvec) by (rewrite Hp; apply seq_length).
  destruct (rank_loop_ok is 0 (replicate (length fvec) fzero) Hnd) as (H1 & H2 & _). { apply Forall_forall. intros j Hj. rewrite Hp in Hj. apply elem_of_seq in Hj. rewrite replicate_length. lia. }
  rewrite replicate_length in H1, H2. remember (rank_loop lerp lo hi 0 is (replicate (length fvec) fzero)) as ws eqn:Ews. exists ws. split; [done|]. split; [done|].
  assert (W : forall j w, ws !! j = Some w -> is_finite w = true /\ B2R lo <= B2R w <= B2R hi).
  { intros j w Hw. assert (Hj : j ∈ is) by (rewrite Hp; apply elem_of_seq; apply lookup_lt_Some in Hw; lia). apply elem_of_list_lookup in Hj as [k Hk]. rewrite (H2 k j Hk) in Hw. injection Hw as <-.
    apply lookup_lt_Some in Hk. destruct (rank_t_ok (0 + k) (length fvec)) as (T1 & T2 & _); [lia|lia|lia|]. by apply (lerp_in lerp lerp_ok). }
  assert (Hall : Forall (fun w => is_finite w = true /\ 0 <= B2R w) ws) by (apply Forall_lookup; intros j w Hw; destruct (W j w Hw); split; [done|lra]).
  split; [done|]. intros Hc. split; [done|]. destruct Hc as [Hz|Hge].
  - left. apply Forall_lookup. intros j w Hw. destruct (W j w Hw). lra.
  - right. destruct (lookup_lt_is_Some_2 is (length fvec - 1)) as [j Hj]; [lia|]. exists (lerp lo hi (rank_t (0 + (length fvec - 1)) (length fvec))). specialize (H2 _ _ Hj).
    split; [by eapply elem_of_list_lookup_2|]. destruct (rank_t_ok (0 + (length fvec - 1)) (length fvec)) as (T1 & T2 & T3); [lia|lia|lia|].
    rewrite (lerp_one lerp lerp_ok); [done..|]. apply T3. lia.
Qed.
End rank.

(** ** Sigma *)
Lemma clamp_val v lo hi : is_finite lo = true -> is_finite hi = true -> B2R lo <= B2R hi -> is_nan v = false ->
  exists u, clamp v lo hi = Some u /\ is_finite u = true /\ B2R lo <= B2R u <= B2R hi /\ (is_finite v = true -> B2R lo <= B2R v <= B2R hi -> u = v) /\ (fval v <= fval lo -> B2R u = B2R lo) /\ (B2R lo < B2R u -> fval u <= fval v).
Proof.
  intros Fl Fh H Hv. unfold clamp. rewrite (flt_finite hi lo) by done. rewrite Rlt_bool_false by done.
  pose proof (fval_finite lo Fl) as El. pose proof (fval_finite hi Fh) as Eh.
  rewrite !flt_fval by (done || by apply is_finite_not_nan). rewrite El, Eh. case Rlt_bool_spec; intros H1.
  - exists lo. split; [done|]. split; [done|]. split; [lra|]. split; [intros Fv Hr; rewrite fval_finite in H1 by done; lra|]. split; [done|]. intros; lra.
  - case Rlt_bool_spec; intros H2.
    + exists hi. split; [done|]. split; [done|]. split; [lra|]. split; [intros Fv Hr; rewrite fval_finite in H2 by done; lra|]. split; [intros; lra|]. intros; lra.
    + exists v. assert (Fv : is_finite v = true). { apply finite_of_val; [done|]. pose proof (fval_finite_bound lo Fl). pose proof (fval_finite_bound hi Fh). apply Rabs_def1; lra. }
      rewrite (fval_finite v) in * by done. split; [done|]. split; [done|]. split; [lra|]. split; [done|]. split; [lra|]. intros; lra.
Qed.
(** 1 + x is not a small positive number. *)
Lemma one_plus_gap x : is_nan x = false -> is_nan (fadd fone x) = false /\ (0 < fval (fadd fone x) -> bpow radix2 (-53) <= fval (fadd fone x)).
Proof.
  intros Hx. destruct fone_val as [F1 V1]. assert (N : is_nan (fadd fone x) = false) by (apply fadd_not_nan; [done|done|by left]). split; [done|].
  destruct (is_finite x) eqn:Fx.
  - destruct (fadd_finite fone x F1 Fx) as [_ E]. rewrite V1 in E. rewrite E. intros Hp.
    assert (Hx1 : -1 < B2R x). { apply Rnot_le_lt. intros Hle. assert (srnd (1 + B2R x) <= srnd 0) by (apply srnd_mono; lra). rewrite srnd_0 in H. lra. }
    rewrite <- (srnd_bpow (-53)) by lia. apply srnd_mono.
    assert (G : - B2R x <= 1 - bpow radix2 (-53)).
    { assert (Hpred : pred radix2 (SpecFloat.fexp 53 1024) 1 = 1 - bpow radix2 (-53)).
      { change 1 with (bpow radix2 0) at 1. rewrite pred_bpow by (apply fexp_valid). reflexivity. }
      rewrite <- Hpred. apply pred_ge_gt; [apply fexp_valid| | |lra].
      - apply generic_format_opp. apply generic_format_B2R.
      - change 1 with (bpow radix2 0). apply generic_format_bpow. by vm_compute. }
    lra.
  - intros Hp. destruct x as [|[]| |]; try done.
    + exfalso. revert Hp. assert (E : fadd fone (B754_infinity true) = B754_infinity true) by (vm_compute; reflexivity). rewrite E. cbn [fval]. pose proof femax_pos. lra.
    + assert (E : fadd fone (B754_infinity false) = B754_infinity false) by (vm_compute; reflexivity). rewrite E. cbn [fval]. apply Rlt_le, bpow_lt. lia.
Qed.
Section sigma.
Variables fmean fdev : list b64 -> b64.
Lemma sigma_ok scale fvec : fvec <> [] -> Forall (fun f => is_finite f = true) fvec -> is_finite (fmean fvec) = true -> is_nan (fdev fvec) = false ->
  exists ws, Sigma_weights fmean fdev scale fvec = Some ws /\ length ws = length fvec /\ good_weights ws.
Proof.
  intros Hne Hfin Hmean Hdev. unfold Sigma_weights. cbn zeta. destruct fsmall_val as [Fs Vs]. assert (Fl : is_finite flarge = true) by reflexivity. destruct fone_val as [F1 V1].
  destruct (clamp_val (fdev fvec) fsmall flarge Fs Fl) as (c & Ec & Fc & Hc & _); [by apply flarge_ge|done|]. rewrite Ec. cbn [mbind option_bind].
  pose proof (bpow_gt_0 radix2 (-1022)) as Hp.
  assert (Hi : is_finite (fdiv fone c) = true /\ B2R (fdiv fone c) <> 0).
  { assert (Hr : bpow radix2 (-1024) <= 1 / B2R c <= bpow radix2 1022).
    { pose proof (finite_abs_lt c Fc) as G. rewrite Rabs_pos_eq in G by lra. unfold Rdiv. rewrite Rmult_1_l. split.
      - change (-1024)%Z with (- (1024))%Z. rewrite bpow_opp. apply Rinv_le; lra.
      - replace (bpow radix2 1022) with (/ bpow radix2 (-1022)) by (by rewrite <- bpow_opp). apply Rinv_le; lra. }
    pose proof (bpow_gt_0 radix2 (-1024)). destruct (fin_srnd (fdiv fone c) (1 / B2R c) 1022) as [F V]; [rewrite <- V1; apply fdiv_finite; [done|done|lra]|lia|lra|].
    split; [done|]. rewrite V. pose proof (srnd_between (1 / B2R c) (-1024) 1022 ltac:(lia) ltac:(lia) Hr). lra. }
  destruct Hi as [Fi Vi]. remember (fdiv fone c) as i eqn:Ei. clear Ei.
  assert (W : forall f, f ∈ fvec -> exists w, clamp (fadd fone (fmul (fsub f (fmean fvec)) i)) fzero flarge = Some w /\ is_finite w = true /\ 0 <= B2R w /\ (0 < B2R w -> bpow radix2 (-53) <= B2R w)).
  { intros f Hf. rewrite Forall_forall in Hfin. pose proof (Hfin f Hf) as Ff.
    assert (N1 : is_nan (fsub f (fmean fvec)) = false) by (apply fsub_not_nan; [by apply is_finite_not_nan|by apply is_finite_not_nan|by left]).
    assert (N2 : is_nan (fmul (fsub f (fmean fvec)) i) = false). { apply fmul_not_nan; [done|by apply is_finite_not_nan|right; by rewrite fval_finite|by left]. }
    destruct (one_plus_gap _ N2) as [N3 Hgap]. remember (fadd fone (fmul (fsub f (fmean fvec)) i)) as v eqn:Ev. clear Ev.
    destruct (clamp_val v fzero flarge eq_refl Fl) as (u & Eu & Fu & Hu & _ & Hlow & Hup); [by apply (flarge_ge fzero)|done|]. exists u. split; [done|]. split; [done|]. cbn [fzero B2R fval] in *. split; [lra|].
    intros Hpos. assert (0 < fval v) as Hv by (apply Rnot_le_lt; intros Hle; specialize (Hlow Hle); lra). specialize (Hgap Hv). destruct (Rle_or_lt (fval v) (B2R flarge)) as [Hle|Hgt].
    - assert (Fv : is_finite v = true). { apply finite_of_val; [done|]. pose proof (finite_abs_lt flarge Fl) as G. apply Rabs_lt_inv in G. rewrite Rabs_pos_eq; lra. }
      rewrite (fval_finite v) in * by done. destruct (clamp_val v fzero flarge eq_refl Fl) as (u2 & Eu2 & _ & _ & Hsame & _); [by apply (flarge_ge fzero)|done|]. rewrite Eu in Eu2. injection Eu2 as <-.
      rewrite Hsame; [done|done|cbn [fzero B2R]; lra].
    - destruct (clamp_val v fzero flarge eq_refl Fl) as (u2 & Eu2 & _); [by apply (flarge_ge fzero)|done|]. unfold clamp in Eu. rewrite (flt_finite flarge fzero) in Eu by done.
      rewrite Rlt_bool_false in Eu by (by apply (flarge_ge fzero)). rewrite !flt_fval in Eu by done. rewrite Rlt_bool_false in Eu by (cbn [fzero fval B2R]; lra).
      rewrite Rlt_bool_true in Eu by done. apply (inj Some) in Eu. subst u. destruct (fmk_val 1 (-53)) as (Fk & Vk & _); [lia|lia|]. rewrite Rmult_1_l in Vk. rewrite <- Vk. by apply flarge_ge. }
  destruct (mapM (fun f => clamp (fadd fone (fmul (fsub f (fmean fvec)) i)) fzero flarge) fvec) as [ws|] eqn:E.
  - exists ws. apply mapM_Some in E. split; [done|]. split; [symmetry; by eapply Forall2_length|].
    assert (G : forall w, w ∈ ws -> is_finite w = true /\ 0 <= B2R w /\ (0 < B2R w -> bpow radix2 (-53) <= B2R w)).
    { intros w Hw. apply elem_of_list_lookup in Hw as [k Hk]. destruct (Forall2_lookup_r _ _ _ _ _ E Hk) as (f & Hf & Efw). destruct (W f (elem_of_list_lookup_2 _ _ _ Hf)) as (w' & Ew' & ?). rewrite Efw in Ew'. by injection Ew' as <-. }
    split; [apply Forall_forall; intros w Hw; destruct (G w Hw) as (? & ? & _); done|].
    destruct (existsb (fun w => negb (Req_bool (B2R w) 0)) ws) eqn:Hex.
    + right. apply existsb_exists in Hex as (w & Hw & Hne0). apply elem_of_list_In in Hw. revert Hne0. case Req_bool_spec; [done|]. intros Hne0 _. exists w. split; [done|]. destruct (G w Hw) as (_ & G0 & G1). assert (bpow radix2 (-1022) <= bpow radix2 (-53)) by (apply bpow_le; lia).
      assert (0 < B2R w) by lra. specialize (G1 H0). lra.
    + left. apply Forall_forall. intros w Hw. destruct (Req_dec (B2R w) 0) as [|Hne0]; [done|]. exfalso. apply not_true_iff_false in Hex. apply Hex. apply existsb_exists. exists w. split; [by apply elem_of_list_In|]. by rewrite Req_bool_false.
  - exfalso. apply mapM_None in E. apply Exists_exists in E as (f & Hf & Ef). destruct (W f Hf) as (w & Ew & _). rewrite Ew in Ef. done.
Qed.
End sigma.

(** ** Boltzmann *)
Section boltzmann.
Variable fexp : b64 -> b64.
Hypothesis fexp_ok : exp_contract fexp.
Variable temperature : b64.
Lemma fmin_large_ok x : (is_nan x = false -> 0 <= fval x) -> is_finite (fmin flarge x) = true /\ 0 <= B2R (fmin flarge x) /\ (is_nan x = true -> fmin flarge x = flarge) /\ (is_finite x = true -> B2R x = 1 -> B2R (fmin flarge x) = 1).
Proof.
  intros H. unfold fmin. destruct (flt x flarge) eqn:E.
  - assert (N : is_nan x = false) by (destruct x; done). specialize (H N). rewrite flt_fval in E by done. rewrite (fval_finite flarge) in E by done. revert E. case Rlt_bool_spec; [|done]. intros Hlt _.
    assert (F : is_finite x = true). { apply finite_of_val; [done|]. pose proof (finite_abs_lt flarge eq_refl) as G. apply Rabs_lt_inv in G. rewrite Rabs_pos_eq; lra. }
    split; [done|]. rewrite fval_finite in H by done. split; [done|]. split; [by rewrite N|]. done.
  - split; [done|]. split; [by apply (flarge_ge fzero)|]. split; [done|]. intros F E1. rewrite flt_finite in E by done. revert E. case Rlt_bool_spec; [done|]. intros Hle _. exfalso.
    destruct ftwo_val as [F2 V2]. pose proof (flarge_ge ftwo F2). lra.
Qed.
Lemma boltzmann_ok fvec : fvec <> [] -> Forall (fun f => is_finite f = true) fvec ->
  exists ws, Boltzmann_weights fexp temperature fvec = Some ws /\ length ws = length fvec /\ good_weights ws.
Proof.
  intros Hne Hfin. unfold Boltzmann_weights. destruct (fmax_of_ok fvec Hne Hfin) as (M & EM & HM & HMmax). destruct (fmin_of_ok fvec Hne Hfin) as (m & Em & Hm & Hmin).
  rewrite EM, Em. cbn [mbind option_bind]. rewrite Forall_forall in Hfin. pose proof (Hfin M HM) as FM. pose proof (Hfin m Hm) as Fm. destruct fsmall_val as [Fs Vs].
  destruct (clamp_val (fsub M m) fsmall flarge Fs eq_refl) as (df & Ed & Fd & Hd & _); [by apply flarge_ge|apply fsub_not_nan; [by apply is_finite_not_nan|by apply is_finite_not_nan|by left]|].
  rewrite Ed. cbn [mbind option_bind]. pose proof (bpow_gt_0 radix2 (-1022)) as Hp.
  eexists. split; [reflexivity|]. split; [apply fmap_length|].
  assert (W : forall x, is_finite (fmin flarge (fexp x)) = true /\ 0 <= B2R (fmin flarge (fexp x)) /\ (is_nan (fexp x) = true -> fmin flarge (fexp x) = flarge) /\ (is_finite (fexp x) = true -> B2R (fexp x) = 1 -> B2R (fmin flarge (fexp x)) = 1)).
  { intros x. apply fmin_large_ok. intros N. destruct (is_nan x) eqn:Nx; [rewrite (exp_nan _ fexp_ok) in N by done; done|]. by apply (exp_nonneg _ fexp_ok). }
  split.
  - apply Forall_fmap, Forall_forall. intros f Hf. destruct (W (fdiv (fsub (fdiv f df) (fdiv m df)) temperature)) as (W1 & W2 & _). by split.
  - right. exists (fmin flarge (fexp (fdiv (fsub (fdiv m df) (fdiv m df)) temperature))). split; [apply elem_of_list_fmap; by exists m|].
    destruct (fdiv_finite m df Fm Fd) as [Nq _]; [lra|]. remember (fdiv m df) as q eqn:Eq. clear Eq.
    assert (Hz : is_nan (fsub q q) = true \/ (exists s, fsub q q = B754_zero s)).
    { destruct (is_finite q) eqn:Fq.
      - right. destruct (fsub_finite q q Fq Fq) as [N E]. rewrite Rminus_diag_eq, srnd_0 in E by done. destruct (fsub q q) as [s|[]| |s mm e He]; try done; [by exists s|cbn [fval] in E; pose proof femax_pos; lra..|].
        exfalso. cbn in E. by apply (F2R_neq_0 radix2 (Float radix2 (cond_Zopp s (Zpos mm)) e)) in E; [|destruct s].
      - left. destruct q as [|[]| |]; done. }
    assert (Ht : is_nan (fdiv (fsub q q) temperature) = true \/ (is_finite (fdiv (fsub q q) temperature) = true /\ B2R (fdiv (fsub q q) temperature) = 0)).
    { destruct Hz as [Hz|[s Hz]].
      - left. destruct (fsub q q); done.
      - rewrite Hz. destruct temperature as [| | |]; [by left|by right|by left|by right]. }
    destruct (W (fdiv (fsub q q) temperature)) as (W1 & W2 & W3 & W4). destruct Ht as [Ht|[Ft Vt]].
    + rewrite W3 by (by apply (exp_nan _ fexp_ok)). rewrite <- Vs. by apply flarge_ge.
    + destruct (exp_zero _ fexp_ok _ Ft Vt) as [Fe Ve]. rewrite W4 by done. change 1 with (bpow radix2 0). apply bpow_le. lia.
Qed.
End boltzmann.
