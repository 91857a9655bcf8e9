(** C99: the binary encoding of the real benchmark functions. *)
From Coq Require Import Reals Lra Lia.
From stdpp Require Import list.
From Flocq Require Import Core BinarySingleNaN.
From Verif Require Import FloatBase FloatModel FloatSpec FloatProofs RealCrossoverModel RealSpec RealProofs RealCrossoverProofs RealErrorProofs ConvertModel ConvertSpec ConvertProofs.
Local Open Scope R_scope.

(** C99: every variable lies between its lower bound, which zero bits give, and the number
    lower + (upper - lower) in floating point arithmetic, which one bits give; that is the upper bound
    when the difference of the bounds is a double. *)
Theorem C99_convert pow2 n bs bits : pow2_contract pow2 -> (1 <= n <= 1023)%nat -> Forall (fun b => bounds_ok b /\ bounded_by (bpow radix2 1021) b) bs ->
  if decide (length bits = n * length bs)%nat then
    exists xs, convert pow2 bits bs n = Some xs /\ length xs = length bs /\
    forall i b x, bs !! i = Some b -> xs !! i = Some x ->
      let top := fadd (fsub (upper b) (lower b)) (lower b) in
      is_finite x = true /\ is_finite top = true /\ B2R (lower b) <= B2R x <= B2R top /\
      (number (block n bits i) = 0%Z -> B2R x = B2R (lower b)) /\
      (number (block n bits i) = (2 ^ Z.of_nat n - 1)%Z -> B2R x = B2R top) /\
      (B2R (fsub (upper b) (lower b)) = B2R (upper b) - B2R (lower b) -> B2R top = B2R (upper b) /\ in_bound b x)
  else convert pow2 bits bs n = None.
Proof.
  intros Hp Hn Hbs. rewrite Forall_forall in Hbs. destruct (decide _) as [Hl|Hl]; [|unfold convert; by rewrite decide_False].
  destruct (convert pow2 bits bs n) as [xs|] eqn:E; [|unfold convert in E; by rewrite decide_True in E]. destruct (convert_lookup pow2 bits bs n xs E) as (_ & Lx & X). exists xs. split; [done|]. split; [done|].
  intros i b x Hb Hx. cbn zeta. destruct (X i b Hb) as [Ex Lb]. rewrite Ex in Hx. injection Hx as <-. destruct (Hbs b ltac:(by eapply elem_of_list_lookup_2)) as [Ok Wd]. set (bl := block n bits i) in *.
  destruct (convert_var_val pow2 bl b n Hp Hn Lb Ok Wd) as (F & V & Fw & Ew & [W0 W1] & Ft & Et).
  pose proof (convert_var_zero pow2 bl b n Hp Hn Lb Ok Wd) as Z. pose proof (convert_var_ones pow2 bl b n Hp Hn Lb Ok Wd) as O.
  assert (R : B2R (lower b) <= B2R (convert_var pow2 bl b n) <= B2R (fadd (fsub (upper b) (lower b)) (lower b))).
  { assert (L0 : length (replicate n false) = n) by apply replicate_length. assert (L1 : length (ones n) = n) by apply replicate_length. assert (N0 : number (replicate n false) = 0%Z) by (clear; induction n as [|n IH]; [done|]; cbn; lia). pose proof (number_ones n) as N1. pose proof (number_range bl) as NR. rewrite Lb in NR. split.
    - rewrite <- (convert_var_zero pow2 (replicate n false) b n Hp Hn L0 Ok Wd N0). apply convert_var_mono; try done. lia.
    - rewrite <- (convert_var_ones pow2 (ones n) b n Hp Hn L1 Ok Wd N1). apply convert_var_mono; try done. lia. }
  split; [done|]. split; [done|]. split; [done|]. split; [done|]. split; [done|]. intros Hd. assert (Tu : B2R (fadd (fsub (upper b) (lower b)) (lower b)) = B2R (upper b)).
  { rewrite Et, <- Ew, Hd. replace (B2R (upper b) - B2R (lower b) + B2R (lower b)) with (B2R (upper b)) by lra. apply srnd_id. apply Ok. }
  split; [done|]. split; [done|]. lra.
Qed.
Print Assumptions C99_convert.

(** C99: a variable depends on its own bits only, and larger numbers give larger variables. *)
Theorem C99_monotone pow2 n bs bits bits' xs xs' : pow2_contract pow2 -> (1 <= n <= 1023)%nat -> Forall (fun b => bounds_ok b /\ bounded_by (bpow radix2 1021) b) bs ->
  convert pow2 bits bs n = Some xs -> convert pow2 bits' bs n = Some xs' ->
  forall i x x', xs !! i = Some x -> xs' !! i = Some x' ->
    (block n bits i = block n bits' i -> x = x') /\ ((number (block n bits i) <= number (block n bits' i))%Z -> B2R x <= B2R x').
Proof.
  intros Hp Hn Hbs E E' i x x' Hx Hx'. rewrite Forall_forall in Hbs. destruct (convert_lookup _ _ _ _ _ E) as (_ & Lx & X). destruct (convert_lookup _ _ _ _ _ E') as (_ & _ & X').
  destruct (lookup_lt_is_Some_2 bs i ltac:(rewrite <- Lx; by eapply lookup_lt_Some)) as [b Hb]. destruct (X i b Hb) as [Ex Lb]. destruct (X' i b Hb) as [Ex' Lb']. rewrite Ex in Hx. rewrite Ex' in Hx'. injection Hx as <-. injection Hx' as <-.
  destruct (Hbs b ltac:(by eapply elem_of_list_lookup_2)) as [Ok Wd]. split; [by intros ->|]. intros H. by apply convert_var_mono.
Qed.
Print Assumptions C99_monotone.

(** C99: up to 53 bits a variable is within the rounding errors of its exact value. *)
Theorem C99_accurate pow2 n bs bits xs : pow2_contract pow2 -> (1 <= n <= 53)%nat -> Forall (fun b => bounds_ok b /\ bounded_by (bpow radix2 1021) b) bs ->
  convert pow2 bits bs n = Some xs -> forall i b x, bs !! i = Some b -> xs !! i = Some x ->
    Rabs (B2R x - exact_var (block n bits i) b) <= bpow radix2 (-50) * (Rabs (B2R (lower b)) + Rabs (B2R (upper b))) + bpow radix2 (-1072).
Proof.
  intros Hp Hn Hbs E i b x Hb Hx. rewrite Forall_forall in Hbs. destruct (convert_lookup _ _ _ _ _ E) as (_ & _ & X). destruct (X i b Hb) as [Ex Lb]. rewrite Ex in Hx. injection Hx as <-. destruct (Hbs b ltac:(by eapply elem_of_list_lookup_2)) as [Ok Wd].
  pose proof (convert_var_near pow2 _ b n Hp Hn Lb Ok Wd) as N. replace (8 * uu) with (bpow radix2 (-50)) in N by (unfold uu; change (-50)%Z with (3 + -53)%Z; rewrite bpow_plus; change (bpow radix2 3) with 8; lra). replace (8 * hh) with (bpow radix2 (-1072)) in N by (unfold hh; change (-1072)%Z with (3 + -1075)%Z; rewrite bpow_plus; change (bpow radix2 3) with 8; lra). done.
Qed.
Print Assumptions C99_accurate.

(** C99: the binary form of a function of [nvars] variables with [n] bits each is the function of
    the converted chromosome. *)
Theorem C99_invoke {Y} pow2 (f : list b64 -> option Y) nvars n bs bits : (1 <= nvars)%nat ->
  invoke_binary pow2 f (constructed_binary_len nvars n) nvars bs bits = xs ← convert pow2 bits bs n; f xs.
Proof. intros H. unfold invoke_binary, constructed_binary_len. cbn zeta. rewrite Nat.mul_comm, Nat.div_mul by lia. done. Qed.
Print Assumptions C99_invoke.

(** C99: the variables may lie above the upper bound: the bounds -1.2 and 1.0. *)
Definition odd_bounds : bounds := Bounds (fmk (-5404319552844595) (-52)) fone.
Theorem C99_above_refuted pow2 n : pow2_contract pow2 -> (1 <= n <= 1023)%nat ->
  bounds_ok odd_bounds /\ exists x, convert pow2 (replicate n true) [odd_bounds] n = Some [x] /\ B2R (upper odd_bounds) < B2R x.
Proof.
  intros Hp Hn. destruct (fmk_val (-5404319552844595) (-52) ltac:(lia) ltac:(lia)) as (Fl & El & _). destruct fone_val as [F1 E1].
  assert (B52 : bpow radix2 (-52) = / 4503599627370496) by done.
  assert (Ok : bounds_ok odd_bounds) by (split; [exact Fl|split; [exact F1|cbn [lower upper odd_bounds]; rewrite El, E1, B52; lra]]). split; [done|].
  assert (B1 : 2 <= bpow radix2 1021) by (change 2 with (bpow radix2 1); apply bpow_le; lia).
  assert (Wd : bounded_by (bpow radix2 1021) odd_bounds) by (split; cbn [lower upper odd_bounds]; rewrite ?El, ?E1, ?B52; apply Rabs_le; lra).
  destruct (convert pow2 (replicate n true) [odd_bounds] n) as [xs|] eqn:E; [|unfold convert in E; destruct (decide _) as [|Hd] in E; [done|]; exfalso; apply Hd; rewrite replicate_length; cbn [length]; lia].
  destruct (convert_lookup _ _ _ _ _ E) as (_ & Lx & X). destruct (X 0%nat odd_bounds eq_refl) as [Hx Lb]. destruct xs as [|x [|]]; try done. exists x. split; [done|]. cbn in Hx. injection Hx as ->.
  rewrite (convert_var_ones pow2 _ odd_bounds n Hp Hn Lb Ok Wd); [|change (block n (replicate n true) 0) with (take n (replicate n true)); rewrite (take_ge (replicate n true) n) by (rewrite replicate_length; lia); apply number_ones].
  destruct (convert_var_val pow2 _ odd_bounds n Hp Hn Lb Ok Wd) as (_ & _ & _ & _ & _ & Ft & _). set (top := fadd _ _) in *.
  assert (L : flt (upper odd_bounds) top = true) by (vm_compute; done). rewrite flt_fval in L by (by apply is_finite_not_nan). rewrite !fval_finite in L by done. revert L. by case Rlt_bool_spec.
Qed.
Print Assumptions C99_above_refuted.
(** C99: without bits, and with 1024 or more bits that are all one, the variables are NaN. *)
Theorem C99_nan_refuted pow2 n b : pow2_contract pow2 -> (n = 0 \/ 1024 <= n)%nat -> exists x, convert pow2 (replicate n true) [b] n = Some [x] /\ is_nan x = true.
Proof.
  intros Hp Hn. destruct (convert pow2 (replicate n true) [b] n) as [xs|] eqn:E; [|unfold convert in E; destruct (decide _) as [|Hd] in E; [done|]; exfalso; apply Hd; rewrite replicate_length; cbn [length]; lia].
  destruct (convert_lookup _ _ _ _ _ E) as (_ & Lx & X). destruct (X 0%nat b eq_refl) as [Hx Lb]. destruct xs as [|x [|]]; try done. exists x. split; [done|]. cbn [lookup list_lookup] in Hx. injection Hx as ->.
  change (block n (replicate n true) 0) with (take n (replicate n true)). rewrite (take_ge (replicate n true) n) by (rewrite replicate_length; lia). fold (ones n). unfold convert_var. cbn zeta.
  assert (N : fdiv (accumulate_bits (ones n)) (fsub (pow2 n) fone) = B754_nan).
  { specialize (Hp n). destruct Hn as [-> | Hn].
    - rewrite decide_True in Hp by lia. destruct Hp as [F Ep]. destruct fone_val as [F1 E1]. destruct (fsub_finite (pow2 0%nat) fone F F1) as [Nn Es]. rewrite Ep, E1 in Es. change (bpow radix2 (Z.of_nat 0)) with 1 in Es. rewrite Rminus_diag_eq, srnd_0 in Es by done.
      assert (Fs : is_finite (fsub (pow2 0%nat) fone) = true) by (apply finite_of_val; [done|]; rewrite Es, Rabs_R0; apply femax_pos). rewrite fval_finite in Es by done. destruct (zero_cases _ Fs Es) as [s ->]. done.
    - rewrite acc_inf by done. destruct (decide (n < 1024)%nat); [lia|]. rewrite Hp. done. }
  rewrite N. by destruct (fsub (upper b) (lower b)), (lower b).
Qed.
Print Assumptions C99_nan_refuted.

(** The premises hold of an exact power, and of the bounds of the library, whose difference is
    a double. *)
Definition exact_pow2 (n : nat) : b64 := if decide (n < 1024)%nat then fmk 1 (Z.of_nat n) else finf.
Example C99_nonvacuous : pow2_contract exact_pow2 /\
  (let b := Bounds (fneg (fmk 5 0)) (fmk 5 0) in bounds_ok b /\ bounded_by (bpow radix2 1021) b /\ B2R (fsub (upper b) (lower b)) = B2R (upper b) - B2R (lower b)) /\
  number [true; false; true] = 5%Z /\ block 3 [true; false; false; true; true; false] 1 = [true; true; false] /\
  exists x, convert exact_pow2 [true; false; true] [Bounds fzero (fmk 7 0)] 3 = Some [x] /\ flt (fabs (fsub x (fmk 5 0))) (fmk 1 (-50)) = true.
Proof.
  split; [|split; [|split; [done|split; [done|]]]].
  - intros n. unfold exact_pow2. destruct (decide (n < 1024)%nat) as [H|H]; [|done]. pose proof (binary_normalize_correct 53 1024 b64_prec b64_emax mode_NE 1 (Z.of_nat n) false) as C. cbn zeta in C.
    assert (E : F2R (Float radix2 1 (Z.of_nat n)) = bpow radix2 (Z.of_nat n)) by (unfold F2R; cbn [Fnum Fexp]; lra). rewrite E in C. cbn [round_mode] in C. rewrite bpow_fmt in C by lia. rewrite Rlt_bool_true in C; [|rewrite Rabs_pos_eq by apply bpow_ge_0; apply bpow_lt; lia]. destruct C as (C1 & C2 & _). unfold fmk. done.
  - cbn zeta. cbn [lower upper]. destruct (fmk_val 5 0 ltac:(lia) ltac:(lia)) as (F5 & E5 & _). change (bpow radix2 0) with 1 in E5. destruct (fmk_val 10 0 ltac:(lia) ltac:(lia)) as (F10 & E10 & _). change (bpow radix2 0) with 1 in E10. assert (Fn : is_finite (fneg (fmk 5 0)) = true /\ B2R (fneg (fmk 5 0)) = -5) by (unfold fneg; rewrite is_finite_Bopp, B2R_Bopp, E5; split; [done|lra]). destruct Fn as [Fn En].
    assert (B1 : 8 <= bpow radix2 1021) by (change 8 with (bpow radix2 3); apply bpow_le; lia). split; [split; [done|split; [done|cbn [lower upper]; lra]]|]. split; [split; cbn [lower upper]; rewrite ?En, ?E5; apply Rabs_le; lra|].
    assert (S : fsub (fmk 5 0) (fneg (fmk 5 0)) = fmk 10 0) by (apply B2SF_inj; vm_compute; done). rewrite S, E10, E5, En. lra.
  - eexists. split; [done|]. vm_compute. done.
Qed.
