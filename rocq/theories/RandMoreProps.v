(** C91, and more about C64, C66 and C71: which values the random number helpers return. *)
From Coq Require Import Reals ZArith Lra Lia Factorial.
From stdpp Require Import list list_numbers.
From Flocq Require Import Core BinarySingleNaN.
From Verif Require Import FloatBase FloatProofs RealCrossoverModel RealSpec RealProofs RandModel RandSpec RandProofs BinomialProofs RandProps
  RealErrorProofs MutationModel MutationMoreProofs MutationRealProofs RandMoreProofs.
Local Open Scope Z_scope.

(** ** C91 *)
(** The number [m] of draws depends only on the range and the count.  There are
    fact m sequences of draws for each selection, so that all are equally likely
    if the draws are. *)
Theorem C91_sampleUnique_uniform (lo hi n : Z) :
  0 <= n <= hi - lo -> hi - lo < 2 ^ 64 -> hi - lo < 65536 \/ n <= 2 ->
  exists m : nat, (Z.of_nat m = n \/ Z.of_nat m = hi - lo - n) /\
    forall T, distinct_sample lo hi n T ->
    exactly (fact m) (fun t => draws (hi - lo) m t /\ exists l s', sampleUnique lo hi n (stream_of t) = Some (l, s') /\ l ≡ₚ T).
Proof. apply sampleUnique_uniform. Qed.
Print Assumptions C91_sampleUnique_uniform.
(** Two of ten numbers; of four numbers, the two that are not wanted are drawn. *)
Example C91_nonvacuous :
  distinct_sample 0 4 2 [3; 1] /\ draws 4 2 [1; 3] /\ draws 4 2 [1; 1] /\
  option_map fst (sampleUnique 0 4 2 (stream_of [1; 3])) = Some [0; 2] /\
  option_map fst (sampleUnique 0 10 2 (stream_of [1; 3])) = Some [1; 3] /\
  option_map fst (sampleUnique 0 10 2 (stream_of [3; 3])) = Some [3; 9].
Proof.
  split; [split; [done|]; split; [apply (bool_decide_unpack (NoDup _)); vm_compute; exact I|]; repeat (constructor; [lia|]); constructor|].
  assert (Hd : forall x, 0 <= x <= 3 -> draws 4 2 [1; x]).
  { intros x Hx. split; [done|]. intros [|[|j]] y Hy; cbn [lookup list_lookup] in Hy; [injection Hy as <-; lia|injection Hy as <-; lia|done]. }
  split; [apply Hd; lia|]. split; [apply Hd; lia|]. split_and!; vm_compute; reflexivity.
Qed.

(** ** C64: the number returned for two bounds *)
Theorem C64_randomReal_between_value (lb ub : b64) (s : stream) :
  is_finite lb = true -> is_finite ub = true -> (B2R lb <= B2R ub)%R ->
  (Rabs (B2R lb) <= bpow radix2 1020)%R -> (Rabs (B2R ub) <= bpow radix2 1020)%R ->
  exists v, randomReal_between lb ub s = Some (v, stail s) /\
    near (step_rounding (Bounds lb ub) lb) v (B2R lb + (B2R ub - B2R lb) * unit_draw (s 0%nat)).
Proof.
  intros F1 F2 Hle M1 M2.
  assert (Hb : bounds_ok (Bounds lb ub)) by (split; [done|split; done]).
  assert (Hm : bounded_by (bpow radix2 1020) (Bounds lb ub)) by (split; done).
  destruct (randomReal_between_ok lb ub s F1 F2 Hle (big_width _ Hm Hb)) as (v & Hv & _).
  destruct (uniform_gene_near (Bounds lb ub) lb s Hm Hb) as (y & s' & Hy & _ & _ & Hn); [split; [done|cbn [lower upper]; lra]|].
  unfold uniform_gene in Hy. cbn [lower upper] in Hy. rewrite Hv in Hy. injection Hy as <- _. by exists v.
Qed.
Print Assumptions C64_randomReal_between_value.
Example C64_randomReal_between_value_nonvacuous :
  is_finite fone = true /\ is_finite ftwo = true /\ (B2R fone <= B2R ftwo)%R /\ (Rabs (B2R fone) <= bpow radix2 1020)%R /\ (Rabs (B2R ftwo) <= bpow radix2 1020)%R /\
  option_map (fun r => B2SF r.1) (randomReal_between fone ftwo (stream_of [2 ^ 63])) = Some (B2SF (fmk 3 (-1))).
Proof.
  destruct fone_val as [F1 V1]. destruct ftwo_val as [F2 V2]. rewrite V1, V2.
  assert (H : (2 <= bpow radix2 1020)%R) by (change 2%R with (bpow radix2 1); apply bpow_le; lia).
  split; [done|]. split; [done|]. split; [lra|]. rewrite !Rabs_pos_eq by lra. split; [lra|]. split; [lra|]. vm_compute. reflexivity.
Qed.

(** ** C66: the first index whose cumulative weight is at least the share of the total *)
Theorem C66_sampleCdf_first (cdf : list b64) (back : b64) (s : stream) :
  is_cdf cdf -> last cdf = Some back ->
  exists i x, sampleCdf cdf s = Some (i, stail s) /\ cdf !! i = Some x /\
    (rnd (B2R back * unit_draw (s 0%nat)) <= B2R x)%R /\
    forall j y, (j < i)%nat -> cdf !! j = Some y -> (B2R y < rnd (B2R back * unit_draw (s 0%nat)))%R.
Proof.
  intros H1 H2. destruct (sampleCdf_ok cdf back s H1 H2) as (i & r & H & Hr & _ & (x & Hx & Hle) & Hlt).
  destruct (randomReal_unit s) as (r' & Hr' & _ & Vr & _). rewrite Hr in Hr'. injection Hr' as <-. rewrite Vr in Hle, Hlt. by exists i, x.
Qed.
Print Assumptions C66_sampleCdf_first.
Example C66_sampleCdf_first_nonvacuous : is_cdf third_cdf /\ last third_cdf = Some (fmk 1 0) /\
  option_map fst (sampleCdf third_cdf (stream_of [2 ^ 62])) = Some 1%nat /\ option_map fst (sampleCdf third_cdf (stream_of [2 ^ 62 + 2 ^ 11])) = Some 3%nat.
Proof. split; [apply third_cdf_ok|]. split; [done|]. split; vm_compute; reflexivity. Qed.

(** ** C71: up to 5 trials the successes are counted *)
Lemma exact_loop_count (p : b64) : is_finite p = true -> forall (n : nat) res s, exists s',
  exact_loop n p res s = Some (res + Z.of_nat (length (List.filter (fun j => Rle_bool (unit_draw (s j)) (B2R p)) (seq 0 n))), s').
Proof.
  intros Fp. induction n as [|n IH]; intros res s; [exists s; cbn; unfold rret; do 2 f_equal; lia|]. cbn [exact_loop].
  destruct (randomReal_unit s) as (r & Hr & Fr & Vr & _). rewrite (rbind_eq _ _ _ _ _ Hr).
  assert (E : fle r p = Rle_bool (unit_draw (s 0%nat)) (B2R p)). { rewrite fle_fval by (by apply is_finite_not_nan). by rewrite !fval_finite, Vr by done. }
  rewrite E. destruct (IH (if Rle_bool (unit_draw (s 0%nat)) (B2R p) then res + 1 else res) (stail s)) as [s' H]. exists s'. rewrite H. do 2 f_equal.
  assert (Es : forall (f : nat -> bool) k m, length (List.filter (fun j => f (S j)) (seq k m)) = length (List.filter f (seq (S k) m))).
  { intros f k m. revert k. induction m as [|m IHm]; intros k; [done|]. cbn [seq List.filter]. destruct (f (S k)); cbn [length]; by rewrite IHm. }
  cbn [seq List.filter]. pose proof (Es (fun j => Rle_bool (unit_draw (s j)) (B2R p)) 0%nat n) as E0.
  change (fun j => Rle_bool (unit_draw (stail s j)) (B2R p)) with (fun j => Rle_bool (unit_draw (s (S j))) (B2R p)).
  cbn beta in E0. rewrite E0. destruct (Rle_bool (unit_draw (s 0%nat)) (B2R p)); cbn [length]; lia.
Qed.
Theorem C71_randomBinomial_exact (fuel n : nat) (p : b64) (s : stream) : (n <= 5)%nat -> probability p ->
  exists s', randomBinomial fuel (Z.of_nat n) p s =
    Some (Z.of_nat (length (List.filter (fun j => Rle_bool (unit_draw (s j)) (B2R p)) (seq 0 n))), s').
Proof.
  intros Hn Hp. assert (Hpb : is_probability p = true) by (by apply is_probability_ok). destruct Hp as [Fp _].
  unfold randomBinomial. rewrite !rassert_true by (lia || done). cbn zeta.
  destruct (Z.ltb_spec 50 (Z.of_nat n)); [lia|]. destruct (Z.ltb_spec 5 (Z.of_nat n)); [lia|]. cbn [andb orb negb].
  unfold randomBinomialExact. rewrite !rassert_true by (lia || done). rewrite Nat2Z.id.
  destruct (exact_loop_count p Fp n 0 s) as [s1 H1]. exists s1. by rewrite H1.
Qed.
Print Assumptions C71_randomBinomial_exact.
Example C71_randomBinomial_exact_nonvacuous : (3 <= 5)%nat /\ probability fhalf /\
  option_map fst (randomBinomial 0 3 fhalf (stream_of [2 ^ 62; 2 ^ 64 - 1; 2 ^ 63])) = Some 2.
Proof. split; [lia|]. split; [destruct fhalf_val as [F V]; split; [done|rewrite V; lra]|]. vm_compute. reflexivity. Qed.
