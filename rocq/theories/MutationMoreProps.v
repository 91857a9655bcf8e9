(** C89, C90: when the permutation mutations are applied, and what the real coded
    mutations do with the chosen genes. *)
From Coq Require Import Reals ZArith Lra Lia.
From stdpp Require Import list list_numbers.
From Flocq Require Import Core BinarySingleNaN.
From Verif Require Import FloatBase FloatModel FloatSpec FloatProofs RealCrossoverModel RealSpec RealProofs RealCrossoverProofs RealCrossoverProps RealErrorProofs
  RandModel RandSpec RandProofs BinomialProofs RandProps MutationModel MutationSpec PermMutationProofs PermMutationProps MutationProofs MutationProps
  MutationMoreProofs MutationRealProofs.

Local Open Scope Z_scope.

(** ** C89 *)
Theorem C89_permutation_mutations_applied {A} (shuffle : list A -> rand (list A)) (pm rm : b64) (c : list A) (s : stream) :
  shuffle_contract shuffle -> Z.of_nat (length c) <= 2 ^ 53 -> probability rm -> is_finite pm = true ->
  let r := unit_draw (s 0%nat) in
  (exists d s', Inversion pm rm c s = Some (d, s') /\
    ((2 <= length c)%nat /\ (r < B2R pm)%R -> reversed_part_upto (longest_part 2 rm (length c)) c d) /\
    (~ ((2 <= length c)%nat /\ (r < B2R pm)%R) -> d = c)) /\
  (exists d s', Swap2 pm c s = Some (d, s') /\
    ((2 <= length c)%nat /\ (r <= B2R pm)%R -> two_swapped c d) /\
    (~ ((2 <= length c)%nat /\ (r <= B2R pm)%R) -> d = c)) /\
  (Z.of_nat (length c) < 65536 -> exists d s', Swap3 pm c s = Some (d, s') /\
    ((3 <= length c)%nat /\ (r <= B2R pm)%R -> three_rotated c d) /\
    (~ ((3 <= length c)%nat /\ (r <= B2R pm)%R) -> d = c)) /\
  (exists d s', Shuffle shuffle pm rm c s = Some (d, s') /\
    ((2 <= length c)%nat /\ (r <= B2R pm)%R -> shuffled_part_upto (longest_part 2 rm (length c)) c d) /\
    (~ ((2 <= length c)%nat /\ (r <= B2R pm)%R) -> d = c)) /\
  ((B2R rm < 1)%R -> exists d s', Shift pm rm c s = Some (d, s') /\
    ((2 <= length c)%nat /\ (r <= B2R pm)%R -> moved_part_upto (longest_part 1 rm (length c)) c d) /\
    (~ ((2 <= length c)%nat /\ (r <= B2R pm)%R) -> d = c)).
Proof.
  intros Hsh Hc Hrm Fpm r. split_and!.
  - by apply Inversion_applied.
  - apply Swap2_applied; [unfold size; lia|done].
  - intros H. by apply Swap3_applied.
  - by apply Shuffle_applied.
  - intros H. by apply Shift_applied.
Qed.
Print Assumptions C89_permutation_mutations_applied.

(** Every part of an allowed length can be chosen. *)
Lemma stream_of_tail x m : stail (stream_of (x :: m)) = stream_of m.
Proof. done. Qed.
Lemma randomInt_stream lb ub x m : lb <= ub -> 0 <= x <= ub - lb -> randomInt lb ub (stream_of (x :: m)) = Some (lb + x, stream_of m).
Proof.
  intros H1 H2. unfold randomInt. rewrite rassert_true by lia. unfold rbind, rnext, rret. cbn [mbind option_bind]. rewrite stream_of_tail.
  change (bits (stream_of (x :: m) 0%nat)) with x. rewrite Z.mod_small by lia. done.
Qed.
Lemma on_range_parts {A} (f : list A -> rand (list A)) (a m m' b : list A) s s' : f m s = Some (m', s') ->
  on_range f (a ++ m ++ b) (Z.of_nat (length a)) (Z.of_nat (length a) + Z.of_nat (length m)) s = Some (a ++ m' ++ b, s').
Proof.
  intros Hf. unfold on_range. rewrite rassert_true. 2: { unfold size. rewrite !app_length, !andb_true_iff, !Z.leb_le. lia. }
  cbn zeta. rewrite <- Nat2Z.inj_add, !Nat2Z.id. replace (length a + length m - length a)%nat with (length m) by lia.
  rewrite drop_app, take_app, (rbind_eq _ _ _ _ _ Hf). unfold rret. do 3 f_equal; [by rewrite take_app|]. f_equal.
  rewrite <- app_length, app_assoc. apply drop_app.
Qed.
Theorem C89_every_part_possible {A} (shuffle : list A -> rand (list A)) (pm rm : b64) (a m m' b : list A) :
  (* a possible outcome of shuffling *) (forall s, exists s', shuffle m s = Some (m', s')) ->
  let n := length (a ++ m ++ b) in
  Z.of_nat n <= 2 ^ 53 -> probability rm -> is_finite pm = true -> (0 < B2R pm)%R ->
  2 <= Z.of_nat (length m) <= longest_part 2 rm n ->
  (exists s s', Inversion pm rm (a ++ m ++ b) s = Some (a ++ reverse m ++ b, s')) /\
  (exists s s', Shuffle shuffle pm rm (a ++ m ++ b) s = Some (a ++ m' ++ b, s')).
Proof.
  intros Hsh n Hn Hrm Fpm Hpm Hm. set (s := stream_of [0; Z.of_nat (length m) - 2; Z.of_nat (length a)]).
  assert (Hlen : size (a ++ m ++ b) = Z.of_nat n) by done.
  assert (Hn2 : Z.of_nat n = Z.of_nat (length a) + Z.of_nat (length m) + Z.of_nat (length b)) by (unfold n; rewrite !app_length; lia).
  destruct (randomReal_unit s) as (r & Hr & Fr & Vr & _).
  assert (V0 : B2R r = 0%R). { rewrite Vr. unfold unit_draw. change (bits (s 0%nat)) with 0. rewrite Z.mod_0_l, Z.div_0_l by lia. lra. }
  destruct (scaled_len_val rm (Z.of_nat n) (stail s) ltac:(lia) Hrm) as (Hk & Bk).
  change (longest_part 2 rm n) with (Z.max 2 (Zfloor (rnd (B2R rm * IZR (Z.of_nat n))%R))) in Hm. remember (Zfloor (rnd (B2R rm * IZR (Z.of_nat n))%R)) as K eqn:EK. clear EK.
  split.
  - exists s. unfold Inversion. rewrite Hlen. cbn zeta. destruct (Z.ltb_spec (Z.of_nat n) 2); [lia|]. rewrite (rbind_eq _ _ _ _ _ Hr).
    rewrite flt_fval by (by apply is_finite_not_nan). rewrite !fval_finite, V0, Rlt_bool_true by done.
    rewrite (rbind_eq _ _ _ _ _ Hk). unfold s. rewrite stream_of_tail.
    rewrite (rbind_eq _ _ _ _ _ (randomInt_stream 2 (Z.max K 2) (Z.of_nat (length m) - 2) [Z.of_nat (length a)] ltac:(lia) ltac:(lia))).
    replace (2 + (Z.of_nat (length m) - 2)) with (Z.of_nat (length m)) by lia.
    rewrite (rbind_eq _ _ _ _ _ (randomInt_stream 0 (Z.of_nat n - Z.of_nat (length m)) (Z.of_nat (length a)) [] ltac:(lia) ltac:(lia))). rewrite Z.add_0_l.
    rewrite (on_range_parts _ a m (reverse m) b _ (stream_of [])); [by eexists|done].
  - destruct (Hsh (stream_of [])) as [s' Hs']. exists s, s'. unfold Shuffle. rewrite Hlen. cbn zeta. destruct (Z.ltb_spec (Z.of_nat n) 2); [lia|]. rewrite (rbind_eq _ _ _ _ _ Hr).
    rewrite fle_fval by (by apply is_finite_not_nan). rewrite !fval_finite, V0, Rle_bool_true by (done || lra).
    rewrite (rbind_eq _ _ _ _ _ Hk). unfold s. rewrite stream_of_tail.
    rewrite (rbind_eq _ _ _ _ _ (randomInt_stream 2 (Z.max K 2) (Z.of_nat (length m) - 2) [Z.of_nat (length a)] ltac:(lia) ltac:(lia))).
    replace (2 + (Z.of_nat (length m) - 2)) with (Z.of_nat (length m)) by lia.
    rewrite (rbind_eq _ _ _ _ _ (randomInt_stream 0 (Z.of_nat n - Z.of_nat (length m)) (Z.of_nat (length a)) [] ltac:(lia) ltac:(lia))). rewrite Z.add_0_l.
    by rewrite (on_range_parts _ a m m' b _ s').
Qed.
Print Assumptions C89_every_part_possible.
Example C89_nonvacuous :
  let c := [0; 1; 2; 3; 4; 5] in
  shuffle_contract (@shuffle_reverse Z) /\ probability fhalf /\ (B2R fhalf < 1)%R /\ is_finite fhalf = true /\
  (* a large first number: not applied *)
  option_map fst (Inversion fhalf fhalf c (stream_of [2 ^ 64 - 1; 1; 2])) = Some c /\
  option_map fst (Inversion fhalf fhalf c (stream_of [0; 1; 2])) = Some [0; 1; 4; 3; 2; 5] /\
  option_map fst (Shift fhalf fhalf c (stream_of [0; 1; 0; 3])) = Some [2; 3; 4; 0; 1; 5] /\
  longest_part 2 fhalf 6 = 3.
Proof.
  cbn zeta. split; [apply shuffle_reverse_ok|]. split; [apply prob_half|]. destruct fhalf_val as [Fh Vh]. split; [rewrite Vh; lra|]. split; [done|].
  split_and!; [vm_compute; reflexivity..|]. unfold longest_part. rewrite Vh. replace (/ 2 * IZR (Z.of_nat 6))%R with (B2R (fofZ 3)).
  - destruct (fofZ_exact 3) as [F3 V3]; [lia|]. change (Z.max 2 (Zfloor (rnd (B2R (fofZ 3)))) = 3). rewrite rnd_id, V3, Zfloor_IZR. done.
  - destruct (fofZ_exact 3) as [F3 V3]; [lia|]. rewrite V3. change (Z.of_nat 6) with 6. lra.
Qed.

(** ** C90 *)
Section c90.
Variables (bs : list bounds) (fuel : nat) (pm : b64) (c : list b64) (s s1 : stream) (k : Z).
Hypothesis bounds_good : Forall bounds_ok bs.
Hypothesis c_in : in_bounds bs c.
Hypothesis c_size : Z.of_nat (length c) < 65536.
(** The number of genes to change. *)
Hypothesis count : randomBinomial fuel (Z.of_nat (length c)) pm s = Some (k, s1).

Lemma later_at s0 s2 : later s0 s2 -> exists j, forall i, s2 i = s0 (j + i)%nat.
Proof. intros [j H]. by exists j. Qed.
Theorem C90_boundary : exists d s', Boundary bs fuel pm c s = Some (d, s') /\
  mutated_at (fun i _ y => exists b j, bs !! i = Some b /\ y = if Z.odd (bits (s j)) then lower b else upper b) k c d.
Proof.
  destruct (with_bounds_genes (fun _ => True) bs boundary_gene (fun _ => True) fuel pm c s k s1 (fun s b x y => y = if Z.odd (bits (s 0%nat)) then lower b else upper b))
    as (d & s' & Hd & _ & Hm); try done.
  - intros b x s0 _ _. by apply boundary_gene_val.
  - intros b x. unfold boundary_gene, randomBool. adv.
  - by apply Forall_true.
  - exists d, s'. split; [done|]. destruct Hm as (Hl & pos & H1 & H2 & H3 & H4). split; [done|]. exists pos. split_and!; try done.
    intros i x Hx. destruct (H4 i x Hx) as (y & Hy & Hin & Hout). exists y. split_and!; try done. intros Hi.
    destruct (Hin Hi) as (b & s2 & Hb & [j Hj] & ->). exists b, j. split; [done|]. by rewrite Hj, Nat.add_0_r.
Qed.
Hypothesis bounds_big : Forall (bounded_by (bpow radix2 1020)) bs.
Theorem C90_uniform : exists d s', RealUniform bs fuel pm c s = Some (d, s') /\
  mutated_at (fun i x y => exists b j, bs !! i = Some b /\
    near (step_rounding b x) y (B2R (lower b) + (B2R (upper b) - B2R (lower b)) * unit_draw (s j))) k c d.
Proof.
  destruct (with_bounds_genes (fun _ => True) bs uniform_gene (bounded_by (bpow radix2 1020)) fuel pm c s k s1
    (fun s b x y => near (step_rounding b x) y (B2R (lower b) + (B2R (upper b) - B2R (lower b)) * unit_draw (s 0%nat))))
    as (d & s' & Hd & _ & Hm); try done.
  - intros b x s0 _. by apply uniform_gene_near.
  - intros b x. unfold uniform_gene, randomReal_between, randomReal, prng. adv.
  - exists d, s'. split; [done|]. destruct Hm as (Hl & pos & H1 & H2 & H3 & H4). split; [done|]. exists pos. split_and!; try done.
    intros i x Hx. destruct (H4 i x Hx) as (y & Hy & Hin & Hout). exists y. split_and!; try done. intros Hi.
    destruct (Hin Hi) as (b & s2 & Hb & [j Hj] & H). exists b, j. split; [done|]. by rewrite Hj, Nat.add_0_r in H.
Qed.
Theorem C90_nonuniform (pow : b64 -> b64 -> b64) (beta : b64) (gen max_gen : Z) :
  pow_contract pow -> nonneg beta -> 0 <= gen <= max_gen -> 0 < max_gen <= 2 ^ 53 ->
  exists d s', NonUniform pow bs beta gen max_gen fuel pm c s = Some (d, s') /\
  mutated_at (fun i x y => exists b j (r q : b64), bs !! i = Some b /\
    (* a random number, and the remaining share of the generations *)
    is_finite r = true /\ B2R r = unit_draw (s j) /\ near (bpow radix2 (-50)) q (1 - IZR gen / IZR max_gen) /\
    let bound := if Z.odd (bits (s (S j))) then lower b else upper b in
    near (step_rounding b x) y (B2R x + (B2R bound - B2R x) * (1 - B2R (pow r (pow q beta))))) k c d.
Proof.
  intros Hp Hbeta Hg Hmx.
  destruct (with_bounds_genes (fun _ => True) bs (nonuniform_gene pow beta gen max_gen) (bounded_by (bpow radix2 1020)) fuel pm c s k s1
    (fun s b x y => exists r q, is_finite r = true /\ B2R r = unit_draw (s 0%nat) /\ near (bpow radix2 (-50)) q (1 - IZR gen / IZR max_gen) /\
    near (step_rounding b x) y (B2R x + (B2R (if Z.odd (bits (s 1%nat)) then lower b else upper b) - B2R x) * (1 - B2R (pow r (pow q beta))))))
    as (d & s' & Hd & _ & Hm); try done.
  - intros b x s0 _. by apply nonuniform_gene_near.
  - intros b x. unfold nonuniform_gene, randomBool, randomReal, prng. adv.
  - exists d, s'. split; [done|]. destruct Hm as (Hl & pos & H1 & H2 & H3 & H4). split; [done|]. exists pos. split_and!; try done.
    intros i x Hx. destruct (H4 i x Hx) as (y & Hy & Hin & Hout). exists y. split_and!; try done. intros Hi.
    destruct (Hin Hi) as (b & s2 & Hb & [j Hj] & r & q & E1 & E2 & E3 & E4). exists b, j, r, q. rewrite !Hj, Nat.add_0_r in E2. rewrite Hj, Nat.add_1_r in E4. done.
Qed.
Theorem C90_polynomial (pow : b64 -> b64 -> b64) (eta : b64) :
  pow_contract pow -> is_finite eta = true -> Bsign eta = false -> (B2R eta <= bpow radix2 1020)%R ->
  exists d s', Polynomial pow bs eta fuel pm c s = Some (d, s') /\
  mutated_at (fun i x y => exists b j (t e : b64), bs !! i = Some b /\ is_finite t = true /\ near (bpow radix2 (-50)) e (/ (1 + B2R eta)) /\
    let alpha := unit_draw (s j) in
    ((alpha <= / 2 /\ B2R t = 2 * alpha /\ B2R y <= B2R x /\ near (step_rounding b x) y (B2R x - (B2R x - B2R (lower b)) * (1 - B2R (pow t e)))) \/
     (/ 2 < alpha /\ B2R t = 2 - 2 * alpha /\ B2R x <= B2R y /\ near (step_rounding b x) y (B2R x + (B2R (upper b) - B2R x) * (1 - B2R (pow t e)))))%R) k c d.
Proof.
  intros Hp Fe Se He.
  destruct (with_bounds_genes (fun _ => True) bs (polynomial_gene pow eta) (bounded_by (bpow radix2 1020)) fuel pm c s k s1
    (fun s b x y => exists t e, is_finite t = true /\ near (bpow radix2 (-50)) e (/ (1 + B2R eta)) /\
    ((unit_draw (s 0%nat) <= / 2 /\ B2R t = 2 * unit_draw (s 0%nat) /\ B2R y <= B2R x /\
        near (step_rounding b x) y (B2R x - (B2R x - B2R (lower b)) * (1 - B2R (pow t e)))) \/
     (/ 2 < unit_draw (s 0%nat) /\ B2R t = 2 - 2 * unit_draw (s 0%nat) /\ B2R x <= B2R y /\
        near (step_rounding b x) y (B2R x + (B2R (upper b) - B2R x) * (1 - B2R (pow t e)))))%R))
    as (d & s' & Hd & _ & Hm); try done.
  - intros b x s0 _. by apply polynomial_gene_near.
  - intros b x. unfold polynomial_gene, randomReal, prng. adv.
  - exists d, s'. split; [done|]. destruct Hm as (Hl & pos & H1 & H2 & H3 & H4). split; [done|]. exists pos. split_and!; try done.
    intros i x Hx. destruct (H4 i x Hx) as (y & Hy & Hin & Hout). exists y. split_and!; try done. intros Hi.
    destruct (Hin Hi) as (b & s2 & Hb & [j Hj] & t & e & E1 & E2 & E3). exists b, j, t, e. rewrite Hj, Nat.add_0_r in E3. done.
Qed.
Theorem C90_gauss (sigma : b64) : normals_finite s -> is_finite sigma = true -> (0 < B2R sigma)%R ->
  Forall (fun b => (B2R (upper b) - B2R (lower b)) / B2R sigma <= bpow radix2 1020)%R bs ->
  exists d s', Gauss bs sigma fuel pm c s = Some (d, s') /\
  mutated_at (fun i x y => exists b j, bs !! i = Some b /\
    let z := B2R (std_normal (s j)) in
    let step := ((B2R (upper b) - B2R (lower b)) / B2R sigma * z)%R in
    ((Rabs step <= bpow radix2 1020)%R ->
     near (bpow radix2 (-49) * (Rabs (B2R x) + Rabs step) + bpow radix2 (-1071) * (1 + Rabs z)) y (Rclamp b (B2R x + step)))) k c d.
Proof.
  intros Hn Fs Hs Hsd.
  destruct (with_bounds_genes normals_finite bs (gauss_gene sigma) (fun b => bounded_by (bpow radix2 1020) b /\ ((B2R (upper b) - B2R (lower b)) / B2R sigma <= bpow radix2 1020)%R) fuel pm c s k s1
    (fun s b x y => let z := B2R (std_normal (s 0%nat)) in
    let step := ((B2R (upper b) - B2R (lower b)) / B2R sigma * z)%R in
    ((Rabs step <= bpow radix2 1020)%R ->
     near (bpow radix2 (-49) * (Rabs (B2R x) + Rabs step) + bpow radix2 (-1071) * (1 + Rabs z)) y (Rclamp b (B2R x + step)))))
    as (d & s' & Hd & _ & Hm); try done.
  - intros s0 s2 H [j Hj] n. rewrite Hj. apply H.
  - intros b x s0 Hn0. by apply gauss_gene_near.
  - intros b x. unfold gauss_gene, randomNormal. adv.
  - by apply Forall_and.
  - exists d, s'. split; [done|]. destruct Hm as (Hl & pos & H1 & H2 & H3 & H4). split; [done|]. exists pos. split_and!; try done.
    intros i x Hx. destruct (H4 i x Hx) as (y & Hy & Hin & Hout). exists y. split_and!; try done. intros Hi.
    destruct (Hin Hi) as (b & s2 & Hb & [j Hj] & H). exists b, j. split; [done|]. by rewrite Hj, Nat.add_0_r in H.
Qed.
End c90.
Print Assumptions C90_boundary.
Print Assumptions C90_uniform.
Print Assumptions C90_nonuniform.
Print Assumptions C90_polynomial.
Print Assumptions C90_gauss.
(** Two genes, both chosen. *)
Example C90_nonvacuous :
  let c := [fone; fhalf] in let s := stream_of [0; 0; 2 ^ 63; 2 ^ 62 + 1; 0] in
  Forall bounds_ok two_bounds /\ in_bounds two_bounds c /\ Forall (bounded_by (bpow radix2 1020)) two_bounds /\
  pow_contract pow_one /\ nonneg fone /\ normals_finite s /\
  option_map fst (randomBinomial 0 2 fone s) = Some 2 /\
  option_map (fun r => B2SF <$> r.1) (Boundary two_bounds 0 fone c s) = Some (B2SF <$> [upper small; lower small]) /\
  option_map (fun r => B2SF <$> r.1) (RealUniform two_bounds 0 fone c s) <> Some (B2SF <$> c).
Proof.
  destruct C37_nonvacuous as (H1 & H2 & _ & H3 & H4 & H5). cbn zeta.
  refine (conj H1 (conj H2 (conj _ (conj pow_one_contract (conj _ (conj (fun n => eq_refl) (conj H3 (conj H5 H4)))))))).
  - assert (H : bounded_by (bpow radix2 1020) small).
    { assert (4 <= bpow radix2 1020)%R by (change 4%R with (bpow radix2 2); apply bpow_le; lia).
      destruct (fmk_val (-1) 0) as (_ & V1 & _); [lia|lia|]. destruct (fmk_val 3 0) as (_ & V3 & _); [lia|lia|].
      unfold bounded_by, small. cbn [lower upper]. rewrite V1, V3. change (bpow radix2 0) with 1%R. split; apply Rabs_le; lra. }
    constructor; [done|]. constructor; [done|constructor].
  - split; reflexivity.
Qed.
