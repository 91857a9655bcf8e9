(** C37 - C40: the real coded, integer and binary mutations. *)
From Coq Require Import Reals ZArith Lra Lia.
From stdpp Require Import list list_numbers.
From Flocq Require Import Core BinarySingleNaN.
From Verif Require Import FloatBase FloatModel FloatSpec FloatProofs FloatProps RealCrossoverModel RealSpec RealProofs RealCrossoverProofs RealCrossoverProps
  OperatorModel OperatorSpec CrossoverOpProps RandModel RandSpec RandProofs BinomialProofs RandProps MutationModel MutationSpec PermMutationProofs PermMutationProps MutationProofs.

Local Open Scope Z_scope.

(** ** C37.  [randomBinomial] returning is C71; its loops are bounded by [fuel]. *)
Section c37.
Variables (bs : list bounds) (fuel : nat) (pm : b64) (c : list b64) (s s1 : stream) (k : Z).
Hypothesis bounds_good : Forall bounds_ok bs.
Hypothesis c_in : in_bounds bs c.
Hypothesis c_size : Z.of_nat (length c) < 2 ^ 64.
Hypothesis count : randomBinomial fuel (Z.of_nat (length c)) pm s = Some (k, s1).

Theorem C37_boundary_in_bounds : exists d s', Boundary bs fuel pm c s = Some (d, s') /\ in_bounds bs d.
Proof.
  apply (with_bounds_ok (fun _ => True) bs boundary_gene (fun _ => True) fuel pm c s k s1); try done.
  - intros b x s0 _ _. by apply boundary_gene_in.
  - by apply Forall_true.
Qed.
(** The width of the bounds must not overflow. *)
Hypothesis widths : Forall (fun b => is_finite (fsub (upper b) (lower b)) = true) bs.
Theorem C37_uniform_in_bounds_partial : exists d s', RealUniform bs fuel pm c s = Some (d, s') /\ in_bounds bs d.
Proof.
  apply (with_bounds_ok (fun _ => True) bs uniform_gene width_finite fuel pm c s k s1); try done.
  intros b x s0 _. by apply uniform_gene_in.
Qed.
Theorem C37_nonuniform_in_bounds_partial (pow : b64 -> b64 -> b64) (beta : b64) (gen max_gen : Z) :
  pow_contract pow -> nonneg beta -> 0 <= gen <= max_gen -> 0 < max_gen <= 2 ^ 64 ->
  exists d s', NonUniform pow bs beta gen max_gen fuel pm c s = Some (d, s') /\ in_bounds bs d.
Proof.
  intros Hp Hbeta Hg Hm. apply (with_bounds_ok (fun _ => True) bs (nonuniform_gene pow beta gen max_gen) width_finite fuel pm c s k s1); try done.
  intros b x s0 _ Hw. by apply nonuniform_gene_in.
Qed.
Theorem C37_polynomial_in_bounds_partial (pow : b64 -> b64 -> b64) (eta : b64) :
  pow_contract pow -> is_finite eta = true -> Bsign eta = false ->
  exists d s', Polynomial pow bs eta fuel pm c s = Some (d, s') /\ in_bounds bs d.
Proof.
  intros Hp He Hs. apply (with_bounds_ok (fun _ => True) bs (polynomial_gene pow eta) width_finite fuel pm c s k s1); try done.
  intros b x s0 _ Hw. apply polynomial_gene_in; try done. split; [by apply is_finite_not_nan|done].
Qed.
Theorem C37_gauss_in_bounds_partial (sigma : b64) :
  normals_finite s -> is_finite sigma = true -> (0 < B2R sigma)%R ->
  Forall (fun b => is_finite (fdiv (fsub (upper b) (lower b)) sigma) = true) bs ->
  exists d s', Gauss bs sigma fuel pm c s = Some (d, s') /\ in_bounds bs d.
Proof.
  intros Hn Fs Hs Hsd.
  apply (with_bounds_ok normals_finite bs (gauss_gene sigma) (fun b => width_finite b /\ is_finite (fdiv (fsub (upper b) (lower b)) sigma) = true) fuel pm c s k s1); try done.
  - intros s2 s3 H2 [j Hj] n. by rewrite Hj.
  - intros b x s0 H0 Hw. by apply gauss_gene_in.
  - by apply Forall_and.
Qed.
End c37.
Print Assumptions C37_boundary_in_bounds.
Print Assumptions C37_uniform_in_bounds_partial.
Print Assumptions C37_nonuniform_in_bounds_partial.
Print Assumptions C37_polynomial_in_bounds_partial.
Print Assumptions C37_gauss_in_bounds_partial.

(** Two genes, both mutated (rate 1; the two draws of the count, then the draws of the genes). *)
Definition two_bounds : list bounds := [small; small].
Example C37_nonvacuous :
  let c := [fone; fhalf] in let s := stream_of [0; 0; 2 ^ 63; 2 ^ 62 + 1; 0] in
  Forall bounds_ok two_bounds /\ in_bounds two_bounds c /\ Forall (fun b => is_finite (fsub (upper b) (lower b)) = true) two_bounds /\
  option_map fst (randomBinomial 0 2 fone s) = Some 2 /\
  option_map (fun r => B2SF <$> r.1) (RealUniform two_bounds 0 fone c s) <> Some (B2SF <$> c) /\
  option_map (fun r => B2SF <$> r.1) (Boundary two_bounds 0 fone c s) = Some (B2SF <$> [upper small; lower small]).
Proof.
  cbn zeta. assert (H1 : in_bound small fone) by (apply in_small; vm_compute; reflexivity). assert (H2 : in_bound small fhalf) by (apply in_small; vm_compute; reflexivity).
  assert (Hb : bounds_ok small). { unfold bounds_ok. split_and!; [done|done|]. destruct H1 as [_ [? ?]]. lra. }
  split; [constructor; [done|constructor; [done|constructor]]|]. split; [constructor; [done|constructor; [done|constructor]]|].
  split; [constructor; [vm_compute; reflexivity|constructor; [vm_compute; reflexivity|constructor]]|].
  split; [vm_compute; reflexivity|]. split; [vm_compute; discriminate|vm_compute; reflexivity].
Qed.

(** Refuted for the widest finite bounds: each of the other four operators produces a
    NaN. *)
Definition widest : bounds := Bounds (fneg flarge) flarge.
Definition s_zero : stream := stream_of [].
Lemma widest_ok : Forall bounds_ok [widest].
Proof.
  constructor; [|constructor]. unfold bounds_ok. split; [done|]. split; [done|].
  assert (H : fle (fneg flarge) flarge = true) by (vm_compute; reflexivity). rewrite fle_fval in H by done. rewrite !fval_finite in H by done.
  revert H. cbn [lower upper widest]. by case Rle_bool_spec.
Qed.
Lemma widest_all x : is_finite x = true -> in_bounds [widest] [x].
Proof.
  intros F. constructor; [|constructor]. split; [done|]. cbn [lower upper widest].
  pose proof (flarge_max x F) as H1. assert (F' : is_finite (fneg x) = true) by (unfold fneg; by rewrite is_finite_Bopp).
  pose proof (flarge_max (fneg x) F') as H2. rewrite !fval_finite in H1, H2 by done. unfold fneg in *. rewrite B2R_Bopp in *. lra.
Qed.
Theorem C37_wide_bounds_refuted :
  (exists s', RealUniform [widest] 0 fone [fzero] s_zero = Some ([B754_nan], s')) /\
  (exists s', Gauss [widest] fone 0 fone [fzero] s_zero = Some ([B754_nan], s')) /\
  (exists s', Polynomial pow_one [widest] fone 0 fone [flarge] (stream_of [0; 2 ^ 63]) = Some ([B754_nan], s')) /\
  (exists s', NonUniform pow_one [widest] fone 0 10 0 fone [flarge] (stream_of [0; 0; 1]) = Some ([B754_nan], s')) /\
  in_bounds [widest] [fzero] /\ in_bounds [widest] [flarge] /\ Forall bounds_ok [widest] /\ ~ in_bounds [widest] [B754_nan].
Proof.
  assert (H : forall m : option (list b64 * stream), option_map fst m = Some [B754_nan] -> exists s', m = Some ([B754_nan], s')).
  { intros [[l s']|] H; [|done]. exists s'. cbn in H. by injection H as ->. }
  split; [apply H; vm_compute; reflexivity|]. split; [apply H; vm_compute; reflexivity|]. split; [apply H; vm_compute; reflexivity|]. split; [apply H; vm_compute; reflexivity|].
  split; [by apply widest_all|]. split; [by apply widest_all|]. split; [apply widest_ok|]. intros Hin. apply Forall2_cons in Hin as [[Hf _] _]. done.
Qed.
Print Assumptions C37_wide_bounds_refuted.
