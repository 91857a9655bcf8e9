(** C80: reference lines. *)
From Coq Require Import Reals Lra Lia ZArith QArith.
From Flocq Require Import Core BinarySingleNaN.
From stdpp Require Import list list_numbers sets.
From Verif Require Import StdSort AlgorithmModel AlgorithmSpec AlgorithmProofs FloatBase RealCrossoverModel RealSpec RealProofs RandModel RandProofs QrngModel QrngProps.
From Verif Require Import ConeModel ConeSpec ConeProofs RefModel RefSpec RefProofs.
Local Open Scope R_scope.

(** The four mappings take points of the hypercube to the unit simplex. *)
Theorem C80_log small p : 0 < small < 1 -> p <> [] -> Forall (fun x => 0 <= x < 1) p ->
  exists q, mapping_log ln small 1 p = Some q /\ length q = length p /\ on_simplex q.
Proof. apply mapping_log_ok. Qed.
Theorem C80_sort sort p : sort_contract sort -> Forall (fun x => 0 <= x <= 1) p -> exists q, mapping_sort 1 sort p = Some q /\ length q = S (length p) /\ on_simplex q.
Proof. apply mapping_sort_ok. Qed.
Theorem C80_root pow p : unit_pow pow -> Forall (fun x => 0 <= x <= 1) p -> exists q, mapping_root pow 1 p = Some q /\ length q = S (length p) /\ on_simplex q.
Proof. apply mapping_root_ok. Qed.
(** The loop of the mirror mapping ends for all points whose coordinates have a common denominator,
    so for all points of doubles; when it ends the result is right. *)
Theorem C80_mirror fuel p q : mapping_mirror 1 fuel p = Some q -> length q = S (length p) /\ on_simplex q.
Proof. apply mapping_mirror_ok. Qed.
Theorem C80_mirror_ends (den : nat) p : (0 < den)%nat -> Forall (fun x => 0 <= x <= 1 /\ exists z, x = IZR z / INR den) p -> exists fuel q, mapping_mirror 1 fuel p = Some q.
Proof.
  intros Hd Hp. apply lt_0_INR in Hd. destruct (mapping_mirror_ends (/ INR den) p) as [fuel [q Hq]].
  - by apply Rinv_0_lt_compat.
  - exists (Z.of_nat den). rewrite <- INR_IZR_INZ. field. lra.
  - eapply Forall_impl; [exact Hp|]. intros x [_ [z ->]]. by exists z.
  - eapply Forall_impl; [exact Hp|]. by intros x [H _].
  - by exists fuel, q.
Qed.
Print Assumptions C80_log.
Print Assumptions C80_sort.
Print Assumptions C80_root.
Print Assumptions C80_mirror.
Print Assumptions C80_mirror_ends.

(** The generators: the quasi random points of C72 (as real numbers), mapped. *)
Lemma simplex_points_ok F dim cube : (0 < dim)%nat -> Forall (fun p => exists q, F p = Some q /\ length q = dim /\ on_simplex q) cube ->
  exists ps, simplex_points F dim cube = Some ps /\ length ps = length cube /\ Forall (fun q => length q = dim /\ on_simplex q) ps.
Proof.
  intros Hd H. unfold simplex_points. rewrite decide_False by lia. induction H as [|p cube (q & Hq & Hl & Hs) H (ps & E & L & Hps)]; [by exists []|].
  exists (q :: ps). cbn [foldr]. rewrite E. cbn [mbind option_bind]. rewrite Hq. cbn [mbind option_bind]. rewrite decide_True by done. split; [done|]. split; [cbn; by rewrite L|]. by constructor.
Qed.
Definition vals (p : list b64) : list R := (fun x : b64 => B2R x) <$> p.
Definition reals (cube : list (list b64)) : list (list R) := vals <$> cube.
Lemma grid_double (x : b64) : on_grid (bpow radix2 (-1074)) (B2R x).
Proof.
  pose proof (generic_format_B2R 53 1024 x) as Hg. apply (FLT_format_generic radix2 (3 - 1024 - 53) 53) in Hg. destruct Hg as [[n e] E1 E2 E3]. cbn [Fnum Fexp] in *. rewrite E1. exists (n * 2 ^ (e + 1074))%Z.
  rewrite mult_IZR. change 2%Z with (radix_val radix2). rewrite IZR_Zpower by lia. unfold F2R. cbn [Fnum Fexp]. rewrite Rmult_assoc, <- bpow_plus. f_equal. f_equal. lia.
Qed.
Section Generated.
Variables (pow : b64 -> b64 -> b64) (cube : list (list b64)).
Hypothesis Hpow : pow_ge_1 pow.
(** What the generator returns for [n] calls in [input_dim] dimensions. *)
Definition quasi_points (input_dim n : nat) : option (list (list b64)) := quasi_run (replicate n QNext) (quasi_new pow input_dim (fmk 1 (-1))).
Lemma quasi_run_length ops q ps : quasi_run ops q = Some ps -> Forall (fun op => op = QNext) ops -> length ps = length ops.
Proof.
  revert q ps. induction ops as [|op ops IH]; intros q ps E H; [by injection E as <-|]. apply Forall_cons in H as [-> H]. cbn [quasi_run] in E. destruct (quasi_next q) as [[q' p]|]; [|done]. cbn [mbind option_bind] in E.
  destruct (quasi_run ops q') as [ps'|] eqn:Er; [|done]. cbn in E. injection E as <-. cbn. f_equal. by eapply IH.
Qed.
Lemma quasi_points_ok input_dim n : (Z.of_nat input_dim < 2 ^ 64)%Z -> exists ps, quasi_points input_dim n = Some ps /\ length ps = n /\ Forall (fun p => length p = input_dim /\ Forall in_unit p) ps.
Proof.
  intros Hd. assert (Hs : seed_ok (fmk 1 (-1))).
  { destruct (fmk_val 1 (-1)) as (V1 & V2 & _); [lia|lia|]. split; [done|]. rewrite V2. change (bpow radix2 (-1)) with (/ 2). assert (1 < bpow radix2 63) by (change 1 with (bpow radix2 0); apply bpow_lt; lia). lra. }
  destruct (C72_unit_cube pow input_dim (fmk 1 (-1)) (replicate n QNext) Hpow Hd Hs) as (ps & E & H); [apply Forall_replicate; exact I|].
  exists ps. split; [exact E|]. split; [|exact H]. apply quasi_run_length in E; [by rewrite E, replicate_length|by apply Forall_replicate].
Qed.
Lemma generated F dim input_dim n : (0 < dim)%nat -> (Z.of_nat input_dim < 2 ^ 64)%Z ->
  (forall p, length p = input_dim -> Forall in_unit p -> exists q, F (vals p) = Some q /\ length q = dim /\ on_simplex q) ->
  exists ps, option_map reals (quasi_points input_dim n) ≫= simplex_points F dim = Some ps /\ length ps = n /\ Forall (fun q => length q = dim /\ on_simplex q) ps.
Proof.
  intros Hd Hi HF. destruct (quasi_points_ok input_dim n Hi) as (cs & E & L & Hc). rewrite E. cbn [option_map mbind option_bind]. destruct (simplex_points_ok F dim (reals cs) Hd) as (ps & E' & L' & H').
  - unfold reals. apply Forall_fmap. eapply Forall_impl; [exact Hc|]. intros p [Hl Hu]. by apply HF.
  - exists ps. split; [exact E'|]. split; [|done]. rewrite L'. unfold reals. by rewrite fmap_length.
Qed.
Lemma unit_reals p : Forall in_unit p -> Forall (fun x => 0 <= x < 1) (vals p).
Proof. intros H. unfold vals. apply Forall_fmap. eapply Forall_impl; [exact H|]. by intros x [_ Hx]. Qed.
Lemma unit_reals_closed p : Forall in_unit p -> Forall unit_closed_R (vals p).
Proof. intros H. eapply Forall_impl; [by apply unit_reals|]. intros x Hx. cbn in Hx. unfold unit_closed_R. lra. Qed.
(** Every point the four generators return, for every dimension and number of points. *)
Theorem C80_generated_log small dim n : (0 < dim)%nat -> (Z.of_nat dim < 2 ^ 64)%Z -> 0 < small < 1 ->
  exists ps, option_map reals (quasi_points dim n) ≫= simplex_points (mapping_log ln small 1) dim = Some ps /\ length ps = n /\ Forall (fun q => length q = dim /\ on_simplex q) ps.
Proof.
  intros Hd Hb Hs. apply generated; [done|done|]. intros p Hl Hu. destruct (C80_log small (vals p) Hs) as (q & E & L & H); [by destruct p; [cbn in Hl; lia|]|by apply unit_reals|].
  exists q. split; [done|]. split; [|done]. rewrite L; unfold vals; by rewrite fmap_length.
Qed.
Theorem C80_generated_sort sort dim n : sort_contract sort -> (0 < dim)%nat -> (Z.of_nat dim <= 2 ^ 64)%Z ->
  exists ps, option_map reals (quasi_points (dim - 1) n) ≫= simplex_points (mapping_sort 1 sort) dim = Some ps /\ length ps = n /\ Forall (fun q => length q = dim /\ on_simplex q) ps.
Proof.
  intros Hs Hd Hb. apply generated; [done|lia|]. intros p Hl Hu. destruct (C80_sort sort (vals p) Hs) as (q & E & L & H); [by apply unit_reals_closed|].
  exists q. split; [done|]. split; [|done]. rewrite L; unfold vals; rewrite fmap_length. lia.
Qed.
Theorem C80_generated_root rpow dim n : unit_pow rpow -> (0 < dim)%nat -> (Z.of_nat dim <= 2 ^ 64)%Z ->
  exists ps, option_map reals (quasi_points (dim - 1) n) ≫= simplex_points (mapping_root rpow 1) dim = Some ps /\ length ps = n /\ Forall (fun q => length q = dim /\ on_simplex q) ps.
Proof.
  intros Hs Hd Hb. apply generated; [done|lia|]. intros p Hl Hu. destruct (C80_root rpow (vals p) Hs) as (q & E & L & H); [by apply unit_reals_closed|].
  exists q. split; [done|]. split; [|done]. rewrite L; unfold vals; rewrite fmap_length. lia.
Qed.
Lemma mirror_mono fuel : forall fuel' rev last behind q, (fuel <= fuel')%nat -> mirror_loop (N := real_num) fuel rev last behind = Some q -> mirror_loop (N := real_num) fuel' rev last behind = Some q.
Proof.
  induction fuel as [|fuel IH]; intros [|fuel'] rev last behind q Hf E; [done|done|lia|]. cbn [mirror_loop] in *. destruct behind as [|high rest]; [done|]. destruct (mirror_pass _ _ _ _) as [[a m] has].
  destruct has; [apply IH; [lia|done]|]. destruct (reverse a); [done|]. apply IH; [lia|done].
Qed.
Lemma mapping_mirror_mono fuel fuel' p q : (fuel <= fuel')%nat -> mapping_mirror (N := real_num) 1 fuel p = Some q -> mapping_mirror (N := real_num) 1 fuel' p = Some q.
Proof.
  intros Hf E. unfold mapping_mirror in *. destruct (in_cube _ _); [|done]. destruct (reverse p) as [|x rev]; [done|]. destruct (mirror_loop (N := real_num) fuel rev x [1]) as [r|] eqn:El; [|done]. by rewrite (mirror_mono _ _ _ _ _ _ Hf El).
Qed.
Theorem C80_generated_mirror dim n : (0 < dim)%nat -> (Z.of_nat dim <= 2 ^ 64)%Z ->
  exists enough, forall fuel, (enough <= fuel)%nat ->
  exists ps, option_map reals (quasi_points (dim - 1) n) ≫= simplex_points (mapping_mirror 1 fuel) dim = Some ps /\ length ps = n /\ Forall (fun q => length q = dim /\ on_simplex q) ps.
Proof.
  intros Hd Hb. destruct (quasi_points_ok (dim - 1) n) as (cs & E & L & Hc); [lia|]. rewrite E. cbn [option_map mbind option_bind].
  assert (H : exists enough, forall fuel, (enough <= fuel)%nat -> Forall (fun p => exists q, mapping_mirror (N := real_num) 1 fuel p = Some q /\ length q = dim /\ on_simplex q) (reals cs)).
  { clear E L. induction Hc as [|p cs [Hl Hu] Hc [enough IH]]; [exists 0%nat; intros; constructor|].
    destruct (mapping_mirror_ends (bpow radix2 (-1074)) (vals p)) as [f1 [q Hq]].
    - apply bpow_gt_0.
    - exists (2 ^ 1074)%Z. change 2%Z with (radix_val radix2). rewrite IZR_Zpower by lia. rewrite <- bpow_plus. done.
    - unfold vals. apply Forall_fmap. eapply Forall_impl; [exact Hu|]. intros x _. apply grid_double.
    - by apply unit_reals_closed.
    - exists (enough `max` f1)%nat. intros fuel Hf. constructor; [|apply IH; lia]. exists q. split; [apply (mapping_mirror_mono f1); [lia|done]|]. destruct (C80_mirror _ _ _ Hq) as [Hq1 Hq2]. split; [|done]. rewrite Hq1. unfold vals. rewrite fmap_length. lia. }
  destruct H as [enough H]. exists enough. intros fuel Hf. destruct (simplex_points_ok (mapping_mirror 1 fuel) dim (reals cs) Hd (H fuel Hf)) as (ps & E' & L' & H'). exists ps. split; [exact E'|]. split; [|done].
  rewrite L'. unfold reals. by rewrite fmap_length.
Qed.
End Generated.
Print Assumptions C80_generated_log.
Print Assumptions C80_generated_sort.
Print Assumptions C80_generated_root.
Print Assumptions C80_generated_mirror.

(** ** pickSparseSubset *)
Lemma swap_pop_ok {A} (l : list A) idx x : l !! idx = Some x -> exists l', swap_pop l idx = Some l' /\ l ≡ₚ x :: l'.
Proof.
  intros Hx. pose proof (lookup_lt_Some _ _ _ Hx) as Hi. unfold swap_pop. destruct (swap_within l 0 (length l) idx (length l - 1)) as (l1 & E & W); [lia|lia|lia|].
  rewrite E. cbn [mbind option_bind]. eexists. split; [done|]. pose proof (w_perm _ _ _ _ W) as P. assert (Hl : length l1 = length l) by (by apply Permutation_length).
  assert (Hlast : l1 !! (length l - 1)%nat = Some x).
  { unfold iter_swap in E. rewrite Hx in E. cbn [mbind option_bind] in E. destruct (l !! (length l - 1)%nat) as [y|]; [|done]. cbn in E. injection E as <-. apply list_lookup_insert. rewrite insert_length. lia. }
  transitivity l1; [by symmetry|]. rewrite <- (take_drop (length l - 1) l1) at 1. rewrite (drop_S l1 x (length l - 1) Hlast). rewrite (drop_ge l1) by lia. apply (Permutation_app_comm _ [x]).
Qed.
Lemma pick_loop_ok num_points fuel : forall points cands dists, length dists = length cands -> (length points <= num_points)%nat -> (num_points <= length points + length cands)%nat -> (num_points - length points < fuel)%nat ->
  exists ps, pick_loop (N := real_num) fuel num_points points cands dists = Some ps /\ length ps = num_points /\ ps ⊆+ points ++ cands.
Proof.
  induction fuel as [|fuel IH]; intros points cands dists Hd Hp Hc Hf; [lia|]. cbn [pick_loop]. destruct (decide (length points < num_points)%nat) as [Hlt | Hge].
  - unfold argmax. rewrite decide_True by lia. cbn [mbind option_bind]. assert (Hne : dists <> []) by (intros ->; cbn in Hd; lia).
    destruct (max_element_ok (nlt (num := real_num)) Datatypes.id dists Hne (rlt_swo _)) as (v & Hv & _). set (idx := max_element (nlt (num := real_num)) Datatypes.id dists) in *. clearbody idx.
    rewrite list_lookup_fmap in Hv. destruct (dists !! idx) as [dv|] eqn:Ed; [|done]. pose proof (lookup_lt_Some _ _ _ Ed) as Hi. destruct (lookup_lt_is_Some_2 cands idx ltac:(lia)) as [p Hpt]. rewrite Hpt. cbn [mbind option_bind].
    destruct (swap_pop_ok cands idx p Hpt) as (c' & E1 & P1). rewrite E1. cbn [mbind option_bind]. destruct (swap_pop_ok dists idx dv Ed) as (d' & E2 & P2). rewrite E2. cbn [mbind option_bind].
    apply Permutation_length in P2 as L2. pose proof (Permutation_length P1) as L1. cbn in L1, L2.
    match goal with |- context [pick_loop fuel num_points (points ++ [p]) c' ?z] => destruct (IH (points ++ [p]) c' z) as (ps & E & L & S) end; [rewrite zip_with_length; lia|rewrite app_length; cbn; lia|rewrite app_length; cbn; lia|rewrite app_length; cbn; lia|].
    rewrite E. exists ps. split; [done|]. split; [done|]. rewrite S. rewrite P1. rewrite <- app_assoc. done.
  - exists points. split; [done|]. split; [lia|]. by apply submseteq_inserts_r.
Qed.
(** Exactly the requested number of candidates is picked, each at most once. *)
Theorem C80_pick dim num_points k cands : (0 < dim)%nat -> (0 < num_points)%nat -> (0 < k)%nat -> length cands = (k * num_points)%nat ->
  exists ps, pick_sparse_subset (N := real_num) dim num_points cands = Some ps /\ length ps = num_points /\ ps ⊆+ cands.
Proof.
  intros Hd Hn Hk Hl. assert (Hlen : (num_points <= length cands)%nat) by (rewrite Hl; nia). unfold pick_sparse_subset. rewrite decide_False by nia. destruct (lookup_lt_is_Some_2 cands (length cands - 1) ltac:(lia)) as [p Hp].
  rewrite Hp. cbn [mbind option_bind]. destruct (pick_loop_ok num_points num_points [p] (take (length cands - 1) cands) (euclidean_distance_sq (N := real_num) p <$> take (length cands - 1) cands)) as (ps & E & L & S).
  - apply fmap_length.
  - cbn. lia.
  - rewrite take_length. cbn. lia.
  - cbn. lia.
  - exists ps. split; [exact E|]. split; [done|]. rewrite S. apply Permutation_submseteq. transitivity (take (length cands - 1) cands ++ drop (length cands - 1) cands); [|by rewrite take_drop]. rewrite (drop_S cands p (length cands - 1) Hp). rewrite (drop_ge cands) by lia. apply (Permutation_app_comm [p]).
Qed.
(** So they are on the simplex when the candidates are. *)
Theorem C80_pick_simplex dim num_points k cands ps : (0 < dim)%nat -> (0 < num_points)%nat -> (0 < k)%nat -> length cands = (k * num_points)%nat ->
  Forall on_simplex cands -> pick_sparse_subset (N := real_num) dim num_points cands = Some ps -> Forall on_simplex ps.
Proof.
  intros Hd Hn Hk Hl Hc E. destruct (C80_pick dim num_points k cands Hd Hn Hk Hl) as (ps' & E' & _ & S). rewrite E in E'. injection E' as <-. apply Forall_forall. intros x Hx. rewrite Forall_forall in Hc. apply Hc.
  by eapply elem_of_submseteq.
Qed.
Print Assumptions C80_pick.
Print Assumptions C80_pick_simplex.

(** ** The normalised lines of NSGA-III *)
Lemma dot_scale s u : dot ((fun x => x / s) <$> u) ((fun x => x / s) <$> u) = dot u u / (s * s) \/ s = 0.
Proof.
  destruct (Req_dec s 0) as [-> | Hs]; [by right|left]. induction u as [|x u IH]; cbn; [unfold Rdiv; lra|]. rewrite IH. field. done.
Qed.
(** A point of the simplex has a positive norm, so the line is well defined, in the same
    direction, and its norm is 1. *)
Theorem C80_normalized p : on_simplex p -> exists c, 0 < c /\ normalize_vector (N := real_num) p = (fun x => x / c) <$> p /\ dot (normalize_vector (N := real_num) p) (normalize_vector (N := real_num) p) = 1.
Proof.
  intros [Hp Ht]. exists (R_sqrt.sqrt (dot p p)). assert (Hd : 0 < dot p p).
  { destruct (Rle_lt_or_eq_dec _ _ (dot_self_nonneg p)) as [H | H]; [done|exfalso]. assert (Hz : total p = 0); [|lra]. clear -H. induction p as [|x p IH]; [done|]. cbn in H. pose proof (dot_self_nonneg p) as Hn. assert (0 <= x * x) by nra.
    assert (x = 0) by nra. subst x. unfold total in *. cbn [foldr]. rewrite IH by lra. lra. }
  assert (Hs : 0 < R_sqrt.sqrt (dot p p)) by (by apply sqrt_lt_R0). assert (E : normalize_vector (N := real_num) p = (fun x => x / R_sqrt.sqrt (dot p p)) <$> p) by (unfold normalize_vector, euclidean_norm; by rewrite inner_product_dot).
  split; [done|]. split; [exact E|]. rewrite E. destruct (dot_scale (R_sqrt.sqrt (dot p p)) p) as [-> | H]; [|lra]. rewrite sqrt_sqrt by lra. field. lra.
Qed.
Print Assumptions C80_normalized.

(** ** Examples *)
#[local] Instance rat_num : num Q := Num Q 0%Q (fun x y => Qred (x + y)) (fun x y => Qred (x - y)) (fun x y => Qred (x * y)) (fun x y => Qred (x / y))
  (fun x => x) (fun x y => negb (Qle_bool y x)) (fun n => inject_Z (Z.of_nat n)).
(** The mirror mapping needs several passes here; sort; three of six candidates. *)
Example C80_example_mirror : mapping_mirror (N := rat_num) 1%Q 10 [1 # 2; 1 # 5; 19 # 20; 17 # 20]%Q = Some [3 # 20; 1 # 20; 1 # 5; 1 # 4; 7 # 20]%Q.
Proof. vm_compute. reflexivity. Qed.
Example C80_example_sort : mapping_sort (N := rat_num) 1%Q isort [1 # 2; 1 # 5; 19 # 20; 17 # 20]%Q = Some [1 # 5; 3 # 10; 7 # 20; 1 # 10; 1 # 20]%Q.
Proof. vm_compute. reflexivity. Qed.
Example C80_example_pick : pick_sparse_subset (N := rat_num) 2 3 [[1; 0]; [0; 1]; [1 # 2; 1 # 2]; [1 # 3; 2 # 3]; [1 # 4; 3 # 4]; [1 # 5; 4 # 5]]%Q = Some [[1 # 5; 4 # 5]; [1; 0]; [1 # 2; 1 # 2]]%Q.
Proof. vm_compute. reflexivity. Qed.
(** The hypotheses of the theorems hold. *)
Example C80_nonvacuous : unit_pow (fun x y => if Req_EM_T x 0 then 0 else Rpower x y) /\ sort_contract (@isort R) /\ pow_ge_1 pow_id /\
  Forall (fun x => 0 <= x <= 1 /\ exists z, x = IZR z / INR 4) [3 / 4; 1 / 4] /\ Forall on_simplex [[1 / 4; 3 / 4]; [1 / 2; 1 / 2]].
Proof.
  split; [|split; [apply isort_contract|split; [intros x y H1 H2 _; by split|split]]].
  - intros x y Hx Hy. destruct (Req_EM_T x 0); [lra|]. split; [apply Rlt_le; apply exp_pos|]. unfold Rpower. rewrite <- exp_0. destruct (Req_dec x 1) as [-> | Hx1]; [rewrite ln_1, Rmult_0_r; lra|].
    apply Rlt_le, exp_increasing. pose proof (ln_increasing x 1 ltac:(lra) ltac:(lra)) as H. rewrite ln_1 in H. nra.
  - apply Forall_cons; split; [split; [lra|exists 3%Z; cbn; lra]|]. apply Forall_cons; split; [split; [lra|exists 1%Z; cbn; lra]|]. by apply Forall_nil.
  - apply Forall_cons; split; [|apply Forall_cons; split; [|by apply Forall_nil]]; (split; [repeat (apply Forall_cons; split; [lra|]); by apply Forall_nil|unfold total; cbn [foldr]; lra]).
Qed.
