(** The integers and the doubles as numbers for HyperProofs.v. *)
From Coq Require Import ZArith Reals Lia Lra.
From Flocq Require Import Core BinarySingleNaN.
From stdpp Require Import list list_numbers sets.
From Verif Require Import FloatBase FloatModel FloatSpec FloatProofs StdSort AlgorithmModel ParetoModel ParetoProofs FrontModel FrontSpec FrontProofs RealProofs HyperModel HyperSpec HyperProofs.
Local Open Scope Z_scope.

(** ** Integers *)
Definition ex_ok (x : option Z) (z : Z) : Prop := x = Some z.
Lemma ex_oks l k : Forall2 ex_ok l k <-> l = Some <$> k.
Proof.
  split.
  - induction 1 as [|x z l k Hx H IH]; [done|]. cbn. by rewrite Hx, IH.
  - intros ->. induction k; constructor; done.
Qed.
Lemma ex_okm m zm : Forall2 (Forall2 ex_ok) m zm <-> m = int_rows zm.
Proof.
  split.
  - induction 1 as [|x z l k Hx H IH]; [done|]. cbn. apply ex_oks in Hx. by rewrite Hx, IH.
  - intros ->. induction zm; constructor; [by apply ex_oks|done].
Qed.
Fixpoint zlex (u v : list Z) : bool :=
  match u, v with x :: u, y :: v => if x =? y then zlex u v else y <? x | _, _ => false end.
Lemma ex_lexgt_zlex u : forall v, ex_lexgt (Some <$> u) (Some <$> v) = zlex u v.
Proof.
  induction u as [|x u IH]; intros [|y v]; try done. cbn [fmap list_fmap ex_lexgt zlex]. rewrite <- IH. unfold ex_ne.
  destruct (Z.eqb_spec x y) as [->|Hne]; [by rewrite bool_decide_eq_true_2|]. rewrite bool_decide_eq_false_2 by congruence. done.
Qed.
Lemma zlex_irrefl u : zlex u u = false. Proof. induction u as [|x u IH]; [done|]. cbn. by rewrite Z.eqb_refl. Qed.
Lemma zlex_trans u : forall v w, zlex u v = true -> zlex v w = true -> zlex u w = true.
Proof.
  induction u as [|x u IH]; intros [|y v] [|z w]; cbn; try done. destruct (Z.eqb_spec x y), (Z.eqb_spec y z), (Z.eqb_spec x z); rewrite ?Z.ltb_lt; try lia. apply IH.
Qed.
Lemma zlex_negtrans u : forall v w, length u = length v -> length v = length w -> zlex u v = false -> zlex v w = false -> zlex u w = false.
Proof.
  induction u as [|x u IH]; intros [|y v] [|z w]; cbn; try done. intros H1 H2. destruct (Z.eqb_spec x y), (Z.eqb_spec y z), (Z.eqb_spec x z); rewrite ?Z.ltb_ge; try lia. apply IH; lia.
Qed.
Lemma any2_le u : forall v, length u = length v -> any2 (fun x y => ex_lt y x) (Some <$> u) (Some <$> v) = false -> Forall2 Z.le u v.
Proof.
  induction u as [|x u IH]; intros [|y v] Hl H; try done. cbn in Hl, H. apply orb_false_iff in H as [H1 H2]. apply Z.ltb_ge in H1. constructor; [done|]. apply IH; [lia|done].
Qed.
Lemma exact_ok sort : sort_contract sort -> num_ok (exact_num sort) (fun _ => True) ex_ok.
Proof.
  intros Hsort. split; unfold ex_ok; cbn [exact_num n_zero n_add n_sub n_abs n_lt n_ne n_product n_front n_inf].
  - done.
  - done.
  - by intros x y a b -> ->.
  - by intros x y a b -> ->.
  - by intros x a ->.
  - by intros x y a b -> ->.
  - intros x y a b -> ->. unfold ex_ne. destruct (Z.eqb_spec a b) as [->|H]; [by rewrite bool_decide_eq_true_2|by rewrite bool_decide_eq_false_2 by congruence].
  - intros l k H _. apply ex_oks in H as ->. induction k as [|x k IH]; [done|]. cbn. unfold prod in IH |- *. by rewrite IH.
  - intros d m zm H Hd. apply ex_okm in H as ->. unfold ex_front. rewrite (fmap_length ints zm : length (int_rows zm) = length zm).
    assert (Hrow : forall i z, zm !! i = Some z -> nth i (int_rows zm) [] = Some <$> z). { intros i z Hz. unfold int_rows. rewrite nth_lookup, list_lookup_fmap, Hz. done. }
    set (less := fun i j => ex_less (nth i (int_rows zm) []) (nth j (int_rows zm) [])). set (lexgt := fun i j => ex_lexgt (nth i (int_rows zm) []) (nth j (int_rows zm) [])).
    assert (Hz : forall i, (i < length zm)%nat -> exists z, zm !! i = Some z /\ length z = d).
    { intros i Hi. destruct (lookup_lt_is_Some_2 zm i Hi) as [z E]. exists z. split; [done|]. rewrite Forall_forall in Hd. apply Hd. by eapply elem_of_list_lookup_2. }
    assert (Hl : forall i j z z', zm !! i = Some z -> zm !! j = Some z' -> lexgt i j = zlex z z').
    { intros i j z z' E1 E2. unfold lexgt. rewrite (Hrow i z E1), (Hrow j z' E2). apply ex_lexgt_zlex. }
    assert (Hswo : swo_on lexgt (seq 0 (length zm))).
    { split.
      - intros i Hi. apply elem_of_seq in Hi. destruct (Hz i ltac:(lia)) as (z & E & _). rewrite (Hl i i z z E E). apply zlex_irrefl.
      - intros i j k Hi Hj Hk. apply elem_of_seq in Hi, Hj, Hk. destruct (Hz i ltac:(lia)) as (z1 & E1 & _), (Hz j ltac:(lia)) as (z2 & E2 & _), (Hz k ltac:(lia)) as (z3 & E3 & _).
        rewrite (Hl i j z1 z2), (Hl j k z2 z3), (Hl i k z1 z3) by done. apply zlex_trans.
      - intros i j k Hi Hj Hk. apply elem_of_seq in Hi, Hj, Hk. destruct (Hz i ltac:(lia)) as (z1 & E1 & L1), (Hz j ltac:(lia)) as (z2 & E2 & L2), (Hz k ltac:(lia)) as (z3 & E3 & L3).
        rewrite (Hl i j z1 z2), (Hl j k z2 z3), (Hl i k z1 z3) by done. apply zlex_negtrans; congruence. }
    destruct (sort_front (length zm) less (fun _ _ => 0) sort lexgt Hsort Hswo) as (f & Ef & [F1 F2 F3] & _). destruct (sorted_indices (length zm) sort lexgt Hsort Hswo) as [Hp _].
    assert (Hin : forall i, i ∈ f -> (i < length zm)%nat). { intros i Hi. assert (Hi' : i ∈ seq 0 (length zm)) by (rewrite <- Hp; eapply elem_of_submseteq; [exact Hi|by apply sublist_submseteq]). apply elem_of_seq in Hi'. lia. }
    exists f. split; [exact Ef|]. split; [|split; [done|]].
    + assert (Hnd : NoDup (argsort sort lexgt false (index_vector (length zm) 0))) by (rewrite Hp; apply NoDup_seq). clear -F1 Hnd.
      induction F1 as [|x l k F1 IH|x l k F1 IH]; [done| |]; apply NoDup_cons in Hnd as [Hx Hnd]; [|auto]. constructor; [|auto]. intros Hin. apply Hx. eapply elem_of_submseteq; [exact Hin|by apply sublist_submseteq].
    + intros i z E. assert (Hi : i ∈ argsort sort lexgt false (index_vector (length zm) 0)). { rewrite Hp. apply elem_of_seq. apply lookup_lt_Some in E. lia. }
      destruct (F2 i Hi) as [Hf|(j & Hj & Hless)].
      * exists i, z. split; [done|]. split; [done|]. apply Forall2_Zle_refl.
      * destruct (Hz j (Hin j Hj)) as (z' & E' & L'). exists j, z'. split; [done|]. split; [done|]. unfold less in Hless. rewrite (Hrow i z E), (Hrow j z' E') in Hless.
        apply andb_true_iff in Hless as [H1 _]. apply negb_true_iff in H1. apply any2_le; [|done]. rewrite L'. rewrite Forall_forall in Hd. apply Hd. by eapply elem_of_list_lookup_2.
  - by intros x a ->.
Qed.

(** ** Doubles *)
Definition small53 (z : Z) : Prop := Z.abs z <= 2 ^ 53.
Lemma int_rnd z : small53 z -> srnd (IZR z) = IZR z.
Proof.
  intros H. destruct (fmk_val z 0) as (F & V & _); [exact H|lia|]. change (bpow radix2 0) with 1%R in V. rewrite Rmult_1_r in V. rewrite <- V. by apply srnd_id.
Qed.
Lemma int_of_op (r : b64) z : is_nan r = false /\ fval r = srnd (IZR z) -> small53 z -> is_int r z.
Proof.
  intros [Hn Hv] Hs. rewrite (int_rnd z Hs) in Hv.
  assert (Hf : is_finite r = true).
  { apply finite_of_val; [done|]. rewrite Hv, <- abs_IZR. apply Rle_lt_trans with (bpow radix2 53); [apply (IZR_le _ (2 ^ 53)); exact Hs|]. by apply bpow_lt. }
  split; [done|]. by rewrite <- (fval_finite r Hf).
Qed.
Lemma int_mul x y a b : is_int x a -> is_int y b -> small53 (a * b) -> is_int (fmul x y) (a * b).
Proof. intros [F1 V1] [F2 V2] Hs. apply int_of_op; [|done]. rewrite mult_IZR, <- V1, <- V2. by apply fmul_finite. Qed.
Lemma prod1_app l k : prod1 (l ++ k) = prod1 l * prod1 k.
Proof. induction l as [|x l IH]; cbn [app prod1 foldr]; [fold (prod1 k); lia|]. fold (prod1 l) (prod1 (l ++ k)). rewrite IH. lia. Qed.
Lemma prod_app l k : prod (l ++ k) = prod l * prod k.
Proof. induction l as [|x l IH]; cbn [app prod foldr]; [fold (prod k); lia|]. fold (prod l) (prod (l ++ k)). rewrite IH. lia. Qed.
Lemma prod_perm l k : l ≡ₚ k -> prod l = prod k /\ prod1 l = prod1 k.
Proof. induction 1 as [|x l k H [IH1 IH2]|x y l|l k m H1 [IH1 IH2] H2 [IH3 IH4]]; [done| | |split; congruence]; cbn [prod prod1 foldr]; [fold (prod l) (prod k) (prod1 l) (prod1 k); split; congruence|fold (prod l) (prod1 l); lia]. Qed.
Lemma products_ok l x : products l x -> forall k, Forall2 is_int l k -> small53 (prod1 k) -> is_int x (prod k).
Proof.
  induction 1 as [x|l l1 l2 a b Hp H1 IH1 H2 IH2]; intros k Hk Hs.
  - inversion Hk as [|? z ? k' Hz Hk']; subst. inversion Hk'; subst. cbn. by rewrite Z.mul_1_r.
  - assert (exists k', k ≡ₚ k' /\ Forall2 is_int (l1 ++ l2) k') as (k1 & Hp1 & Hk1).
    { clear -Hp Hk. revert k Hk. induction Hp as [|x l k H IH|x y l|l k m H1 IH1 H2 IH2]; intros z Hz.
      - inversion Hz; subst. exists []. done.
      - inversion Hz as [|? z0 ? z1 Hz0 Hz1]; subst. destruct (IH z1 Hz1) as (k' & P & F). exists (z0 :: k'). split; [by constructor|by constructor].
      - inversion Hz as [|? z0 ? z1 Hz0 Hz1]; subst. inversion Hz1 as [|? z2 ? z3 Hz2 Hz3]; subst. exists (z2 :: z0 :: z3). split; [constructor|]. constructor; [done|]. by constructor.
      - destruct (IH1 z Hz) as (k' & P & F). destruct (IH2 k' F) as (k'' & P' & F'). exists k''. split; [by rewrite P|done]. }
    apply Forall2_app_inv_l in Hk1 as (m1 & m2 & F1 & F2 & ->). destruct (prod_perm _ _ Hp1) as [E1 E2]. rewrite E1, prod_app. rewrite E2, prod1_app in Hs.
    pose proof (prod1_pos m1). pose proof (prod1_pos m2). pose proof (prod_abs m1). pose proof (prod_abs m2). unfold small53 in *.
    apply int_mul; [apply IH1; [done|unfold small53; nia]|apply IH2; [done|unfold small53; nia]|]. unfold small53. rewrite Z.abs_mul. nia.
Qed.
Lemma int_le x y a b : is_int x a -> is_int y b -> (B2R x <= B2R y)%R <-> a <= b.
Proof. intros [_ ->] [_ ->]. split; [apply le_IZR|apply IZR_le]. Qed.
Lemma float_ok t product sort : exact t -> product_contract product -> sort_contract sort -> num_ok (float_num t product sort) small53 is_int.
Proof.
  intros Ht Hprod Hsort. split; cbn [float_num n_zero n_add n_sub n_abs n_lt n_ne n_product n_front n_inf].
  - unfold small53. lia.
  - by split.
  - intros x y a b [F1 V1] [F2 V2] Hs. apply int_of_op; [|done]. rewrite plus_IZR, <- V1, <- V2. by apply fadd_finite.
  - intros x y a b [F1 V1] [F2 V2] Hs. apply int_of_op; [|done]. rewrite minus_IZR, <- V1, <- V2. by apply fsub_finite.
  - intros x a [F V]. split; [by rewrite fabs_fin|]. rewrite fabs_B2R by done. by rewrite V, abs_IZR.
  - intros x y a b [F1 V1] [F2 V2]. rewrite flt_B2R, V1, V2 by done. destruct (Z.ltb_spec a b); [apply Rlt_bool_true, IZR_lt; lia|apply Rlt_bool_false, IZR_le; lia].
  - intros x y a b [F1 V1] [F2 V2]. rewrite feq_B2R, V1, V2 by done. f_equal. destruct (Z.eqb_spec a b) as [->|H]; [apply Req_bool_true; reflexivity|]. apply Req_bool_false. intros E. by apply eq_IZR in E.
  - intros l k H Hs. replace (prod k) with (prod (1 :: k)) by (cbn; fold (prod k); lia). eapply products_ok; [apply Hprod| |].
    + constructor; [|done]. destruct (fmk_val 1 0) as (F & V & _); [lia|lia|]. split; [done|]. rewrite V. change (bpow radix2 0) with 1%R. lra.
    + cbn [prod1 foldr]. fold (prod1 k). replace (Z.max 1 (Z.abs 1) * prod1 k) with (prod1 k) by lia. done.
  - intros d m zm H Hd. assert (Hm : matrix d m).
    { apply Forall_forall. intros r Hr. apply elem_of_list_lookup in Hr as [i Hi]. destruct (Forall2_lookup_l _ _ _ _ _ H Hi) as (z & Ez & Hz). split.
      - rewrite (Forall2_length _ _ _ Hz). rewrite Forall_forall in Hd. apply Hd. by eapply elem_of_list_lookup_2.
      - clear -Hz. induction Hz as [|x a l k [F _] Hz IH]; constructor; done. }
    pose proof (row_swo d m Hm) as Hswo. unfold findParetoFrontSortF.
    destruct (sort_front (length m) (row_less t m) (row_cmp t m) sort (row_lexgt m) Hsort Hswo) as (f & Ef & [F1 F2 F3] & _). destruct (sorted_indices (length m) sort (row_lexgt m) Hsort Hswo) as [Hp _].
    assert (Hin : forall i, i ∈ f -> (i < length m)%nat). { intros i Hi. assert (Hi' : i ∈ seq 0 (length m)) by (rewrite <- Hp; eapply elem_of_submseteq; [exact Hi|by apply sublist_submseteq]). apply elem_of_seq in Hi'. lia. }
    exists f. split; [exact Ef|]. split; [|split; [done|]].
    + assert (Hnd : NoDup (argsort sort (row_lexgt m) false (index_vector (length m) 0))) by (rewrite Hp; apply NoDup_seq). clear -F1 Hnd.
      induction F1 as [|x l k F1 IH|x l k F1 IH]; [done| |]; apply NoDup_cons in Hnd as [Hx Hnd]; [|auto]. constructor; [|auto]. intros Hin. apply Hx. eapply elem_of_submseteq; [exact Hin|by apply sublist_submseteq].
    + intros i z E. pose proof (Forall2_length _ _ _ H) as Hlen. assert (Hi : i ∈ argsort sort (row_lexgt m) false (index_vector (length m) 0)). { rewrite Hp. apply elem_of_seq. apply lookup_lt_Some in E. lia. }
      destruct (F2 i Hi) as [Hf|(j & Hj & Hless)].
      * exists i, z. split; [done|]. split; [done|]. apply Forall2_Zle_refl.
      * destruct (lookup_lt_is_Some_2 zm j) as [z' E']; [specialize (Hin j Hj); lia|]. exists j, z'. split; [done|]. split; [done|].
        assert (Hil : (i < length m)%nat) by (apply lookup_lt_Some in E; lia). pose proof (Hin j Hj) as Hjl.
        apply (row_less_dom t d m Hm Ht) in Hless as [Hle _]; [|done..].
        destruct (Forall2_lookup_r _ _ _ _ _ H E) as (r & Er & Hr). destruct (Forall2_lookup_r _ _ _ _ _ H E') as (r' & Er' & Hr').
        rewrite (row_lookup m i r Er), (row_lookup m j r' Er') in Hle. clear -Hle Hr Hr'. revert z z' Hr Hr'. induction Hle as [|x y r r' Hxy Hle IH]; intros z z' Hr Hr'.
        -- inversion Hr; subst. inversion Hr'; subst. constructor.
        -- inversion Hr as [|? a ? k Ha Hr1]; subst. inversion Hr' as [|? b ? k' Hb Hr2]; subst. constructor; [by apply (int_le x y a b)|by apply IH].
  - intros x a [F _]. rewrite flt_fval; [|by apply is_finite_not_nan|done]. apply Rlt_bool_true. change (fval finf) with femax. apply (fval_finite_bound x F).
Qed.
