(** The prime factors of 2^128 - 1. *)
From Coq Require Import ZArith Znumtheory Zpow_facts Lia.
From stdpp Require Import list list_numbers.
Local Open Scope Z_scope.

Lemma gcd_closed (P : N -> Prop) : (forall i j, j <> 0%N -> P i -> P j -> P (i mod j)%N) -> forall i j, P i -> P j -> P (N.gcd i j).
Proof.
  intros H i j. revert i. induction (N.lt_wf_0 j) as [j _ IH]. intros i Hi Hj. destruct (decide (j = 0%N)) as [-> | Hn]; [by rewrite N.gcd_0_r|].
  rewrite N.gcd_comm, <- N.gcd_mod, N.gcd_comm by done. apply IH; [by apply N.mod_lt|done|by apply H].
Qed.
Lemma prime_divisor n : 1 < n -> exists q, prime q /\ (q | n).
Proof.
  intros H. assert (H0 : 0 <= n) by lia. revert H. pattern n. apply Zlt_0_ind; [|exact H0]. clear n H0. intros n IH H0 H. destruct (prime_dec n) as [Hp | Hp]; [exists n; split; [done|apply Z.divide_refl]|].
  destruct (not_prime_divide n H Hp) as (d & Hd & Hdn). destruct (IH d) as (q & Hq & Hqd); [lia|lia|]. exists q. split; [done|]. by eapply Z.divide_trans.
Qed.
Lemma small_prime_divisor n : 1 < n -> ~ prime n -> exists q, prime q /\ (q | n) /\ q * q <= n.
Proof.
  intros H Hp. destruct (not_prime_divide n H Hp) as (d & Hd & [e He]). assert (He' : 1 < e) by nia.
  destruct (Z.le_ge_cases d e).
  - destruct (prime_divisor d) as (q & Hq & Hqd); [lia|]. exists q. pose proof (Z.divide_pos_le q d ltac:(lia) Hqd). pose proof (prime_ge_2 q Hq). split; [done|]. split; [exists (e * (d / q)); rewrite He; destruct Hqd as [r ->]; rewrite Z.div_mul by lia; lia|nia].
  - destruct (prime_divisor e) as (q & Hq & Hqe); [lia|]. exists q. pose proof (Z.divide_pos_le q e ltac:(lia) Hqe). pose proof (prime_ge_2 q Hq). split; [done|]. split; [exists (d * (e / q)); rewrite He; destruct Hqe as [r ->]; rewrite Z.div_mul by lia; lia|nia].
Qed.
(** Trial division by 2, 3, ..., b + 1. *)
Definition trial (n : Z) (b : nat) : bool := forallb (fun d => negb (n mod d =? 0)) (seqZ 2 (Z.of_nat b)).
Lemma trial_prime n b : 1 < n -> n < (Z.of_nat b + 2) * (Z.of_nat b + 2) -> trial n b = true -> prime n.
Proof.
  intros H Hb Ht. destruct (prime_dec n) as [|Hp]; [done|]. exfalso. destruct (small_prime_divisor n H Hp) as (q & Hq & Hqn & Hqq). pose proof (prime_ge_2 q Hq).
  unfold trial in Ht. rewrite forallb_forall in Ht. assert (Hi : In q (seqZ 2 (Z.of_nat b))). { apply elem_of_list_In, elem_of_seqZ. nia. }
  apply Ht in Hi. apply Z.mod_divide in Hqn; [|lia]. rewrite Hqn in Hi. done.
Qed.

Definition zprod (l : list Z) : Z := foldr Z.mul 1 l.
Lemma zprod_perm l k : l ≡ₚ k -> zprod l = zprod k.
Proof. unfold zprod. induction 1; cbn; lia. Qed.
Lemma prime_zprod q l : prime q -> (q | zprod l) -> exists x, x ∈ l /\ (q | x).
Proof.
  intros Hq. induction l as [|x l IH]; cbn; intros H; [exfalso; pose proof (prime_ge_2 q Hq); apply Z.divide_1_r_nonneg in H; lia|].
  apply prime_mult in H as [H | H]; [exists x; split; [left|done]| |done]. destruct (IH H) as (y & Hy & ?). exists y. split; [by right|done].
Qed.
Lemma fermat q a : prime q -> ~ (q | a) -> a ^ (q - 1) mod q = 1.
Proof.
  intros Hq Ha. pose proof (prime_ge_2 q Hq) as H2. set (l := seqZ 1 (q - 1)).
  assert (Hl : forall x, x ∈ l <-> 1 <= x < q). { intros x. unfold l. rewrite elem_of_seqZ. lia. }
  assert (Hin : forall x, x ∈ l -> a * x mod q ∈ l).
  { intros x Hx. apply Hl. apply Hl in Hx. pose proof (Z.mod_pos_bound (a * x) q ltac:(lia)) as Hb. assert (Hnz : a * x mod q <> 0); [|lia]. intros H. apply Z.mod_divide in H; [|lia]. apply prime_mult in H as [H | H]; [done| |done]. apply Z.divide_pos_le in H; lia. }
  assert (Hperm : (fun x => a * x mod q) <$> l ≡ₚ l).
  { assert (Hnd : NoDup ((fun x => a * x mod q) <$> l)).
    { apply NoDup_fmap_2_strong; [|apply NoDup_seqZ]. intros x y Hx Hy E. apply Hl in Hx, Hy.
      assert (H : (q | a * (x - y))). { apply Z.mod_divide; [lia|]. rewrite Z.mul_sub_distr_l, Zminus_mod, E, Z.sub_diag. by apply Z.mod_0_l; lia. }
      apply prime_mult in H as [H | H]; [done| |done]. destruct (Z.eq_dec x y) as [|Hn]; [done|]. apply Z.divide_abs_r in H. apply Z.divide_pos_le in H; lia. }
    assert (Hsub : (fun x => a * x mod q) <$> l ⊆+ l). { apply NoDup_submseteq; [done|]. intros x Hx. apply elem_of_list_fmap in Hx as (y & -> & Hy). by apply Hin. }
    apply submseteq_Permutation_length_le; [by rewrite fmap_length|done]. }
  assert (Hmul : forall l, zprod ((fun x => a * x mod q) <$> l) mod q = (a ^ Z.of_nat (length l) * zprod l) mod q).
  { intros k. unfold zprod. induction k as [|x k IH]; [done|]. cbn [fmap list_fmap foldr length]. rewrite Zmult_mod, IH. rewrite Zmod_mod, <- Zmult_mod. f_equal. rewrite Nat2Z.inj_succ, Z.pow_succ_r by lia. lia. }
  specialize (Hmul l). rewrite (zprod_perm _ _ Hperm) in Hmul. assert (El : Z.of_nat (length l) = q - 1). { unfold l. rewrite seqZ_length. lia. } rewrite El in Hmul.
  assert (Hd : (q | zprod l * (a ^ (q - 1) - 1))).
  { apply Z.mod_divide; [lia|]. replace (zprod l * (a ^ (q - 1) - 1)) with (a ^ (q - 1) * zprod l - zprod l) by lia. rewrite Zminus_mod, <- Hmul, Z.sub_diag. apply Z.mod_0_l; lia. }
  apply prime_mult in Hd as [Hd | Hd]; [| |done].
  - exfalso. apply prime_zprod in Hd as (x & Hx & Hd); [|done]. apply Hl in Hx. apply Z.divide_pos_le in Hd; lia.
  - apply Z.mod_divide in Hd; [|lia]. replace (a ^ (q - 1)) with (1 + (a ^ (q - 1) - 1)) by lia. rewrite Zplus_mod, Hd, Z.add_0_r, Zmod_mod. apply Z.mod_1_l. lia.
Qed.
Lemma pow_gcd q a i j : 1 < q -> a ^ Z.of_N i mod q = 1 -> a ^ Z.of_N j mod q = 1 -> a ^ Z.of_N (N.gcd i j) mod q = 1.
Proof.
  intros Hq. apply (gcd_closed (fun i => a ^ Z.of_N i mod q = 1)). clear i j. intros i j Hj Hi Hj1.
  assert (E : Z.of_N i = Z.of_N j * Z.of_N (i / j) + Z.of_N (i mod j)) by (rewrite <- N2Z.inj_mul, <- N2Z.inj_add; f_equal; by apply N.div_mod).
  assert (H1 : a ^ (Z.of_N j * Z.of_N (i / j)) mod q = 1). { rewrite Z.pow_mul_r by apply N2Z.is_nonneg. rewrite Zpower_mod by lia. rewrite Hj1, Z.pow_1_l by apply N2Z.is_nonneg. apply Z.mod_1_l; lia. }
  rewrite E, Z.pow_add_r in Hi; [|apply Z.mul_nonneg_nonneg; apply N2Z.is_nonneg|apply N2Z.is_nonneg]. rewrite Zmult_mod, H1, Z.mul_1_l, Zmod_mod in Hi. exact Hi.
Qed.
Lemma pocklington_step n q a f e : 1 < n -> prime q -> (q | n) -> prime f -> 0 <= e -> (f ^ e | n - 1) -> a ^ (n - 1) mod n = 1 -> Z.gcd (a ^ ((n - 1) / f) mod n - 1) n = 1 ->
  (f ^ e | q - 1).
Proof.
  intros Hn Hq Hqn Hf He Hfe H1 Hg. pose proof (prime_ge_2 q Hq) as H2. pose proof (prime_ge_2 f Hf) as Hf2.
  assert (Hmod : forall k, 0 <= k -> (a ^ k mod n) mod q = a ^ k mod q). { intros k _. destruct Hqn as [r ->]. rewrite (Z.mul_comm r q). rewrite Z.rem_mul_r by nia. rewrite Z.mul_comm, Z_mod_plus_full, Zmod_mod. done. }
  assert (H1q : a ^ (n - 1) mod q = 1). { rewrite <- Hmod, H1 by lia. apply Z.mod_1_l; lia. }
  assert (Ha : ~ (q | a)). { intros Ha. apply Z.mod_divide in Ha; [|lia]. rewrite Zpower_mod, Ha, Z.pow_0_l, Z.mod_0_l in H1q by lia. done. }
  pose proof (fermat q a Hq Ha) as Hfm.
  set (g := N.gcd (Z.to_N (n - 1)) (Z.to_N (q - 1))). assert (Hgg : a ^ Z.of_N g mod q = 1). { apply pow_gcd; [lia|rewrite Z2N.id by lia; done|rewrite Z2N.id by lia; done]. }
  assert (Hgn : (Z.of_N g | n - 1)). { unfold g. destruct (N.gcd_divide_l (Z.to_N (n - 1)) (Z.to_N (q - 1))) as [r Hr]. exists (Z.of_N r). rewrite <- N2Z.inj_mul, <- Hr, Z2N.id; lia. }
  assert (Hgq : (Z.of_N g | q - 1)). { unfold g. destruct (N.gcd_divide_r (Z.to_N (n - 1)) (Z.to_N (q - 1))) as [r Hr]. exists (Z.of_N r). rewrite <- N2Z.inj_mul, <- Hr, Z2N.id; lia. }
  eapply Z.divide_trans; [|exact Hgq]. destruct Hgn as [k Hk]. assert (Hk0 : 0 < k) by nia.
  destruct (Zdivide_dec f k) as [[k' ->] | Hnf].
  - exfalso. assert (E : (n - 1) / f = k' * Z.of_N g). { rewrite Hk. replace (k' * f * Z.of_N g) with (k' * Z.of_N g * f) by lia. apply Z.div_mul. lia. }
    assert (H1' : a ^ ((n - 1) / f) mod q = 1). { assert (0 <= k') by nia. rewrite E, Z.mul_comm, Z.pow_mul_r, Zpower_mod, Hgg, Z.pow_1_l by lia. apply Z.mod_1_l; lia. }
    assert (Hd : (q | Z.gcd (a ^ ((n - 1) / f) mod n - 1) n)).
    { apply Z.gcd_greatest; [|done]. apply Z.mod_divide; [lia|]. rewrite Zminus_mod, Hmod, H1' by (apply Z.div_pos; lia). rewrite (Z.mod_1_l q) by lia. done. }
    rewrite Hg in Hd. apply Z.divide_1_r_nonneg in Hd; lia.
  - rewrite Hk in Hfe. eapply Gauss; [exact Hfe|]. apply rel_prime_sym, rel_prime_Zpower_r; [done|]. apply rel_prime_sym. by apply prime_rel_prime.
Qed.

Definition p9 : Z := 67280421310721.
Lemma p9_prime : prime p9.
Proof.
  destruct (prime_dec p9) as [|Hp]; [done|]. exfalso. destruct (small_prime_divisor p9 ltac:(done) Hp) as (q & Hq & Hqn & Hqq). pose proof (prime_ge_2 q Hq) as H2.
  assert (Hs : forall f e, prime f -> 0 <= e -> (p9 - 1) mod f ^ e = 0 -> Z.gcd (Zpow_mod 3 ((p9 - 1) / f) p9 - 1) p9 = 1 -> (f ^ e | q - 1)).
  { intros f e Hf He Hm Hg. apply (pocklington_step p9 q 3 f e); [reflexivity|exact Hq|exact Hqn|exact Hf|exact He| | |].
    - apply Z.mod_divide; [|exact Hm]. pose proof (prime_ge_2 f Hf). pose proof (Z.pow_pos_nonneg f e ltac:(lia) He). lia.
    - rewrite <- Zpow_mod_correct by discriminate. vm_compute. reflexivity.
    - rewrite <- Zpow_mod_correct by discriminate. exact Hg. }
  assert (A2 : (2 ^ 8 | q - 1)). { apply Hs; [apply (trial_prime 2 0); [lia|lia|reflexivity]|lia|vm_compute; reflexivity|vm_compute; reflexivity]. }
  assert (A5 : (5 ^ 1 | q - 1)). { apply Hs; [apply (trial_prime 5 1); [lia|lia|reflexivity]|lia|vm_compute; reflexivity|vm_compute; reflexivity]. }
  assert (A47 : (47 ^ 1 | q - 1)). { apply Hs; [apply (trial_prime 47 5); [lia|lia|vm_compute; reflexivity]|lia|vm_compute; reflexivity|vm_compute; reflexivity]. }
  assert (A373 : (373 ^ 1 | q - 1)). { apply Hs; [apply (trial_prime 373 18); [lia|lia|vm_compute; reflexivity]|lia|vm_compute; reflexivity|vm_compute; reflexivity]. }
  assert (Hc : forall a b, (a | q - 1) -> (b | q - 1) -> Z.gcd a b = 1 -> (a * b | q - 1)).
  { intros a b [r Hr] Hb Hg. assert (H : (b | r)). { eapply Gauss; [rewrite Hr, Z.mul_comm in Hb; exact Hb|]. apply rel_prime_sym. by apply Zgcd_1_rel_prime. } destruct H as [x Hx]. exists x. rewrite Hr, Hx. lia. }
  assert (A : (2 ^ 8 * 5 ^ 1 * 47 ^ 1 * 373 ^ 1 | q - 1)) by (apply Hc; [apply Hc; [apply Hc; [exact A2|exact A5|reflexivity]|exact A47|reflexivity]|exact A373|reflexivity]).
  apply Z.divide_pos_le in A; [|lia]. unfold p9 in Hqq. nia.
Qed.
Definition factors : list Z := [3; 5; 17; 257; 641; 65537; 274177; 6700417; p9].
Lemma factors_prime : Forall prime factors.
Proof.
  unfold factors. repeat (apply Forall_cons; split); [..|exact p9_prime|by apply Forall_nil].
  - apply (trial_prime 3 0); [lia|lia|reflexivity].
  - apply (trial_prime 5 1); [lia|lia|reflexivity].
  - apply (trial_prime 17 3); [lia|lia|vm_compute; reflexivity].
  - apply (trial_prime 257 15); [lia|lia|vm_compute; reflexivity].
  - apply (trial_prime 641 24); [lia|lia|vm_compute; reflexivity].
  - apply (trial_prime 65537 255); [lia|lia|vm_compute; reflexivity].
  - apply (trial_prime 274177 522); [lia|lia|vm_compute; reflexivity].
  - apply (trial_prime 6700417 2587); [lia|lia|vm_compute; reflexivity].
Qed.
Lemma factors_prod : zprod factors = 2 ^ 128 - 1.
Proof. vm_compute. reflexivity. Qed.
Lemma proper_divisor g : (g | 2 ^ 128 - 1) -> 0 < g < 2 ^ 128 - 1 -> exists p, p ∈ factors /\ (g | (2 ^ 128 - 1) / p).
Proof.
  intros [k Hk] Hg. assert (1 < k) by nia. destruct (prime_divisor k) as (r & Hr & Hrk); [lia|].
  assert (Hd : (r | zprod factors)). { rewrite factors_prod, Hk. by apply Z.divide_mul_l. }
  apply prime_zprod in Hd as (p & Hp & Hd); [|done]. pose proof factors_prime as HF. rewrite Forall_forall in HF. apply prime_div_prime in Hd; [|done|by apply HF]. subst r. exists p. split; [done|]. destruct Hrk as [k' ->].
  exists k'. rewrite Hk. pose proof (prime_ge_2 p Hr). replace (k' * p * g) with (k' * g * p) by lia. apply Z.div_mul. lia.
Qed.
