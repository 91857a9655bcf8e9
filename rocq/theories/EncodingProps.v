(** Properties of the generateCandidate functions. *)
From Coq Require Import ZArith Lia Lra Reals.
From stdpp Require Import list list_numbers.
From Flocq Require Import Core BinarySingleNaN.
From Verif Require Import FloatBase RealCrossoverModel RealSpec RandModel RandProofs MutationSpec MutationProofs MutationProps EncodingModel.

(** What is stored by the loop: one value per index, in order. *)
Lemma fill_from_ok {A} (P : nat -> A -> Prop) (gene : nat -> rand A) n : forall i c s,
  (forall j s, i <= j < i + n -> exists x s', gene j s = Some (x, s') /\ P j x) -> i + n <= length c ->
  exists d s', fill_from gene i n c s = Some (d, s') /\ length d = length c /\
    (forall j x, i <= j < i + n -> d !! j = Some x -> P j x) /\ (forall j, j < i -> d !! j = c !! j).
Proof.
  induction n as [|n IH]; intros i c s Hg Hl; cbn [fill_from].
  - exists c, s. split; [done|]. split; [done|]. split; [lia|done].
  - destruct (Hg i s ltac:(lia)) as (x & s1 & E & Px). rewrite (rbind_eq _ _ _ _ _ E).
    destruct (lookup_lt_is_Some_2 c i ltac:(lia)) as [y Hy].
    assert (E' : rlift (c !! i) s1 = Some (y, s1)) by (unfold rlift; by rewrite Hy). rewrite (rbind_eq _ _ _ _ _ E').
    destruct (IH (S i) (<[i:=x]> c) s1) as (d & s' & Ed & Ld & Pd & Qd).
    { intros j s2 Hj. apply Hg. lia. }
    { rewrite insert_length. lia. }
    exists d, s'. split; [done|]. rewrite insert_length in Ld. split; [done|]. split.
    + intros j z Hj Hz. destruct (decide (j = i)) as [->|Hne].
      * rewrite Qd in Hz by lia. rewrite list_lookup_insert in Hz by lia. by injection Hz as <-.
      * apply (Pd j z); [lia|done].
    + intros j Hj. rewrite Qd by lia. apply list_lookup_insert_ne. lia.
Qed.
(** The loop with prescribed draws. *)
Lemma fill_from_words {A} (gene : nat -> rand A) n : forall i c s (want : nat -> A),
  (forall k s', k < n -> (s' 0%nat = s k) -> gene (i + k) s' = Some (want (i + k), stail s')) -> i + n <= length c ->
  exists s', fill_from gene i n c s = Some (take i c ++ (want <$> seq i n) ++ drop (i + n) c, s').
Proof.
  induction n as [|n IH]; intros i c s want Hg Hl; cbn [fill_from].
  - exists s. cbn. rewrite Nat.add_0_r. unfold rret. by rewrite take_drop.
  - pose proof (Hg 0 s ltac:(lia) eq_refl) as E. rewrite Nat.add_0_r in E. rewrite (rbind_eq _ _ _ _ _ E).
    destruct (lookup_lt_is_Some_2 c i ltac:(lia)) as [y Hy].
    assert (E' : rlift (c !! i) (stail s) = Some (y, stail s)) by (unfold rlift; by rewrite Hy). rewrite (rbind_eq _ _ _ _ _ E').
    destruct (IH (S i) (<[i:=want i]> c) (stail s) want) as [s' Hs'].
    { intros k s' Hk Hs. rewrite Nat.add_succ_comm. apply Hg; [lia|done]. }
    { rewrite insert_length. lia. }
    exists s'. rewrite Hs'. f_equal. f_equal. rewrite drop_insert_gt by lia. cbn [seq fmap list_fmap].
    rewrite (take_S_r _ i (want i)) by (rewrite list_lookup_insert; [done|lia]). rewrite take_insert by lia.
    rewrite <- app_assoc. cbn [app]. do 3 f_equal. f_equal. lia.
Qed.

(** ** C81 *)
(** The specification of a valid chromosome of each encoding. *)
Definition valid_binary (n : nat) (c : list Z) : Prop := length c = n /\ Forall (fun x => x = 0 \/ x = 1)%Z c.
Definition valid_integer (n : nat) (bs : list (Z * Z)) (c : list Z) : Prop :=
  length c = n /\ forall i x b, c !! i = Some x -> bs !! i = Some b -> (b.1 <= x <= b.2)%Z.
Definition valid_permutation (n : nat) (c : list nat) : Prop := length c = n /\ NoDup c /\ forall x, x ∈ c <-> x < n.
Definition valid_real (n : nat) (bs : list bounds) (c : list b64) : Prop := length c = n /\ in_bounds bs c.

Theorem C81_binary n s : exists c s', binary_generate n s = Some (c, s') /\ valid_binary n c.
Proof.
  destruct (fill_from_ok (fun _ x => x = 0 \/ x = 1)%Z (fun _ => rlet b <- randomBool; rret (if b : bool then 1 else 0)%Z) n 0 (replicate n 0%Z) s) as (d & s' & E & L & P & _).
  - intros j s0 _. eexists _, _. split; [reflexivity|]. destruct (Z.odd _); auto.
  - by rewrite replicate_length.
  - exists d, s'. split; [done|]. rewrite replicate_length in L. split; [done|]. apply Forall_lookup. intros i x Hx.
    apply (P i x); [|done]. apply lookup_lt_Some in Hx. lia.
Qed.
Print Assumptions C81_binary.
(** Every valid chromosome can be generated. *)
Theorem C81_binary_all n c : valid_binary n c -> exists s s', binary_generate n s = Some (c, s').
Proof.
  intros [L F].
  destruct (fill_from_words (fun _ => rlet b <- randomBool; rret (if b : bool then 1 else 0)%Z) n 0 (replicate n 0%Z)
    (fun k => Word (c !!! k) fzero 0) (fun k => c !!! k)) as [s' Hs'].
  - intros k s' Hk Hs. cbn [Nat.add]. unfold rbind, randomBool, rnext, rret. cbn [mbind option_bind rbind].
    unfold rbind. cbn [mbind option_bind]. rewrite Hs. cbn [bits]. do 2 f_equal.
    destruct (lookup_lt_is_Some_2 c k ltac:(lia)) as [x Hx]. rewrite (list_lookup_total_correct _ _ _ Hx).
    rewrite Forall_lookup in F. destruct (F k x Hx) as [->| ->]; done.
  - by rewrite replicate_length.
  - eexists _, s'. unfold binary_generate. rewrite Hs'. f_equal. f_equal. rewrite take_0, app_nil_l. rewrite drop_ge by (rewrite replicate_length; lia).
    rewrite app_nil_r. apply list_eq. intros i. rewrite list_lookup_fmap. destruct (decide (i < n)) as [Hi|Hi].
    + rewrite lookup_seq_lt by done. cbn. destruct (lookup_lt_is_Some_2 c i ltac:(lia)) as [x Hx]. by rewrite (list_lookup_total_correct _ _ _ Hx), Hx.
    + rewrite lookup_seq_ge by lia. cbn. symmetry. apply lookup_ge_None. lia.
Qed.
Print Assumptions C81_binary_all.
Example C81_binary_example : exists s s', binary_generate 3 s = Some ([1; 0; 1]%Z, s').
Proof. apply C81_binary_all. split; [done|]. by repeat (constructor; auto). Qed.

(** There must be bounds for each gene, and lower() <= upper() by the constructor of Bounds (candidate.hpp). *)
Theorem C81_integer n bs s : length bs = n -> Forall (fun b => b.1 <= b.2)%Z bs ->
  exists c s', integer_generate n bs s = Some (c, s') /\ valid_integer n bs c.
Proof.
  intros Hn Hb.
  destruct (fill_from_ok (fun i x => forall b, bs !! i = Some b -> (b.1 <= x <= b.2)%Z) (fun idx => rlet b <- rlift (bs !! idx); randomInt b.1 b.2) n 0 (replicate n 0%Z) s) as (d & s' & E & L & P & _).
  - intros j s0 Hj. destruct (lookup_lt_is_Some_2 bs j ltac:(lia)) as [b Hj'].
    assert (E' : rlift (bs !! j) s0 = Some (b, s0)) by (unfold rlift; by rewrite Hj'). rewrite (rbind_eq _ _ _ _ _ E').
    rewrite Forall_lookup in Hb. destruct (randomInt_ok b.1 b.2 s0 (Hb j b Hj')) as (x & Ex & Bx). exists x, (stail s0). split; [done|].
    intros b' Hb'. rewrite Hj' in Hb'. by injection Hb' as <-.
  - by rewrite replicate_length.
  - exists d, s'. split; [done|]. rewrite replicate_length in L. split; [done|]. intros i x b Hx Hbi. apply (P i x); [|done|done].
    apply lookup_lt_Some in Hx. lia.
Qed.
Print Assumptions C81_integer.
Theorem C81_integer_all n bs c : length bs = n -> Forall (fun b => b.1 <= b.2)%Z bs -> valid_integer n bs c ->
  exists s s', integer_generate n bs s = Some (c, s').
Proof.
  intros Hn Hb [L V].
  destruct (fill_from_words (fun idx => rlet b <- rlift (bs !! idx); randomInt b.1 b.2) n 0 (replicate n 0%Z)
    (fun k => Word (c !!! k - (bs !!! k).1) fzero 0) (fun k => c !!! k)) as [s' Hs'].
  - intros k s' Hk Hs. cbn [Nat.add]. destruct (lookup_lt_is_Some_2 bs k ltac:(lia)) as [b Hbk]. destruct (lookup_lt_is_Some_2 c k ltac:(lia)) as [x Hx].
    assert (E' : rlift (bs !! k) s' = Some (b, s')) by (unfold rlift; by rewrite Hbk). rewrite (rbind_eq _ _ _ _ _ E').
    specialize (V k x b Hx Hbk). unfold randomInt. rewrite rassert_true by lia. unfold rbind, rnext, rret. cbn [mbind option_bind]. rewrite Hs. cbn [bits].
    rewrite (list_lookup_total_correct _ _ _ Hx), (list_lookup_total_correct _ _ _ Hbk). rewrite Z.mod_small by lia. do 2 f_equal. lia.
  - by rewrite replicate_length.
  - eexists _, s'. unfold integer_generate. rewrite Hs'. f_equal. f_equal. rewrite take_0, app_nil_l. rewrite drop_ge by (rewrite replicate_length; lia).
    rewrite app_nil_r. apply list_eq. intros i. rewrite list_lookup_fmap. destruct (decide (i < n)) as [Hi|Hi].
    + rewrite lookup_seq_lt by done. cbn. destruct (lookup_lt_is_Some_2 c i ltac:(lia)) as [x Hx]. by rewrite (list_lookup_total_correct _ _ _ Hx), Hx.
    + rewrite lookup_seq_ge by lia. cbn. symmetry. apply lookup_ge_None. lia.
Qed.
Print Assumptions C81_integer_all.
Example C81_integer_example : exists s s', integer_generate 3 [(0, 0); (-5, 5); (7, 9)]%Z s = Some ([0; -5; 9]%Z, s').
Proof. apply C81_integer_all; [done|repeat constructor; cbn; lia|]. split; [done|]. intros [|[|[|i]]] x b; cbn; try done; intros [= <-] [= <-]; cbn; lia. Qed.

Lemma iota_seq c v : iota c v = seq v (length c).
Proof. revert v. induction c as [|x c IH]; intros v; [done|]. cbn. by rewrite IH. Qed.
Theorem C81_permutation shuffle n s : shuffle_contract shuffle ->
  exists c s', permutation_generate shuffle n s = Some (c, s') /\ valid_permutation n c.
Proof.
  intros Hs. unfold permutation_generate. rewrite iota_seq, replicate_length. destruct (Hs (seq 0 n) s) as (c & s' & E & P).
  exists c, s'. split; [done|]. split; [|split].
  - etransitivity; [by apply Permutation_length|]. apply seq_length.
  - rewrite P. apply NoDup_seq.
  - intros x. split.
    + intros Hx. rewrite P in Hx. apply elem_of_seq in Hx. lia.
    + intros Hx. rewrite P. apply elem_of_seq. lia.
Qed.
Print Assumptions C81_permutation.
(** A shuffle exists: it reverses when the next word is odd. *)
Definition flip_shuffle : list nat -> rand (list nat) := fun l => rlet b <- randomBool; rret (if b : bool then reverse l else l).
Example C81_permutation_example : shuffle_contract flip_shuffle /\ exists s s', permutation_generate flip_shuffle 4 s = Some ([3; 2; 1; 0], s').
Proof.
  split.
  - intros l s. eexists _, _. split; [reflexivity|]. destruct (Z.odd _); [|done]. apply reverse_Permutation.
  - exists (fun _ => Word 1 fzero 0). eexists. reflexivity.
Qed.

(** The width of the bounds must not overflow. *)
Theorem C81_real n bs s : length bs = n -> Forall bounds_ok bs -> Forall width_finite bs ->
  exists c s', real_generate n bs s = Some (c, s') /\ valid_real n bs c.
Proof.
  intros Hn Hb Hw. unfold real_generate. rewrite rassert_true by (apply Nat.eqb_eq; done).
  destruct (fill_from_ok (fun i x => forall b, bs !! i = Some b -> in_bound b x) (fun i => rlet b <- rlift (bs !! i); randomReal_between (lower b) (upper b)) n 0 (replicate n fzero) s) as (d & s' & E & L & P & _).
  - intros j s0 Hj. destruct (lookup_lt_is_Some_2 bs j ltac:(lia)) as [b Hj'].
    assert (E' : rlift (bs !! j) s0 = Some (b, s0)) by (unfold rlift; by rewrite Hj'). rewrite (rbind_eq _ _ _ _ _ E').
    rewrite Forall_lookup in Hb, Hw. destruct (Hb j b Hj') as (Fl & Fu & Hlu).
    destruct (randomReal_between_ok _ _ s0 Fl Fu Hlu (Hw j b Hj')) as (x & Ex & Fx & Bx). exists x, (stail s0). split; [done|].
    intros b' Hb'. rewrite Hj' in Hb'. injection Hb' as <-. done.
  - by rewrite replicate_length.
  - exists d, s'. split; [done|]. rewrite replicate_length in L. split; [done|]. apply Forall2_same_length_lookup. split; [lia|].
    intros i b x Hbi Hx. apply (P i x); [|done|done]. apply lookup_lt_Some in Hx. lia.
Qed.
Print Assumptions C81_real.
(** With the widest bounds the generated gene can be a NaN. *)
Theorem C81_real_refuted : Forall bounds_ok [widest] /\
  exists s', real_generate 1 [widest] s_zero = Some ([B754_nan], s') /\ ~ valid_real 1 [widest] [B754_nan].
Proof.
  split; [apply widest_ok|].
  assert (H : forall m : option (list b64 * stream), option_map fst m = Some [B754_nan] -> exists s', m = Some ([B754_nan], s')).
  { intros [[l s']|] H; [|done]. exists s'. cbn in H. by injection H as ->. }
  destruct (H (real_generate 1 [widest] s_zero)) as [s' Hs']; [vm_compute; reflexivity|]. exists s'. split; [done|].
  intros [_ Hin]. apply Forall2_cons in Hin as [[Hf _] _]. done.
Qed.
Print Assumptions C81_real_refuted.
Example C81_real_example : Forall bounds_ok [Bounds (fmk (-1) 0) (fmk 1 0)] /\ Forall width_finite [Bounds (fmk (-1) 0) (fmk 1 0)].
Proof.
  split; constructor; try constructor.
  - done.
  - split; [done|]. cbn [lower upper].
    assert (H : fle (fmk (-1) 0) (fmk 1 0) = true) by (vm_compute; reflexivity). rewrite fle_fval in H by done. rewrite !fval_finite in H by done.
    revert H. by case Rle_bool_spec.
Qed.
