(** Lemmas about the permutation mutations. *)
From Coq Require Import Reals ZArith Lra Lia.
From stdpp Require Import list list_numbers.
From Flocq Require Import Core BinarySingleNaN.
From Verif Require Import FloatBase FloatProofs RealCrossoverModel RealSpec RealProofs RandModel RandSpec RandProofs BinomialProofs MutationModel MutationSpec.

Local Open Scope Z_scope.

Section perm.
Context {A : Type}.
Implicit Type c : list A.

Lemma insert_cons_Permutation c i x y : c !! i = Some x -> y :: c ≡ₚ x :: <[i := y]> c.
Proof.
  revert i. induction c as [|z c IH]; intros [|i] H; try done; cbn in *.
  - injection H as ->. apply perm_swap.
  - etrans; [apply perm_swap|]. etrans; [|apply perm_swap]. constructor. by apply IH.
Qed.
Lemma two_swapped_perm c d : two_swapped c d -> d ≡ₚ c.
Proof.
  intros (i & j & x & y & Hij & Hi & Hj & Di & Dj & Hl & Hk).
  assert (E : d = <[i := y]> (<[j := x]> c)).
  { apply list_eq. intros k. destruct (decide (k = i)) as [->|Hki].
    - rewrite Di. symmetry. apply list_lookup_insert. rewrite insert_length. by eapply lookup_lt_Some.
    - rewrite list_lookup_insert_ne by done. destruct (decide (k = j)) as [->|Hkj].
      + rewrite Dj. symmetry. apply list_lookup_insert. by eapply lookup_lt_Some.
      + rewrite list_lookup_insert_ne by done. by apply Hk. }
  apply Permutation_cons_inv with x. rewrite (insert_cons_Permutation c j y x Hj). subst d. symmetry. apply insert_cons_Permutation.
  by rewrite list_lookup_insert_ne.
Qed.
Lemma three_rotated_perm c d : three_rotated c d -> d ≡ₚ c.
Proof.
  intros (i & j & k & x & y & z & Hnd & Hi & Hj & Hk & Di & Dj & Dk & Hl & Ho).
  apply NoDup_cons in Hnd as [H1 Hnd]. apply NoDup_cons in Hnd as [H2 _]. rewrite !elem_of_cons in H1. rewrite elem_of_list_singleton in H2.
  assert (Hij : i <> j) by naive_solver. assert (Hik : i <> k) by naive_solver. assert (Hjk : j <> k) by done.
  pose proof (lookup_lt_Some _ _ _ Hi) as Li. pose proof (lookup_lt_Some _ _ _ Hj) as Lj. pose proof (lookup_lt_Some _ _ _ Hk) as Lk.
  (* swap i and j, then i and k *)
  set (e := <[i := y]> (<[j := x]> c)).
  assert (He : two_swapped c e).
  { exists i, j, x, y. unfold e. split; [done|]. split; [done|]. split; [done|]. split; [apply list_lookup_insert; by rewrite insert_length|].
    split; [rewrite list_lookup_insert_ne by done; by apply list_lookup_insert|]. split; [by rewrite !insert_length|].
    intros l N1 N2. by rewrite !list_lookup_insert_ne by congruence. }
  assert (Hd : two_swapped e d).
  { exists i, k, y, z. unfold e. split; [done|]. split; [apply list_lookup_insert; by rewrite insert_length|].
    split; [by rewrite !list_lookup_insert_ne by congruence|]. split; [done|]. split; [done|]. split; [by rewrite !insert_length|].
    intros l N1 N2. destruct (decide (l = j)) as [->|N3].
    - rewrite Dj. rewrite list_lookup_insert_ne by done. symmetry. by apply list_lookup_insert.
    - rewrite !list_lookup_insert_ne by congruence. apply Ho. rewrite !elem_of_cons, elem_of_nil; naive_solver. }
  etrans; [by apply two_swapped_perm|]. by apply two_swapped_perm.
Qed.

Lemma scaled_len_ok (range_max : b64) n s : 0 <= n <= 2 ^ 53 -> probability range_max ->
  exists k, scaled_len range_max n s = Some (k, s) /\ 0 <= k <= n.
Proof.
  intros Hn [Fp Hp]. destruct (fofZ_exact n) as [Fn Vn]; [lia|]. unfold scaled_len.
  assert (Hn1 : (0 <= IZR n)%R) by (apply IZR_le; lia).
  destruct (fmul_le range_max (fofZ n) 53 Fp Fn) as (F & V & B); [lia| |].
  { rewrite Vn. assert (IZR n <= bpow radix2 53)%R by (rewrite bpow_IZR by lia; apply IZR_le; lia). rewrite Rabs_pos_eq by nra. nra. }
  assert (Hb : (0 <= B2R (fmul range_max (fofZ n)) <= IZR n)%R).
  { rewrite V, Vn. split; [apply srnd_ge_0; nra|]. rewrite <- Vn at 2. rewrite <- (srnd_id (fofZ n)) by done. apply srnd_mono. rewrite Vn. nra. }
  pose proof (ftrunc_val _ F (proj1 Hb)) as Ht. rewrite (rlift_eq _ _ s Ht). eexists. split; [reflexivity|]. split.
  - apply Zfloor_lub. apply Hb.
  - etrans; [apply Zfloor_le, Hb|by rewrite Zfloor_IZR].
Qed.

Lemma on_range_ok (f : list A -> rand (list A)) c first last (P : list A -> list A -> Prop) s :
  (forall l s, exists l' s', f l s = Some (l', s') /\ P l l') -> 0 <= first <= last -> last <= size c ->
  exists a m m' b s', on_range f c first last s = Some (a ++ m' ++ b, s') /\ c = a ++ m ++ b /\ P m m' /\ Z.of_nat (length m) = last - first.
Proof.
  intros Hf H1 H2. unfold on_range. rewrite rassert_true. 2: { rewrite !andb_true_iff. lia. }
  cbn zeta. destruct (Hf (take (Z.to_nat last - Z.to_nat first) (drop (Z.to_nat first) c)) s) as (m' & s' & Hm & Pm).
  rewrite (rbind_eq _ _ _ _ _ Hm). eexists _, _, _, _, _. split; [reflexivity|]. unfold size in *. split; [|split].
  - rewrite <- (take_drop (Z.to_nat first) c) at 1. f_equal.
    rewrite <- (take_drop (Z.to_nat last - Z.to_nat first) (drop (Z.to_nat first) c)) at 1. f_equal. rewrite drop_drop. f_equal. lia.
  - exact Pm.
  - rewrite take_length, drop_length. lia.
Qed.
Lemma swap_at_ok c i j s : 0 <= i < size c -> 0 <= j < size c ->
  exists d, swap_at c i j s = Some (d, s) /\ d ≡ₚ c /\ length d = length c /\ d !! Z.to_nat i = c !! Z.to_nat j /\
    d !! Z.to_nat j = c !! Z.to_nat i /\ (forall k, k <> Z.to_nat i -> k <> Z.to_nat j -> d !! k = c !! k).
Proof.
  unfold size. intros Hi Hj. unfold swap_at.
  destruct (lookup_lt_is_Some_2 c (Z.to_nat i)) as [x Hx]; [lia|]. destruct (lookup_lt_is_Some_2 c (Z.to_nat j)) as [y Hy]; [lia|].
  rewrite (rbind_eq _ _ _ _ _ (rlift_eq _ _ _ Hx)), (rbind_eq _ _ _ _ _ (rlift_eq _ _ _ Hy)). eexists. split; [reflexivity|].
  assert (Hin : <[Z.to_nat j:=x]> c !! Z.to_nat i = Some x).
  { destruct (decide (Z.to_nat i = Z.to_nat j)) as [->|Hne]; [apply list_lookup_insert; lia|]. by rewrite list_lookup_insert_ne. }
  split.
  { apply Permutation_cons_inv with x. rewrite (insert_cons_Permutation c _ y x Hy). symmetry. by apply insert_cons_Permutation. }
  split; [by rewrite !insert_length|]. split; [rewrite list_lookup_insert, Hy by (rewrite insert_length; lia); done|]. split.
  - destruct (decide (Z.to_nat i = Z.to_nat j)) as [E|Hne].
    + rewrite E, list_lookup_insert by (rewrite insert_length; lia). by rewrite <- E, Hx, <- Hy, <- E.
    + rewrite list_lookup_insert_ne by done. rewrite list_lookup_insert by lia. by rewrite Hx.
  - intros k N1 N2. by rewrite !list_lookup_insert_ne by congruence.
Qed.
Lemma lookup_of_length {B} (l : list B) n i : length l = n -> (i < n)%nat -> exists x, l !! i = Some x.
Proof. intros H Hi. apply lookup_lt_is_Some_2. lia. Qed.

Lemma Inversion_ok pm rm c s : size c <= 2 ^ 53 -> probability rm ->
  exists d s', Inversion pm rm c s = Some (d, s') /\ (d = c \/ reversed_part c d).
Proof.
  intros Hc Hrm. assert (H0 : 0 <= size c) by (unfold size; lia). unfold Inversion. destruct (Z.ltb_spec (size c) 2); [eexists _, _; split; [reflexivity|by left]|].
  destruct (randomReal_draw s) as (r & Hr & _). rewrite (rbind_eq _ _ _ _ _ Hr). destruct (flt r pm); [|eexists _, _; split; [reflexivity|by left]].
  destruct (scaled_len_ok rm (size c) (stail s) ltac:(lia) Hrm) as (k & Hk & Bk). rewrite (rbind_eq _ _ _ _ _ Hk). cbn zeta.
  destruct (randomInt_ok 2 (Z.max k 2) (stail s) ltac:(lia)) as (len & Hlen & Blen). rewrite (rbind_eq _ _ _ _ _ Hlen).
  destruct (randomInt_ok 0 (size c - len) (stail (stail s)) ltac:(lia)) as (first & Hf & Bf). rewrite (rbind_eq _ _ _ _ _ Hf).
  destruct (on_range_ok (fun m => rret (reverse m)) c first (first + len) (fun m m' => m' = reverse m) (stail (stail (stail s)))) as (a & m & m' & b & s' & Ho & Hs & -> & Hm); [|lia|lia|].
  { intros l s0. by eexists _, _. }
  rewrite Ho. eexists _, _. split; [reflexivity|]. right. exists a, m, b. split; [done|]. split; [done|]. lia.
Qed.
Lemma Shuffle_ok shuffle pm rm c s : shuffle_contract shuffle -> size c <= 2 ^ 53 -> probability rm ->
  exists d s', Shuffle shuffle pm rm c s = Some (d, s') /\ (d = c \/ shuffled_part c d).
Proof.
  intros Hsh Hc Hrm. assert (H0 : 0 <= size c) by (unfold size; lia). unfold Shuffle. destruct (Z.ltb_spec (size c) 2); [eexists _, _; split; [reflexivity|by left]|].
  destruct (randomReal_draw s) as (r & Hr & _). rewrite (rbind_eq _ _ _ _ _ Hr). destruct (fle r pm); [|eexists _, _; split; [reflexivity|by left]].
  destruct (scaled_len_ok rm (size c) (stail s) ltac:(lia) Hrm) as (k & Hk & Bk). rewrite (rbind_eq _ _ _ _ _ Hk). cbn zeta.
  destruct (randomInt_ok 2 (Z.max k 2) (stail s) ltac:(lia)) as (len & Hlen & Blen). rewrite (rbind_eq _ _ _ _ _ Hlen).
  destruct (randomInt_ok 0 (size c - len) (stail (stail s)) ltac:(lia)) as (first & Hf & Bf). rewrite (rbind_eq _ _ _ _ _ Hf).
  destruct (on_range_ok shuffle c first (first + len) (fun m m' => m' ≡ₚ m) (stail (stail (stail s)))) as (a & m & m' & b & s' & Ho & Hs & Hp & Hm); [done|lia|lia|].
  rewrite Ho. eexists _, _. split; [reflexivity|]. right. exists a, m, m', b. split; [done|]. split; [done|]. done.
Qed.
Lemma Swap2_ok pm c s : size c < 2 ^ 64 -> exists d s', Swap2 pm c s = Some (d, s') /\ (d = c \/ two_swapped c d).
Proof.
  intros Hc. assert (H0 : 0 <= size c) by (unfold size; lia). unfold Swap2. destruct (Z.ltb_spec (size c) 2); [eexists _, _; split; [reflexivity|by left]|].
  destruct (randomReal_draw s) as (r & Hr & _). rewrite (rbind_eq _ _ _ _ _ Hr). destruct (fle r pm); [|eexists _, _; split; [reflexivity|by left]].
  destruct (sampleUnique_ok 0 (size c) 2 (stail s)) as (l & s' & Hl & Ll & Fl & Nl); [lia|lia|]. rewrite (rbind_eq _ _ _ _ _ Hl).
  specialize (Nl ltac:(right; lia)). destruct l as [|i [|j [|? l]]]; try (cbn in Ll; lia). apply Forall_cons in Fl as [Bi Fl]. apply Forall_cons in Fl as [Bj _].
  apply NoDup_cons in Nl as [Nij _]. rewrite elem_of_list_singleton in Nij.
  unfold rbind, rlift. cbn [lookup list_lookup mbind option_bind].
  destruct (swap_at_ok c i j s' Bi Bj) as (d & Hd & Pd & Ld & Di & Dj & Dk). rewrite Hd. exists d, s'. split; [done|]. right.
  unfold size in *. destruct (lookup_lt_is_Some_2 c (Z.to_nat i)) as [x Hx]; [lia|]. destruct (lookup_lt_is_Some_2 c (Z.to_nat j)) as [y Hy]; [lia|].
  exists (Z.to_nat i), (Z.to_nat j), x, y. split; [lia|]. rewrite Di, Dj. done.
Qed.
Lemma Swap3_ok pm c s : size c < 2 ^ 64 ->
  exists d s', Swap3 pm c s = Some (d, s') /\ d ≡ₚ c /\ (size c < 65536 -> d = c \/ three_rotated c d).
Proof.
  intros Hc. assert (H0 : 0 <= size c) by (unfold size; lia). unfold Swap3.
  destruct (Z.ltb_spec (size c) 3); [eexists _, _; split; [reflexivity|split; [done|by left]]|].
  destruct (randomReal_draw s) as (r & Hr & _). rewrite (rbind_eq _ _ _ _ _ Hr). destruct (fle r pm); [|eexists _, _; split; [reflexivity|split; [done|by left]]].
  destruct (sampleUnique_ok 0 (size c) 3 (stail s)) as (l & s' & Hl & Ll & Fl & Nl); [lia|lia|]. rewrite (rbind_eq _ _ _ _ _ Hl).
  destruct l as [|i [|j [|k [|? l]]]]; try (cbn in Ll; lia).
  apply Forall_cons in Fl as [Bi Fl]. apply Forall_cons in Fl as [Bj Fl]. apply Forall_cons in Fl as [Bk _].
  unfold rbind at 1 2 3, rlift. cbn [lookup list_lookup mbind option_bind].
  destruct (swap_at_ok c i j s' Bi Bj) as (d & Hd & Pd & Ld & Di & Dj & Dk). rewrite (rbind_eq _ _ _ _ _ Hd).
  assert (Es : size d = size c) by (unfold size; by rewrite Ld).
  destruct (swap_at_ok d i k s') as (e & He & Pe & Le & Ei & Ek & El); [lia|lia|]. rewrite He. exists e, s'. split; [done|]. split; [by rewrite Pe|].
  intros Hsmall. right. specialize (Nl ltac:(left; lia)).
  apply NoDup_cons in Nl as [N1 Nl]. apply NoDup_cons in Nl as [N2 _]. rewrite !elem_of_cons in N1. rewrite elem_of_list_singleton in N2.
  assert (Hij : i <> j) by naive_solver. assert (Hik : i <> k) by naive_solver.
  unfold size in *. destruct (lookup_lt_is_Some_2 c (Z.to_nat i)) as [x Hx]; [lia|]. destruct (lookup_lt_is_Some_2 c (Z.to_nat j)) as [y Hy]; [lia|].
  destruct (lookup_lt_is_Some_2 c (Z.to_nat k)) as [z Hz]; [lia|].
  exists (Z.to_nat i), (Z.to_nat j), (Z.to_nat k), x, y, z.
  assert (Hnd : NoDup [Z.to_nat i; Z.to_nat j; Z.to_nat k]).
  { apply NoDup_cons. split; [rewrite !elem_of_cons, elem_of_nil; lia|]. apply NoDup_cons. split; [rewrite elem_of_list_singleton; lia|]. apply NoDup_singleton. }
  split; [done|]. split; [done|]. split; [done|]. split; [done|].
  split; [rewrite Ei, Dk by lia; done|]. split; [rewrite El by lia; by rewrite Dj|]. split; [rewrite Ek; by rewrite Di|].
  split; [congruence|]. intros m Hm. rewrite !elem_of_cons, elem_of_nil in Hm. rewrite El, Dk by naive_solver. done.
Qed.
Lemma Shift_ok pm rm c s k : size c <= 2 ^ 53 -> probability rm -> scaled_len rm (size c) s = Some (k, s) -> k < size c ->
  exists d s', Shift pm rm c s = Some (d, s') /\ (d = c \/ exchanged_parts c d).
Proof.
  intros Hc Hrm Hk0 Hkl. assert (H0 : 0 <= size c) by (unfold size; lia). unfold Shift.
  destruct (Z.ltb_spec (size c) 2); [eexists _, _; split; [reflexivity|by left]|].
  destruct (randomReal_draw s) as (r & Hr & _). rewrite (rbind_eq _ _ _ _ _ Hr). destruct (fle r pm); [|eexists _, _; split; [reflexivity|by left]].
  destruct (scaled_len_ok rm (size c) (stail s) ltac:(lia) Hrm) as (k' & Hk & Bk). rewrite (rbind_eq _ _ _ _ _ Hk). cbn zeta.
  assert (k' = k) as ->.
  { unfold scaled_len, rlift in *. destruct (ftrunc _); [|done]. cbn [mbind option_bind] in *. congruence. }
  destruct (randomInt_ok 1 (Z.max 1 k) (stail s) ltac:(lia)) as (len & Hlen & Blen). rewrite (rbind_eq _ _ _ _ _ Hlen).
  destruct (sampleUnique_ok 0 (size c - len + 1) 2 (stail (stail s))) as (l & s' & Hl & Ll & Fl & Nl); [lia|lia|]. rewrite (rbind_eq _ _ _ _ _ Hl).
  specialize (Nl ltac:(right; lia)). destruct l as [|i [|j [|? l]]]; try (cbn in Ll; lia). apply Forall_cons in Fl as [Bi Fl]. apply Forall_cons in Fl as [Bj _].
  apply NoDup_cons in Nl as [Nij _]. rewrite elem_of_list_singleton in Nij.
  unfold rbind at 1 2, rlift. cbn [lookup list_lookup mbind option_bind].
  assert (Hgen : forall f m l0, 0 <= f -> f < m -> m < l0 -> l0 <= size c ->
    exists d s'', rassert ((f <=? m) && (m <=? l0)) (on_range (fun m0 => rret (drop (Z.to_nat (m - f)) m0 ++ take (Z.to_nat (m - f)) m0)) c f l0) s' = Some (d, s'') /\ exchanged_parts c d).
  { intros f m l0 G1 G2 G3 G4. rewrite rassert_true by (rewrite andb_true_iff; lia).
    destruct (on_range_ok (fun m0 => rret (drop (Z.to_nat (m - f)) m0 ++ take (Z.to_nat (m - f)) m0)) c f l0
      (fun x y => y = drop (Z.to_nat (m - f)) x ++ take (Z.to_nat (m - f)) x) s') as (a & q & q' & b & s'' & Ho & Hs & -> & Hm); [|lia|lia|].
    { intros l1 s1. by eexists _, _. }
    rewrite Ho. eexists _, _. split; [reflexivity|]. exists a, (take (Z.to_nat (m - f)) q), (drop (Z.to_nat (m - f)) q), b.
    split. { rewrite Hs. f_equal. rewrite app_assoc. by rewrite take_drop. }
    split; [by rewrite <- app_assoc|]. split.
    - intros E%(f_equal length). rewrite take_length in E. cbn in E. lia.
    - intros E%(f_equal length). rewrite drop_length in E. cbn in E. lia. }
  destruct (Z.ltb_spec j i).
  - destruct (Hgen j i (i + len)) as (d & s'' & Hd & He); [lia..|]. exists d, s''. split; [done|by right].
  - destruct (Hgen i (i + len) (j + len)) as (d & s'' & Hd & He); [lia..|]. exists d, s''. split; [done|by right].
Qed.
End perm.
