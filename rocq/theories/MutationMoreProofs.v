(** When the permutation mutations are applied, and to which parts. *)
From Coq Require Import Reals ZArith Lra Lia.
From stdpp Require Import list list_numbers.
From Flocq Require Import Core BinarySingleNaN.
From Verif Require Import FloatBase FloatProofs RealCrossoverModel RealSpec RealProofs RandModel RandSpec RandProofs BinomialProofs RandProps
  MutationModel MutationSpec PermMutationProofs PermMutationProps.

Local Open Scope Z_scope.
#[local] Existing Instance fexp_valid.

Lemma unit_draw_range w : (0 <= unit_draw w < 1)%R.
Proof.
  destruct (randomReal_val (fun _ => w)) as (r & Hr & _ & _ & Vr & _).
  destruct (randomReal_draw (fun _ => w)) as (r' & Hr' & _ & _ & Hd). rewrite Hr in Hr'. injection Hr' as <-. rewrite Vr in Hd. exact Hd.
Qed.
Lemma randomReal_unit s : exists r, randomReal s = Some (r, stail s) /\ is_finite r = true /\ B2R r = unit_draw (s 0%nat) /\ draw r.
Proof.
  destruct (randomReal_val s) as (r & Hr & F & _ & V & _). destruct (randomReal_draw s) as (r' & Hr' & D). rewrite Hr in Hr'. injection Hr' as <-.
  exists r. done.
Qed.
Lemma scaled_len_val (rm : b64) n s : 0 <= n <= 2 ^ 53 -> probability rm ->
  scaled_len rm n s = Some (Zfloor (rnd (B2R rm * IZR n)%R), s) /\ 0 <= Zfloor (rnd (B2R rm * IZR n)%R) <= n.
Proof.
  intros Hn Hp. destruct (scaled_len_ok rm n s Hn Hp) as (k & Hk & Bk). destruct Hp as [Fp Hp].
  assert (k = Zfloor (rnd (B2R rm * IZR n)%R)) as <-; [|done].
  destruct (fofZ_exact n) as [Fn Vn]; [lia|]. unfold scaled_len in Hk.
  assert (Hn1 : (0 <= IZR n)%R) by (apply IZR_le; lia).
  assert (Hn2 : (IZR n <= bpow radix2 53)%R) by (rewrite bpow_IZR by lia; apply IZR_le; lia).
  destruct (fmul_le rm (fofZ n) 53 Fp Fn) as (F & V & B); [lia|rewrite Vn, Rabs_pos_eq by nra; nra|].
  assert (Hpos : (0 <= B2R (fmul rm (fofZ n)))%R). { rewrite V, Vn. apply srnd_ge_0. nra. }
  rewrite (rlift_eq _ _ s (ftrunc_val _ F Hpos)) in Hk. injection Hk as <-. f_equal. rewrite V, Vn. unfold srnd. apply sat_id.
  assert (0 <= rnd (B2R rm * IZR n))%R by (rewrite <- rnd_0; apply rnd_mono; nra).
  assert (rnd (B2R rm * IZR n) <= bpow radix2 53)%R by (rewrite <- (bpow_fmt 53) by lia; apply rnd_mono; nra).
  pose proof (bpow_lt_femax 53 ltac:(lia)). pose proof femax_pos. lra.
Qed.

Section perm.
Context {A : Type}.
Implicit Type c : list A.
Lemma Inversion_applied pm rm c s : size c <= 2 ^ 53 -> probability rm -> is_finite pm = true ->
  exists d s', Inversion pm rm c s = Some (d, s') /\
    ((2 <= length c)%nat /\ (unit_draw (s 0%nat) < B2R pm)%R -> reversed_part_upto (longest_part 2 rm (length c)) c d) /\
    (~ ((2 <= length c)%nat /\ (unit_draw (s 0%nat) < B2R pm)%R) -> d = c).
Proof.
  intros Hc Hrm Fpm. assert (H0 : 0 <= size c) by (unfold size; lia). unfold Inversion.
  destruct (Z.ltb_spec (size c) 2) as [Hlt|Hge]; [eexists _, _; split; [reflexivity|split; [intros [? _]; unfold size in Hlt; lia|done]]|].
  destruct (randomReal_unit s) as (r & Hr & Fr & Vr & _). rewrite (rbind_eq _ _ _ _ _ Hr). rewrite flt_fval by (by apply is_finite_not_nan).
  rewrite !fval_finite, Vr by done. case Rlt_bool_spec; intros Hp.
  2: { eexists _, _; split; [reflexivity|split; [intros [_ ?]; lra|done]]. }
  destruct (scaled_len_val rm (size c) (stail s) ltac:(lia) Hrm) as (Hk & Bk). rewrite (rbind_eq _ _ _ _ _ Hk). cbn zeta.
  remember (Zfloor _) as k eqn:Ek in *.
  destruct (randomInt_ok 2 (Z.max k 2) (stail s) ltac:(lia)) as (len & Hlen & Blen). rewrite (rbind_eq _ _ _ _ _ Hlen).
  destruct (randomInt_ok 0 (size c - len) (stail (stail s)) ltac:(lia)) as (first & Hf & Bf). rewrite (rbind_eq _ _ _ _ _ Hf).
  destruct (on_range_ok (fun m => rret (reverse m)) c first (first + len) (fun m m' => m' = reverse m) (stail (stail (stail s)))) as (a & m & m' & b & s' & Ho & Hs & -> & Hm); [|lia|lia|].
  { intros l s0. by eexists _, _. }
  rewrite Ho. eexists _, _. split; [reflexivity|]. split; [intros _|intros Hn; exfalso; apply Hn; unfold size in Hge; split; [lia|done]].
  exists a, m, b. split; [done|]. split; [done|]. change (longest_part ?l rm (length c)) with (Z.max l (Zfloor (rnd (B2R rm * IZR (size c))%R))). rewrite <- Ek. lia.
Qed.
Lemma Shuffle_applied shuffle pm rm c s : shuffle_contract shuffle -> size c <= 2 ^ 53 -> probability rm -> is_finite pm = true ->
  exists d s', Shuffle shuffle pm rm c s = Some (d, s') /\
    ((2 <= length c)%nat /\ (unit_draw (s 0%nat) <= B2R pm)%R -> shuffled_part_upto (longest_part 2 rm (length c)) c d) /\
    (~ ((2 <= length c)%nat /\ (unit_draw (s 0%nat) <= B2R pm)%R) -> d = c).
Proof.
  intros Hsh Hc Hrm Fpm. assert (H0 : 0 <= size c) by (unfold size; lia). unfold Shuffle.
  destruct (Z.ltb_spec (size c) 2) as [Hlt|Hge]; [eexists _, _; split; [reflexivity|split; [intros [? _]; unfold size in Hlt; lia|done]]|].
  destruct (randomReal_unit s) as (r & Hr & Fr & Vr & _). rewrite (rbind_eq _ _ _ _ _ Hr). rewrite fle_fval by (by apply is_finite_not_nan).
  rewrite !fval_finite, Vr by done. case Rle_bool_spec; intros Hp.
  2: { eexists _, _; split; [reflexivity|split; [intros [_ ?]; lra|done]]. }
  destruct (scaled_len_val rm (size c) (stail s) ltac:(lia) Hrm) as (Hk & Bk). rewrite (rbind_eq _ _ _ _ _ Hk). cbn zeta.
  remember (Zfloor _) as k eqn:Ek in *.
  destruct (randomInt_ok 2 (Z.max k 2) (stail s) ltac:(lia)) as (len & Hlen & Blen). rewrite (rbind_eq _ _ _ _ _ Hlen).
  destruct (randomInt_ok 0 (size c - len) (stail (stail s)) ltac:(lia)) as (first & Hf & Bf). rewrite (rbind_eq _ _ _ _ _ Hf).
  destruct (on_range_ok shuffle c first (first + len) (fun m m' => m' ≡ₚ m) (stail (stail (stail s)))) as (a & m & m' & b & s' & Ho & Hs & Hperm & Hm); [done|lia|lia|].
  rewrite Ho. eexists _, _. split; [reflexivity|]. split; [intros _|intros Hn; exfalso; apply Hn; unfold size in Hge; split; [lia|done]].
  exists a, m, m', b. split; [done|]. split; [done|]. split; [done|]. change (longest_part ?l rm (length c)) with (Z.max l (Zfloor (rnd (B2R rm * IZR (size c))%R))). rewrite <- Ek. lia.
Qed.
Lemma Swap2_applied pm c s : size c < 2 ^ 64 -> is_finite pm = true ->
  exists d s', Swap2 pm c s = Some (d, s') /\
    ((2 <= length c)%nat /\ (unit_draw (s 0%nat) <= B2R pm)%R -> two_swapped c d) /\
    (~ ((2 <= length c)%nat /\ (unit_draw (s 0%nat) <= B2R pm)%R) -> d = c).
Proof.
  intros Hc Fpm. assert (H0 : 0 <= size c) by (unfold size; lia). unfold Swap2.
  destruct (Z.ltb_spec (size c) 2) as [Hlt|Hge]; [eexists _, _; split; [reflexivity|split; [intros [? _]; unfold size in Hlt; lia|done]]|].
  destruct (randomReal_unit s) as (r & Hr & Fr & Vr & _). rewrite (rbind_eq _ _ _ _ _ Hr). rewrite fle_fval by (by apply is_finite_not_nan).
  rewrite !fval_finite, Vr by done. case Rle_bool_spec; intros Hp.
  2: { eexists _, _; split; [reflexivity|split; [intros [_ ?]; lra|done]]. }
  destruct (sampleUnique_ok 0 (size c) 2 (stail s)) as (l & s' & Hl & Ll & Fl & Nl); [lia|lia|]. rewrite (rbind_eq _ _ _ _ _ Hl).
  specialize (Nl ltac:(right; lia)). destruct l as [|i [|j [|? l]]]; try (cbn in Ll; lia). apply Forall_cons in Fl as [Bi Fl]. apply Forall_cons in Fl as [Bj _].
  apply NoDup_cons in Nl as [Nij _]. rewrite elem_of_list_singleton in Nij.
  unfold rbind, rlift. cbn [lookup list_lookup mbind option_bind].
  destruct (swap_at_ok c i j s' Bi Bj) as (d & Hd & Pd & Ld & Di & Dj & Dk). rewrite Hd. exists d, s'. split; [done|].
  unfold size in *. split; [intros _|intros Hn; exfalso; apply Hn; split; [lia|done]].
  destruct (lookup_lt_is_Some_2 c (Z.to_nat i)) as [x Hx]; [lia|]. destruct (lookup_lt_is_Some_2 c (Z.to_nat j)) as [y Hy]; [lia|].
  exists (Z.to_nat i), (Z.to_nat j), x, y. split; [lia|]. rewrite Di, Dj. done.
Qed.
Lemma Swap3_applied pm c s : size c < 65536 -> is_finite pm = true ->
  exists d s', Swap3 pm c s = Some (d, s') /\
    ((3 <= length c)%nat /\ (unit_draw (s 0%nat) <= B2R pm)%R -> three_rotated c d) /\
    (~ ((3 <= length c)%nat /\ (unit_draw (s 0%nat) <= B2R pm)%R) -> d = c).
Proof.
  intros Hc Fpm. assert (H0 : 0 <= size c) by (unfold size; lia). unfold Swap3.
  destruct (Z.ltb_spec (size c) 3) as [Hlt|Hge]; [eexists _, _; split; [reflexivity|split; [intros [? _]; unfold size in Hlt; lia|done]]|].
  destruct (randomReal_unit s) as (r & Hr & Fr & Vr & _). rewrite (rbind_eq _ _ _ _ _ Hr). rewrite fle_fval by (by apply is_finite_not_nan).
  rewrite !fval_finite, Vr by done. case Rle_bool_spec; intros Hp.
  2: { eexists _, _; split; [reflexivity|split; [intros [_ ?]; lra|done]]. }
  destruct (sampleUnique_ok 0 (size c) 3 (stail s)) as (l & s' & Hl & Ll & Fl & Nl); [lia|lia|]. rewrite (rbind_eq _ _ _ _ _ Hl).
  destruct l as [|i [|j [|k [|? l]]]]; try (cbn in Ll; lia).
  apply Forall_cons in Fl as [Bi Fl]. apply Forall_cons in Fl as [Bj Fl]. apply Forall_cons in Fl as [Bk _].
  unfold rbind at 1 2 3, rlift. cbn [lookup list_lookup mbind option_bind].
  destruct (swap_at_ok c i j s' Bi Bj) as (d & Hd & Pd & Ld & Di & Dj & Dk). rewrite (rbind_eq _ _ _ _ _ Hd).
  assert (Es : size d = size c) by (unfold size; by rewrite Ld).
  destruct (swap_at_ok d i k s') as (e & He & Pe & Le & Ei & Ek & El); [lia|lia|]. rewrite He. exists e, s'. split; [done|].
  unfold size in *. split; [intros _|intros Hn; exfalso; apply Hn; split; [lia|done]].
  specialize (Nl ltac:(left; lia)).
  apply NoDup_cons in Nl as [N1 Nl]. apply NoDup_cons in Nl as [N2 _]. rewrite !elem_of_cons in N1. rewrite elem_of_list_singleton in N2.
  assert (Hij : i <> j) by naive_solver. assert (Hik : i <> k) by naive_solver.
  destruct (lookup_lt_is_Some_2 c (Z.to_nat i)) as [x Hx]; [lia|]. destruct (lookup_lt_is_Some_2 c (Z.to_nat j)) as [y Hy]; [lia|].
  destruct (lookup_lt_is_Some_2 c (Z.to_nat k)) as [z Hz]; [lia|].
  exists (Z.to_nat i), (Z.to_nat j), (Z.to_nat k), x, y, z.
  assert (Hnd : NoDup [Z.to_nat i; Z.to_nat j; Z.to_nat k]).
  { apply NoDup_cons. split; [rewrite !elem_of_cons, elem_of_nil; lia|]. apply NoDup_cons. split; [rewrite elem_of_list_singleton; lia|]. apply NoDup_singleton. }
  split; [done|]. split; [done|]. split; [done|]. split; [done|].
  split; [rewrite Ei, Dk by lia; done|]. split; [rewrite El by lia; by rewrite Dj|]. split; [rewrite Ek; by rewrite Di|].
  split; [congruence|]. intros m Hm. rewrite !elem_of_cons, elem_of_nil in Hm. rewrite El, Dk by naive_solver. done.
Qed.
(** Exchanging neighbouring parts moves either of them. *)
Lemma Shift_applied pm rm c s : size c <= 2 ^ 53 -> probability rm -> (B2R rm < 1)%R -> is_finite pm = true ->
  exists d s', Shift pm rm c s = Some (d, s') /\
    ((2 <= length c)%nat /\ (unit_draw (s 0%nat) <= B2R pm)%R -> moved_part_upto (longest_part 1 rm (length c)) c d) /\
    (~ ((2 <= length c)%nat /\ (unit_draw (s 0%nat) <= B2R pm)%R) -> d = c).
Proof.
  intros Hc Hrm Hlt1 Fpm. assert (H0 : 0 <= size c) by (unfold size; lia). unfold Shift.
  destruct (Z.ltb_spec (size c) 2) as [Hlt|Hge]; [eexists _, _; split; [reflexivity|split; [intros [? _]; unfold size in Hlt; lia|done]]|].
  destruct (randomReal_unit s) as (r & Hr & Fr & Vr & _). rewrite (rbind_eq _ _ _ _ _ Hr). rewrite fle_fval by (by apply is_finite_not_nan).
  rewrite !fval_finite, Vr by done. case Rle_bool_spec; intros Hp.
  2: { eexists _, _; split; [reflexivity|split; [intros [_ ?]; lra|done]]. }
  destruct (scaled_len_val rm (size c) (stail s) ltac:(lia) Hrm) as (Hk & Bk).
  pose proof (scaled_len_lt rm (size c) (stail s) _ ltac:(lia) Hrm Hlt1 Hk) as Hkl.
  rewrite (rbind_eq _ _ _ _ _ Hk). cbn zeta. remember (Zfloor _) as k eqn:Ek in *.
  destruct (randomInt_ok 1 (Z.max 1 k) (stail s) ltac:(lia)) as (len & Hlen & Blen). rewrite (rbind_eq _ _ _ _ _ Hlen).
  destruct (sampleUnique_ok 0 (size c - len + 1) 2 (stail (stail s))) as (l & s' & Hl & Ll & Fl & Nl); [lia|lia|]. rewrite (rbind_eq _ _ _ _ _ Hl).
  specialize (Nl ltac:(right; lia)). destruct l as [|i [|j [|? l]]]; try (cbn in Ll; lia). apply Forall_cons in Fl as [Bi Fl]. apply Forall_cons in Fl as [Bj _].
  apply NoDup_cons in Nl as [Nij _]. rewrite elem_of_list_singleton in Nij.
  unfold rbind at 1 2, rlift. cbn [lookup list_lookup mbind option_bind].
  assert (Hgen : forall f m l0, 0 <= f -> f < m -> m < l0 -> l0 <= size c ->
    exists a x y b s'', rassert ((f <=? m) && (m <=? l0)) (on_range (fun m0 => rret (drop (Z.to_nat (m - f)) m0 ++ take (Z.to_nat (m - f)) m0)) c f l0) s' = Some (a ++ y ++ x ++ b, s'')
     /\ c = a ++ x ++ y ++ b /\ Z.of_nat (length x) = m - f /\ Z.of_nat (length y) = l0 - m).
  { intros f m l0 G1 G2 G3 G4. rewrite rassert_true by (rewrite andb_true_iff; lia).
    destruct (on_range_ok (fun m0 => rret (drop (Z.to_nat (m - f)) m0 ++ take (Z.to_nat (m - f)) m0)) c f l0
      (fun x y => y = drop (Z.to_nat (m - f)) x ++ take (Z.to_nat (m - f)) x) s') as (a & q & q' & b & s'' & Ho & Hs & -> & Hm); [|lia|lia|].
    { intros l1 s1. by eexists _, _. }
    rewrite Ho. exists a, (take (Z.to_nat (m - f)) q), (drop (Z.to_nat (m - f)) q), b, s''. split; [by rewrite <- app_assoc|].
    split. { rewrite Hs. f_equal. rewrite app_assoc. by rewrite take_drop. }
    rewrite take_length, drop_length. lia. }
  assert (Hap : (2 <= length c)%nat /\ (unit_draw (s 0%nat) <= B2R pm)%R) by (unfold size in Hge; split; [lia|done]).
  destruct (Z.ltb_spec j i).
  - destruct (Hgen j i (i + len)) as (a & x & y & b & s'' & Hd & He & Lx & Ly); [lia..|]. eexists _, s''. split; [exact Hd|]. split; [intros _|done].
    exists (a ++ x), y, b, a, (x ++ b). rewrite <- !app_assoc. split; [done|]. split; [done|]. split; [done|]. rewrite app_length.
    split; [lia|]. change (longest_part ?l rm (length c)) with (Z.max l (Zfloor (rnd (B2R rm * IZR (size c))%R))). rewrite <- Ek. lia.
  - destruct (Hgen i (i + len) (j + len)) as (a & x & y & b & s'' & Hd & He & Lx & Ly); [lia..|]. eexists _, s''. split; [exact Hd|]. split; [intros _|done].
    exists a, x, (y ++ b), (a ++ y), b. rewrite <- !app_assoc. split; [done|]. split; [done|]. split; [done|]. rewrite app_length.
    split; [lia|]. change (longest_part ?l rm (length c)) with (Z.max l (Zfloor (rnd (B2R rm * IZR (size c))%R))). rewrite <- Ek. lia.
Qed.
End perm.
