(** C109: the iterators of utility/iterators.hpp as random access iterators. *)
From Coq Require Import ZArith Lia.
From stdpp Require Import list list_numbers.
From Verif Require Import IteratorModel IteratorSpec.
Local Open Scope Z_scope.

Lemma to_size_id z : 0 <= z < 2 ^ 64 -> to_size z = z.
Proof. intros. unfold to_size. by apply Z.mod_small. Qed.
Lemma to_size_neg z : - 2 ^ 64 <= z < 0 -> to_size z = z + 2 ^ 64.
Proof. intros. unfold to_size. symmetry. apply (Z.mod_unique _ _ (-1)); lia. Qed.
Lemma to_size_over z : 2 ^ 64 <= z < 2 ^ 65 -> to_size z = z - 2 ^ 64.
Proof. intros. unfold to_size. symmetry. apply (Z.mod_unique _ _ 1); lia. Qed.
Lemma to_diff_id z : - 2 ^ 63 <= z < 2 ^ 63 -> to_diff z = z.
Proof. intros. unfold to_diff. rewrite Z.mod_small; lia. Qed.
Lemma neg_id n : is_diff n -> neg n = Some (- n).
Proof. intros [??]. unfold neg. destruct (decide _); [lia|done]. Qed.
(** idx_ += n, with n converted to size_t. *)
Lemma wrap_add a n : 0 <= a < 2 ^ 64 -> is_diff n -> 0 <= a + n < 2 ^ 64 -> to_size (a + to_size n) = a + n.
Proof.
  intros Ha [Hl Hh] Hr. destruct (Z_lt_le_dec n 0).
  - rewrite (to_size_neg n) by lia. rewrite to_size_over; lia.
  - rewrite (to_size_id n) by lia. apply to_size_id. lia.
Qed.

Lemma mapM_step {A B} (f : A -> option B) x l : mapM f (x :: l) = (y ← f x; k ← mapM f l; Some (y :: k)).
Proof. done. Qed.

(** ** iota_iterator *)
(** The valid iota iterators are all numbers of type size_t; they form one range. *)
Definition iota_view : view iota := View iota (fun a => 0 <= a <= size_max) (fun _ _ => True) (fun a => a) (fun _ => 0) (fun _ => size_max).

Theorem C109_iota : random_access_moves iota_ops iota_view /\ add_checked iota_ops iota_view /\ difference iota_ops iota_view.
Proof.
  unfold size_max. split_and!.
  - split; cbn; unfold size_max.
    + intros a b Ha. split_and!; [lia..|]. done.
    + intros a b _ _ _. unfold iota_eq. eexists. split; [done|]. apply bool_decide_eq_true.
    + intros a b _ _ _. unfold iota_lt. eexists. split; [done|]. apply bool_decide_eq_true.
    + intros a Ha. unfold iota_increment, moved; cbn; unfold size_max. split; intros H; (destruct (decide _); [try lia|try lia]).
      * eexists. split; [done|]. rewrite to_size_id by lia. split_and!; [lia..| |]; done.
      * done.
    + intros a Ha. unfold iota_decrement, moved; cbn; unfold size_max. split; intros H; (destruct (decide _); [try lia|try lia]).
      * eexists. split; [done|]. rewrite to_size_id by lia. split_and!; [lia..| |]; done.
      * done.
    + intros a n Ha Hn Hr. unfold iota_add, moved; cbn; unfold size_max. rewrite neg_id by done. cbn. rewrite wrap_add by (try done; lia). destruct Hn.
      exists (a + n). split; [|split_and!; (done || lia)]. destruct (decide (n < 0)).
      * rewrite to_size_id by lia. destruct (decide _); [done|lia].
      * destruct (decide (0 < n)); [|done]. rewrite (to_size_id n) by lia. rewrite to_size_id by lia. destruct (decide _); [done|lia].
    + intros a n Ha Hn Hr. unfold iota_add. rewrite neg_id by done. cbn. destruct Hn. destruct (decide (n < 0)); [|lia]. rewrite to_size_id by lia. destruct (decide _); [lia|done].
  - intros a n Ha Hn Hr. cbn in *. unfold iota_add, size_max in *. destruct Hn. destruct (decide (n < 0)); [lia|]. destruct (decide (0 < n)); [|lia].
    rewrite (to_size_id n) by lia. rewrite to_size_id by lia. destruct (decide _); [lia|done].
  - intros a b Ha Hb _ [Hl Hh]. cbn in *. unfold iota_diff, size_max in *. destruct (decide (b <= a)).
    + rewrite to_size_id by lia. rewrite to_diff_id by lia. done.
    + rewrite to_size_id by lia. rewrite to_diff_id by lia. rewrite neg_id by (split; lia). f_equal. lia.
Qed.

(** ** stable_iterator *)
Section Stable.
Context (len : nat -> Z).
Definition stable_view : view stable :=
  View stable (fun a => exists c, sdata a = Some c /\ 0 <= sidx a <= len c /\ len c < 2 ^ 63) (fun a b => sdata a = sdata b) sidx (fun _ => 0)
    (fun a => match sdata a with Some c => len c | None => 0 end).

Theorem C109_stable_partial :
  random_access_moves (stable_ops len) stable_view /\
  (** the difference of two iterators whose first operand is not in front of the second *)
  (forall a b, valid stable_view a -> valid stable_view b -> same stable_view a b -> pos stable_view b <= pos stable_view a ->
     op_diff (stable_ops len) a b = Some (pos stable_view a - pos stable_view b)) /\
  (** steps no longer than the range are checked *)
  (forall a n, valid stable_view a -> n <= hi stable_view a -> hi stable_view a < pos stable_view a + n -> op_add (stable_ops len) a n = None).
Proof.
  split_and!.
  - split; cbn.
    + intros a b (c & -> & Ha & Hc). split; [lia|]. intros <-. done.
    + intros a b (c & Ea & Ha & Hc) (d & Eb & Hb & Hd) E. unfold stable_eq, comparable. assert (d = c) as -> by congruence. rewrite Ea, Eb.
      destruct (decide _); [|done]. rewrite !bool_decide_true by lia. cbn. eexists. split; [done|]. apply bool_decide_eq_true.
    + intros a b (c & Ea & Ha & Hc) (d & Eb & Hb & Hd) E. unfold stable_lt, comparable. assert (d = c) as -> by congruence. rewrite Ea, Eb.
      destruct (decide _); [|done]. rewrite !bool_decide_true by lia. cbn. eexists. split; [done|]. apply bool_decide_eq_true.
    + intros a (c & Ea & Ha & Hc). unfold stable_increment, moved. rewrite Ea. cbn. split; intros H; (destruct (decide _); [try lia|try lia]); [|done].
      eexists. split; [done|]. cbn. rewrite to_size_id by lia. split; [exists c; split_and!; (done || lia)|done].
    + intros a (c & Ea & Ha & Hc). unfold stable_decrement, moved. rewrite Ea. cbn. split; intros H; (destruct (decide _); [try lia|try lia]); [|done].
      eexists. split; [done|]. cbn. rewrite to_size_id by lia. split; [exists c; split_and!; (done || lia)|done].
    + intros a n (c & Ea & Ha & Hc) Hn. rewrite Ea. intros Hr. unfold stable_add, moved. rewrite Ea, neg_id by done. cbn. rewrite wrap_add by (try done; lia). destruct Hn.
      exists (Stable (Some c) (sidx a + n)). split; [|cbn; split; [exists c; split_and!; (done || lia)|done]]. destruct (decide (n < 0)).
      * rewrite to_size_id by lia. destruct (decide _); [done|lia].
      * destruct (decide (0 < n)); [|done]. rewrite (to_size_id n) by lia. rewrite to_size_id by lia. destruct (decide _); [done|lia].
    + intros a n (c & Ea & Ha & Hc) Hn Hr. unfold stable_add. rewrite Ea, neg_id by done. cbn. destruct Hn. destruct (decide (n < 0)); [|lia]. rewrite to_size_id by lia. destruct (decide _); [lia|done].
  - cbn. intros a b (c & Ea & Ha & Hc) (d & Eb & Hb & Hd) E Hle. assert (d = c) as -> by congruence. unfold stable_diff. rewrite Ea, Eb. cbn.
    destruct (decide _); [|by exfalso; intuition lia]. destruct (decide (sidx b <= sidx a)); [|lia]. rewrite to_size_id by lia. unfold diff_max. destruct (decide _); [|lia]. rewrite to_diff_id by lia. done.
  - cbn. intros a n (c & Ea & Ha & Hc). rewrite Ea. intros Hn Hr. unfold stable_add. rewrite Ea. cbn. destruct (decide (n < 0)); [lia|]. destruct (decide (0 < n)); [|lia].
    rewrite (to_size_id n) by lia. rewrite to_size_id by lia. destruct (decide _); [lia|done].
Qed.

(** What the subtraction really gives: the distance, whatever the order of the operands. *)
Theorem C109_stable_distance a b : valid stable_view a -> valid stable_view b -> same stable_view a b ->
  op_diff (stable_ops len) a b = Some (Z.abs (pos stable_view a - pos stable_view b)).
Proof.
  cbn. intros (c & Ea & Ha & Hc) (d & Eb & Hb & Hd) E. assert (d = c) as -> by congruence. unfold stable_diff. rewrite Ea, Eb. cbn.
  destruct (decide _); [|by exfalso; intuition lia]. unfold diff_max. destruct (decide (sidx b <= sidx a)); rewrite to_size_id by lia; (destruct (decide _); [|lia]); rewrite to_diff_id by lia; f_equal; lia.
Qed.
(** So a + (b - a) == b holds exactly when a is not behind b. *)
Corollary C109_stable_back a b d : valid stable_view a -> valid stable_view b -> same stable_view a b -> op_diff (stable_ops len) b a = Some d ->
  (op_add (stable_ops len) a d = Some b <-> pos stable_view a <= pos stable_view b).
Proof.
  intros Va Vb Sab Hd. rewrite C109_stable_distance in Hd by (try done; by symmetry). apply (inj Some) in Hd as <-. destruct C109_stable_partial as [RA _]. split.
  - intros Hadd. destruct (Z_le_gt_dec (pos stable_view a) (pos stable_view b)); [done|]. exfalso. cbn in *. destruct Va as (c & Ea & Ha & Hc), Vb as (e & Eb & Hb & He). assert (e = c) as -> by congruence.
    rewrite Z.abs_neq in Hadd by lia. unfold stable_add in Hadd. rewrite Ea in Hadd. cbn in Hadd. destruct (decide (_ < 0)); [lia|]. destruct (decide (0 < _)); [|lia]. destruct (decide (sidx a <= _)); [|done]. apply (inj Some) in Hadd. assert (Hi : sidx b = to_size (sidx a + to_size (- (sidx b - sidx a)))) by (rewrite <- Hadd at 1; done).
    rewrite wrap_add in Hi by (unfold is_diff; lia). lia.
  - intros Hle. destruct (ra_add _ _ RA a (Z.abs (pos stable_view b - pos stable_view a))) as (a' & -> & V' & S' & P'); [done| | |].
    + destruct Va as (c & Ea & Ha & Hc), Vb as (e & Eb & Hb & He). cbn in *. assert (e = c) as -> by congruence. unfold is_diff. lia.
    + destruct Va as (c & Ea & Ha & Hc), Vb as (e & Eb & Hb & He). cbn in *. rewrite Ea. assert (e = c) as -> by congruence. lia.
    + f_equal. cbn in *. destruct a', b. cbn in *. f_equal; [congruence|lia].
Qed.

(** The iterator denotes the element at its position in the container as it is now: reallocating, overwriting
    other elements or appending does not invalidate it. *)
Theorem C109_stable_deref {A} (get : nat -> list A) a c : valid stable_view a -> sdata a = Some c -> len c = Z.of_nat (length (get c)) ->
  stable_deref len get a = get c !! Z.to_nat (pos stable_view a).
Proof.
  cbn. intros (d & Ea & Ha & Hc) E Hl. assert (d = c) as -> by congruence. unfold stable_deref. rewrite Ea. cbn. destruct (decide _); [done|]. symmetry. apply lookup_ge_None. lia.
Qed.
End Stable.

(** first - last of a range of three elements is 3, not -3; and an iterator at the first element can be moved 4
    further, beyond the end. *)
Theorem C109_stable_refuted : exists len a b,
  valid (stable_view len) a /\ valid (stable_view len) b /\ same (stable_view len) a b /\
  (pos (stable_view len) a - pos (stable_view len) b = -3 /\ op_diff (stable_ops len) a b = Some 3) /\
  (hi (stable_view len) a < pos (stable_view len) a + 4 /\ exists r, op_add (stable_ops len) a 4 = Some r /\ pos (stable_view len) r = 4) /\
  ~ difference (stable_ops len) (stable_view len) /\ ~ add_checked (stable_ops len) (stable_view len).
Proof.
  exists (fun _ => 3), (Stable (Some 0%nat) 0), (Stable (Some 0%nat) 3). set (v := stable_view (fun _ => 3)).
  assert (Va : valid v (Stable (Some 0%nat) 0)) by (exists 0%nat; cbn; split_and!; (done || lia)).
  assert (Vb : valid v (Stable (Some 0%nat) 3)) by (exists 0%nat; cbn; split_and!; (done || lia)).
  split_and!; try done.
  - eexists. by split; [vm_compute|].
  - intros D. specialize (D _ _ Va Vb eq_refl). assert (is_diff (-3)) as H by (unfold is_diff; lia). specialize (D H). by vm_compute in D.
  - intros D. specialize (D (Stable (Some 0%nat) 0) 4 Va). assert (is_diff 4) as H by (unfold is_diff; lia). specialize (D H ltac:(cbn; lia)). by vm_compute in D.
Qed.

(** ** What the interfaces derive from the operators *)
Section Derived.
Context {I : Type} (o : iter_ops I) (v : view I) (RA : random_access_moves o v).

Theorem C109_derived a b n : valid v a -> valid v b -> same v a b -> same v b a ->
  (exists t, op_gt o a b = Some t /\ (t = true <-> pos v a > pos v b)) /\
  (exists t, op_le o a b = Some t /\ (t = true <-> pos v a <= pos v b)) /\
  (exists t, op_ge o a b = Some t /\ (t = true <-> pos v a >= pos v b)) /\
  (is_diff n -> lo v a <= pos v a - n <= hi v a -> moved v a (- n) (op_sub o a n)) /\
  (forall A (deref : I -> option A), is_diff n -> lo v a <= pos v a + n <= hi v a ->
     exists r, moved v a n (Some r) /\ op_index o deref a n = deref r) /\
  (pos v a < hi v a -> exists r, op_post_increment o a = Some (a, r) /\ moved v a 1 (Some r)) /\
  (lo v a < pos v a -> exists r, op_post_decrement o a = Some (a, r) /\ moved v a (-1) (Some r)).
Proof.
  intros Va Vb Sab Sba. unfold op_gt, op_le, op_ge, op_sub, op_index, op_plus, op_post_increment, op_post_decrement.
  destruct (ra_lt o v RA a b Va Vb Sab) as (t1 & -> & H1). destruct (ra_lt o v RA b a Vb Va Sba) as (t2 & -> & H2). split_and!.
  - eexists. split; [done|]. rewrite H2. lia.
  - eexists. split; [done|]. rewrite negb_true_iff, <- not_true_iff_false, H2. lia.
  - eexists. split; [done|]. rewrite negb_true_iff, <- not_true_iff_false, H1. lia.
  - intros Hn Hr. rewrite neg_id by done. cbn. apply (ra_add o v RA); [done| |lia]. unfold is_diff in *. lia.
  - intros A deref Hn Hr. destruct (ra_add o v RA a n Va Hn Hr) as (r & -> & M). exists r. split; [by exists r|done].
  - intros H. destruct (proj1 (ra_increment o v RA a Va) H) as (r & -> & M). exists r. split; [done|by exists r].
  - intros H. destruct (proj1 (ra_decrement o v RA a Va) H) as (r & -> & M). exists r. split; [done|by exists r].
Qed.

(** Going from first to last with postfix ++ passes every position between them once, in order. *)
Theorem C109_walk {A} (deref : I -> option A) (at_ : Z -> option A)
  (Hs : forall a b c, same v a b -> same v b c -> same v a c) :
  forall k first last fuel, valid v first -> valid v last -> same v first last -> pos v last = pos v first + Z.of_nat k -> (k < fuel)%nat ->
  (forall it, valid v it -> same v it last -> deref it = at_ (pos v it)) -> (forall a b, same v a b -> same v b a) ->
  walk o deref fuel first last = mapM at_ (seqZ (pos v first) (Z.of_nat k)).
Proof.
  induction k as [|k IH]; intros first last fuel Vf Vl Sfl E Hf Hd Hsym.
  - destruct fuel as [|fuel]; [lia|]. cbn [walk]. destruct (ra_eq o v RA first last Vf Vl Sfl) as (t & -> & Ht). cbn. destruct t; [done|]. exfalso. assert (false = true); [|done]. apply Ht. lia.
  - destruct fuel as [|fuel]; [lia|]. cbn [walk]. destruct (ra_eq o v RA first last Vf Vl Sfl) as (t & -> & Ht). cbn [mbind option_bind]. destruct t.
    { exfalso. assert (pos v first = pos v last) by by apply Ht. lia. }
    destruct (ra_range o v RA first last Vf) as [Rf Hb]. destruct (Hb Sfl) as [El Eh]. destruct (ra_range o v RA last first Vl) as [Rl _].
    destruct (proj1 (ra_increment o v RA first Vf) ltac:(lia)) as (f' & Ei & Vf' & Sf & Pf). unfold op_post_increment. rewrite Ei. cbn [mbind option_bind fst snd].
    rewrite (Hd first Vf Sfl). rewrite seqZ_cons by lia. rewrite mapM_step. destruct (at_ (pos v first)) as [x|]; [|done]. cbn [mbind option_bind].
    rewrite (IH f' last fuel); [|done|done|by eapply Hs; [apply Hsym|]|lia|lia|done|done]. rewrite Pf. replace (Z.pred (Z.of_nat (S k))) with (Z.of_nat k) by lia. replace (Z.succ (pos v first)) with (pos v first + 1) by lia. by destruct (mapM _ _).
Qed.
End Derived.

(** The index ranges of the parallel loops. *)
Theorem C109_iota_walk a k fuel : 0 <= a -> a + Z.of_nat k <= size_max -> (k < fuel)%nat ->
  walk iota_ops iota_deref fuel a (a + Z.of_nat k) = Some (seqZ a (Z.of_nat k)).
Proof.
  intros Ha Hk Hf. destruct C109_iota as [RA _]. rewrite (C109_walk iota_ops iota_view RA iota_deref (fun z => Some z) ltac:(done) k); cbn; try done; unfold size_max in *; try lia.
  generalize (seqZ a (Z.of_nat k)). induction l as [|x l IH]; [done|]. by rewrite mapM_step, IH.
Qed.
(** A container is passed from its first to its last element. *)
Theorem C109_stable_walk {A} len (get : nat -> list A) c f l fuel : len c = Z.of_nat (length (get c)) -> len c < 2 ^ 63 ->
  stable_begin len c = Some f -> stable_end len c = Some l -> (length (get c) < fuel)%nat ->
  walk (stable_ops len) (stable_deref len get) fuel f l = Some (get c).
Proof.
  intros Hl Hc Hb He Hf. unfold stable_begin, stable_end, stable_at in *. destruct (decide _); [|lia]. apply (inj Some) in Hb as <-. destruct (decide _); [|lia]. apply (inj Some) in He as <-.
  destruct (C109_stable_partial len) as [RA _].
  rewrite (C109_walk (stable_ops len) (stable_view len) RA (stable_deref len get) (fun z => get c !! Z.to_nat z)) with (k := length (get c)); cbn; try done; try lia.
  - assert (G : forall m l' : list A, mapM (fun z => (m ++ l') !! Z.to_nat z) (seqZ (Z.of_nat (length m)) (Z.of_nat (length l'))) = Some l').
    { intros m l'. revert m. induction l' as [|x l' IH]; intros m; [done|]. rewrite seqZ_cons by (cbn; lia). rewrite mapM_step. rewrite Nat2Z.id, lookup_app_r by lia. rewrite Nat.sub_diag. cbn [lookup list_lookup mbind option_bind].
      specialize (IH (m ++ [x])). rewrite <- app_assoc in IH. cbn [app] in IH. rewrite app_length in IH. cbn [length] in IH. replace (Z.succ (Z.of_nat (length m))) with (Z.of_nat (length m + 1)) by lia.
      replace (Z.pred (Z.of_nat (length (x :: l')))) with (Z.of_nat (length l')) by (cbn; lia). rewrite IH. done. }
    apply (G [] (get c)).
  - intros a b d E1 E2. by rewrite E1.
  - exists c. split_and!; (done || lia).
  - exists c. split_and!; (done || lia).
  - intros it Vi Si. cbn in Si. apply C109_stable_deref; done.
Qed.
(** The members container_interface derives from begin and end. *)
Theorem C109_container {A} len (get : nat -> list A) c : len c = Z.of_nat (length (get c)) -> len c < 2 ^ 63 ->
  ci_size len c = Some (len c) /\
  (exists t, ci_empty len c = Some t /\ (t = true <-> get c = [])) /\
  ci_front len get c = head (get c) /\
  ci_back len get c = list.last (get c) /\
  (forall i, 0 <= i < 2 ^ 64 -> ci_index len get c i = get c !! Z.to_nat i /\ ci_at len get c i = Some (get c !! Z.to_nat i)).
Proof.
  intros Hl Hc. assert (B : stable_begin len c = Some (Stable (Some c) 0)) by (unfold stable_begin, stable_at; destruct (decide _); [done|lia]).
  assert (En : stable_end len c = Some (Stable (Some c) (len c))) by (unfold stable_end, stable_at; destruct (decide _); [done|lia]).
  assert (Vb : valid (stable_view len) (Stable (Some c) 0)) by (exists c; cbn; split_and!; (done || lia)).
  assert (Ve : valid (stable_view len) (Stable (Some c) (len c))) by (exists c; cbn; split_and!; (done || lia)).
  destruct (C109_stable_partial len) as (RA & Hd & _).
  assert (Sz : ci_size len c = Some (len c)).
  { unfold ci_size. rewrite B, En. cbn [mbind option_bind]. specialize (Hd _ _ Ve Vb eq_refl ltac:(cbn; lia)). cbn [op_diff stable_ops pos stable_view sidx] in Hd. rewrite Hd. cbn. rewrite to_size_id by lia. f_equal. lia. }
  assert (Hi : forall i, 0 <= i < len c -> (p ← stable_add len (Stable (Some c) 0) (to_diff i); stable_deref len get p) = get c !! Z.to_nat i).
  { intros i Hi. rewrite to_diff_id by lia. destruct (ra_add _ _ RA _ i Vb) as (p & Ep & Vp & Sp & Pp); [unfold is_diff; lia|cbn; lia|]. cbn [op_add stable_ops] in Ep. rewrite Ep. cbn [mbind option_bind].
    cbn in Sp, Pp. rewrite (C109_stable_deref len get p c Vp (eq_sym Sp) Hl). cbn. rewrite Pp. done. }
  split_and!.
  - done.
  - unfold ci_empty. rewrite B, En. cbn [mbind option_bind]. destruct (ra_eq _ _ RA _ _ Vb Ve eq_refl) as (t & Et & Ht). cbn [op_eq stable_ops] in Et. rewrite Et. exists t. split; [done|]. rewrite Ht. cbn. destruct (get c); cbn in *; split; intros H; (done || lia).
  - unfold ci_front. rewrite B. cbn [mbind option_bind]. rewrite (C109_stable_deref len get _ c Vb eq_refl Hl). cbn. by destruct (get c).
  - unfold ci_back. rewrite En. cbn [mbind option_bind]. rewrite last_lookup. destruct (decide (get c = [])) as [E|E].
    + rewrite E. cbn. unfold op_sub. rewrite neg_id by (unfold is_diff; lia). cbn [mbind option_bind op_add stable_ops]. cbn. destruct (decide _); [|lia]. rewrite E in Hl. cbn in Hl. rewrite Hl. done.
    + assert (length (get c) <> 0%nat) by (by destruct (get c)).
      destruct (C109_derived _ _ RA (Stable (Some c) (len c)) (Stable (Some c) (len c)) 1 Ve Ve eq_refl eq_refl) as (_ & _ & _ & M & _).
      destruct M as (p & Ep & Vp & Sp & Pp); [unfold is_diff; lia|cbn; lia|]. rewrite Ep. cbn [mbind option_bind]. cbn in Sp, Pp. rewrite (C109_stable_deref len get p c Vp (eq_sym Sp) Hl). cbn. rewrite Pp. f_equal. lia.
  - intros i Hr. split.
    + unfold ci_index. rewrite Sz. cbn [mbind option_bind]. destruct (decide (i < len c)).
      * rewrite B. cbn [mbind option_bind]. apply Hi. lia.
      * symmetry. apply lookup_ge_None. lia.
    + unfold ci_at. rewrite Sz. cbn [mbind option_bind]. destruct (decide (len c <= i)).
      * f_equal. symmetry. apply lookup_ge_None. lia.
      * rewrite B. cbn [mbind option_bind]. specialize (Hi i ltac:(lia)). destruct (lookup_lt_is_Some_2 (get c) (Z.to_nat i)) as [x Hx]; [lia|]. rewrite Hx in *.
        destruct (stable_add _ _ _) as [p|]; cbn [mbind option_bind] in *; [|done]. by rewrite Hi.
Qed.

(** Iterators of different containers, and iterators of containers that have become shorter, are not compared or subtracted. *)
Theorem C109_stable_mixed len a b : sdata a <> sdata b ->
  stable_eq len a b = None /\ stable_lt len a b = None /\ stable_diff len a b = None.
Proof.
  intros H. unfold stable_eq, stable_lt, stable_diff. destruct (decide (sdata a = sdata b)); [done|]. split_and!; [done|done|].
  destruct (sdata a) as [ca|], (sdata b) as [cb|]; [|done..]. cbn [mbind option_bind]. destruct (decide _) as [(-> & _)|]; done.
Qed.
Theorem C109_stable_outside len a b c : sdata a = Some c -> sdata b = Some c -> len c < sidx a \/ len c < sidx b ->
  stable_eq len a b = None /\ stable_lt len a b = None /\ stable_diff len a b = None.
Proof.
  intros Ha Hb H. unfold stable_eq, stable_lt, stable_diff, comparable. rewrite Ha, Hb. destruct (decide (Some c = Some c)); [|done]. cbn [mbind option_bind].
  destruct (decide (c = c /\ _)); [lia|]. destruct (bool_decide_reflect (sidx a <= len c)), (bool_decide_reflect (sidx b <= len c)); try done; lia.
Qed.
Example C109_mixed_nonvacuous : sdata (Stable (Some 0%nat) 1) <> sdata (Stable (Some 1%nat) 1).
Proof. done. Qed.

Example C109_nonvacuous :
  (op_diff iota_ops 5 7 = Some (-2) /\ op_add iota_ops 5 (-6) = None /\ op_add iota_ops 5 3 = Some 8) /\
  walk iota_ops iota_deref 10 2 6 = Some [2; 3; 4; 5] /\
  (let len := fun _ => 3 in let get := fun _ => [10; 20; 30] in
   (f ← stable_begin len 0; l ← stable_end len 0; walk (stable_ops len) (stable_deref len get) 5 f l) = Some [10; 20; 30] /\
   op_index (stable_ops len) (stable_deref len get) (Stable (Some 0%nat) 3) (-2) = Some 20 /\
   ci_back len get 0 = Some 30 /\ ci_at len get 0 7 = Some None).
Proof. by vm_compute. Qed.

Print Assumptions C109_iota.
Print Assumptions C109_stable_partial.
Print Assumptions C109_stable_distance.
Print Assumptions C109_stable_deref.
Print Assumptions C109_stable_refuted.
Print Assumptions C109_derived.
Print Assumptions C109_walk.
Print Assumptions C109_iota_walk.
Print Assumptions C109_stable_walk.
Print Assumptions C109_container.
Print Assumptions C109_stable_mixed.
Print Assumptions C109_stable_outside.
