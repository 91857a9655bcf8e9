(** Lemmas about the crossovers. *)
From Coq Require Import Lia.
From stdpp Require Import list list_numbers sets.
From Verif Require Import AlgorithmModel CrossoverModel CrossoverSpec.

Lemma check_true {A} (P : Prop) `{Decision P} (k : option A) : P -> check P k = k.
Proof. intros HP. unfold check. by rewrite decide_True by done. Qed.
Lemma wr_ok {A} (l : list A) i x : i < length l -> wr l i x = Some (<[i:=x]> l).
Proof. intros H. unfold wr. by rewrite decide_True by done. Qed.

Lemma range_length a b : length (range a b) = b - a.
Proof. apply seq_length. Qed.
Lemma in_range a b i : i ∈ range a b <-> a <= i < b.
Proof. unfold range. rewrite elem_of_seq. lia. Qed.
Lemma range_app a b c : a <= b -> b <= c -> range a c = range a b ++ range b c.
Proof.
  intros H1 H2. unfold range. replace (c - a) with ((b - a) + (c - b)) by lia.
  rewrite seq_app. f_equal. f_equal. lia.
Qed.

Lemma reads_seq {A} (l : list A) k : forall s, s + k <= length l -> reads l (seq s k) = Some (take k (drop s l)).
Proof.
  induction k as [|k IH]; intros s H; [by rewrite take_0|].
  unfold reads in *. cbn. destruct (lookup_lt_is_Some_2 l s ltac:(lia)) as [x Hx].
  rewrite Hx. cbn [mbind option_bind]. rewrite IH by lia. cbn.
  by rewrite (drop_S l x s Hx).
Qed.
Lemma reads_range {A} (l : list A) a b : a <= b -> b <= length l -> reads l (range a b) = Some (segment l a b).
Proof. intros H1 H2. unfold range, segment. apply reads_seq. lia. Qed.

(** Writing a list of genes into a list of places. *)
Fixpoint write_all {A} (c : list A) (w : list (nat * A)) : list A :=
  match w with [] => c | (i, g) :: w => write_all (<[i:=g]> c) w end.
Lemma write_all_length {A} (w : list (nat * A)) : forall c, length (write_all c w) = length c.
Proof. induction w as [|[i g] w IH]; intros c; cbn; [done|]. by rewrite IH, insert_length. Qed.
Lemma write_all_other {A} (w : list (nat * A)) i : forall c, i ∉ w.*1 -> write_all c w !! i = c !! i.
Proof.
  induction w as [|[j g] w IH]; intros c Hi; cbn in *; [done|].
  rewrite not_elem_of_cons in Hi. rewrite IH by tauto. apply list_lookup_insert_ne. intros ->. by destruct Hi.
Qed.
Lemma write_all_ok {A} (c : list A) places genes : NoDup places -> (forall i, i ∈ places -> i < length c) ->
  length places = length genes -> reads_as (write_all c (zip places genes)) places genes.
Proof.
  revert c genes. induction places as [|i places IH]; intros c [|g genes] Hnd Hb Hl; cbn in Hl; try lia; [done|].
  apply NoDup_cons in Hnd as [Hi Hnd]. unfold reads_as. cbn [zip zip_with write_all fmap list_fmap].
  f_equal.
  - rewrite write_all_other.
    + apply list_lookup_insert. apply Hb. left.
    + intros H. apply Hi. apply elem_of_list_fmap in H as [[a b] [-> H]]. apply elem_of_zip_l in H. done.
  - apply IH; [done| |lia]. intros j Hj. rewrite insert_length. apply Hb. by right.
Qed.
Lemma write_all_keeps {A} (c : list A) places genes (P : nat -> Prop) : (forall i, P i -> i ∉ places) ->
  keeps (write_all c (zip places genes)) c P.
Proof.
  intros H i Hi. apply write_all_other. intros Hin. apply (H i Hi).
  apply elem_of_list_fmap in Hin as [[a b] [-> Hin]]. by apply elem_of_zip_l in Hin.
Qed.

(** A child that keeps some genes of [p1] and takes the others is a permutation. *)
Lemma reads_as_length {A} (c : list A) places genes : reads_as c places genes -> length places = length genes.
Proof. intros H. apply (f_equal length) in H. by rewrite !fmap_length in H. Qed.
Lemma reads_as_in {A} (c : list A) places genes i : reads_as c places genes -> i ∈ places ->
  exists g, c !! i = Some g /\ g ∈ genes.
Proof.
  intros H Hi. assert (Hc : c !! i ∈ (fun i => c !! i) <$> places) by (apply elem_of_list_fmap; eauto).
  rewrite H in Hc. apply elem_of_list_fmap in Hc as [g [Hg Hin]]. eauto.
Qed.
Lemma reads_as_inj {A} (c : list A) places genes i j g : reads_as c places genes -> NoDup genes ->
  i ∈ places -> j ∈ places -> c !! i = Some g -> c !! j = Some g -> i = j.
Proof.
  intros H Hnd Hi Hj Hci Hcj.
  apply elem_of_list_lookup in Hi as [a Ha]. apply elem_of_list_lookup in Hj as [b Hb].
  assert (Hka : genes !! a = Some g).
  { assert (E : ((fun i => c !! i) <$> places) !! a = Some (Some g)) by (rewrite list_lookup_fmap, Ha; cbn; by rewrite Hci).
    rewrite H, list_lookup_fmap in E. destruct (genes !! a) as [g'|]; [|done]. by injection E as ->. }
  assert (Hkb : genes !! b = Some g).
  { assert (E : ((fun i => c !! i) <$> places) !! b = Some (Some g)) by (rewrite list_lookup_fmap, Hb; cbn; by rewrite Hcj).
    rewrite H, list_lookup_fmap in E. destruct (genes !! b) as [g'|]; [|done]. by injection E as ->. }
  assert (a = b) as -> by (eapply NoDup_lookup; eauto). congruence.
Qed.

Lemma lookup_inj {A} (p : list A) i j g : NoDup p -> p !! i = Some g -> p !! j = Some g -> i = j.
Proof. intros H Hi Hj. by apply (NoDup_lookup p i j g). Qed.
Lemma NoDup_by_lookup {A} (l : list A) : (forall i j g, l !! i = Some g -> l !! j = Some g -> i = j) -> NoDup l.
Proof. intros H. by apply NoDup_alt. Qed.
Lemma perm_of_nodup {A} (l k : list A) : NoDup l -> (forall x, x ∈ l -> x ∈ k) -> length k <= length l -> l ≡ₚ k.
Proof.
  intros H1 H2 H3. apply submseteq_Permutation_length_le; [done|]. by apply NoDup_submseteq.
Qed.

Lemma filled_perm {A} (p1 p2 child kept : list A) places genes (P : nat -> Prop) :
  same_genes p1 p2 -> length child = length p1 -> keeps child p1 P -> reads_as child places genes ->
  (forall i, i < length p1 -> P i \/ i ∈ places) ->
  NoDup genes -> (forall g, g ∈ genes -> g ∈ p1 /\ g ∉ kept) -> (forall i g, P i -> p1 !! i = Some g -> g ∈ kept) ->
  child ≡ₚ p1.
Proof.
  intros [Hnd Hp] Hl Hk Hr Hcov Hng Hg Hkept. apply perm_of_nodup; [|intros x Hx|lia].
  - apply NoDup_by_lookup. intros i j g Hi Hj.
    pose proof (lookup_lt_Some _ _ _ Hi). pose proof (lookup_lt_Some _ _ _ Hj).
    assert (Hnew : forall i g, i ∈ places -> child !! i = Some g -> g ∉ kept).
    { intros i' g' H1 H2. destruct (reads_as_in _ _ _ _ Hr H1) as (g2 & E & Hin). rewrite H2 in E. injection E as ->.
      by apply Hg. }
    destruct (Hcov i) as [Hpi | Hpi]; [lia| |]; destruct (Hcov j) as [Hpj | Hpj]; try lia.
    + rewrite Hk in Hi by done. rewrite Hk in Hj by done. by apply (lookup_inj p1 i j g).
    + exfalso. rewrite Hk in Hi by done. eapply Hnew; eauto.
    + exfalso. rewrite Hk in Hj by done. eapply Hnew; eauto.
    + eapply reads_as_inj; eauto.
  - apply elem_of_list_lookup in Hx as [i Hi]. pose proof (lookup_lt_Some _ _ _ Hi).
    destruct (Hcov i) as [Hpi | Hpi]; [lia| |].
    + rewrite Hk in Hi by done. apply elem_of_list_lookup; eauto.
    + destruct (reads_as_in _ _ _ _ Hr Hpi) as (g2 & E & Hin). rewrite Hi in E. injection E as ->. by apply Hg.
Qed.

(** ** Segments and counts *)
Lemma in_segment {A} (l : list A) a b g : b <= length l -> g ∈ segment l a b <-> exists i, a <= i < b /\ l !! i = Some g.
Proof.
  intros Hb. unfold segment. rewrite elem_of_list_lookup. split.
  - intros [i Hi]. pose proof (lookup_lt_Some _ _ _ Hi) as Hlt. rewrite take_length in Hlt.
    rewrite lookup_take, lookup_drop in Hi by lia. exists (a + i). split; [lia|done].
  - intros (i & Hr & Hi). exists (i - a). rewrite lookup_take, lookup_drop by lia. by replace (a + (i - a)) with i by lia.
Qed.
Lemma segment_length {A} (l : list A) a b : a <= b -> b <= length l -> length (segment l a b) = b - a.
Proof. intros. unfold segment. rewrite take_length, drop_length. lia. Qed.
Lemma segment_NoDup {A} (l : list A) a b : NoDup l -> NoDup (segment l a b).
Proof.
  intros H. unfold segment. rewrite <- (take_drop a l) in H. apply NoDup_app in H as (_ & _ & H).
  rewrite <- (take_drop (b - a) (drop a l)) in H. by apply NoDup_app in H as (H & _ & _).
Qed.
(** Removing a set of present genes leaves that many fewer. *)
Lemma without_length {A} `{EqDecision A} (s l : list A) : NoDup s -> NoDup l -> (forall g, g ∈ s -> g ∈ l) ->
  length (without s l) = length l - length s.
Proof.
  intros Hs Hl Hin. assert (Hp : s ++ without s l ≡ₚ l).
  { apply NoDup_Permutation; [|done|].
    - apply NoDup_app. split; [done|]. split; [|by apply NoDup_filter].
      intros x Hx H. apply elem_of_list_filter in H. tauto.
    - intros x. rewrite elem_of_app. unfold without. rewrite elem_of_list_filter.
      pose proof (Hin x). destruct (decide (x ∈ s)); tauto. }
  apply Permutation_length in Hp. rewrite app_length in Hp. lia.
Qed.
Lemma without_perm {A} `{EqDecision A} (s l k : list A) : l ≡ₚ k -> without s l ≡ₚ without s k.
Proof. intros H. unfold without. by rewrite H. Qed.

(** ** order1 *)
Lemma next_mod_ok v m : v < m -> exists w, next_mod v m = Some w /\ w < m /\ (forall k, (w + k) mod m = (v + S k) mod m).
Proof.
  intros H. unfold next_mod. rewrite decide_True by done. eexists. split; [done|].
  destruct (decide (v + 1 = m)) as [E|E].
  - split; [lia|]. intros k. replace (v + S k) with (k + 1 * m) by lia. by rewrite Nat.mod_add by lia.
  - split; [lia|]. intros k. f_equal. lia.
Qed.

Section order1.
Context {A : Type} `{EqDecision A}.
Variable mem : A -> option bool.
Variable direct p2 : list A.
Hypothesis Hmem : forall g, g ∈ p2 -> mem g = Some (bool_decide (g ∈ direct)).
Notation n := (length p2).

(** What is still to be read of [p2], cyclically, from [pos]. *)
Definition ahead (rem : list A) (pos : nat) : Prop :=
  forall k g, rem !! k = Some g -> p2 !! ((pos + k) mod n) = Some g.

Lemma ahead_tail x rem pos pos' : ahead (x :: rem) pos -> (forall k, (pos' + k) mod n = (pos + S k) mod n) -> ahead rem pos'.
Proof. intros H E k g Hk. rewrite E. by apply H. Qed.
Lemma ahead_head x rem pos : pos < n -> ahead (x :: rem) pos -> p2 !! pos = Some x.
Proof. intros Hp H. specialize (H 0 x eq_refl). rewrite Nat.add_0_r, Nat.mod_small in H by done. done. Qed.

Lemma skip_direct_ok rem : forall fuel pos, length rem < fuel -> pos < n -> ahead rem pos -> without direct rem <> [] ->
  exists pos' g rem', skip_direct mem fuel p2 pos = Some pos' /\ pos' < n /\ p2 !! pos' = Some g /\
    ahead (g :: rem') pos' /\ without direct rem = g :: without direct rem' /\ length rem' < length rem.
Proof.
  induction rem as [|x rem IH]; intros fuel pos Hf Hp Ha Hne; [done|].
  destruct fuel as [|fuel]; [cbn in Hf; lia|]. cbn [skip_direct].
  pose proof (ahead_head _ _ _ Hp Ha) as Hx. rewrite Hx. cbn [mbind option_bind].
  rewrite Hmem by (apply elem_of_list_lookup; eauto). cbn [mbind option_bind].
  unfold without in *. rewrite filter_cons in *. case_bool_decide as Hd.
  - rewrite (decide_False (P := x ∉ direct)) in * by tauto.
    destruct (next_mod_ok pos n Hp) as (pos' & -> & Hp' & E). cbn [mbind option_bind].
    destruct (IH fuel pos') as (p & g & rem' & H1 & H2 & H3 & H4 & H5 & H6); [cbn in Hf; lia|done| |done|].
    + eapply ahead_tail; eauto.
    + exists p, g, rem'. split_and!; try done. cbn. lia.
  - rewrite (decide_True (P := x ∉ direct)) in * by done. exists pos, x, rem. split_and!; try done. cbn. lia.
Qed.

Lemma order1_loop_ok m : forall rem ppos cpos child, length rem <= n -> ppos < n -> cpos < n -> length child = n ->
  ahead rem ppos -> length (without direct rem) = m ->
  order1_loop mem m p2 ppos cpos child =
    Some (write_all child (zip ((fun k => (cpos + k) mod n) <$> seq 0 m) (without direct rem))).
Proof.
  induction m as [|m IH]; intros rem ppos cpos child Hr Hp Hc Hlc Ha Hm; [done|].
  cbn [order1_loop].
  destruct (skip_direct_ok rem (S n) ppos) as (pos & g & rem' & -> & Hpos & Hg & Ha' & Hw & Hlt); [lia|done|done| |].
  { intros E. rewrite E in Hm. done. }
  cbn [mbind option_bind]. rewrite Hg. cbn [mbind option_bind]. rewrite wr_ok by lia. cbn [mbind option_bind].
  destruct (next_mod_ok pos n Hpos) as (pos' & -> & Hpos' & E1). cbn [mbind option_bind].
  destruct (next_mod_ok cpos n Hc) as (cpos' & -> & Hcpos' & E2). cbn [mbind option_bind].
  rewrite (IH rem'); [|lia|done|done|by rewrite insert_length|eapply ahead_tail; eauto|rewrite Hw in Hm; cbn in Hm; lia].
  f_equal. rewrite Hw. cbn [seq fmap list_fmap zip zip_with write_all].
  rewrite Nat.add_0_r, Nat.mod_small by done. f_equal. f_equal.
  rewrite <- seq_shift, <- list_fmap_compose. apply list_fmap_ext. intros _ k _. apply E2.
Qed.
End order1.

Lemma ahead_rotated {A} (p : list A) k : k <= length p -> ahead p (rotated k p) (if decide (k = length p) then 0 else k).
Proof.
  intros Hk i g Hi. unfold rotated in Hi.
  assert (Hlt : i < length p). { apply lookup_lt_Some in Hi. rewrite app_length, drop_length, take_length in Hi. lia. }
  destruct (decide (k = length p)) as [->|Hne].
  - rewrite drop_all, firstn_all in Hi. cbn in Hi |- *. by rewrite Nat.mod_small.
  - apply lookup_app_Some in Hi as [Hi | [Hge Hi]].
    + rewrite lookup_drop in Hi. pose proof (lookup_lt_Some _ _ _ Hi). by rewrite Nat.mod_small.
    + rewrite drop_length in *. pose proof (lookup_lt_Some _ _ _ Hi) as Hl. rewrite take_length in Hl.
      rewrite lookup_take in Hi by lia. rewrite <- Hi. f_equal.
      replace (k + i) with ((i - (length p - k)) + 1 * length p) by lia. rewrite Nat.mod_add by lia.
      apply Nat.mod_small. lia.
Qed.

Lemma cyclic_places n a b : a <= b -> b <= n -> 
  (fun k => ((if decide (b = n) then 0 else b) + k) mod n) <$> seq 0 (n - (b - a)) = seq b (n - b) ++ seq 0 a.
Proof.
  intros Hab Hbn. replace (n - (b - a)) with ((n - b) + a) by lia. rewrite seq_app, fmap_app. f_equal.
  - destruct (decide (b = n)) as [->|]; [by rewrite Nat.sub_diag|].
    rewrite <- (Nat.add_0_r b) at 2. rewrite <- fmap_add_seq. apply list_fmap_ext.
    intros _ k Hk%elem_of_list_lookup_2. apply elem_of_seq in Hk. apply Nat.mod_small. lia.
  - rewrite <- (list_fmap_id (seq 0 a)). rewrite Nat.add_comm, <- fmap_add_seq, <- list_fmap_compose. cbn.
    apply list_fmap_ext. intros _ k Hk%elem_of_list_lookup_2. apply elem_of_seq in Hk. cbn.
    destruct (decide (b = n)) as [->|].
    + replace (n - n + k) with k by lia. apply Nat.mod_small. lia.
    + replace (b + (n - b + k)) with (k + 1 * n) by lia. rewrite Nat.mod_add by lia. apply Nat.mod_small. lia.
Qed.

Section orders.
Context {A : Type} `{EqDecision A}.
Variables (p1 p2 : list A).
Hypothesis Hsame : same_genes p1 p2.

Lemma same_length : length p1 = length p2.
Proof. by apply Permutation_length, Hsame. Qed.
Lemma same_NoDup2 : NoDup p2.
Proof. destruct Hsame as [H1 H2]. by rewrite <- H2. Qed.
Lemma same_in g : g ∈ p1 <-> g ∈ p2.
Proof. destruct Hsame as [_ H2]. by rewrite H2. Qed.

Lemma segment_in a b g : b <= length p1 -> g ∈ segment p1 a b -> g ∈ p2.
Proof.
  intros Hb Hg. apply in_segment in Hg as (i & _ & Hi); [|done]. apply same_in, elem_of_list_lookup. eauto.
Qed.
Lemma rotated_perm (l : list A) k : rotated k l ≡ₚ l.
Proof. unfold rotated. rewrite Permutation_app_comm. by rewrite take_drop. Qed.
Lemma without_segment_length a b : a <= b -> b <= length p1 ->
  length (without (segment p1 a b) p2) = length p1 - (b - a).
Proof.
  intros Ha Hb. rewrite without_length.
  - by rewrite segment_length, same_length by done.
  - apply segment_NoDup, Hsame.
  - apply same_NoDup2.
  - intros g. by apply segment_in.
Qed.

Lemma order1_body_ok mem a b : (forall g, g ∈ p2 -> mem g = Some (bool_decide (g ∈ segment p1 a b))) ->
  a <= b -> b <= length p1 ->
  exists c, order1_body mem p1 p2 a b = Some c /\ order1_spec p1 p2 c a b.
Proof.
  intros Hmem Ha Hb. unfold order1_body. pose proof same_length as Hl.
  destruct (decide (length p1 = 0)) as [E0|Hn0].
  - apply nil_length_inv in E0 as ->. destruct p2; [|done].
    cbn in Hb. assert (b = 0) as -> by lia. assert (a = 0) as -> by lia. exists []. split; [done|].
    split; [done|]. split; [intros i Hi; lia|]. done.
  - rewrite (order1_loop_ok mem (segment p1 a b) p2 Hmem _ (rotated b p2)); try done.
    2: by rewrite (rotated_perm p2 b).
    2,3: destruct (decide (b = length p1)); lia.
    2: { pose proof (ahead_rotated p2 b ltac:(lia)) as Hah. by rewrite <- Hl in Hah. }
    2: { rewrite (without_perm _ _ _ (rotated_perm p2 b)). by apply without_segment_length. }
    eexists. split; [done|]. rewrite <- Hl, cyclic_places by done. split; [by rewrite write_all_length|]. split.
    + apply write_all_keeps. intros i Hi. rewrite elem_of_app, !elem_of_seq. lia.
    + apply write_all_ok.
      * apply NoDup_app. split; [apply NoDup_seq|]. split; [|apply NoDup_seq].
        intros i. rewrite !elem_of_seq. lia.
      * intros i. rewrite elem_of_app, !elem_of_seq. lia.
      * rewrite app_length, !seq_length, (without_perm _ _ _ (rotated_perm p2 b)), without_segment_length by done. lia.
Qed.

Lemma order1_spec_perm c a b : a <= b -> b <= length p1 -> order1_spec p1 p2 c a b -> c ≡ₚ p1.
Proof.
  intros Ha Hb (H1 & H2 & H3).
  eapply (filled_perm p1 p2 c (segment p1 a b)); [done|done|exact H2|exact H3| | | |].
  - intros i Hi. rewrite elem_of_app, !elem_of_seq. lia.
  - apply NoDup_filter. rewrite rotated_perm. apply same_NoDup2.
  - intros g Hg. apply elem_of_list_filter in Hg as [Hg1 Hg2]. rewrite rotated_perm in Hg2. split; [by apply same_in|done].
  - intros i g Hi Hg. apply in_segment; [done|]. by exists i.
Qed.

Lemma order2_loop_ok mem a b : (forall g, g ∈ p2 -> mem g = Some (bool_decide (g ∈ segment p1 a b))) ->
  a <= b -> b <= length p1 ->
  forall l cpos child, (forall g, g ∈ l -> g ∈ p2) -> length child = length p1 -> cpos <= a \/ b <= cpos ->
  length (seq cpos (a - cpos) ++ seq (Nat.max cpos b) (length p1 - Nat.max cpos b)) = length (without (segment p1 a b) l) ->
  order2_loop mem l a b cpos child =
    Some (write_all child (zip (seq cpos (a - cpos) ++ seq (Nat.max cpos b) (length p1 - Nat.max cpos b))
      (without (segment p1 a b) l))).
Proof.
  intros Hmem Ha Hb l. induction l as [|g l IH]; intros cpos child Hin Hlc Hcp Hlen; cbn [order2_loop].
  - cbn in Hlen. apply nil_length_inv in Hlen as ->. done.
  - rewrite Hmem by (apply Hin; left). cbn [mbind option_bind]. unfold without in *. rewrite filter_cons in *.
    case_bool_decide as Hd.
    + rewrite (decide_False (P := g ∉ _)) in * by tauto. apply IH; [|done..]. intros x Hx. apply Hin. by right.
    + rewrite (decide_True (P := g ∉ _)) in * by done. rewrite app_length, !seq_length in Hlen. cbn in Hlen.
      assert (Hpl : forall q, q = (if decide (cpos = a) then b else cpos) -> q < length p1 /\
         (q + 1 <= a \/ b <= q + 1) /\
         seq cpos (a - cpos) ++ seq (Nat.max cpos b) (length p1 - Nat.max cpos b) =
         q :: seq (q + 1) (a - (q + 1)) ++ seq (Nat.max (q + 1) b) (length p1 - Nat.max (q + 1) b)).
      { intros q ->. destruct (decide (cpos = a)) as [->|Hne].
        - rewrite Nat.sub_diag in *. rewrite (Nat.max_r a b) in * by lia. replace (a - (b + 1)) with 0 by lia. cbn.
          rewrite (Nat.max_l (b + 1) b) by lia. split; [lia|]. split; [lia|].
          replace (length p1 - b) with (S (length p1 - (b + 1))) by lia. cbn. by rewrite Nat.add_1_r.
        - destruct Hcp as [Hcp | Hcp].
          + rewrite (Nat.max_r cpos b), (Nat.max_r (cpos + 1) b) by lia. split; [lia|]. split; [lia|].
            replace (a - cpos) with (S (a - (cpos + 1))) by lia. cbn. by rewrite Nat.add_1_r.
          + replace (a - cpos) with 0 in * by lia. replace (a - (cpos + 1)) with 0 by lia.
            rewrite (Nat.max_l cpos b), (Nat.max_l (cpos + 1) b) in * by lia.
            split; [lia|]. split; [lia|].
            replace (length p1 - cpos) with (S (length p1 - (cpos + 1))) by lia. cbn. by rewrite Nat.add_1_r. }
      specialize (Hpl _ eq_refl). remember (if decide (cpos = a) then b else cpos) as q eqn:Eq.
      destruct Hpl as (Hq1 & Hq2 & Hq3). rewrite wr_ok by lia. cbn [mbind option_bind].
      rewrite IH; [| |by rewrite insert_length|done|].
      * rewrite Hq3. done.
      * intros x Hx. apply Hin. by right.
      * apply (f_equal length) in Hq3. cbn in Hq3. rewrite !app_length, !seq_length in Hq3.
        rewrite app_length, !seq_length. lia.
Qed.

Lemma order2_ok mem a b : (forall g, g ∈ p2 -> mem g = Some (bool_decide (g ∈ segment p1 a b))) ->
  a <= b -> b <= length p1 ->
  exists c, order2_loop mem p2 a b 0 p1 = Some c /\ order2_spec p1 p2 c a b.
Proof.
  intros Hmem Ha Hb.
  assert (Hlen : length (seq 0 a ++ seq b (length p1 - b)) = length (without (segment p1 a b) p2)).
  { rewrite app_length, !seq_length, without_segment_length by done. lia. }
  rewrite (order2_loop_ok mem a b Hmem Ha Hb p2 0 p1); [|done|done|lia|by rewrite Nat.sub_0_r, Nat.max_0_l].
  rewrite Nat.sub_0_r, Nat.max_0_l.
  eexists. split; [done|]. split; [by rewrite write_all_length|]. split.
  - apply write_all_keeps. intros i Hi. rewrite elem_of_app, !elem_of_seq. lia.
  - apply write_all_ok; [| |done].
    + apply NoDup_app. split; [apply NoDup_seq|]. split; [|apply NoDup_seq]. intros i. rewrite !elem_of_seq. lia.
    + intros i. rewrite elem_of_app, !elem_of_seq. lia.
Qed.
Lemma order2_spec_perm c a b : a <= b -> b <= length p1 -> order2_spec p1 p2 c a b -> c ≡ₚ p1.
Proof.
  intros Ha Hb (H1 & H2 & H3).
  eapply (filled_perm p1 p2 c (segment p1 a b)); [done|done|exact H2|exact H3| | | |].
  - intros i Hi. rewrite elem_of_app, !elem_of_seq. lia.
  - apply NoDup_filter. apply same_NoDup2.
  - intros g Hg. apply elem_of_list_filter in Hg as [Hg1 Hg2]. split; [by apply same_in|done].
  - intros i g Hi Hg. apply in_segment; [done|]. by exists i.
Qed.

(** ** position *)
Section pos.
Variable direct : list A.
Variable mem : A -> option bool.
Hypothesis Hmem : forall g, g ∈ p1 -> mem g = Some (bool_decide (g ∈ direct)).
(** The free places from [pos] on. *)
Definition free_from (l : list A) (pos : nat) : list nat :=
  omap (fun ig => if decide (ig.2 ∈ direct) then None else Some ig.1) (zip (seq pos (length l)) l).
Lemma free_from_cons x l pos :
  free_from (x :: l) pos = if decide (x ∈ direct) then free_from l (pos + 1) else pos :: free_from l (pos + 1).
Proof.
  unfold free_from. rewrite Nat.add_1_r. cbn.
  destruct (decide (x ∈ direct)) as [H|H]; done.
Qed.
Lemma free_from_ge l : forall pos i, i ∈ free_from l pos <-> exists g, pos <= i /\ l !! (i - pos) = Some g /\ g ∉ direct.
Proof.
  induction l as [|x l IH]; intros pos i.
  - cbn. rewrite elem_of_nil. split; [done|]. intros (g & _ & H & _). done.
  - rewrite free_from_cons. assert (E : i ∈ pos :: free_from l (pos + 1) <-> i = pos \/ i ∈ free_from l (pos + 1))
      by apply elem_of_cons.
    destruct (decide (x ∈ direct)) as [H|H].
    + rewrite IH. split.
      * intros (g & H1 & H2 & H3). exists g. split; [lia|]. split; [|done].
        replace (i - pos) with (S (i - (pos + 1))) by lia. done.
      * intros (g & H1 & H2 & H3). destruct (decide (i = pos)) as [->|Hne].
        -- rewrite Nat.sub_diag in H2. cbn in H2. congruence.
        -- exists g. replace (i - pos) with (S (i - (pos + 1))) in H2 by lia. split; [lia|]. done.
    + rewrite E, IH. split.
      * intros [-> | (g & H1 & H2 & H3)].
        -- exists x. rewrite Nat.sub_diag. split; [lia|done].
        -- exists g. split; [lia|]. split; [|done]. replace (i - pos) with (S (i - (pos + 1))) by lia. done.
      * intros (g & H1 & H2 & H3). destruct (decide (i = pos)) as [->|Hne]; [by left|]. right.
        exists g. replace (i - pos) with (S (i - (pos + 1))) in H2 by lia. split; [lia|]. done.
Qed.
Lemma free_from_NoDup l : forall pos, NoDup (free_from l pos).
Proof.
  induction l as [|x l IH]; intros pos; [constructor|]. rewrite free_from_cons.
  destruct (decide (x ∈ direct)); [apply IH|]. apply NoDup_cons. split; [|apply IH].
  rewrite free_from_ge. intros (g & H & _). lia.
Qed.
Lemma free_from_head l : forall pos q r, free_from l pos = q :: r ->
  pos <= q /\ free_from (drop (q - pos + 1) l) (q + 1) = r /\
  (forall i g, i < q - pos -> l !! i = Some g -> g ∈ direct) /\ exists g, l !! (q - pos) = Some g /\ g ∉ direct.
Proof.
  induction l as [|x l IH]; intros pos q r E; [done|]. rewrite free_from_cons in E.
  destruct (decide (x ∈ direct)) as [Hx|Hx].
  - apply IH in E as (H1 & H2 & H3 & g & H4 & H5). split; [lia|].
    replace (q - pos) with (S (q - (pos + 1))) by lia. split; [done|]. split.
    + intros [|i] g' Hi Hg'; [cbn in Hg'; congruence|]. apply (H3 i); [lia|done].
    + eauto.
  - injection E as -> <-. rewrite Nat.sub_diag. split; [lia|]. split; [done|]. split; [intros; lia|]. exists x. done.
Qed.

(** Finding the next free place in a child whose tail from [pos] on is still [p1]'s. *)
Lemma skip_kept_ok fuel : forall child pos q r, drop pos child = drop pos p1 -> length p1 < pos + fuel ->
  free_from (drop pos p1) pos = q :: r -> skip_kept mem fuel child pos = Some q.
Proof.
  induction fuel as [|fuel IH]; intros child pos q r Hd Hf E.
  - rewrite drop_ge in E by lia. done.
  - cbn [skip_kept].
    destruct (drop pos p1) as [|x l] eqn:Ed; [done|].
    assert (Hx : p1 !! pos = Some x). { by rewrite <- (Nat.add_0_r pos), <- lookup_drop, Ed. }
    assert (Hcx : child !! pos = Some x). { by rewrite <- (Nat.add_0_r pos), <- lookup_drop, Hd. }
    rewrite Hcx. cbn [mbind option_bind]. rewrite Hmem by (apply elem_of_list_lookup; eauto). cbn [mbind option_bind].
    rewrite free_from_cons in E.
    assert (Ed' : drop (pos + 1) p1 = l). { rewrite <- drop_drop, Ed. done. }
    case_bool_decide as Hb.
    + rewrite (decide_True (P := x ∈ direct)) in E by done. eapply IH.
      * rewrite <- !drop_drop, Hd, Ed. done.
      * lia.
      * rewrite Ed'. exact E.
    + rewrite (decide_False (P := x ∈ direct)) in E by done. by injection E as ->.
Qed.

Variable next : list A -> nat -> option nat.
Hypothesis Hnext : forall child pos q r, length child = length p1 -> drop pos child = drop pos p1 ->
  free_from (drop pos p1) pos = q :: r -> next child pos = Some q.

Lemma position_loop_ok l : forall pos child, (forall g, g ∈ l -> g ∈ p1) -> length child = length p1 ->
  drop pos child = drop pos p1 -> length (free_from (drop pos p1) pos) = length (without direct l) ->
  position_loop mem next l pos child = Some (write_all child (zip (free_from (drop pos p1) pos) (without direct l))).
Proof.
  induction l as [|g l IH]; intros pos child Hin Hlc Hd Hlen; cbn [position_loop].
  - cbn in Hlen. apply nil_length_inv in Hlen as ->. done.
  - rewrite Hmem by (apply Hin; left). cbn [mbind option_bind]. unfold without in *. rewrite filter_cons in *.
    case_bool_decide as Hb.
    + rewrite (decide_False (P := g ∉ _)) in * by tauto. apply IH; [|done..]. intros x Hx. apply Hin. by right.
    + rewrite (decide_True (P := g ∉ _)) in * by done. cbn in Hlen.
      destruct (free_from (drop pos p1) pos) as [|q r] eqn:Ef; [done|].
      rewrite (Hnext child pos q r Hlc Hd Ef). cbn [mbind option_bind].
      destruct (free_from_head _ _ _ _ Ef) as (Hq & Hr & _ & x & Hx & _).
      rewrite lookup_drop in Hx. replace (pos + (q - pos)) with q in Hx by lia.
      pose proof (lookup_lt_Some _ _ _ Hx). rewrite wr_ok by lia. cbn [mbind option_bind].
      rewrite drop_drop in Hr. replace (pos + (q - pos + 1)) with (q + 1) in Hr by lia.
      rewrite IH; [by rewrite Hr| |by rewrite insert_length| |rewrite Hr; cbn in Hlen; lia].
      * intros y Hy. apply Hin. by right.
      * rewrite drop_insert_gt by lia. replace (q + 1) with (pos + (q + 1 - pos)) by lia.
        rewrite <- !drop_drop. by rewrite Hd.
Qed.
End pos.

Lemma free_from_idxs idxs : Forall (fun i => i < length p1) idxs -> 
  free_from (omap (fun i => p1 !! i) idxs) p1 0 = filter (fun i => i ∉ idxs) (seq 0 (length p1)).
Proof.
  intros Hi. unfold free_from.
  assert (Hmem : forall i g, p1 !! i = Some g -> g ∈ omap (fun i => p1 !! i) idxs <-> i ∈ idxs).
  { intros i g Hg. rewrite elem_of_list_omap. split.
    - intros (j & Hj & Hj2). assert (i = j) as -> by (eapply lookup_inj; [apply Hsame|done..]). done.
    - intros H. exists i. done. }
  assert (Hgen : forall l pos, drop pos p1 = l -> pos + length l = length p1 ->
     omap (fun ig : nat * A => if decide (ig.2 ∈ omap (fun i => p1 !! i) idxs) then None else Some ig.1) (zip (seq pos (length l)) l) =
     filter (fun i => i ∉ idxs) (seq pos (length l))).
  { induction l as [|x l IH]; intros pos Hd Hl; [done|].
    assert (Hx : p1 !! pos = Some x) by (by rewrite <- (Nat.add_0_r pos), <- lookup_drop, Hd).
    cbn [length seq zip zip_with]. rewrite filter_cons. cbn [omap list_omap]. cbn [fst snd].
    assert (IH' := IH (S pos)). rewrite IH'; [| |cbn in Hl; lia].
    2: { rewrite <- Nat.add_1_r, <- drop_drop, Hd. done. }
    specialize (Hmem pos x Hx).
    destruct (decide (x ∈ omap (fun i => p1 !! i) idxs)); destruct (decide (pos ∉ idxs)); try done; tauto. }
  apply (Hgen p1 0); done.
Qed.

Lemma omap_reads idxs : Forall (fun i => i < length p1) idxs -> reads p1 idxs = Some (omap (fun i => p1 !! i) idxs).
Proof.
  intros H. induction idxs as [|i idxs IH]; [done|]. apply Forall_cons in H as [H1 H2].
  destruct (lookup_lt_is_Some_2 p1 i H1) as [x Hx]. unfold reads in *. cbn. rewrite Hx. cbn [mbind option_bind].
  rewrite IH by done. done.
Qed.

Lemma position_ok idxs mem next : Forall (fun i => i < length p1) idxs ->
  (forall g, g ∈ p1 -> mem g = Some (bool_decide (g ∈ omap (fun i => p1 !! i) idxs))) ->
  (forall child pos q r, length child = length p1 -> drop pos child = drop pos p1 ->
    free_from (omap (fun i => p1 !! i) idxs) (drop pos p1) pos = q :: r -> next child pos = Some q) ->
  exists c, position_loop mem next p2 0 p1 = Some c /\ position_spec p1 p2 c idxs.
Proof.
  intros Hi Hmem Hnext. set (direct := omap (fun i => p1 !! i) idxs) in *.
  assert (Hlen : length (free_from direct p1 0) = length (without direct p2)).
  { assert (H : forall l pos, length (free_from direct l pos) = length (without direct l)).
    { induction l as [|x l IH]; intros pos; [done|]. rewrite free_from_cons. unfold without. rewrite filter_cons.
      destruct (decide (x ∈ direct)); destruct (decide (x ∉ direct)); try tauto; cbn; by rewrite IH. }
    rewrite H. rewrite (without_perm direct p1 p2); [done|apply Hsame]. }
  rewrite (position_loop_ok direct mem Hmem next Hnext p2 0 p1); [|intros g; apply same_in|done|done|done].
  rewrite drop_0. eexists. split; [done|]. split; [by rewrite write_all_length|].
  rewrite <- free_from_idxs by done. fold direct. split.
  - apply write_all_keeps. intros i H. rewrite free_from_ge. intros (g & _ & Hg & Hn). rewrite Nat.sub_0_r in Hg.
    apply Hn. apply elem_of_list_omap. eauto.
  - apply write_all_ok; [apply free_from_NoDup| |done]. intros i. rewrite free_from_ge. intros (g & _ & Hg & _).
    rewrite Nat.sub_0_r in Hg. by apply lookup_lt_Some in Hg.
Qed.

Lemma position_spec_perm c idxs : Forall (fun i => i < length p1) idxs -> position_spec p1 p2 c idxs -> c ≡ₚ p1.
Proof.
  intros Hi (H1 & H2 & H3).
  eapply (filled_perm p1 p2 c (omap (fun i => p1 !! i) idxs)); [done|done|exact H2|exact H3| | | |].
  - intros i Hl. rewrite elem_of_list_filter, elem_of_seq. destruct (decide (i ∈ idxs)); [by left|]. right. split; [done|lia].
  - apply NoDup_filter. apply same_NoDup2.
  - intros g Hg. apply elem_of_list_filter in Hg as [Hg1 Hg2]. split; [by apply same_in|done].
  - intros i g Hin Hg. apply elem_of_list_omap. by exists i.
Qed.
End orders.
