(** Lemmas about the overloads for unsigned genes. *)
From Coq Require Import Lia.
From stdpp Require Import list list_numbers sets.
From Verif Require Import AlgorithmModel AlgorithmProofs CrossoverModel CrossoverSpec CrossoverProofs CrossoverCycleProofs
  CrossoverEdgeProofs.

Lemma int_perm_facts n p : int_perm n p -> length p = n /\ NoDup p /\ forall g, g ∈ p <-> g < n.
Proof.
  intros H. unfold int_perm in H. split; [|split].
  - apply Permutation_length in H. by rewrite seq_length in H.
  - rewrite H. apply NoDup_seq.
  - intros g. rewrite H, elem_of_seq. lia.
Qed.
Lemma int_perm_same n p1 p2 : int_perm n p1 -> int_perm n p2 -> same_genes p1 p2.
Proof. intros H1 H2. split; [by apply (int_perm_facts n)|]. unfold int_perm in *. by rewrite H1, H2. Qed.

(** ** isValidIntegerPermutation *)
Lemma no_repeats_ok n l : forall present, length present = n -> (forall v, v ∈ l -> present !! v = Some false) -> NoDup l ->
  no_repeats present l = Some true.
Proof.
  induction l as [|v l IH]; intros present Hn Hp Hnd; [done|]. cbn [no_repeats]. apply NoDup_cons in Hnd as [Hv Hnd].
  rewrite (Hp v) by left. cbn [mbind option_bind].
  assert (Hlt : v < n) by (rewrite <- Hn; eapply lookup_lt_Some; apply Hp; left).
  rewrite wr_ok by lia. cbn [mbind option_bind]. apply IH; [by rewrite insert_length| |done].
  intros w Hw. rewrite list_lookup_insert_ne by (intros ->; done). apply Hp. by right.
Qed.
Lemma foldr_min_le x l v : v ∈ l -> foldr Nat.min x l <= v.
Proof. induction l as [|y l IH]; intros Hv; [by apply elem_of_nil in Hv|]. cbn. apply elem_of_cons in Hv as [-> | Hv]; [lia|]. specialize (IH Hv). lia. Qed.
Lemma foldr_max_ge x l v : v ∈ l -> v <= foldr Nat.max x l.
Proof. induction l as [|y l IH]; intros Hv; [by apply elem_of_nil in Hv|]. cbn. apply elem_of_cons in Hv as [-> | Hv]; [lia|]. specialize (IH Hv). lia. Qed.
Lemma foldr_max_lt x l b : x <= b -> (forall v, v ∈ l -> v <= b) -> foldr Nat.max x l <= b.
Proof.
  intros Hx. induction l as [|y l IH]; intros Hv; [done|]. cbn. specialize (Hv y ltac:(left)) as H1.
  assert (foldr Nat.max x l <= b) by (apply IH; intros; apply Hv; by right). lia.
Qed.
Lemma valid_perm n p : int_perm n p -> isValidIntegerPermutation p = Some true.
Proof.
  intros H. destruct (int_perm_facts n p H) as (Hl & Hnd & Hin). destruct p as [|x p]; [done|].
  unfold isValidIntegerPermutation. remember (x :: p) as l eqn:El.
  assert (Hx : x ∈ l) by (subst l; left). assert (Hn : 0 < n) by (apply Hin in Hx; lia).
  assert (H0 : foldr Nat.min x l <= 0) by (apply foldr_min_le, Hin; lia).
  assert (H1 : n - 1 <= foldr Nat.max x l) by (apply foldr_max_ge, Hin; lia).
  assert (H2 : foldr Nat.max x l <= n - 1).
  { apply foldr_max_lt; [|intros v Hv]; [apply Hin in Hx; lia|apply Hin in Hv; lia]. }
  rewrite decide_True by lia. rewrite decide_True by lia. apply (no_repeats_ok (length l)).
  - apply replicate_length.
  - intros v Hv. apply lookup_replicate. split; [done|]. apply Hin in Hv. lia.
  - done.
Qed.
Lemma check_perm_ok {A} n p (k : option A) : int_perm n p -> check_perm p k = k.
Proof. intros H. unfold check_perm. by rewrite (valid_perm n). Qed.

(** ** Bitsets and tables *)
Lemma set_bits_ok gs : forall b, (forall g, g ∈ gs -> g < length b) ->
  exists b', set_bits b gs = Some b' /\ length b' = length b /\
    forall g x, b !! g = Some x -> b' !! g = Some (bool_decide (g ∈ gs) || x).
Proof.
  induction gs as [|g gs IH]; intros b Hb; cbn [set_bits].
  - exists b. split; [done|]. split; [done|]. intros g x Hx. rewrite bool_decide_eq_false_2; [done|]. apply not_elem_of_nil.
  - rewrite wr_ok by (apply Hb; left). cbn [mbind option_bind].
    destruct (IH (<[g:=true]> b)) as (b' & -> & Hl & Hg). { intros x Hx. rewrite insert_length. apply Hb. by right. }
    rewrite insert_length in Hl. exists b'. split; [done|]. split; [done|]. intros y x Hy.
    destruct (decide (y = g)) as [->|Hne].
    + rewrite (Hg g true) by (apply list_lookup_insert, Hb; left). rewrite orb_true_r.
      rewrite bool_decide_eq_true_2 by left. done.
    + rewrite (Hg y x) by (by rewrite list_lookup_insert_ne). f_equal. f_equal. apply bool_decide_ext.
      rewrite elem_of_cons. tauto.
Qed.
Lemma direct_bits n gs : (forall g, g ∈ gs -> g < n) ->
  exists b, set_bits (replicate n false) gs = Some b /\ forall g, g < n -> b !! g = Some (bool_decide (g ∈ gs)).
Proof.
  intros H. destruct (set_bits_ok gs (replicate n false)) as (b & E & _ & Hb). { intros g Hg. rewrite replicate_length. by apply H. }
  exists b. split; [done|]. intros g Hg. rewrite (Hb g false) by (by apply lookup_replicate). by rewrite orb_false_r.
Qed.

Lemma lookup_table_loop_ok c : forall i t, (forall g, g ∈ c -> g < length t) -> NoDup c ->
  exists t', lookup_table_loop c i t = Some t' /\ length t' = length t /\
    (forall k g, c !! k = Some g -> t' !! g = Some (i + k)) /\ forall g, g ∉ c -> t' !! g = t !! g.
Proof.
  induction c as [|g c IH]; intros i t Hb Hnd; cbn [lookup_table_loop].
  - exists t. split; [done|]. split; [done|]. split; [|done]. intros k g Hk. by rewrite lookup_nil in Hk.
  - apply NoDup_cons in Hnd as [Hg Hnd]. rewrite wr_ok by (apply Hb; left). cbn [mbind option_bind].
    destruct (IH (i + 1) (<[g:=i]> t)) as (t' & -> & Hl & H1 & H2); [|done|].
    { intros x Hx. rewrite insert_length. apply Hb. by right. }
    rewrite insert_length in Hl. exists t'. split; [done|]. split; [done|]. split.
    + intros [|k] x Hx; cbn in Hx.
      * injection Hx as <-. rewrite H2 by done. rewrite Nat.add_0_r. apply list_lookup_insert, Hb. left.
      * rewrite (H1 k x Hx). f_equal. lia.
    + intros x Hx. rewrite not_elem_of_cons in Hx. rewrite H2 by tauto. apply list_lookup_insert_ne. intros ->. tauto.
Qed.
Lemma lookup_table_ok n c : int_perm n c -> exists t, lookup_table c = Some t /\ forall j g, c !! j = Some g -> t !! g = Some j.
Proof.
  intros H. destruct (int_perm_facts n c H) as (Hl & Hnd & Hin).
  destruct (lookup_table_loop_ok c 0 (replicate (length c) 0)) as (t & E & _ & Ht & _); [|done|].
  { intros g Hg. rewrite replicate_length. apply Hin in Hg. lia. }
  exists t. split; [done|]. intros j g Hj. by apply (Ht j g).
Qed.
Lemma index_of_gene_ok {A} `{EqDecision A} (l : list A) j g : NoDup l -> l !! j = Some g -> index_of_gene l g = Some j.
Proof.
  intros Hnd Hj. unfold index_of_gene, index_of. pose proof (find_index_ok (fun x => bool_decide (x = g)) l) as H.
  destruct (find_index _ l) as [i|].
  - destruct H as (x & Hx & Hp & _). apply bool_decide_eq_true in Hp as ->. f_equal. by apply (lookup_inj l i j g).
  - assert (Hin : g ∈ l) by (apply elem_of_list_lookup; eauto). specialize (H g Hin). apply bool_decide_eq_false in H. done.
Qed.

Lemma next_indirect_ok is_direct direct : forall l pos, (forall g, g ∈ l -> is_direct !! g = Some (bool_decide (g ∈ direct))) ->
  exists t, next_indirect_from is_direct l pos = Some (t, head (free_from direct l pos)) /\
    forall k, k < length l -> t !! k = Some (head (free_from direct (drop k l) (pos + k))).
Proof.
  induction l as [|g l IH]; intros pos Hb; cbn [next_indirect_from].
  - exists []. split; [done|]. intros k Hk. cbn in Hk. lia.
  - destruct (IH (pos + 1)) as (t & -> & Ht). { intros x Hx. apply Hb. by right. }
    cbn [mbind option_bind]. rewrite Hb by left. cbn [mbind option_bind].
    rewrite free_from_cons. case_bool_decide as Hd.
    + rewrite (decide_True (P := g ∈ direct)) by done. eexists. split; [done|]. intros [|k] Hk.
      * cbn [lookup list_lookup drop]. rewrite Nat.add_0_r, free_from_cons, (decide_True (P := g ∈ direct)) by done. done.
      * cbn [lookup list_lookup drop]. cbn in Hk. rewrite Ht by lia. by replace (pos + 1 + k) with (pos + S k) by lia.
    + rewrite (decide_False (P := g ∈ direct)) by done. eexists. split; [done|]. intros [|k] Hk.
      * cbn [lookup list_lookup drop]. rewrite Nat.add_0_r, free_from_cons, (decide_False (P := g ∈ direct)) by done. done.
      * cbn [lookup list_lookup drop]. cbn in Hk. rewrite Ht by lia. by replace (pos + 1 + k) with (pos + S k) by lia.
Qed.

(** ** Edge crossover on four-slot lists *)
Section edge4.
Variable E n : nat.
Hypothesis HE : n <= E.
Notation live := (filter (fun x => x <> E)).

(** The table [t] represents the map [nb]. *)
Definition repr (t : list nb4) (nb : nb_map (A := nat)) : Prop :=
  length t = n /\ forall g, g < n -> exists e, t !! g = Some e /\ length (slots e) = 4 /\ live (slots e) = nb g /\
    nsize e = length (nb g).

Lemma nb4_add_slots_ok l k v : E ∉ l -> v <> E -> (v ∈ l \/ 0 < k) ->
  nb4_add_slots E (l ++ replicate k E) v = Some (if decide (v ∈ l) then (l ++ replicate k E, false) else (l ++ v :: replicate (k - 1) E, true)).
Proof.
  intros HEl Hv. induction l as [|x l IH]; intros Hk.
  - destruct Hk as [Hk | Hk]; [by apply elem_of_nil in Hk|]. destruct k as [|k]; [lia|].
    rewrite decide_False by apply not_elem_of_nil. cbn. rewrite (decide_False (P := E = v)) by congruence.
    rewrite (decide_True (P := E = E)) by done. by rewrite Nat.sub_0_r.
  - rewrite not_elem_of_cons in HEl. destruct HEl as [HEx HEl]. cbn [app nb4_add_slots].
    destruct (decide (x = v)) as [->|Hne].
    + rewrite decide_True by left. done.
    + rewrite (decide_False (P := x = E)) by congruence. rewrite IH; [|done|].
      * cbn [mbind option_bind]. destruct (decide (v ∈ l)) as [Hin|Hin].
        -- rewrite decide_True by (by right). done.
        -- rewrite decide_False by (rewrite elem_of_cons; intros [?|?]; congruence). done.
      * destruct Hk as [Hk | Hk]; [|by right]. apply elem_of_cons in Hk as [-> | Hk]; [done|by left].
Qed.

Lemma live_replicate k : live (replicate k E) = [].
Proof. induction k as [|k IH]; [done|]. cbn [replicate]. rewrite filter_cons, decide_False by tauto. done. Qed.
Lemma live_all (l : list nat) : E ∉ l -> live l = l.
Proof.
  induction l as [|x l IH]; intros H; [done|]. rewrite not_elem_of_cons in H. rewrite filter_cons, decide_True by (intros ->; tauto).
  f_equal. apply IH. tauto.
Qed.

(** While adding, the used slots come first. *)
Definition repr0 (t : list nb4) (nb : nb_map (A := nat)) : Prop :=
  length t = n /\ forall g, g < n -> E ∉ nb g /\ length (nb g) <= 4 /\
    t !! g = Some (Nb4 (nb g ++ replicate (4 - length (nb g)) E) (length (nb g))).
Lemma repr0_repr t nb : repr0 t nb -> repr t nb.
Proof.
  intros [H1 H2]. split; [done|]. intros g Hg. destruct (H2 g Hg) as (H3 & H4 & H5). eexists. split; [done|].
  cbn. split; [rewrite app_length, replicate_length; lia|]. split; [|done].
  rewrite filter_app, live_replicate, app_nil_r. by apply live_all.
Qed.

Lemma nb4_adds_ok (all : list (nat * nat)) : (forall g v, (g, v) ∈ all -> g < n /\ v < n) ->
  (forall g, exists cand : list nat, length cand <= 4 /\ forall v, (g, v) ∈ all -> v ∈ cand) ->
  forall adds t nb, (forall gv, gv ∈ adds -> gv ∈ all) -> repr0 t nb -> (forall g, NoDup (nb g)) ->
  (forall g v, v ∈ nb g -> (g, v) ∈ all) ->
  exists t', nb4_adds E t adds = Some t' /\ repr0 t' (foldl (fun nb gv => nb_add nb gv.1 gv.2) nb adds).
Proof.
  intros Hb Hcand. induction adds as [|[g v] adds IH]; intros t nb Hsub Hr Hnd Hall; cbn [nb4_adds foldl].
  - exists t. done.
  - assert (Hgv : (g, v) ∈ all) by (apply Hsub; left). destruct (Hb g v Hgv) as [Hg Hv].
    destruct Hr as [Hlt Hr]. destruct (Hr g Hg) as (HEg & H4 & Ht). rewrite Ht. cbn [mbind option_bind].
    assert (Hroom : v ∈ nb g \/ length (nb g) < 4).
    { destruct (decide (v ∈ nb g)) as [|Hn]; [by left|]. right. destruct (Hcand g) as (cand & Hc1 & Hc2).
      assert (Hsubm : nb g ++ [v] ⊆+ cand).
      { apply NoDup_submseteq.
        - apply NoDup_app. split; [done|]. split; [|apply NoDup_singleton]. intros x Hx Hx2%elem_of_list_singleton. by subst.
        - intros x. rewrite elem_of_app, elem_of_list_singleton. intros [Hx | ->]; apply Hc2; [by apply Hall|done]. }
      apply submseteq_length in Hsubm. rewrite app_length in Hsubm. cbn in Hsubm. lia. }
    unfold nb4_add. cbn [slots nsize]. rewrite check_true by lia.
    rewrite nb4_add_slots_ok; [|done|lia|destruct Hroom; [by left|right; lia]]. cbn [mbind option_bind].
    assert (Hall' : forall x y, y ∈ nb_add nb g v x -> (x, y) ∈ all).
    { intros x y. unfold nb_add. destruct (decide (v ∈ nb g)); [apply Hall|]. unfold nb_put.
      destruct (decide (x = g)) as [->|]; [|apply Hall]. rewrite elem_of_app, elem_of_list_singleton.
      intros [Hy | ->]; [by apply Hall|done]. }
    assert (Hnd' : forall x, NoDup (nb_add nb g v x)).
    { intros x. unfold nb_add. destruct (decide (v ∈ nb g)) as [|Hn]; [done|]. unfold nb_put.
      destruct (decide (x = g)) as [->|]; [|done].
      apply NoDup_app. split; [done|]. split; [|apply NoDup_singleton]. intros y Hy Hy2%elem_of_list_singleton. by subst. }
    destruct (decide (v ∈ nb g)) as [Hin|Hout].
    + cbn [mbind option_bind]. rewrite wr_ok by lia. cbn [mbind option_bind]. cbn [fst snd].
      apply IH; [intros; apply Hsub; by right| |done|done].
      unfold nb_add. rewrite decide_True by done. split; [by rewrite insert_length|]. intros x Hx.
      destruct (decide (x = g)) as [->|Hne].
      * rewrite list_lookup_insert by lia. done.
      * rewrite list_lookup_insert_ne by done. by apply Hr.
    + cbn [mbind option_bind]. rewrite wr_ok by lia. cbn [mbind option_bind]. cbn [fst snd].
      apply IH; [intros; apply Hsub; by right| |done|done].
      unfold nb_add. rewrite decide_False by done. split; [by rewrite insert_length|]. intros x Hx. unfold nb_put.
      destruct (decide (x = g)) as [->|Hne].
      * destruct Hroom as [|Hroom]; [done|]. rewrite app_length. cbn [length]. split; [|split; [lia|]].
        -- rewrite elem_of_app, elem_of_list_singleton. intros [?|?]; [done|lia].
        -- rewrite list_lookup_insert by lia. f_equal. f_equal. rewrite <- app_assoc. cbn [app]. f_equal. f_equal. f_equal. lia.
      * rewrite list_lookup_insert_ne by done. by apply Hr.
Qed.

Lemma nb4_remove_slots_ok v : v <> E -> forall l k, NoDup (live l) -> length (live l) <= k ->
  exists l' k', nb4_remove_slots E l v k = Some (l', k') /\ length l' = length l /\ live l' = filter (fun y => y <> v) (live l) /\
    k' + length (live l) = k + length (live l').
Proof.
  intros Hv. induction l as [|x l IH]; intros k Hnd Hk; cbn [nb4_remove_slots].
  - exists [], k. done.
  - rewrite filter_cons in Hnd, Hk |- *. destruct (decide (x = v)) as [->|Hne].
    + rewrite (decide_True (P := v <> E)) in * by done. apply NoDup_cons in Hnd as [Hnv Hnd]. cbn in Hk.
      rewrite check_true by lia. destruct (IH (k - 1)) as (l' & k' & -> & H1 & H2 & H3); [done|lia|]. cbn [mbind option_bind].
      exists (E :: l'), k'. split; [done|]. split; [cbn; lia|]. rewrite !filter_cons.
      rewrite (decide_False (P := E <> E)) by tauto. rewrite (decide_False (P := v <> v)) by tauto.
      split; [done|]. cbn. lia.
    + destruct (decide (x <> E)) as [HxE|HxE].
      * apply NoDup_cons in Hnd as [Hnv Hnd]. cbn in Hk.
        destruct (IH k) as (l' & k' & -> & H1 & H2 & H3); [done|lia|]. cbn [mbind option_bind].
        exists (x :: l'), k'. split; [done|]. split; [cbn; lia|]. rewrite !filter_cons.
        rewrite (decide_True (P := x <> E)) by done. rewrite (decide_True (P := x <> v)) by done.
        split; [by rewrite H2|]. cbn. lia.
      * destruct (IH k) as (l' & k' & -> & H1 & H2 & H3); [done|lia|]. cbn [mbind option_bind].
        exists (x :: l'), k'. split; [done|]. split; [cbn; lia|]. rewrite !filter_cons.
        rewrite (decide_False (P := x <> E)) by done. done.
Qed.

Lemma repr_remove t nb g v : repr t nb -> g < n -> v < n -> NoDup (nb g) ->
  exists e e', t !! g = Some e /\ nb4_remove E e v = Some e' /\ repr (<[g:=e']> t) (nb_remove nb g v).
Proof.
  intros [Hl Hr] Hg Hv Hnd. destruct (Hr g Hg) as (e & He & H4 & Hlv & Hsz).
  destruct (nb4_remove_slots_ok v ltac:(lia) (slots e) (nsize e)) as (l' & k' & Hrm & H1 & H2 & H3).
  { by rewrite Hlv. } { rewrite Hlv. lia. }
  exists e, (Nb4 l' k'). split; [done|]. unfold nb4_remove. rewrite check_true by lia. rewrite Hrm. split; [done|].
  split; [by rewrite insert_length|]. intros x Hx. rewrite nb_remove_at by done. destruct (decide (x = g)) as [->|Hne].
  - rewrite list_lookup_insert by lia. eexists. split; [done|]. cbn. split; [lia|]. rewrite Hlv in H2, H3.
    split; [done|]. rewrite H2 in H3. lia.
  - rewrite list_lookup_insert_ne by done. by apply Hr.
Qed.

(** The slot-by-slot scan does what the scan of the list does. *)
Lemma edge_scan_u_ok l e : l < n -> forall ks sl t nb next, sl = (omap (fun k => slots e !! k) ks) ->
  Forall (fun k => k < 4) ks -> length (slots e) = 4 -> NoDup (live sl) -> l ∉ live sl ->
  repr t nb -> t !! l = Some e -> (forall v, v ∈ live sl -> v < n /\ NoDup (nb v)) -> next < n ->
  exists t' nb' next', edge_scan_u E l ks t next = Some (t', next') /\ edge_scan l (live sl) nb next = Some (nb', next') /\ repr t' nb'.
Proof.
  intros Hl. induction ks as [|k ks IH]; intros sl t nb next Hsl Hks He4 Hnd Hln Hr Hte Hv Hnx; cbn [edge_scan_u].
  - subst sl. cbn. exists t, nb, next. done.
  - apply Forall_cons in Hks as [Hk Hks]. destruct (lookup_lt_is_Some_2 (slots e) k ltac:(lia)) as [v Hvk].
    cbn [omap list_omap] in Hsl. rewrite Hvk in Hsl. rewrite Hte. cbn [mbind option_bind]. rewrite Hvk. cbn [mbind option_bind].
    subst sl. rewrite filter_cons in *. destruct (decide (v = E)) as [HvE|HvE].
    + rewrite (decide_False (P := v <> E)) in * by tauto. by apply (IH _ t nb next).
    + rewrite (decide_True (P := v <> E)) in * by tauto. apply NoDup_cons in Hnd as [Hvn Hnd].
      rewrite not_elem_of_cons in Hln. destruct Hln as [Hlv Hln].
      destruct (Hv v ltac:(left)) as [Hvb Hvnd].
      destruct (repr_remove t nb v l Hr Hvb Hl Hvnd) as (ev & ev' & H1 & H2 & H3).
      rewrite H1. cbn [mbind option_bind]. rewrite H2. cbn [mbind option_bind].
      assert (Hlt : length t = n) by apply Hr. rewrite wr_ok by lia. cbn [mbind option_bind].
      pose proof H3 as [_ H3']. destruct (H3' v Hvb) as (e1 & He1 & _ & _ & Hs1). destruct (H3' next Hnx) as (e2 & He2 & _ & _ & Hs2).
      rewrite He1. cbn [mbind option_bind]. rewrite He2. cbn [mbind option_bind]. rewrite Hs1, Hs2.
      cbn [edge_scan]. rewrite (decide_False (P := v = l)) by congruence.
      apply (IH _ (<[v:=ev']> t) (nb_remove nb v l)); [done|done|done|done|done|done| | |].
      * rewrite list_lookup_insert_ne by congruence. done.
      * intros w Hw. destruct (Hv w ltac:(by right)) as [Hw1 Hw2]. split; [done|]. rewrite nb_remove_at by done.
        rewrite decide_False by (intros ->; done). done.
      * destruct (decide _); done.
Qed.

Lemma edge_loop_u_ok (p : list nat) : int_perm n p -> forall fuel child used t nb l,
  child <> [] -> last child = Some l -> NoDup child -> (forall g, g ∈ child -> g < n) ->
  length used = n -> (forall g, used !! g = Some true <-> g ∈ child) ->
  nb_inv (fun x => x < n /\ (x ∉ child \/ x = l)) nb -> repr t nb -> n <= fuel + length child ->
  exists c, edge_loop_u E fuel n child used t = Some c /\ c ≡ₚ p.
Proof.
  intros Hp. destruct (int_perm_facts n p Hp) as (Hlp & Hndp & Hinp).
  assert (Hdone : forall child, NoDup child -> (forall g, g ∈ child -> g < n) -> length child = n -> child ≡ₚ p).
  { intros child H1 H2 H3. apply perm_of_nodup; [done| |lia]. intros x Hx. apply Hinp. by apply H2. }
  induction fuel as [|fuel IH]; intros child used t nb l Hne Hlast Hnd Hin Hul Hu Hinv Hr Hf; cbn [edge_loop_u].
  - pose proof (full_of_NoDup n child Hnd Hin). rewrite decide_True by lia. exists child. split; [done|]. apply Hdone; [done|done|lia].
  - destruct (decide (length child = n)) as [Elen|Elen].
    + exists child. split; [done|]. by apply Hdone.
    + rewrite Hlast. cbn [mbind option_bind]. pose proof (full_of_NoDup n child Hnd Hin).
      destruct (not_full n child Hnd ltac:(lia)) as (i & Hi & Hic).
      pose proof (find_first_false_ok used) as Hff. remember (find_first_false used) as next eqn:En.
      assert (Hnf : used !! next = Some false).
      { apply Hff. exists i. destruct (lookup_lt_is_Some_2 used i ltac:(lia)) as [[] Hb]; [|done]. apply Hu in Hb. done. }
      assert (Hnn : next < n) by (rewrite <- Hul; by eapply lookup_lt_Some).
      assert (Hnc : next ∉ child) by (intros Hx; apply Hu in Hx; congruence).
      assert (Hlc : l ∈ child). { rewrite last_lookup in Hlast. apply elem_of_list_lookup. eauto. }
      assert (Hln : l < n) by (by apply Hin).
      destruct (Hinv l ltac:(split; [done|by right])) as [Hndl Hnbl].
      destruct Hr as [Hrl Hr']. destruct (Hr' l Hln) as (e & He & He4 & Hlive & Hsz).
      assert (Hom : omap (fun k => slots e !! k) (seq 0 4) = slots e).
      { destruct (slots e) as [|a [|b [|c [|d [|]]]]]; try done. }
      destruct (edge_scan_u_ok l e Hln (seq 0 4) (slots e) t nb next (eq_sym Hom)) as (t' & nb' & next' & H1 & H2 & H3).
      { repeat constructor. } { done. } { by rewrite Hlive. }
      { rewrite Hlive. intros Hx. destruct (Hnbl l Hx) as (_ & Hne2 & _). done. }
      { split; [done|]. done. } { done. }
      { rewrite Hlive. intros v Hv. destruct (Hnbl v Hv) as (Hv1 & _). split; [apply Hv1|]. by apply Hinv. }
      { done. }
      rewrite H1. cbn [mbind option_bind]. rewrite Hlive in H2.
      destruct (edge_step_ok _ l nb next Hinv) as (nb2 & next2 & E2 & [Hu1 Hu2] & Hu3 & Hinv' & _).
      { split; [done|by right]. } { split; [done|by left]. } { intros ->. done. }
      rewrite E2 in H2. injection H2 as -> ->.
      rewrite wr_ok by lia. cbn [mbind option_bind].
      assert (Hnc' : next' ∉ child) by tauto.
      apply (IH _ _ t' nb' next').
      * by destruct child.
      * apply last_snoc.
      * apply NoDup_app. split; [done|]. split; [|apply NoDup_singleton]. intros x Hx Hx2%elem_of_list_singleton. by subst.
      * intros g. rewrite elem_of_app, elem_of_list_singleton. intros [Hg | ->]; [by apply Hin|done].
      * by rewrite insert_length.
      * intros g. rewrite elem_of_app, elem_of_list_singleton. destruct (decide (g = next')) as [->|Hg].
        -- rewrite list_lookup_insert by lia. tauto.
        -- rewrite list_lookup_insert_ne by done. rewrite Hu. tauto.
      * assert (Himp : forall x, (x < n /\ (x ∉ child ++ [next'] \/ x = next')) <-> ((x < n /\ (x ∉ child \/ x = l)) /\ x <> l)).
        { intros x. rewrite elem_of_app, elem_of_list_singleton. split.
          - intros [K1 [K2 | ->]]; [|split; [|done]]; [|split; [done|by left]].
            split; [split; [done|left; tauto]|]. intros ->. tauto.
          - intros [[K1 [K2 | K2]] K3]; [|done]. split; [done|]. destruct (decide (x = next')); [by right|left; tauto]. }
        intros x Hx. apply Himp in Hx. destruct (Hinv' x Hx) as [K1 K2]. split; [done|].
        intros y Hy. destruct (K2 y Hy) as (K3 & K4 & K5). split; [by apply Himp|done].
      * done.
      * rewrite app_length. cbn. lia.
Qed.

Lemma adj_cand (c : list nat) g : NoDup c -> exists cand : list nat, length cand <= 2 /\ forall v, adj c g v -> v ∈ cand.
Proof.
  intros Hnd. destruct (decide (g ∈ c)) as [Hg|Hg].
  - apply elem_of_list_lookup in Hg as [i Hi].
    exists ((match i with 0 => [] | S j => option_list (c !! j) end) ++ option_list (c !! S i)).
    assert (Hol : forall o : option nat, length (option_list o) <= 1) by (intros []; cbn; lia).
    split.
    + rewrite app_length. pose proof (Hol (c !! S i)). destruct i as [|j]; [cbn [length]; lia|]. pose proof (Hol (c !! j)). lia.
    + intros v [j [[H1 H2] | [H1 H2]]]; rewrite elem_of_app.
      * assert (j = i) as -> by (by apply (lookup_inj c j i g)). right. rewrite H2. left.
      * assert (S j = i) as <- by (by apply (lookup_inj c (S j) i g)). left. rewrite H1. left.
  - exists []. split; [cbn; lia|]. intros v [i [[H1 H2] | [H1 H2]]]; exfalso; apply Hg, elem_of_list_lookup; eauto.
Qed.

Lemma edge_u_ok p1 p2 : int_perm n p1 -> int_perm n p2 -> 2 <= n -> exists c, edge_u E p1 p2 = Some c /\ c ≡ₚ p1.
Proof.
  intros Hp1 Hp2 Hn. pose proof (int_perm_same n p1 p2 Hp1 Hp2) as Hs.
  destruct (int_perm_facts n p1 Hp1) as (Hl1 & Hnd1 & Hin1). destruct (int_perm_facts n p2 Hp2) as (Hl2 & Hnd2 & Hin2).
  unfold edge_u, makeNeighbourLists_u. rewrite check_true by lia. rewrite (check_perm_ok n), (check_perm_ok n) by done.
  destruct (all_adds_ok p1 p2 ltac:(lia) ltac:(lia)) as (adds & -> & Hadds). cbn [mbind option_bind].
  assert (Hadjb : forall g v, (g, v) ∈ adds -> g < n /\ v < n).
  { intros g v Hgv. apply Hadds in Hgv as [[i [[H1 H2] | [H1 H2]]] | [i [[H1 H2] | [H1 H2]]]].
    1,2: split; apply Hin1, elem_of_list_lookup; eauto.
    1,2: split; apply Hin2, elem_of_list_lookup; eauto. }
  destruct (nb4_adds_ok adds Hadjb) with (adds := adds) (t := replicate (length p1) (nb4_new E)) (nb := fun _ : nat => @nil nat)
    as (t & -> & Ht).
  { intros g. destruct (adj_cand p1 g Hnd1) as (k1 & K1 & K2). destruct (adj_cand p2 g Hnd2) as (k2 & K3 & K4).
    exists (k1 ++ k2). split; [rewrite app_length; lia|]. intros v Hv. apply Hadds in Hv as [Hv | Hv]; apply elem_of_app; auto. }
  { done. }
  { split; [rewrite replicate_length; lia|]. intros g Hg. split; [apply not_elem_of_nil|]. split; [cbn; lia|].
    apply lookup_replicate. split; [done|lia]. }
  { intros; constructor. }
  { intros g v Hv. by apply elem_of_nil in Hv. }
  cbn [mbind option_bind].
  destruct (lookup_lt_is_Some_2 p1 0 ltac:(lia)) as [g Hg]. rewrite Hg. cbn [mbind option_bind].
  assert (Hgn : g < n) by (apply Hin1, elem_of_list_lookup; eauto).
  rewrite wr_ok by (rewrite replicate_length; lia). cbn [mbind option_bind]. rewrite Hl1.
  pose proof (nb_adds_ok adds (fun _ => []) ltac:(intros; constructor)) as Hnb. cbn in Hnb.
  remember (foldl _ _ adds) as nb eqn:Enb. destruct Hnb as [Hnd Hin].
  assert (Hinv : nb_inv (fun x => x ∈ p1) nb).
  { apply (adds_inv p1 p2 nb Hs Hnd). intros x y. rewrite Hin, elem_of_nil, Hadds. tauto. }
  apply (edge_loop_u_ok p1 Hp1 n [g] (<[g:=true]> (replicate n false)) t nb g); [done|done|apply NoDup_singleton| | | | | |].
  - intros x ->%elem_of_list_singleton. done.
  - by rewrite insert_length, replicate_length.
  - intros x. rewrite elem_of_list_singleton. destruct (decide (x = g)) as [->|Hne].
    + rewrite list_lookup_insert by (rewrite replicate_length; lia). tauto.
    + rewrite list_lookup_insert_ne by done. split; [|done]. intros H. apply lookup_replicate in H as [H _]. done.
  - assert (Himp : forall x, (x < n /\ (x ∉ [g] \/ x = g)) <-> x ∈ p1).
    { intros x. rewrite elem_of_list_singleton, Hin1. split; [tauto|]. intros H. split; [done|]. destruct (decide (x = g)); tauto. }
    intros x Hx. apply Himp in Hx. destruct (Hinv x Hx) as [H1 H2]. split; [done|]. intros y Hy. destruct (H2 y Hy) as (H3 & H4).
    split; [by apply Himp|done].
  - by apply repr0_repr.
  - cbn. lia.
Qed.
End edge4.
