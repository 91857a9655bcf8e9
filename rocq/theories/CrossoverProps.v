(** C27-C32: the point, uniform and permutation crossovers. *)
From Coq Require Import Lia.
From stdpp Require Import list list_numbers sets.
From Verif Require Import StdSort CrossoverModel CrossoverSpec CrossoverProofs CrossoverCycleProofs CrossoverPmxProofs
  CrossoverEdgeProofs CrossoverUnsignedProofs.

(** ** The generic functions *)
Section generic.
Context {A : Type} `{EqDecision A}.

Lemma in_set_mem (s l : list A) g : g ∈ l -> in_set s g = Some (bool_decide (g ∈ s)).
Proof. done. Qed.

Lemma order1_ok (p1 p2 : list A) a b : same_genes p1 p2 -> a <= b -> b <= length p1 ->
  exists c, order1 p1 p2 a b = Some c /\ order1_spec p1 p2 c a b /\ c ≡ₚ p1.
Proof.
  intros Hs Ha Hb. unfold order1. pose proof (same_length p1 p2 Hs) as Hl0. rewrite check_true by (done || lia). rewrite check_true by lia.
  rewrite reads_range by done. cbn [mbind option_bind].
  destruct (order1_body_ok p1 p2 Hs (in_set (segment p1 a b)) a b) as (c & -> & Hc); [done|done|done|].
  exists c. split; [done|]. split; [done|]. by apply (order1_spec_perm p1 p2 Hs c a b).
Qed.
Lemma order2_fun_ok (p1 p2 : list A) a b : same_genes p1 p2 -> a <= b -> b <= length p1 ->
  exists c, order2 p1 p2 a b = Some c /\ order2_spec p1 p2 c a b /\ c ≡ₚ p1.
Proof.
  intros Hs Ha Hb. unfold order2. pose proof (same_length p1 p2 Hs) as Hl0. rewrite check_true by (done || lia). rewrite check_true by lia.
  rewrite reads_range by done. cbn [mbind option_bind].
  destruct (order2_ok p1 p2 Hs (in_set (segment p1 a b)) a b) as (c & -> & Hc); [done|done|done|].
  exists c. split; [done|]. split; [done|]. by apply (order2_spec_perm p1 p2 Hs c a b).
Qed.
Lemma position_fun_ok (p1 p2 : list A) idxs : same_genes p1 p2 -> Forall (fun i => i < length p1) idxs ->
  exists c, position p1 p2 idxs = Some c /\ position_spec p1 p2 c idxs /\ c ≡ₚ p1.
Proof.
  intros Hs Hi. unfold position. pose proof (same_length p1 p2 Hs) as Hl0. rewrite check_true by (done || lia). rewrite check_true by lia.
  rewrite omap_reads by done. cbn [mbind option_bind].
  destruct (position_ok p1 p2 Hs idxs (in_set (omap (fun i => p1 !! i) idxs))
    (fun child pos => skip_kept (in_set (omap (fun i => p1 !! i) idxs)) (S (length child)) child pos)) as (c & -> & Hc); [done|done| |].
  { intros child pos q r Hl Hd E. eapply (skip_kept_ok p1 (omap (fun i => p1 !! i) idxs)); [done|done|lia|done]. }
  exists c. split; [done|]. split; [done|]. by apply (position_spec_perm p1 p2 Hs c idxs).
Qed.
Lemma cycle_fun_ok (p1 p2 : list A) : same_genes p1 p2 ->
  exists c, cycle p1 p2 = Some c /\ cycle_spec p1 p2 c /\ c.1 ≡ₚ p1 /\ c.2 ≡ₚ p1.
Proof.
  intros Hs. unfold cycle, findOddCycleIndices. pose proof (same_length p1 p2 Hs) as Hl0. rewrite check_true by lia.
  destruct (cycle_ok p1 p2 Hs (index_of_gene p1)) as (idxs & -> & H1 & H2 & H3).
  { intros j g Hj. apply index_of_gene_ok; [apply Hs|done]. }
  destruct (cycle_with_ok p1 p2 Hs idxs H1 H2 H3) as (c & -> & Hl1 & Hl2 & Hc). exists c. split; [done|]. split; [done|].
  by apply (cycle_spec_perm p1 p2).
Qed.
Lemma pmx_fun_ok (p1 p2 : list A) a b : same_genes p1 p2 -> a <= b -> b <= length p1 ->
  exists c, pmx p1 p2 a b = Some c /\ pmx_spec p1 p2 c a b /\ c ≡ₚ p1.
Proof.
  intros Hs Ha Hb. unfold pmx. pose proof (same_length p1 p2 Hs) as Hl0. rewrite check_true by lia. rewrite check_true by lia.
  pose proof (same_length p1 p2 Hs) as Hl.
  destruct (copy_at_ok p1 (range a b) p2) as (c0 & Hc0 & _). { done. } { apply Forall_forall. intros i Hi%in_range. lia. }
  rewrite Hc0. cbn [mbind option_bind]. rewrite reads_range by done. cbn [mbind option_bind].
  destruct (pmx_body_ok p1 p2 Hs a b Ha Hb (index_of_gene p2)) with (mem := in_set (segment p1 a b)) (c0 := c0)
    as (c & -> & _ & H1 & H2).
  { intros j g Hj. apply index_of_gene_ok; [|done]. by apply (same_NoDup2 p1 p2). } { done. } { done. }
  exists c. done.
Qed.
End generic.

(** ** The functions for unsigned genes equal the generic ones *)
Section unsigned.
Variables (n : nat) (p1 p2 : list nat).
Hypothesis H1 : int_perm n p1.
Hypothesis H2 : int_perm n p2.

Local Lemma lens : length p1 = n /\ length p2 = n.
Proof. split; by apply int_perm_facts. Qed.
Local Lemma seg_lt a b g : b <= n -> g ∈ segment p1 a b -> g < n.
Proof.
  intros Hb Hg. destruct lens as [L1 L2]. apply in_segment in Hg as (i & _ & Hi); [|lia].
  apply (int_perm_facts n p1 H1). apply elem_of_list_lookup. eauto.
Qed.

(** The loops only see the answers of [mem] and [index] on genes of the parents. *)
Lemma skip_direct_ext (mem mem' : nat -> option bool) : (forall g, g ∈ p2 -> mem g = mem' g) ->
  forall fuel pos, skip_direct mem fuel p2 pos = skip_direct mem' fuel p2 pos.
Proof.
  intros He. induction fuel as [|fuel IH]; intros pos; [done|]. cbn [skip_direct].
  destruct (p2 !! pos) as [g|] eqn:Eg; [|done]. cbn [mbind option_bind]. rewrite He by (apply elem_of_list_lookup; eauto).
  destruct (mem' g) as [[]|]; [|done|done]. cbn [mbind option_bind].
  destruct (next_mod pos (length p2)); [|done]. apply IH.
Qed.
Lemma order1_loop_ext (mem mem' : nat -> option bool) : (forall g, g ∈ p2 -> mem g = mem' g) ->
  forall k a b c, order1_loop mem k p2 a b c = order1_loop mem' k p2 a b c.
Proof.
  intros He. induction k as [|k IH]; intros a b c; [done|]. cbn [order1_loop]. rewrite (skip_direct_ext mem mem') by done.
  destruct (skip_direct mem' _ p2 a) as [pos|]; [|done]. cbn [mbind option_bind].
  destruct (p2 !! pos); [|done]. cbn [mbind option_bind]. destruct (wr c b _); [|done]. cbn [mbind option_bind].
  destruct (next_mod pos _); [|done]. cbn [mbind option_bind]. destruct (next_mod b _); [|done]. apply IH.
Qed.
Lemma order2_loop_ext (mem mem' : nat -> option bool) l : (forall g, g ∈ l -> mem g = mem' g) ->
  forall a b cpos c, order2_loop mem l a b cpos c = order2_loop mem' l a b cpos c.
Proof.
  induction l as [|g l IH]; intros He a b cpos c; [done|]. cbn [order2_loop]. rewrite He by left.
  assert (He' : forall g, g ∈ l -> mem g = mem' g) by (intros; apply He; by right).
  destruct (mem' g) as [[]|]; [|cbn [mbind option_bind]|done].
  - apply IH, He'.
  - destruct (wr c _ g); [|done]. apply IH, He'.
Qed.

Lemma order1_u_eq a b : a <= b -> b <= n -> order1_u p1 p2 a b = order1 p1 p2 a b.
Proof.
  intros Ha Hb. destruct lens as [L1 L2]. unfold order1_u, order1. rewrite !(check_true (a <= b /\ b <= length p1)) by lia.
  rewrite !(check_true (length p1 = length p2)) by lia. rewrite (check_perm_ok n), (check_perm_ok n) by done.
  rewrite reads_range by lia. cbn [mbind option_bind]. rewrite L1.
  destruct (direct_bits n (segment p1 a b)) as (bits & -> & Hbits). { intros g. by apply seg_lt. }
  cbn [mbind option_bind]. unfold order1_body. apply order1_loop_ext. intros g Hg. rewrite Hbits; [done|]. by apply (int_perm_facts n p2).
Qed.
Lemma order2_u_eq a b : a <= b -> b <= n -> order2_u p1 p2 a b = order2 p1 p2 a b.
Proof.
  intros Ha Hb. destruct lens as [L1 L2]. unfold order2_u, order2. rewrite !(check_true (a <= b /\ b <= length p1)) by lia.
  rewrite !(check_true (length p1 = length p2)) by lia. rewrite (check_perm_ok n), (check_perm_ok n) by done.
  rewrite reads_range by lia. cbn [mbind option_bind]. rewrite L1.
  destruct (direct_bits n (segment p1 a b)) as (bits & -> & Hbits). { intros g. by apply seg_lt. }
  cbn [mbind option_bind]. apply order2_loop_ext. intros g Hg. rewrite Hbits; [done|]. by apply (int_perm_facts n p2).
Qed.

Lemma position_u_ok idxs : Forall (fun i => i < n) idxs ->
  exists c, position_u p1 p2 idxs = Some c /\ position p1 p2 idxs = Some c.
Proof.
  intros Hi. destruct lens as [L1 L2]. pose proof (int_perm_same n p1 p2 H1 H2) as Hs.
  destruct (int_perm_facts n p1 H1) as (_ & Hnd1 & Hin1).
  unfold position_u, position. rewrite !(check_true (Forall _ idxs)) by (by rewrite L1).
  rewrite !(check_true (length p1 = length p2)) by lia. rewrite (check_perm_ok n), (check_perm_ok n) by done.
  rewrite omap_reads by (by rewrite L1). cbn [mbind option_bind].
  remember (omap (fun i => p1 !! i) idxs) as direct eqn:Ed.
  assert (Hdl : forall g, g ∈ direct -> g < n).
  { intros g Hg. subst. apply elem_of_list_omap in Hg as (i & _ & Hg). apply Hin1, elem_of_list_lookup. eauto. }
  rewrite L1. destruct (direct_bits n direct Hdl) as (bits & -> & Hbits). cbn [mbind option_bind].
  destruct (next_indirect_ok bits direct p1 0) as (t & -> & Ht). { intros g Hg. apply Hbits. by apply Hin1. }
  cbn [mbind option_bind].
  assert (Hlen : length (free_from direct (drop 0 p1) 0) = length (without direct p2)).
  { rewrite drop_0. assert (H : forall l pos, length (free_from direct l pos) = length (without direct l)).
    { induction l as [|x l IH]; intros pos; [done|]. rewrite free_from_cons. unfold without. rewrite filter_cons.
      destruct (decide (x ∈ direct)); destruct (decide (x ∉ direct)); try tauto; cbn; by rewrite IH. }
    rewrite H. rewrite (without_perm direct p1 p2); [done|apply Hs]. }
  eexists. split.
  - apply (position_loop_ok p1 direct (fun g => bits !! g)); [| |intros g; apply (same_in p1 p2 Hs)|done|done|done].
    + intros g Hg. apply Hbits. by apply Hin1.
    + intros child pos q r Hl Hd E. rewrite Ht.
      * cbn [mjoin option_join]. rewrite Nat.add_0_l, E. done.
      * destruct (decide (pos < length p1)); [done|]. rewrite drop_ge in E by lia. done.
  - apply (position_loop_ok p1 direct (in_set direct)); [done| |intros g; apply (same_in p1 p2 Hs)|done|done|done].
    intros child pos q r Hl Hd E. eapply (skip_kept_ok p1 direct); [done|done|lia|done].
Qed.

Lemma walk_cycle_ext (index index' : nat -> option nat) : (forall g, g ∈ p2 -> index g = index' g) ->
  forall fuel start odd pos s, walk_cycle fuel index p2 start odd pos s = walk_cycle fuel index' p2 start odd pos s.
Proof.
  intros He. induction fuel as [|fuel IH]; intros start odd pos s; [done|]. cbn [walk_cycle].
  destruct (p2 !! pos) as [g|] eqn:Eg; [|done]. cbn [mbind option_bind]. destruct (decide (g = start)); [done|].
  rewrite He by (apply elem_of_list_lookup; eauto). destruct (index' g); [|done]. cbn [mbind option_bind].
  destruct (visit odd _ s); [|done]. apply IH.
Qed.
Lemma cycles_ext (index index' : nat -> option nat) : (forall g, g ∈ p2 -> index g = index' g) ->
  forall fuel odd s, cycles fuel index p1 p2 odd s = cycles fuel index' p1 p2 odd s.
Proof.
  intros He. induction fuel as [|fuel IH]; intros odd s; [done|]. cbn [cycles].
  destruct (decide (s.1.2 < length p1)); [|done]. destruct (p1 !! find_first_false s.1.1); [|done]. cbn [mbind option_bind].
  destruct (visit odd _ s); [|done]. cbn [mbind option_bind]. rewrite (walk_cycle_ext index index' He).
  destruct (walk_cycle _ index' _ _ _ _ _); [|done]. apply IH.
Qed.
Lemma cycle_u_eq : cycle_u p1 p2 = cycle p1 p2.
Proof.
  destruct lens as [L1 L2]. unfold cycle_u, cycle, findOddCycleIndices_u, findOddCycleIndices.
  rewrite !(check_true (length p1 = length p2)) by lia. rewrite (check_perm_ok n), (check_perm_ok n) by done.
  destruct (lookup_table_ok n p1 H1) as (t & -> & Ht). cbn [mbind option_bind]. f_equal. apply cycles_ext.
  intros g Hg. assert (Hg1 : g ∈ p1) by (by apply (same_in p1 p2 (int_perm_same n p1 p2 H1 H2))).
  apply elem_of_list_lookup in Hg1 as [j Hj]. rewrite (Ht j g Hj). symmetry. apply index_of_gene_ok; [|done].
  by apply (int_perm_facts n p1 H1).
Qed.

Lemma pmx_chain_ext (index index' : nat -> option nat) : (forall g, g ∈ p1 -> index g = index' g) ->
  forall fuel a b pos, pmx_chain fuel index p1 a b pos = pmx_chain fuel index' p1 a b pos.
Proof.
  intros He. induction fuel as [|fuel IH]; intros a b pos; [done|]. cbn [pmx_chain]. destruct (decide _); [|done].
  destruct (p1 !! pos) as [g|] eqn:Eg; [|done]. cbn [mbind option_bind]. rewrite He by (apply elem_of_list_lookup; eauto).
  destruct (index' g); [|done]. apply IH.
Qed.
Lemma pmx_loop_ext (mem mem' : nat -> option bool) (index index' : nat -> option nat) a b :
  (forall g, g ∈ p2 -> mem g = mem' g) -> (forall g, g ∈ p1 -> index g = index' g) ->
  forall is c, pmx_loop mem index p1 p2 a b is c = pmx_loop mem' index' p1 p2 a b is c.
Proof.
  intros He Hi. induction is as [|i is IH]; intros c; [done|]. cbn [pmx_loop].
  destruct (p2 !! i) as [g|] eqn:Eg; [|done]. cbn [mbind option_bind]. rewrite He by (apply elem_of_list_lookup; eauto).
  destruct (mem' g) as [[]|]; [|cbn [mbind option_bind]|done].
  - apply IH.
  - rewrite (pmx_chain_ext index index') by done. destruct (pmx_chain _ index' _ _ _ _); [|done]. cbn [mbind option_bind].
    destruct (wr c _ g); [|done]. apply IH.
Qed.
Lemma pmx_u_eq a b : a <= b -> b <= n -> pmx_u p1 p2 a b = pmx p1 p2 a b.
Proof.
  intros Ha Hb. destruct lens as [L1 L2]. unfold pmx_u, pmx. rewrite !(check_true (a <= b /\ b <= length p1)) by lia.
  rewrite !(check_true (length p1 = length p2)) by lia. rewrite (check_perm_ok n), (check_perm_ok n) by done.
  destruct (copy_at p1 p2 (range a b)) as [c0|]; [|done]. cbn [mbind option_bind].
  rewrite reads_range by lia. cbn [mbind option_bind]. rewrite L1.
  destruct (direct_bits n (segment p1 a b)) as (bits & -> & Hbits). { intros g. by apply seg_lt. }
  cbn [mbind option_bind]. destruct (lookup_table_ok n p2 H2) as (t & -> & Ht). cbn [mbind option_bind].
  apply pmx_loop_ext.
  - intros g Hg. rewrite Hbits; [done|]. by apply (int_perm_facts n p2).
  - intros g Hg. assert (Hg2 : g ∈ p2) by (by apply (same_in p1 p2 (int_perm_same n p1 p2 H1 H2))).
    apply elem_of_list_lookup in Hg2 as [j Hj]. rewrite (Ht j g Hj). symmetry. apply index_of_gene_ok; [|done].
    by apply (int_perm_facts n p2 H2).
Qed.
End unsigned.

(** ** C27: termination and validity *)
(** The generic functions, for every gene type with decidable equality. *)
Theorem C27_generic_crossovers_permute {A : Type} `{EqDecision A} (p1 p2 : list A) :
  same_genes p1 p2 ->
  (forall a b, a <= b -> b <= length p1 -> exists c, order1 p1 p2 a b = Some c /\ c ≡ₚ p1) /\
  (forall a b, a <= b -> b <= length p1 -> exists c, order2 p1 p2 a b = Some c /\ c ≡ₚ p1) /\
  (forall idxs, Forall (fun i => i < length p1) idxs -> exists c, position p1 p2 idxs = Some c /\ c ≡ₚ p1) /\
  (exists c, cycle p1 p2 = Some c /\ c.1 ≡ₚ p1 /\ c.2 ≡ₚ p1) /\
  (2 <= length p1 -> exists c, edge p1 p2 = Some c /\ c ≡ₚ p1) /\
  (forall a b, a <= b -> b <= length p1 -> exists c, pmx p1 p2 a b = Some c /\ c ≡ₚ p1).
Proof.
  intros Hs. split_and!.
  - intros a b Ha Hb. destruct (order1_ok p1 p2 a b Hs Ha Hb) as (c & ? & _ & ?). eauto.
  - intros a b Ha Hb. destruct (order2_fun_ok p1 p2 a b Hs Ha Hb) as (c & ? & _ & ?). eauto.
  - intros idxs Hi. destruct (position_fun_ok p1 p2 idxs Hs Hi) as (c & ? & _ & ?). eauto.
  - destruct (cycle_fun_ok p1 p2 Hs) as (c & ? & _ & ? & ?). eauto.
  - intros Hn. by apply edge_ok.
  - intros a b Ha Hb. destruct (pmx_fun_ok p1 p2 a b Hs Ha Hb) as (c & ? & _ & ?). eauto.
Qed.

(** The operators of permutation.cpp, for every outcome of the random numbers (none
    are drawn for fewer than two genes). *)
Theorem C27_permutation_crossovers_permute (n : nat) (p1 p2 : list nat) :
  int_perm n p1 -> int_perm n p2 ->
  let good := fun r : option (list nat * list nat) => exists c1 c2, r = Some (c1, c2) /\ int_perm n c1 /\ int_perm n c2 in
  (forall len first, n < 2 \/ (1 <= len <= n - 1 /\ first <= n - len) ->
     good (Order1 len first p1 p2) /\ good (Order2 len first p1 p2) /\ good (PMX len first p1 p2)) /\
  (forall ns idxs, n < 2 \/ (1 <= ns <= n - 1 /\ length idxs = ns /\ NoDup idxs /\ Forall (fun i => i < n) idxs) ->
     good (Position ns idxs p1 p2)) /\
  good (Cycle p1 p2) /\
  (forall E, n <= E -> good (Edge E p1 p2)).
Proof.
  intros Hp1 Hp2 good. destruct (lens n p1 p2 Hp1 Hp2) as [L1 L2].
  pose proof (int_perm_same n p1 p2 Hp1 Hp2) as Hs12. pose proof (int_perm_same n p2 p1 Hp2 Hp1) as Hs21.
  assert (Hperm1 : forall c, c ≡ₚ p1 -> int_perm n c) by (intros c Hc; unfold int_perm in *; by rewrite Hc).
  assert (Hperm2 : forall c, c ≡ₚ p2 -> int_perm n c) by (intros c Hc; unfold int_perm in *; by rewrite Hc).
  assert (Hpair : forall f : list nat -> list nat -> option (list nat),
    (exists c, f p1 p2 = Some c /\ c ≡ₚ p1) -> (exists c, f p2 p1 = Some c /\ c ≡ₚ p2) -> good (pair_of f p1 p2)).
  { intros f (c1 & E1 & K1) (c2 & E2 & K2). unfold good, pair_of. rewrite E1. cbn [mbind option_bind]. rewrite E2.
    cbn [mbind option_bind]. exists c1, c2. eauto. }
  assert (Hsmall : good (Some (p1, p2))) by (exists p1, p2; done).
  split_and!.
  - intros len first Hr.
    assert (Hseg : forall f, (2 <= n -> forall q1 q2, int_perm n q1 -> int_perm n q2 -> exists c, f q1 q2 first (first + len) = Some c /\ c ≡ₚ q1) ->
       good (segment_crossover f len first p1 p2)).
    { intros f Hfn. unfold segment_crossover. rewrite check_true by lia. cbn zeta. rewrite L1. destruct (decide (n < 2)) as [|Hn]; [done|].
      unfold randomInt. rewrite !check_true by lia. apply Hpair; apply Hfn; (done || lia). }
    split_and!.
    + apply Hseg. intros Hn q1 q2 K1 K2. rewrite (order1_u_eq n q1 q2 K1 K2) by lia.
      destruct (lens n q1 q2 K1 K2).
      destruct (order1_ok q1 q2 first (first + len) (int_perm_same n _ _ K1 K2)) as (c & ? & _ & ?); [lia|lia|eauto].
    + apply Hseg. intros Hn q1 q2 K1 K2. rewrite (order2_u_eq n q1 q2 K1 K2) by lia.
      destruct (lens n q1 q2 K1 K2).
      destruct (order2_fun_ok q1 q2 first (first + len) (int_perm_same n _ _ K1 K2)) as (c & ? & _ & ?); [lia|lia|eauto].
    + apply Hseg. intros Hn q1 q2 K1 K2. rewrite (pmx_u_eq n q1 q2 K1 K2) by lia.
      destruct (lens n q1 q2 K1 K2).
      destruct (pmx_fun_ok q1 q2 first (first + len) (int_perm_same n _ _ K1 K2)) as (c & ? & _ & ?); [lia|lia|eauto].
  - intros ns idxs Hr. unfold Position. rewrite check_true by lia. cbn zeta. rewrite L1. destruct (decide (n < 2)) as [|Hn]; [done|].
    destruct Hr as [|(Hn1 & Hlen & Hnd & Hi)]; [done|].
    unfold randomInt. rewrite check_true by lia. rewrite check_true by done. apply Hpair.
    + destruct (position_u_ok n p1 p2 Hp1 Hp2 idxs Hi) as (c & -> & Hc). exists c. split; [done|].
      destruct (position_fun_ok p1 p2 idxs Hs12) as (c' & Hc' & _ & Hper); [by rewrite L1|]. congruence.
    + destruct (position_u_ok n p2 p1 Hp2 Hp1 idxs Hi) as (c & -> & Hc). exists c. split; [done|].
      destruct (position_fun_ok p2 p1 idxs Hs21) as (c' & Hc' & _ & Hper); [by rewrite L2|]. congruence.
  - unfold Cycle. rewrite check_true by lia. destruct (decide (length p1 < 2)); [done|].
    rewrite (cycle_u_eq n p1 p2 Hp1 Hp2). destruct (cycle_fun_ok p1 p2 Hs12) as ([c1 c2] & -> & _ & K1 & K2).
    exists c1, c2. split; [done|]. split; by apply Hperm1.
  - intros E HE. unfold Edge. rewrite check_true by lia. destruct (decide (length p1 < 2)); [done|].
    apply Hpair.
    + apply (edge_u_ok E n HE); [done|done|lia].
    + apply (edge_u_ok E n HE); [done|done|lia].
Qed.
Print Assumptions C27_generic_crossovers_permute.
Print Assumptions C27_permutation_crossovers_permute.

Definition ex1 : list nat := [3; 0; 4; 1; 2; 5].
Definition ex2 : list nat := [1; 5; 2; 0; 4; 3].
Lemma ex_perm : int_perm 6 ex1 /\ int_perm 6 ex2.
Proof.
  assert (H : forall l : list nat, length l = 6 -> NoDup l -> (forall x, x ∈ l -> x < 6) -> int_perm 6 l).
  { intros l Hl Hnd Hx. unfold int_perm. apply submseteq_Permutation_length_eq; [by rewrite seq_length|].
    apply NoDup_submseteq; [done|]. intros x Hx'. apply elem_of_seq. specialize (Hx x Hx'). lia. }
  split; apply H; [done| | |done| |].
  1, 3: apply (bool_decide_unpack (NoDup _)); vm_compute; exact I.
  all: intros x Hx; apply (proj1 (Forall_forall (fun x => x < 6) _)) with (x := x) in Hx; [done|]; repeat constructor.
Qed.
Example C27_permutation_crossovers_permute_nonvacuous :
  int_perm 6 ex1 /\ int_perm 6 ex2 /\
  Order1 2 1 ex1 ex2 = Some ([2; 0; 4; 3; 1; 5], [4; 5; 2; 1; 3; 0]) /\
  Order2 2 1 ex1 ex2 = Some ([1; 0; 4; 5; 2; 3], [3; 5; 2; 0; 4; 1]) /\
  PMX 2 1 ex1 ex2 = Some ([1; 0; 4; 5; 2; 3], [3; 5; 2; 1; 4; 0]) /\
  Position 2 [4; 1] ex1 ex2 = Some ([1; 0; 5; 4; 2; 3], [3; 5; 0; 1; 4; 2]) /\
  Cycle ex1 ex2 = Some ([3; 0; 2; 1; 4; 5], [1; 5; 4; 0; 2; 3]) /\
  Edge 255 ex1 ex2 = Some ([3; 4; 0; 2; 1; 5], [1; 5; 2; 0; 4; 3]).
Proof. split_and!; try apply ex_perm. all: vm_compute. all: reflexivity. Qed.

(** ** C28: the order crossovers keep the segment and the order *)
Theorem C28_order_crossovers {A : Type} `{EqDecision A} (p1 p2 : list A) :
  same_genes p1 p2 ->
  (forall a b, a <= b -> b <= length p1 ->
     (exists c, order1 p1 p2 a b = Some c /\ order1_spec p1 p2 c a b) /\
     (exists c, order2 p1 p2 a b = Some c /\ order2_spec p1 p2 c a b)) /\
  (forall idxs, Forall (fun i => i < length p1) idxs -> exists c, position p1 p2 idxs = Some c /\ position_spec p1 p2 c idxs).
Proof.
  intros Hs. split.
  - intros a b Ha Hb. split.
    + destruct (order1_ok p1 p2 a b Hs Ha Hb) as (c & ? & ? & _). eauto.
    + destruct (order2_fun_ok p1 p2 a b Hs Ha Hb) as (c & ? & ? & _). eauto.
  - intros idxs Hi. destruct (position_fun_ok p1 p2 idxs Hs Hi) as (c & ? & ? & _). eauto.
Qed.
Print Assumptions C28_order_crossovers.
Example C28_order_crossovers_nonvacuous :
  same_genes ex1 ex2 /\ Forall (fun i => i < length ex1) [4; 1] /\
  order1 ex1 ex2 1 3 = Some [2; 0; 4; 3; 1; 5] /\ order2 ex1 ex2 1 3 = Some [1; 0; 4; 5; 2; 3] /\
  position ex1 ex2 [4; 1] = Some [1; 0; 5; 4; 2; 3] /\
  (* a segment that reaches the end, an empty segment and the whole chromosome *)
  order1 ex1 ex2 4 6 = Some [1; 0; 4; 3; 2; 5] /\ order2 ex1 ex2 2 2 = Some ex2 /\ order1 ex1 ex2 0 6 = Some ex1.
Proof.
  split_and!.
  - apply (int_perm_same 6); apply ex_perm.
  - repeat constructor; cbn; lia.
  - vm_compute. done.
  - vm_compute. done.
  - vm_compute. done.
  - vm_compute. done.
  - vm_compute. done.
  - vm_compute. done.
Qed.

(** ** C29: generic and specialised functions agree *)
Theorem C29_specialised_crossovers_agree (n : nat) (p1 p2 : list nat) :
  int_perm n p1 -> int_perm n p2 ->
  (forall a b, a <= b -> b <= n ->
     order1_u p1 p2 a b = order1 p1 p2 a b /\ order2_u p1 p2 a b = order2 p1 p2 a b /\ pmx_u p1 p2 a b = pmx p1 p2 a b /\
     is_Some (order1 p1 p2 a b) /\ is_Some (order2 p1 p2 a b) /\ is_Some (pmx p1 p2 a b)) /\
  (forall idxs, Forall (fun i => i < n) idxs -> position_u p1 p2 idxs = position p1 p2 idxs /\ is_Some (position p1 p2 idxs)) /\
  cycle_u p1 p2 = cycle p1 p2 /\ is_Some (cycle p1 p2).
Proof.
  intros Hp1 Hp2. destruct (lens n p1 p2 Hp1 Hp2) as [L1 L2]. pose proof (int_perm_same n p1 p2 Hp1 Hp2) as Hs.
  split_and!.
  - intros a b Ha Hb. rewrite <- L1 in Hb. split_and!.
    + apply (order1_u_eq n); [done|done|done|lia].
    + apply (order2_u_eq n); [done|done|done|lia].
    + apply (pmx_u_eq n); [done|done|done|lia].
    + destruct (order1_ok p1 p2 a b Hs Ha Hb) as (c & -> & _). eauto.
    + destruct (order2_fun_ok p1 p2 a b Hs Ha Hb) as (c & -> & _). eauto.
    + destruct (pmx_fun_ok p1 p2 a b Hs Ha Hb) as (c & -> & _). eauto.
  - intros idxs Hi. destruct (position_u_ok n p1 p2 Hp1 Hp2 idxs Hi) as (c & -> & ->). eauto.
  - by apply (cycle_u_eq n).
  - destruct (cycle_fun_ok p1 p2 Hs) as (c & -> & _). eauto.
Qed.
Print Assumptions C29_specialised_crossovers_agree.
Example C29_specialised_crossovers_agree_nonvacuous :
  int_perm 6 ex1 /\ int_perm 6 ex2 /\ order1_u ex1 ex2 1 3 = order1 ex1 ex2 1 3 /\
  pmx_u ex1 ex2 1 3 = Some [1; 0; 4; 5; 2; 3] /\ cycle_u ex1 ex2 = Some ([3; 0; 2; 1; 4; 5], [1; 5; 4; 0; 2; 3]).
Proof. split_and!; try apply ex_perm. all: vm_compute. all: reflexivity. Qed.

(** ** C30: cycle crossover *)
Theorem C30_cycle_crossover {A : Type} `{EqDecision A} (p1 p2 : list A) :
  same_genes p1 p2 -> exists c, cycle p1 p2 = Some c /\ cycle_spec p1 p2 c.
Proof. intros Hs. destruct (cycle_fun_ok p1 p2 Hs) as (c & ? & ? & _). eauto. Qed.
Print Assumptions C30_cycle_crossover.
Example C30_cycle_crossover_nonvacuous :
  same_genes ex1 ex2 /\ cycle ex1 ex2 = Some ([3; 0; 2; 1; 4; 5], [1; 5; 4; 0; 2; 3]).
Proof. split; [apply (int_perm_same 6); apply ex_perm|]. vm_compute. done. Qed.

(** ** C31: PMX *)
Theorem C31_pmx_crossover {A : Type} `{EqDecision A} (p1 p2 : list A) a b :
  same_genes p1 p2 -> a <= b -> b <= length p1 -> exists c, pmx p1 p2 a b = Some c /\ pmx_spec p1 p2 c a b.
Proof. intros Hs Ha Hb. destruct (pmx_fun_ok p1 p2 a b Hs Ha Hb) as (c & ? & ? & _). eauto. Qed.
Print Assumptions C31_pmx_crossover.
Example C31_pmx_crossover_nonvacuous :
  same_genes ex1 ex2 /\ pmx ex1 ex2 1 3 = Some [1; 0; 4; 5; 2; 3] /\ pmx ex1 ex2 2 5 = Some [0; 5; 4; 1; 2; 3].
Proof. split; [apply (int_perm_same 6); apply ex_perm|]. vm_compute. done. Qed.

(** ** C32: the point and uniform crossovers *)
(** For n-point crossover the first child starts as a copy of the second parent, so it
    has the first parent's genes where the number of points is odd. *)
Theorem C32_n_point_crossover {A : Type} (sort : (nat -> nat -> bool) -> list nat -> list nat) (p1 p2 : list A) (pts : list nat) :
  sort_contract sort -> length p1 = length p2 -> Forall (fun p => p <= length p1) pts ->
  exists c, nPoint sort p1 p2 pts = Some c /\ mixed p1 p2 c (fun i => negb (Nat.odd (points_upto pts i))).
Proof.
  intros Hsort Hl Hb. unfold nPoint. rewrite !check_true by done. destruct (Hsort Nat.ltb pts (ltb_swo pts)) as [Hp Hs].
  cbn zeta. remember (sort Nat.ltb pts) as s eqn:Es. assert (Hbs : Forall (fun p => p <= length p1) s) by (by rewrite <- Hp).
  remember (if Nat.odd (length s) then s ++ [length p1] else s) as s' eqn:Es'.
  assert (Hs' : sorted_by Nat.ltb s' /\ Forall (fun p => p <= length p2) s' /\ (exists k, length s' = 2 * k) /\
    forall i, i < length p1 -> points_upto s' i = points_upto pts i).
  { destruct (Nat.odd (length s)) eqn:Eo; subst s'.
    - split; [by apply sorted_snoc|]. split; [rewrite Forall_app; split; [by rewrite <- Hl|]; repeat constructor; lia|]. split.
      + apply Nat.odd_spec in Eo as [k Hk]. exists (k + 1). rewrite app_length. cbn. lia.
      + intros i Hi. rewrite points_upto_snoc by done. symmetry. by apply points_upto_perm.
    - split; [done|]. split; [by rewrite <- Hl|]. split.
      + rewrite <- Nat.negb_even in Eo. apply negb_false_iff, Nat.even_spec in Eo as [k Hk]. eauto.
      + intros i Hi. symmetry. by apply points_upto_perm. }
  destruct Hs' as (Hs1 & Hs2 & [k Hk] & Hs4).
  destruct (swap_ranges_ok k s' (p2, p1)) as (c & -> & Hc1 & Hc2 & Hc3); [done|cbn; lia|done|done|].
  exists c. split; [done|]. cbn in Hc1, Hc2, Hc3.
  apply (mixed_ext p1 p2 c (fun i => negb (Nat.odd (points_upto s' i)))); [|intros i Hi; by rewrite Hs4|lia|lia|lia].
  intros i. destruct (Hc3 i) as [-> ->]. by destruct (Nat.odd (points_upto s' i)).
Qed.
(** Single-point crossover swaps before the point, two-point crossover between the
    points, uniform crossover at the chosen positions. *)
Theorem C32_point_and_uniform_crossovers {A : Type} (p1 p2 : list A) :
  length p1 = length p2 ->
  (forall pt, pt <= length p1 -> exists c, singlePoint p1 p2 pt = Some c /\ mixed p1 p2 c (fun i => bool_decide (i < pt))) /\
  (forall a b, a <= length p1 -> b <= length p1 ->
     exists c, twoPoint p1 p2 (a, b) = Some c /\ mixed p1 p2 c (fun i => Nat.odd (points_upto [a; b] i))) /\
  (forall idxs, NoDup idxs -> Forall (fun i => i < length p1) idxs ->
     exists c, uniform p1 p2 idxs = Some c /\ mixed p1 p2 c (fun i => bool_decide (i ∈ idxs))).
Proof.
  intros Hl. split_and!.
  - intros pt Hpt. unfold singlePoint. rewrite !check_true by done.
    destruct (swap_all_ok (range 0 pt) (p1, p2)) as (c & -> & Hc1 & Hc2 & Hc3);
      [apply NoDup_seq|apply Forall_forall; intros i Hi%in_range; cbn; lia|done|].
    exists c. split; [done|]. cbn in *. apply (mixed_ext p1 p2 c _ _ Hc3); [|lia..]. intros i Hi.
    apply bool_decide_ext. rewrite in_range. lia.
  - intros a b Ha Hb. unfold twoPoint. rewrite !check_true by done. cbn [fst snd].
    assert (H : forall x y, x <= y -> y <= length p1 -> (forall i, points_upto [a; b] i = points_upto [x; y] i) ->
      exists c, swap_all (p1, p2) (range x y) = Some c /\ mixed p1 p2 c (fun i => Nat.odd (points_upto [a; b] i))).
    { intros x y Hx Hy He. destruct (swap_all_ok (range x y) (p1, p2)) as (c & -> & Hc1 & Hc2 & Hc3);
        [apply NoDup_seq|apply Forall_forall; intros i Hi%in_range; cbn; lia|done|].
      exists c. split; [done|]. cbn in Hc1, Hc2, Hc3. apply (mixed_ext p1 p2 c _ _ Hc3); [|lia..]. intros i Hi. rewrite He.
      unfold points_upto. rewrite !filter_cons. repeat destruct (decide (_ <= i)); cbn;
        (rewrite bool_decide_eq_true_2 by (rewrite in_range; lia)) || (rewrite bool_decide_eq_false_2 by (rewrite in_range; lia)); done. }
    destruct (decide (b < a)).
    + apply H; [lia|lia|]. intros i. apply points_upto_perm, Permutation_swap.
    + apply H; [lia|lia|done].
  - intros idxs Hnd Hb. unfold uniform. rewrite !check_true by done.
    destruct (swap_all_ok idxs (p1, p2)) as (c & -> & _ & _ & Hc3); [done|done|done|]. eauto.
Qed.
Print Assumptions C32_n_point_crossover.
Print Assumptions C32_point_and_uniform_crossovers.
Example C32_point_crossovers_nonvacuous :
  sort_contract (@isort nat) /\
  nPoint isort [1;2;3;4;5;6] [11;12;13;14;15;16] [4; 1; 5] = Some ([11;2;3;4;15;6], [1;12;13;14;5;16]) /\
  singlePoint [1;2;3] [11;12;13] 2 = Some ([11;12;3], [1;2;13]) /\
  twoPoint [1;2;3;4] [11;12;13;14] (3, 1) = Some ([1;12;13;4], [11;2;3;14]) /\
  uniform [1;2;3] [11;12;13] [2; 0] = Some ([11;2;13], [1;12;3]).
Proof. split; [exact isort_contract|]. vm_compute. done. Qed.
