(** Lemmas about the point crossovers, cycle crossover and PMX. *)
From Coq Require Import Lia.
From stdpp Require Import list list_numbers sets.
From Verif Require Import StdSort AlgorithmModel AlgorithmProofs AlgorithmSpec CrossoverModel CrossoverSpec CrossoverProofs.

(** ** Swapping genes at a set of positions *)
Section swaps.
Context {A : Type}.
Implicit Types (c : list A * list A).

Definition swapped (c c' : list A * list A) (sw : nat -> bool) : Prop :=
  length c'.1 = length c.1 /\ length c'.2 = length c.2 /\ mixed c.1 c.2 c' sw.

Lemma swap_at_ok c i : i < length c.1 -> length c.1 = length c.2 ->
  exists c', swap_at c i = Some c' /\ swapped c c' (fun j => bool_decide (j = i)).
Proof.
  intros Hi Hl. unfold swap_at.
  destruct (lookup_lt_is_Some_2 c.1 i Hi) as [x Hx]. destruct (lookup_lt_is_Some_2 c.2 i ltac:(lia)) as [y Hy].
  rewrite Hx. cbn [mbind option_bind]. rewrite Hy. cbn [mbind option_bind]. rewrite wr_ok by lia. cbn [mbind option_bind].
  rewrite wr_ok by lia. cbn [mbind option_bind]. eexists. split; [done|].
  split; [apply insert_length|]. split; [apply insert_length|]. intros j. cbn. case_bool_decide as E.
  - subst. rewrite !list_lookup_insert by lia. done.
  - rewrite !list_lookup_insert_ne by done. done.
Qed.

Lemma swap_all_ok is : forall c, NoDup is -> Forall (fun i => i < length c.1) is -> length c.1 = length c.2 ->
  exists c', swap_all c is = Some c' /\ swapped c c' (fun j => bool_decide (j ∈ is)).
Proof.
  induction is as [|i is IH]; intros c Hnd Hb Hl; cbn [swap_all].
  - exists c. split; [done|]. split; [done|]. split; [done|]. intros j. rewrite bool_decide_eq_false_2; [done|]. apply not_elem_of_nil.
  - apply NoDup_cons in Hnd as [Hi Hnd]. apply Forall_cons in Hb as [Hb1 Hb2].
    destruct (swap_at_ok c i Hb1 Hl) as (c1 & -> & H1 & H2 & H3). cbn [mbind option_bind].
    destruct (IH c1 Hnd) as (c2 & -> & H4 & H5 & H6); [by rewrite H1|lia|].
    exists c2. split; [done|]. split; [lia|]. split; [lia|]. intros j. destruct (H3 j) as [A1 A2]. destruct (H6 j) as [B1 B2].
    rewrite B1, B2, A1, A2. case_bool_decide as E1; case_bool_decide as E2; case_bool_decide as E3; try done; set_solver.
Qed.

Lemma mixed_ext (p1 p2 : list A) c sw sw' : mixed p1 p2 c sw -> (forall i, i < length p1 -> sw i = sw' i) ->
  length p1 = length p2 -> length c.1 = length p1 -> length c.2 = length p1 -> mixed p1 p2 c sw'.
Proof.
  intros H E Hl Hc1 Hc2 i. destruct (decide (i < length p1)) as [Hi|Hi].
  - rewrite <- E by done. apply H.
  - rewrite !lookup_ge_None_2 by lia. by destruct (sw' i).
Qed.

(** Positions of the pairwise ranges of a sorted list of points. *)
Lemma swap_ranges_ok : forall n pts c, length pts = 2 * n -> length c.1 = length c.2 ->
  Forall (fun p => p <= length c.1) pts -> sorted_by Nat.ltb pts ->
  exists c', swap_ranges c pts = Some c' /\ swapped c c' (fun i => Nat.odd (points_upto pts i)).
Proof.
  induction n as [|n IH]; intros pts c Hn Hl Hb Hs.
  - apply nil_length_inv in Hn as ->. exists c. done.
  - destruct pts as [|a [|b pts]]; cbn in Hn; try lia. cbn [swap_ranges].
    apply Forall_cons in Hb as [Ha Hb]. apply Forall_cons in Hb as [Hb Hbs].
    apply sorted_by_cons in Hs as [Hsa Hs]. apply sorted_by_cons in Hs as [Hsb Hs].
    assert (Hab : a <= b). { specialize (Hsa b ltac:(left)). apply Nat.ltb_ge in Hsa. done. }
    assert (Hbp : forall p, p ∈ pts -> b <= p). { intros p Hp. specialize (Hsb p Hp). by apply Nat.ltb_ge in Hsb. }
    destruct (swap_all_ok (range a b) c) as (c1 & -> & H1 & H2 & H3); [apply NoDup_seq| |done|].
    { apply Forall_forall. intros i Hi%in_range. lia. }
    cbn [mbind option_bind]. destruct (IH pts c1) as (c2 & -> & H4 & H5 & H6); [lia|lia|by rewrite H1|done|].
    exists c2. split; [done|]. split; [lia|]. split; [lia|]. intros i.
    destruct (H3 i) as [A1 A2]. destruct (H6 i) as [B1 B2]. rewrite B1, B2, A1, A2.
    assert (Hlow : i < b -> points_upto pts i = 0).
    { intros Hi. unfold points_upto. replace (filter (fun p => p <= i) pts) with (@nil nat); [done|].
      symmetry. clear -Hbp Hi. induction pts as [|p pts IH]; [done|].
      rewrite filter_cons. rewrite decide_False.
      - apply IH. intros q Hq. apply Hbp. by right.
      - specialize (Hbp p ltac:(left)). lia. }
    unfold points_upto in *. rewrite !filter_cons.
    destruct (decide (i < a)); [|destruct (decide (i < b))].
    + rewrite bool_decide_eq_false_2 by (rewrite in_range; lia).
      rewrite (decide_False (P := a <= i)), (decide_False (P := b <= i)) by lia. rewrite Hlow by lia. done.
    + rewrite bool_decide_eq_true_2 by (apply in_range; lia).
      rewrite (decide_True (P := a <= i)), (decide_False (P := b <= i)) by lia. cbn [length]. rewrite Hlow by lia. done.
    + rewrite bool_decide_eq_false_2 by (rewrite in_range; lia).
      rewrite (decide_True (P := a <= i)), (decide_True (P := b <= i)) by lia. cbn [length].
      rewrite !Nat.odd_succ, Nat.even_succ. done.
Qed.
End swaps.

Lemma points_upto_perm l k i : l ≡ₚ k -> points_upto l i = points_upto k i.
Proof. intros H. unfold points_upto. by rewrite H. Qed.
Lemma points_upto_snoc l n i : i < n -> points_upto (l ++ [n]) i = points_upto l i.
Proof.
  intros H. unfold points_upto. rewrite filter_app, app_length.
  rewrite filter_cons, decide_False by lia. cbn. lia.
Qed.
Lemma sorted_snoc l n : sorted_by Nat.ltb l -> Forall (fun p => p <= n) l -> sorted_by Nat.ltb (l ++ [n]).
Proof.
  intros Hs Hb i j x y Hij Hi Hj.
  assert (Hjl : j < length (l ++ [n])) by (eapply lookup_lt_Some; eauto). rewrite app_length in Hjl. cbn in Hjl.
  rewrite lookup_app_l in Hi by lia.
  apply Nat.ltb_ge. apply lookup_app_Some in Hj as [Hj | [Hj1 Hj2]].
  - pose proof (Hs i j x y Hij Hi Hj). by apply Nat.ltb_ge.
  - rewrite Forall_forall in Hb. destruct (j - length l); cbn in Hj2; [|done]. injection Hj2 as <-.
    apply Hb, elem_of_list_lookup. eauto.
Qed.
Lemma ltb_swo (l : list nat) : swo_on Nat.ltb l.
Proof.
  split.
  - intros x _. apply Nat.ltb_irrefl.
  - intros x y z _ _ _. rewrite !Nat.ltb_lt. lia.
  - intros x y z _ _ _. rewrite !Nat.ltb_ge. lia.
Qed.

(** ** Cycle crossover *)
Lemma find_first_false_ok (b : list bool) : (exists i, b !! i = Some false) -> b !! find_first_false b = Some false.
Proof.
  induction b as [|[] b IH]; cbn; intros [i Hi]; [done| |done]. apply IH. destruct i as [|i]; [done|]. eauto.
Qed.
Lemma full_of_NoDup n (V : list nat) : NoDup V -> (forall i, i ∈ V -> i < n) -> length V <= n.
Proof.
  intros H1 H2. rewrite <- (seq_length n 0). apply submseteq_length. apply NoDup_submseteq; [done|].
  intros i Hi. apply elem_of_seq. specialize (H2 i Hi). lia.
Qed.
Lemma not_full n (V : list nat) : NoDup V -> length V < n -> exists i, i < n /\ i ∉ V.
Proof.
  intros H1 H2. destruct (decide (Forall (fun i => i ∈ V) (seq 0 n))) as [H|H].
  - exfalso. assert (seq 0 n ⊆+ V). { apply NoDup_submseteq; [apply NoDup_seq|]. by apply Forall_forall. }
    apply submseteq_length in H0. rewrite seq_length in H0. lia.
  - apply not_Forall_Exists in H; [|intros; apply _]. apply Exists_exists in H as (i & Hi & Hn). apply elem_of_seq in Hi.
    exists i. split; [lia|done].
Qed.

Section cycle.
Context {A : Type} `{EqDecision A}.
Variables (p1 p2 : list A).
Hypothesis Hsame : same_genes p1 p2.
Notation n := (length p1).
Variable index : A -> option nat.
Hypothesis Hindex : forall j g, p1 !! j = Some g -> index g = Some j.

(** [j] follows [i] on its cycle. *)
Definition follows (i j : nat) : Prop := exists g, p2 !! i = Some g /\ p1 !! j = Some g.
Definition closed (V : list nat) : Prop := forall i j, follows i j -> i ∈ V <-> j ∈ V.

Lemma follows_det i j k : follows i j -> follows i k -> j = k.
Proof. intros (g & H1 & H2) (g' & H3 & H4). assert (g = g') as -> by congruence. eapply lookup_inj; [apply Hsame|done..]. Qed.
Lemma follows_inj i j k : follows i k -> follows j k -> i = j.
Proof. intros (g & H1 & H2) (g' & H3 & H4). assert (g = g') as -> by congruence. eapply lookup_inj; [|done..]. by apply (same_NoDup2 p1 p2). Qed.
Lemma follows_ex i : i < n -> exists j, follows i j.
Proof.
  intros Hi. destruct (lookup_lt_is_Some_2 p2 i) as [g Hg]. { by rewrite <- (same_length p1 p2). }
  assert (Hin : g ∈ p1). { apply (same_in p1 p2 Hsame). apply elem_of_list_lookup. eauto. }
  apply elem_of_list_lookup in Hin as [j Hj]. exists j, g. done.
Qed.

(** A list of consecutive positions of one cycle. *)
Definition path (P : list nat) : Prop := forall k a b, P !! k = Some a -> P !! S k = Some b -> follows a b.

Definition in_state (V O : list nat) (s : cycle_state) : Prop :=
  length s.1.1 = n /\ (forall i, s.1.1 !! i = Some true <-> i ∈ V) /\ s.1.2 = length V /\ s.2 = O /\
  NoDup V /\ (forall i, i ∈ V -> i < n).

Lemma visit_ok V O s (odd : bool) pos : in_state V O s -> pos < n -> pos ∉ V ->
  exists s', visit odd pos s = Some s' /\ in_state (V ++ [pos]) (if odd then O ++ [pos] else O) s'.
Proof.
  intros (H1 & H2 & H3 & H4 & H5 & H6) Hp Hn. unfold visit. rewrite wr_ok by lia. cbn [mbind option_bind].
  eexists. split; [done|]. unfold in_state. cbn. split; [by rewrite insert_length|]. split; [|split; [|split; [|split]]].
  - intros i. rewrite elem_of_app, elem_of_list_singleton. destruct (decide (i = pos)) as [->|Hne].
    + rewrite list_lookup_insert by lia. tauto.
    + rewrite list_lookup_insert_ne by done. rewrite H2. tauto.
  - rewrite app_length. cbn. lia.
  - by rewrite H4.
  - apply NoDup_app. split; [done|]. split; [|apply NoDup_singleton]. intros i Hi Hi2%elem_of_list_singleton. by subst.
  - intros i. rewrite elem_of_app, elem_of_list_singleton. intros [Hi | ->]; [by apply H6|done].
Qed.

Lemma path_snoc P x j : path (P ++ [x]) -> follows x j -> path (P ++ [x] ++ [j]).
Proof.
  intros HP Hf k a b Ha Hb. rewrite app_assoc in Ha, Hb.
  apply lookup_app_Some in Hb as [Hb | [Hb1 Hb2]].
  - pose proof (lookup_lt_Some _ _ _ Hb). rewrite lookup_app_l in Ha by lia. eapply HP; eauto.
  - rewrite app_length in *. cbn in *.
    assert (E : S k - (length P + 1) = 0). { apply lookup_lt_Some in Hb2. cbn in Hb2. lia. }
    rewrite E in Hb2. cbn in Hb2. injection Hb2 as <-.
    rewrite lookup_app_l in Ha by (rewrite app_length; cbn; lia).
    assert (k = length P) as -> by lia. rewrite (list_lookup_middle P [] x (length P)) in Ha by done. by injection Ha as <-.
Qed.

Lemma path_closed P x p0 : path (P ++ [x]) -> (P ++ [x]) !! 0 = Some p0 -> follows x p0 -> closed (P ++ [x]).
Proof.
  intros HP H0 Hx i j Hij. split.
  - intros Hi. apply elem_of_list_lookup in Hi as [k Hk].
    destruct ((P ++ [x]) !! S k) as [b|] eqn:Eb.
    + assert (j = b) as -> by (eapply follows_det; [done|eapply HP; eauto]). apply elem_of_list_lookup; eauto.
    + apply lookup_ge_None in Eb. pose proof (lookup_lt_Some _ _ _ Hk). rewrite app_length in *. cbn in *.
      assert (k = length P) as -> by lia. rewrite (list_lookup_middle P [] x (length P)) in Hk by done.
      injection Hk as <-. assert (j = p0) as -> by (eapply follows_det; eauto). apply elem_of_list_lookup; eauto.
  - intros Hj. apply elem_of_list_lookup in Hj as [[|k] Hk].
    + assert (j = p0) as -> by congruence. assert (i = x) as -> by (eapply follows_inj; eauto).
      rewrite elem_of_app, elem_of_list_singleton. by right.
    + destruct (lookup_lt_is_Some_2 (P ++ [x]) k) as [a Ha]. { apply lookup_lt_Some in Hk. lia. }
      assert (i = a) as -> by (eapply follows_inj; [done|eapply HP; eauto]). apply elem_of_list_lookup; eauto.
Qed.

Lemma walk_ok (odd : bool) V0 O0 p0 start : closed V0 -> p1 !! p0 = Some start -> forall fuel P pos s,
  in_state (V0 ++ P ++ [pos]) (if odd then O0 ++ P ++ [pos] else O0) s -> path (P ++ [pos]) ->
  (P ++ [pos]) !! 0 = Some p0 -> n + 1 <= fuel + length (V0 ++ P ++ [pos]) ->
  exists s' Q, walk_cycle fuel index p2 start odd pos s = Some s' /\ Q <> [] /\ closed Q /\
    in_state (V0 ++ Q) (if odd then O0 ++ Q else O0) s' /\ path Q /\ Q !! 0 = Some p0.
Proof.
  intros HV Hstart. induction fuel as [|fuel IH]; intros P pos s Hs HP H0 Hf.
  { destruct Hs as (_ & _ & _ & _ & H5 & H6). pose proof (full_of_NoDup _ _ H5 H6). lia. }
  cbn [walk_cycle].
  assert (Hpos : pos < n). { destruct Hs as (_ & _ & _ & _ & _ & H6). apply H6. set_solver. }
  destruct (follows_ex pos Hpos) as (j & g & Hg & Hj). rewrite Hg. cbn [mbind option_bind].
  destruct (decide (g = start)) as [->|Hne].
  - exists s, (P ++ [pos]). split; [done|]. split; [by destruct P|]. split; [|split; [done|split; done]].
    apply (path_closed P pos p0); [done|done|]. by exists start.
  - rewrite (Hindex j g Hj). cbn [mbind option_bind].
    assert (Hfol : follows pos j) by by exists g.
    assert (Hnew : j ∉ V0 ++ P ++ [pos]).
    { destruct Hs as (_ & _ & _ & _ & H5 & _). rewrite elem_of_app. intros [Hj1 | Hj1].
      - apply (HV pos j Hfol) in Hj1. apply NoDup_app in H5 as (_ & H5 & _). apply (H5 pos Hj1). set_solver.
      - apply NoDup_app in H5 as (_ & _ & H5).
        apply elem_of_list_lookup in Hj1 as [[|k] Hk].
        + assert (j = p0) as -> by congruence. congruence.
        + destruct (lookup_lt_is_Some_2 (P ++ [pos]) k) as [a Ha]. { apply lookup_lt_Some in Hk. lia. }
          assert (a = pos) as -> by (eapply follows_inj; [eapply HP; eauto|done]).
          assert (Hlast : (P ++ [pos]) !! length P = Some pos) by (by apply (list_lookup_middle P [] pos (length P))).
          assert (k = length P) as -> by (eapply NoDup_lookup; eauto).
          apply lookup_lt_Some in Hk. rewrite app_length in Hk. cbn in Hk. lia. }
    destruct (visit_ok _ _ s odd j Hs) as (s1 & -> & Hs1); [by eapply lookup_lt_Some|done|]. cbn [mbind option_bind].
    apply (IH (P ++ [pos]) j s1).
    + rewrite <- !app_assoc in Hs1. rewrite <- !app_assoc. destruct odd; by rewrite <- ?app_assoc in Hs1.
    + rewrite <- app_assoc. by apply path_snoc.
    + rewrite lookup_app_l by (rewrite app_length; cbn; lia). done.
    + rewrite !app_length in *. cbn in *. lia.
Qed.

Lemma cycles_ok : forall fuel odd V O s, in_state V O s -> closed V -> closed O -> NoDup O -> (forall i, i ∈ O -> i ∈ V) ->
  n + 1 <= fuel + length V ->
  exists idxs, cycles fuel index p1 p2 odd s = Some idxs /\ closed idxs /\ NoDup idxs /\ (forall i, i ∈ idxs -> i < n).
Proof.
  induction fuel as [|fuel IH]; intros odd V O s Hs HV HO HnO HOV Hf.
  { destruct Hs as (_ & _ & _ & _ & H5 & H6). pose proof (full_of_NoDup _ _ H5 H6). lia. }
  cbn [cycles]. pose proof Hs as (H1 & H2 & H3 & H4 & H5 & H6).
  destruct (decide (s.1.2 < n)) as [Hlt|Hge].
  - rewrite H3 in Hlt. destruct (not_full n V H5 Hlt) as (i & Hi & HiV).
    pose proof (find_first_false_ok s.1.1) as Hff.
    remember (find_first_false s.1.1) as pos eqn:Epos.
    assert (Hpos : s.1.1 !! pos = Some false).
    { apply Hff. exists i. destruct (lookup_lt_is_Some_2 s.1.1 i ltac:(lia)) as [[] Hb]; [|done]. apply H2 in Hb. done. }
    assert (Hpn : pos < n) by (apply lookup_lt_Some in Hpos; lia).
    assert (HpV : pos ∉ V). { intros Hin. apply H2 in Hin. congruence. }
    destruct (lookup_lt_is_Some_2 p1 pos Hpn) as [start Hstart]. rewrite Hstart. cbn [mbind option_bind].
    destruct (visit_ok V O s odd pos Hs Hpn HpV) as (s1 & -> & Hs1). cbn [mbind option_bind].
    destruct (walk_ok odd V O pos start HV Hstart (S n) [] pos s1) as (s2 & Q & -> & HQ & HcQ & Hs2 & _ & _).
    + done.
    + intros k a b Ha Hb. apply lookup_lt_Some in Hb. cbn in Hb. lia.
    + done.
    + rewrite app_length. cbn. lia.
    + cbn [mbind option_bind].
      assert (Happ : forall X Y, closed X -> closed Y -> closed (X ++ Y)).
      { intros X Y HX HY a b Hab. rewrite !elem_of_app. rewrite (HX a b Hab), (HY a b Hab). done. }
      pose proof Hs2 as (_ & _ & _ & _ & HndQ & _). apply NoDup_app in HndQ as (_ & Hdis & HndQ).
      apply (IH (negb odd) (V ++ Q) (if odd then O ++ Q else O) s2 Hs2); [by apply Happ| | | |].
      * destruct odd; [by apply Happ|done].
      * destruct odd; [|done]. apply NoDup_app. split; [done|]. split; [|done]. intros x Hx. apply Hdis. by apply HOV.
      * intros x Hx. destruct odd; set_solver.
      * rewrite app_length. destruct Q; [done|]. cbn. lia.
  - exists s.2. split; [done|]. rewrite H4. split; [done|]. split; [done|]. intros i Hi. by apply H6, HOV.
Qed.

Lemma cycle_ok : exists idxs, cycles (S n) index p1 p2 false (replicate n false, 0, []) = Some idxs /\
  closed idxs /\ NoDup idxs /\ (forall i, i ∈ idxs -> i < n).
Proof.
  apply (cycles_ok (S n) false [] []).
  - split; [apply replicate_length|]. cbn. split; [|split; [done|split; [done|split; [constructor|]]]].
    + intros i. rewrite elem_of_nil. split; [|done]. intros H. apply lookup_replicate in H as [H _]. done.
    + intros i Hi. by apply elem_of_nil in Hi.
  - intros i j _. by rewrite !elem_of_nil.
  - intros i j _. by rewrite !elem_of_nil.
  - constructor.
  - done.
  - cbn. lia.
Qed.

Lemma cycle_with_ok idxs : closed idxs -> NoDup idxs -> (forall i, i ∈ idxs -> i < n) ->
  exists c, cycle_with (Some idxs) p1 p2 = Some c /\ length c.1 = n /\ length c.2 = n /\ cycle_spec p1 p2 c.
Proof.
  intros Hc Hnd Hb. unfold cycle_with. pose proof (same_length p1 p2 Hsame) as Hl. rewrite check_true by done.
  cbn [mbind option_bind].
  destruct (swap_all_ok idxs (p1, p2) Hnd) as (c & -> & H1 & H2 & H3); [by apply Forall_forall|done|].
  exists c. split; [done|]. split; [done|]. split; [cbn in H2; lia|]. exists (fun j => bool_decide (j ∈ idxs)). split; [done|].
  intros i j g Hi Hj. apply bool_decide_ext. apply Hc. by exists g.
Qed.
End cycle.

Lemma cycle_spec_perm {A} (p1 p2 : list A) c : same_genes p1 p2 -> length c.1 = length p1 -> length c.2 = length p1 ->
  cycle_spec p1 p2 c -> c.1 ≡ₚ p1 /\ c.2 ≡ₚ p1.
Proof.
  intros Hs Hl1 Hl2 (sw & Hm & Hsw). pose proof (same_NoDup2 p1 p2 Hs) as Hn2. pose proof Hs as [Hn1 Hp].
  assert (Hin : forall i g, p2 !! i = Some g -> g ∈ p1). { intros i g Hg. apply (same_in p1 p2 Hs), elem_of_list_lookup. eauto. }
  split.
  - apply perm_of_nodup; [|intros x Hx|lia].
    + apply NoDup_by_lookup. intros i j g Hi Hj. destruct (Hm i) as [Ei _]. destruct (Hm j) as [Ej _].
      rewrite Ei in Hi. rewrite Ej in Hj.
      destruct (sw i) eqn:Esi; destruct (sw j) eqn:Esj.
      * by apply (lookup_inj p2 i j g).
      * exfalso. pose proof (Hsw i j g Hi Hj). congruence.
      * exfalso. pose proof (Hsw j i g Hj Hi). congruence.
      * by apply (lookup_inj p1 i j g).
    + apply elem_of_list_lookup in Hx as [i Hi]. destruct (Hm i) as [Ei _]. rewrite Ei in Hi.
      destruct (sw i); [by eapply Hin|]. apply elem_of_list_lookup. eauto.
  - apply perm_of_nodup; [|intros x Hx|lia].
    + apply NoDup_by_lookup. intros i j g Hi Hj. destruct (Hm i) as [_ Ei]. destruct (Hm j) as [_ Ej].
      rewrite Ei in Hi. rewrite Ej in Hj.
      destruct (sw i) eqn:Esi; destruct (sw j) eqn:Esj.
      * by apply (lookup_inj p1 i j g).
      * exfalso. pose proof (Hsw j i g Hj Hi). congruence.
      * exfalso. pose proof (Hsw i j g Hi Hj). congruence.
      * by apply (lookup_inj p2 i j g).
    + apply elem_of_list_lookup in Hx as [i Hi]. destruct (Hm i) as [_ Ei]. rewrite Ei in Hi.
      destruct (sw i); [|by eapply Hin]. apply elem_of_list_lookup. eauto.
Qed.
