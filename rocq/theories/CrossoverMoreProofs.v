(** Which cycles cycle crossover exchanges, and which edges edge crossover follows. *)
From Coq Require Import Lia.
From stdpp Require Import list list_numbers sets relations sorting.
From Verif Require Import AlgorithmModel AlgorithmProofs CrossoverModel CrossoverSpec CrossoverProofs CrossoverCycleProofs CrossoverEdgeProofs CrossoverUnsignedProofs.

Lemma find_first_false_least (b : list bool) i : i < find_first_false b -> i < length b -> b !! i = Some true.
Proof.
  revert i. induction b as [|[] b IH]; cbn; intros i Hi Hl; [lia| |lia]. destruct i as [|i]; [done|]. apply IH; lia.
Qed.
Lemma StronglySorted_snoc (l : list nat) x : StronglySorted lt l -> (forall y, y ∈ l -> y < x) -> StronglySorted lt (l ++ [x]).
Proof.
  induction l as [|a l IH]; intros Hs Hx; cbn; [repeat constructor|]. inversion Hs as [|? ? H1 H2]; subst. constructor.
  - apply IH; [done|]. intros y Hy. apply Hx. by right.
  - apply Forall_app. split; [done|]. constructor; [|done]. apply Hx. left.
Qed.

Section cycle.
Context {A : Type} `{EqDecision A}.
Variables (p1 p2 : list A).
Hypothesis Hsame : same_genes p1 p2.
Notation n := (length p1).
Variable index : A -> option nat.
Hypothesis Hindex : forall j g, p1 !! j = Some g -> index g = Some j.
Notation linked := (same_cycle p1 p2).

Lemma closed_linked V i j : closed p1 p2 V -> linked i j -> i ∈ V <-> j ∈ V.
Proof.
  intros HV H. induction H as [|i k j [Hik|Hik] _ IH]; [done| |].
  - rewrite (HV i k Hik). done.
  - rewrite <- (HV k i Hik). done.
Qed.
Lemma path_linked P p0 : path p1 p2 P -> P !! 0 = Some p0 -> forall k a, P !! k = Some a -> linked p0 a.
Proof.
  intros HP H0. induction k as [|k IH]; intros a Ha.
  - assert (a = p0) as -> by congruence. reflexivity.
  - destruct (lookup_lt_is_Some_2 P k) as [b Hb]. { apply lookup_lt_Some in Ha. lia. }
    transitivity b; [by apply IH|]. apply rtsc_lr. by apply (HP k b a).
Qed.

(** The starts found so far. *)
Definition found (S V O : list nat) : Prop :=
  StronglySorted lt S /\
  (forall k, k ∈ S -> k < n /\ (forall j, linked k j -> k <= j) /\ forall j, j <= k -> j ∈ V) /\
  (forall i, i ∈ V <-> exists k, k ∈ S /\ linked k i) /\
  (forall m k i, S !! m = Some k -> linked k i -> i ∈ O <-> Nat.odd m = true).

Lemma linked_lt i j : linked i j -> i < n -> j < n.
Proof.
  intros H. pose proof (same_length p1 p2 Hsame) as Hl. induction H as [|i k j [Hik|Hik] _ IH]; [done| |]; intros Hi; apply IH.
  - destruct Hik as (g & _ & Hg). by apply lookup_lt_Some in Hg.
  - destruct Hik as (g & Hg & _). apply lookup_lt_Some in Hg. lia.
Qed.

Lemma cycles_found : forall fuel odd V O S s, in_state p1 V O s -> closed p1 p2 V -> (forall i, i ∈ O -> i ∈ V) ->
  found S V O -> odd = Nat.odd (length S) -> n + 1 <= fuel + length V ->
  exists idxs starts, cycles fuel index p1 p2 odd s = Some idxs /\ cycle_starts p1 p2 starts /\
    forall m k i, starts !! m = Some k -> linked k i -> bool_decide (i ∈ idxs) = Nat.odd m.
Proof.
  induction fuel as [|fuel IH]; intros odd V O S s Hs HV HOV HF Ho Hf.
  { destruct Hs as (_ & _ & _ & _ & H5 & H6). pose proof (full_of_NoDup _ _ H5 H6). lia. }
  cbn [cycles]. pose proof Hs as (H1 & H2 & H3 & H4 & H5 & H6). destruct HF as (F1 & F2 & F3 & F4).
  destruct (decide (s.1.2 < n)) as [Hlt|Hge].
  - rewrite H3 in Hlt. destruct (not_full n V H5 Hlt) as (i & Hi & HiV).
    pose proof (find_first_false_ok s.1.1) as Hff. pose proof (find_first_false_least s.1.1) as Hleast.
    remember (find_first_false s.1.1) as pos eqn:Epos.
    assert (Hpos : s.1.1 !! pos = Some false).
    { apply Hff. exists i. destruct (lookup_lt_is_Some_2 s.1.1 i ltac:(lia)) as [[] Hb]; [|done]. apply H2 in Hb. done. }
    assert (Hpn : pos < n) by (apply lookup_lt_Some in Hpos; lia).
    assert (HpV : pos ∉ V). { intros Hin. apply H2 in Hin. congruence. }
    assert (Hbelow : forall j, j < pos -> j ∈ V). { intros j Hj. apply H2, Hleast; lia. }
    destruct (lookup_lt_is_Some_2 p1 pos Hpn) as [start Hstart]. rewrite Hstart. cbn [mbind option_bind].
    destruct (visit_ok p1 V O s odd pos Hs Hpn HpV) as (s1 & -> & Hs1). cbn [mbind option_bind].
    destruct (walk_ok p1 p2 Hsame index Hindex odd V O pos start HV Hstart (Datatypes.S n) [] pos s1) as (s2 & Q & -> & HQ & HcQ & Hs2 & HP & HQ0).
    + done.
    + intros k a b Ha Hb. apply lookup_lt_Some in Hb. cbn in Hb. lia.
    + done.
    + rewrite app_length. cbn. lia.
    + cbn [mbind option_bind].
      assert (HQl : forall x, x ∈ Q <-> linked pos x).
      { intros x. split.
        - intros Hx. apply elem_of_list_lookup in Hx as [k Hk]. by apply (path_linked Q pos HP HQ0 k).
        - intros Hx. apply (closed_linked Q pos x HcQ Hx). apply elem_of_list_lookup. eauto. }
      assert (Hnew : forall k, k ∈ S -> ~ linked k pos). { intros k Hk Hl. apply HpV. apply F3. eauto. }
      apply (IH (negb odd) (V ++ Q) (if odd then O ++ Q else O) (S ++ [pos]) s2 Hs2).
      * intros a b Hab. rewrite !elem_of_app. rewrite (HV a b Hab), (HcQ a b Hab). done.
      * intros x Hx. destruct odd; set_solver.
      * split; [|split; [|split]].
        -- apply StronglySorted_snoc; [done|]. intros k Hk. destruct (F2 k Hk) as (_ & _ & Hk3).
           destruct (decide (k < pos)); [done|]. exfalso. apply HpV, Hk3. lia.
        -- intros k Hk. apply elem_of_app in Hk as [Hk|Hk].
           ++ destruct (F2 k Hk) as (K1 & K2 & K3). split; [done|]. split; [done|]. intros j Hj. apply elem_of_app. left. by apply K3.
           ++ apply elem_of_list_singleton in Hk as ->. split; [done|]. split.
              ** intros j Hj. destruct (decide (pos <= j)); [done|]. exfalso. apply HpV. apply (closed_linked V pos j HV Hj). apply Hbelow. lia.
              ** intros j Hj. apply elem_of_app. destruct (decide (j = pos)) as [->|]; [right; by apply HQl|left; apply Hbelow; lia].
        -- intros x. rewrite elem_of_app, F3, HQl. split.
           ++ intros [(k & Hk & Hl)|Hl]; [exists k|exists pos]; (split; [|done]); apply elem_of_app; [by left|right; left].
           ++ intros (k & Hk & Hl). apply elem_of_app in Hk as [Hk|Hk]; [left; eauto|]. apply elem_of_list_singleton in Hk as ->. by right.
        -- intros m k x Hm Hl. apply lookup_app_Some in Hm as [Hm|[Hm1 Hm2]].
           ++ rewrite <- (F4 m k x Hm Hl). destruct odd; [|done]. rewrite elem_of_app, HQl. split; [|tauto]. intros [Hx|Hx]; [done|].
              exfalso. apply (Hnew k); [apply elem_of_list_lookup; eauto|]. transitivity x; [done|by symmetry].
           ++ assert (m - length S = 0) as E. { apply lookup_lt_Some in Hm2. cbn in Hm2. lia. }
              rewrite E in Hm2. cbn in Hm2. injection Hm2 as <-. assert (m = length S) as -> by lia. rewrite <- Ho.
              assert (HxO : x ∉ O).
              { intros Hx. apply HOV in Hx. apply HpV. apply (closed_linked V pos x HV Hl). done. }
              destruct odd; [|split; [done|discriminate]]. rewrite elem_of_app, HQl. tauto.
      * rewrite app_length. cbn. rewrite Nat.add_1_r, Nat.odd_succ, <- Nat.negb_odd. by rewrite Ho.
      * rewrite app_length. destruct Q; [done|]. cbn. lia.
  - exists s.2, S. split; [done|]. rewrite H4.
    assert (Hall : forall i, i < n -> i ∈ V).
    { intros i Hi. destruct (decide (i ∈ V)) as [|HiV]; [done|]. exfalso.
      assert (length (i :: V) <= n); [|cbn in *; lia]. apply full_of_NoDup; [by constructor|].
      intros j Hj. apply elem_of_cons in Hj as [->|Hj]; [done|by apply H6]. }
    split.
    + split; [done|]. intros k. split.
      * intros Hk. destruct (F2 k Hk) as (K1 & K2 & _). done.
      * intros [Hk Hmin]. apply Hall, F3 in Hk as (k' & Hk' & Hl).
        destruct (F2 k' Hk') as (_ & K2 & _). specialize (K2 k Hl). assert (k <= k') by (apply Hmin; by symmetry).
        by replace k with k' by lia.
    + intros m k i Hm Hl. pose proof (F4 m k i Hm Hl) as H. destruct (Nat.odd m).
      * apply bool_decide_eq_true. by apply H.
      * apply bool_decide_eq_false. intros Hi. apply H in Hi. done.
Qed.

Lemma cycle_found : exists idxs starts, cycles (S n) index p1 p2 false (replicate n false, 0, []) = Some idxs /\
  cycle_starts p1 p2 starts /\ forall m k i, starts !! m = Some k -> linked k i -> bool_decide (i ∈ idxs) = Nat.odd m.
Proof.
  apply (cycles_found (S n) false [] [] []).
  - split; [apply replicate_length|]. cbn. split; [|split; [done|split; [done|split; [constructor|]]]].
    + intros i. rewrite elem_of_nil. split; [|done]. intros H. apply lookup_replicate in H as [H _]. done.
    + intros i Hi. by apply elem_of_nil in Hi.
  - intros i j _. by rewrite !elem_of_nil.
  - done.
  - split; [constructor|]. split; [intros k Hk; by apply elem_of_nil in Hk|]. split.
    + intros i. rewrite elem_of_nil. split; [done|]. intros (k & Hk & _). by apply elem_of_nil in Hk.
    + intros m k i Hm. done.
  - done.
  - cbn. lia.
Qed.

Lemma cycle_alternates_ok : exists c, cycle_with (cycles (S n) index p1 p2 false (replicate n false, 0, [])) p1 p2 = Some c /\
  cycle_alternates p1 p2 c.
Proof.
  destruct (cycle_ok p1 p2 Hsame index Hindex) as (idxs & E & Hc & Hnd & Hb).
  destruct cycle_found as (idxs' & starts & E' & Hst & Hsw). assert (idxs' = idxs) as -> by congruence. rewrite E.
  pose proof (same_length p1 p2 Hsame) as Hl. unfold cycle_with. rewrite check_true by done. cbn [mbind option_bind].
  destruct (swap_all_ok idxs (p1, p2) Hnd) as (c & -> & H1 & H2 & H3); [by apply Forall_forall|done|].
  exists c. split; [done|]. exists starts, (fun j => bool_decide (j ∈ idxs)). done.
Qed.
End cycle.

(** ** Edge crossover *)
Section edge.
Context {A : Type} `{EqDecision A}.
Implicit Types (nb : nb_map (A := A)).

Lemma edge_scan_best l nbs : forall nb next, NoDup nbs -> l ∉ nbs -> (forall v, v ∈ nbs -> NoDup (nb v)) ->
  exists nb' next', edge_scan l nbs nb next = Some (nb', next') /\ (next' = next \/ next' ∈ nbs) /\
    (forall x, nb' x = if decide (x ∈ nbs) then filter (fun y => y <> l) (nb x) else nb x) /\
    (forall v, v ∈ nbs \/ v = next -> length (nb' next') <= length (nb' v)) /\
    (next' ∉ nbs -> forall v, v ∈ nbs -> length (nb' next') < length (nb' v)).
Proof.
  induction nbs as [|v nbs IH]; intros nb next Hnd Hl Hn; cbn [edge_scan].
  - exists nb, next. split; [done|]. split; [by left|]. split.
    { intros x. rewrite decide_False; [done|]. apply not_elem_of_nil. }
    split; [|intros _ v Hv; by apply elem_of_nil in Hv]. intros v [Hv| ->]; [by apply elem_of_nil in Hv|done].
  - apply NoDup_cons in Hnd as [Hv Hnd]. rewrite not_elem_of_cons in Hl. destruct Hl as [Hlv Hl].
    rewrite (decide_False (P := v = l)) by congruence.
    assert (Hr : forall x, nb_remove nb v l x = if decide (x = v) then filter (fun y => y <> l) (nb v) else nb x).
    { intros x. apply nb_remove_at. apply Hn. left. }
    remember (if decide _ then v else next) as next1 eqn:E1.
    destruct (IH (nb_remove nb v l) next1 Hnd Hl) as (nb' & next' & -> & H1 & H2 & H3 & H4).
    { intros w Hw. rewrite Hr. rewrite decide_False by (intros ->; done). apply Hn. by right. }
    exists nb', next'. split; [done|].
    assert (Hnv : nb' v = nb_remove nb v l v) by (rewrite H2; by rewrite decide_False).
    assert (Hle : forall x, length (nb' x) <= length (nb_remove nb v l x)).
    { intros x. rewrite H2. destruct (decide (x ∈ nbs)); [apply filter_length|done]. }
    split; [|split; [|split]].
    + destruct H1 as [-> | H1]; [|right; by right]. subst next1. destruct (decide _); [right; left|by left].
    + intros x. rewrite H2, Hr. destruct (decide (x ∈ nbs)) as [Hx|Hx].
      * rewrite (decide_False (P := x = v)) by (intros ->; done). rewrite decide_True by (by right). done.
      * destruct (decide (x = v)) as [->|Hne].
        -- rewrite decide_True by left. done.
        -- rewrite decide_False; [done|]. rewrite not_elem_of_cons. done.
    + assert (Hvle : length (nb' next') <= length (nb' v)).
      { destruct (decide (length (nb_remove nb v l v) <= length (nb_remove nb v l next))) as [Hd|Hd]; subst next1.
        - apply H3. by right.
        - transitivity (length (nb' next)); [apply H3; by right|]. pose proof (Hle next). rewrite Hnv. lia. }
      intros w [Hw| ->].
      * apply elem_of_cons in Hw as [->|Hw]; [done|]. apply H3. by left.
      * destruct (decide (length (nb_remove nb v l v) <= length (nb_remove nb v l next))) as [Hd|Hd]; subst next1; [|apply H3; by right].
        destruct (decide (next ∈ nbs)) as [Hx|Hx]; [apply H3; by left|].
        assert (E : nb' next = nb_remove nb v l next) by (rewrite H2; by rewrite decide_False).
        rewrite E. rewrite Hnv in Hvle. lia.
    + intros Hn' w Hw. rewrite not_elem_of_cons in Hn'. destruct Hn' as [Hn1 Hn2].
      destruct H1 as [->|H1]; [|done].
      destruct (decide (length (nb_remove nb v l v) <= length (nb_remove nb v l next))) as [Hd|Hd]; subst next1; [done|].
      apply elem_of_cons in Hw as [->|Hw]; [|by apply H4]. pose proof (Hle next). rewrite Hnv. lia.
Qed.

Lemma edge_of_sym (p1 p2 : list A) x y : edge_of p1 p2 x y -> edge_of p1 p2 y x.
Proof. intros [[i H]|[i H]]; [left|right]; exists i; tauto. Qed.

(** The neighbour lists hold the edges to the unused genes and the last one. *)
Definition nb_mem (p1 p2 child : list A) (l : A) nb : Prop :=
  forall x, x ∈ p1 -> x ∉ child \/ x = l -> forall y, y ∈ nb x <-> edge_of p1 p2 x y /\ (y ∉ child \/ y = l).

Lemma choice_step (p1 p2 child : list A) l d nb nb' next' :
  nb_inv (fun x => x ∈ p1 /\ (x ∉ child \/ x = l)) nb -> nb_mem p1 p2 child l nb -> l ∈ child -> l ∈ p1 -> d ∈ p1 -> d ∉ child ->
  edge_scan l (nb l) nb d = Some (nb', next') ->
  edge_choice p1 p2 child l d next' /\ nb_mem p1 p2 (child ++ [next']) next' nb'.
Proof.
  intros Hinv Hmem Hlc Hlp Hdp Hdc Hscan.
  assert (Hl0 : l ∈ p1 /\ (l ∉ child \/ l = l)) by (split; [done|by right]).
  destruct (Hinv l Hl0) as [Hnd Hnb].
  destruct (edge_scan_best l (nb l) nb d Hnd) as (nb2 & next2 & E2 & H1 & H2 & H3 & H4).
  { intros Hin. by destruct (Hnb l Hin) as (_ & Hne & _). }
  { intros v Hv. destruct (Hnb v Hv) as (Hu & _). apply (Hinv v Hu). }
  rewrite E2 in Hscan. injection Hscan as -> ->.
  assert (Hcand : forall v, v ∈ nb l <-> edge_of p1 p2 l v /\ v ∉ child).
  { intros v. rewrite (Hmem l Hlp ltac:(by right)). split; [|tauto]. intros [He [Hv| ->]]; [done|].
    exfalso. assert (Hin : l ∈ nb l) by (apply Hmem; [done|by right|split; [done|by right]]). by destruct (Hnb l Hin) as (_ & Hne & _). }
  assert (Hun : forall v, v ∈ nb l \/ v = d -> v ∈ p1 /\ v ∉ child).
  { intros v [Hv| ->]; [|done]. pose proof (Hnb v Hv) as ((Hv1 & _) & _). split; [done|]. by apply Hcand. }
  assert (Hmem' : forall x, x ∈ p1 -> x ∉ child -> forall y, y ∈ nb' x <-> edge_of p1 p2 x y /\ y ∉ child).
  { intros x Hx Hxc y. rewrite H2. pose proof (Hmem x Hx ltac:(by left) y) as Hy. destruct (decide (x ∈ nb l)) as [Hin|Hout].
    - rewrite elem_of_list_filter, Hy. split; [tauto|]. intros [? ?]. split; [|tauto]. by intros ->.
    - rewrite Hy. split; [|tauto]. intros [He [?| ->]]; [done|]. exfalso. apply Hout, Hcand. split; [by apply edge_of_sym|done]. }
  assert (Hndx : forall x, x ∈ p1 -> x ∉ child -> NoDup (nb' x)).
  { intros x Hx Hxc. rewrite H2. destruct (Hinv x) as [Hndx _]; [split; [done|by left]|]. destruct (decide (x ∈ nb l)); [by apply NoDup_filter|done]. }
  assert (Hdeg : forall v, v ∈ p1 -> v ∉ child -> free_degree p1 p2 child v (length (nb' v))).
  { intros v Hv Hvc. exists (nb' v). split; [by apply Hndx|]. split; [done|]. by apply Hmem'. }
  destruct (Hun next') as [Hn1 Hn2]; [tauto|]. split.
  - split; [|split; [done|]].
    + destruct H1 as [->|H1]; [by right|left; by apply Hcand].
    + exists (length (nb' next')). split; [by apply Hdeg|]. intros v Hv. exists (length (nb' v)).
      assert (Hv' : v ∈ nb l \/ v = d) by (destruct Hv as [Hv| ->]; [left; by apply Hcand|by right]).
      destruct (Hun v Hv') as [Hv1 Hv2]. split; [by apply Hdeg|]. split; [by apply H3|].
      intros Hc Hnc. apply H4; [|by apply Hcand]. intros Hx. apply Hnc, Hcand, Hx.
  - intros x Hx Hxc y. assert (Hxc' : x ∉ child). { destruct Hxc as [Hxc| ->]; [|done]. rewrite elem_of_app in Hxc. tauto. }
    rewrite (Hmem' x Hx Hxc'). rewrite elem_of_app, elem_of_list_singleton. split.
    + intros [? ?]. split; [done|]. destruct (decide (y = next')); tauto.
    + intros [? Hy]. split; [done|]. destruct Hy as [Hy| ->]; [tauto|done].
Qed.

(** The genes of [c] from position [m] on are chosen greedily. *)
Definition greedy_from (dflt : list A -> A -> Prop) (p1 p2 c : list A) (m : nat) : Prop :=
  forall k y, m <= S k -> c !! S k = Some y -> exists l d, c !! k = Some l /\ dflt (take (S k) c) d /\ edge_choice p1 p2 (take (S k) c) l d y.

Lemma greedy_extend (dflt : list A -> A -> Prop) (p1 p2 c child : list A) l d y : child <> [] -> last child = Some l -> dflt child d ->
  edge_choice p1 p2 child l d y -> child ++ [y] `prefix_of` c -> greedy_from dflt p1 p2 c (length (child ++ [y])) ->
  greedy_from dflt p1 p2 c (length child).
Proof.
  intros Hne Hlast Hd Hch [r ->] Hg k z Hk Hz. destruct (decide (S k = length child)) as [E|E].
  - rewrite <- app_assoc in Hz |- *. rewrite E. rewrite take_app_alt by done. exists l, d.
    assert (z = y) as ->. { rewrite E in Hz. rewrite lookup_app_r in Hz by lia. rewrite Nat.sub_diag in Hz. cbn in Hz. congruence. }
    split; [|done]. rewrite lookup_app_l by lia. rewrite last_lookup in Hlast. by replace k with (pred (length child)) by lia.
  - apply Hg; [rewrite app_length; cbn; lia|done].
Qed.

Lemma edge_loop_greedy (p1 p2 : list A) : NoDup p1 -> forall fuel child remaining nb l c,
  child <> [] -> last child = Some l -> NoDup child -> (forall g, g ∈ child -> g ∈ p1) ->
  remaining = filter (fun g => g ∉ child) p1 ->
  nb_inv (fun x => x ∈ p1 /\ (x ∉ child \/ x = l)) nb -> nb_mem p1 p2 child l nb ->
  edge_loop fuel (length p1) child remaining nb = Some c -> child `prefix_of` c /\ greedy_from (first_unused p1) p1 p2 c (length child).
Proof.
  intros Hp. induction fuel as [|fuel IH]; intros child remaining nb l c Hne Hlast Hnd Hin Hrem Hinv Hmem; cbn [edge_loop].
  - destruct (decide _) as [E|]; [|done]. intros [= <-]. split; [done|]. intros k y Hk Hy. apply lookup_lt_Some in Hy. lia.
  - destruct (decide _) as [E|E].
    + intros [= <-]. split; [done|]. intros k y Hk Hy. apply lookup_lt_Some in Hy. lia.
    + rewrite Hlast. cbn [mbind option_bind].
      destruct remaining as [|d rest] eqn:Er; [done|]. cbn [head mbind option_bind].
      assert (Hd : d ∈ p1 /\ d ∉ child). { assert (Hx : d ∈ filter (fun g => g ∉ child) p1) by (rewrite <- Hrem; left). by apply elem_of_list_filter in Hx as [? ?]. }
      assert (Hdf : first_unused p1 child d).
      { clear -Hrem. induction p1 as [|a p IHp]; [done|]. rewrite filter_cons in Hrem. destruct (decide (a ∉ child)) as [Ha|Ha].
        - injection Hrem as <- _. exists [], p. split; [done|]. split; [intros x Hx; by apply elem_of_nil in Hx|done].
        - destruct (IHp Hrem) as (u & v & -> & H1 & H2). exists (a :: u), v. split; [done|]. split; [|done].
          intros x Hx. apply elem_of_cons in Hx as [->|Hx]; [by apply dec_stable|by apply H1]. }
      assert (Hlc : l ∈ child). { rewrite last_lookup in Hlast. apply elem_of_list_lookup. eauto. }
      destruct (edge_step_ok _ l nb d Hinv) as (nb' & next' & Escan & [Hu1 Hu2] & Hu3 & Hinv' & _).
      { split; [by apply Hin|by right]. } { split; [tauto|left; tauto]. } { intros ->. tauto. }
      rewrite Escan. cbn [mbind option_bind]. intros Hc.
      destruct (choice_step p1 p2 child l d nb nb' next') as [Hch Hmem']; try done; [by apply Hin|tauto|tauto|].
      assert (Hnc : next' ∉ child) by tauto.
      apply (IH (child ++ [next']) _ nb' next' c) in Hc as [Hpre Hg]; [|by destruct child|apply last_snoc| | | | |done].
      * split; [etransitivity; [apply prefix_app_r; reflexivity|exact Hpre]|]. by apply (greedy_extend _ p1 p2 c child l d next').
      * apply NoDup_app. split; [done|]. split; [|apply NoDup_singleton]. intros x Hx Hx2%elem_of_list_singleton. by subst.
      * intros g. rewrite elem_of_app, elem_of_list_singleton. intros [Hg | ->]; [by apply Hin|done].
      * rewrite Hrem, list_filter_filter. apply list_filter_iff. intros g. rewrite elem_of_app, elem_of_list_singleton. tauto.
      * assert (Himp : forall x, (x ∈ p1 /\ (x ∉ child ++ [next'] \/ x = next')) <-> ((x ∈ p1 /\ (x ∉ child \/ x = l)) /\ x <> l)).
        { intros x. rewrite elem_of_app, elem_of_list_singleton. split.
          - intros [H1 [H2 | ->]]; [|split; [|done]]; [|split; [done|by left]].
            split; [split; [done|left; tauto]|]. intros ->. tauto.
          - intros [[H1 [H2 | H2]] H3]; [|done]. split; [done|]. destruct (decide (x = next')); [by right|left; tauto]. }
        intros x Hx. apply Himp in Hx. destruct (Hinv' x Hx) as [H1 H2]. split; [done|].
        intros y Hy. destruct (H2 y Hy) as (H3 & H4 & H5). split; [by apply Himp|done].
Qed.

Lemma start_inv (p1 p2 : list A) adds g : same_genes p1 p2 -> (forall x y, (x, y) ∈ adds <-> adj p1 x y \/ adj p2 x y) -> g ∈ p1 ->
  let nb := foldl (fun nb gv => nb_add nb gv.1 gv.2) (fun _ => []) adds in
  nb_inv (fun x => x ∈ p1 /\ (x ∉ [g] \/ x = g)) nb /\ nb_mem p1 p2 [g] g nb.
Proof.
  intros Hs Hadds Hg. pose proof (nb_adds_ok adds (fun _ => []) ltac:(intros; constructor)) as Hnb. cbn in Hnb. cbn zeta.
  remember (foldl _ _ adds) as nb eqn:Enb. destruct Hnb as [Hnd Hin].
  assert (Hinv : nb_inv (fun x => x ∈ p1) nb).
  { apply (adds_inv p1 p2 nb Hs Hnd). intros x y. rewrite Hin, elem_of_nil, Hadds. tauto. }
  assert (Hall : forall x : A, x ∉ [g] \/ x = g). { intros x. rewrite elem_of_list_singleton. destruct (decide (x = g)); tauto. }
  split.
  - intros x [Hx _]. destruct (Hinv x Hx) as [H1 H2]. split; [done|]. intros y Hy. destruct (H2 y Hy) as (H3 & H4). done.
  - intros x Hx _ y. rewrite Hin, elem_of_nil, Hadds. pose proof (Hall y). unfold edge_of, adjacent, adj. tauto.
Qed.

Lemma edge_greedy_ok (p1 p2 c : list A) : same_genes p1 p2 -> 2 <= length p1 -> edge p1 p2 = Some c -> edge_greedy (first_unused p1) p1 p2 c.
Proof.
  intros Hs Hn. unfold edge, makeNeighbourLists. pose proof (same_length p1 p2 Hs) as Hl. rewrite check_true by done.
  destruct (all_adds_ok p1 p2 Hl Hn) as (adds & -> & Hadds). cbn [mbind option_bind].
  destruct (lookup_lt_is_Some_2 p1 0 ltac:(lia)) as [g Hg]. rewrite Hg. cbn [mbind option_bind]. intros Hc.
  assert (Hgp : g ∈ p1) by (apply elem_of_list_lookup; eauto).
  destruct (start_inv p1 p2 adds g Hs Hadds Hgp) as [Hinv Hmem]. pose proof Hs as [Hn1 _].
  apply (edge_loop_greedy p1 p2 Hn1 _ [g] (tail p1) _ g c) in Hc as [[r ->] Hgr]; [|done|done|apply NoDup_singleton| | |done|done].
  - split; [by rewrite Hg|]. intros k y Hy. apply Hgr; [cbn; lia|done].
  - intros x ->%elem_of_list_singleton. done.
  - destruct p1 as [|g0 p]; [done|]. cbn in Hg. injection Hg as ->. apply NoDup_cons in Hn1 as [Hgn _].
    rewrite filter_cons, decide_False by (rewrite elem_of_list_singleton; tauto). cbn. symmetry. clear -Hgn.
    induction p as [|a p IH]; [done|]. rewrite not_elem_of_cons in Hgn. rewrite filter_cons, decide_True by (rewrite elem_of_list_singleton; intros ->; tauto).
    f_equal. apply IH. tauto.
Qed.
End edge.

(** The overload for unsigned genes. *)
Section edge_u.
Variables (E n : nat).
Hypothesis HE : n <= E.

Lemma edge_loop_u_greedy (p1 p2 : list nat) : int_perm n p1 -> forall fuel child used t nb l c,
  child <> [] -> last child = Some l -> NoDup child -> (forall g, g ∈ child -> g < n) ->
  length used = n -> (forall g, used !! g = Some true <-> g ∈ child) ->
  nb_inv (fun x => x ∈ p1 /\ (x ∉ child \/ x = l)) nb -> nb_mem p1 p2 child l nb -> repr E n t nb ->
  edge_loop_u E fuel n child used t = Some c -> child `prefix_of` c /\ greedy_from least_unused p1 p2 c (length child).
Proof.
  intros Hp. destruct (int_perm_facts n p1 Hp) as (Hlp & Hndp & Hinp).
  induction fuel as [|fuel IH]; intros child used t nb l c Hne Hlast Hnd Hin Hul Hu Hinv Hmem Hr; cbn [edge_loop_u].
  - destruct (decide _) as [Elen|]; [|done]. intros [= <-]. split; [done|]. intros k y Hk Hy. apply lookup_lt_Some in Hy. lia.
  - destruct (decide _) as [Elen|Elen].
    + intros [= <-]. split; [done|]. intros k y Hk Hy. apply lookup_lt_Some in Hy. lia.
    + rewrite Hlast. cbn [mbind option_bind]. pose proof (full_of_NoDup n child Hnd Hin).
      destruct (not_full n child Hnd ltac:(lia)) as (i & Hi & Hic).
      pose proof (find_first_false_ok used) as Hff. pose proof (find_first_false_least used) as Hleast.
      remember (find_first_false used) as next eqn:En.
      assert (Hnf : used !! next = Some false).
      { apply Hff. exists i. destruct (lookup_lt_is_Some_2 used i ltac:(lia)) as [[] Hb]; [|done]. apply Hu in Hb. done. }
      assert (Hnn : next < n) by (rewrite <- Hul; by eapply lookup_lt_Some).
      assert (Hnc : next ∉ child) by (intros Hx; apply Hu in Hx; congruence).
      assert (Hdf : least_unused child next). { split; [done|]. intros x Hx. apply Hu, Hleast; lia. }
      assert (Hlc : l ∈ child). { rewrite last_lookup in Hlast. apply elem_of_list_lookup. eauto. }
      assert (Hln : l < n) by (by apply Hin).
      destruct (Hinv l ltac:(split; [by apply Hinp|by right])) as [Hndl Hnbl].
      pose proof Hr as [Hrl Hr']. destruct (Hr' l Hln) as (e & He & He4 & Hlive & Hsz).
      assert (Hom : omap (fun k => slots e !! k) (seq 0 4) = slots e).
      { destruct (slots e) as [|a [|b [|c' [|d [|]]]]]; try done. }
      destruct (edge_scan_u_ok E n HE l e Hln (seq 0 4) (slots e) t nb next (eq_sym Hom)) as (t' & nb' & next' & H1 & H2 & H3).
      { repeat constructor. } { done. } { by rewrite Hlive. }
      { rewrite Hlive. intros Hx. destruct (Hnbl l Hx) as (_ & Hne2 & _). done. }
      { done. } { done. }
      { rewrite Hlive. intros v Hv. destruct (Hnbl v Hv) as (Hv1 & _). split; [apply Hinp, Hv1|]. by apply Hinv. }
      { done. }
      rewrite H1. cbn [mbind option_bind]. rewrite Hlive in H2.
      destruct (edge_step_ok _ l nb next Hinv) as (nb2 & next2 & E2 & [Hu1 Hu2] & Hu3 & Hinv' & _).
      { split; [by apply Hinp|by right]. } { split; [by apply Hinp|by left]. } { intros ->. done. }
      rewrite E2 in H2. injection H2 as -> ->.
      assert (Hn' : next' < n) by (by apply Hinp).
      rewrite wr_ok by lia. cbn [mbind option_bind]. intros Hc.
      destruct (choice_step p1 p2 child l next nb nb' next') as [Hch Hmem']; try done; [by apply Hinp|by apply Hinp|].
      assert (Hnc' : next' ∉ child) by tauto.
      apply (IH (child ++ [next']) (<[next':=true]> used) t' nb' next' c) in Hc as [Hpre Hg]; [|by destruct child|apply last_snoc| | | | | |done|done].
      * split; [etransitivity; [apply prefix_app_r; reflexivity|exact Hpre]|]. by apply (greedy_extend _ p1 p2 c child l next next').
      * apply NoDup_app. split; [done|]. split; [|apply NoDup_singleton]. intros x Hx Hx2%elem_of_list_singleton. by subst.
      * intros g. rewrite elem_of_app, elem_of_list_singleton. intros [Hg | ->]; [by apply Hin|done].
      * by rewrite insert_length.
      * intros g. rewrite elem_of_app, elem_of_list_singleton. destruct (decide (g = next')) as [->|Hg].
        -- rewrite list_lookup_insert by lia. tauto.
        -- rewrite list_lookup_insert_ne by done. rewrite Hu. tauto.
      * assert (Himp : forall x, (x ∈ p1 /\ (x ∉ child ++ [next'] \/ x = next')) <-> ((x ∈ p1 /\ (x ∉ child \/ x = l)) /\ x <> l)).
        { intros x. rewrite elem_of_app, elem_of_list_singleton. split.
          - intros [K1 [K2 | ->]]; [|split; [|done]]; [|split; [done|by left]].
            split; [split; [done|left; tauto]|]. intros ->. tauto.
          - intros [[K1 [K2 | K2]] K3]; [|done]. split; [done|]. destruct (decide (x = next')); [by right|left; tauto]. }
        intros x Hx. apply Himp in Hx. destruct (Hinv' x Hx) as [K1 K2]. split; [done|].
        intros y Hy. destruct (K2 y Hy) as (K3 & K4 & K5). split; [by apply Himp|done].
Qed.

Lemma edge_u_greedy_ok p1 p2 c : int_perm n p1 -> int_perm n p2 -> 2 <= n -> edge_u E p1 p2 = Some c -> edge_greedy least_unused p1 p2 c.
Proof.
  intros Hp1 Hp2 Hn. pose proof (int_perm_same n p1 p2 Hp1 Hp2) as Hs.
  destruct (int_perm_facts n p1 Hp1) as (Hl1 & Hnd1 & Hin1). destruct (int_perm_facts n p2 Hp2) as (Hl2 & Hnd2 & Hin2).
  unfold edge_u, makeNeighbourLists_u. rewrite check_true by lia. rewrite (check_perm_ok n), (check_perm_ok n) by done.
  destruct (all_adds_ok p1 p2 ltac:(lia) ltac:(lia)) as (adds & -> & Hadds). cbn [mbind option_bind].
  assert (Hadjb : forall g v, (g, v) ∈ adds -> g < n /\ v < n).
  { intros g v Hgv. apply Hadds in Hgv as [[i [[H1 H2] | [H1 H2]]] | [i [[H1 H2] | [H1 H2]]]].
    1,2: split; apply Hin1, elem_of_list_lookup; eauto.
    1,2: split; apply Hin2, elem_of_list_lookup; eauto. }
  destruct (nb4_adds_ok E n HE adds Hadjb) with (adds := adds) (t := replicate (length p1) (nb4_new E)) (nb := fun _ : nat => @nil nat)
    as (t & -> & Ht).
  { intros g. destruct (adj_cand _ _ HE p1 g Hnd1) as (k1 & K1 & K2). destruct (adj_cand _ _ HE p2 g Hnd2) as (k2 & K3 & K4).
    exists (k1 ++ k2). split; [rewrite app_length; lia|]. intros v Hv. apply Hadds in Hv as [Hv | Hv]; apply elem_of_app; auto. }
  { done. }
  { split; [rewrite replicate_length; lia|]. intros g Hg. split; [apply not_elem_of_nil|]. split; [cbn; lia|].
    apply lookup_replicate. split; [done|lia]. }
  { intros; constructor. }
  { intros g v Hv. by apply elem_of_nil in Hv. }
  cbn [mbind option_bind].
  destruct (lookup_lt_is_Some_2 p1 0 ltac:(lia)) as [g Hg]. rewrite Hg. cbn [mbind option_bind].
  assert (Hgp : g ∈ p1) by (apply elem_of_list_lookup; eauto). assert (Hgn : g < n) by (by apply Hin1).
  rewrite wr_ok by (rewrite replicate_length; lia). cbn [mbind option_bind]. rewrite Hl1. intros Hc.
  destruct (start_inv p1 p2 adds g Hs Hadds Hgp) as [Hinv Hmem].
  apply (edge_loop_u_greedy p1 p2 Hp1 n [g] (<[g:=true]> (replicate n false)) t (foldl (fun nb gv => nb_add nb gv.1 gv.2) (fun _ => []) adds) g c) in Hc as [[r ->] Hgr];
    [|done|done|apply NoDup_singleton| | | |done|done|by apply repr0_repr].
  - split; [by rewrite Hg|]. intros k y Hy. apply Hgr; [cbn; lia|done].
  - intros x ->%elem_of_list_singleton. done.
  - by rewrite insert_length, replicate_length.
  - intros x. rewrite elem_of_list_singleton. destruct (decide (x = g)) as [->|Hne].
    + rewrite list_lookup_insert by (rewrite replicate_length; lia). tauto.
    + rewrite list_lookup_insert_ne by done. split; [|done]. intros H. apply lookup_replicate in H as [H _]. done.
Qed.
End edge_u.
