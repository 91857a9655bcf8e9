(** Lemmas about PMX. *)
From Coq Require Import Lia.
From stdpp Require Import list list_numbers sets relations.
From Verif Require Import AlgorithmModel CrossoverModel CrossoverSpec CrossoverProofs CrossoverCycleProofs.

Lemma copy_at_ok {A} (p1 : list A) is : forall c, length c = length p1 -> Forall (fun i => i < length p1) is ->
  exists c', copy_at p1 c is = Some c' /\ length c' = length c /\
    forall i, c' !! i = if decide (i ∈ is) then p1 !! i else c !! i.
Proof.
  induction is as [|i is IH]; intros c Hl Hb; cbn [copy_at].
  - exists c. split; [done|]. split; [done|]. intros i. rewrite decide_False; [done|]. apply not_elem_of_nil.
  - apply Forall_cons in Hb as [Hi Hb]. destruct (lookup_lt_is_Some_2 p1 i Hi) as [x Hx].
    rewrite Hx. cbn [mbind option_bind]. rewrite wr_ok by lia. cbn [mbind option_bind].
    destruct (IH (<[i:=x]> c)) as (c' & -> & Hl' & Hc'); [by rewrite insert_length|done|].
    exists c'. split; [done|]. rewrite insert_length in Hl'. split; [done|]. intros j. rewrite Hc'.
    destruct (decide (j ∈ is)) as [H1|H1].
    + rewrite decide_True by (by right). done.
    + destruct (decide (j = i)) as [->|Hne].
      * rewrite list_lookup_insert by lia. rewrite decide_True by left. done.
      * rewrite list_lookup_insert_ne by done. rewrite decide_False; [done|]. rewrite elem_of_cons. tauto.
Qed.

Section pmx.
Context {A : Type} `{EqDecision A}.
Variables (p1 p2 : list A).
Hypothesis Hsame : same_genes p1 p2.
Notation n := (length p1).
Variables (a b : nat).
Hypothesis Hab : a <= b.
Hypothesis Hb : b <= n.
Variable index : A -> option nat.
Hypothesis Hindex : forall j g, p2 !! j = Some g -> index g = Some j.

Definition inseg (i : nat) : Prop := a <= i < b.
Global Instance inseg_dec i : Decision (inseg i) := _.
(** One step of the chain. *)
Definition R (i j : nat) : Prop := inseg i /\ exists g, p1 !! i = Some g /\ p2 !! j = Some g.
Definition is_start (i : nat) : Prop := inseg i /\ exists g, p2 !! i = Some g /\ g ∉ segment p1 a b.

Lemma R_inj i j k : R i k -> R j k -> i = j.
Proof. intros (_ & g & H1 & H2) (_ & g' & H3 & H4). assert (g = g') as -> by congruence. eapply lookup_inj; [apply Hsame|done..]. Qed.
Lemma R_det i j k : R i j -> R i k -> j = k.
Proof. intros (_ & g & H1 & H2) (_ & g' & H3 & H4). assert (g = g') as -> by congruence. eapply lookup_inj; [|done..]. by apply (same_NoDup2 p1 p2). Qed.
Lemma R_ex i : inseg i -> exists j g, p1 !! i = Some g /\ p2 !! j = Some g /\ j < n.
Proof.
  intros Hi. unfold inseg in Hi. destruct (lookup_lt_is_Some_2 p1 i ltac:(lia)) as [g Hg].
  assert (Hin : g ∈ p2). { apply (same_in p1 p2 Hsame). apply elem_of_list_lookup. eauto. }
  apply elem_of_list_lookup in Hin as [j Hj]. exists j, g. split; [done|]. split; [done|].
  rewrite (same_length p1 p2 Hsame). by eapply lookup_lt_Some.
Qed.
Lemma start_no_pred i j : is_start i -> ~ R j i.
Proof.
  intros (_ & g & H1 & H2) (Hj & g' & H3 & H4). apply H2. apply in_segment; [done|]. exists j. split; [done|]. congruence.
Qed.
Lemma rtc_comparable i i' j : rtc R i j -> rtc R i' j -> rtc R i i' \/ rtc R i' i.
Proof.
  intros H. revert j H i'. apply (rtc_ind_r (fun j => forall i', rtc R i' j -> rtc R i i' \/ rtc R i' i)); [by right|].
  intros k l Hjk Hkl IH i' Hi'. apply rtc_inv_r in Hi' as [-> | (m & Hm & Hml)].
  - left. by eapply rtc_r.
  - assert (m = k) as -> by (eapply R_inj; eauto). by apply IH.
Qed.
Lemma starts_inj i i' j : is_start i -> is_start i' -> rtc R i j -> rtc R i' j -> i = i'.
Proof.
  intros H1 H2 H3 H4. destruct (rtc_comparable i i' j H3 H4) as [H | H].
  - apply rtc_inv_r in H as [H | (m & _ & H)]; [done|]. exfalso. by eapply start_no_pred.
  - apply rtc_inv_r in H as [H | (m & _ & H)]; [done|]. exfalso. by eapply start_no_pred; [exact H1|].
Qed.

Definition rpath (P : list nat) : Prop := forall k x y, P !! k = Some x -> P !! S k = Some y -> R x y.

Lemma chain_ok i : is_start i -> forall fuel P pos, rpath (P ++ [pos]) -> (P ++ [pos]) !! 0 = Some i -> NoDup (P ++ [pos]) ->
  (forall x, x ∈ P -> x < n) -> pos < n -> rtc R i pos -> n + 1 <= fuel + length P ->
  exists j, pmx_chain fuel index p1 a b pos = Some j /\ rtc R i j /\ ~ inseg j /\ j < n.
Proof.
  intros Hi. induction fuel as [|fuel IH]; intros P pos HP H0 Hnd Hbd Hpos Hr Hf.
  { apply NoDup_app in Hnd as (Hnd & _). pose proof (full_of_NoDup n P Hnd Hbd). lia. }
  cbn [pmx_chain]. destruct (decide (a <= pos /\ pos < b)) as [Hin|Hout].
  - destruct (R_ex pos Hin) as (j & g & Hg & Hj & Hjn). rewrite Hg. cbn [mbind option_bind].
    rewrite (Hindex j g Hj). cbn [mbind option_bind].
    assert (HR : R pos j) by (split; [done|by exists g]).
    assert (Hlast : (P ++ [pos]) !! length P = Some pos) by (by apply (list_lookup_middle P [] pos (length P))).
    assert (Hnew : j ∉ P ++ [pos]).
    { intros Hj1. apply elem_of_list_lookup in Hj1 as [[|k] Hk].
      - assert (j = i) as -> by congruence. by apply (start_no_pred i pos).
      - destruct (lookup_lt_is_Some_2 (P ++ [pos]) k) as [x Hx]. { apply lookup_lt_Some in Hk. lia. }
        assert (x = pos) as -> by (eapply R_inj; [eapply HP; eauto|done]).
        assert (k = length P) as -> by (eapply NoDup_lookup; eauto).
        apply lookup_lt_Some in Hk. rewrite app_length in Hk. cbn in Hk. lia. }
    apply (IH (P ++ [pos]) j).
    + intros k x y Hx Hy. apply lookup_app_Some in Hy as [Hy | [Hy1 Hy2]].
      * pose proof (lookup_lt_Some _ _ _ Hy). rewrite lookup_app_l in Hx by lia. eapply HP; eauto.
      * rewrite app_length in Hy1, Hy2. cbn in Hy1. pose proof (lookup_lt_Some _ _ _ Hy2) as Hlt. cbn in Hlt.
        assert (E : S k - (length P + 1) = 0) by lia. cbn [length] in Hy2. rewrite E in Hy2. cbn in Hy2. injection Hy2 as <-.
        rewrite lookup_app_l in Hx by (rewrite app_length; cbn; lia).
        assert (k = length P) as -> by lia. rewrite Hlast in Hx. by injection Hx as <-.
    + rewrite lookup_app_l by (rewrite app_length; cbn; lia). done.
    + apply NoDup_app. split; [done|]. split; [|apply NoDup_singleton]. intros x Hx Hx2%elem_of_list_singleton. by subst.
    + intros x. rewrite elem_of_app, elem_of_list_singleton. intros [Hx | ->]; [by apply Hbd|done].
    + done.
    + by eapply rtc_r.
    + rewrite app_length. cbn. lia.
  - exists pos. done.
Qed.

(** Every position outside the segment with a gene of the segment ends a chain. *)
Lemma chain_onto fuel : forall x P j, rpath (x :: P) -> NoDup (x :: P) -> (forall y, y ∈ x :: P -> y < n) ->
  last (x :: P) = Some j -> ~ inseg j -> (P = [] -> exists g, p2 !! x = Some g /\ g ∈ segment p1 a b) ->
  (P <> [] -> inseg x) -> rtc R x j -> n < fuel + length P -> exists s, is_start s /\ rtc R s j.
Proof.
  induction fuel as [|fuel IH]; intros x P j HP Hnd Hbd Hl Hj Hx HxP Hr Hf.
  { pose proof (full_of_NoDup n (x :: P) Hnd Hbd). cbn in *. lia. }
  assert (Hxn : x < n) by (apply Hbd; left).
  destruct (lookup_lt_is_Some_2 p2 x) as [g Hg]; [by rewrite <- (same_length p1 p2 Hsame)|].
  destruct (decide (g ∈ segment p1 a b)) as [Hin|Hout].
  - apply in_segment in Hin as (y & Hy & Hyg); [|done]. assert (HR : R y x) by (split; [done|by exists g]).
    apply (IH y (x :: P) j).
    + intros [|k] u v Hu Hv; cbn in Hu, Hv; [by injection Hu as <-; injection Hv as <-|by eapply HP].
    + apply NoDup_cons. split; [|done]. intros Hyin. apply elem_of_list_lookup in Hyin as [k Hk].
      destruct ((x :: P) !! S k) as [z|] eqn:Ez.
      * assert (z = x) as -> by (apply (R_det y z x); [by apply (HP k)|done]).
        assert (Hz : S k = 0) by (by apply (NoDup_lookup (x :: P) (S k) 0 x)). done.
      * apply lookup_ge_None in Ez. rewrite last_lookup in Hl. pose proof (lookup_lt_Some _ _ _ Hk).
        cbn in Ez, H, Hl. assert (k = length P) as -> by lia.
        assert (y = j) as -> by congruence. by apply Hj.
    + intros z. rewrite elem_of_cons. intros [-> | Hz]; [unfold inseg in *; lia|by apply Hbd].
    + by rewrite last_cons_cons.
    + done.
    + done.
    + intros _. done.
    + by eapply rtc_l.
    + cbn. lia.
  - exists x. split; [|done]. split; [|by exists g]. apply HxP. intros ->.
    destruct (Hx eq_refl) as (g' & H1 & H2). congruence.
Qed.

Variable mem : A -> option bool.
Hypothesis Hmem : forall g, g ∈ p2 -> mem g = Some (bool_decide (g ∈ segment p1 a b)).
Definition chain (i : nat) : option nat := pmx_chain (S n) index p1 a b i.

Lemma chain_start i : is_start i -> exists j, chain i = Some j /\ rtc R i j /\ ~ inseg j /\ j < n.
Proof.
  intros Hi. apply (chain_ok i Hi (S n) [] i); cbn.
  - intros k x y Hx Hy. apply lookup_lt_Some in Hy. cbn in Hy. lia.
  - done.
  - apply NoDup_singleton.
  - intros x Hx. by apply elem_of_nil in Hx.
  - destruct Hi as [Hi _]. unfold inseg in Hi. lia.
  - done.
  - lia.
Qed.

Lemma pmx_loop_ok is : forall c, (forall i, i ∈ is -> inseg i) -> NoDup is -> length c = n ->
  exists fs gs, pmx_loop mem index p1 p2 a b is c = Some (write_all c (zip fs gs)) /\ NoDup fs /\ length fs = length gs /\
    (forall k f g, fs !! k = Some f -> gs !! k = Some g -> exists s, s ∈ is /\ is_start s /\ chain s = Some f /\ p2 !! s = Some g) /\
    (forall s f, s ∈ is -> is_start s -> chain s = Some f -> f ∈ fs).
Proof.
  induction is as [|i is IH]; intros c Hin Hnd Hl; cbn [pmx_loop].
  - exists [], []. cbn. split; [done|]. split; [constructor|]. split; [done|]. split; [done|].
    intros s f Hs. by apply elem_of_nil in Hs.
  - apply NoDup_cons in Hnd as [Hi Hnd]. assert (His : inseg i) by (apply Hin; left).
    destruct (lookup_lt_is_Some_2 p2 i) as [g Hg]. { rewrite <- (same_length p1 p2 Hsame). unfold inseg in His. lia. }
    rewrite Hg. cbn [mbind option_bind]. rewrite Hmem by (apply elem_of_list_lookup; eauto). cbn [mbind option_bind].
    case_bool_decide as Hd.
    + destruct (IH c) as (fs & gs & E & H1 & H2 & H3 & H4); [intros; apply Hin; by right|done|done|].
      exists fs, gs. split; [done|]. split; [done|]. split; [done|]. split.
      * intros k f g' Hf Hg'. destruct (H3 k f g' Hf Hg') as (s & Hs & Hs'). exists s. split; [by right|done].
      * intros s f Hs Hst Hc. apply elem_of_cons in Hs as [-> | Hs]; [|by eapply H4].
        destruct Hst as (_ & g' & Hg' & Hn). congruence.
    + assert (Hst : is_start i) by (split; [done|by exists g]).
      destruct (chain_start i Hst) as (j & Hc & Hr & Hj & Hjn). unfold chain in Hc. rewrite Hc. cbn [mbind option_bind].
      rewrite wr_ok by lia. cbn [mbind option_bind].
      destruct (IH (<[j:=g]> c)) as (fs & gs & E & H1 & H2 & H3 & H4); [intros; apply Hin; by right|done|by rewrite insert_length|].
      exists (j :: fs), (g :: gs). split; [done|]. split; [|split; [|split]].
      * apply NoDup_cons. split; [|done]. intros Hjf. apply elem_of_list_lookup in Hjf as [k Hk].
        destruct (lookup_lt_is_Some_2 gs k) as [g' Hg']. { apply lookup_lt_Some in Hk. lia. }
        destruct (H3 k j g' Hk Hg') as (s & Hs & Hss & Hsc & _).
        destruct (chain_start s Hss) as (j' & Hc' & Hr' & _). assert (j' = j) as -> by congruence.
        assert (i = s) as -> by (eapply starts_inj; eauto). done.
      * cbn. lia.
      * intros [|k] f g' Hf Hg'; cbn in Hf, Hg'.
        -- injection Hf as <-. injection Hg' as <-. exists i. split; [left|]. done.
        -- destruct (H3 k f g' Hf Hg') as (s & Hs & Hs'). exists s. split; [by right|done].
      * intros s f Hs Hss Hsc. apply elem_of_cons in Hs as [-> | Hs].
        -- unfold chain in Hsc. assert (f = j) as -> by congruence. left.
        -- right. by eapply H4.
Qed.

Lemma pmx_body_ok c0 : copy_at p1 p2 (range a b) = Some c0 ->
  exists c, pmx_loop mem index p1 p2 a b (range a b) c0 = Some c /\ length c = n /\ pmx_spec p1 p2 c a b /\ c ≡ₚ p1.
Proof.
  intros Hc0. pose proof (same_length p1 p2 Hsame) as Hlen.
  destruct (copy_at_ok p1 (range a b) p2) as (c1 & E & Hl1 & Hc1); [done| |].
  { apply Forall_forall. intros i Hi%in_range. lia. }
  assert (c1 = c0) as -> by congruence. clear E.
  destruct (pmx_loop_ok (range a b) c0) as (fs & gs & -> & H1 & H2 & H3 & H4).
  { intros i Hi%in_range. done. } { apply NoDup_seq. } { lia. }
  assert (Hfb : forall f, f ∈ fs -> f < n /\ ~ inseg f /\ exists g, p2 !! f = Some g /\ g ∈ segment p1 a b).
  { intros f Hf. apply elem_of_list_lookup in Hf as [k Hk].
    destruct (lookup_lt_is_Some_2 gs k) as [g' Hg']. { apply lookup_lt_Some in Hk. lia. }
    destruct (H3 k f g' Hk Hg') as (s & Hs & Hss & Hsc & _).
    destruct (chain_start s Hss) as (j' & Hc' & Hr' & Hj' & Hjn'). assert (j' = f) as -> by congruence.
    split; [done|]. split; [done|]. apply rtc_inv_r in Hr' as [-> | (m & _ & Hm & g & Hg1 & Hg2)].
    - exfalso. by destruct Hss.
    - exists g. split; [done|]. apply in_segment; [done|]. by exists m. }
  pose proof (write_all_ok c0 fs gs H1 ltac:(intros i Hi; destruct (Hfb i Hi); lia) H2) as Hreads.
  assert (Hother : forall i, i ∉ fs -> write_all c0 (zip fs gs) !! i = c0 !! i).
  { intros i Hi. apply (write_all_keeps c0 fs gs (fun i => i ∉ fs)); done. }
  remember (write_all c0 (zip fs gs)) as c eqn:Ec.
  assert (Hlc : length c = n). { subst c. rewrite write_all_length. lia. }
  exists c. split; [done|]. split; [done|].
  assert (Hseg : forall i, inseg i -> c !! i = p1 !! i).
  { intros i Hi. rewrite Hother by (intros Hf; by destruct (Hfb i Hf) as (_ & Hn & _)).
    rewrite Hc1. rewrite decide_True; [done|]. by apply in_range. }
  assert (Hsame2 : forall i, ~ inseg i -> (forall g, p2 !! i = Some g -> g ∉ segment p1 a b) -> c !! i = p2 !! i).
  { intros i Hi Hg. rewrite Hother.
    - rewrite Hc1. rewrite decide_False; [done|]. by rewrite in_range.
    - intros Hf. destruct (Hfb i Hf) as (_ & _ & g & H & H'). by apply (Hg g H). }
  split; [split; [exact Hseg|intros i [? ?]; by apply Hsame2]|].
  assert (Hrep : forall i g, ~ inseg i -> p2 !! i = Some g -> g ∈ segment p1 a b ->
    exists s g', is_start s /\ chain s = Some i /\ p2 !! s = Some g' /\ c !! i = Some g' /\ g' ∉ segment p1 a b).
  { intros i g Hi Hg Hin. assert (Hil : i < n) by (rewrite Hlen; by eapply lookup_lt_Some).
    destruct (chain_onto (S n) i [] i) as (s & Hs & Hr).
    - intros k x y _ Hy. apply lookup_lt_Some in Hy. cbn in Hy. lia.
    - apply NoDup_singleton.
    - intros y Hy%elem_of_list_singleton. by subst.
    - done.
    - done.
    - intros _. by exists g.
    - done.
    - done.
    - cbn. lia.
    - destruct (chain_start s Hs) as (j & Hc & Hrj & Hj & Hjn).
      assert (i = j) as <-.
      { clear -Hr Hrj Hi Hj Hsame. induction Hr as [s|s m i Hsm Hmi IH].
        - destruct Hrj as [|s m j Hsm _]; [done|]. by destruct Hsm.
        - apply rtc_inv in Hrj as [-> | (m' & Hm' & Hrj)]; [by destruct Hsm|].
          assert (m' = m) as -> by (eapply R_det; eauto). by apply IH. }
      assert (Hf : i ∈ fs). { apply (H4 s i); [|done|done]. apply in_range. by destruct Hs. }
      destruct (reads_as_in _ _ _ _ Hreads Hf) as (g' & Hg' & _).
      apply elem_of_list_lookup in Hf as [k Hk].
      assert (Egs : gs !! k = Some g').
      { assert (X : ((fun i => c !! i) <$> fs) !! k = Some (Some g')) by (rewrite list_lookup_fmap, Hk; cbn; by rewrite Hg').
        rewrite Hreads, list_lookup_fmap in X. destruct (gs !! k) as [g2|]; [|done]. by injection X as ->. }
      destruct (H3 k i g' Hk Egs) as (s' & _ & Hs' & Hc' & Hg2).
      exists s', g'. split; [done|]. split; [done|]. split; [done|]. split; [done|].
      destruct Hs' as (_ & g3 & Hg3 & Hn3). congruence. }
  assert (Hcases : forall i g, c !! i = Some g ->
     (inseg i /\ p1 !! i = Some g /\ g ∈ segment p1 a b) \/
     (~ inseg i /\ p2 !! i = Some g /\ g ∉ segment p1 a b) \/
     (~ inseg i /\ g ∉ segment p1 a b /\ exists s, is_start s /\ chain s = Some i /\ p2 !! s = Some g)).
  { intros i g Hg. destruct (decide (inseg i)) as [Hi|Hi].
    - left. rewrite Hseg in Hg by done. split; [done|]. split; [done|]. apply in_segment; [done|]. by exists i.
    - right. destruct (lookup_lt_is_Some_2 p2 i) as [g2 Hg2]. { apply lookup_lt_Some in Hg. lia. }
      destruct (decide (g2 ∈ segment p1 a b)) as [Hin|Hout].
      + right. destruct (Hrep i g2 Hi Hg2 Hin) as (s & g' & Hs & Hsc & Hsg & Hci & Hgn).
        assert (g' = g) as -> by congruence. split; [done|]. split; [done|]. by exists s.
      + left. rewrite Hsame2 in Hg; [|done|]; [|intros; congruence]. split; [done|]. split; [done|]. congruence. }
  pose proof (same_NoDup2 p1 p2 Hsame) as Hnd2.
  apply perm_of_nodup; [|intros x Hx|lia].
  - apply NoDup_by_lookup. intros i j g Hi Hj.
    destruct (Hcases i g Hi) as [(Ai & Bi & Ci) | [(Ai & Bi & Ci) | (Ai & Bi & s & Si & Ti & Ui)]];
    destruct (Hcases j g Hj) as [(Aj & Bj & Cj) | [(Aj & Bj & Cj) | (Aj & Bj & s' & Sj & Tj & Uj)]]; try done.
    + eapply lookup_inj; [apply Hsame|done..].
    + by apply (lookup_inj p2 i j g).
    + exfalso. assert (i = s') as -> by (by apply (lookup_inj p2 i s' g)). by destruct Sj.
    + exfalso. assert (j = s) as -> by (by apply (lookup_inj p2 j s g)). by destruct Si.
    + assert (s = s') as -> by (by apply (lookup_inj p2 s s' g)). congruence.
  - apply elem_of_list_lookup in Hx as [i Hi].
    destruct (Hcases i x Hi) as [(Ai & Bi & Ci) | [(Ai & Bi & Ci) | (Ai & Bi & s & Si & Ti & Ui)]].
    + apply elem_of_list_lookup; eauto.
    + apply (same_in p1 p2 Hsame), elem_of_list_lookup; eauto.
    + apply (same_in p1 p2 Hsame), elem_of_list_lookup; eauto.
Qed.
End pmx.
