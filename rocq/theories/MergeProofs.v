From Coq Require Import ZArith Lia.
From stdpp Require Import list sets relations.
From Verif Require Import MergeModel MergeSpec.

Section Merge.
Context {A : Type} (less : A -> A -> bool) (cmp : A -> A -> Z) (lhs rhs : list A).
Hypothesis Hso : strict_order less (lhs ++ rhs).
Hypothesis Hcmp : forall x y, x ∈ lhs ++ rhs -> y ∈ lhs ++ rhs ->
  ((cmp x y < 0)%Z <-> less x y = true) /\ ((0 < cmp x y)%Z <-> less y x = true).
Hypothesis Hal : antichain less lhs.
Hypothesis Har : antichain less rhs.

Lemma no_sandwich_l l l' r : l ∈ lhs -> l' ∈ lhs -> r ∈ rhs -> less l r = true -> less r l' = true -> False.
Proof.
  intros Hl Hl' Hr H1 H2. assert (less l l' = true); [|rewrite Hal in *; done].
  destruct Hso as [_ Ht]. apply (Ht l r l'); set_solver.
Qed.
Lemma no_sandwich_r l r r' : l ∈ lhs -> r ∈ rhs -> r' ∈ rhs -> less r l = true -> less l r' = true -> False.
Proof.
  intros Hl Hr Hr' H1 H2. assert (less r r' = true); [|rewrite Har in *; done].
  destruct Hso as [_ Ht]. apply (Ht r l r'); set_solver.
Qed.

(** What a stored or local value claims. *)
Definition rhs_claim (r : A) (v : dominance) : Prop :=
  match v with
  | UNKNOWN => False
  | OPTIMAL => exists l, l ∈ lhs /\ less l r = true
  | DOMINATED => exists l, l ∈ lhs /\ less r l = true
  end.
Definition lhs_claim (l : A) (v : dominance) : Prop :=
  match v with
  | UNKNOWN => True
  | OPTIMAL => exists r, r ∈ rhs /\ less r l = true
  | DOMINATED => exists r, r ∈ rhs /\ less l r = true
  end.
Definition pos (p : pc) : nat := match p with AtLoad j | Loaded j _ => j end.
(** After [j] iterations of the task of [l]. *)
Definition settled (st : list (list dominance)) (l : A) (ls : dominance) (j : nat) : Prop :=
  forall k r, k < j -> rhs !! k = Some r ->
    (less l r = true -> ls = DOMINATED) /\ (less r l = true -> exists h, st !! k = Some h /\ DOMINATED ∈ h).
Record inv (s : mstate) : Prop := {
  inv_tasks : length (tasks s) = length lhs;
  inv_stores : length (stores s) = length rhs;
  inv_rhs : forall j h r v, stores s !! j = Some h -> rhs !! j = Some r -> v ∈ h -> rhs_claim r v;
  inv_lhs : forall i l ls p, tasks s !! i = Some (ls, p) -> lhs !! i = Some l -> lhs_claim l ls /\ settled (stores s) l ls (pos p);
  inv_loaded : forall i ls j v h, tasks s !! i = Some (ls, Loaded j v) -> stores s !! j = Some h -> v = UNKNOWN \/ v ∈ h;
}.

Lemma inv_init : inv (init_state lhs rhs).
Proof.
  split; cbn.
  - apply fmap_length.
  - apply fmap_length.
  - intros j h r v Hj. rewrite list_lookup_fmap in Hj. destruct (rhs !! j); [|done]. cbn in Hj. injection Hj as <-. set_solver.
  - intros i l ls p Hi. rewrite list_lookup_fmap in Hi. destruct (lhs !! i); [|done]. cbn in Hi. injection Hi as <- <-.
    intros _. split; [done|]. intros k r Hk. cbn in Hk. lia.
  - intros i ls j v h Hi. rewrite list_lookup_fmap in Hi. destruct (lhs !! i); done.
Qed.

(** The body: what it claims, and what it settles. *)
Lemma body_ok l r ls v : l ∈ lhs -> r ∈ rhs -> lhs_claim l ls -> (v = UNKNOWN \/ rhs_claim r v) ->
  lhs_claim l (body less cmp l r ls v).1 /\
  (forall w, (body less cmp l r ls v).2 = Some w -> rhs_claim r w) /\
  (ls = DOMINATED -> (body less cmp l r ls v).1 = DOMINATED) /\
  (less l r = true -> (body less cmp l r ls v).1 = DOMINATED) /\
  (less r l = true -> (body less cmp l r ls v).2 = Some DOMINATED \/ v = DOMINATED).
Proof.
  intros Hl Hr Hlc Hrc.
  assert (Hc := Hcmp l r ltac:(set_solver) ltac:(set_solver)). destruct Hc as [Hc1 Hc2].
  assert (Has : less l r = true -> less r l = true -> False).
  { intros H1 H2. apply (no_sandwich_l l l r); done. }
  unfold body. destruct ls, v; cbn [decide] in *;
    repeat (first [rewrite decide_True by done | rewrite decide_False by done]); cbn.
  - (* both unknown *)
    destruct (Z.ltb_spec (cmp l r) 0) as [H|H]; [|destruct (Z.ltb_spec 0 (cmp l r)) as [H'|H']]; cbn.
    + apply Hc1 in H. split; [eauto|]. split; [intros w Hw; injection Hw as <-; cbn; eauto|]. split; [done|]. split; [done|].
      intros H2. exfalso; auto.
    + apply Hc2 in H'. split; [eauto|]. split; [intros w Hw; injection Hw as <-; cbn; eauto|]. split; [done|].
      split; [intros H2; exfalso; auto|auto].
    + split; [done|]. split; [done|]. split; [done|]. split; [intros H2; apply Hc1 in H2; lia|intros H2; apply Hc2 in H2; lia].
  - destruct Hrc as [?|(l'&Hl'&H)]; [done|]. destruct (less l r) eqn:E; cbn.
    + split; [eauto|]. split; [done|]. split; [done|]. split; [done|]. intros H2. exfalso; auto.
    + split; [done|]. split; [done|]. split; [done|]. split; [done|]. intros H2. exfalso. apply (no_sandwich_l l' l r); done.
  - destruct Hrc as [?|(l'&Hl'&H)]; [done|]. split; [done|]. split; [done|]. split; [done|]. split; [|auto].
    intros H2. exfalso. apply (no_sandwich_l l l' r); done.
  - destruct Hlc as (r'&Hr'&H). destruct (decide (UNKNOWN = UNKNOWN /\ less r l = true)) as [[_ E]|E]; cbn.
    + split; [eauto|]. split; [intros w Hw; injection Hw as <-; cbn; eauto|]. split; [done|]. split; [|auto]. intros H2. exfalso; auto.
    + split; [eauto|]. split; [done|]. split; [done|]. split; [|intros H2; exfalso; auto].
      intros H2. exfalso. apply (no_sandwich_r l r' r); done.
  - destruct Hlc as (r'&Hr'&H). destruct Hrc as [?|(l'&Hl'&H')]; [done|].
    destruct (decide (OPTIMAL = UNKNOWN /\ less r l = true)) as [[? _]|_]; [done|]. cbn.
    split; [eauto|]. split; [done|]. split; [done|].
    split; [intros H2; exfalso; apply (no_sandwich_r l r' r); done|intros H2; exfalso; apply (no_sandwich_l l' l r); done].
  - destruct Hlc as (r'&Hr'&H). destruct Hrc as [?|(l'&Hl'&H')]; [done|].
    split; [eauto|]. split; [done|]. split; [done|]. split; [intros H2; exfalso; apply (no_sandwich_r l r' r); done|auto].
  - destruct Hlc as (r'&Hr'&H). split; [eauto|]. split; [done|]. split; [done|]. split; [done|].
    intros H2. exfalso. apply (no_sandwich_r l r r'); done.
  - destruct Hlc as (r'&Hr'&H). split; [eauto|]. split; [done|]. split; [done|]. split; [done|].
    intros H2. exfalso. apply (no_sandwich_r l r r'); done.
  - destruct Hlc as (r'&Hr'&H). split; [eauto|]. split; [done|]. split; [done|]. split; [done|]. auto.
Qed.

Lemma inv_step s s' : inv s -> step less cmp lhs rhs s s' -> inv s'.
Proof.
  intros [H1 H2 H3 H4 H5] Hs. inversion Hs; subst; clear Hs; cbn [tasks stores] in *.
  - match goal with H : ts !! i = _ |- _ => rename H into Hi end.
    match goal with H : st !! j = _ |- _ => rename H into Hh end.
    split; cbn [tasks stores]; [rewrite insert_length; done|done|done| |].
    + intros i' l ls' p Hi'. apply list_lookup_insert_Some in Hi' as [(<-&E&_)|[_ Hi']]; [|eauto].
      injection E as <- <-. intros Hl. apply (H4 i l ls (AtLoad j)); done.
    + intros i' ls' j' v' h' Hi'. apply list_lookup_insert_Some in Hi' as [(<-&E&_)|[_ Hi']]; [|eauto].
      injection E as <- <- <-. rewrite Hh. intros E. injection E as <-. done.
  - match goal with H : ts !! i = _ |- _ => rename H into Hi end.
    match goal with H : st !! j = _ |- _ => rename H into Hh end.
    match goal with H : lhs !! i = _ |- _ => rename H into Hl end.
    match goal with H : rhs !! j = _ |- _ => rename H into Hr end.
    destruct (H4 i l ls _ Hi Hl) as [Hlc Hset].
    assert (Hlin : l ∈ lhs) by (apply elem_of_list_lookup; eauto).
    assert (Hrin : r ∈ rhs) by (apply elem_of_list_lookup; eauto).
    assert (Hv : v = UNKNOWN \/ v ∈ h) by (eapply H5; eauto).
    destruct (body_ok l r ls v Hlin Hrin Hlc) as (B1&B2&B3&B4&B5).
    { destruct Hv as [?|Hv]; [by left|right]. eapply H3; eauto. }
    remember (body less cmp l r ls v) as bd eqn:Ebd. clear Ebd.
    remember (h ++ match bd.2 with Some w => [w] | None => [] end) as h' eqn:Eh.
    assert (Hj : j < length st) by (apply lookup_lt_Some in Hh; done).
    assert (Hmono : forall k x, (exists h0, st !! k = Some h0 /\ x ∈ h0) -> exists h0, <[j := h']> st !! k = Some h0 /\ x ∈ h0).
    { intros k x (h0&Hk&Hx). destruct (decide (k = j)) as [->|Hne].
      - exists h'. rewrite list_lookup_insert by done. split; [done|]. rewrite Hh in Hk. injection Hk as <-. rewrite Eh. set_solver.
      - exists h0. rewrite list_lookup_insert_ne by done. done. }
    split; cbn [tasks stores]; [rewrite insert_length; done..| | |].
    + intros j' h0 r' w Hj' Hr' Hw. apply list_lookup_insert_Some in Hj' as [(<-&<-&_)|[_ Hj']]; [|eauto].
      rewrite Hr in Hr'. injection Hr' as <-. rewrite Eh in Hw. apply elem_of_app in Hw as [Hw|Hw]; [eauto|].
      destruct bd.2 eqn:E; [|set_solver]. apply elem_of_list_singleton in Hw as ->. apply B2. done.
    + intros i' l' ls' p Hi' Hl'. apply list_lookup_insert_Some in Hi' as [(<-&E&_)|[_ Hi']].
      * injection E as <- <-. rewrite Hl in Hl'. injection Hl' as <-. split; [done|]. cbn [pos].
        intros k rk Hk Hrk. destruct (decide (k = j)) as [->|Hne].
        -- rewrite Hr in Hrk. injection Hrk as <-. split; [done|]. intros Hlt. exists h'. rewrite list_lookup_insert by done.
           split; [done|]. rewrite Eh. destruct (B5 Hlt) as [->|E]; [set_solver|]. subst v.
           destruct Hv as [?|?]; [done|set_solver].
        -- destruct (Hset k rk) as [S1 S2]; [cbn; lia|done|]. split; [auto|]. intros Hlt. apply Hmono. auto.
      * destruct (H4 i' l' ls' p Hi' Hl') as [C1 C2]. split; [done|]. intros k rk Hk Hrk. destruct (C2 k rk Hk Hrk) as [S1 S2].
        split; [done|]. auto.
    + intros i' ls' j' v' h0 Hi' Hj'. apply list_lookup_insert_Some in Hi' as [(<-&E&_)|[_ Hi']]; [done|].
      apply list_lookup_insert_Some in Hj' as [(<-&<-&_)|[_ Hj']]; [|eauto].
      destruct (H5 i' ls' j v' h Hi' Hh) as [?|?]; [by left|right]. rewrite Eh. set_solver.
Qed.

Lemma inv_reach s : rtc (step less cmp lhs rhs) (init_state lhs rhs) s -> inv s.
Proof.
  intros H. assert (forall s0, inv s0 -> rtc (step less cmp lhs rhs) s0 s -> inv s) as Hg.
  { clear H. intros s0 H0 H. induction H as [|s1 s2 s3 H12 H23 IH]; [done|]. apply IH. eapply inv_step; done. }
  eapply Hg; [apply inv_init|done].
Qed.

Lemma collect_ok (p : A -> bool) (l : list A) : forall st, length st = length l ->
  (forall i x s, l !! i = Some x -> st !! i = Some s -> (s = DOMINATED <-> p x = false)) ->
  collect l st = filter (fun x => p x = true) l.
Proof.
  induction l as [|x l IH]; intros [|s st] Hl H; try done. cbn [collect].
  rewrite (IH st); [|cbn in Hl; lia|intros i y s' Hy Hs'; apply (H (S i)); done].
  pose proof (H 0 x s eq_refl eq_refl) as Hx. destruct (decide (s = DOMINATED)) as [E|E].
  - rewrite filter_cons_False; [done|]. apply Hx in E. congruence.
  - rewrite filter_cons_True; [done|]. destruct (p x); [done|]. exfalso. apply E. apply Hx. done.
Qed.

Lemma kept_false x : forallb (fun y => negb (less x y)) (lhs ++ rhs) = false <-> exists y, y ∈ lhs ++ rhs /\ less x y = true.
Proof.
  rewrite <- not_true_iff_false, forallb_forall. split.
  - intros H. destruct (decide (Exists (fun y => less x y = true) (lhs ++ rhs))) as [He|He].
    + apply Exists_exists in He. done.
    + exfalso. apply H. intros y Hy. apply negb_true_iff. apply not_true_is_false. intros E. apply He. apply Exists_exists.
      exists y. split; [apply elem_of_list_In; done|done].
  - intros (y&Hy&E) H. apply elem_of_list_In in Hy. apply H in Hy. rewrite E in Hy. done.
Qed.

Lemma merge_ok s rst :
  rtc (step less cmp lhs rhs) (init_state lhs rhs) s -> finished rhs s -> Forall2 final_value (stores s) rst ->
  collect lhs (fst <$> tasks s) = undominated less (lhs ++ rhs) lhs /\
  collect rhs rst = undominated less (lhs ++ rhs) rhs.
Proof.
  intros Hr Hf Hv. apply inv_reach in Hr as [H1 H2 H3 H4 H5].
  assert (Hfin : forall i l ls p, tasks s !! i = Some (ls, p) -> lhs !! i = Some l ->
    lhs_claim l ls /\ settled (stores s) l ls (length rhs)).
  { intros i l ls p Hi Hl. destruct (H4 i l ls p Hi Hl) as [C1 C2]. split; [done|]. unfold finished in Hf. rewrite Forall_lookup in Hf.
    apply Hf in Hi. cbn in Hi. subst p. done. }
  split.
  - apply collect_ok; [rewrite fmap_length; done|]. intros i l ls Hl Hi. rewrite list_lookup_fmap in Hi.
    destruct (tasks s !! i) as [[ls' p]|] eqn:Ei; [|done]. cbn in Hi. injection Hi as ->.
    destruct (Hfin i l ls p Ei Hl) as [C1 C2]. rewrite kept_false.
    assert (Hlin : l ∈ lhs) by (apply elem_of_list_lookup; eauto). split.
    + intros ->. destruct C1 as (r&Hr&Hlt). exists r. set_solver.
    + intros (y&Hy&Hlt). apply elem_of_app in Hy as [Hy|Hy]; [rewrite Hal in Hlt; done|].
      apply elem_of_list_lookup in Hy as [k Hk]. destruct (C2 k y) as [S1 _]; [apply lookup_lt_Some in Hk; done|done|auto].
  - apply collect_ok; [rewrite <- H2; symmetry; eapply Forall2_length; exact Hv|]. intros j r v Hr Hj. rewrite kept_false.
    assert (Hrin : r ∈ rhs) by (apply elem_of_list_lookup; eauto).
    rewrite Forall2_lookup in Hv. specialize (Hv j). rewrite Hj in Hv. inversion Hv as [h v' Hfv E1 E2|]; subst.
    symmetry in E1. split.
    + intros ->. destruct Hfv as [[_ ?]|Hin]; [done|]. destruct (H3 j h r _ E1 Hr Hin) as (l&Hl&Hlt). exists l. set_solver.
    + intros (y&Hy&Hlt). apply elem_of_app in Hy as [Hy|Hy]; [|rewrite Har in Hlt; done].
      pose proof Hy as Hyin. apply elem_of_list_lookup in Hy as [i Hi].
      destruct (lookup_lt_is_Some_2 (tasks s) i) as [[ls p] Ht]; [apply lookup_lt_Some in Hi; lia|].
      destruct (Hfin i y ls p Ht Hi) as [_ C2]. destruct (C2 j r) as [_ S2]; [apply lookup_lt_Some in Hr; done|done|].
      destruct (S2 Hlt) as (h0&Hh0&Hd). rewrite E1 in Hh0. injection Hh0 as <-.
      destruct Hfv as [[-> _]|Hin]; [set_solver|]. pose proof (H3 j h r v E1 Hr Hin) as Hc.
      destruct v; [done| |done]. destruct Hc as (l&Hl&Hlt'). exfalso. apply (no_sandwich_l l y r); done.
Qed.
End Merge.
