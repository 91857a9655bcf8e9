From Coq Require Import Lia.
From stdpp Require Import list list_numbers sets.
From Verif Require Import StdSort AlgorithmModel AlgorithmSpec.

Local Arguments Nat.div : simpl never.
Local Arguments Nat.modulo : simpl never.

(** ** lower_bound *)
Section LB.
Context {A V : Type} (comp : A -> V -> bool) (l : list A) (v : V).
Hypothesis Hpart : partitioned (fun x => comp x v) l.
Definition lb_ok (first : nat) : Prop := forall j x, j < first -> l !! j = Some x -> comp x v = true.

Lemma lb_halve_ok fuel : forall first len, len < fuel -> first + len <= length l -> lb_ok first ->
  exists f, lb_halve comp l v fuel first len = Some f /\ f <= length l /\ lb_ok f.
Proof.
  induction fuel as [|fuel IH]; intros first len Hf Hlen Hok; [lia|]. cbn.
  destruct (decide (32 < len)) as [H32|H32]; [|exists first; split; [done|split; [lia|done]]].
  pose proof (Nat.div_mod len 2 ltac:(lia)) as Hdm. pose proof (Nat.mod_upper_bound len 2 ltac:(lia)) as Hm.
  destruct (lookup_lt_is_Some_2 l (first + len / 2)) as [x Hx]; [lia|]. rewrite Hx. cbn.
  apply IH; [lia| |].
  - destruct (comp x v); lia.
  - destruct (comp x v) eqn:E; [|done]. intros j y Hj Hy.
    destruct (comp y v) eqn:Ey; [done|]. rewrite <- E. symmetry.
    apply (Hpart j (first + len / 2) y x); done.
Qed.
Lemma lb_scan_ok : forall first, lb_ok first -> first <= length l ->
  first_failing (fun x => comp x v) l (lb_scan comp (drop first l) v first).
Proof.
  intros first. remember (drop first l) as rest eqn:E. revert first E.
  induction rest as [|x rest IH]; intros first E Hok Hle; cbn.
  - split; [done|split; [done|]]. intros x Hx. apply lookup_lt_Some in Hx.
    apply (f_equal length) in E. rewrite drop_length in E. cbn in E. lia.
  - assert (Hx : l !! first = Some x) by (rewrite <- (Nat.add_0_r first), <- lookup_drop, <- E; done).
    destruct (comp x v) eqn:Ex.
    + apply IH.
      * rewrite (drop_S _ x) in E by done. congruence.
      * intros j y Hj Hy. destruct (decide (j = first)) as [->|]; [congruence|]. apply (Hok j); [lia|done].
      * apply lookup_lt_Some in Hx. lia.
    + split; [done|split; [done|]]. congruence.
Qed.
Lemma lower_bound_ok : exists i, lower_bound comp l v = Some i /\ first_failing (fun x => comp x v) l i.
Proof.
  unfold lower_bound. destruct (lb_halve_ok (S (length l)) 0 (length l)) as (f&Hf&Hle&Hok); [lia..| |].
  - intros j x Hj. lia.
  - rewrite Hf. cbn [mbind option_bind]. eexists; split; [done|]. apply lb_scan_ok; done.
Qed.
End LB.

(** ** argsort *)
Section AS.
Context {A : Type} (lt : A -> A -> bool).

Lemma in_seq_lookup (r : list A) i : i ∈ seq 0 (length r) -> is_Some (r !! i).
Proof. rewrite elem_of_seq. intros H. apply lookup_lt_is_Some_2. lia. Qed.

Lemma cmp_fwd_swo r : swo_on lt r -> swo_on (cmp_fwd lt r) (seq 0 (length r)).
Proof.
  intros H. unfold cmp_fwd. split.
  - intros i Hi. apply in_seq_lookup in Hi as [x Hx]. rewrite Hx. apply (swo_irrefl _ _ H).
    eapply elem_of_list_lookup_2; done.
  - intros i j k Hi Hj Hk. apply in_seq_lookup in Hi as [x Hx], Hj as [y Hy], Hk as [z Hz]. rewrite Hx, Hy, Hz.
    apply (swo_trans _ _ H); eapply elem_of_list_lookup_2; done.
  - intros i j k Hi Hj Hk. apply in_seq_lookup in Hi as [x Hx], Hj as [y Hy], Hk as [z Hz]. rewrite Hx, Hy, Hz.
    apply (swo_negtrans _ _ H); eapply elem_of_list_lookup_2; done.
Qed.
Lemma cmp_rev_fwd r i j : i ∈ seq 0 (length r) -> j ∈ seq 0 (length r) ->
  cmp_rev lt r i j = cmp_fwd lt (reverse r) j i.
Proof.
  rewrite !elem_of_seq. intros Hi Hj. unfold cmp_rev, cmp_fwd.
  rewrite !reverse_lookup by lia. replace (length r - S j) with (length r - 1 - j) by lia.
  replace (length r - S i) with (length r - 1 - i) by lia. done.
Qed.
Lemma cmp_rev_swo r : swo_on lt r -> swo_on (cmp_rev lt r) (seq 0 (length r)).
Proof.
  intros H. assert (H' : swo_on lt (reverse r)).
  { apply (swo_on_subset lt r); [|done]. intros x. rewrite elem_of_reverse. done. }
  pose proof (cmp_fwd_swo _ H') as [H1 H2 H3]. rewrite reverse_length in *. split.
  - intros i Hi. rewrite cmp_rev_fwd by done. auto.
  - intros i j k Hi Hj Hk. rewrite !cmp_rev_fwd by done. intros. apply (H2 k j i); done.
  - intros i j k Hi Hj Hk. rewrite !cmp_rev_fwd by done. intros. apply (H3 k j i); done.
Qed.

Definition gt (x y : A) := lt y x.

Lemma ordered_from_sorted_fwd r is k :
  (forall a b i j, a < k -> a < b -> is !! a = Some i -> is !! b = Some j -> cmp_fwd lt r j i = false) ->
  ordered_through lt k r is.
Proof.
  intros H a b i j x y Hk Hab Hi Hj Hx Hy. specialize (H a b i j Hk Hab Hi Hj).
  unfold cmp_fwd in H. rewrite Hy, Hx in H. done.
Qed.
Lemma ordered_from_sorted_rev r is k : is ≡ₚ seq 0 (length r) ->
  (forall a b i j, a < k -> a < b -> is !! a = Some i -> is !! b = Some j -> cmp_rev lt r j i = false) ->
  ordered_through gt k (reverse r) is.
Proof.
  intros Hp H a b i j x y Hk Hab Hi Hj Hx Hy. specialize (H a b i j Hk Hab Hi Hj).
  rewrite cmp_rev_fwd in H.
  - unfold cmp_fwd in H. rewrite Hy, Hx in H. done.
  - rewrite <- Hp. eapply elem_of_list_lookup_2; done.
  - rewrite <- Hp. eapply elem_of_list_lookup_2; done.
Qed.

Lemma argsort_ok sort rev r : sort_contract sort -> swo_on lt r ->
  index_perm r (argsort sort lt rev r) /\
  if rev then ordered_through gt (length r) (reverse r) (argsort sort lt rev r)
  else ordered_through lt (length r) r (argsort sort lt rev r).
Proof.
  intros Hs Hl. unfold argsort, index_perm, index_vector. destruct rev.
  - destruct (Hs _ _ (cmp_rev_swo r Hl)) as [H1 H2]. split; [done|].
    apply ordered_from_sorted_rev; [done|]. intros a b i j _ Hab Hi Hj. apply (H2 a b); done.
  - destruct (Hs _ _ (cmp_fwd_swo r Hl)) as [H1 H2]. split; [done|].
    apply ordered_from_sorted_fwd. intros a b i j _ Hab Hi Hj. apply (H2 a b); done.
Qed.
Lemma ordered_through_mono (f : A -> A -> bool) k k' r is : k <= k' ->
  ordered_through f k' r is -> ordered_through f k r is.
Proof. intros H Ho a b i j x y Ha. apply Ho. lia. Qed.

Lemma partial_argsort_ok sort psort full rev m r :
  sort_contract sort -> partial_sort_contract psort -> swo_on lt r -> m <= length r ->
  exists is, partial_argsort sort psort lt full rev m r = Some is /\ index_perm r is /\
  if rev then ordered_through gt m (reverse r) is else ordered_through lt m r is.
Proof.
  intros Hs Hps Hl Hm. unfold partial_argsort. rewrite decide_True by done. eexists; split; [done|].
  destruct full.
  - destruct (argsort_ok sort rev r Hs Hl) as [H1 H2]. split; [done|].
    destruct rev; (eapply ordered_through_mono; [|done]; lia).
  - unfold index_perm, index_vector. destruct rev.
    + destruct (Hps _ m (seq 0 (length r)) ltac:(rewrite seq_length; lia) (cmp_rev_swo r Hl)) as [H1 H2].
      split; [done|]. apply ordered_from_sorted_rev; [done|]. intros a b i j Ha Hab Hi Hj. apply (H2 a b); done.
    + destruct (Hps _ m (seq 0 (length r)) ltac:(rewrite seq_length; lia) (cmp_fwd_swo r Hl)) as [H1 H2].
      split; [done|]. apply ordered_from_sorted_fwd. intros a b i j Ha Hab Hi Hj. apply (H2 a b); done.
Qed.
End AS.

(** ** Extrema *)
Section EX.
Context {A B : Type}.

Lemma max_loop_ok (lt : B -> B -> bool) (f : A -> B) (l : list A) (rest : list A) :
  swo_on lt (f <$> l) -> forall pre best bv, l = pre ++ rest ->
  l !! best = Some bv -> best < length pre -> first_max lt (f <$> pre) best ->
  first_max lt (f <$> l) (max_loop lt f rest (length pre) best (f bv)).
Proof.
  intros Hswo. induction rest as [|x rest IH]; intros pre best bv Hl Hb Hbl Hmax; cbn.
  - rewrite app_nil_r in Hl. subst. done.
  - assert (Hin : forall y, y ∈ pre ++ [x] -> f y ∈ f <$> l).
    { intros y Hy. apply elem_of_list_fmap_1. rewrite Hl. set_solver. }
    replace (S (length pre)) with (length (pre ++ [x])) by (rewrite app_length; cbn; lia).
    assert (Hl' : l = (pre ++ [x]) ++ rest) by (rewrite <- app_assoc; done).
    destruct Hmax as (bv'&Hb'&Hm1&Hm2).
    assert (Hbp : pre !! best = Some bv).
    { rewrite Hl in Hb. rewrite lookup_app_l in Hb by done. done. }
    rewrite list_lookup_fmap, Hbp in Hb'. cbn in Hb'. injection Hb' as <-.
    assert (Hbv : f bv ∈ f <$> l).
    { apply elem_of_list_fmap_1. eapply elem_of_list_lookup_2; done. }
    destruct (lt (f bv) (f x)) eqn:E.
    + apply IH; [done| |rewrite app_length; cbn; lia|].
      * rewrite Hl. apply list_lookup_middle. done.
      * exists (f x). split; [rewrite list_lookup_fmap, list_lookup_middle; done|].
        assert (Hall : forall y, y ∈ pre -> lt (f y) (f x) = true).
        { intros y Hy. destruct (lt (f y) (f x)) eqn:Ey; [done|]. rewrite <- E. symmetry.
          apply (swo_negtrans _ _ Hswo _ (f y)); [done| |apply Hin; set_solver| |done].
          - apply Hin. set_solver.
          - apply elem_of_list_lookup in Hy as [j Hj]. apply (Hm1 j). rewrite list_lookup_fmap, Hj. done. }
        split.
        -- intros j y Hy. rewrite list_lookup_fmap in Hy. destruct ((pre ++ [x]) !! j) as [z|] eqn:Ez; [|done].
           cbn in Hy. injection Hy as <-. apply elem_of_list_lookup_2, elem_of_app in Ez as [Ez|Ez].
           ++ apply (swo_asym lt (f <$> l)); [done|apply Hin; set_solver..|auto].
           ++ apply elem_of_list_singleton in Ez as ->. apply (swo_irrefl _ _ Hswo). apply Hin. set_solver.
        -- intros j y Hj Hy. rewrite list_lookup_fmap in Hy. destruct ((pre ++ [x]) !! j) as [z|] eqn:Ez; [|done].
           cbn in Hy. injection Hy as <-. rewrite lookup_app_l in Ez by done. apply Hall. eapply elem_of_list_lookup_2; done.
    + apply IH; [done..|rewrite app_length; cbn; lia|].
      exists (f bv). split; [rewrite list_lookup_fmap, lookup_app_l, Hbp; done|]. split.
      * intros j y Hy. rewrite list_lookup_fmap in Hy. destruct ((pre ++ [x]) !! j) as [z|] eqn:Ez; [|done].
        cbn in Hy. injection Hy as <-. destruct (decide (j < length pre)).
        -- rewrite lookup_app_l in Ez by done. apply (Hm1 j). rewrite list_lookup_fmap, Ez. done.
        -- apply lookup_app_Some in Ez as [Ez|[_ Ez]]; [apply lookup_lt_Some in Ez; lia|].
           apply elem_of_list_lookup_2, elem_of_list_singleton in Ez as ->. done.
      * intros j y Hj Hy. apply (Hm2 j); [done|]. rewrite list_lookup_fmap in *. rewrite lookup_app_l in Hy by lia. done.
Qed.
Lemma max_element_ok (lt : B -> B -> bool) (f : A -> B) (l : list A) : l <> [] -> swo_on lt (f <$> l) ->
  first_max lt (f <$> l) (max_element lt f l).
Proof.
  intros Hne Hswo. destruct l as [|x l]; [done|]. cbn [max_element].
  apply (max_loop_ok lt f (x :: l) l Hswo [x] 0 x); [done|done|cbn; lia|].
  exists (f x). split; [done|]. split; [|intros j y Hj; lia]. intros j y Hy. destruct j; [|done].
  cbn in Hy. injection Hy as <-. apply (swo_irrefl _ _ Hswo). set_solver.
Qed.
Lemma min_loop_max (lt : B -> B -> bool) (f : A -> B) rest : forall first best bv,
  min_loop lt f rest first best bv = max_loop (fun x y => lt y x) f rest first best bv.
Proof. induction rest as [|x rest IH]; intros; cbn; [done|]. destruct (lt (f x) bv); apply IH. Qed.
Lemma min_element_max (lt : B -> B -> bool) (f : A -> B) l : min_element lt f l = max_element (fun x y => lt y x) f l.
Proof. destruct l; [done|apply min_loop_max]. Qed.
Lemma swo_flip (lt : B -> B -> bool) l : swo_on lt l -> swo_on (fun x y => lt y x) l.
Proof.
  intros [H1 H2 H3]. split; [done| |].
  - intros x y z Hx Hy Hz Hxy Hyz. apply (H2 z y x); done.
  - intros x y z Hx Hy Hz Hxy Hyz. apply (H3 z y x); done.
Qed.
Lemma first_max_lt (lt : B -> B -> bool) l i : first_max lt l i -> i < length l.
Proof. intros (x&Hx&_). apply lookup_lt_Some in Hx. done. Qed.
Lemma first_max_reverse (lt : B -> B -> bool) l i : first_max lt l i -> last_max lt (reverse l) (length l - 1 - i).
Proof.
  intros H. pose proof (first_max_lt _ _ _ H) as Hi. destruct H as (x&Hx&H1&H2). exists x. split; [|split].
  - rewrite reverse_lookup by lia. replace (length l - S (length l - 1 - i)) with i by lia. done.
  - intros j y Hy. assert (y ∈ l) as Hin by (rewrite <- elem_of_reverse; eapply elem_of_list_lookup_2; done).
    apply elem_of_list_lookup in Hin as [j' Hj']. apply (H1 j'). done.
  - intros j y Hj Hy. pose proof (lookup_lt_Some _ _ _ Hy) as Hjl. rewrite reverse_length in Hjl.
    rewrite reverse_lookup in Hy by lia. apply (H2 (length l - S j)); [lia|done].
Qed.
End EX.

(** ** partial_shuffle *)
Section SH.
Context {A : Type}.
Implicit Types (l : list A).

Fixpoint sh l (n : nat) (draws : list nat) : option (list A) :=
  match n with
  | 0 => Some l
  | S n => match draws with
           | [] => None
           | d :: ds => match iter_swap l 0 d with
                        | Some (y :: r) => k ← sh r n ds; Some (y :: k)
                        | _ => None
                        end
           end
  end.
Lemma iter_swap_pre (pre l : list A) d : iter_swap (pre ++ l) (length pre) (length pre + d) = (pre ++.) <$> iter_swap l 0 d.
Proof.
  unfold iter_swap. rewrite !lookup_app_r by lia. rewrite Nat.sub_diag.
  replace (length pre + d - length pre) with d by lia.
  destruct (l !! 0) as [x|]; [|done]. cbn. destruct (l !! d) as [y|]; [|done]. cbn. f_equal.
  rewrite insert_app_r_alt by lia. rewrite Nat.sub_diag. rewrite insert_app_r_alt by lia.
  replace (length pre + d - length pre) with d by lia. done.
Qed.
Lemma iter_swap_head x l d : d < S (length l) ->
  exists y r, iter_swap (x :: l) 0 d = Some (y :: r) /\ (x :: l) !! d = Some y /\ x :: l ≡ₚ y :: r.
Proof.
  intros Hd. unfold iter_swap. cbn. destruct d as [|d]; cbn; [eauto 6|].
  destruct (lookup_lt_is_Some_2 l d) as [y Hy]; [lia|]. exists y, (<[d := x]> l). split; [|split; [done|]].
  { change (l !! d ≫= (fun y0 => Some (y0 :: <[d := x]> l)) = Some (y :: <[d := x]> l)). rewrite Hy. done. }
  pose proof (delete_Permutation _ _ _ Hy) as H1.
  rewrite H1 at 1. rewrite Permutation_swap. constructor.
  rewrite (delete_Permutation (<[d := x]> l) d x).
  - rewrite !delete_take_drop. constructor.
    rewrite take_insert by lia. rewrite drop_insert_gt by lia. done.
  - apply list_lookup_insert. lia.
Qed.
Lemma iter_swap_none l d : length l <= d -> iter_swap l 0 d = None.
Proof.
  intros H. unfold iter_swap. destruct (l !! 0); [|done]. cbn. rewrite lookup_ge_None_2 by done. done.
Qed.

Lemma pshuffle_sh n : forall (pre l : list A) draws,
  pshuffle_loop (pre ++ l) (length pre) n draws = (pre ++.) <$> sh l n draws.
Proof.
  induction n as [|n IH]; intros pre l draws; cbn; [done|]. destruct draws as [|d ds]; [done|].
  rewrite iter_swap_pre. rewrite app_length. destruct l as [|x l].
  - cbn. destruct (decide _); done.
  - cbn [length]. destruct (decide (d <= length pre + S (length l) - length pre - 1)) as [Hd|Hd].
    + destruct (iter_swap_head x l d) as (y&r&Hs&_); [lia|]. rewrite Hs. cbn.
      replace (pre ++ y :: r) with ((pre ++ [y]) ++ r) by (rewrite <- app_assoc; done).
      replace (S (length pre)) with (length (pre ++ [y])) by (rewrite app_length; cbn; lia).
      rewrite IH. destruct (sh r n ds) as [k|]; cbn; [|done]. rewrite <- app_assoc. done.
    + rewrite iter_swap_none; [done|]. cbn. lia.
Qed.

Lemma valid_draws_cons n d ds : valid_draws (S n) (d :: ds) <-> d < S n /\ valid_draws n ds.
Proof.
  unfold valid_draws. cbn. split.
  - intros [Hl H]. split; [apply (H 0); done|]. split; [lia|]. intros i e He. specialize (H (S i) e He). lia.
  - intros [Hd [Hl H]]. split; [lia|]. intros i e He. destruct i; cbn in He; [injection He as <-; lia|].
    specialize (H i e He). lia.
Qed.

Lemma sh_ok n : forall l draws, length draws = n -> valid_draws (length l) draws ->
  exists k, sh l n draws = Some k /\ l ≡ₚ k.
Proof.
  induction n as [|n IH]; intros l draws Hn Hv; cbn; [eauto|].
  destruct draws as [|d ds]; [done|]. destruct l as [|x l]; [destruct Hv; cbn in *; lia|].
  cbn [length] in Hv. apply valid_draws_cons in Hv as [Hd Hv].
  destruct (iter_swap_head x l d Hd) as (y&r&Hs&_&Hp). rewrite Hs. cbn.
  destruct (IH r ds) as (k&Hk&Hkp).
  - cbn in Hn. lia.
  - assert (length (x :: l) = length (y :: r)) as E by (rewrite Hp; done). cbn in E. injection E as <-. done.
  - rewrite Hk. cbn. eexists; split; [done|]. rewrite Hp, Hkp. done.
Qed.
Lemma sh_length n l draws k : sh l n draws = Some k -> n <= length k.
Proof.
  revert l draws k. induction n as [|n IH]; intros l draws k H; [lia|].
  cbn in H. destruct draws as [|d ds]; [done|]. destruct (iter_swap l 0 d) as [[|y r]|]; [done| |done].
  destruct (sh r n ds) as [k'|] eqn:E; [|done]. cbn in H. injection H as <-. cbn. apply IH in E. lia.
Qed.
Lemma sh_inj n : forall l ds ds' k k', NoDup l -> length ds = n -> length ds' = n ->
  sh l n ds = Some k -> sh l n ds' = Some k' -> take n k = take n k' -> ds = ds'.
Proof.
  induction n as [|n IH]; intros l ds ds' k k' Hnd Hn Hn' H H' Hk; cbn in *.
  - destruct ds, ds'; done.
  - destruct ds as [|d ds]; [done|]. destruct ds' as [|d' ds']; [done|].
    destruct l as [|x l]; [unfold iter_swap in H; done|].
    destruct (decide (d < S (length l))) as [Hd|Hd]; [|rewrite iter_swap_none in H by (cbn; lia); done].
    destruct (decide (d' < S (length l))) as [Hd'|Hd']; [|rewrite iter_swap_none in H' by (cbn; lia); done].
    destruct (iter_swap_head x l d Hd) as (y&r&Hs&Hy&Hp). destruct (iter_swap_head x l d' Hd') as (y'&r'&Hs'&Hy'&Hp').
    rewrite Hs in H. rewrite Hs' in H'. destruct (sh r n ds) as [q|] eqn:E; [|done].
    destruct (sh r' n ds') as [q'|] eqn:E'; [|done]. cbn in H, H'. injection H as <-. injection H' as <-.
    cbn in Hk. injection Hk as Hyy Hk. subst y'.
    assert (d = d') as <- by (eapply NoDup_lookup; done).
    rewrite Hs in Hs'. injection Hs' as <-.
    f_equal. eapply (IH r); try done; try (cbn in *; lia). rewrite Hp in Hnd. apply NoDup_cons in Hnd as [_ Hnd]. done.
Qed.
Lemma sh_surj n : forall l p q, length p = n -> l ≡ₚ p ++ q ->
  exists ds k, length ds = n /\ valid_draws (length l) ds /\ sh l n ds = Some k /\ take n k = p.
Proof.
  induction n as [|n IH]; intros l p q Hn Hp; cbn.
  - destruct p; [|done]. exists [], l. split; [done|]. split; [split; cbn; [lia|intros i d; rewrite lookup_nil; done]|].
    done.
  - destruct p as [|y p]; [done|]. cbn in Hn. assert (y ∈ l) as Hin by (rewrite Hp; set_solver).
    apply elem_of_list_lookup in Hin as [d Hd]. destruct l as [|x l]; [done|].
    pose proof (lookup_lt_Some _ _ _ Hd) as Hlt. cbn in Hlt.
    destruct (iter_swap_head x l d Hlt) as (y'&r&Hs&Hy&Hpr). rewrite Hd in Hy. injection Hy as <-.
    destruct (IH r p q) as (ds&k&Hl&Hv&Hk&Ht).
    + lia.
    + rewrite Hp in Hpr. cbn in Hpr. apply Permutation_cons_inv in Hpr. done.
    + exists (d :: ds), (y :: k). split; [cbn; lia|]. split; [|split].
      * cbn [length]. apply valid_draws_cons. split; [done|].
        assert (length (x :: l) = length (y :: r)) as E by (rewrite Hpr; done). cbn in E. injection E as ->. done.
      * rewrite Hs. cbn. rewrite Hk. done.
      * cbn. rewrite Ht. done.
Qed.
Lemma partial_shuffle_sh l m draws : m <= length l -> partial_shuffle l m draws = sh l m draws.
Proof.
  intros H. unfold partial_shuffle. rewrite decide_True by done. rewrite (pshuffle_sh m [] l).
  destruct (sh l m draws); done.
Qed.
End SH.

(** ** Finding *)
Section FI.
Context {A : Type}.
Implicit Types (l : list A) (p : A -> bool).

Lemma find_pos_le p l : find_pos p l <= length l.
Proof. induction l as [|x l IH]; cbn; [done|]. destruct (p x); lia. Qed.
Lemma find_pos_ok p l : first_failing (fun x => negb (p x)) l (find_pos p l).
Proof.
  induction l as [|x l IH]; cbn.
  - split; [done|split; [intros j y; lia|done]].
  - destruct (p x) eqn:E.
    + split; [cbn; lia|split; [intros j y; lia|]]. cbn. intros y [= <-]. rewrite E. done.
    + destruct IH as (H1&H2&H3). split; [cbn; lia|]. split.
      * intros j y Hj Hy. destruct j; cbn in Hy; [injection Hy as <-; rewrite E; done|]. apply (H2 j); [lia|done].
      * cbn. done.
Qed.
Lemma find_index_ok p l :
  match find_index p l with
  | Some i => exists x, l !! i = Some x /\ p x = true /\ forall j y, j < i -> l !! j = Some y -> p y = false
  | None => forall x, x ∈ l -> p x = false
  end.
Proof.
  unfold find_index. destruct (find_pos_ok p l) as (H1&H2&H3).
  assert (H2' : forall j y, j < find_pos p l -> l !! j = Some y -> p y = false).
  { intros j y Hj Hy. specialize (H2 j y Hj Hy). destruct (p y); done. }
  destruct (Nat.eqb_spec (find_pos p l) (length l)) as [E|E].
  - intros x Hx. apply elem_of_list_lookup in Hx as [i Hi]. apply (H2' i); [|done].
    apply lookup_lt_Some in Hi. lia.
  - destruct (lookup_lt_is_Some_2 l (find_pos p l)) as [x Hx]; [lia|]. exists x. split; [done|]. split; [|done].
    specialize (H3 x Hx). destruct (p x); done.
Qed.

Lemma find_indices_from_ok p l : forall s i,
  i ∈ find_indices_from p l s <-> exists j x, i = s + j /\ l !! j = Some x /\ p x = true.
Proof.
  induction l as [|x l IH]; intros s i; cbn.
  - rewrite elem_of_nil. split; [done|]. intros (j&y&_&H&_). rewrite lookup_nil in H. done.
  - assert (Hs : i ∈ find_indices_from p l (S s) <-> exists j y, i = s + S j /\ (x :: l) !! S j = Some y /\ p y = true).
    { rewrite IH. split; intros (j&y&?&?&?); exists j, y; (split; [lia|done]). }
    destruct (p x) eqn:E.
    + rewrite elem_of_cons, Hs. split.
      * intros [->|(j&y&?&?&?)]; [exists 0, x; split; [lia|done]|exists (S j), y; done].
      * intros (j&y&?&?&?). destruct j; [left; lia|right; eauto].
    + rewrite Hs. split.
      * intros (j&y&?&?&?); exists (S j), y; done.
      * intros (j&y&?&H&?). destruct j; [cbn in H; congruence|eauto].
Qed.
Lemma find_indices_from_sorted p l : forall s,
  (forall i, i ∈ find_indices_from p l s -> s <= i) /\
  (forall a b i j, a < b -> find_indices_from p l s !! a = Some i -> find_indices_from p l s !! b = Some j -> i < j).
Proof.
  induction l as [|x l IH]; intros s; cbn.
  - split; [intros i Hi; apply elem_of_nil in Hi; done|done].
  - destruct (IH (S s)) as [H1 H2]. destruct (p x).
    + split.
      * intros i Hi. apply elem_of_cons in Hi as [->|Hi]; [lia|]. specialize (H1 _ Hi). lia.
      * intros a b i j Hab Hi Hj. destruct a, b; [lia| |lia|].
        -- cbn in *. injection Hi as <-. apply elem_of_list_lookup_2 in Hj. specialize (H1 _ Hj). lia.
        -- cbn in *. apply (H2 a b); [lia|done..].
    + split; [|done]. intros i Hi. specialize (H1 _ Hi). lia.
Qed.

Lemma elementwise_ok f (l r : list A) : length l = length r ->
  exists k, elementwise f l r = Some k /\ length k = length l /\
    forall i x y, l !! i = Some x -> r !! i = Some y -> k !! i = Some (f x y).
Proof.
  revert r. induction l as [|x l IH]; intros [|y r] H; try done; cbn.
  - exists []. done.
  - destruct (IH r) as (k&Hk&Hl&Hi); [cbn in H; lia|]. rewrite Hk. cbn. eexists; split; [done|].
    split; [cbn; lia|]. intros [|i] a b Ha Hb; cbn in *; [congruence|eauto].
Qed.
Lemma select_copy_mapM l is : select_copy l is = mapM (fun i => l !! i) is.
Proof. induction is as [|i is IH]; cbn; [done|]. rewrite IH. done. Qed.

Lemma select_move_loop_ok l is : NoDup is -> forall (c : list (option A)),
  (forall i, i ∈ is -> c !! i = Some <$> (l !! i)) -> length c = length l ->
  select_move_loop c is = select_copy l is.
Proof.
  induction 1 as [|i is Hi Hnd IH]; intros c Hc Hl; cbn; [done|].
  rewrite (Hc i) by set_solver. destruct (l !! i) as [x|]; [|done]. cbn.
  rewrite IH; [done| |rewrite insert_length; done].
  intros j Hj. rewrite list_lookup_insert_ne by set_solver. apply Hc. set_solver.
Qed.

Lemma erase_first_ok (eqb : A -> A -> bool) l v : (forall x y, eqb x y = true <-> x = y) ->
  match erase_first_stable eqb l v with
  | (l', true) => exists a b, l = a ++ v :: b /\ v ∉ a /\ l' = a ++ b
  | (l', false) => v ∉ l /\ l' = l
  end.
Proof.
  intros He. unfold erase_first_stable. pose proof (find_index_ok (fun x => eqb x v) l) as H. unfold find_index in H.
  destruct (Nat.eqb (find_pos _ l) (length l)); cbn.
  - split; [|done]. intros Hv. specialize (H _ Hv). rewrite (proj2 (He v v)) in H; done.
  - destruct H as (x&Hx&Hp&Hb). apply He in Hp as ->.
    remember (find_pos (fun x => eqb x v) l) as i eqn:Ei. exists (take i l), (drop (S i) l). split; [|split; [|done]].
    + rewrite (take_drop_middle l i v) by done. done.
    + intros Hin. apply elem_of_list_lookup in Hin as [j Hj]. pose proof (lookup_lt_Some _ _ _ Hj) as Hlt.
      rewrite take_length in Hlt. rewrite lookup_take in Hj by lia. specialize (Hb j v ltac:(lia) Hj).
      rewrite (proj2 (He v v)) in Hb; done.
Qed.

Lemma unique_from_ok (lt eqb : A -> A -> bool) : (forall x y, eqb x y = true <-> x = y) ->
  forall l x, swo_on lt (x :: l) -> (forall a b, a ∈ x :: l -> b ∈ x :: l -> lt a b = false -> lt b a = false -> a = b) ->
  sorted_by lt (x :: l) ->
  (forall y, y ∈ x :: unique_from eqb x l <-> y ∈ x :: l) /\ NoDup (x :: unique_from eqb x l) /\
  (forall y, y ∈ unique_from eqb x l -> lt x y = true) /\ sorted_by lt (x :: unique_from eqb x l).
Proof.
  intros He. induction l as [|y l IH]; intros x Hswo Htot Hs.
  - cbn. split; [done|]. split; [apply NoDup_singleton|]. split; [intros y Hy; apply elem_of_nil in Hy; done|done].
  - cbn [unique_from]. apply sorted_by_cons in Hs as [Hx Hs]. destruct (eqb x y) eqn:E.
    + apply He in E as <-. destruct (IH x) as (H1&H2&H3&H4).
      * apply (swo_on_subset lt (x :: x :: l)); [set_solver|done].
      * intros a b Ha Hb. apply Htot; set_solver.
      * done.
      * split; [|done]. intros z. rewrite H1. set_solver.
    + assert (Hne : x <> y) by (intros ->; rewrite (proj2 (He y y)) in E; done).
      destruct (IH y) as (H1&H2&H3&H4).
      * apply (swo_on_subset lt (x :: y :: l)); [set_solver|done].
      * intros a b Ha Hb. apply Htot; set_solver.
      * done.
      * assert (Hxy : lt x y = true).
        { destruct (lt x y) eqn:Exy; [done|]. exfalso. apply Hne. apply Htot; [set_solver..|done|]. apply Hx. set_solver. }
        assert (Hall : forall z, z ∈ y :: unique_from eqb y l -> lt x z = true).
        { intros z Hz. apply elem_of_cons in Hz as [->|Hz]; [done|].
          apply (swo_trans _ _ Hswo x y z); [set_solver..| |done|auto].
          assert (z ∈ y :: l) as Hzl by (rewrite <- H1; set_solver). set_solver. }
        split; [|split; [|split; [done|]]].
        -- intros z. rewrite elem_of_cons, H1. set_solver.
        -- apply NoDup_cons. split; [|done]. intros Hin. apply Hall in Hin.
           rewrite (swo_irrefl _ _ Hswo x) in Hin by set_solver. done.
        -- apply sorted_by_cons. split; [|done]. intros z Hz. apply (swo_asym lt (x :: y :: l)); [done|set_solver| |auto].
           apply H1 in Hz. set_solver.
Qed.
Lemma erase_duplicates_ok sort (lt eqb : A -> A -> bool) l : sort_contract sort -> (forall x y, eqb x y = true <-> x = y) ->
  swo_on lt l -> (forall a b, a ∈ l -> b ∈ l -> lt a b = false -> lt b a = false -> a = b) ->
  NoDup (erase_duplicates sort lt eqb l) /\ (forall x, x ∈ erase_duplicates sort lt eqb l <-> x ∈ l) /\
  sorted_by lt (erase_duplicates sort lt eqb l).
Proof.
  intros Hs He Hswo Htot. unfold erase_duplicates. destruct (Hs lt l Hswo) as [Hp Hso].
  assert (Hin : forall x, x ∈ sort lt l <-> x ∈ l) by (intros x; rewrite <- Hp; done).
  destruct (sort lt l) as [|x k] eqn:E; cbn.
  - split; [constructor|]. split; [done|apply sorted_by_nil].
  - destruct (unique_from_ok lt eqb He k x) as (H1&H2&H3&H4).
    + apply (swo_on_subset lt l); [|done]. intros y Hy. apply Hin. done.
    + intros a b Ha Hb. apply Htot; apply Hin; done.
    + done.
    + split; [done|]. split; [|done]. intros y. rewrite H1. apply Hin.
Qed.
End FI.
