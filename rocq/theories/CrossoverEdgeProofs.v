(** Lemmas about edge crossover. *)
From Coq Require Import Lia.
From stdpp Require Import list list_numbers sets.
From Verif Require Import AlgorithmModel AlgorithmProofs CrossoverModel CrossoverSpec CrossoverProofs CrossoverCycleProofs.

Section edge.
Context {A : Type} `{EqDecision A}.
Implicit Types (nb : nb_map (A := A)).

Lemma erase_nodup (l : list A) v : NoDup l ->
  (erase_first_stable (fun x y => bool_decide (x = y)) l v).1 = filter (fun x => x <> v) l.
Proof.
  intros Hnd. pose proof (erase_first_ok (fun x y : A => bool_decide (x = y)) l v ltac:(intros; apply bool_decide_eq_true)) as H.
  destruct (erase_first_stable _ l v) as [l' []]; cbn.
  - destruct H as (a & b & -> & Ha & ->). rewrite filter_app, filter_cons, decide_False by tauto.
    apply NoDup_app in Hnd as (_ & Hd & Hb). apply NoDup_cons in Hb as [Hb _].
    assert (Hall : forall k : list A, v ∉ k -> filter (fun x => x <> v) k = k).
    { induction k as [|y k IH]; intros Hk; [done|]. rewrite not_elem_of_cons in Hk. rewrite filter_cons, decide_True by (intros ->; tauto).
      f_equal. apply IH. tauto. }
    by rewrite !Hall.
  - destruct H as [H ->]. induction l as [|y k IH]; [done|]. rewrite not_elem_of_cons in H.
    rewrite filter_cons, decide_True by (intros ->; tauto). f_equal. apply IH; [apply NoDup_cons in Hnd; tauto|tauto].
Qed.

(** ** One step: the scan of the neighbours of the last gene *)
(** Over the genes [U] the lists hold distinct genes of [U], symmetrically. *)
Definition nb_inv (U : A -> Prop) nb : Prop :=
  forall x, U x -> NoDup (nb x) /\ (forall y, y ∈ nb x -> U y /\ y <> x /\ x ∈ nb y).

Lemma nb_remove_at nb g v x : NoDup (nb g) ->
  nb_remove nb g v x = if decide (x = g) then filter (fun y => y <> v) (nb g) else nb x.
Proof. intros H. unfold nb_remove, nb_put. destruct (decide (x = g)); [|done]. by apply erase_nodup. Qed.

Lemma edge_scan_ok l nbs : forall nb next, NoDup nbs -> l ∉ nbs -> (forall v, v ∈ nbs -> NoDup (nb v)) ->
  exists nb' next', edge_scan l nbs nb next = Some (nb', next') /\ (next' = next \/ next' ∈ nbs) /\
    forall x, nb' x = if decide (x ∈ nbs) then filter (fun y => y <> l) (nb x) else nb x.
Proof.
  induction nbs as [|v nbs IH]; intros nb next Hnd Hl Hn; cbn [edge_scan].
  - exists nb, next. split; [done|]. split; [by left|]. intros x. rewrite decide_False; [done|]. apply not_elem_of_nil.
  - apply NoDup_cons in Hnd as [Hv Hnd]. rewrite not_elem_of_cons in Hl. destruct Hl as [Hlv Hl].
    rewrite (decide_False (P := v = l)) by congruence.
    assert (Hr : forall x, nb_remove nb v l x = if decide (x = v) then filter (fun y => y <> l) (nb v) else nb x).
    { intros x. apply nb_remove_at. apply Hn. left. }
    set (next1 := if decide _ then v else next).
    destruct (IH (nb_remove nb v l) next1 Hnd Hl) as (nb' & next' & -> & H1 & H2).
    { intros w Hw. rewrite Hr. rewrite decide_False by (intros ->; done). apply Hn. by right. }
    exists nb', next'. split; [done|]. split.
    + destruct H1 as [-> | H1]; [|right; by right]. unfold next1. destruct (decide _); [right; left|by left].
    + intros x. rewrite H2, Hr. destruct (decide (x ∈ nbs)) as [Hx|Hx].
      * rewrite (decide_False (P := x = v)) by (intros ->; done). rewrite decide_True by (by right). done.
      * destruct (decide (x = v)) as [->|Hne].
        -- rewrite decide_True by left. done.
        -- rewrite decide_False; [done|]. rewrite not_elem_of_cons. done.
Qed.

(** After the step for [l] the lists are fine on the remaining genes. *)
Lemma edge_step_ok (U : A -> Prop) l nb next : nb_inv U nb -> U l -> U next -> next <> l ->
  exists nb' next', edge_scan l (nb l) nb next = Some (nb', next') /\ U next' /\ next' <> l /\
    nb_inv (fun x => U x /\ x <> l) nb' /\
    forall x, nb' x = if decide (x ∈ nb l) then filter (fun y => y <> l) (nb x) else nb x.
Proof.
  intros Hinv Hl Hnext Hnl. destruct (Hinv l Hl) as [Hnd Hnb].
  destruct (edge_scan_ok l (nb l) nb next Hnd) as (nb' & next' & -> & H1 & H2).
  { intros Hin. destruct (Hnb l Hin) as (_ & Hne & _). done. }
  { intros v Hv. destruct (Hnb v Hv) as (Hu & _). apply (Hinv v Hu). }
  exists nb', next'. split; [done|].
  assert (HU : U next' /\ next' <> l). { destruct H1 as [-> | H1]; [done|]. destruct (Hnb _ H1) as (? & ? & _). done. }
  split; [apply HU|]. split; [apply HU|]. split; [|done].
  assert (Hmem : forall x y, U x -> x <> l -> y ∈ nb' x <-> y ∈ nb x /\ y <> l).
  { intros x y Hx Hxl. rewrite H2. destruct (decide (x ∈ nb l)) as [Hin|Hout].
    - rewrite elem_of_list_filter. tauto.
    - split; [|tauto]. intros Hy. split; [done|]. intros ->. apply Hout. by apply (Hinv x Hx). }
  intros x [Hx Hxl]. destruct (Hinv x Hx) as [Hndx Hx2]. split.
  - rewrite H2. destruct (decide (x ∈ nb l)); [by apply NoDup_filter|done].
  - intros y Hy. apply (Hmem x y Hx Hxl) in Hy as [Hy Hyl]. destruct (Hx2 y Hy) as (Huy & Hne & Hsym).
    split; [done|]. split; [done|]. apply Hmem; [done|done|]. done.
Qed.

(** ** The main loop, for any way to choose the default next gene *)
Lemma edge_loop_ok (p : list A) : NoDup p -> forall fuel child remaining nb l,
  child <> [] -> last child = Some l -> NoDup child -> (forall g, g ∈ child -> g ∈ p) ->
  (forall g, g ∈ remaining <-> g ∈ p /\ g ∉ child) ->
  nb_inv (fun x => x ∈ p /\ (x ∉ child \/ x = l)) nb -> length p <= fuel + length child ->
  exists c, edge_loop fuel (length p) child remaining nb = Some c /\ c ≡ₚ p.
Proof.
  intros Hp. induction fuel as [|fuel IH]; intros child remaining nb l Hne Hlast Hnd Hin Hrem Hinv Hf; cbn [edge_loop].
  - assert (Hsub : child ⊆+ p) by (by apply NoDup_submseteq). pose proof (submseteq_length _ _ Hsub).
    rewrite decide_True by lia. exists child. split; [done|]. apply perm_of_nodup; [done|done|lia].
  - destruct (decide (length child = length p)) as [E|E].
    + exists child. split; [done|]. apply perm_of_nodup; [done|done|lia].
    + rewrite Hlast. cbn [mbind option_bind].
      destruct remaining as [|next rest] eqn:Er.
      { exfalso. apply E. apply Permutation_length. apply NoDup_Permutation; [done|done|]. intros g. split; [apply Hin|].
        intros Hg. destruct (decide (g ∈ child)); [done|]. exfalso. assert (Hx : g ∈ @nil A) by (by apply Hrem). by apply elem_of_nil in Hx. }
      cbn [head mbind option_bind].
      assert (Hnext : next ∈ p /\ next ∉ child) by (apply Hrem; left).
      assert (Hlc : l ∈ child). { rewrite last_lookup in Hlast. apply elem_of_list_lookup. eauto. }
      destruct (edge_step_ok _ l nb next Hinv) as (nb' & next' & -> & [Hu1 Hu2] & Hu3 & Hinv' & _).
      { split; [by apply Hin|by right]. } { split; [tauto|left; tauto]. } { intros ->. tauto. }
      cbn [mbind option_bind].
      assert (Hnc : next' ∉ child) by tauto.
      apply (IH _ _ nb' next').
      * by destruct child.
      * apply last_snoc.
      * apply NoDup_app. split; [done|]. split; [|apply NoDup_singleton]. intros x Hx Hx2%elem_of_list_singleton. by subst.
      * intros g. rewrite elem_of_app, elem_of_list_singleton. intros [Hg | ->]; [by apply Hin|done].
      * intros g. rewrite elem_of_list_filter, Hrem, elem_of_app, elem_of_list_singleton. tauto.
      * assert (Himp : forall x, (x ∈ p /\ (x ∉ child ++ [next'] \/ x = next')) <-> ((x ∈ p /\ (x ∉ child \/ x = l)) /\ x <> l)).
        { intros x. rewrite elem_of_app, elem_of_list_singleton. split.
          - intros [H1 [H2 | ->]]; [|split; [|done]]; [|split; [done|by left]].
            split; [split; [done|left; tauto]|]. intros ->. tauto.
          - intros [[H1 [H2 | H2]] H3]; [|done]. split; [done|]. destruct (decide (x = next')); [by right|left; tauto]. }
        intros x Hx. apply Himp in Hx. destruct (Hinv' x Hx) as [H1 H2]. split; [done|].
        intros y Hy. destruct (H2 y Hy) as (H3 & H4 & H5). split; [by apply Himp|done].
      * rewrite app_length. cbn. lia.
Qed.

(** ** The neighbour lists *)
Definition adj (c : list A) (x y : A) : Prop :=
  exists i, (c !! i = Some x /\ c !! S i = Some y) \/ (c !! i = Some y /\ c !! S i = Some x).
Lemma adj_sym c x y : adj c x y -> adj c y x.
Proof. intros [i H]. exists i. tauto. Qed.

Lemma all_adds_ok (c1 c2 : list A) : length c1 = length c2 -> 2 <= length c1 ->
  exists adds, all_adds c1 c2 = Some adds /\ forall x y, (x, y) ∈ adds <-> adj c1 x y \/ adj c2 x y.
Proof.
  intros Hl Hn. unfold all_adds. rewrite check_true by done.
  assert (Hfront : forall c : list A, 2 <= length c -> exists a b, front_adds c = Some [(a, b)] /\ c !! 0 = Some a /\ c !! 1 = Some b).
  { intros c Hc. unfold front_adds. destruct (lookup_lt_is_Some_2 c 0 ltac:(lia)) as [a Ha].
    destruct (lookup_lt_is_Some_2 c 1 ltac:(lia)) as [b Hb]. exists a, b. rewrite Ha. cbn [mbind option_bind]. rewrite Hb. done. }
  assert (Hback : forall c : list A, 2 <= length c -> exists a b, back_adds c = Some [(a, b)] /\ c !! (length c - 1) = Some a /\ c !! (length c - 2) = Some b).
  { intros c Hc. unfold back_adds. rewrite decide_True by done. destruct (lookup_lt_is_Some_2 c (length c - 1) ltac:(lia)) as [a Ha].
    destruct (lookup_lt_is_Some_2 c (length c - 2) ltac:(lia)) as [b Hb]. exists a, b. rewrite Ha. cbn [mbind option_bind]. rewrite Hb. done. }
  assert (Hinner : forall (c : list A) i, 1 <= i -> i < length c - 1 -> exists x p q,
     inner_adds c i = Some [(x, p); (x, q)] /\ c !! i = Some x /\ c !! (i - 1) = Some p /\ c !! (i + 1) = Some q).
  { intros c i H1 H2. unfold inner_adds. destruct (lookup_lt_is_Some_2 c i ltac:(lia)) as [x Hx].
    destruct (lookup_lt_is_Some_2 c (i - 1) ltac:(lia)) as [p Hp]. destruct (lookup_lt_is_Some_2 c (i + 1) ltac:(lia)) as [q Hq].
    exists x, p, q. rewrite Hx. cbn [mbind option_bind]. rewrite Hp. cbn [mbind option_bind]. rewrite Hq. done. }
  destruct (Hfront c1 Hn) as (a1 & b1 & -> & Ha1 & Hb1). destruct (Hfront c2 ltac:(lia)) as (a2 & b2 & -> & Ha2 & Hb2).
  cbn [mbind option_bind].
  destruct (Hback c1 Hn) as (y1 & z1 & -> & Hy1 & Hz1). destruct (Hback c2 ltac:(lia)) as (y2 & z2 & -> & Hy2 & Hz2).
  assert (Hmid : forall is, (forall i, i ∈ is -> 1 <= i < length c1 - 1) -> exists mid,
     mapM (fun i => a ← inner_adds c1 i; b ← inner_adds c2 i; Some (a ++ b)) is = Some mid /\
     forall x y, (x, y) ∈ concat mid <-> exists i, i ∈ is /\
       ((c1 !! i = Some x /\ (c1 !! (i - 1) = Some y \/ c1 !! (i + 1) = Some y)) \/
        (c2 !! i = Some x /\ (c2 !! (i - 1) = Some y \/ c2 !! (i + 1) = Some y)))).
  { induction is as [|i is IH]; intros His.
    - exists []. split; [done|]. intros x y. cbn. rewrite elem_of_nil. split; [done|]. intros (i & Hi & _). by apply elem_of_nil in Hi.
    - destruct IH as (mid & E & Hm). { intros j Hj. apply His. by right. }
      destruct (Hinner c1 i) as (x1 & p1 & q1 & E1 & K1 & K2 & K3); [apply His; left|apply His; left|].
      destruct (Hinner c2 i) as (x2 & p2 & q2 & E2 & L1 & L2 & L3); [apply His; left|rewrite <- Hl; apply His; left|].
      remember (fun i => a ← inner_adds c1 i; b ← inner_adds c2 i; Some (a ++ b)) as f eqn:Ef.
      assert (Efi : f i = Some ([(x1, p1); (x1, q1)] ++ [(x2, p2); (x2, q2)])) by (subst f; rewrite E1; cbn [mbind option_bind]; by rewrite E2).
      assert (Em : mapM f (i :: is) = (y ← f i; k ← mapM f is; Some (y :: k))) by done.
      rewrite Em, Efi. cbn [mbind option_bind]. rewrite E. cbn [mbind option_bind]. clear Ef Efi Em.
      eexists. split; [done|]. intros x y. cbn [concat]. rewrite elem_of_app, Hm. cbn [app]. split.
      + intros [H | (j & Hj & H)]; [|exists j; split; [by right|done]]. exists i. split; [left|].
        rewrite !elem_of_cons, elem_of_nil in H.
        destruct H as [H | [H | [H | [H | []]]]]; injection H as -> ->; [left|left|right|right]; tauto.
      + intros (j & Hj & H). apply elem_of_cons in Hj as [-> | Hj]; [|right; by exists j]. left.
        rewrite !elem_of_cons.
        destruct H as [[H1 [H2 | H2]] | [H1 [H2 | H2]]].
        * left. congruence.
        * right; left. congruence.
        * right; right; left. congruence.
        * right; right; right; left. congruence. }
  destruct (Hmid (range 1 (length c1 - 1))) as (mid & -> & Hm). { intros i Hi%in_range. lia. }
  cbn [mbind option_bind]. eexists. split; [done|]. intros x y.
  rewrite !elem_of_app, !elem_of_list_singleton, Hm. split.
  - intros [H | [H | [(i & Hi%in_range & H) | [H | H]]]].
    + injection H as -> ->. left. exists 0. by left.
    + injection H as -> ->. right. exists 0. by left.
    + destruct H as [[H1 H2] | [H1 H2]]; [left|right].
      * destruct H2 as [H2 | H2]; [exists (i - 1)|exists i].
        -- right. replace (S (i - 1)) with i by lia. done.
        -- left. rewrite Nat.add_1_r in H2. done.
      * destruct H2 as [H2 | H2]; [exists (i - 1)|exists i].
        -- right. replace (S (i - 1)) with i by lia. done.
        -- left. rewrite Nat.add_1_r in H2. done.
    + injection H as -> ->. left. exists (length c1 - 2). right. replace (S (length c1 - 2)) with (length c1 - 1) by lia. done.
    + injection H as -> ->. right. exists (length c2 - 2). right. replace (S (length c2 - 2)) with (length c2 - 1) by lia. done.
  - intros Hadj.
    assert (Hcase : forall c : list A, length c = length c1 -> adj c x y ->
       (c !! 0 = Some x /\ c !! 1 = Some y) \/ (c !! (length c - 1) = Some x /\ c !! (length c - 2) = Some y) \/
       exists i, 1 <= i < length c1 - 1 /\ c !! i = Some x /\ (c !! (i - 1) = Some y \/ c !! (i + 1) = Some y)).
    { intros c Hc [i [[H1 H2] | [H1 H2]]].
      - destruct i as [|i]; [by left|]. right. right. exists (S i). pose proof (lookup_lt_Some _ _ _ H2). split; [lia|].
        split; [done|]. right. by replace (S i + 1) with (S (S i)) by lia.
      - right. pose proof (lookup_lt_Some _ _ _ H2). destruct (decide (S i = length c - 1)) as [E|E].
        + left. rewrite <- E. split; [done|]. by replace (length c - 2) with i by lia.
        + right. exists (S i). split; [lia|]. split; [done|]. left. by replace (S i - 1) with i by lia. }
    destruct Hadj as [Hadj | Hadj].
    + destruct (Hcase c1 eq_refl Hadj) as [[H1 H2] | [[H1 H2] | (i & Hi & H1 & H2)]].
      * left. congruence.
      * right; right; right; left. congruence.
      * right; right; left. exists i. split; [by apply in_range|]. by left.
    + destruct (Hcase c2 (eq_sym Hl) Hadj) as [[H1 H2] | [[H1 H2] | (i & Hi & H1 & H2)]].
      * right; left. congruence.
      * right; right; right; right. congruence.
      * right; right; left. exists i. split; [by apply in_range|]. by right.
Qed.

Lemma nb_adds_ok adds : forall nb, (forall g, NoDup (nb g)) ->
  let nb' := foldl (fun nb gv => nb_add nb gv.1 gv.2) nb adds in
  (forall g, NoDup (nb' g)) /\ forall g v, v ∈ nb' g <-> v ∈ nb g \/ (g, v) ∈ adds.
Proof.
  induction adds as [|[g0 v0] adds IH]; intros nb Hnd; cbn.
  - split; [done|]. intros g v. rewrite elem_of_nil. tauto.
  - assert (Hadd : (forall g, NoDup (nb_add nb g0 v0 g)) /\ forall g v, v ∈ nb_add nb g0 v0 g <-> v ∈ nb g \/ (g = g0 /\ v = v0)).
    { unfold nb_add. destruct (decide (v0 ∈ nb g0)) as [Hin|Hout].
      - split; [done|]. intros g v. split; [tauto|]. intros [H | [-> ->]]; done.
      - unfold nb_put. split.
        + intros g. destruct (decide (g = g0)) as [->|]; [|done]. apply NoDup_app. split; [done|]. split; [|apply NoDup_singleton].
          intros x Hx Hx2%elem_of_list_singleton. by subst.
        + intros g v. destruct (decide (g = g0)) as [->|]; [|tauto]. rewrite elem_of_app, elem_of_list_singleton. tauto. }
    destruct Hadd as [H1 H2]. destruct (IH (nb_add nb g0 v0) H1) as [H3 H4]. split; [done|].
    intros g v. rewrite H4, H2, elem_of_cons. split.
    + intros [[H | [-> ->]] | H]; tauto.
    + intros [H | [H | H]]; [tauto| |tauto]. injection H as -> ->. tauto.
Qed.

Lemma adds_inv (p1 p2 : list A) nb : same_genes p1 p2 -> (forall g, NoDup (nb g)) ->
  (forall g v, v ∈ nb g <-> adj p1 g v \/ adj p2 g v) -> nb_inv (fun x => x ∈ p1) nb.
Proof.
  intros Hs Hnd Hin x Hx. split; [done|]. intros y Hy. apply Hin in Hy.
  pose proof (same_NoDup2 p1 p2 Hs) as Hn2. pose proof Hs as [Hn1 _].
  assert (Hne : forall c, NoDup c -> adj c x y -> y <> x /\ y ∈ c).
  { intros c Hc [i [[H1 H2] | [H1 H2]]]; (split; [intros ->|apply elem_of_list_lookup; eauto]);
      pose proof (lookup_inj c i (S i) x Hc H1 H2); lia. }
  destruct Hy as [Hy | Hy].
  - destruct (Hne p1 Hn1 Hy) as [H1 H2]. split; [done|]. split; [done|]. apply Hin. left. by apply adj_sym.
  - destruct (Hne p2 Hn2 Hy) as [H1 H2]. split; [by apply (same_in p1 p2 Hs)|]. split; [done|]. apply Hin. right. by apply adj_sym.
Qed.

Lemma edge_ok (p1 p2 : list A) : same_genes p1 p2 -> 2 <= length p1 -> exists c, edge p1 p2 = Some c /\ c ≡ₚ p1.
Proof.
  intros Hs Hn. unfold edge, makeNeighbourLists. pose proof (same_length p1 p2 Hs) as Hl. rewrite check_true by done.
  destruct (all_adds_ok p1 p2 Hl Hn) as (adds & -> & Hadds). cbn [mbind option_bind].
  destruct (lookup_lt_is_Some_2 p1 0 ltac:(lia)) as [g Hg]. rewrite Hg. cbn [mbind option_bind].
  pose proof (nb_adds_ok adds (fun _ => []) ltac:(intros; constructor)) as Hnb. cbn in Hnb.
  remember (foldl _ _ adds) as nb eqn:Enb. destruct Hnb as [Hnd Hin].
  assert (Hinv : nb_inv (fun x => x ∈ p1) nb).
  { apply (adds_inv p1 p2 nb Hs Hnd). intros x y. rewrite Hin, elem_of_nil, Hadds. tauto. }
  pose proof Hs as [Hn1 _]. destruct p1 as [|g0 p]; [done|]. cbn in Hg. injection Hg as ->.
  apply NoDup_cons in Hn1 as Hg. destruct Hg as [Hg Hnp].
  apply (edge_loop_ok (g :: p) Hn1 (length (g :: p)) [g] p nb g); [done|done|apply NoDup_singleton| | | |].
  - intros x ->%elem_of_list_singleton. left.
  - intros x. rewrite elem_of_cons, elem_of_list_singleton. split; [|tauto]. intros Hx. split; [by right|]. by intros ->.
  - assert (Himp : forall x, (x ∈ g :: p /\ (x ∉ [g] \/ x = g)) <-> x ∈ g :: p).
    { intros x. rewrite elem_of_list_singleton. split; [tauto|]. intros H. split; [done|]. destruct (decide (x = g)); tauto. }
    intros x Hx. apply Himp in Hx. destruct (Hinv x Hx) as [H1 H2]. split; [done|]. intros y Hy. destruct (H2 y Hy) as (H3 & H4).
    split; [by apply Himp|done].
  - cbn. lia.
Qed.
End edge.
