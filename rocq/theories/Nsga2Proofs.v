(** Lemmas about NSGA-II. *)
From Coq Require Import Reals ZArith Lra Lia.
From stdpp Require Import list list_numbers sets.
From Flocq Require Import Core BinarySingleNaN.
From Verif Require Import StdSort FloatBase FloatModel FloatSpec FloatProofs RealProofs SelectionProofs FrontSpec NdSortSpec NdSortModel NdFloatModel NdSortProps Nsga2Model Nsga2Spec.

(** ** Ranges *)
Lemma lookup_range a b L p : range (a, b) L !! p = if decide (p < b - a) then L !! (a + p) else None.
Proof.
  unfold range. cbn [fst snd]. case_decide; [rewrite lookup_take by done; apply lookup_drop|]. apply lookup_take_ge. lia.
Qed.
Lemma range_length a b L : b <= length L -> length (range (a, b) L) = b - a.
Proof. intros H. unfold range. cbn. rewrite take_length, drop_length. lia. Qed.
Lemma put_range_length a b r L : a <= b -> b <= length L -> length r = b - a -> length (put_range (a, b) r L) = length L.
Proof. intros ? ? H. unfold put_range. cbn. rewrite !app_length, take_length, drop_length. lia. Qed.
Lemma lookup_put_range a b r L p : a <= b -> b <= length L -> length r = b - a ->
  put_range (a, b) r L !! p = if decide (a <= p < b) then r !! (p - a) else L !! p.
Proof.
  intros Ha Hb Hr. unfold put_range. cbn [fst snd]. case_decide as H.
  - rewrite lookup_app_r by (rewrite take_length; lia). rewrite take_length, Nat.min_l by lia. apply lookup_app_l. lia.
  - destruct (decide (p < a)).
    + rewrite lookup_app_l by (rewrite take_length; lia). by apply lookup_take.
    + rewrite lookup_app_r by (rewrite take_length; lia). rewrite take_length, Nat.min_l by lia. rewrite lookup_app_r by lia.
      rewrite lookup_drop. f_equal. lia.
Qed.
Lemma range_put_range a b r L : a <= b -> b <= length L -> length r = b - a -> range (a, b) (put_range (a, b) r L) = r.
Proof.
  intros Ha Hb Hr. apply list_eq. intros p. rewrite lookup_range. case_decide.
  - rewrite lookup_put_range by done. rewrite decide_True by lia. f_equal. lia.
  - symmetry. apply lookup_ge_None_2. lia.
Qed.
Lemma range_put_other a b c d r L : a <= b -> b <= length L -> length r = b - a -> b <= c \/ d <= a -> range (c, d) (put_range (a, b) r L) = range (c, d) L.
Proof.
  intros Ha Hb Hr Hc. apply list_eq. intros p. rewrite !lookup_range. case_decide; [|done].
  rewrite lookup_put_range by done. by rewrite decide_False by lia.
Qed.
Lemma range_split a b L : a <= b -> b <= length L -> L = put_range (a, b) (range (a, b) L) L.
Proof.
  intros Ha Hb. apply list_eq. intros p. rewrite lookup_put_range by (try done; by apply range_length). case_decide; [|done].
  rewrite lookup_range, decide_True by lia. f_equal. lia.
Qed.
Lemma put_range_perm a b r L : a <= b -> b <= length L -> r ≡ₚ range (a, b) L -> put_range (a, b) r L ≡ₚ L.
Proof.
  intros Ha Hb Hr. rewrite (range_split a b L) at 2 by done. unfold put_range. cbn [fst snd]. by rewrite Hr.
Qed.
Lemma range_in a b L e : e ∈ range (a, b) L <-> exists p, a <= p < b /\ L !! p = Some e.
Proof.
  rewrite elem_of_list_lookup. split.
  - intros [p H]. rewrite lookup_range in H. case_decide; [|done]. exists (a + p). split; [lia|done].
  - intros (p & Hp & H). exists (p - a). rewrite lookup_range, decide_True by lia. rewrite <- H. f_equal. lia.
Qed.
Lemma range_sublist ab L : range ab L `sublist_of` L.
Proof. unfold range. etrans; [apply sublist_take|apply sublist_drop]. Qed.
Lemma range_NoDup ab L : NoDup L.*1 -> NoDup (range ab L).*1.
Proof.
  intros H. unfold range. rewrite fmap_take, fmap_drop. rewrite <- (take_drop ab.1 L.*1) in H. apply NoDup_app in H as (_ & _ & H).
  rewrite <- (take_drop (ab.2 - ab.1) (drop ab.1 L.*1)) in H. by apply NoDup_app in H as (H & _).
Qed.
Lemma fst_unique (L : list element) p q e f : NoDup L.*1 -> L !! p = Some e -> L !! q = Some f -> e.1 = f.1 -> p = q.
Proof.
  intros Hn Hp Hq E. eapply (NoDup_lookup L.*1 p q e.1); [done| |]; rewrite list_lookup_fmap; [by rewrite Hp|rewrite Hq; cbn; by rewrite E].
Qed.

Lemma list_find_nodup (l : list nat) p i : NoDup l -> l !! p = Some i -> list_find (i =.) l = Some (p, i).
Proof.
  intros Hn Hp. apply list_find_Some. split; [done|]. split; [done|]. intros q y Hq Hlt ->.
  pose proof (NoDup_lookup _ _ _ _ Hn Hp Hq). lia.
Qed.
Lemma list_find_notin (l : list nat) i : i ∉ l -> list_find (i =.) l = None.
Proof. intros H. apply list_find_None. apply Forall_forall. by intros x Hx ->. Qed.

Section crowd.
Variable sort : forall A, (A -> A -> bool) -> list A -> list A.
Variable fmat : list (list b64).
Variable dcols : nat.
Hypothesis sort_ok : forall A, sort_contract (sort A).
Hypothesis fmat_ok : matrix dcols fmat.
Notation value := (obj_value fmat).

Lemma value_finite k i : is_finite (value k i) = true.
Proof.
  unfold obj_value. destruct (nth_in_or_default i fmat []) as [H|E].
  - apply elem_of_list_In in H. unfold matrix in fmat_ok. rewrite Forall_forall in fmat_ok. destruct (fmat_ok _ H) as [_ G].
    unfold finite_vec in G. rewrite Forall_forall in G. destruct (nth_in_or_default k (nth i fmat []) fzero) as [H'|E']; [|by rewrite E'].
    apply G. by apply elem_of_list_In.
  - rewrite E. by destruct k.
Qed.
Lemma value_swo k (l : list element) : swo_on (fun lhs rhs : element => flt (value k lhs.1) (value k rhs.1)) l.
Proof.
  split.
  - intros x _. rewrite flt_finite by apply value_finite. apply Rlt_bool_false. lra.
  - intros x y z _ _ _. rewrite !flt_finite by apply value_finite. repeat case Rlt_bool_spec; try done; lra.
  - intros x y z _ _ _. rewrite !flt_finite by apply value_finite. repeat case Rlt_bool_spec; try done; lra.
Qed.

Lemma nth_fst (l : list element) p e : l !! p = Some e -> nth p l.*1 0 = e.1.
Proof. intros H. apply nth_lookup_Some. by rewrite list_lookup_fmap, H. Qed.

Lemma crowd_mid_ok obj fi front : NoDup front.*1 -> forall n k d, (forall e, e ∈ front -> e.1 < length d) -> 1 <= k -> k + n < length front \/ n = 0 ->
  exists d', crowd_mid fmat obj fi front (seq k n) d = Some d' /\ length d' = length d /\
    (forall p i, k <= p < k + n -> front.*1 !! p = Some i ->
       d' !! i = (fun x => fadd x (fdiv (fsub (value obj (nth (S p) front.*1 0)) (value obj (nth (p - 1) front.*1 0))) fi)) <$> d !! i) /\
    (forall i, (forall p, k <= p < k + n -> front.*1 !! p <> Some i) -> d' !! i = d !! i).
Proof.
  intros Hn n. induction n as [|n IH]; intros k d Hb Hk Hl; cbn [seq crowd_mid].
  - exists d. repeat split; try done. intros; lia.
  - destruct Hl as [Hl|]; [|done].
    destruct (lookup_lt_is_Some_2 front k) as [e He]; [lia|]. destruct (lookup_lt_is_Some_2 front (S k)) as [f Hf]; [lia|].
    destruct (lookup_lt_is_Some_2 front (k - 1)) as [g Hg]; [lia|]. rewrite He, Hf, Hg. cbn [mbind option_bind].
    destruct (lookup_lt_is_Some_2 d e.1) as [x Hx]; [eapply Hb, elem_of_list_lookup_2; done|]. rewrite Hx. cbn [mbind option_bind].
    edestruct (IH (S k)) as (d' & E & Hlen & H1 & H2); [|lia| |].
    3:{ rewrite E. exists d'. split; [done|]. rewrite insert_length in Hlen. split; [done|].
        assert (Hek : front.*1 !! k = Some e.1) by (by rewrite list_lookup_fmap, He). split.
        - intros p i Hp Hi. destruct (decide (p = k)) as [->|].
          + assert (i = e.1) as -> by congruence. rewrite H2.
            * rewrite list_lookup_insert by (by eapply lookup_lt_Some). rewrite Hx. cbn.
              rewrite (nth_fst front (S k) f Hf), (nth_fst front (k - 1) g Hg). done.
            * intros q Hq Hqe. pose proof (NoDup_lookup _ _ _ _ Hn Hek Hqe). lia.
          + rewrite (H1 p i) by (try done; lia). rewrite list_lookup_insert_ne; [done|]. intros E'. rewrite <- E' in Hi.
            pose proof (NoDup_lookup _ _ _ _ Hn Hek Hi). lia.
        - intros i Hi. rewrite H2 by (intros p Hp; apply Hi; lia). apply list_lookup_insert_ne. intros <-. apply (Hi k); [lia|done]. }
    + intros e' He'. rewrite insert_length. by apply Hb.
    + destruct n; [right; done|left; lia].
Qed.

(** One front and one objective. *)
Lemma crowd_front_ok obj a b L d : a < b -> b <= length L -> NoDup L.*1 -> (forall e, e ∈ L -> e.1 < length d) ->
  exists front d', crowd_front sort fmat obj (a, b) L d = Some (put_range (a, b) front L, d') /\ front ≡ₚ range (a, b) L /\
    ascending (value obj) (range (a, b) L).*1 front.*1 /\ length d' = length d /\
    forall i, d' !! i = crowd_step f1em8 (value obj) front.*1 i <$> d !! i.
Proof.
  intros Hab Hb Hn Hd. unfold crowd_front.
  destruct (sort_ok element (fun lhs rhs => flt (value obj lhs.1) (value obj rhs.1)) (range (a, b) L) (value_swo _ _)) as [Hp Hs].
  remember (sort element _ (range (a, b) L)) as front eqn:Ef. clear Ef. exists front.
  assert (Hlen : length front = b - a) by (rewrite <- Hp; by apply range_length).
  assert (HnF : NoDup front.*1) by (rewrite <- Hp; by apply range_NoDup).
  assert (HdF : forall e, e ∈ front -> e.1 < length d).
  { intros e He. apply Hd. rewrite <- Hp in He. apply range_in in He as (p & _ & He). by eapply elem_of_list_lookup_2. }
  rewrite head_lookup, last_lookup. destruct (lookup_lt_is_Some_2 front 0) as [e0 H0]; [lia|].
  destruct (lookup_lt_is_Some_2 front (Nat.pred (length front))) as [e1 H1]; [lia|]. rewrite H0, H1. cbn [mbind option_bind].
  rewrite decide_True by (split; eapply HdF, elem_of_list_lookup_2; done).
  edestruct (crowd_mid_ok obj (fmax (fsub (value obj e1.1) (value obj e0.1)) f1em8) front HnF (length front - 2) 1 (<[e1.1:=finf]> (<[e0.1:=finf]> d)))
    as (d' & E & Hl' & G1 & G2).
  { intros e He. rewrite !insert_length. by apply HdF. }
  { lia. }
  { lia. }
  rewrite E. cbn [mbind option_bind]. exists d'. split; [done|]. split; [done|]. rewrite !insert_length in Hl'.
  assert (HF0 : front.*1 !! 0 = Some e0.1) by (by rewrite list_lookup_fmap, H0).
  assert (HF1 : front.*1 !! Nat.pred (length front) = Some e1.1) by (by rewrite list_lookup_fmap, H1).
  split; [|split; [done|]].
  - split; [by rewrite <- Hp|]. intros p q i j Hpq Hi Hj. rewrite list_lookup_fmap in Hi, Hj.
    destruct (front !! p) as [ei|] eqn:Ei; [|done]. destruct (front !! q) as [ej|] eqn:Ej; [|done]. injection Hi as <-. injection Hj as <-.
    pose proof (Hs p q ei ej Hpq Ei Ej) as G. cbn in G. rewrite flt_finite in G by apply value_finite.
    revert G. case Rlt_bool_spec; [done|]. intros G _. exact G.
  - intros i. unfold crowd_step. destruct (decide (i ∈ front.*1)) as [Hi|Hi].
    + apply elem_of_list_lookup in Hi as [p Hi]. rewrite (list_find_nodup _ p) by done.
      assert (Hpl : p < length front) by (pose proof (lookup_lt_Some _ _ _ Hi) as G; by rewrite fmap_length in G).
      rewrite fmap_length.
      destruct (decide (p = 0 \/ S p = length front)) as [Hedge|Hin].
      * rewrite G2 by (intros q Hq Hqi; pose proof (NoDup_lookup _ _ _ _ HnF Hi Hqi); lia).
        assert (Hil : i < length d) by (apply elem_of_list_lookup_2, elem_of_list_fmap in Hi as (e & -> & He); by apply HdF).
        destruct (lookup_lt_is_Some_2 d i Hil) as [x Hx]. rewrite Hx. cbn [fmap option_fmap option_map].
        destruct (decide (i = e1.1)) as [->|Hne1]; [rewrite list_lookup_insert by (by rewrite insert_length); done|].
        rewrite list_lookup_insert_ne by done. assert (i = e0.1) as ->.
        { destruct Hedge as [->|Hedge]; [congruence|]. exfalso. apply Hne1. replace (Nat.pred (length front)) with p in HF1 by lia. congruence. }
        rewrite list_lookup_insert by done. done.
      * rewrite (G1 p i) by (try done; lia).
        assert (i <> e1.1) by (intros ->; pose proof (NoDup_lookup _ _ _ _ HnF Hi HF1); lia).
        assert (i <> e0.1) by (intros ->; pose proof (NoDup_lookup _ _ _ _ HnF Hi HF0); lia).
        rewrite !list_lookup_insert_ne by done.
        rewrite (nth_fst front 0 e0 H0). replace (length front - 1) with (Nat.pred (length front)) by lia. rewrite (nth_fst front _ e1 H1). done.
    + rewrite list_find_notin by done. rewrite option_fmap_id.
      assert (i <> e1.1) by (intros ->; apply Hi; by eapply elem_of_list_lookup_2).
      assert (i <> e0.1) by (intros ->; apply Hi; by eapply elem_of_list_lookup_2).
      rewrite G2 by (intros q _ Hq; apply Hi; by eapply elem_of_list_lookup_2). by rewrite !list_lookup_insert_ne.
Qed.

(** Ranges in increasing order, from position [lo]. *)
Inductive chain (n : nat) : nat -> list (nat * nat) -> Prop :=
| chain_nil lo : chain n lo []
| chain_cons lo a b fs : lo <= a -> a < b -> b <= n -> chain n b fs -> chain n lo ((a, b) :: fs).
Lemma chain_in n lo fs a b : chain n lo fs -> (a, b) ∈ fs -> lo <= a /\ a < b /\ b <= n.
Proof.
  induction 1 as [lo|lo a' b' fs H1 H2 H3 _ IH]; intros Hin; [by apply elem_of_nil in Hin|].
  apply elem_of_cons in Hin as [[= -> ->]|Hin]; [done|]. destruct (IH Hin). lia.
Qed.

Record fronts_done (fs : list (nat * nat)) (obj : nat) (L L' : list element) (d d' : list b64) : Prop := {
  fd_perm : L' ≡ₚ L;
  fd_len : length d' = length d;
  fd_ranges : forall ab, ab ∈ fs -> range ab L' ≡ₚ range ab L /\ ascending (value obj) (range ab L).*1 (range ab L').*1 /\
    forall i, i ∈ (range ab L).*1 -> d' !! i = crowd_step f1em8 (value obj) (range ab L').*1 i <$> d !! i;
  fd_other : forall p, (forall a b, (a, b) ∈ fs -> ~ (a <= p < b)) -> L' !! p = L !! p;
  fd_untouched : forall i, (forall ab, ab ∈ fs -> i ∉ (range ab L).*1) -> d' !! i = d !! i;
}.
Lemma range_eq_other fs obj L L' d d' lo a b : fronts_done fs obj L L' d d' -> chain (length L) lo fs -> b <= lo -> range (a, b) L' = range (a, b) L.
Proof.
  intros H Hc Hb. apply list_eq. intros p. rewrite !lookup_range. case_decide; [|done]. apply (fd_other _ _ _ _ _ _ H).
  intros a' b' Hin. destruct (chain_in _ _ _ _ _ Hc Hin). lia.
Qed.
Lemma crowd_fronts_ok obj fs : forall lo L d, chain (length L) lo fs -> NoDup L.*1 -> (forall e, e ∈ L -> e.1 < length d) ->
  exists L' d', crowd_fronts sort fmat obj fs L d = Some (L', d') /\ fronts_done fs obj L L' d d'.
Proof.
  induction fs as [|[a b] fs IH]; intros lo L d Hc Hn Hd; cbn [crowd_fronts].
  - exists L, d. split; [done|]. split; try done. intros ab Hab. by apply elem_of_nil in Hab.
  - inversion Hc as [|lo' a' b' fs' H1 H2 H3 Hc' E1 E2]; subst. destruct (crowd_front_ok obj a b L d H2 H3 Hn Hd) as (front & d1 & E & Hp & Hasc & Hl1 & Hd1).
    rewrite E. cbn [mbind option_bind].
    assert (Hlf : length front = b - a) by (rewrite Hp; by apply range_length).
    remember (put_range (a, b) front L) as L1 eqn:EL1.
    assert (HpL : L1 ≡ₚ L) by (subst L1; apply put_range_perm; [lia|done|done]).
    assert (HlL : length L1 = length L) by (by rewrite HpL).
    destruct (IH b L1 d1) as (L' & d' & E' & HD).
    { by rewrite HlL. }
    { by rewrite HpL. }
    { intros e He. rewrite Hl1. apply Hd. by rewrite <- HpL. }
    rewrite E'. exists L', d'. split; [done|].
    assert (Hr1 : range (a, b) L1 = front) by (subst L1; apply range_put_range; [lia|done|done]).
    assert (Hr' : range (a, b) L' = front) by (rewrite <- Hr1; eapply range_eq_other; [exact HD|by rewrite HlL|done]).
    assert (Hrt : forall ab, ab ∈ fs -> range ab L1 = range ab L).
    { intros [c e] Hce. subst L1. destruct (chain_in _ _ _ _ _ Hc' Hce) as (G1 & G2 & G3). apply range_put_other; [lia|done|done|lia]. }
    assert (Hdisj : forall i ab, ab ∈ fs -> i ∈ (range (a, b) L).*1 -> i ∉ (range ab L).*1).
    { intros i [c e] Hce Hi Hi'. apply elem_of_list_fmap in Hi as (x & -> & Hx). apply elem_of_list_fmap in Hi' as (y & Exy & Hy).
      apply range_in in Hx as (p & Hpx & Hx). apply range_in in Hy as (q & Hqy & Hy).
      destruct (chain_in _ _ _ _ _ Hc' Hce) as (G1 & G2 & G3). pose proof (fst_unique L p q x y Hn Hx Hy Exy). lia. }
    destruct HD as [D1 D2 D3 D4 D5]. split.
    + by rewrite D1.
    + by rewrite D2.
    + intros ab Hab. apply elem_of_cons in Hab as [->|Hab].
      * rewrite Hr'. split; [done|]. split; [done|]. intros i Hi. rewrite D5, Hd1; [done|]. intros ab Hab. rewrite Hrt by done. by eapply Hdisj.
      * destruct (D3 ab Hab) as (K1 & K2 & K3). rewrite Hrt in K1, K2, K3 by done. split; [done|]. split; [done|]. intros i Hi.
        rewrite K3 by done. rewrite Hd1. unfold crowd_step at 2. rewrite list_find_notin; [by rewrite option_fmap_id|].
        destruct Hasc as [Hasc _]. rewrite Hasc. intros Hi'. by eapply Hdisj.
    + intros p Hp'. rewrite D4 by (intros c e Hce; apply Hp'; by apply elem_of_cons; right). subst L1. rewrite lookup_put_range by (done || lia).
      rewrite decide_False; [done|]. apply Hp'. apply elem_of_cons. by left.
    + intros i Hi. rewrite D5, Hd1.
      * unfold crowd_step. rewrite list_find_notin; [by rewrite option_fmap_id|]. destruct Hasc as [Hasc _]. rewrite Hasc. apply Hi. apply elem_of_cons. by left.
      * intros ab Hab. rewrite Hrt by done. apply Hi. apply elem_of_cons. by right.
Qed.

Record objs_done (fs : list (nat * nat)) (obj n : nat) (L L' : list element) (d d' : list b64) : Prop := {
  od_perm : L' ≡ₚ L;
  od_len : length d' = length d;
  od_ranges : forall ab, ab ∈ fs -> range ab L' ≡ₚ range ab L;
  od_orders : forall ab, ab ∈ fs -> exists orders, length orders = n /\ (forall k ord, orders !! k = Some ord -> ascending (value (obj + k)) (range ab L).*1 ord) /\
    forall i, i ∈ (range ab L).*1 -> d' !! i = crowding f1em8 value obj orders i <$> d !! i;
  od_other : forall p, (forall a b, (a, b) ∈ fs -> ~ (a <= p < b)) -> L' !! p = L !! p;
}.
Lemma crowd_objs_ok fs n : forall obj L d, chain (length L) 0 fs -> NoDup L.*1 -> (forall e, e ∈ L -> e.1 < length d) ->
  exists L' d', crowd_objs sort fmat (seq obj n) fs L d = Some (L', d') /\ objs_done fs obj n L L' d d'.
Proof.
  induction n as [|n IH]; intros obj L d Hc Hn Hd; cbn [seq crowd_objs].
  - exists L, d. split; [done|]. split; try done. intros ab Hab. exists []. split; [done|]. split; [done|]. intros i _. cbn. by rewrite option_fmap_id.
  - destruct (crowd_fronts_ok obj fs 0 L d Hc Hn Hd) as (L1 & d1 & E & [D1 D2 D3 D4 D5]). rewrite E. cbn [mbind option_bind].
    assert (HlL : length L1 = length L) by (by rewrite D1).
    destruct (IH (S obj) L1 d1) as (L' & d' & E' & [K1 K2 K3 K4 K5]).
    { by rewrite HlL. }
    { by rewrite D1. }
    { intros e He. rewrite D2. apply Hd. by rewrite <- D1. }
    rewrite E'. exists L', d'. split; [done|]. split.
    + by rewrite K1.
    + by rewrite K2.
    + intros ab Hab. rewrite K3 by done. by apply D3.
    + intros ab Hab. destruct (D3 ab Hab) as (F1 & F2 & F3). destruct (K4 ab Hab) as (os & O1 & O2 & O3). exists ((range ab L1).*1 :: os). split; [cbn; lia|]. split.
      * intros [|k] ord Hk; cbn in Hk.
        -- injection Hk as <-. by rewrite Nat.add_0_r.
        -- replace (obj + S k) with (S obj + k) by lia. destruct (O2 k ord Hk) as [Q1 Q2]. split; [by rewrite Q1, F1|done].
      * intros i Hi. rewrite O3 by (by rewrite F1). rewrite F3 by done. cbn [crowding]. by destruct (d !! i).
    + intros p Hp. rewrite K5 by done. by apply D4.
Qed.
End crowd.

(** ** The distances are numbers *)
Lemma f1em8_val : is_finite f1em8 = true /\ (0 < B2R f1em8)%R.
Proof.
  destruct (fmk_val 6044629098073146 (-79)) as (H1 & H2 & _); [lia|lia|]. split; [done|]. unfold f1em8. rewrite H2.
  pose proof (bpow_gt_0 radix2 (-79)). nra.
Qed.
Definition dist_ok (d : b64) : Prop := is_nan d = false /\ (0 <= fval d)%R.
Lemma dist_ok_inf : dist_ok finf.
Proof. split; [done|]. cbn -[bpow]. pose proof femax_pos. lra. Qed.
Lemma dist_ok_add a b : dist_ok a -> dist_ok b -> dist_ok (fadd a b).
Proof.
  intros [Na Ha] [Nb Hb]. pose proof femax_pos as Hp.
  destruct (is_finite a) eqn:Fa; [destruct (is_finite b) eqn:Fb|].
  - destruct (fadd_finite a b Fa Fb) as [H1 H2]. split; [done|]. rewrite H2. apply srnd_ge_0. rewrite !fval_finite in * by done. lra.
  - destruct b as [|[]| |]; destruct a as [|[]| |]; try done; try (exfalso; cbn -[bpow] in Hb; lra); (split; [done|cbn -[bpow]; lra]).
  - destruct a as [|[]| |]; destruct b as [|[]| |]; try done; try (exfalso; cbn -[bpow] in Ha, Hb; lra); (split; [done|cbn -[bpow]; lra]).
Qed.
Section moderate.
Variable fmat : list (list b64).
Variable dcols : nat.
Hypothesis fmat_ok : matrix dcols fmat.
Hypothesis fmat_mod : moderate fmat.
Notation value := (obj_value fmat).
Lemma value_moderate k i : (Rabs (B2R (value k i)) <= bpow radix2 1022)%R.
Proof.
  assert (Hz : (Rabs (B2R fzero) <= bpow radix2 1022)%R) by (cbn [fzero B2R]; rewrite Rabs_R0; apply bpow_ge_0).
  unfold obj_value. destruct (nth_in_or_default i fmat []) as [H|E]; [|rewrite E; by destruct k].
  unfold moderate in fmat_mod. rewrite Forall_forall in fmat_mod. apply elem_of_list_In in H. specialize (fmat_mod _ H). rewrite Forall_forall in fmat_mod.
  destruct (nth_in_or_default k (nth i fmat []) fzero) as [H'|E']; [|by rewrite E']. apply fmat_mod. by apply elem_of_list_In.
Qed.
Lemma diff_ok k i j : (B2R (value k i) <= B2R (value k j))%R -> is_finite (fsub (value k j) (value k i)) = true /\ (0 <= B2R (fsub (value k j) (value k i)))%R.
Proof.
  intros H. pose proof (value_moderate k i) as Hi. pose proof (value_moderate k j) as Hj. apply Rabs_le_inv in Hi, Hj.
  destruct (fin_srnd (fsub (value k j) (value k i)) (B2R (value k j) - B2R (value k i)) 1023) as [F V].
  - apply fsub_finite; eapply value_finite; done.
  - lia.
  - change 1023%Z with (1022 + 1)%Z. rewrite bpow_plus. change (bpow radix2 1) with 2%R. lra.
  - split; [done|]. rewrite V. apply srnd_ge_0. lra.
Qed.
Lemma step_ok k front ord i d : ascending (value k) front ord -> dist_ok d -> dist_ok (crowd_step f1em8 (value k) ord i d).
Proof.
  intros [_ Hasc] Hd. unfold crowd_step. destruct (list_find (i =.) ord) as [[p y]|] eqn:E; [|done]. case_decide as Hc; [apply dist_ok_inf|].
  apply list_find_Some in E as (Hy & <- & _). pose proof (lookup_lt_Some _ _ _ Hy) as Hl.
  apply dist_ok_add; [done|].
  assert (Hle : forall q r, q < r -> r < length ord -> (B2R (value k (nth q ord 0%nat)) <= B2R (value k (nth r ord 0%nat)))%R).
  { intros q r Hqr Hr. destruct (lookup_lt_is_Some_2 ord q) as [x Hx]; [lia|]. destruct (lookup_lt_is_Some_2 ord r) as [z Hz]; [lia|].
    rewrite (nth_lookup_Some _ _ 0 _ Hx), (nth_lookup_Some _ _ 0 _ Hz). exact (Hasc q r x z Hqr Hx Hz). }
  destruct (diff_ok k _ _ (Hle (p - 1) (S p) ltac:(lia) ltac:(lia))) as [F1 V1].
  destruct (diff_ok k _ _ (Hle 0 (length ord - 1) ltac:(lia) ltac:(lia))) as [F2 V2].
  destruct f1em8_val as [F3 V3].
  remember (fsub (value k (nth (S p) ord 0)) (value k (nth (p - 1) ord 0))) as x eqn:Ex. clear Ex.
  remember (fsub (value k (nth (length ord - 1) ord 0)) (value k (nth 0 ord 0))) as z eqn:Ez. clear Ez.
  assert (Fm : is_finite (fmax z f1em8) = true) by (by apply fmax_fin).
  assert (Vm : (0 < B2R (fmax z f1em8))%R).
  { rewrite <- fval_finite by done. rewrite fmax_val by (by apply is_finite_not_nan). rewrite !fval_finite by done.
    apply Rlt_le_trans with (B2R f1em8); [lra|apply Rmax_r]. }
  destruct (fdiv_finite x (fmax z f1em8)) as [H1 H2]; [done|done|lra|]. split; [done|]. rewrite H2. apply srnd_ge_0.
  unfold Rdiv. apply Rmult_le_pos; [done|]. apply Rlt_le, Rinv_0_lt_compat, Vm.
Qed.
Lemma crowding_ok front orders : forall k i d, (forall q ord, orders !! q = Some ord -> ascending (value (k + q)) front ord) -> dist_ok d ->
  dist_ok (crowding f1em8 value k orders i d).
Proof.
  induction orders as [|ord os IH]; intros k i d H Hd; cbn [crowding]; [done|]. apply IH.
  - intros q o Hq. replace (S k + q) with (k + S q) by lia. by apply (H (S q)).
  - apply step_ok with front; [|done]. specialize (H 0 ord eq_refl). by rewrite Nat.add_0_r in H.
Qed.
End moderate.

(** ** The next population *)
Section next.
Variable t : tolerances.
Variable sort : forall A, (A -> A -> bool) -> list A -> list A.
Variable fmat : list (list b64).
Variable dcols : nat.
Hypothesis sort_ok : forall A, sort_contract (sort A).
Hypothesis fmat_ok : matrix dcols fmat.
Hypothesis fmat_mod : moderate fmat.
Hypothesis fmat_ne : fmat <> [].
Notation value := (obj_value fmat).

Lemma crowdingDistances_ok fs L : chain (length L) 0 fs -> NoDup L.*1 -> (forall e, e ∈ L -> e.1 < length fmat) ->
  exists L' d', crowdingDistances sort fmat dcols fs L = Some (L', d') /\ objs_done fmat fs 0 dcols L L' (replicate (length fmat) fzero) d'.
Proof.
  intros Hc Hn Hd. unfold crowdingDistances. rewrite decide_True.
  - apply (crowd_objs_ok sort fmat dcols sort_ok fmat_ok); [done|done|]. by rewrite replicate_length.
  - split; [done|]. apply Forall_forall. intros [a b] Hab. by destruct (chain_in _ _ _ _ _ Hc Hab) as (_ & ? & _).
Qed.
(** The ranks stay where they are if every range has one rank. *)
Lemma ranks_kept fs obj n L L' d d' : objs_done fmat fs obj n L L' d d' ->
  (forall a b, (a, b) ∈ fs -> exists r, forall e, e ∈ range (a, b) L -> e.2 = r) -> L'.*2 = L.*2.
Proof.
  intros [D1 D2 D3 D4 D5] Hu. apply list_eq. intros p. rewrite !list_lookup_fmap.
  destruct (decide (Exists (fun ab => ab.1 <= p < ab.2) fs)) as [H|H].
  - apply Exists_exists in H as ([a b] & Hab & Hp). cbn in Hp. destruct (Hu a b Hab) as [r Hr].
    pose proof (D3 (a, b) Hab) as Hperm.
    assert (Hlen : length L' = length L) by (by rewrite D1).
    destruct (L !! p) as [e|] eqn:E.
    + destruct (lookup_lt_is_Some_2 L' p) as [e' E']; [rewrite Hlen; by eapply lookup_lt_Some|]. rewrite E'. cbn. f_equal.
      rewrite (Hr e) by (apply range_in; eauto). apply Hr. rewrite <- Hperm. apply range_in. eauto.
    + rewrite lookup_ge_None_2; [done|]. rewrite Hlen. by apply lookup_ge_None.
  - rewrite D5; [done|]. intros a b Hab Hp. apply H. apply Exists_exists. exists (a, b). done.
Qed.

Lemma runs_chain (L : list element) a fs : runs L a fs -> chain (length L) a fs.
Proof. induction 1; constructor; done. Qed.
Lemma runs_uniform (L : list element) c fs a b : runs L c fs -> (a, b) ∈ fs -> exists r, forall e, e ∈ range (a, b) L -> e.2 = r.
Proof.
  induction 1 as [|a' b' fs H1 H2 (r & Hr & _) _ IH]; intros Hin; [by apply elem_of_nil in Hin|].
  apply elem_of_cons in Hin as [[= -> ->]|Hin]; [|by apply IH]. exists r. intros e He. apply range_in in He as (p & Hp & He).
  destruct (Hr p Hp) as [i Hi]. rewrite He in Hi. by injection Hi as ->.
Qed.

Definition ranked (L : list element) : Prop := L.*1 ≡ₚ seq 0 (length fmat) /\ sorted_ranks L.
Lemma ranked_facts L : ranked L -> NoDup L.*1 /\ (forall e, e ∈ L -> e.1 < length fmat) /\ length L = length fmat.
Proof.
  intros [H _]. split; [rewrite H; apply NoDup_seq|]. split.
  - intros e He. assert (G : e.1 ∈ L.*1) by (by apply elem_of_list_fmap_1). rewrite H in G. apply elem_of_seq in G. lia.
  - rewrite <- (fmap_length fst L), H. apply seq_length.
Qed.
(** From the cut front, no chosen member has a smaller distance than a rejected one. *)
Definition cut_by_crowding (popsize : nat) (L L2 : list element) : Prop :=
  forall r, (exists p q i j, p < popsize <= q /\ L2 !! p = Some (i, r) /\ L2 !! q = Some (j, r)) ->
  exists front orders, front_of L r front /\ ascending_all dcols value front orders /\
    forall p q i j, p < popsize <= q -> L2 !! p = Some (i, r) -> L2 !! q = Some (j, r) ->
      flt (crowding f1em8 value 0 orders i fzero) (crowding f1em8 value 0 orders j fzero) = false.

Lemma sorted_ranks_eq L L' : L'.*2 = L.*2 -> sorted_ranks L -> sorted_ranks L'.
Proof.
  intros E H p q e f Hpq He Hf.
  assert (He' : L.*2 !! p = Some e.2) by (rewrite <- E, list_lookup_fmap, He; done).
  assert (Hf' : L.*2 !! q = Some f.2) by (rewrite <- E, list_lookup_fmap, Hf; done).
  rewrite list_lookup_fmap in He', Hf'. destruct (L !! p) as [e'|] eqn:Ee; [|done]. destruct (L !! q) as [f'|] eqn:Ef; [|done].
  injection He' as <-. injection Hf' as <-. exact (H p q e' f' Hpq Ee Ef).
Qed.

Lemma cut_ok L popsize : ranked L -> 0 < popsize <= length L ->
  exists partial, pf_partialFront L popsize = Some partial /\
  exists L2, (let ab := default (0, 0) partial in
    if decide (ab.1 < ab.2) then
      '(L, dists) ← crowdingDistances sort fmat dcols [ab] L;
      Some (put_range ab (sort element (fun lhs rhs => flt (nth rhs.1 dists fzero) (nth lhs.1 dists fzero)) (range ab L)) L)
    else Some L) = Some L2 /\
  L2 ≡ₚ L /\ L2.*2 = L.*2 /\ cut_by_crowding popsize L L2.
Proof.
  intros HL Hsz. destruct (ranked_facts L HL) as (Hn & Hb & Hlen). destruct HL as [HL Hs].
  destruct (C25_partial_front L popsize Hs Hsz) as (res & E & Hno & Hcut). exists res. split; [done|]. cbn zeta.
  assert (Hid : (exists a, default (0, 0) res = (a, a)) -> (forall e f, L !! (popsize - 1) = Some e -> L !! popsize = Some f -> e.2 <> f.2) ->
    exists L2, (if decide ((default (0, 0) res).1 < (default (0, 0) res).2) then
      '(L, dists) ← crowdingDistances sort fmat dcols [default (0, 0) res] L;
      Some (put_range (default (0, 0) res) (sort element (fun lhs rhs => flt (nth rhs.1 dists fzero) (nth lhs.1 dists fzero)) (range (default (0, 0) res) L)) L)
    else Some L) = Some L2 /\ L2 ≡ₚ L /\ L2.*2 = L.*2 /\ cut_by_crowding popsize L L2).
  { intros [a ->] Hne. cbn [fst snd]. rewrite decide_False by lia. exists L. split; [done|]. split; [done|]. split; [done|].
    intros r (p & q & i & j & Hpq & Hp & Hq). exfalso.
    destruct (lookup_lt_is_Some_2 L (popsize - 1)) as [[i1 r1] H1]; [apply lookup_lt_Some in Hq; lia|].
    destruct (lookup_lt_is_Some_2 L popsize) as [[i2 r2] H2]; [apply lookup_lt_Some in Hq; lia|].
    pose proof (Hs p (popsize - 1) _ _ ltac:(lia) Hp H1). pose proof (Hs popsize q _ _ ltac:(lia) H2 Hq). pose proof (Hs (popsize - 1) popsize _ _ ltac:(lia) H1 H2).
    apply (Hne _ _ H1 H2). cbn in *. lia. }
  destruct (decide (popsize = length L)) as [Heq|Hneq].
  { destruct (Hno (or_introl Heq)) as [->|[a ->]]; (apply Hid; [eauto|]); intros e f _ Hf; exfalso; apply lookup_lt_Some in Hf; lia. }
  destruct (lookup_lt_is_Some_2 L (popsize - 1)) as [e1 H1]; [lia|]. destruct (lookup_lt_is_Some_2 L popsize) as [e2 H2]; [lia|].
  destruct (decide (e1.2 = e2.2)) as [Heq|Hne].
  2:{ destruct (Hno (or_intror (ex_intro _ e1 (ex_intro _ e2 (conj H1 (conj H2 Hne)))))) as [->|[a ->]]; (apply Hid; [eauto|]); intros e f He Hf; congruence. }
  destruct (Hcut e1 e2 H1 H2 Heq) as (a & b & -> & Hab & Hbl & Hr). clear Hid Hno Hcut. change (default (0, 0) (Some (a, b))) with (a, b); cbn [fst snd]. rewrite decide_True by lia.
  assert (Hchain : chain (length L) 0 [(a, b)]) by (constructor; [lia|lia|done|constructor]).
  destruct (crowdingDistances_ok [(a, b)] L Hchain Hn Hb) as (L1 & d & E1 & D). rewrite E1. cbn [mbind option_bind].
  assert (Hin : (a, b) ∈ [(a, b)]) by (apply elem_of_cons; by left).
  assert (Hrank : forall e, e ∈ range (a, b) L -> e.2 = e2.2).
  { intros [i r] He. apply range_in in He as (p & Hp & He). by apply (Hr p i r He). }
  assert (Hk : L1.*2 = L.*2).
  { eapply ranks_kept; [exact D|]. intros a' b' Hab'. apply elem_of_list_singleton in Hab' as [= -> ->]. eauto. }
  destruct (od_orders _ _ _ _ _ _ _ _ D (a, b) Hin) as (orders & O1 & O2 & O3). cbn [Nat.add] in O2.
  pose proof (od_ranges _ _ _ _ _ _ _ _ D (a, b) Hin) as HrL1. pose proof (od_perm _ _ _ _ _ _ _ _ D) as HpL1.
  assert (Hlen1 : length L1 = length L) by (by rewrite HpL1).
  assert (Hval : forall i, i ∈ (range (a, b) L).*1 -> nth i d fzero = crowding f1em8 value 0 orders i fzero).
  { intros i Hi. pose proof (O3 i Hi) as G. apply elem_of_list_fmap in Hi as (e & -> & He). apply range_in in He as (p & _ & He).
    apply elem_of_list_lookup_2 in He. rewrite (lookup_replicate_2 (length fmat) fzero e.1 (Hb e He)) in G. cbn in G. by apply nth_lookup_Some. }
  assert (Hswo : swo_on (fun lhs rhs : element => flt (nth rhs.1 d fzero) (nth lhs.1 d fzero)) (range (a, b) L1)).
  { assert (Hnan : forall e, e ∈ range (a, b) L1 -> is_nan (nth e.1 d fzero) = false).
    { intros e He. rewrite HrL1 in He. rewrite Hval by (by apply elem_of_list_fmap_1).
      apply (crowding_ok fmat dcols fmat_ok fmat_mod (range (a, b) L).*1 orders 0 e.1 fzero); [done|]. split; [done|cbn; lra]. }
    split.
    - intros x Hx. rewrite flt_fval by auto. apply Rlt_bool_false. lra.
    - intros x y z Hx Hy Hz. rewrite !flt_fval by auto. repeat case Rlt_bool_spec; try done; lra.
    - intros x y z Hx Hy Hz. rewrite !flt_fval by auto. repeat case Rlt_bool_spec; try done; lra. }
  destruct (sort_ok element _ _ Hswo) as [Hsp Hss].
  remember (sort element (fun lhs rhs => flt (nth rhs.1 d fzero) (nth lhs.1 d fzero)) (range (a, b) L1)) as srt eqn:Es. clear Es.
  assert (Hls : length srt = b - a) by (rewrite <- Hsp; apply range_length; lia).
  exists (put_range (a, b) srt L1). split; [done|].
  assert (HP2 : put_range (a, b) srt L1 ≡ₚ L) by (rewrite put_range_perm; [done|lia|lia|by rewrite Hsp]).
  assert (Hin_front : forall e, e ∈ srt -> e.2 = e2.2 /\ e.1 ∈ (range (a, b) L).*1).
  { intros e He. rewrite <- Hsp, HrL1 in He. split; [by apply Hrank|by apply elem_of_list_fmap_1]. }
  assert (HK2 : (put_range (a, b) srt L1).*2 = L.*2).
  { rewrite <- Hk. apply list_eq. intros p. rewrite !list_lookup_fmap, lookup_put_range by lia. case_decide as Hp; [|done].
    destruct (lookup_lt_is_Some_2 srt (p - a)) as [e He]; [lia|]. destruct (lookup_lt_is_Some_2 L1 p) as [f Hf]; [lia|]. rewrite He, Hf. cbn. f_equal.
    destruct (Hin_front e (elem_of_list_lookup_2 _ _ _ He)) as [-> _]. symmetry. apply Hrank. rewrite <- HrL1. apply range_in. eauto. }
  split; [done|]. split; [done|].
  assert (Hpos : forall p i r, put_range (a, b) srt L1 !! p = Some (i, r) -> a <= p < b <-> r = e2.2).
  { intros p i r Hp. assert (G : L.*2 !! p = Some r) by (rewrite <- HK2, list_lookup_fmap, Hp; done). rewrite list_lookup_fmap in G.
    destruct (L !! p) as [[i' r']|] eqn:Ep; [|done]. injection G as ->. by apply (Hr p i'). }
  intros r (p & q & i & j & Hpq & Hp & Hq).
  assert (Hre : r = e2.2).
  { assert (Hs2 : sorted_ranks (put_range (a, b) srt L1)) by (eapply sorted_ranks_eq; done).
    destruct (lookup_lt_is_Some_2 (put_range (a, b) srt L1) (popsize - 1)) as [f1 F1]; [apply lookup_lt_Some in Hq; lia|].
    assert (G : L.*2 !! (popsize - 1) = Some f1.2) by (rewrite <- HK2, list_lookup_fmap, F1; done). rewrite list_lookup_fmap, H1 in G. injection G as G.
    destruct (lookup_lt_is_Some_2 (put_range (a, b) srt L1) popsize) as [f2 F2]; [apply lookup_lt_Some in Hq; lia|].
    assert (G2 : L.*2 !! popsize = Some f2.2) by (rewrite <- HK2, list_lookup_fmap, F2; done). rewrite list_lookup_fmap, H2 in G2. injection G2 as G2.
    pose proof (Hs2 p (popsize - 1) _ _ ltac:(lia) Hp F1). pose proof (Hs2 popsize q _ _ ltac:(lia) F2 Hq). cbn in *. lia. }
  subst r. exists (range (a, b) L).*1, orders. split; [|split; [done|]].
  - split; [by apply range_NoDup|]. intros i'. split.
    + intros Hi. apply elem_of_list_fmap in Hi as ([i1 r1] & -> & He). pose proof (Hrank _ He) as G. cbn in G. subst r1.
      apply range_in in He as (p' & _ & He). by eapply elem_of_list_lookup_2.
    + intros Hi. apply elem_of_list_lookup in Hi as [p' Hi]. apply elem_of_list_fmap. exists (i', e2.2). split; [done|]. apply range_in. exists p'. split; [|done].
      by apply (Hr p' i' e2.2 Hi).
  - clear p q i j Hpq Hp Hq. intros p q i j Hpq Hp Hq.
    pose proof (proj2 (Hpos p i _ Hp) eq_refl) as Hpa. pose proof (proj2 (Hpos q j _ Hq) eq_refl) as Hqa.
    rewrite lookup_put_range in Hp, Hq by lia. rewrite decide_True in Hp by done. rewrite decide_True in Hq by done.
    pose proof (Hss (p - a) (q - a) _ _ ltac:(lia) Hp Hq) as G. cbn in G.
    rewrite !Hval in G; [done| |].
    + by apply (Hin_front _ (elem_of_list_lookup_2 _ _ _ Hq)).
    + by apply (Hin_front _ (elem_of_list_lookup_2 _ _ _ Hp)).
Qed.

Lemma next_ok L popsize ranks : nonDominatedSort t fmat sort = Some L -> ranked L -> 0 < popsize <= length fmat -> popsize <= length ranks ->
  exists L2 L3 dists, nsga2_next t sort fmat dcols popsize ranks = Some (L3.*1, (L3.*2 ++ drop popsize ranks, take popsize dists)) /\
    L2 ≡ₚ L /\ L2.*2 = L.*2 /\ L3 ≡ₚ take popsize L2 /\ L3.*2 = take popsize L.*2 /\ cut_by_crowding popsize L L2.
Proof.
  intros E HL Hsz Hr. destruct (ranked_facts L HL) as (Hn & Hb & Hlen). unfold nsga2_next. rewrite E. cbn [mbind option_bind].
  destruct (cut_ok L popsize HL ltac:(lia)) as (partial & Ep & L2 & E2 & P2 & K2 & C2). rewrite Ep. cbn [mbind option_bind]. cbn zeta in E2. cbn zeta. rewrite E2. cbn [mbind option_bind].
  assert (Hl2 : length L2 = length L) by (by rewrite P2).
  unfold pf_resize. rewrite decide_True by lia. cbn [mbind option_bind].
  assert (Hlt : length (take popsize L2) = popsize) by (rewrite take_length; lia).
  destruct (C25_fronts (take popsize L2)) as (fs & Ef & Hruns); [intros G; rewrite G in Hlt; cbn in Hlt; lia|]. rewrite Ef. cbn [mbind option_bind].
  destruct (crowdingDistances_ok fs (take popsize L2)) as (L3 & d & E3 & D).
  { by apply runs_chain. }
  { rewrite fmap_take. rewrite <- P2 in Hn. rewrite <- (take_drop popsize L2.*1) in Hn. by apply NoDup_app in Hn as (? & _). }
  { intros e He. apply Hb. rewrite <- P2. rewrite <- (take_drop popsize L2). apply elem_of_app. by left. }
  rewrite E3. cbn [mbind option_bind]. pose proof (od_perm _ _ _ _ _ _ _ _ D) as P3. assert (Hl3 : length L3 = popsize) by (by rewrite P3).
  rewrite decide_True by lia. rewrite take_ge by lia. exists L2, L3, d. split; [done|]. split; [done|]. split; [done|]. split; [done|]. split; [|done].
  rewrite <- K2, <- fmap_take. eapply ranks_kept; [exact D|]. intros a b Hab. by eapply runs_uniform.
Qed.

(** The ranks and distances right after initialize. *)
Lemma initialize_ok L : nonDominatedSort t fmat sort = Some L -> ranked L ->
  exists ranks dists, nsga2_initialize t sort fmat dcols = Some (ranks, dists) /\ length ranks = length fmat /\ length dists = length fmat /\
    (forall i r, (i, r) ∈ L <-> ranks !! i = Some r) /\
    forall r, (exists i, (i, r) ∈ L) -> exists front orders, front_of L r front /\ ascending_all dcols value front orders /\
      forall i, i ∈ front -> dists !! i = Some (crowding f1em8 value 0 orders i fzero).
Proof.
  clear fmat_mod. intros E HL. destruct (ranked_facts L HL) as (Hn & Hb & Hlen). destruct HL as [Hperm Hs]. unfold nsga2_initialize. rewrite E. cbn [mbind option_bind].
  destruct (C25_ranks L) as (rs & Er & Hlr & Hrs); [by rewrite Hlen|]. rewrite Er. cbn [mbind option_bind].
  assert (Hpos : 0 < length L) by (rewrite Hlen; destruct fmat; [done|cbn; lia]).
  destruct (C25_fronts L) as (fs & Ef & Hruns); [intros G; rewrite G in Hpos; cbn in Hpos; lia|]. rewrite Ef. cbn [mbind option_bind].
  destruct (crowdingDistances_ok fs L) as (L1 & d & E3 & D); [by apply runs_chain|done|done|]. rewrite E3. cbn [mbind option_bind].
  exists rs, d. split; [done|]. split; [lia|]. split; [rewrite (od_len _ _ _ _ _ _ _ _ D); apply replicate_length|]. split; [done|].
  intros r [i Hi].
  assert (Hrun : forall c p e, runs L c fs -> c <= p -> L !! p = Some e -> exists a b, (a, b) ∈ fs /\ a <= p < b /\
      forall q f, q < c \/ c <= q -> c <= q -> L !! q = Some f -> f.2 = e.2 -> a <= q < b).
  { clear -Hs. intros c p e H. revert p e. induction H as [|a b fs H1 H2 (r & Hr1 & Hr2) Hrest IH]; intros p e Hp He.
    - apply lookup_lt_Some in He. lia.
    - destruct (decide (p < b)) as [Hpb|Hpb].
      + exists a, b. split; [apply elem_of_cons; by left|]. split; [lia|]. intros q f _ Hq Hf Hef. split; [done|].
        destruct (decide (q < b)) as [|Hqb]; [done|]. exfalso. destruct (Hr1 p ltac:(lia)) as [ip Hip]. rewrite Hip in He. injection He as <-. cbn in Hef.
        destruct (lookup_lt_is_Some_2 L b) as [[ib rb] Hib]; [apply lookup_lt_Some in Hf; lia|].
        pose proof (Hr2 ib rb Hib). pose proof (Hs p b _ _ ltac:(lia) Hip Hib). pose proof (Hs b q _ _ ltac:(lia) Hib Hf). cbn in *. lia.
      + destruct (IH p e ltac:(lia) He) as (a' & b' & Hin & Hpab & Hall). exists a', b'. split; [apply elem_of_cons; by right|]. split; [done|].
        intros q f _ Hq Hf Hef. apply (Hall q f); [lia| |done|done]. destruct (decide (b <= q)) as [|Hqb]; [done|]. exfalso.
        destruct (Hr1 q ltac:(lia)) as [iq Hiq]. rewrite Hiq in Hf. injection Hf as <-. cbn in Hef.
        destruct (lookup_lt_is_Some_2 L b) as [[ib rb] Hib]; [apply lookup_lt_Some in He; lia|].
        pose proof (Hr2 ib rb Hib). pose proof (Hs q b _ _ ltac:(lia) Hiq Hib). pose proof (Hs b p _ _ ltac:(lia) Hib He). cbn in *. lia. }
  apply elem_of_list_lookup in Hi as [p Hi]. destruct (Hrun 0 p (i, r) Hruns ltac:(lia) Hi) as (a & b & Hab & Hpab & Hall).
  destruct (runs_uniform L 0 fs a b Hruns Hab) as [r' Hr'].
  assert (r' = r) as -> by (symmetry; apply (Hr' (i, r)); apply range_in; eauto).
  destruct (od_orders _ _ _ _ _ _ _ _ D (a, b) Hab) as (orders & O1 & O2 & O3). exists (range (a, b) L).*1, orders. split; [|split; [done|]].
  - split; [by apply range_NoDup|]. intros i'. split.
    + intros Hi'. apply elem_of_list_fmap in Hi' as ([i1 r1] & -> & He). pose proof (Hr' _ He) as G. cbn in G. subst r1.
      apply range_in in He as (q & _ & He). by eapply elem_of_list_lookup_2.
    + intros Hi'. apply elem_of_list_lookup in Hi' as [q Hi']. apply elem_of_list_fmap. exists (i', r). split; [done|]. apply range_in. exists q. split; [|done].
      apply (Hall q (i', r)); [lia|lia|done|done].
  - intros i' Hi'. rewrite O3 by done. apply elem_of_list_fmap in Hi' as (e & -> & He). apply range_in in He as (q & _ & He).
    by rewrite (lookup_replicate_2 (length fmat) fzero e.1 (Hb e (elem_of_list_lookup_2 _ _ _ He))).
Qed.
End next.
