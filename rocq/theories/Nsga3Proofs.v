(** Lemmas about NSGA-III. *)
From Coq Require Import Reals ZArith Lra Lia.
From stdpp Require Import list list_numbers sets.
From Flocq Require Import Core BinarySingleNaN.
From Verif Require Import StdSort FloatBase FloatModel FloatSpec FloatProofs AlgorithmModel AlgorithmSpec AlgorithmProofs FrontModel FrontSpec FrontProofs NdSortSpec NdSortModel NdFloatModel NdViewProofs NdSortProps.
From Verif Require Import RandModel RandProofs Nsga2Model Nsga2Proofs Nsga3Model Nsga3Spec.
Local Open Scope nat_scope.

(** ** Choosing by rank *)
Lemma filter_all {A} (P : A -> Prop) `{!forall x, Decision (P x)} (l : list A) : Forall P l -> filter P l = l.
Proof. induction 1 as [|x l Hx _ IH]; [done|]. rewrite filter_cons_True by done. by f_equal. Qed.
Lemma filter_none {A} (P : A -> Prop) `{!forall x, Decision (P x)} (l : list A) : Forall (fun x => ~ P x) l -> filter P l = [].
Proof. induction 1 as [|x l Hx _ IH]; [done|]. by rewrite filter_cons_False. Qed.
Lemma choice_ok n popsize (L L2 : list element) : L.*1 ≡ₚ seq 0 n -> sorted_ranks L -> L2 ≡ₚ L -> L2.*2 = L.*2 -> popsize <= n ->
  ranked_choice n popsize L (take popsize L2).*1.
Proof.
  intros HL Hs P2 K2 Hsz. assert (Hs2 : sorted_ranks L2) by (eapply sorted_ranks_eq; done).
  assert (Hlen : length L = n) by (rewrite <- (fmap_length fst L), HL; apply seq_length).
  assert (Hl2 : length L2 = length L) by (by rewrite P2).
  assert (Hn2 : NoDup L2.*1) by (rewrite P2, HL; apply NoDup_seq).
  assert (Hin : forall p i r, L2 !! p = Some (i, r) -> i ∈ (take popsize L2).*1 <-> p < popsize).
  { intros p i r Hp. split.
    - intros Hi. apply elem_of_list_fmap in Hi as (e & -> & He). apply elem_of_list_lookup in He as [q He].
      pose proof (lookup_lt_Some _ _ _ He) as Hq. rewrite take_length in Hq. rewrite lookup_take in He by lia.
      rewrite (fst_unique L2 p q (e.1, r) e Hn2 Hp He eq_refl). lia.
    - intros Hlt. apply elem_of_list_fmap. exists (i, r). split; [done|]. apply elem_of_list_lookup. exists p. by rewrite lookup_take. }
  assert (Hpos : forall i r, (i, r) ∈ L -> exists p, L2 !! p = Some (i, r)) by (intros i r Hi; rewrite <- P2 in Hi; by apply elem_of_list_lookup in Hi).
  split.
  - rewrite fmap_length, take_length. lia.
  - rewrite fmap_take. rewrite <- (take_drop popsize L2.*1) in Hn2. by apply NoDup_app in Hn2 as (? & _).
  - intros i Hi. assert (G : i ∈ L2.*1) by (rewrite <- (take_drop popsize L2), fmap_app; apply elem_of_app; by left). rewrite P2, HL in G. apply elem_of_seq in G. lia.
  - intros i j r s Hi Hj Hir Hjs. destruct (Hpos _ _ Hir) as [p Hp]. destruct (Hpos _ _ Hjs) as [q Hq].
    rewrite (Hin _ _ _ Hp) in Hi. rewrite (Hin _ _ _ Hq) in Hj. exact (Hs2 p q _ _ ltac:(lia) Hp Hq).
  - intros i r Hi Hc. destruct (Hpos _ _ Hi) as [p Hp]. apply (Hin _ _ _ Hp). apply lookup_lt_Some in Hp as Hpl.
    assert (Hc2 : length (filter (fun e : nat * nat => e.2 <= r) L2) <= popsize) by (by rewrite P2).
    rewrite <- (take_drop (S p) L2), filter_app, app_length in Hc2. rewrite filter_all in Hc2.
    + rewrite take_length in Hc2. lia.
    + apply Forall_lookup. intros q e He. pose proof (lookup_lt_Some _ _ _ He) as Hq. rewrite take_length in Hq. rewrite lookup_take in He by lia.
      exact (Hs2 q p _ _ ltac:(lia) He Hp).
  - intros i r Hi Hir. destruct (Hpos _ _ Hir) as [p Hp]. rewrite (Hin _ _ _ Hp) in Hi.
    assert (Hc2 : length (filter (fun e : nat * nat => e.2 < r) L) = length (filter (fun e : nat * nat => e.2 < r) L2)) by (by rewrite P2).
    rewrite Hc2. rewrite <- (take_drop p L2), filter_app, app_length.
    rewrite (filter_none _ (drop p L2)).
    + cbn. rewrite Nat.add_0_r. eapply Nat.le_lt_trans; [apply filter_length|]. rewrite take_length. lia.
    + apply Forall_lookup. intros q e He. rewrite lookup_drop in He. pose proof (Hs2 p (p + q) _ _ ltac:(lia) Hp He) as G. cbn in G. lia.
Qed.

(** The range of the front that is cut. *)
Lemma partial_front_ok (L : list element) size : sorted_ranks L -> 0 < size < length L ->
  exists a b, pf_partialFront L size = Some (Some (a, b)) /\ a <= size <= b /\ b <= length L /\ (a < size -> size < b) /\
    exists r, forall e, e ∈ range (a, b) L -> e.2 = r.
Proof.
  intros Hs Hsz. destruct (lookup_lt_is_Some_2 L (size - 1)) as [e1 H1]; [lia|]. destruct (lookup_lt_is_Some_2 L size) as [e2 H2]; [lia|].
  destruct (C25_partial_front L size Hs ltac:(lia)) as (res & E & _ & Hcut).
  destruct (decide (e1.2 = e2.2)) as [Heq|Hne].
  - destruct (Hcut e1 e2 H1 H2 Heq) as (a & b & -> & Hab & Hbl & Hr). exists a, b. split; [done|]. split; [lia|]. split; [done|]. split; [lia|].
    exists e2.2. intros [i r] He. apply range_in in He as (p & Hp & He). by apply (Hr p i r He).
  - clear Hcut. unfold pf_partialFront in E |- *. rewrite decide_True in E |- * by lia. rewrite decide_False in E |- * by lia.
    rewrite H1, H2 in *. cbn [mbind option_bind] in *. 
    pose proof (Hs (size - 1) size e1 e2 ltac:(lia) H1 H2) as Hle.
    assert (Ea : find_pos (fun e : element => Nat.eqb e.2 e2.2) (take size L) = size).
    { destruct (NdViewProofs.find_pos_ok (fun e : element => Nat.eqb e.2 e2.2) (take size L)) as (F1 & F2 & _). rewrite take_length in F1.
      destruct (decide (find_pos (fun e : element => Nat.eqb e.2 e2.2) (take size L) = size)) as [|Hn]; [done|]. exfalso.
      remember (find_pos _ (take size L)) as k eqn:Ek. destruct (lookup_lt_is_Some_2 L k) as [ek Hk]; [lia|].
      specialize (F2 ek). rewrite lookup_take in F2 by lia. specialize (F2 Hk). apply Nat.eqb_eq in F2.
      pose proof (Hs k (size - 1) ek e1 ltac:(lia) Hk H1). lia. }
    assert (Eb : find_pos (fun e : element => negb (Nat.eqb e.2 e1.2)) (drop (size - 1) L) = 1).
    { rewrite (drop_S L e1 (size - 1) H1). cbn [find_pos]. rewrite Nat.eqb_refl. cbn [negb]. replace (S (size - 1)) with size by lia.
      rewrite (drop_S L e2 size H2). cbn [find_pos]. assert (Nat.eqb e2.2 e1.2 = false) as -> by (apply Nat.eqb_neq; lia). done. }
    rewrite Ea, Eb. exists size, size. replace (size - 1 + 1) with size by lia. split; [done|]. split; [lia|]. split; [lia|]. split; [lia|].
    exists 0. intros e He. apply range_in in He as (p & Hp & _). lia.
Qed.

(** ** Association *)
Lemma elementwise_len {A} (f : A -> A -> A) l : forall r, length l = length r -> exists k, elementwise f l r = Some k /\ length k = length l.
Proof.
  induction l as [|x l IH]; intros [|y r] H; try done; [by exists []|]. cbn in H. injection H as H. destruct (IH r H) as (k & E & Hk).
  exists (f x y :: k). cbn. rewrite E. cbn. by rewrite Hk.
Qed.
Lemma fold_elementwise_len {A} (f : A -> A -> A) d rest : forall a, length a = d -> Forall (fun l => length l = d) rest ->
  exists k, fold_left (fun acc r => a ← acc; elementwise f a r) rest (Some a) = Some k /\ length k = d.
Proof.
  induction rest as [|r rest IH]; intros a Ha H; cbn [fold_left]; [by exists a|]. inversion H as [|? ? Hr H']; subst.
  destruct (elementwise_len f a r) as (k & E & Hk); [done|]. cbn [mbind option_bind]. rewrite E. apply IH; done.
Qed.
Lemma max_loop_lt {A B} (lt : B -> B -> bool) (f : A -> B) rest : forall first best bv, best < first -> max_loop lt f rest first best bv < first + length rest.
Proof.
  induction rest as [|x rest IH]; intros first best bv H; cbn; [lia|]. destruct (lt bv (f x)).
  - specialize (IH (S first) first (f x)). lia.
  - specialize (IH (S first) best bv). lia.
Qed.
Lemma max_element_lt {A B} (lt : B -> B -> bool) (f : A -> B) l : l <> [] -> max_element lt f l < length l.
Proof. destruct l as [|x l]; [done|]. intros _. cbn. apply (max_loop_lt lt f l 1 0 (f x)). lia. Qed.
Lemma min_element_lt {A B} (lt : B -> B -> bool) (f : A -> B) l : l <> [] -> min_element lt f l < length l.
Proof. intros H. rewrite min_element_max. by apply max_element_lt. Qed.

Section associate.
Variable reduce : list b64 -> b64.
Variable square : b64 -> b64.
Variable d : nat.

Definition dims (m : list (list b64)) : Prop := Forall (fun l => length l = d) m.
Lemma normalize_len f : forall i n, length f = length i -> length i = length n -> length (normalize_loop f i n) = length f.
Proof. induction f as [|x f IH]; intros [|y i] [|z n] H1 H2; try done. cbn in *. rewrite IH by lia. done. Qed.
Lemma weight_len k axis : length (weightVector k axis) = k.
Proof. unfold weightVector. by rewrite insert_length, replicate_length. Qed.
Lemma mapM_len {A B} (f : A -> option B) l : (forall x, x ∈ l -> is_Some (f x)) -> exists k, mapM f l = Some k /\ length k = length l /\ forall y, y ∈ k -> exists x, x ∈ l /\ f x = Some y.
Proof.
  induction l as [|x l IH]; intros H; [exists []; split; [done|]; split; [done|]; intros y Hy; by apply elem_of_nil in Hy|].
  destruct (H x) as [y Hy]; [apply elem_of_cons; by left|]. destruct IH as (k & E & Hl & Hk); [intros z Hz; apply H, elem_of_cons; by right|].
  exists (y :: k). cbn. rewrite Hy. cbn. rewrite E. cbn. split; [done|]. split; [by rewrite Hl|].
  intros z Hz. apply elem_of_cons in Hz as [->|Hz]; [exists x; split; [apply elem_of_cons; by left|done]|].
  destruct (Hk z Hz) as (w & Hw & Ew). exists w. split; [apply elem_of_cons; by right|done].
Qed.
Lemma extreme_points_ok fmat extreme ideal : dims fmat -> dims extreme -> length ideal = d -> 0 < d -> fmat <> [] ->
  exists k, updateExtremePoints fmat extreme ideal = Some k /\ dims k /\ length k = d.
Proof.
  intros Hf He Hi Hd Hne. unfold updateExtremePoints. destruct fmat as [|r0 fmat'] eqn:Ef; [done|]. rewrite <- Ef in *. 
  assert (Hh : head fmat = Some r0) by (by rewrite Ef). rewrite Hh. cbn [mbind option_bind].
  assert (Hr0 : length r0 = d) by (unfold dims in Hf; rewrite Ef in Hf; by inversion Hf). rewrite decide_True by lia.
  assert (Hpt : forall dim, exists r, extreme_point fmat extreme ideal dim = Some r /\ length r = d).
  { intros dim. unfold extreme_point.
    destruct (mapM_len (ASF ideal (weightVector (length ideal) dim)) (fmat ++ extreme)) as (k & E & Hl & _).
    { intros x Hx. unfold ASF. rewrite decide_True; [eauto|]. rewrite weight_len. unfold dims in *. rewrite Forall_forall in Hf, He.
      assert (length x = d) by (apply elem_of_app in Hx as [?|?]; auto). split; [|lia]. intros ->. cbn in Hi. lia. }
    rewrite E. cbn [mbind option_bind]. assert (Hk : k <> []) by (intros ->; rewrite Ef in Hl; cbn in Hl; lia).
    unfold argmin. rewrite decide_True by (destruct k; [done|cbn; lia]). cbn [mbind option_bind].
    destruct (lookup_lt_is_Some_2 (fmat ++ extreme) (min_element flt (fun x : b64 => x) k)) as [r Hr]; [rewrite <- Hl; by apply min_element_lt|].
    exists r. split; [done|]. apply elem_of_list_lookup_2 in Hr. unfold dims in *. rewrite Forall_forall in Hf, He. apply elem_of_app in Hr as [?|?]; auto. }
  destruct (mapM_len (extreme_point fmat extreme ideal) (seq 0 (length ideal))) as (k & E & Hl & Hk).
  { intros dim _. destruct (Hpt dim) as (r & E & _). by rewrite E. }
  exists k. split; [done|]. rewrite seq_length in Hl. split; [|lia]. apply Forall_forall. intros y Hy. destruct (Hk y Hy) as (dim & _ & E').
  destruct (Hpt dim) as (r & E'' & Hr). congruence.
Qed.
Lemma associate_ok lines ideal nadir fvec : lines <> [] -> dims lines -> length ideal = d -> length nadir = d -> length fvec = d ->
  exists r x, associate reduce square lines ideal nadir fvec = Some (r, x) /\ r < length lines.
Proof.
  intros Hne Hl Hi Hn Hf. unfold associate, normalizeFitnessVec. rewrite decide_True by lia. cbn [mbind option_bind].
  pose proof (max_element_lt flt (fun line => inner_product (normalize_loop fvec ideal nadir) line) lines Hne) as Hlt. cbn zeta.
  remember (max_element flt _ lines) as c eqn:Ec. destruct (lookup_lt_is_Some_2 lines c Hlt) as [line Hline]. rewrite Hline. cbn [mbind option_bind].
  unfold perpendicularDistanceSq. rewrite decide_True; [eauto|]. rewrite normalize_len by lia. rewrite Hf.
  unfold dims in Hl. rewrite Forall_forall in Hl. apply Hl. by eapply elem_of_list_lookup_2.
Qed.
Lemma associate_all_ok lines fmat ideal nadir els : lines <> [] -> dims lines -> length ideal = d -> length nadir = d -> dims fmat ->
  forall info, length info = length fmat -> (forall e, e ∈ els -> e.1 < length fmat) ->
  exists info', associate_all reduce square lines fmat ideal nadir els info = Some info' /\ length info' = length fmat /\
    (forall e, e ∈ els -> ref_of info' e < length lines) /\
    (forall k, (forall e, e ∈ els -> e.1 <> k) -> info' !! k = info !! k) /\
    (forall k x, info !! k = Some x -> exists y, info' !! k = Some y /\ c_rank y = c_rank x).
Proof.
  intros Hne Hl Hi Hn Hm. induction els as [|[idx rk] els IH]; intros info Hlen Hels; cbn [associate_all].
  - exists info. split; [done|]. split; [done|]. split; [intros e He; by apply elem_of_nil in He|]. split; [done|]. eauto.
  - assert (Hidx : idx < length fmat) by (apply (Hels (idx, rk)), elem_of_cons; by left).
    destruct (lookup_lt_is_Some_2 fmat idx Hidx) as [fvec Hfv]. rewrite Hfv. cbn [mbind option_bind].
    destruct (associate_ok lines ideal nadir fvec Hne Hl Hi Hn) as (r & x & E & Hr).
    { unfold dims in Hm. rewrite Forall_forall in Hm. apply Hm. by eapply elem_of_list_lookup_2. }
    rewrite E. cbn [mbind option_bind]. destruct (lookup_lt_is_Some_2 info idx) as [i Hii]; [lia|]. rewrite Hii. cbn [mbind option_bind].
    destruct (IH (<[idx := CInfo (c_rank i) r x]> info)) as (info' & E' & L' & G1 & G2 & G3).
    { by rewrite insert_length. }
    { intros e He. apply Hels, elem_of_cons. by right. }
    exists info'. split; [done|]. split; [done|]. split; [|split].
    + intros e He. apply elem_of_cons in He as [->|He]; [|by apply G1]. destruct (decide (Exists (fun e : element => e.1 = idx) els)) as [Hx|Hx].
      * apply Exists_exists in Hx as (e & He & E1). specialize (G1 e He). unfold ref_of in *. cbn. by rewrite <- E1.
      * unfold ref_of. cbn. rewrite (nth_lookup_Some info' idx _ (CInfo (c_rank i) r x)); [done|]. rewrite G2.
        -- apply list_lookup_insert. lia.
        -- intros e He Heq. apply Hx. apply Exists_exists. by exists e.
    + intros k Hk. rewrite G2 by (intros e He; apply Hk, elem_of_cons; by right). apply list_lookup_insert_ne. apply (Hk (idx, rk)), elem_of_cons. by left.
    + intros k y Hy. destruct (decide (k = idx)) as [->|Hne'].
      * destruct (G3 idx (CInfo (c_rank i) r x)) as (z & Hz & Ez); [apply list_lookup_insert; lia|]. exists z. split; [done|]. rewrite Ez. cbn. congruence.
      * apply G3. by rewrite list_lookup_insert_ne.
Qed.
Lemma associatePop_ok fmat els st : nsga3_ok d st -> 0 < d -> dims fmat -> fmat <> [] -> length (sol_info st) = length fmat -> (forall e, e ∈ els -> e.1 < length fmat) ->
  exists st', associatePopWithRefs reduce square fmat els st = Some st' /\ nsga3_ok d st' /\ length (sol_info st') = length fmat /\
    (forall e, e ∈ els -> ref_of (sol_info st') e < length (niche_counts st')) /\
    (forall k x, sol_info st !! k = Some x -> exists y, sol_info st' !! k = Some y /\ c_rank y = c_rank x).
Proof.
  intros (H1 & H2 & H3 & H4 & H5) Hd Hm Hne Hlen Hels. unfold associatePopWithRefs. rewrite decide_True by done.
  unfold updateIdealPoint, maxFitness. destruct fmat as [|r0 fmat'] eqn:Ef; [done|]. rewrite <- Ef in *.
  assert (Hr0 : length r0 = d /\ Forall (fun l => length l = d) fmat') by (unfold dims in Hm; rewrite Ef in Hm; inversion Hm; done). destruct Hr0 as [Hr0 Hf'].
  destruct (fold_elementwise_len (std_max flt) d fmat' r0 Hr0 Hf') as (mx & Emx & Hmx). unfold elementwise_max. rewrite Emx. cbn [mbind option_bind].
  destruct (elementwise_len (std_max flt) (ideal_point st) mx) as (ideal & Ei & Hi); [lia|]. rewrite Ei. cbn [mbind option_bind].
  unfold updateNadirPoint. destruct (extreme_points_ok fmat (extreme_points st) ideal) as (ext & Ee & Hex & Hlex); [done|done|lia|done|done|]. rewrite Ee. cbn [mbind option_bind].
  assert (Hnad : exists nadir, findFrontNadirPoint ext = Some nadir /\ length nadir = d).
  { destruct ext as [|x0 ext']; [cbn in Hlex; lia|]. unfold findFrontNadirPoint. inversion Hex; subst. apply (fold_elementwise_len (std_min flt)); done. }
  destruct Hnad as (nadir & En & Hnl). rewrite En. cbn [mbind option_bind].
  assert (Ers : resize_info (length fmat) (sol_info st) = sol_info st).
  { unfold resize_info. rewrite take_ge by lia. rewrite Hlen, Nat.sub_diag. by rewrite app_nil_r. }
  rewrite Ers. destruct (associate_all_ok (ref_lines st) fmat ideal nadir els H1 H2 ltac:(lia) Hnl Hm (sol_info st) Hlen Hels) as (info' & Ea & La & G1 & G2 & G3).
  rewrite Ea. cbn [mbind option_bind]. eexists. split; [done|]. cbn. split; [|split; [done|split; [|done]]].
  - repeat split; try done; cbn; lia.
  - intros e He. rewrite H3. by apply G1.
Qed.
End associate.
Lemma set_ranks_ok els : forall info, (forall e, e ∈ els -> e.1 < length info) -> NoDup els.*1 ->
  exists info', set_ranks els info = Some info' /\ length info' = length info /\ (forall k, k ∉ els.*1 -> info' !! k = info !! k) /\
    forall i r, (i, r) ∈ els -> exists x, info' !! i = Some x /\ c_rank x = r.
Proof.
  induction els as [|[idx r] els IH]; intros info H Hn; cbn [set_ranks].
  - exists info. split; [done|]. split; [done|]. split; [done|]. intros i r Hi. by apply elem_of_nil in Hi.
  - destruct (lookup_lt_is_Some_2 info idx) as [i Hi]; [apply (H (idx, r)), elem_of_cons; by left|]. rewrite Hi. cbn [mbind option_bind].
    cbn in Hn. apply NoDup_cons in Hn as [Hnin Hn].
    destruct (IH (<[idx := CInfo r (c_ref i) (c_dist i)]> info)) as (info' & E & L & G1 & G2); [intros e He; rewrite insert_length; apply H, elem_of_cons; by right|done|].
    rewrite insert_length in L. exists info'. split; [done|]. split; [done|]. split.
    + intros k Hk. cbn in Hk. apply not_elem_of_cons in Hk as [Hk1 Hk2]. rewrite G1 by done. by apply list_lookup_insert_ne.
    + intros k s Hk. apply elem_of_cons in Hk as [[= -> ->]|Hk]; [|by apply G2]. exists (CInfo r (c_ref i) (c_dist i)). split; [|done].
      rewrite G1 by done. apply list_lookup_insert. by eapply lookup_lt_Some.
Qed.
