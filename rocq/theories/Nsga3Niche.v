(** Lemmas about the niching loop of NSGA-III. *)
From Coq Require Import Reals ZArith Lra Lia.
From stdpp Require Import list list_numbers sets.
From Flocq Require Import Core BinarySingleNaN.
From Verif Require Import StdSort FloatBase FloatModel FloatSpec FloatProofs AlgorithmModel AlgorithmSpec AlgorithmProofs NdSortModel NdSortProps.
From Verif Require Import RandModel RandProofs Nsga2Model Nsga2Proofs Nsga3Model Nsga3Spec Nsga3Proofs.
Local Open Scope nat_scope.

Definition members (info : list cinfo) (r : nat) (l : list element) : list element := filter (fun e => ref_of info e = r) l.

Lemma count_insert niche r s : r < length niche -> count_of (<[r := S (count_of niche r)]> niche) s = if decide (s = r) then S (count_of niche r) else count_of niche s.
Proof.
  intros H. unfold count_of. case_decide as E.
  - subst s. apply nth_lookup_Some. by apply list_lookup_insert.
  - destruct (decide (s < length niche)) as [Hs|Hs].
    + destruct (lookup_lt_is_Some_2 niche s Hs) as [x Hx]. rewrite (nth_lookup_Some niche s 0 x Hx). apply nth_lookup_Some. by rewrite list_lookup_insert_ne.
    + rewrite !nth_overflow; [done|lia|rewrite insert_length; lia].
Qed.

Lemma count_replicate n r : count_of (replicate n 0) r = 0.
Proof.
  unfold count_of. destruct (decide (r < n)) as [H|H]; [apply nth_lookup_Some; by apply lookup_replicate_2|]. apply nth_overflow. rewrite replicate_length. lia.
Qed.
Lemma recalc_loop_ok info els : forall niche, (forall e, e ∈ els -> ref_of info e < length niche) ->
  exists niche', recalc_loop info els niche = Some niche' /\ length niche' = length niche /\
    forall r, count_of niche' r = count_of niche r + length (members info r els).
Proof.
  induction els as [|e els IH]; intros niche H; cbn [recalc_loop].
  - exists niche. split; [done|]. split; [done|]. intros r. cbn. lia.
  - assert (He : ref_of info e < length niche) by (apply H, elem_of_cons; by left). rewrite decide_True by done.
    destruct (IH (<[ref_of info e := S (count_of niche (ref_of info e))]> niche)) as (n' & E & L & C); [intros x Hx; rewrite insert_length; apply H, elem_of_cons; by right|].
    rewrite insert_length in L. exists n'. split; [done|]. split; [done|]. intros r. rewrite C, count_insert by done. unfold members. rewrite filter_cons.
    case_decide as E1; case_decide as E2; subst; try done; cbn [length]; lia.
Qed.
Lemma recalc_ok info els niche : (forall e, e ∈ els -> ref_of info e < length niche) ->
  exists niche', recalcNicheCounts info els niche = Some niche' /\ length niche' = length niche /\ forall r, count_of niche' r = length (members info r els).
Proof.
  intros H. destruct (recalc_loop_ok info els (replicate (length niche) 0)) as (n' & E & L & C); [by rewrite replicate_length|].
  rewrite replicate_length in L. exists n'. split; [done|]. split; [done|]. intros r. rewrite C, count_replicate. done.
Qed.

(** The list of lines is ordered by the counts. *)
Definition by_count (niche refs : list nat) : Prop := forall i j x y, i < j -> refs !! i = Some x -> refs !! j = Some y -> count_of niche x <= count_of niche y.
Lemma count_swo niche l : swo_on (fun lhs rhs => Nat.ltb (count_of niche lhs) (count_of niche rhs)) l.
Proof.
  split.
  - intros x _. apply Nat.ltb_ge. lia.
  - intros x y z _ _ _. rewrite !Nat.ltb_lt. lia.
  - intros x y z _ _ _. rewrite !Nat.ltb_ge. lia.
Qed.
Lemma refset_ok (sort : forall A, (A -> A -> bool) -> list A -> list A) info niche els : (forall A, sort_contract (sort A)) ->
  (forall e, e ∈ els -> ref_of info e < length niche) ->
  exists refs, referenceSetOf sort info niche els = Some refs /\ NoDup refs /\ by_count niche refs /\ (forall r, r ∈ refs <-> exists e, e ∈ els /\ ref_of info e = r).
Proof.
  intros Hs H. unfold referenceSetOf.
  destruct (erase_duplicates_ok (sort nat) Nat.ltb Nat.eqb (ref_of info <$> els)) as (N & I & _).
  { apply Hs. }
  { intros x y. apply Nat.eqb_eq. }
  { split; intros x; [|intros y z|intros y z].
    - intros _. apply Nat.ltb_irrefl.
    - intros _ _ _. rewrite !Nat.ltb_lt. lia.
    - intros _ _ _. rewrite !Nat.ltb_ge. lia. }
  { intros a b _ _. rewrite !Nat.ltb_ge. lia. }
  remember (erase_duplicates (sort nat) Nat.ltb Nat.eqb (ref_of info <$> els)) as refs eqn:E. clear E.
  assert (I' : forall r, r ∈ refs <-> exists e, e ∈ els /\ ref_of info e = r).
  { intros r. rewrite I, elem_of_list_fmap. split; intros (e & H1 & H2); exists e; done. }
  rewrite decide_True.
  2:{ apply Forall_forall. intros r Hr. apply I' in Hr as (e & He & <-). by apply H. }
  destruct (Hs nat _ _ (count_swo niche refs)) as [P S]. eexists. split; [done|]. split; [by rewrite <- P|]. split.
  - intros i j x y Hij Hx Hy. specialize (S i j x y Hij Hx Hy). cbn in S. apply Nat.ltb_ge in S. done.
  - intros r. rewrite <- P. apply I'.
Qed.

Lemma iter_swap_ok {A} (l : list A) i j : i < length l -> j < length l ->
  exists l', iter_swap l i j = Some l' /\ length l' = length l /\ l' ≡ₚ l /\
    forall k, l' !! k = if decide (k = j) then l !! i else if decide (k = i) then l !! j else l !! k.
Proof.
  intros Hi Hj. unfold iter_swap. destruct (lookup_lt_is_Some_2 l i Hi) as [x Hx]. destruct (lookup_lt_is_Some_2 l j Hj) as [y Hy]. rewrite Hx, Hy. cbn [mbind option_bind].
  eexists. split; [done|]. split; [by rewrite !insert_length|].
  assert (Hlk : forall k, <[j:=x]> (<[i:=y]> l) !! k = if decide (k = j) then Some x else if decide (k = i) then Some y else l !! k).
  { intros k. case_decide as E1; [subst; apply list_lookup_insert; by rewrite insert_length|]. rewrite list_lookup_insert_ne by done.
    case_decide as E2; [subst; by apply list_lookup_insert|]. by apply list_lookup_insert_ne. }
  split; [|done].
  destruct (decide (i = j)) as [->|Hne].
  - assert (x = y) as -> by congruence. rewrite list_insert_insert. by rewrite list_insert_id.
  - apply Permutation_inj. split; [by rewrite !insert_length|].
    exists (fun k => if decide (k = i) then j else if decide (k = j) then i else k). split.
    + intros a b. repeat case_decide; subst; lia.
    + intros k. rewrite Hlk. repeat case_decide; subst; congruence.
Qed.

Lemma find_pos_nodup (l : list nat) p x : NoDup l -> l !! p = Some x -> find_pos (fun r => Nat.eqb r x) l = p.
Proof.
  revert p. induction l as [|y l IH]; intros p Hn Hp; [done|]. apply NoDup_cons in Hn as [Hnin Hn]. cbn [find_pos]. destruct p as [|p].
  - injection Hp as ->. by rewrite Nat.eqb_refl.
  - cbn in Hp. assert (Nat.eqb y x = false) as ->; [|f_equal; by apply IH]. apply Nat.eqb_neq. intros ->. apply Hnin. by eapply elem_of_list_lookup_2.
Qed.

(** Raising one count and moving its line behind the lines of the same count. *)
Lemma increment_ok niche refs p ref : NoDup refs -> by_count niche refs -> refs !! p = Some ref -> (forall r, r ∈ refs -> r < length niche) ->
  exists niche' refs', incrementNicheCount niche refs ref = Some (niche', refs') /\ niche' = <[ref := S (count_of niche ref)]> niche /\
    refs' ≡ₚ refs /\ by_count niche' refs'.
Proof.
  intros Hn Hs Hp Hb. assert (Href : ref < length niche) by (apply Hb; by eapply elem_of_list_lookup_2).
  unfold incrementNicheCount. rewrite decide_True by done. cbn zeta. rewrite (find_pos_nodup refs p ref Hn Hp).
  remember (<[ref := S (count_of niche ref)]> niche) as niche' eqn:En.
  assert (Hc : forall s, count_of niche' s = if decide (s = ref) then S (count_of niche ref) else count_of niche s) by (subst niche'; intros s; by apply count_insert).
  destruct (NdViewProofs.find_pos_ok (fun idx => Nat.leb (count_of niche' ref) (count_of niche' idx)) (drop (S p) refs)) as (F1 & F2 & F3).
  remember (find_pos (fun idx => Nat.leb (count_of niche' ref) (count_of niche' idx)) (drop (S p) refs)) as k eqn:Ek. clear Ek.
  rewrite drop_length in F1. pose proof (lookup_lt_Some _ _ _ Hp) as Hpl. replace (S p + k - 1) with (p + k) by lia.
  destruct (iter_swap_ok refs p (p + k)) as (refs' & E & L & P & Hlk); [lia|lia|]. rewrite E. cbn [mbind option_bind].
  exists niche', refs'. split; [done|]. split; [done|]. split; [done|].
  assert (Hcr : count_of niche' ref = S (count_of niche ref)) by (rewrite Hc; by rewrite decide_True).
  assert (Hneq : forall q x, q <> p -> refs !! q = Some x -> x <> ref) by (intros q x Hq Hx ->; apply Hq; by eapply (NoDup_lookup refs)).
  assert (Hco : forall q x, q <> p -> refs !! q = Some x -> count_of niche' x = count_of niche x) by (intros q x Hq Hx; rewrite Hc; rewrite decide_False; [done|by eapply Hneq]).
  (* the count at each position, before the swap *)
  assert (Hmid : forall q x, p < q <= p + k -> refs !! q = Some x -> count_of niche' x = count_of niche ref).
  { intros q x Hq Hx. pose proof (Hs p q ref x ltac:(lia) Hp Hx) as G. rewrite (Hco q x) by (done || lia).
    specialize (F3 (q - S p) x ltac:(lia)). rewrite lookup_drop in F3. replace (S p + (q - S p)) with q in F3 by lia. specialize (F3 Hx).
    apply Nat.leb_gt in F3. rewrite Hcr, (Hco q x) in F3 by (done || lia). lia. }
  assert (Haft : forall q x, p + k < q -> refs !! q = Some x -> S (count_of niche ref) <= count_of niche' x).
  { intros q x Hq Hx. destruct (lookup_lt_is_Some_2 refs (S p + k)) as [y Hy]; [apply lookup_lt_Some in Hx; lia|].
    specialize (F2 y). rewrite lookup_drop in F2. specialize (F2 Hy). apply Nat.leb_le in F2. rewrite Hcr in F2.
    rewrite (Hco (S p + k) y) in F2 by (done || lia). rewrite (Hco q x) by (done || lia). destruct (decide (q = S p + k)) as [->|]; [assert (x = y) as -> by congruence; lia|].
    pose proof (Hs (S p + k) q y x ltac:(lia) Hy Hx). lia. }
  assert (Hbef : forall q x, q < p -> refs !! q = Some x -> count_of niche' x = count_of niche x /\ count_of niche x <= count_of niche ref).
  { intros q x Hq Hx. split; [apply (Hco q x); [lia|done]|]. exact (Hs q p x ref Hq Hx Hp). }
  (* classify positions of refs' *)
  assert (Hcls : forall q x, refs' !! q = Some x ->
    (q < p /\ refs !! q = Some x) \/ (p <= q < p + k /\ count_of niche' x = count_of niche ref) \/ (q = p + k /\ x = ref) \/ (p + k < q /\ refs !! q = Some x)).
  { intros q x Hx. rewrite Hlk in Hx. case_decide as E1; [right; right; left; split; [done|congruence]|]. case_decide as E2.
    - subst q. right; left. split; [lia|]. apply (Hmid (p + k)); [lia|done].
    - destruct (decide (q < p)); [left; done|]. destruct (decide (q < p + k)); [right; left; split; [lia|apply (Hmid q); [lia|done]]|]. right; right; right. split; [lia|done]. }
  intros i j x y Hij Hx Hy. destruct (Hcls i x Hx) as [[A1 A2]|[[A1 A2]|[[A1 A2]|[A1 A2]]]]; destruct (Hcls j y Hy) as [[B1 B2]|[[B1 B2]|[[B1 B2]|[B1 B2]]]]; try lia.
  - destruct (Hbef _ _ A1 A2) as [-> _]. destruct (Hbef _ _ B1 B2) as [-> _]. exact (Hs i j x y Hij A2 B2).
  - destruct (Hbef _ _ A1 A2) as [-> ?]. lia.
  - destruct (Hbef _ _ A1 A2) as [-> ?]. subst y. lia.
  - destruct (Hbef _ _ A1 A2) as [-> ?]. pose proof (Haft j y B1 B2). lia.
  - subst y. lia.
  - pose proof (Haft j y B1 B2). lia.
  - subst x. pose proof (Haft j y B1 B2). lia.
  - rewrite (Hco i x) by (done || lia). rewrite (Hco j y) by (done || lia). exact (Hs i j x y Hij A2 B2).
Qed.

Lemma erase_ok niche refs ref : NoDup refs -> by_count niche refs ->
  let l := (erase_first_stable Nat.eqb refs ref).1 in
  NoDup l /\ by_count niche l /\ (forall r, r ∈ l <-> r ∈ refs /\ r <> ref) /\ length refs <= S (length l).
Proof.
  intros Hn Hs. cbn zeta. pose proof (erase_first_ok Nat.eqb refs ref Nat.eqb_eq) as H.
  destruct (erase_first_stable Nat.eqb refs ref) as [l []]; cbn [fst].
  - destruct H as (a & b & -> & Hnin & ->). apply NoDup_app in Hn as (N1 & N2 & N3). apply NoDup_cons in N3 as [N4 N3].
    split; [apply NoDup_app; split; [done|]; split; [|done]; intros x Hx Hx'; apply (N2 x Hx), elem_of_cons; by right|]. split; [|split].
    + assert (Hlk : forall i, (a ++ b) !! i = (a ++ ref :: b) !! (if decide (i < length a) then i else S i)).
      { intros i. case_decide; [by rewrite !lookup_app_l|]. rewrite !lookup_app_r by lia. replace (S i - length a) with (S (i - length a)) by lia. done. }
      intros i j x y Hij Hx Hy. rewrite Hlk in Hx, Hy. eapply (Hs _ _ x y); [|exact Hx|exact Hy]. repeat case_decide; lia.
    + intros r. rewrite !elem_of_app, elem_of_cons. split.
      * intros [Hr|Hr]; (split; [auto|]); intros ->; done.
      * intros [[?|[?|?]] Hne]; auto. done.
    + rewrite !app_length. cbn. lia.
  - destruct H as [Hnin ->]. split; [done|]. split; [done|]. split; [|lia]. intros r. split; [|by intros [? _]]. intros Hr. split; [done|]. by intros ->.
Qed.

Lemma members_one info r (l : list element) p q e f : length (members info r l) = 1 -> l !! p = Some e -> l !! q = Some f -> ref_of info e = r -> ref_of info f = r -> p = q.
Proof.
  assert (G : forall p q e f, p < q -> l !! p = Some e -> l !! q = Some f -> ref_of info e = r -> ref_of info f = r -> 2 <= length (members info r l)).
  { clear. intros p q e f Hpq He Hf Er Fr. rewrite <- (take_drop_middle l p e He). unfold members. rewrite filter_app, filter_cons_True by done.
    rewrite app_length. cbn. assert (Hin : f ∈ filter (fun e => ref_of info e = r) (drop (S p) l)).
    { apply elem_of_list_filter. split; [done|]. apply elem_of_list_lookup. exists (q - S p). rewrite lookup_drop. rewrite <- Hf. f_equal. lia. }
    destruct (filter (fun e => ref_of info e = r) (drop (S p) l)); [by apply elem_of_nil in Hin|]. cbn. lia. }
  intros H1 He Hf Er Fr. destruct (decide (p < q)) as [Hlt|]; [pose proof (G p q e f Hlt He Hf Er Fr); lia|].
  destruct (decide (q < p)) as [Hlt|]; [pose proof (G q p f e Hlt Hf He Fr Er); lia|]. lia.
Qed.

(** ** The loop *)
Section loop.
Variable info : list cinfo.
Variables a b : nat.
Variable L0 : list element.
Variable niche0 refs0 : list nat.
Hypothesis Hab : a < b.
Hypothesis HbL : b <= length L0.
Hypothesis refs0_nodup : NoDup refs0.
Hypothesis refs0_sorted : by_count niche0 refs0.
Hypothesis refs0_in : forall r, r ∈ refs0 <-> exists e, e ∈ range (a, b) L0 /\ ref_of info e = r.
Hypothesis refs0_bound : forall r, r ∈ refs0 -> r < length niche0.

Record ninv (i : nat) (st : nstate) : Prop := {
  ni_perm : n_elements st ≡ₚ L0;
  ni_range : range (a, b) (n_elements st) ≡ₚ range (a, b) L0;
  ni_other : forall p, ~ (a <= p < b) -> n_elements st !! p = L0 !! p;
  ni_counts : length (n_counts st) = length niche0;
  ni_refs : NoDup (n_refs st);
  ni_sub : forall r, r ∈ n_refs st -> r ∈ refs0;
  ni_sorted : by_count (n_counts st) (n_refs st);
  ni_erased : forall r, r ∈ refs0 -> r ∈ n_refs st \/ length (members info r L0) = 1;
  ni_few : length refs0 <= length (n_refs st) + i;
}.
Lemma ninv_init : ninv 0 (NState L0 niche0 refs0).
Proof. split; cbn; try done; eauto. lia. Qed.
Lemma refs_ne i st : ninv i st -> i < b - a -> n_refs st <> [].
Proof.
  intros [] Hi E. rewrite E in *.
  assert (H1 : forall e, e ∈ range (a, b) L0 -> length (members info (ref_of info e) L0) = 1).
  { intros e He. destruct (ni_erased0 (ref_of info e)) as [G|G]; [apply refs0_in; eauto|by apply elem_of_nil in G|done]. }
  assert (Hnd : NoDup (ref_of info <$> range (a, b) L0)).
  { apply NoDup_alt. intros p q r Hp Hq. rewrite list_lookup_fmap in Hp, Hq. rewrite !lookup_range in Hp, Hq. repeat case_decide; try done.
    destruct (L0 !! (a + p)) as [e|] eqn:Ee; [|done]. destruct (L0 !! (a + q)) as [f|] eqn:Ef; [|done]. injection Hp as Hp. injection Hq as Hq.
    assert (G : a + p = a + q); [|lia]. eapply (members_one info r L0); [|exact Ee|exact Ef|done|done]. rewrite <- Hp. apply H1. apply range_in. exists (a + p). split; [lia|done]. }
  assert (Hsub : length (ref_of info <$> range (a, b) L0) <= length refs0).
  { apply submseteq_length. apply NoDup_submseteq; [done|]. intros r Hr. apply elem_of_list_fmap in Hr as (e & -> & He). apply refs0_in. eauto. }
  rewrite fmap_length, range_length in Hsub by done. cbn in ni_few0. lia.
Qed.

(** What one iteration does. *)
Record picked (i : nat) (st st' : nstate) (ref pos : nat) : Prop := {
  pk_ref : ref ∈ n_refs st;
  pk_min : forall r, r ∈ n_refs st -> count_of (n_counts st) ref <= count_of (n_counts st) r;
  pk_counts : n_counts st' = <[ref := S (count_of (n_counts st) ref)]> (n_counts st);
  pk_pos : pos < b - a /\ pos = findClosestAssociated info (range (a, b) (n_elements st)) ref;
  pk_swap : forall k, n_elements st' !! k = if decide (k = a + i) then n_elements st !! (a + pos) else if decide (k = a + pos) then n_elements st !! (a + i) else n_elements st !! k;
  pk_refs : forall r, r ∈ n_refs st' <-> r ∈ n_refs st /\ (r = ref -> length (members info ref L0) <> 1);
}.
Lemma step_ok i st s : ninv i st -> i < b - a -> exists st' ref pos, niche_step info (a, b) i st s = Some (st', stail s) /\ ninv (S i) st' /\ picked i st st' ref pos.
Proof.
  intros HI Hi. pose proof (refs_ne i st HI Hi) as Hne. destruct HI as [I1 I2 I3 I4 I5 I6 I7 I8 I9]. unfold niche_step.
  destruct (n_refs st) as [|r0 rs] eqn:Er; [done|]. rewrite <- Er in *. assert (Hh : head (n_refs st) = Some r0) by (by rewrite Er).
  rewrite (rbind_eq _ _ _ _ _ (rlift_eq _ _ s Hh)). cbn zeta.
  destruct (NdViewProofs.find_pos_ok (fun idx => negb (Nat.eqb (count_of (n_counts st) idx) (count_of (n_counts st) r0))) (n_refs st)) as (F1 & F2 & F3).
  assert (Fpos : 1 <= find_pos (fun idx => negb (Nat.eqb (count_of (n_counts st) idx) (count_of (n_counts st) r0))) (n_refs st)).
  { rewrite Er. cbn [find_pos]. rewrite Nat.eqb_refl. cbn [negb]. lia. }
  remember (find_pos _ (n_refs st)) as lm eqn:Elm. clear Elm.
  destruct (randomInt_ok 0 (Z.of_nat lm - 1) s) as (o & Eo & Bo); [lia|]. rewrite (rbind_eq _ _ _ _ _ Eo). cbv beta.
  destruct (lookup_lt_is_Some_2 (n_refs st) (Z.to_nat o)) as [ref Href]; [lia|]. rewrite (rbind_eq _ _ _ _ _ (rlift_eq _ _ _ Href)). cbv beta.
  assert (Hmin : forall r, r ∈ n_refs st -> count_of (n_counts st) ref <= count_of (n_counts st) r).
  { assert (Heq : count_of (n_counts st) ref = count_of (n_counts st) r0).
    { specialize (F3 (Z.to_nat o) ref ltac:(lia) Href). apply negb_false_iff, Nat.eqb_eq in F3. done. }
    intros r Hr. rewrite Heq. apply elem_of_list_lookup in Hr as [q Hq]. destruct q as [|q].
    - rewrite Er in Hq. injection Hq as ->. lia.
    - apply (I7 0 (S q)); [lia|by rewrite Er|done]. }
  destruct (increment_ok (n_counts st) (n_refs st) (Z.to_nat o) ref) as (niche' & refs' & Ei & En & Pr & Sr); try done.
  { intros r Hr. rewrite I4. by apply refs0_bound, I6. }
  rewrite (rbind_eq _ _ _ _ _ (rlift_eq _ _ _ Ei)). cbv beta. cbn [fst snd].
  assert (Hlen : length (n_elements st) = length L0) by (by rewrite I1).
  assert (Hrl : length (range (a, b) (n_elements st)) = b - a) by (apply range_length; lia).
  pose proof (min_element_lt flt (fun sol => if Nat.eqb (ref_of info sol) ref then dist_of info sol else finf) (range (a, b) (n_elements st))) as Hcl.
  fold (findClosestAssociated info (range (a, b) (n_elements st)) ref) in Hcl.
  assert (Hcl' : findClosestAssociated info (range (a, b) (n_elements st)) ref < b - a) by (rewrite <- Hrl; apply Hcl; intros E; rewrite E in Hrl; cbn in Hrl; lia).
  clear Hcl. remember (findClosestAssociated info (range (a, b) (n_elements st)) ref) as pos eqn:Epos.
  destruct (iter_swap_ok (n_elements st) (a + pos) (a + i)) as (els & Es & Ls & Ps & Hlk); [lia|lia|].
  rewrite (rbind_eq _ _ _ _ _ (rlift_eq _ _ _ Es)). cbv beta. unfold rret.
  assert (Hmem : length (filter (fun sol => ref_of info sol = ref) (n_elements st)) = length (members info ref L0)) by (unfold members; by rewrite I1).
  rewrite Hmem. destruct (erase_ok niche' refs' ref) as (E1 & E2 & E3 & E4); [by rewrite Pr|done|]. cbn zeta in *.
  remember (if decide (length (members info ref L0) = 1) then (erase_first_stable Nat.eqb refs' ref).1 else refs') as refs2 eqn:E2r.
  assert (R1 : NoDup refs2) by (subst refs2; case_decide; [done|by rewrite Pr]).
  assert (R2 : by_count niche' refs2) by (subst refs2; by case_decide).
  assert (R3 : forall r, r ∈ refs2 <-> r ∈ n_refs st /\ (r = ref -> length (members info ref L0) <> 1)).
  { intros r. subst refs2. case_decide as D.
    - rewrite E3, Pr. split; intros [G1 G2]; (split; [done|]); [intros; done|]. intros ->. by apply G2.
    - rewrite Pr. split; [done|]. by intros [? _]. }
  assert (R4 : length (n_refs st) <= S (length refs2)).
  { subst refs2. assert (length refs' = length (n_refs st)) by (by rewrite Pr). case_decide; lia. }
  clear E2r.
  exists (NState els niche' refs2), ref, pos. split; [done|].
  assert (Hswap : forall k, els !! k = if decide (k = a + i) then n_elements st !! (a + pos) else if decide (k = a + pos) then n_elements st !! (a + i) else n_elements st !! k) by done.
  split.
  - split; cbn.
    + by rewrite Ps.
    + assert (G : els ≡ₚ n_elements st) by done.
      assert (Hsp : els = put_range (a, b) (range (a, b) els) (n_elements st)).
      { apply list_eq. intros p. rewrite lookup_put_range by (rewrite ?range_length; lia). case_decide as D.
        - rewrite lookup_range, decide_True by lia. f_equal. lia.
        - rewrite Hswap. rewrite !decide_False by lia. done. }
      rewrite (range_split a b (n_elements st)) in G by lia. rewrite Hsp in G. unfold put_range in G. cbn [fst snd] in G.
      apply Permutation_app_inv_l in G. apply Permutation_app_inv_r in G. rewrite G. done.
    + intros p Hp. rewrite Hswap, !decide_False by lia. by apply I3.
    + subst niche'. by rewrite insert_length.
    + done.
    + intros r Hr. apply I6. by apply R3 in Hr as [? _].
    + done.
    + intros r Hr. destruct (I8 r Hr) as [G|G]; [|by right]. destruct (decide (r = ref /\ length (members info ref L0) = 1)) as [[-> D]|D]; [by right|].
      left. apply R3. split; [done|]. intros -> ?. apply D. done.
    + lia.
  - split; try done. by eapply elem_of_list_lookup_2.
Qed.

Inductive steps : nat -> nstate -> list nstate -> nstate -> Prop :=
| steps_nil i st : steps i st [] st
| steps_cons i st st1 ref pos sts st' : ninv i st -> picked i st st1 ref pos -> steps (S i) st1 sts st' -> steps i st (st1 :: sts) st'.
Lemma loop_ok k : forall i st s, ninv i st -> i + k <= b - a -> exists sts st' s', niche_loop info (a, b) (seq i k) st s = Some (st', s') /\ ninv (i + k) st' /\ steps i st sts st' /\ length sts = k.
Proof.
  induction k as [|k IH]; intros i st s HI Hk; cbn [seq niche_loop].
  - exists [], st, s. split; [done|]. split; [by rewrite Nat.add_0_r|]. split; [constructor|done].
  - destruct (step_ok i st s HI ltac:(lia)) as (st1 & ref & pos & E & HI1 & HP). rewrite (rbind_eq _ _ _ _ _ E).
    destruct (IH (S i) st1 (stail s) HI1 ltac:(lia)) as (sts & st' & s' & E' & HI' & HS & HL). exists (st1 :: sts), st', s'. split; [done|].
    split; [by replace (i + S k) with (S i + k) by lia|]. split; [by econstructor|cbn; lia].
Qed.

(** With finite distances the closest associated member is one. *)
Hypothesis finite_dist : forall e, e ∈ range (a, b) L0 -> is_finite (dist_of info e) = true.
Lemma closest_ok els ref : els ≡ₚ range (a, b) L0 -> (exists e, e ∈ els /\ ref_of info e = ref) ->
  exists e, els !! findClosestAssociated info els ref = Some e /\ ref_of info e = ref /\
    forall f, f ∈ els -> ref_of info f = ref -> flt (dist_of info f) (dist_of info e) = false.
Proof.
  intros Hp (e0 & He0 & Hr0). unfold findClosestAssociated.
  remember (fun sol => if Nat.eqb (ref_of info sol) ref then dist_of info sol else finf) as g eqn:Eg.
  assert (Hg : forall e, e ∈ els -> is_nan (g e) = false).
  { intros e He. subst g. cbv beta. destruct (Nat.eqb _ _); [|done]. rewrite Hp in He. specialize (finite_dist e He). by destruct (dist_of info e). }
  destruct (max_element_ok (fun x y => flt y x) g els) as (x & Hx & Hmax & _).
  { intros ->. by apply elem_of_nil in He0. }
  { apply swo_flip. assert (Hn : forall w, w ∈ g <$> els -> is_nan w = false).
    { intros w Hw. apply elem_of_list_fmap in Hw as (e & -> & He). by apply Hg. }
    split.
    - intros x Hx. rewrite flt_fval by auto. apply Rlt_bool_false. lra.
    - intros x y z Hx Hy Hz. rewrite !flt_fval by auto. case Rlt_bool_spec; [|done]. intros H1 _. case Rlt_bool_spec; [|done]. intros H2 _. apply Rlt_bool_true. lra.
    - intros x y z Hx Hy Hz. rewrite !flt_fval by auto. case Rlt_bool_spec; [done|]. intros H1 _. case Rlt_bool_spec; [done|]. intros H2 _. apply Rlt_bool_false. lra. }
  rewrite min_element_max. rewrite list_lookup_fmap in Hx. destruct (els !! max_element (fun x y => flt y x) g els) as [e|] eqn:Ee; [|done]. injection Hx as <-.
  assert (Hmax' : forall f, f ∈ els -> flt (g f) (g e) = false).
  { intros f Hf. apply elem_of_list_lookup in Hf as [q Hf]. apply (Hmax q). by rewrite list_lookup_fmap, Hf. }
  pose proof (elem_of_list_lookup_2 _ _ _ Ee) as He. exists e. split; [done|]. assert (Hre : ref_of info e = ref).
  { destruct (decide (ref_of info e = ref)) as [|Hne]; [done|]. exfalso. specialize (Hmax' e0 He0). subst g. cbv beta in Hmax'.
    rewrite Hr0, Nat.eqb_refl in Hmax'. apply Nat.eqb_neq in Hne. rewrite Hne in Hmax'. rewrite Hp in He0. specialize (finite_dist e0 He0).
    destruct (dist_of info e0) as [|[]| |[]]; done. }
  split; [done|]. intros f Hf Hrf. specialize (Hmax' f Hf). subst g. cbv beta in Hmax'. by rewrite Hre, Hrf, Nat.eqb_refl in Hmax'.
Qed.

(** The lines of all members that are not chosen yet are listed. *)
Definition listed (i : nat) (st : nstate) : Prop := forall p e, a + i <= p < b -> n_elements st !! p = Some e -> ref_of info e ∈ n_refs st.
Lemma listed_init : listed 0 (NState L0 niche0 refs0).
Proof. intros p e Hp He. cbn in *. apply refs0_in. exists e. split; [|done]. apply range_in. exists p. split; [lia|done]. Qed.
Lemma listed_step i st st' ref pos : ninv i st -> i < b - a -> listed i st -> picked i st st' ref pos -> listed (S i) st'.
Proof.
  intros HI Hi HL [K1 K2 K3 [K4 K4'] K5 K6] p e Hp He. rewrite K5 in He. rewrite decide_False in He by lia.
  assert (G : exists q, a + i <= q < b /\ n_elements st !! q = Some e /\ (q <> a + pos)).
  { case_decide as D.
    - exists (a + i). split; [lia|]. split; [done|]. lia.
    - exists p. split; [lia|done]. }
  destruct G as (q & Hq & Heq & Hne). apply K6. split; [by apply (HL q)|]. intros Hr Hone.
  destruct (closest_ok (range (a, b) (n_elements st)) ref) as (c & Hc & Hrc & _); [apply HI| |].
  { exists e. split; [|done]. apply range_in. exists q. split; [lia|done]. }
  rewrite <- K4' in Hc. rewrite lookup_range, decide_True in Hc by lia. apply Hne.
  eapply (members_one info ref (n_elements st)); [|exact Heq|exact Hc|done|done]. rewrite <- Hone. unfold members. by rewrite (ni_perm _ _ HI).
Qed.
Lemma listed_steps i st sts st' : steps i st sts st' -> i + length sts <= b - a -> listed i st ->
  forall k u v, (st :: sts) !! k = Some u -> sts !! k = Some v -> ninv (i + k) u /\ listed (i + k) u /\ exists ref pos, picked (i + k) u v ref pos.
Proof.
  induction 1 as [i st|i st st1 ref pos sts st' HI HP HS IH]; intros Hl HL k u v Hu Hv; [done|]. cbn in Hl. destruct k as [|k].
  - cbn in Hu, Hv. injection Hu as <-. injection Hv as <-. rewrite Nat.add_0_r. eauto.
  - cbn in Hv. change ((st1 :: sts) !! k = Some u) in Hu. replace (i + S k) with (S i + k) by lia. apply IH; [lia| |done|done]. eapply listed_step; [exact HI|lia|done|done].
Qed.
Lemma steps_last i st sts st' : steps i st sts st' -> last (st :: sts) = Some st'.
Proof. induction 1 as [|i st st1 ref pos sts st' HI HP HS IH]; [done|]. by rewrite last_cons_cons. Qed.
End loop.
