From Coq Require Import ZArith Lia Reals Lra.
From Flocq Require Import BinarySingleNaN Core.
From stdpp Require Import list list_numbers sets relations.
From Verif Require Import StdSort AlgorithmModel AlgorithmSpec AlgorithmProofs FloatBase FloatModel FloatSpec FloatProofs.
From Verif Require Import ParetoModel ParetoProofs FrontModel FrontSpec FrontProofs NdSortModel NdFloatModel NdSortSpec NdSortProofs NdFastProofs NdDegreeProofs.
Local Open Scope nat_scope.

Lemma nth_error_lookup {A} (l : list A) : forall i, nth_error l i = l !! i.
Proof. induction l as [|x l IH]; intros [|i]; cbn; done. Qed.

(** ** From ranks below and above to the specification *)
Lemma ranked_ranking n less (dom : nat -> nat -> Prop) L :
  (forall i j, i < n -> j < n -> less i j = true <-> dom i j) ->
  (forall i j k, i < n -> j < n -> k < n -> less i j = true -> less j k = true -> less i k = true) ->
  L.*1 ≡ₚ seq 0 n -> by_rank L -> ranked less L -> nd_ranking n dom L.
Proof.
  intros Hd Htr Hp Hs Hr.
  assert (Hin : forall i, i < n <-> exists r, (i, r) ∈ L) by (intros i; rewrite <- fst_in, Hp, elem_of_seq; lia).
  assert (Hb : forall i r, (i, r) ∈ L -> i < n) by (intros i r H; apply Hin; eauto).
  assert (Huniq : forall i r s, (i, r) ∈ L -> (i, s) ∈ L -> r = s).
  { assert (Hnd : NoDup L.*1) by (rewrite Hp; apply NoDup_seq). clear -Hnd. intros i r s Hr Hs.
    apply elem_of_list_lookup in Hr as [p Hr'], Hs as [q Hs'].
    assert (p = q) as ->. { apply (NoDup_lookup L.*1 p q i); [done|rewrite list_lookup_fmap, ?Hr', ?Hs'; done..]. } congruence. }
  pose proof (ranked_below n less Htr L Hb Hr) as Hbelow. destruct Hr as [Hr1 Hr2].
  split; [done|done|..].
  - intros i r s Hi Hlt. destruct (Hbelow r i s Hi Hlt) as (j&?&_). eauto.
  - intros i. split.
    + intros Hi. split; [eauto|]. intros j Hj Hdom. apply Hd in Hdom; [|eauto..]. apply Hin in Hj as [s Hj].
      pose proof (Hr1 i 0 j s Hi Hj Hdom). lia.
    + intros [Hi Hno]. apply Hin in Hi as [r Hi]. destruct r as [|r]; [done|]. destruct (Hr2 i r Hi) as (j&Hj&Hl).
      exfalso. apply (Hno j); [eauto|]. apply Hd; eauto.
  - intros i r. split.
    + intros Hi. split; [eauto|]. split.
      * destruct (Hr2 i r Hi) as (j&Hj&Hl). exists j. split; [done|]. apply Hd; eauto.
      * intros j s Hj Hdom. apply Hd in Hdom; [|eauto..]. pose proof (Hr1 i (S r) j s Hi Hj Hdom). lia.
    + intros (Hi&(j&Hj&Hdom)&Hmax). apply Hin in Hi as [r' Hi]. apply Hd in Hdom; [|eauto..].
      pose proof (Hr1 i r' j r Hi Hj Hdom) as Hlt. destruct r' as [|r']; [lia|].
      destruct (Hr2 i r' Hi) as (k&Hk&Hl). assert (r' <= r) by (apply (Hmax k); [done|apply Hd; eauto]).
      replace r with r' by lia. done.
Qed.
Lemma ranking_unique n dom L L' : nd_ranking n dom L -> nd_ranking n dom L' -> same_ranks L L'.
Proof.
  intros H H'.
  assert (Hgen : forall r i, (i, r) ∈ L <-> (i, r) ∈ L').
  { intros r. induction (lt_wf r) as [r _ IH]. intros i. destruct r as [|r].
    - rewrite (nr_zero _ _ _ H), (nr_zero _ _ _ H'). done.
    - assert (Hmem : forall n dom K, nd_ranking n dom K -> forall j, j < n <-> exists s, (j, s) ∈ K).
      { intros n' dom' K HK j. rewrite <- fst_in, (nr_once _ _ _ HK), elem_of_seq. lia. }
      rewrite (nr_succ _ _ _ H), (nr_succ _ _ _ H'). split; intros (Hi&(j&Hj&Hd)&Hmax).
      + split; [done|]. split; [exists j; split; [apply IH; [lia|done]|done]|]. intros k s Hk Hdk.
        assert (k < n) as Hkn by (apply (Hmem n dom L' H'); eauto). apply (Hmem n dom L H) in Hkn as [s' Hs'].
        pose proof (Hmax k s' Hs' Hdk). assert (Hs'' : (k, s') ∈ L') by (apply IH; [lia|done]).
        enough (s = s') by lia. clear -Hs'' Hk H'. pose proof (nr_once _ _ _ H') as Hp.
        assert (Hnd : NoDup L'.*1) by (rewrite Hp; apply NoDup_seq).
        apply elem_of_list_lookup in Hs'' as [p Hr'], Hk as [q Hq].
        assert (p = q) as ->. { apply (NoDup_lookup L'.*1 p q k); [done|rewrite list_lookup_fmap, ?Hr', ?Hq; done..]. } congruence.
      + split; [done|]. split; [exists j; split; [apply IH; [lia|done]|done]|]. intros k s Hk Hdk.
        assert (k < n) as Hkn by (apply (Hmem n dom L H); eauto). apply (Hmem n dom L' H') in Hkn as [s' Hs'].
        pose proof (Hmax k s' Hs' Hdk). assert (Hs'' : (k, s') ∈ L) by (apply IH; [lia|done]).
        enough (s = s') by lia. clear -Hs'' Hk H. pose proof (nr_once _ _ _ H) as Hp.
        assert (Hnd : NoDup L.*1) by (rewrite Hp; apply NoDup_seq).
        apply elem_of_list_lookup in Hs'' as [p Hr'], Hk as [q Hq].
        assert (p = q) as ->. { apply (NoDup_lookup L.*1 p q k); [done|rewrite list_lookup_fmap, ?Hr', ?Hq; done..]. } congruence. }
  intros [i r]. apply Hgen.
Qed.

(** ** Float matrices *)
Section F.
Context (t : tolerances) (d : nat) (m : list (list b64)) (sort : forall A, (A -> A -> bool) -> list A -> list A).
Hypothesis Hm : matrix d m.
Hypothesis Hsort : forall A, sort_contract (sort A).

Lemma ensF_safe : exists L, ensF t m sort = Some L /\ L.*1 ≡ₚ seq 0 (length m) /\ by_rank L.
Proof. apply (ens_safe _ _ (sort nat) (row_lexgt m)); [apply Hsort|apply (row_swo d); done]. Qed.

Hypothesis Hex : exact t.
Lemma row_dom_iff i j : i < length m -> j < length m -> row_less t m i j = true <-> row_dominated m i j.
Proof.
  intros Hi Hj. rewrite (row_less_dom t d m Hm Hex) by done. unfold row_dominated. split.
  - intros H. exists (row m i), (row m j). split; [apply row_in; done|]. split; [apply row_in; done|done].
  - intros (r&r'&Hr&Hr'&H). rewrite (row_lookup m i r Hr), (row_lookup m j r' Hr'). done.
Qed.
Lemma to_ranking L : L.*1 ≡ₚ seq 0 (length m) -> by_rank L -> ranked (row_less t m) L -> nd_ranking (length m) (row_dominated m) L.
Proof. apply ranked_ranking; [apply row_dom_iff|apply (row_trans t d m Hm Hex)]. Qed.

Lemma ensF_exact : exists L, ensF t m sort = Some L /\ nd_ranking (length m) (row_dominated m) L.
Proof.
  destruct ensF_safe as (L&H1&H2&H3). exists L. split; [done|]. apply to_ranking; [done|done|].
  eapply (ens_exact _ _ (sort nat) (row_lexgt m)); [apply Hsort|apply (row_swo d); done|..|exact H1].
  - apply (row_irrefl t d m Hm Hex).
  - apply (row_trans t d m Hm Hex).
  - apply (row_dom_lex t d m Hm Hex).
Qed.
Lemma fndsF_exact fuel : length m < fuel -> exists L, fndsF t m fuel = Some L /\ nd_ranking (length m) (row_dominated m) L.
Proof.
  intros Hf. destruct (fnds_exact (length m) (row_less t m) (row_cmp t m)
    (row_irrefl t d m Hm Hex) (row_trans t d m Hm Hex) (row_cmp_ok t d m Hm Hex) fuel Hf) as (L&H1&H2&H3&H4).
  exists L. split; [done|]. apply to_ranking; done.
Qed.

(** The objective's value of a row. *)
Definition val (obj i : nat) : R := B2R (nth i (fvec m obj) fzero).
Lemma fvec_length obj : length (fvec m obj) = length m.
Proof. apply fmap_length. Qed.
Lemma fvec_lookup obj i : obj < d -> i < length m ->
  exists x, row m i !! obj = Some x /\ fvec m obj !! i = Some x /\ nth i (fvec m obj) fzero = x /\ is_finite x = true.
Proof.
  intros Hobj Hi. destruct (row_ok d m Hm i Hi) as [Hl Hf]. destruct (lookup_lt_is_Some_2 (row m i) obj) as [x Hx]; [lia|].
  exists x. split; [done|]. unfold finite_vec in Hf. rewrite Forall_lookup in Hf. specialize (Hf obj x Hx).
  assert (E : fvec m obj !! i = Some x).
  { unfold fvec. rewrite list_lookup_fmap, (row_in m i Hi). cbn. f_equal. rewrite nth_lookup, Hx. done. }
  split; [done|]. split; [|done]. rewrite nth_lookup, E. done.
Qed.

Lemma task_visits_in obj : obj < d -> forall r c, (r, c) ∈ task_visits t m sort obj <-> r < length m /\ c < length m /\ (val obj r < val obj c)%R.
Proof.
  intros Hobj. unfold task_visits.
  assert (Hswo : swo_on flt (reverse (fvec m obj))).
  { eapply swo_on_subset; [|apply (flt_swo (fvec m obj))].
    - intros x. rewrite elem_of_reverse. done.
    - apply Forall_forall. intros x Hx. apply elem_of_list_lookup in Hx as [i Hx]. pose proof (lookup_lt_Some _ _ _ Hx) as Hi.
      rewrite fvec_length in Hi. destruct (fvec_lookup obj i Hobj Hi) as (y&_&Hy&_&Hfin). congruence. }
  destruct (argsort_ok flt (sort nat) true (reverse (fvec m obj)) (Hsort nat) Hswo) as [Hperm Hord].
  rewrite reverse_involutive, reverse_length, fvec_length in Hord. unfold index_perm in Hperm. rewrite reverse_length, fvec_length in Hperm.
  remember (argsort (sort nat) flt true (reverse (fvec m obj))) as ix eqn:Eix. clear Eix.
  assert (Hlen : length ix = length m) by (rewrite (Permutation_length Hperm), seq_length; done).
  assert (Hmem : forall i, i ∈ reverse ix <-> i < length m) by (intros i; rewrite elem_of_reverse, Hperm, elem_of_seq; lia).
  assert (Hasc : forall p q a b, p < q -> reverse ix !! p = Some a -> reverse ix !! q = Some b -> (val obj a <= val obj b)%R).
  { intros p q a b Hpq Ha Hb. apply reverse_lookup_Some in Ha as [Ha Hpl], Hb as [Hb Hql].
    assert (Han : a < length m) by (apply Hmem, elem_of_reverse; eapply elem_of_list_lookup_2; done).
    assert (Hbn : b < length m) by (apply Hmem, elem_of_reverse; eapply elem_of_list_lookup_2; done).
    destruct (fvec_lookup obj a Hobj Han) as (x&_&Hx&Hx'&Fx), (fvec_lookup obj b Hobj Hbn) as (y&_&Hy&Hy'&Fy).
    unfold val. rewrite Hx', Hy'.
    assert (Hg : flt y x = false) by (apply (Hord (length ix - S q) (length ix - S p) b a y x); (lia || done)).
    rewrite flt_B2R in Hg by done. apply Rlt_bool_iff_false in Hg. lra. }
  assert (Heq : forall a b, a < length m -> b < length m ->
            floatIsEqual t (nth b (fvec m obj) fzero) (nth a (fvec m obj) fzero) = false <-> val obj a <> val obj b).
  { intros a b Ha Hb. destruct (fvec_lookup obj a Hobj Ha) as (x&_&_&Hx'&Fx), (fvec_lookup obj b Hobj Hb) as (y&_&_&Hy'&Fy).
    unfold val. rewrite Hx', Hy'. destruct Hex as (H1&H2&H3). rewrite (floatIsEqual_exact t H1 H2 H3) by done. case Req_bool_spec; intros E; split; congruence. }
  assert (Hnd : NoDup (reverse ix)) by (rewrite reverse_Permutation, Hperm; apply NoDup_seq).
  intros r c. rewrite (objective_visits_in _ (fun a b => (val obj a < val obj b)%R)).
  - rewrite !Hmem. done.
  - done.
  - intros p q a b Hpq Ha Hb. pose proof (Hasc p q a b Hpq Ha Hb).
    rewrite Heq by (apply Hmem; eapply elem_of_list_lookup_2; done). split; [|lra]. split; [|lra]. intros Hne. lra.
  - intros i j k a b e Hij Hjk Ha Hb He Hlt. pose proof (Hasc j k b e Hjk Hb He). lra.
  - intros a _. lra.
Qed.

Lemma dom_val i j : i < length m -> j < length m -> row_less t m i j = true <->
  (forall obj, obj < d -> (val obj i <= val obj j)%R) /\ exists obj, obj < d /\ (val obj i < val obj j)%R.
Proof.
  intros Hi Hj. rewrite (row_less_dom t d m Hm Hex) by done. destruct (row_ok d m Hm i Hi) as [Hl Hf], (row_ok d m Hm j Hj) as [Hl' Hf'].
  assert (Hv : forall obj i, obj < d -> i < length m -> exists x, row m i !! obj = Some x /\ val obj i = B2R x).
  { intros obj k Ho Hk. destruct (fvec_lookup obj k Ho Hk) as (x&H1&_&H2&_). exists x. unfold val. rewrite H2. done. }
  unfold dominated_by. split.
  - intros [H1 (k&x&y&Hx&Hy&Hlt)]. rewrite nth_error_lookup in Hx, Hy. split.
    + intros obj Ho. destruct (Hv obj i Ho Hi) as (a&Ha&->), (Hv obj j Ho Hj) as (b&Hb&->).
      apply (Forall2_lookup_lr _ _ _ _ _ _ H1 Ha Hb).
    + assert (Ho : k < d) by (rewrite <- Hl; eapply lookup_lt_Some; done). exists k. split; [done|].
      destruct (Hv k i Ho Hi) as (a&Ha&->), (Hv k j Ho Hj) as (b&Hb&->). congruence.
  - intros [H1 (k&Ho&Hlt)]. split.
    + apply Forall2_same_length_lookup_2; [congruence|]. intros obj a b Ha Hb.
      assert (Ho' : obj < d) by (rewrite <- Hl; eapply lookup_lt_Some; done).
      destruct (Hv obj i Ho' Hi) as (a'&Ha'&E), (Hv obj j Ho' Hj) as (b'&Hb'&E'). specialize (H1 obj Ho'). rewrite E, E' in H1. congruence.
    + destruct (Hv k i Ho Hi) as (a&Ha&E), (Hv k j Ho Hj) as (b&Hb&E'). exists k, a, b. rewrite !nth_error_lookup, <- E, <- E'. done.
Qed.

Lemma ddsF_exact fuel res : length m < fuel -> ddsF t m sort d fuel res -> exists L, res = Some L /\ nd_ranking (length m) (row_dominated m) L.
Proof.
  intros Hf Hr.
  destruct (dds_exact (length m) (row_less t m) (row_irrefl t d m Hm Hex) (row_trans t d m Hm Hex) fuel (task_visits t m sort <$> seq 0 d) res Hf) as (L&H1&H2&H3&H4); [|exact Hr|].
  - intros r c Hrn Hcn.
    assert (Hvis : forall a b, a < length m -> b < length m ->
              visited (task_visits t m sort <$> seq 0 d) (a, b) <-> exists obj, obj < d /\ (val obj a < val obj b)%R).
    { intros a b Ha Hb. unfold visited. split.
      - intros (vs&Hvs&Hp). apply elem_of_list_fmap in Hvs as (obj&->&Ho). apply elem_of_seq in Ho. exists obj. split; [lia|].
        apply (task_visits_in obj ltac:(lia)) in Hp. tauto.
      - intros (obj&Ho&Hlt). exists (task_visits t m sort obj). split; [apply elem_of_list_fmap; exists obj; rewrite elem_of_seq; split; [done|lia]|].
        apply task_visits_in; done. }
    rewrite dom_val, !Hvis by done. split.
    + intros [H1 H2]. split; [|done]. intros (obj&Ho&Hlt). specialize (H1 obj Ho). lra.
    + intros [H1 H2]. split; [|done]. intros obj Ho. destruct (Rle_or_lt (val obj c) (val obj r)); [done|]. exfalso. apply H1. eauto.
  - exists L. split; [done|]. apply to_ranking; done.
Qed.
End F.

(** ** Views *)
Lemma ranks_loop_ok L : forall rs, (forall i r, (i, r) ∈ L -> i < length rs) -> NoDup L.*1 ->
  exists rs', ranks_loop L rs = Some rs' /\ length rs' = length rs /\
    (forall i r, (i, r) ∈ L -> rs' !! i = Some r) /\ (forall i, i ∉ L.*1 -> rs' !! i = rs !! i).
Proof.
  induction L as [|[i r] L IH]; intros rs Hb Hnd; cbn [ranks_loop].
  - exists rs. split_and!; [done|done|set_solver|done].
  - cbn in Hnd. apply NoDup_cons in Hnd as [Hi Hnd]. assert (Hir : i < length rs) by (apply (Hb i r); ins).
    rewrite decide_True by done. destruct (IH (<[i := r]> rs)) as (rs'&H1&H2&H3&H4).
    + intros j s Hj. rewrite insert_length. apply (Hb j s). ins.
    + done.
    + exists rs'. split; [done|]. split; [rewrite H2; apply insert_length|]. split.
      * intros j s Hj. apply elem_of_cons in Hj as [[= -> ->]|Hj]; [|auto]. rewrite H4 by done. apply list_lookup_insert. done.
      * intros j Hj. cbn in Hj. rewrite H4 by ins. apply list_lookup_insert_ne. intros ->. apply Hj. ins.
Qed.

Lemma fronts_loop_ok L rest : forall it ff fs, it + length rest = length L -> rest = drop it L -> ff <= it -> (rest = L -> L <> []) ->
  (it = ff -> rest <> []) -> ff < length L ->
  (exists r, (forall p, ff <= p < it -> exists i, L !! p = Some (i, r)) /\ (it = ff -> forall i r', L !! ff = Some (i, r') -> r' = r)) ->
  exists fs', fronts_loop L it ff rest fs = Some (fs ++ fs') /\ runs L ff fs'.
Proof.
  induction rest as [|[i r0] rest IH]; intros it ff fs Hl Hd Hle HL Hne Hff (r&Hr&Hr'); cbn [fronts_loop].
  - cbn in Hl. exists [(ff, it)]. split; [done|]. assert (ff <> it) by (intros ->; apply Hne; done).
    assert (it = length L) as -> by lia. constructor; [lia|done| |constructor].
    exists r. split; [done|]. intros ? ? Hlk. rewrite lookup_ge_None_2 in Hlk by lia. done.
  - assert (Hit : L !! it = Some (i, r0)).
    { rewrite <- (Nat.add_0_r it). rewrite <- lookup_drop, <- Hd. done. }
    destruct (lookup_lt_is_Some_2 L ff Hff) as [[j rf] Hf]. rewrite Hf. cbn [mbind option_bind snd].
    assert (Erf : rf = r).
    { destruct (decide (it = ff)) as [E|]; [apply (Hr' E j rf Hf)|]. destruct (Hr ff) as [i' Hi']; [lia|]. congruence. }
    subst rf. assert (Hd' : rest = drop (S it) L) by (apply (f_equal (drop 1)) in Hd; rewrite drop_drop, Nat.add_1_r in Hd; done).
    assert (Hitl : it < length L) by (eapply lookup_lt_Some; done).
    assert (Hlr : S it + length rest = length L) by (cbn in Hl; lia).
    destruct (decide (r0 <> r)) as [Hne0|Heq].
    + destruct (IH (S it) it (fs ++ [(ff, it)])) as (fs'&H1&H2); try done; try lia.
      * intros E. exfalso. apply (f_equal length) in E. lia.
      * exists r0. split; [|intros; lia]. intros p Hp. replace p with it by lia. eauto.
      * exists ((ff, it) :: fs'). rewrite H1, <- app_assoc. split; [done|].
        assert (ff <> it). { intros ->. apply Hne0. congruence. }
        constructor; [lia|lia| |done]. exists r. split; [done|]. intros i' r' Hi'. congruence.
    + assert (E : r0 = r) by (destruct (decide (r0 = r)); [done|exfalso; apply Heq; done]). subst r0.
      destruct (IH (S it) ff fs) as (fs'&H1&H2); try done; try lia.
      * intros E. exfalso. apply (f_equal length) in E. lia.
      * exists r. split; [|intros; lia]. intros p Hp. destruct (decide (p = it)) as [->|]; [eauto|]. apply Hr. lia.
      * eauto.
Qed.

Lemma find_pos_ok {A} (p : A -> bool) l : find_pos p l <= length l /\
  (forall x, l !! find_pos p l = Some x -> p x = true) /\ (forall i x, i < find_pos p l -> l !! i = Some x -> p x = false).
Proof.
  induction l as [|a l (I1&I2&I3)]; cbn; [split; [lia|split; [done|intros; lia]]|]. destruct (p a) eqn:E.
  - split; [lia|]. split; [intros x [= <-]; done|intros; lia].
  - split; [lia|]. split; [done|]. intros [|i] x Hi Hx; cbn in Hx; [injection Hx as <-; done|]. apply (I3 i); [lia|done].
Qed.
