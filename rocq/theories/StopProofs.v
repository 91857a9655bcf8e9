(** Lemmas about the stop conditions. *)
From Coq Require Import Reals ZArith Lia Lra.
From Flocq Require Import Core BinarySingleNaN.
From stdpp Require Import list list_numbers sets.
From Verif Require Import FloatBase FloatModel FloatSpec FloatProofs FrontProofs StatsModel StatsSpec StatsProofs StopModel StopSpec.

(** ** Composition *)
Fixpoint map_parts (f : condition -> condition) (e : expr) : expr :=
  match e with
  | Leaf c => Leaf (f c)
  | Or l r => Or (map_parts f l) (map_parts f r)
  | And l r => And (map_parts f l) (map_parts f r)
  | Not e => Not (map_parts f e)
  end.
Definition init1 (i : info) (c : condition) : condition := with_current c (initialize c i (current c)).
Definition adv1 (i : info) (c : condition) : condition :=
  match stop_condition c i (current c) with Some (_, s) => with_current c s | None => c end.
Definition val1 (i : info) (c : condition) : option bool :=
  match stop_condition c i (current c) with Some (b, _) => Some (b || last_generation i) | None => None end.
Lemma init_map e i : init e i = map_parts (init1 i) e.
Proof. induction e as [|l IHl r IHr|l IHl r IHr|e IH]; cbn [init map_parts]; rewrite ?IHl, ?IHr, ?IH; done. Qed.
Lemma parts_map f e : parts (map_parts f e) = f <$> parts e.
Proof. induction e as [|l IHl r IHr|l IHl r IHr|e IH]; cbn [parts map_parts]; rewrite ?fmap_app, ?IHl, ?IHr, ?IH; done. Qed.
Lemma combination_map val f e : combination val (map_parts f e) = combination (fun c => val (f c)) e.
Proof. induction e as [|l IHl r IHr|l IHl r IHr|e IH]; cbn [combination map_parts]; rewrite ?IHl, ?IHr, ?IH; done. Qed.
Lemma combination_ext val val' e : (forall c, c ∈ parts e -> val c = val' c) -> combination val e = combination val' e.
Proof.
  induction e as [c|l IHl r IHr|l IHl r IHr|e IH]; intros H; cbn [combination parts] in *.
  - apply H. set_solver.
  - rewrite IHl, IHr; [done|set_solver..].
  - rewrite IHl, IHr; [done|set_solver..].
  - rewrite IH; [done|set_solver].
Qed.
Lemma combination_Some val e : (forall c, c ∈ parts e -> is_Some (val c)) -> exists b, combination val e = Some b.
Proof.
  induction e as [c|l IHl r IHr|l IHl r IHr|e IH]; intros H; cbn [combination parts] in *.
  - apply H. set_solver.
  - destruct IHl as [b ->]; [set_solver|]. destruct IHr as [b' ->]; [set_solver|]. cbn. eauto.
  - destruct IHl as [b ->]; [set_solver|]. destruct IHr as [b' ->]; [set_solver|]. cbn. eauto.
  - destruct IH as [b ->]; [set_solver|]. cbn. eauto.
Qed.
Lemma with_current_id c : with_current c (current c) = c. Proof. by destruct c. Qed.
Lemma memoryless_adv i e : Forall memoryless (parts e) -> map_parts (adv1 i) e = e.
Proof.
  induction e as [c|l IHl r IHr|l IHl r IHr|e IH]; cbn [parts map_parts]; intros H.
  - rewrite Forall_singleton in H. f_equal. unfold adv1. destruct (stop_condition c i (current c)) as [[b s]|] eqn:E; [|done]. apply H in E as ->. apply with_current_id.
  - apply Forall_app in H as [H1 H2]. rewrite IHl, IHr by done. done.
  - apply Forall_app in H as [H1 H2]. rewrite IHl, IHr by done. done.
  - by rewrite IH.
Qed.
Lemma step_strict e i : strict e -> (forall c, c ∈ parts e -> is_Some (val1 i c)) ->
  exists b, combination (val1 i) e = Some b /\ step e i = Some (b || last_generation i, map_parts (adv1 i) e).
Proof.
  induction e as [c|l IHl r IHr|l IHl r IHr|e IH]; intros Hs Hd; cbn [combination step parts map_parts strict] in *.
  - destruct (Hd c) as [b Hb]; [set_solver|]. exists b. split; [done|]. unfold val1 in Hb. unfold adv1. destruct (stop_condition c i (current c)) as [[b0 s]|]; [|done].
    injection Hb as <-. cbn. by destruct b0, (last_generation i).
  - destruct Hs as (Hl & Hr & Hm). destruct IHl as (b & -> & ->); [done|set_solver|]. destruct IHr as (b' & -> & ->); [done|set_solver|].
    cbn [mbind option_bind]. exists (b || b'). split; [done|]. rewrite (memoryless_adv i r Hm). destruct b, b', (last_generation i); cbn; done.
  - destruct Hs as (Hl & Hr). destruct IHl as (b & -> & ->); [done|set_solver|]. destruct IHr as (b' & -> & ->); [done|set_solver|].
    cbn [mbind option_bind]. exists (b && b'). split; [done|]. destruct b, b', (last_generation i); cbn; done.
  - destruct IH as (b & -> & ->); [done|set_solver|]. cbn [mbind option_bind]. exists (negb b). split; [done|]. destruct b, (last_generation i); cbn; done.
Qed.
Lemma step_disjunction e i : disjunction e -> (forall c, c ∈ parts e -> is_Some (val1 i c)) ->
  exists b e', combination (val1 i) e = Some b /\ step e i = Some (b || last_generation i, e') /\ (b || last_generation i = false -> e' = map_parts (adv1 i) e).
Proof.
  induction 1 as [e Hs|l r Hl IHl Hr IHr]; intros Hd.
  - destruct (step_strict e i Hs Hd) as (b & H1 & H2). exists b. eexists. split; [done|]. split; [exact H2|done].
  - cbn [combination step parts map_parts] in *. destruct IHl as (b & l' & -> & -> & El); [set_solver|]. destruct IHr as (b' & r' & -> & -> & Er); [set_solver|].
    cbn [mbind option_bind]. destruct b; cbn [orb]; [eexists true, _; split; [done|]; split; [done|discriminate]|].
    destruct (last_generation i) eqn:E; cbn [orb] in *.
    + exists b'. eexists. rewrite orb_true_r. split; [done|]. split; [done|discriminate].
    + exists b'. eexists. cbn [mbind option_bind]. rewrite !orb_false_r in *. split; [done|]. split; [done|]. intros ->. rewrite El, Er by done. done.
Qed.
Lemma strict_adv i e : strict e -> strict (map_parts (adv1 i) e).
Proof.
  assert (Hm : forall c, memoryless c -> memoryless (adv1 i c)). { intros c H. unfold adv1. destruct (stop_condition c i (current c)) as [[b s]|]; done. }
  induction e as [c|l IHl r IHr|l IHl r IHr|e IH]; cbn [strict map_parts].
  - done.
  - intros (H1 & H2 & H3). split; [auto|]. split; [auto|]. rewrite parts_map. apply Forall_fmap. eapply Forall_impl; [exact H3|]. intros c. apply Hm.
  - intros [H1 H2]. auto.
  - auto.
Qed.
Lemma strict_init i e : strict e -> strict (map_parts (init1 i) e).
Proof.
  induction e as [c|l IHl r IHr|l IHl r IHr|e IH]; cbn [strict map_parts].
  - done.
  - intros (H1 & H2 & H3). split; [auto|]. split; [auto|]. rewrite parts_map. apply Forall_fmap. eapply Forall_impl; [exact H3|]. intros c H. exact H.
  - intros [H1 H2]. auto.
  - auto.
Qed.
Lemma disjunction_adv i e : disjunction e -> disjunction (map_parts (adv1 i) e).
Proof. induction 1; [apply D_strict; by apply strict_adv|by apply D_or]. Qed.
Lemma disjunction_init i e : disjunction e -> disjunction (map_parts (init1 i) e).
Proof. induction 1; [apply D_strict; by apply strict_init|by apply D_or]. Qed.

Definition own_from (h : list info) (t : nat) (c : condition) : option bool := l ← values_from (Leaf c) h; l !! t.
Lemma leaf_cons c i h l : values_from (Leaf c) (i :: h) = Some l ->
  exists b l', l = b :: l' /\ val1 i c = Some b /\ values_from (Leaf (adv1 i c)) h = Some l'.
Proof.
  cbn [values_from step]. unfold val1, adv1. destruct (stop_condition c i (current c)) as [[b s]|]; [|done]. cbn [mbind option_bind].
  destruct (values_from _ h) as [l'|]; [|done]. cbn [mbind option_bind]. intros [= <-]. eauto.
Qed.
Lemma own_zero c i h : is_Some (values_from (Leaf c) (i :: h)) -> own_from (i :: h) 0 c = val1 i c.
Proof. intros [l Hl]. unfold own_from. rewrite Hl. apply leaf_cons in Hl as (b & l' & -> & -> & _). done. Qed.
Lemma own_succ c i h t : is_Some (values_from (Leaf c) (i :: h)) -> own_from (i :: h) (S t) c = own_from h t (adv1 i c).
Proof. intros [l Hl]. unfold own_from. rewrite Hl. apply leaf_cons in Hl as (b & l' & -> & _ & ->). done. Qed.
Lemma own_val c i h : is_Some (values_from (Leaf c) (i :: h)) -> is_Some (val1 i c).
Proof. intros [l Hl]. apply leaf_cons in Hl as (b & l' & _ & -> & _). eauto. Qed.
Lemma own_adv c i h : is_Some (values_from (Leaf c) (i :: h)) -> is_Some (values_from (Leaf (adv1 i c)) h).
Proof. intros [l Hl]. apply leaf_cons in Hl as (b & l' & _ & _ & ->). eauto. Qed.

Lemma values_strict h : forall e, strict e -> (forall c, c ∈ parts e -> is_Some (values_from (Leaf c) h)) ->
  exists l, values_from e h = Some l /\ length l = length h /\
    forall t i, h !! t = Some i -> exists b, combination (own_from h t) e = Some b /\ l !! t = Some (b || last_generation i).
Proof.
  induction h as [|i h IH]; intros e Hs Hd.
  - exists []. split; [done|]. split; [done|]. intros t i Hi. done.
  - destruct (step_strict e i Hs) as (b & Hb & Hst); [intros c Hc; eapply own_val; by apply Hd|].
    destruct (IH (map_parts (adv1 i) e)) as (l & Hl & Hlen & Hv); [by apply strict_adv| |].
    { intros c Hc. rewrite parts_map in Hc. apply elem_of_list_fmap in Hc as (c0 & -> & Hc). apply own_adv. by apply Hd. }
    exists ((b || last_generation i) :: l). cbn [values_from]. rewrite Hst. cbn [mbind option_bind]. rewrite Hl. split; [done|]. split; [cbn; by rewrite Hlen|].
    intros [|t] j Hj; cbn [lookup] in *; cbn in Hj.
    + injection Hj as <-. exists b. split; [|done]. rewrite <- Hb. apply combination_ext. intros c Hc. apply own_zero. by apply Hd.
    + destruct (Hv t j Hj) as (b' & Hb' & Hl'). exists b'. split; [|exact Hl']. rewrite combination_map in Hb'. rewrite <- Hb'. apply combination_ext. intros c Hc. apply own_succ. by apply Hd.
Qed.
Lemma run_disjunction h : forall e, disjunction e -> (forall c, c ∈ parts e -> is_Some (values_from (Leaf c) h)) ->
  exists l, run_from e h = Some l /\ (length l = length h \/ last l = Some true) /\ length l <= length h /\
    (forall t, S t < length l -> l !! t = Some false) /\
    forall t i, t < length l -> h !! t = Some i -> exists b, combination (own_from h t) e = Some b /\ l !! t = Some (b || last_generation i).
Proof.
  induction h as [|i h IH]; intros e Hs Hd.
  - exists []. split; [done|]. split; [by left|]. split; [done|]. split; [cbn; lia|]. intros t i Ht. cbn in Ht. lia.
  - destruct (step_disjunction e i Hs) as (b & e' & Hb & Hst & He'); [intros c Hc; eapply own_val; by apply Hd|].
    assert (Hb0 : combination (own_from (i :: h) 0) e = Some b). { rewrite <- Hb. apply combination_ext. intros c Hc. apply own_zero. by apply Hd. }
    cbn [run_from]. rewrite Hst. cbn [mbind option_bind]. destruct (b || last_generation i) eqn:E.
    + exists [true]. split; [done|]. split; [by right|]. split; [cbn; lia|]. split; [cbn; lia|]. intros [|t] j Ht Hj; cbn in Ht; [|lia]. injection Hj as <-. exists b. by rewrite E.
    + rewrite He' by done. destruct (IH (map_parts (adv1 i) e)) as (l & Hl & Hlast & Hlen & Hfalse & Hv); [by apply disjunction_adv| |].
      { intros c Hc. rewrite parts_map in Hc. apply elem_of_list_fmap in Hc as (c0 & -> & Hc). apply own_adv. by apply Hd. }
      exists (false :: l). rewrite Hl. cbn [mbind option_bind]. split; [done|]. split.
      { destruct Hlast as [El|Hl']; [left; cbn; lia|]. right. destruct l; [done|exact Hl']. }
      split; [cbn; lia|]. split; [intros [|t] Ht; [done|]; apply Hfalse; cbn in Ht; lia|].
      intros [|t] j Ht Hj; cbn in Hj.
      * injection Hj as <-. exists b. by rewrite E.
      * destruct (Hv t j) as (b' & Hb' & Hl'); [cbn in Ht; lia|done|]. exists b'. split; [|exact Hl']. rewrite combination_map in Hb'. rewrite <- Hb'. apply combination_ext. intros c Hc. apply own_succ. by apply Hd.
Qed.

(** ** Stalls *)
Definition streak (l : list bool) : nat := fold_left (fun n (b : bool) => if b then 0 else S n) l 0.
Lemma streak_snoc l b : streak (l ++ [b]) = if b then 0 else S (streak l).
Proof. unfold streak. by rewrite fold_left_app. Qed.
Lemma streak_spec l : forall p, p < streak l <-> p < length l /\ forall s, length l - S p <= s < length l -> l !! s = Some false.
Proof.
  induction l as [|b l IH] using rev_ind; intros p.
  - cbn. split; lia.
  - rewrite streak_snoc, app_length. cbn [length]. destruct b.
    + split; [lia|]. intros [_ H]. specialize (H (length l) ltac:(lia)). rewrite lookup_app_r, Nat.sub_diag in H by lia. done.
    + destruct p as [|p].
      * split; [|lia]. intros _. split; [lia|]. intros s Hs. assert (s = length l) as -> by lia. rewrite lookup_app_r, Nat.sub_diag by lia. done.
      * rewrite <- Nat.succ_lt_mono, IH. split.
        -- intros [H1 H2]. split; [lia|]. intros s Hs. destruct (decide (s = length l)) as [->|Hne]; [rewrite lookup_app_r, Nat.sub_diag by lia; done|].
           rewrite lookup_app_l by lia. apply H2. lia.
        -- intros [H1 H2]. split; [lia|]. intros s Hs. specialize (H2 s ltac:(lia)). rewrite lookup_app_l in H2 by lia. done.
Qed.
Lemma objective_app k a b : objective k (a ++ b) = objective k a ++ objective k b. Proof. apply omap_app. Qed.
Lemma objective_one k m x : m !! k = Some x -> objective k [m] = [x].
Proof. intros H. unfold objective. cbn -[lookup]. by rewrite H. Qed.
Lemma metricImproved_Some delta b : forall m r imp, metricImproved delta b m = Some (r, imp) ->
  length r = length b /\ length m = length b /\
  (forall k y x, b !! k = Some y -> m !! k = Some x -> r !! k = Some (if fle (fadd y delta) x then x else y)) /\
  (imp = true <-> exists k y x, b !! k = Some y /\ m !! k = Some x /\ fle (fadd y delta) x = true).
Proof.
  induction b as [|y b IH]; intros [|x m] r imp H; cbn in H; try done.
  - injection H as <- <-. split; [done|]. split; [done|]. split; [done|]. split; [done|]. intros (k & y & x & Hy & _). done.
  - destruct (metricImproved delta b m) as [[l i]|] eqn:E; [|done]. cbn in H. destruct (IH _ _ _ E) as (L1 & L2 & Hk & Hi). destruct (fle (fadd y delta) x) eqn:Ef; injection H as <- <-.
    + split; [cbn; lia|]. split; [cbn; lia|]. split.
      * intros [|k] y' x' Hy Hx; cbn in *; [injection Hy as ->; injection Hx as ->; by rewrite Ef|]. by apply Hk.
      * split; [|done]. intros _. by exists 0, y, x.
    + split; [cbn; lia|]. split; [cbn; lia|]. split.
      * intros [|k] y' x' Hy Hx; cbn in *; [injection Hy as ->; injection Hx as ->; by rewrite Ef|]. by apply Hk.
      * rewrite Hi. split.
        -- intros (k & y' & x' & H1 & H2 & H3). by exists (S k), y', x'.
        -- intros ([|k] & y' & x' & H1 & H2 & H3); cbn in *; [congruence|]. by exists k, y', x'.
Qed.

Section stalls.
Variable patience : nat.
Variable delta : b64.
Hypothesis Hp : (Z.of_nat patience + 1 < 2 ^ 64)%Z.
Definition counter (n : nat) : Z := (Z.of_nat patience + 1 - Z.of_nat (Nat.min n (patience + 1)))%Z.
(** The state after observing [ms], with improvements [flags]. *)
Record stall_state (d : nat) (ms : list (list b64)) (flags : list bool) (s : stall) : Prop := {
  ss_len : length (best s) = d;
  ss_best : forall k, k < d -> best s !! k = Some (level delta (objective k ms));
  ss_cntr : cntr s = counter (streak flags);
  ss_flags : length flags = length ms;
  ss_flag : forall t b, flags !! t = Some b -> (b = true <-> improves_at delta ms t);
}.
Lemma reset_ok : reset_value patience = counter 0.
Proof. unfold reset_value, counter. rewrite Z.mod_small by lia. cbn. lia. Qed.
Lemma improves_app ms ms' t : t < length ms -> improves_at delta (ms ++ ms') t <-> improves_at delta ms t.
Proof. intros Ht. unfold improves_at. rewrite lookup_app_l, take_app_le by lia. done. Qed.
Lemma observe_ok d ms flags s m b s' : stall_state d ms flags s -> stall_observe patience delta m s = Some (b, s') ->
  exists f, stall_state d (ms ++ [m]) (flags ++ [f]) s' /\ b = (patience <? streak (flags ++ [f])).
Proof.
  intros [S1 S2 S3 S4 S5] H. unfold stall_observe in H. destruct (metricImproved delta (best s) m) as [[r f]|] eqn:E; [|done]. cbn [mbind option_bind] in H.
  apply (inj Some) in H. injection H as <- <-. destruct (metricImproved_Some _ _ _ _ _ E) as (L1 & L2 & Hr & Hf). exists f.
  assert (Hc : (if f then reset_value patience else (if cntr s =? 0 then 0 else cntr s - 1)%Z) = counter (streak (flags ++ [f]))).
  { rewrite streak_snoc. destruct f; [apply reset_ok|]. rewrite S3. unfold counter. destruct (Z.eqb_spec (Z.of_nat patience + 1 - Z.of_nat (Nat.min (streak flags) (patience + 1))) 0); lia. }
  split; [split; cbn [best cntr]|].
  - congruence.
  - intros k Hk. rewrite objective_app. unfold level. rewrite fold_left_app. fold (level delta (objective k ms)).
    destruct (lookup_lt_is_Some_2 m k) as [x Hx]; [lia|]. rewrite (Hr k _ x (S2 k Hk) Hx). rewrite (objective_one k m x Hx). done.
  - exact Hc.
  - rewrite !app_length, S4. done.
  - intros t g Hg. destruct (decide (t < length flags)) as [Ht|Ht].
    + rewrite lookup_app_l in Hg by done. rewrite improves_app by lia. by apply S5.
    + rewrite lookup_app_r in Hg by lia. apply list_lookup_singleton_Some in Hg as [Ht' <-]. assert (t = length ms) as -> by lia. rewrite Hf. unfold improves_at.
      rewrite lookup_app_r, Nat.sub_diag by lia. rewrite take_app. split.
      * intros (k & y & x & Hy & Hx & Hle). exists k, m, x. split; [done|]. split; [done|].
        assert (Hkd : k < d) by (apply lookup_lt_Some in Hy; lia). rewrite (S2 k Hkd) in Hy. by injection Hy as ->.
      * intros (k & m' & x & [= <-] & Hx & Hle). assert (Hkd : k < d) by (apply lookup_lt_Some in Hx; lia). exists k. eexists _, x. split; [by apply S2|]. done.
  - rewrite Hc. unfold counter. destruct (Z.eqb_spec (Z.of_nat patience + 1 - Z.of_nat (Nat.min (streak (flags ++ [f])) (patience + 1))) 0); symmetry; [apply Nat.ltb_lt|apply Nat.ltb_ge]; lia.
Qed.
Lemma stall_state_initial d i s : objectives i = d -> stall_state d [] [] (stall_initialize patience i s).
Proof.
  intros Hd. split; cbn.
  - by rewrite replicate_length.
  - intros k Hk. apply lookup_replicate. split; [done|lia].
  - apply reset_ok.
  - done.
  - intros t b Hb. done.
Qed.
Lemma streak_stalled d ms flags s t : stall_state d ms flags s -> t < length ms -> 
  (patience < streak (take (S t) flags) <-> stalled patience delta ms t).
Proof.
  intros [S1 S2 S3 S4 S5] Ht. rewrite streak_spec, take_length_le by lia. unfold stalled. split.
  - intros [H1 H2]. split; [lia|]. intros r Hr Hi. specialize (H2 r ltac:(lia)). rewrite lookup_take in H2 by lia. by apply S5 in H2 as [_ H2]; discriminate H2.
  - intros [H1 H2]. split; [lia|]. intros r Hr. rewrite lookup_take by lia. destruct (lookup_lt_is_Some_2 flags r) as [b Hb]; [lia|]. rewrite Hb. f_equal.
    destruct b; [|done]. exfalso. apply (H2 r); [lia|]. by apply (S5 r true).
Qed.
(** The values over a history. *)
Variable metric : list (list b64) -> option (list b64).
Lemma values_stall h : forall d ms0 flags0 s0 vals, stall_state d ms0 flags0 s0 ->
  values_from (Leaf (stall_condition metric patience delta s0)) h = Some vals ->
  exists ms flags s, Forall2 (fun i m => metric (fmat i) = Some m) h ms /\ stall_state d (ms0 ++ ms) (flags0 ++ flags) s /\ length vals = length h /\
    forall t i, h !! t = Some i -> vals !! t = Some ((patience <? streak (take (S (length ms0 + t)) (flags0 ++ flags))) || last_generation i).
Proof.
  induction h as [|i h IH]; intros d ms0 flags0 s0 vals Hs Hv.
  - injection Hv as <-. exists [], [], s0. rewrite !app_nil_r. split; [constructor|]. split; [done|]. split; [done|]. intros t i Hi. done.
  - cbn [values_from step] in Hv. cbn [stop_condition stall_condition current] in Hv. unfold stall_stop in Hv. destruct (metric (fmat i)) as [m|] eqn:Em; [|done]. cbn [mbind option_bind] in Hv.
    destruct (stall_observe patience delta m s0) as [[b s1]|] eqn:Eo; [|done]. cbn [mbind option_bind] in Hv.
    destruct (values_from _ h) as [vals'|] eqn:Ev; [|done]. cbn [mbind option_bind] in Hv. injection Hv as <-.
    destruct (observe_ok _ _ _ _ _ _ _ Hs Eo) as (f & Hs1 & ->). change (values_from (Leaf (stall_condition metric patience delta s1)) h = Some vals') in Ev.
    destruct (IH _ _ _ _ _ Hs1 Ev) as (ms & flags & s & H1 & H2 & H3 & H4). exists (m :: ms), (f :: flags), s. split; [by constructor|].
    rewrite <- !app_assoc in H2. split; [exact H2|]. split; [cbn; by rewrite H3|]. intros [|t] j Hj; cbn in Hj.
    + injection Hj as <-. cbn. do 3 f_equal. pose proof (ss_flags _ _ _ _ Hs) as Hfl. replace (S (length ms0 + 0)) with (length (flags0 ++ [f])) by (rewrite app_length; cbn; lia).
      change (flags0 ++ f :: flags) with (flags0 ++ [f] ++ flags). rewrite app_assoc, take_app. done.
    + change (vals' !! t = Some ((patience <? streak (take (S (length ms0 + S t)) (flags0 ++ f :: flags))) || last_generation j)).
      rewrite (H4 t j Hj). rewrite app_length. cbn [length]. rewrite <- app_assoc. do 3 f_equal. f_equal. f_equal. lia.
Qed.
End stalls.
