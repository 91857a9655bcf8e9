(** C107: with a fence in read_lock RCU is safe under store buffers too; objects are freed exactly
    once; synchronize waits only for sections that began before. *)
From Coq Require Import ZArith Lia.
From stdpp Require Import list relations.
From Verif Require Import RcuModel RcuProps.
Local Open Scope Z_scope.

(** A step with the fence that read_lock lacks: a pointer is loaded only after the stores before
    are in memory.  With sequentially consistent memory ([tso] false) this is every step. *)
Definition rcu_step_fenced (tso : bool) (s s' : rcu_state) : Prop :=
  rcu_step_bounded tso s s' /\ forall t p ps, rpc s t = RIn ps -> rpc s' t = RIn (p :: ps) -> buffer s t = [].
(** The value the own epoch of [t] will have when its stores have reached memory. *)
Definition own_epoch (s : rcu_state) (t : nat) : Z := default (epoch s t) (last (buffer s t)).

Section inv.
Context (tso : bool).
Record finv (s : rcu_state) : Prop := Finv {
  f_bound : 0 <= writer_epoch s < NOT_READING;
  f_current : forall w old c, wpc s w = WLoaded old c -> 0 <= c <= writer_epoch s;
  f_target : forall w old x, (wpc s w = WAdvanced old x \/ exists rest, wpc s w = WScan old x rest) -> x <= writer_epoch s;
  f_loaded : forall t e, rpc s t = RLoaded e -> 0 <= e <= writer_epoch s;
  f_epoch : forall t ps, rpc s t = RIn ps -> own_epoch s t <= writer_epoch s;
  f_drained : forall t p ps, rpc s t = RIn (p :: ps) -> buffer s t = [];
  f_out : forall t, (forall ps, rpc s t <> RIn ps) -> own_epoch s t = NOT_READING;
  f_registered : forall t ps, rpc s t = RIn ps -> t ∈ readers s;
  f_buffer : tso = false -> forall t, buffer s t = [];
  f_safe : forall t ps p, rpc s t = RIn ps -> p ∈ ps -> is_live s p \/ exists w, held (wpc s w) = Some p /\ waits_for (wpc s w) t (epoch s t);
  f_nodup : NoDup (data s);
  f_data : forall p, p ∈ data s -> (p < next_ptr s)%nat;
  f_held : forall w p, held (wpc s w) = Some p -> (p < next_ptr s)%nat /\ p ∉ data s /\ p ∉ freed s;
  f_unique : forall w w' p, held (wpc s w) = Some p -> held (wpc s w') = Some p -> w = w';
  f_freed : forall p, p ∈ freed s -> (p < next_ptr s)%nat /\ p ∉ data s;
  f_all : forall p, (p < next_ptr s)%nat -> p ∈ data s \/ p ∈ freed s \/ exists w, held (wpc s w) = Some p;
  f_once : NoDup (freed s) }.

Lemma finv_initial n : finv (rcu_initial n).
Proof.
  constructor; cbn; try done.
  - intros w old x [H | [rest H]]; done.
  - apply NoDup_ListNoDup, seq_NoDup.
  - intros p Hp. apply elem_of_seq in Hp. lia.
  - intros p Hp. by apply elem_of_nil in Hp.
  - intros p Hp. left. apply elem_of_seq. lia.
  - apply NoDup_nil_2.
Qed.
(** A step of the writer that keeps its pointer. *)
Lemma set_wpc_finv s t pc pc' : finv s -> wpc s t = pc -> held pc' = held pc ->
  (forall old c, pc' = WLoaded old c -> 0 <= c <= writer_epoch s) ->
  (forall old x, (pc' = WAdvanced old x \/ exists rest, pc' = WScan old x rest) -> x <= writer_epoch s) ->
  (forall r p ps, rpc s r = RIn (p :: ps) -> waits_for pc r (epoch s r) -> waits_for pc' r (epoch s r)) -> finv (set_wpc s t pc').
Proof.
  intros [] <- Hh Hc Ht Hw. constructor; cbn [set_wpc data next_ptr freed writer_epoch epoch buffer readers rpc wpc]; try done.
  - intros w old c E. split_at w E; [by eapply Hc|by eapply f_current0].
  - intros w old x E. destruct (decide (w = t)) as [-> | Hn]; [rewrite at_eq in E; by eapply Ht|rewrite at_ne in E by done; by eapply f_target0].
  - intros r ps p Hr Hp. destruct (f_safe0 r ps p Hr Hp) as [Hl | (w & H1 & H2)]; [by left|right]. exists w. destruct ps as [|q ps]; [by apply elem_of_nil in Hp|].
    destruct (decide (w = t)) as [-> | Hn]; [rewrite at_eq; split; [congruence|by eapply Hw]|by rewrite at_ne].
  - intros w p E. apply (f_held0 w). destruct (decide (w = t)) as [-> | Hn]; [rewrite at_eq in E; congruence|by rewrite at_ne in E].
  - intros w w' p E E'. apply (f_unique0 w w' p).
    + destruct (decide (w = t)) as [-> | Hn]; [rewrite at_eq in E; congruence|by rewrite at_ne in E].
    + destruct (decide (w' = t)) as [-> | Hn]; [rewrite at_eq in E'; congruence|by rewrite at_ne in E'].
  - intros p Hp. destruct (f_all0 p Hp) as [|[|(w & E)]]; [by left|by right; left|right; right]. exists w. destruct (decide (w = t)) as [-> | Hn]; [rewrite at_eq; congruence|by rewrite at_ne].
Qed.
Lemma own_same s s' t : epoch s' t = epoch s t -> buffer s' t = buffer s t -> own_epoch s' t = own_epoch s t.
Proof. unfold own_epoch. by intros -> ->. Qed.
Lemma own_store s t e pc : (tso = false -> buffer s t = []) -> own_epoch (store_epoch tso s t e pc) t = e.
Proof.
  intros Hb. unfold store_epoch, own_epoch. destruct tso; cbn [epoch buffer]; rewrite at_eq; [by rewrite last_snoc|]. by rewrite Hb.
Qed.
Lemma own_store_ne s t e pc r : r <> t -> own_epoch (store_epoch tso s t e pc) r = own_epoch s r.
Proof. intros Hn. unfold store_epoch, own_epoch. destruct tso; cbn [epoch buffer]; by rewrite at_ne. Qed.
(** A store to the own epoch by a reader that has no pointers then. *)
Lemma store_finv s t e pc : finv s -> (forall e', pc <> RLoaded e') -> (forall ps, pc = RIn ps -> ps = [] /\ e <= writer_epoch s /\ t ∈ readers s) -> ((forall ps, pc <> RIn ps) -> e = NOT_READING) ->
  (forall e', rpc s t <> RLoaded e' \/ True) -> finv (store_epoch tso s t e pc).
Proof.
  intros I Hl Hin Hout _. pose proof I as [I1 I2 I2' I3 I4 I4' I4'' I5 I6 I7 I8 I9 I10 I11 I12 I13 I14].
  assert (Hproj : data (store_epoch tso s t e pc) = data s /\ next_ptr (store_epoch tso s t e pc) = next_ptr s /\ freed (store_epoch tso s t e pc) = freed s /\ writer_epoch (store_epoch tso s t e pc) = writer_epoch s /\
    readers (store_epoch tso s t e pc) = readers s /\ rpc (store_epoch tso s t e pc) = at_thread (rpc s) t pc /\ wpc (store_epoch tso s t e pc) = wpc s) by (unfold store_epoch; by destruct tso).
  destruct Hproj as (P1 & P2 & P3 & P4 & P5 & P6 & P7).
  constructor; rewrite ?P1, ?P2, ?P3, ?P4, ?P5, ?P6, ?P7; try done.
  - intros r e' Hr. split_at r Hr; [by destruct (Hl e')|by eapply I3].
  - intros r ps Hr. split_at r Hr; [|rewrite own_store_ne by done; by eapply I4]. rewrite own_store by (intros Hf; by apply I6). by destruct (Hin ps Hr) as (_ & ? & _).
  - intros r p ps Hr. split_at r Hr; [by destruct (Hin (p :: ps) Hr) as [? _]|]. unfold store_epoch. destruct tso; cbn [buffer]; [rewrite at_ne by done|]; by eapply I4'.
  - intros r Hr. destruct (decide (r = t)) as [-> | Hn].
    + rewrite own_store by (intros Hf; by apply I6). apply Hout. intros ps. specialize (Hr ps). by rewrite at_eq in Hr.
    + rewrite own_store_ne by done. apply I4''. intros ps. specialize (Hr ps). by rewrite at_ne in Hr.
  - intros r ps Hr. split_at r Hr; [by destruct (Hin ps Hr) as (_ & _ & ?)|by eapply I5].
  - intros Hf r. unfold store_epoch. rewrite Hf. cbn [buffer]. by apply I6.
  - intros r ps p Hr Hp. split_at r Hr; [destruct (Hin ps Hr) as [-> _]; by apply elem_of_nil in Hp|]. unfold is_live. rewrite P1.
    replace (epoch (store_epoch tso s t e pc) r) with (epoch s r); [by eapply I7|]. unfold store_epoch. destruct tso; cbn [epoch]; [done|by rewrite at_ne].
Qed.
Lemma finv_step s s' : rcu_step_fenced tso s s' -> finv s -> finv s'.
Proof.
  intros [[H Hb] Hfence] I. pose proof I as [I1 I2 I2' I3 I4 I4' I4'' I5 I6 I7 I8 I9 I10 I11 I12 I13 I14].
  destruct H as [s t e b E|s t Hn Hns Hbu Hps|s t E Hbu Hns|s t E|s t e E Hr|s t ps o p E Ho|s t ps E|s t o old E Hbu Ho|s t E|s t old E|s t old c E Hbu|s t old target E|s t old target r rest E He|s t old target E|s t old E].
  - (* flush *)
    assert (Hown : forall r, own_epoch (Rcu (data s) (next_ptr s) (freed s) (writer_epoch s) (at_thread (epoch s) t e) (at_thread (buffer s) t b) (readers s) (rpc s) (wpc s)) r = own_epoch s r).
    { intros r. unfold own_epoch. cbn [epoch buffer]. destruct (decide (r = t)) as [-> | Hne]; [|by rewrite !at_ne]. rewrite !at_eq, E. destruct b as [|e' b] using rev_ind; [done|]. rewrite app_comm_cons, !last_snoc. done. }
    constructor; cbn [data next_ptr freed writer_epoch readers rpc wpc]; try done.
    + intros r ps Hr. rewrite Hown. by eapply I4.
    + intros r p ps Hr. cbn [buffer]. destruct (decide (r = t)) as [-> | Hne]; [apply I4' in Hr; congruence|rewrite at_ne by done; by eapply I4'].
    + intros r Hr. rewrite Hown. by apply I4''.
    + intros Hf. specialize (I6 Hf t). congruence.
    + intros r ps p Hr Hp. cbn [epoch]. destruct (decide (r = t)) as [-> | Hne]; [|rewrite at_ne by done; by eapply I7]. destruct ps as [|q ps]; [by apply elem_of_nil in Hp|]. apply I4' in Hr. congruence.
  - (* register *)
    assert (Hown : forall r, r <> t -> own_epoch (Rcu (data s) (next_ptr s) (freed s) (writer_epoch s) (at_thread (epoch s) t NOT_READING) (buffer s) (readers s ++ [t]) (rpc s) (wpc s)) r = own_epoch s r).
    { intros r Hne. unfold own_epoch. cbn [epoch buffer]. by rewrite at_ne. }
    constructor; cbn [data next_ptr freed writer_epoch buffer readers rpc wpc]; try done.
    + intros r ps Hr. destruct (decide (r = t)) as [-> | Hne]; [by apply Hps in Hr|]. rewrite Hown by done. by eapply I4.
    + intros r Hr. destruct (decide (r = t)) as [-> | Hne]; [|rewrite Hown by done; by apply I4'']. unfold own_epoch. cbn [epoch buffer]. by rewrite Hbu, at_eq.
    + intros r ps Hr. apply elem_of_app. left. by eapply I5.
    + intros r ps p Hr Hp. destruct (decide (r = t)) as [-> | Hne]; [by apply Hps in Hr|]. cbn [epoch]. rewrite at_ne by done. by eapply I7.
  - (* unregister *) constructor; cbn [data next_ptr freed writer_epoch epoch buffer readers rpc wpc]; try done. intros r ps Hr. apply elem_of_list_filter. split; [congruence|by eapply I5].
  - (* load of the epoch *) constructor; cbn [set_rpc data next_ptr freed writer_epoch epoch buffer readers rpc wpc]; try done.
    + intros r e Hr. split_at r Hr; [injection Hr as <-; lia|by eapply I3].
    + intros r ps Hr. split_at r Hr; [done|by eapply (I4 r)].
    + intros r p ps Hr. split_at r Hr; [done|by eapply I4'].
    + intros r Hr. apply (I4'' r). intros ps Hps. destruct (decide (r = t)) as [-> | Hne]; [congruence|]. apply (Hr ps). by rewrite at_ne.
    + intros r ps Hr. split_at r Hr; [done|by eapply I5].
    + intros r ps p Hr Hp. split_at r Hr; [done|by eapply I7].
  - (* store of the epoch *) pose proof (I3 t e E). apply store_finv; [done|done| |intros Hno; by destruct (Hno [])|by right]. intros ps [= <-]. split; [done|]. split; [lia|done].
  - (* get *)
    assert (Hdr : buffer s t = []). { apply (Hfence t p ps); [done|]. cbn. by rewrite at_eq. }
    constructor; cbn [set_rpc data next_ptr freed writer_epoch epoch buffer readers rpc wpc]; try done.
    + intros r e' Hr'. split_at r Hr'; [done|by eapply I3].
    + intros r ps' Hr'. split_at r Hr'; [by eapply (I4 t)|by eapply (I4 r)].
    + intros r p' ps' Hr'. split_at r Hr'; [done|by eapply I4'].
    + intros r Hr'. apply (I4'' r). intros ps' Hps. destruct (decide (r = t)) as [-> | Hne]; [apply (Hr' (p :: ps)); by rewrite at_eq|]. apply (Hr' ps'). by rewrite at_ne.
    + intros r ps' Hr'. split_at r Hr'; [by eapply I5|by eapply I5].
    + intros r ps' p' Hr' Hp. split_at r Hr'; [|by eapply I7]. injection Hr' as <-. apply elem_of_cons in Hp as [-> | Hp]; [|by eapply I7]. left. by eapply elem_of_list_lookup_2.
  - (* unlock *) apply store_finv; [done|done|done|done|by right].
  - (* exchange *)
    assert (Hlt : (o < length (data s))%nat) by (by eapply lookup_lt_Some). assert (Hold : old ∈ data s) by (by eapply elem_of_list_lookup_2).
    assert (Hin : forall p, p ∈ <[o := next_ptr s]> (data s) <-> p = next_ptr s \/ (p ∈ data s /\ p <> old)).
    { intros p. rewrite !elem_of_list_lookup. split.
      - intros [i Hi]. apply list_lookup_insert_Some in Hi as [(-> & -> & _) | [Hio Hi]]; [by left|right]. split; [eauto|]. intros ->. destruct Hio. by eapply (NoDup_lookup (data s)).
      - intros [-> | [[i Hi] Hne]]; [exists o; by apply list_lookup_insert|]. exists i. rewrite list_lookup_insert_ne; [done|]. intros ->. congruence. }
    assert (Hheld : forall w p, held (at_thread (wpc s) t (WSync (Some old)) w) = Some p -> (w = t /\ p = old) \/ (w <> t /\ held (wpc s w) = Some p)).
    { intros w p Hw. destruct (decide (w = t)) as [-> | Hne]; [rewrite at_eq in Hw; injection Hw as <-; by left|rewrite at_ne in Hw by done; by right]. }
    constructor; cbn [data next_ptr freed writer_epoch epoch buffer readers rpc wpc]; try done.
    + intros w old' c Hw. split_at w Hw; [done|by eapply I2].
    + intros w old' x Hw. destruct (decide (w = t)) as [-> | Hne]; [rewrite at_eq in Hw; destruct Hw as [|[? ?]]; done|rewrite at_ne in Hw by done; by eapply I2'].
    + intros r ps p Hr Hp. unfold is_live in *. cbn [data]. rewrite Hin. destruct (I7 r ps p Hr Hp) as [Hl | (w & H1 & H2)].
      * destruct (decide (p = old)) as [-> | Hne]; [|left; by right]. right. exists t. by rewrite at_eq.
      * right. exists w. rewrite at_ne; [done|]. intros ->. by rewrite E in H1.
    + apply NoDup_alt. intros i j x Hi Hj. apply list_lookup_insert_Some in Hi as [(<- & <- & _) | [Hio Hi]]; apply list_lookup_insert_Some in Hj as [(<- & Hx & _) | [Hjo Hj]]; try done.
      * apply elem_of_list_lookup_2, I9 in Hj. lia.
      * subst x. apply elem_of_list_lookup_2, I9 in Hi. lia.
      * by eapply (NoDup_lookup (data s)).
    + intros p Hp. apply Hin in Hp as [-> | [Hp _]]; [lia|]. apply I9 in Hp. lia.
    + intros w p Hw. rewrite Hin. apply Hheld in Hw as [[-> ->] | [Hne Hw]].
      * pose proof (I9 old Hold). split; [lia|]. split; [intros [? | [_ ?]]; [lia|done]|]. intros Hf. by apply I12 in Hf as [_ ?].
      * destruct (I10 w p Hw) as (H1 & H2 & H3). split; [lia|]. split; [|done]. intros [? | [? _]]; [lia|done].
    + intros w w' p Hw Hw'. apply Hheld in Hw as [[-> ->] | [Hne Hw]]; apply Hheld in Hw' as [[-> Hp] | [Hne' Hw']]; try done.
      * by apply I10 in Hw' as (_ & ? & _).
      * subst p. by apply I10 in Hw as (_ & ? & _).
      * by eapply I11.
    + intros p Hp. destruct (I12 p Hp) as [H1 H2]. split; [lia|]. rewrite Hin. intros [? | [? _]]; [lia|done].
    + intros p Hp. rewrite Hin. destruct (decide (p = next_ptr s)) as [-> | Hne]; [by left; left|]. destruct (I13 p ltac:(lia)) as [Hd | [Hf | (w & Hw)]].
      * destruct (decide (p = old)) as [-> | Hne']; [right; right; exists t; by rewrite at_eq|left; by right].
      * by right; left.
      * right; right. exists w. rewrite at_ne; [done|]. intros ->. by rewrite E in Hw.
  - eapply set_wpc_finv; [done|exact E|done|done| |]. { intros old' x [? | [? ?]]; done. } intros r p ps _ [].
  - eapply set_wpc_finv; [done|exact E|done| | |].
    + intros old' c [= _ <-]. lia.
    + intros old' x [? | [? ?]]; done.
    + intros r p ps Hr _. cbn. pose proof (I4 r _ Hr) as H. unfold own_epoch in H. by rewrite (I4' r p ps Hr) in H.
  - (* compare exchange *)
    cbn [writer_epoch] in Hb. pose proof (I2 t old c E) as Hc. assert (Hmod : (c + 1) mod 2 ^ 64 = c + 1) by (apply Z.mod_small; unfold NOT_READING in *; lia).
    rewrite Hmod in *. assert (Hge : writer_epoch s <= (if writer_epoch s =? c then c + 1 else writer_epoch s) /\ c + 1 <= (if writer_epoch s =? c then c + 1 else writer_epoch s)) by (destruct (Z.eqb_spec (writer_epoch s) c); lia).
    assert (I' : finv (Rcu (data s) (next_ptr s) (freed s) (if writer_epoch s =? c then c + 1 else writer_epoch s) (epoch s) (buffer s) (readers s) (rpc s) (wpc s))).
    { constructor; cbn [data next_ptr freed writer_epoch epoch buffer readers rpc wpc]; try done.
      - lia.
      - intros w old' c' Hw. apply I2 in Hw. lia.
      - intros w old' x Hw. apply I2' in Hw. lia.
      - intros r e Hr. apply I3 in Hr. lia.
      - intros r ps Hr. apply I4 in Hr. change (own_epoch s r <= (if writer_epoch s =? c then c + 1 else writer_epoch s)). lia. }
    apply (set_wpc_finv _ t _ (WAdvanced old (c + 1)) I' E); [done|done| |].
    + intros old' x [[= <- <-] | [? ?]]; [|done]. cbn [writer_epoch]. lia.
    + intros r p ps _ Hle. cbn in Hle |- *. lia.
  - eapply set_wpc_finv; [done|exact E|done|done| |].
    + intros old' x [? | [rest [= <- <- <-]]]; [done|]. eapply (I2' t). by left.
    + intros r p ps Hr Hlt. split; [done|by eapply I5].
  - eapply set_wpc_finv; [done|exact E|done|done| |].
    + intros old' x [? | [rest' [= <- <- <-]]]; [done|]. eapply (I2' t). right. eauto.
    + intros r' p ps Hr [Hlt Hin]. split; [done|]. apply elem_of_cons in Hin as [-> | Hin]; [lia|done].
  - eapply set_wpc_finv; [done|exact E|done|done| |]. { intros old' x [? | [? ?]]; done. } intros r' p ps Hr [Hlt Hin]. by apply elem_of_nil in Hin.
  - (* delete *)
    assert (Hheld : forall w p, held (at_thread (wpc s) t WOut w) = Some p -> w <> t /\ held (wpc s w) = Some p).
    { intros w p Hw. destruct (decide (w = t)) as [-> | Hne]; [by rewrite at_eq in Hw|by rewrite at_ne in Hw]. }
    assert (Hfr : forall p, p ∈ match old with Some p => p :: freed s | None => freed s end <-> Some p = old \/ p ∈ freed s).
    { intros p. destruct old as [q|]; [|naive_solver]. rewrite elem_of_cons. naive_solver. }
    constructor; cbn [data next_ptr freed writer_epoch epoch buffer readers rpc wpc]; try done.
    + intros w old' c Hw. split_at w Hw; [done|by eapply I2].
    + intros w old' x Hw. destruct (decide (w = t)) as [-> | Hne]; [rewrite at_eq in Hw; destruct Hw as [|[? ?]]; done|rewrite at_ne in Hw by done; by eapply I2'].
    + intros r ps p Hr Hp. destruct (I7 r ps p Hr Hp) as [Hl | (w & H1 & H2)]; [by left|right]. exists w. rewrite at_ne; [done|]. intros ->. by rewrite E in H2.
    + intros w p Hw. apply Hheld in Hw as [Hne Hw]. destruct (I10 w p Hw) as (H1 & H2 & H3). repeat split; try done. intros Hp. apply Hfr in Hp as [Hp | Hp]; [|done].
      apply Hne. apply (I11 w t p); [done|]. by rewrite E.
    + intros w w' p Hw Hw'. apply Hheld in Hw as [_ Hw]. apply Hheld in Hw' as [_ Hw']. by eapply I11.
    + intros p Hp. apply Hfr in Hp as [Hp | Hp]; [|by apply I12]. destruct (I10 t p) as (H1 & H2 & H3); [by rewrite E|]. done.
    + intros p Hp. rewrite Hfr. destruct (I13 p Hp) as [|[|(w & Hw)]]; [by left|by right; left; right|]. destruct (decide (w = t)) as [-> | Hne]; [right; left; left; by rewrite E in Hw|]. right; right. exists w. by rewrite at_ne.
    + destruct old as [q|]; [|done]. constructor; [|done]. destruct (I10 t q) as (_ & _ & ?); [by rewrite E|done].
Qed.
Lemma finv_reachable n s : rtc (rcu_step_fenced tso) (rcu_initial n) s -> finv s.
Proof. intros H. pose proof (finv_initial n) as I0. revert I0 H. generalize (rcu_initial n). intros s0 I0 H. induction H; [done|]. by apply IHrtc, (finv_step x y). Qed.
End inv.

(** With the fence no reader ever has a pointer to a freed object, with store buffers too. *)
Theorem C107_fence tso (objects : nat) s : rtc (rcu_step_fenced tso) (rcu_initial objects) s -> ~ reads_freed s.
Proof.
  intros H%finv_reachable (t & ps & p & Hr & Hp & Hf). destruct (f_safe _ _ H t ps p Hr Hp) as [Hl | (w & H1 & H2)]; [by apply (f_freed _ _ H) in Hf as [_ ?]|by apply (f_held _ _ H) in H1 as (_ & _ & ?)].
Qed.
Print Assumptions C107_fence.
(** Without store buffers the fence changes nothing. *)
Theorem C107_sequential_steps (objects : nat) s : rtc (rcu_step_bounded false) (rcu_initial objects) s <-> rtc (rcu_step_fenced false) (rcu_initial objects) s.
Proof.
  split.
  - intros H. pose proof (finv_initial false objects) as I0. revert I0 H. generalize (rcu_initial objects). intros s0 I0 H. induction H as [|x y z Hxy Hyz IH]; [apply rtc_refl|].
    assert (Hf : rcu_step_fenced false x y). { split; [done|]. intros t p ps _ _. by apply (f_buffer _ _ I0). } eapply rtc_l; [exact Hf|]. by apply IH, (finv_step false x y).
  - intros H. induction H as [|x y z [Hxy _] _ IH]; [apply rtc_refl|]. by eapply rtc_l.
Qed.
Print Assumptions C107_sequential_steps.
(** Every object is installed, or about to be freed by exactly one assignment, or freed; it is
    freed at most once. *)
Theorem C107_freed_once tso (objects : nat) s p : rtc (rcu_step_fenced tso) (rcu_initial objects) s -> (p < next_ptr s)%nat ->
  NoDup (freed s) /\ NoDup (data s) /\
  ((p ∈ data s /\ p ∉ freed s /\ forall w, held (wpc s w) <> Some p) \/
   (p ∉ data s /\ p ∈ freed s /\ forall w, held (wpc s w) <> Some p) \/
   (p ∉ data s /\ p ∉ freed s /\ exists w, forall w', held (wpc s w') = Some p <-> w' = w)).
Proof.
  intros H%finv_reachable Hp. split; [by apply (f_once _ _ H)|]. split; [by apply (f_nodup _ _ H)|].
  destruct (f_all _ _ H p Hp) as [Hd | [Hf | (w & Hw)]].
  - left. split; [done|]. split; [intros Hf; by apply (f_freed _ _ H) in Hf as [_ ?]|]. intros w Hw. by apply (f_held _ _ H) in Hw as (_ & ? & _).
  - right; left. split; [by apply (f_freed _ _ H) in Hf as [_ ?]|]. split; [done|]. intros w Hw. by apply (f_held _ _ H) in Hw as (_ & _ & ?).
  - right; right. destruct (f_held _ _ H w p Hw) as (_ & H1 & H2). split; [done|]. split; [done|]. exists w. intros w'. split; [intros Hw'; by eapply (f_unique _ _ H)|by intros ->].
Qed.
Print Assumptions C107_freed_once.
(** synchronize goes on, unless the reader it looks at is in a read section that began with an
    epoch before its own, or has ended one and the store has not reached memory; a section that
    begins now has the current epoch, which is not before. *)
Theorem C107_waits tso (objects : nat) s w old target r rest : rtc (rcu_step_fenced tso) (rcu_initial objects) s -> wpc s w = WScan old target (r :: rest) ->
  target <= writer_epoch s /\
  ((exists s', rcu_step tso s s' /\ wpc s' w = WScan old target rest) \/ (epoch s r < target /\ ((exists ps, rpc s r = RIn ps) \/ (tso = true /\ buffer s r <> [])))).
Proof.
  intros H%finv_reachable E. split; [apply (f_target _ _ H w old); right; eauto|]. destruct (decide (target <= epoch s r)) as [Hle | Hgt].
  - left. eexists. split; [by eapply rcu_scan_next|]. cbn. by rewrite at_eq.
  - right. split; [lia|]. destruct (rpc s r) as [|e|ps] eqn:Er; [| |left; eauto].
    all: right; pose proof (f_out _ _ H r) as Ho; rewrite Er in Ho; specialize (Ho ltac:(done)); unfold own_epoch in Ho; destruct (buffer s r) as [|b bs] eqn:Eb.
    1, 3: cbn in Ho; pose proof (f_target _ _ H w old target ltac:(right; eauto)); pose proof (f_bound _ _ H); lia.
    all: split; [|done]; destruct tso eqn:Et; [done|]; by rewrite (f_buffer _ _ H eq_refl) in Eb.
Qed.
Print Assumptions C107_waits.
(** The end of an assignment frees the object that was replaced. *)
Theorem C107_delete tso s w p : wpc s w = WDone (Some p) -> exists s', rcu_step tso s s' /\ freed s' = p :: freed s /\ wpc s' w = WOut.
Proof. intros E. eexists. split; [by eapply rcu_delete|]. cbn. by rewrite at_eq. Qed.
Print Assumptions C107_delete.

(** With store buffers and the fence: a reader has the old object, whose deletion waits for it. *)
Local Ltac project := cbn [set_rpc set_wpc store_epoch data next_ptr freed writer_epoch epoch buffer readers rpc wpc rcu_initial insert list_insert app Z.eqb].
Local Ltac no_get := intros t p ps; cbn; unfold at_thread; repeat case_decide; intros; try done; congruence.
Local Tactic Notation "fenced" tactic(tac) := eapply rtc_l; [split; [split; [tac|project; unfold NOT_READING; first [lia|vm_compute; done]]|no_get]|]; project.
Example C107_nonvacuous : exists s, rtc (rcu_step_fenced true) (rcu_initial 1) s /\ rpc s 0%nat = RIn [0%nat] /\ wpc s 1%nat = WScan (Some 0%nat) 1 [0%nat] /\ epoch s 0%nat = 0.
Proof.
  eexists. split; [|cycle 1].
  - fenced (apply (rcu_register _ _ 0); [apply not_elem_of_nil|done|done|done]).
    fenced (apply (rcu_read_load _ _ 0); reflexivity).
    fenced (apply (rcu_read_store _ _ 0 0); [reflexivity|cbn; set_solver]).
    fenced (apply (rcu_flush _ _ 0 0 []); reflexivity).
    fenced (apply (rcu_get _ _ 0 [] 0 0); reflexivity).
    fenced (apply (rcu_exchange _ _ 1 0 0); reflexivity).
    fenced (apply (rcu_sync_load _ _ 1 (Some 0%nat)); reflexivity).
    fenced (apply (rcu_sync_cas _ _ 1 (Some 0%nat) 0); reflexivity).
    fenced (apply (rcu_scan _ _ 1 (Some 0%nat) 1); reflexivity). apply rtc_refl.
  - repeat split; reflexivity.
Qed.
