(** C78: data protected by RCU is not freed while being read. *)
From Coq Require Import ZArith Lia.
From stdpp Require Import list relations.
From Verif Require Import RcuModel.
Local Open Scope Z_scope.

(** A reader has a pointer to a freed object. *)
Definition reads_freed (s : rcu_state) : Prop := exists t ps p, rpc s t = RIn ps /\ p ∈ ps /\ p ∈ freed s.

(** ** Sequential consistency *)
Lemma at_eq {A} (f : nat -> A) t x : at_thread f t x t = x.
Proof. unfold at_thread. by rewrite decide_True. Qed.
Lemma at_ne {A} (f : nat -> A) t x t' : t' <> t -> at_thread f t x t' = f t'.
Proof. intros H. unfold at_thread. by rewrite decide_False. Qed.
Definition held (pc : writer_pc) : option nat :=
  match pc with WOut => None | WSync o | WLoaded o _ | WAdvanced o _ | WScan o _ _ | WDone o => o end.
(** The writer at [pc] waits for reader [t], which is in a section that began at epoch [e]. *)
Definition waits_for (pc : writer_pc) (t : nat) (e : Z) : Prop :=
  match pc with
  | WOut => False
  | WSync _ => True
  | WLoaded _ c => e <= c
  | WAdvanced _ target => e < target
  | WScan _ target rest => e < target /\ t ∈ rest
  | WDone _ => False
  end.
Definition is_live (s : rcu_state) (p : nat) : Prop := p ∈ data s.
Record rcu_inv (s : rcu_state) : Prop := RcuInv {
  r_bound : 0 <= writer_epoch s < NOT_READING;
  r_current : forall w old c, wpc s w = WLoaded old c -> 0 <= c <= writer_epoch s;
  r_loaded : forall t e, rpc s t = RLoaded e -> 0 <= e <= writer_epoch s;
  r_epoch : forall t ps, rpc s t = RIn ps -> epoch s t <= writer_epoch s;
  r_registered : forall t ps, rpc s t = RIn ps -> t ∈ readers s;
  r_buffer : forall t, buffer s t = [];
  r_safe : forall t ps p, rpc s t = RIn ps -> p ∈ ps -> is_live s p \/ exists w, held (wpc s w) = Some p /\ waits_for (wpc s w) t (epoch s t);
  r_nodup : NoDup (data s);
  r_data : forall p, p ∈ data s -> (p < next_ptr s)%nat;
  r_held : forall w p, held (wpc s w) = Some p -> (p < next_ptr s)%nat /\ p ∉ data s /\ p ∉ freed s;
  r_unique : forall w w' p, held (wpc s w) = Some p -> held (wpc s w') = Some p -> w = w';
  r_freed : forall p, p ∈ freed s -> (p < next_ptr s)%nat /\ p ∉ data s }.

Lemma rcu_initial_inv n : rcu_inv (rcu_initial n).
Proof.
  constructor; cbn; try done.
  - apply NoDup_ListNoDup, seq_NoDup.
  - intros p Hp. apply elem_of_seq in Hp. lia.
  - intros p Hp. by apply elem_of_nil in Hp.
Qed.
Ltac split_at t Hx := match type of Hx with at_thread _ ?t0 _ t = _ => destruct (decide (t = t0)) as [-> | ?]; [rewrite at_eq in Hx|rewrite at_ne in Hx by done] end.
(** A step of the writer that keeps its pointer. *)
Lemma set_wpc_inv s t pc pc' : rcu_inv s -> wpc s t = pc -> held pc' = held pc ->
  (forall old c, pc' = WLoaded old c -> 0 <= c <= writer_epoch s) ->
  (forall r ps, rpc s r = RIn ps -> waits_for pc r (epoch s r) -> waits_for pc' r (epoch s r)) -> rcu_inv (set_wpc s t pc').
Proof.
  intros [] <- Hh Hc Hw. constructor; cbn [set_wpc data next_ptr freed writer_epoch epoch buffer readers rpc wpc]; try done.
  - intros w old c E. split_at w E; [by eapply Hc|by eapply r_current0].
  - intros r ps p Hr Hp. destruct (r_safe0 r ps p Hr Hp) as [Hl | (w & H1 & H2)]; [by left|right]. exists w.
    destruct (decide (w = t)) as [-> | Hn]; [rewrite at_eq; split; [congruence|by eapply Hw]|by rewrite at_ne].
  - intros w p E. apply (r_held0 w). destruct (decide (w = t)) as [-> | Hn]; [rewrite at_eq in E; congruence|by rewrite at_ne in E].
  - intros w w' p E E'. apply (r_unique0 w w' p).
    + destruct (decide (w = t)) as [-> | Hn]; [rewrite at_eq in E; congruence|by rewrite at_ne in E].
    + destruct (decide (w' = t)) as [-> | Hn]; [rewrite at_eq in E'; congruence|by rewrite at_ne in E'].
Qed.
Lemma rcu_step_inv s s' : rcu_step_bounded false s s' -> rcu_inv s -> rcu_inv s'.
Proof.
  intros [H Hb] I. pose proof I as [I1 I2 I3 I4 I5 I6 I7 I8 I9 I10 I11 I12].
  destruct H as [s t e b E|s t Hn Hns Hbu Hps|s t E Hbu Hns|s t E|s t e E Hr|s t ps o p E Ho|s t ps E|s t o old E Hbu Ho|s t E|s t old E|s t old c E Hbu|s t old target E|s t old target r rest E He|s t old target E|s t old E];
    cbn [store_epoch set_rpc set_wpc writer_epoch] in Hb.
  - by rewrite I6 in E.
  - (* register *) constructor; cbn; try done.
    + intros r ps Hr. destruct (decide (r = t)) as [-> | Hne]; [by apply Hps in Hr|]. rewrite at_ne by done. by eapply I4.
    + intros r ps Hr. apply elem_of_app. left. by eapply I5.
    + intros r ps p Hr Hp. destruct (decide (r = t)) as [-> | Hne]; [by apply Hps in Hr|]. rewrite at_ne by done. by eapply I7.
  - (* unregister *) constructor; cbn; try done. intros r ps Hr. apply elem_of_list_filter. split; [congruence|by eapply I5].
  - (* load of the epoch *) constructor; cbn; try done.
    + intros r e Hr. split_at r Hr; [injection Hr as <-; lia|by eapply I3].
    + intros r ps Hr. split_at r Hr; [done|by eapply I4].
    + intros r ps Hr. split_at r Hr; [done|by eapply I5].
    + intros r ps p Hr Hp. split_at r Hr; [done|by eapply I7].
  - (* store of the epoch *) pose proof (I3 t e E). constructor; cbn; try done.
    + intros r e' Hr'. split_at r Hr'; [done|by eapply I3].
    + intros r ps Hr'. split_at r Hr'; [rewrite at_eq; lia|rewrite at_ne by done; by eapply I4].
    + intros r ps Hr'. split_at r Hr'; [done|by eapply I5].
    + intros r ps p Hr' Hp. split_at r Hr'; [injection Hr' as <-; by apply elem_of_nil in Hp|rewrite at_ne by done; by eapply I7].
  - (* get *) constructor; cbn; try done.
    + intros r e' Hr'. split_at r Hr'; [done|by eapply I3].
    + intros r ps' Hr'. split_at r Hr'; [by eapply I4|by eapply I4].
    + intros r ps' Hr'. split_at r Hr'; [by eapply I5|by eapply I5].
    + intros r ps' p' Hr' Hp. split_at r Hr'; [|by eapply I7]. injection Hr' as <-. apply elem_of_cons in Hp as [-> | Hp]; [|by eapply I7]. left. by eapply elem_of_list_lookup_2.
  - (* unlock *) constructor; cbn; try done.
    + intros r e' Hr'. split_at r Hr'; [done|by eapply I3].
    + intros r ps' Hr'. split_at r Hr'; [done|rewrite at_ne by done; by eapply I4].
    + intros r ps' Hr'. split_at r Hr'; [done|by eapply I5].
    + intros r ps' p' Hr' Hp. split_at r Hr'; [done|rewrite at_ne by done; by eapply I7].
  - (* exchange *)
    assert (Hlt : (o < length (data s))%nat) by (by eapply lookup_lt_Some). assert (Hold : old ∈ data s) by (by eapply elem_of_list_lookup_2).
    assert (Hin : forall p, p ∈ <[o := next_ptr s]> (data s) <-> p = next_ptr s \/ (p ∈ data s /\ p <> old)).
    { intros p. rewrite !elem_of_list_lookup. split.
      - intros [i Hi]. apply list_lookup_insert_Some in Hi as [(-> & -> & _) | [Hio Hi]]; [by left|right]. split; [eauto|]. intros ->. destruct Hio. by eapply NoDup_lookup.
      - intros [-> | [[i Hi] Hne]]; [exists o; by apply list_lookup_insert|]. exists i. rewrite list_lookup_insert_ne; [done|]. intros ->. congruence. }
    assert (Hheld : forall w p, held (at_thread (wpc s) t (WSync (Some old)) w) = Some p -> (w = t /\ p = old) \/ (w <> t /\ held (wpc s w) = Some p)).
    { intros w p Hw. destruct (decide (w = t)) as [-> | Hne]; [rewrite at_eq in Hw; injection Hw as <-; by left|rewrite at_ne in Hw by done; by right]. }
    constructor; cbn [data next_ptr freed writer_epoch epoch buffer readers rpc wpc]; try done.
    + intros w old' c Hw. split_at w Hw; [done|by eapply I2].
    + intros r ps p Hr Hp. unfold is_live in *. cbn [data]. rewrite Hin. destruct (I7 r ps p Hr Hp) as [Hl | (w & H1 & H2)].
      * destruct (decide (p = old)) as [-> | Hne]; [|left; by right]. right. exists t. by rewrite at_eq.
      * right. exists w. rewrite at_ne; [done|]. intros ->. by rewrite E in H1.
    + apply NoDup_alt. intros i j x Hi Hj. apply list_lookup_insert_Some in Hi as [(<- & <- & _) | [Hio Hi]]; apply list_lookup_insert_Some in Hj as [(<- & Hx & _) | [Hjo Hj]]; try done.
      * apply elem_of_list_lookup_2, I9 in Hj. lia.
      * subst x. apply elem_of_list_lookup_2, I9 in Hi. lia.
      * by eapply NoDup_lookup.
    + intros p Hp. apply Hin in Hp as [-> | [Hp _]]; [lia|]. apply I9 in Hp. lia.
    + intros w p Hw. rewrite Hin. apply Hheld in Hw as [[-> ->] | [Hne Hw]].
      * pose proof (I9 old Hold). split; [lia|]. split; [intros [? | [_ ?]]; [lia|done]|]. intros Hf. by apply I12 in Hf as [_ ?].
      * destruct (I10 w p Hw) as (H1 & H2 & H3). split; [lia|]. split; [|done]. intros [? | [? _]]; [lia|done].
    + intros w w' p Hw Hw'. apply Hheld in Hw as [[-> ->] | [Hne Hw]]; apply Hheld in Hw' as [[-> Hp] | [Hne' Hw']]; try done.
      * by apply I10 in Hw' as (_ & ? & _).
      * subst p. by apply I10 in Hw as (_ & ? & _).
      * by eapply I11.
    + intros p Hp. destruct (I12 p Hp) as [H1 H2]. split; [lia|]. rewrite Hin. intros [? | [? _]]; [lia|done].
  - eapply set_wpc_inv; [done|exact E|done|done|]. intros r ps _ [].
  - eapply set_wpc_inv; [done|exact E|done| |].
    + intros old' c [= _ <-]. lia.
    + intros r ps Hr _. by apply (I4 r ps).
  - (* compare exchange *)
    pose proof (I2 t old c E) as Hc. assert (Hmod : (c + 1) mod 2 ^ 64 = c + 1) by (apply Z.mod_small; unfold NOT_READING in *; lia).
    rewrite Hmod in *. cbn [writer_epoch] in Hb. assert (Hge : writer_epoch s <= (if writer_epoch s =? c then c + 1 else writer_epoch s)) by (destruct (Z.eqb_spec (writer_epoch s) c); lia).
    assert (I' : rcu_inv (Rcu (data s) (next_ptr s) (freed s) (if writer_epoch s =? c then c + 1 else writer_epoch s) (epoch s) (buffer s) (readers s) (rpc s) (wpc s))).
    { constructor; cbn [data next_ptr freed writer_epoch epoch buffer readers rpc wpc]; try done.
      - lia.
      - intros w old' c' Hw. apply I2 in Hw. lia.
      - intros r e Hr. apply I3 in Hr. lia.
      - intros r ps Hr. apply I4 in Hr. lia. }
    apply (set_wpc_inv _ t _ (WAdvanced old (c + 1)) I' E); [done|done|]. intros r ps _ Hle. cbn in Hle |- *. lia.
  - eapply set_wpc_inv; [done|exact E|done|done|]. intros r ps Hr Hlt. split; [done|by eapply I5].
  - eapply set_wpc_inv; [done|exact E|done|done|]. intros r' ps Hr [Hlt Hin]. split; [done|]. apply elem_of_cons in Hin as [-> | Hin]; [lia|done].
  - eapply set_wpc_inv; [done|exact E|done|done|]. intros r' ps Hr [Hlt Hin]. by apply elem_of_nil in Hin.
  - (* delete *)
    assert (Hheld : forall w p, held (at_thread (wpc s) t WOut w) = Some p -> w <> t /\ held (wpc s w) = Some p).
    { intros w p Hw. destruct (decide (w = t)) as [-> | Hne]; [by rewrite at_eq in Hw|by rewrite at_ne in Hw]. }
    assert (Hfr : forall p, p ∈ match old with Some p => p :: freed s | None => freed s end -> Some p = old \/ p ∈ freed s).
    { intros p Hp. destruct old as [q|]; [|by right]. apply elem_of_cons in Hp as [-> | Hp]; [by left|by right]. }
    constructor; cbn [data next_ptr freed writer_epoch epoch buffer readers rpc wpc]; try done.
    + intros w old' c Hw. split_at w Hw; [done|by eapply I2].
    + intros r ps p Hr Hp. destruct (I7 r ps p Hr Hp) as [Hl | (w & H1 & H2)]; [by left|right]. exists w. rewrite at_ne; [done|]. intros ->. by rewrite E in H2.
    + intros w p Hw. apply Hheld in Hw as [Hne Hw]. destruct (I10 w p Hw) as (H1 & H2 & H3). repeat split; try done. intros Hp. apply Hfr in Hp as [Hp | Hp]; [|done].
      apply Hne. apply (I11 w t p); [done|]. by rewrite E.
    + intros w w' p Hw Hw'. apply Hheld in Hw as [_ Hw]. apply Hheld in Hw' as [_ Hw']. by eapply I11.
    + intros p Hp. apply Hfr in Hp as [Hp | Hp]; [|by apply I12]. destruct (I10 t p) as (H1 & H2 & H3); [by rewrite E|]. done.
Qed.
(** With sequentially consistent memory no reader ever has a pointer to a freed object. *)
Theorem C78_sequential_partial (objects : nat) s : rtc (rcu_step_bounded false) (rcu_initial objects) s -> ~ reads_freed s.
Proof.
  intros H. assert (I : rcu_inv s). { pose proof (rcu_initial_inv objects) as I0. revert I0 H. generalize (rcu_initial objects). intros s0 I0 H. induction H; [done|]. by apply IHrtc, (rcu_step_inv x y). }
  intros (t & ps & p & Hr & Hp & Hf). destruct I as [I1 I2 I3 I4 I5 I6 I7 I8 I9 I10 I11 I12]. destruct (I7 t ps p Hr Hp) as [Hl | (w & H1 & H2)]; [by apply I12 in Hf as [_ ?]|by apply I10 in H1 as (_ & _ & ?)].
Qed.
Print Assumptions C78_sequential_partial.

(** A reader is between lock_shared and unlock_shared with the old object while the writer
    waits; a second reader got the new object and the writer is done with it. *)
Local Ltac project := cbn [set_rpc set_wpc store_epoch data next_ptr freed writer_epoch epoch buffer readers rpc wpc rcu_initial insert list_insert app Z.eqb].
Example C78_nonvacuous : exists s, rtc (rcu_step_bounded false) (rcu_initial 1) s /\ rpc s 0%nat = RIn [0%nat] /\ rpc s 1%nat = RIn [1%nat] /\ wpc s 2%nat = WScan (Some 0%nat) 1 [0%nat; 1%nat].
Proof.
  eexists. split; [|cycle 1].
  - eapply rtc_l; [split; [apply (rcu_register _ _ 0); [apply not_elem_of_nil|done|done|done]|done]|]; project.
    eapply rtc_l; [split; [apply (rcu_register _ _ 1); [cbn; by rewrite elem_of_list_singleton|done|done|done]|done]|]; project.
    eapply rtc_l; [split; [apply (rcu_read_load _ _ 0); reflexivity|done]|]; project.
    eapply rtc_l; [split; [apply (rcu_read_store _ _ 0 0); [reflexivity|cbn; set_solver]|done]|]; project.
    eapply rtc_l; [split; [apply (rcu_get _ _ 0 [] 0 0); reflexivity|done]|]; project.
    eapply rtc_l; [split; [apply (rcu_exchange _ _ 2 0 0); reflexivity|done]|]; project.
    eapply rtc_l; [split; [apply (rcu_sync_load _ _ 2 (Some 0%nat)); reflexivity|done]|]; project.
    eapply rtc_l; [split; [apply (rcu_sync_cas _ _ 2 (Some 0%nat) 0); reflexivity|done]|]; project.
    eapply rtc_l; [split; [apply (rcu_scan _ _ 2 (Some 0%nat) 1); reflexivity|done]|]; project.
    eapply rtc_l; [split; [apply (rcu_read_load _ _ 1); reflexivity|done]|]; project.
    eapply rtc_l; [split; [apply (rcu_read_store _ _ 1 1); [reflexivity|cbn; set_solver]|done]|]; project.
    eapply rtc_l; [split; [apply (rcu_get _ _ 1 [] 0 1); reflexivity|done]|]; project; apply rtc_refl.
  - repeat split; reflexivity.
Qed.

(** ** Store buffers *)
(** The store of the reader's epoch is still in its store buffer while the reader loads the
    pointer; the writer sees NOT_READING and frees the object the reader uses. *)
Theorem C78_store_buffer_refuted : exists s, rtc (rcu_step_bounded true) (rcu_initial 1) s /\ reads_freed s.
Proof.
  eexists. split; [|cycle 1].
  - eapply rtc_l; [split; [apply (rcu_register _ _ 0); [apply not_elem_of_nil|done|done|done]|done]|]; project.
    eapply rtc_l; [split; [apply (rcu_read_load _ _ 0); reflexivity|done]|]; project.
    eapply rtc_l; [split; [apply (rcu_read_store _ _ 0 0); [reflexivity|cbn; set_solver]|done]|]; project.
    eapply rtc_l; [split; [apply (rcu_get _ _ 0 [] 0 0); reflexivity|done]|]; project.
    eapply rtc_l; [split; [apply (rcu_exchange _ _ 1 0 0); reflexivity|done]|]; project.
    eapply rtc_l; [split; [apply (rcu_sync_load _ _ 1 (Some 0%nat)); reflexivity|done]|]; project.
    eapply rtc_l; [split; [apply (rcu_sync_cas _ _ 1 (Some 0%nat) 0); reflexivity|done]|]; project.
    eapply rtc_l; [split; [apply (rcu_scan _ _ 1 (Some 0%nat) 1); reflexivity|done]|]; project.
    eapply rtc_l; [split; [apply (rcu_scan_next _ _ 1 (Some 0%nat) 1 0%nat []); [reflexivity|discriminate]|done]|]; project.
    eapply rtc_l; [split; [apply (rcu_scan_end _ _ 1 (Some 0%nat) 1); reflexivity|done]|]; project.
    eapply rtc_l; [split; [apply (rcu_delete _ _ 1 (Some 0%nat)); reflexivity|done]|]; project; apply rtc_refl.
  - exists 0%nat, [0%nat], 0%nat. repeat split; cbn; set_solver.
Qed.
Print Assumptions C78_store_buffer_refuted.
