(** C106: the spin locks become free again. *)
From Coq Require Import ZArith Lia.
From stdpp Require Import list relations.
From Verif Require Import LockModel LockProps.
Local Open Scope Z_scope.

(** ** spinlock *)
Lemma spin_reachable s : rtc spin_step spin_initial s -> spin_inv s.
Proof. intros H. assert (I0 : spin_inv spin_initial) by done. revert I0 H. generalize spin_initial. intros s0 I0 H. induction H; [done|]. by apply IHrtc, (spin_step_inv x y). Qed.
(** The flag is set exactly while some thread holds the lock, so the next test_and_set of lock or
    try_lock gets it when nobody does, and does not otherwise. *)
Theorem C106_spinlock_free s t : rtc spin_step spin_initial s -> (spin_at s t = SLock \/ spin_at s t = STrySet) ->
  ((forall t', spin_at s t' <> SHold) <-> exists s', spin_step s s' /\ spin_at s' t = SHold).
Proof.
  intros H%spin_reachable Ht. unfold spin_inv in H. split.
  - intros Hno. destruct (flag s) eqn:Ef; [destruct H as [h Hh]; destruct (Hno h); by apply Hh|].
    destruct Ht as [Ht | Ht]; eexists; (split; [by constructor|]); cbn [spin_at]; by rewrite set_at_eq, Ef.
  - intros (s' & Hs & Hh) t' Ht'. destruct (flag s) eqn:Ef; [|by apply H in Ht']. 
    assert (Hm : forall u pc, pc <> SHold -> set_at (spin_at s) u pc t = SHold -> False).
    { intros u pc Hpc. destruct (decide (t = u)) as [-> | Hn]; [by rewrite set_at_eq|]. rewrite set_at_ne by done. destruct Ht as [-> | ->]; done. }
    destruct Hs as [? u E|? u E|? u E|? u seen E|? u seen E|? u E|? u E]; cbn [spin_at] in Hh; rewrite ?Ef in Hh; (eapply Hm; [|exact Hh]); try done; by destruct seen.
Qed.
Print Assumptions C106_spinlock_free.
(** After an unlock any waiting thread can get the lock on its own. *)
Theorem C106_spinlock_handover s t t' : rtc spin_step spin_initial s -> spin_at s t = SHold -> spin_at s t' = SWait ->
  exists s1 s2 s3, spin_step s s1 /\ spin_at s1 t = SIdle /\ spin_step s1 s2 /\ spin_at s2 t' = SLock /\ spin_step s2 s3 /\ spin_at s3 t' = SHold.
Proof.
  intros _ Ht Ht'. assert (t' <> t) by congruence. exists (Spin false (set_at (spin_at s) t SIdle)). exists (Spin false (set_at (set_at (spin_at s) t SIdle) t' SLock)). eexists.
  split; [by apply spin_unlock|]. split; [by cbn; rewrite set_at_eq|]. split.
  { apply (spin_wait (Spin false (set_at (spin_at s) t SIdle)) t' false). cbn. by rewrite set_at_ne. }
  split; [by cbn; rewrite set_at_eq|]. split; [apply spin_lock_set; cbn; by rewrite set_at_eq|]. cbn. by rewrite set_at_eq.
Qed.
Print Assumptions C106_spinlock_handover.

(** ** shared_spinlock *)
Section shared.
Context (n : nat) (Hn : Z.of_nat n < WRITER).
Definition seen_inv (s : shared_state) : Prop := forall t view, shared_at s !! t = Some (LSpin view) -> (view < length (history s))%nat.
Lemma seen_step s s' : shared_step s s' -> seen_inv s -> seen_inv s'.
Proof.
  intros H I. assert (Hg : forall t pc, (forall v, pc = LSpin v -> (v < length (history s))%nat) -> seen_inv (goes s t pc)).
  { intros t pc Hpc t' v Hv. cbn in *. apply list_lookup_insert_Some in Hv as [(_ & Hv & _) | [_ Hv]]; [by apply Hpc|by eapply I]. }
  assert (Hw : forall x t pc, (forall v, pc = LSpin v -> (v <= length (history s))%nat) -> seen_inv (writes s x t pc)).
  { intros x t pc Hpc t' v Hv. cbn in *. rewrite app_length. cbn. apply list_lookup_insert_Some in Hv as [(_ & Hv & _) | [_ Hv]]; [apply Hpc in Hv; lia|]. apply I in Hv. lia. }
  destruct H as [s t pc E Hpc|s t E Hc|s t E|s t seen E|s t E Hc|s t E|s t E|s t E|s t view i x E Hi Hx|s t E|s t E|s t E].
  - apply Hg. by destruct Hpc as [-> | [-> | [-> | ->]]].
  - by apply Hw.
  - by apply Hg.
  - apply Hg. by destruct seen.
  - by apply Hw.
  - by apply Hg.
  - by apply Hw.
  - apply Hw. intros v [= <-]. done.
  - apply Hg. destruct (WRITER <=? x); [|done]. intros v [= <-]. by eapply lookup_lt_Some.
  - apply Hw. by destruct (current s <? WRITER).
  - by apply Hw.
  - by apply Hw.
Qed.
Lemma shared_reachable s : rtc shared_step (shared_initial n) s -> shared_inv n s /\ seen_inv s.
Proof.
  intros H. assert (I0 : shared_inv n (shared_initial n) /\ seen_inv (shared_initial n)).
  { split; [apply shared_initial_inv|]. intros t v Hv. cbn in Hv. by apply lookup_replicate in Hv as [? _]. }
  revert I0 H. generalize (shared_initial n). intros s0 I0 H. induction H as [|x y z Hxy _ IH]; [done|]. apply IH. destruct I0. split; [by eapply (shared_step_inv n Hn)|by eapply seen_step].
Qed.
End shared.
(** What keeps a writer out: a holder, a thread in lock_shared that has announced itself, or one
    about to take back its announcement in try_lock_shared. *)
Definition keeps_out (pc : shared_pc) : bool := match pc with LHold | LShared | LSpin _ | LUndo => true | _ => false end.
Lemma shares_zero l : shares l = 0 <-> forall t pc, l !! t = Some pc -> keeps_out pc = false.
Proof.
  split.
  - intros H t pc Hl. apply share_pos in Hl. rewrite H in Hl. destruct pc; cbn in Hl |- *; unfold WRITER in *; done || lia.
  - induction l as [|x l IH]; intros H; [done|]. change (share x + shares l = 0). rewrite IH by (intros t pc Hl; by apply (H (S t) pc)). specialize (H 0%nat x eq_refl). by destruct x.
Qed.
(** lock and try_lock can succeed exactly when nobody keeps the writer out. *)
Theorem C106_exclusive_free (threads : nat) s t : Z.of_nat threads < 2 ^ 31 - 1 -> rtc shared_step (shared_initial threads) s -> shared_at s !! t = Some LLock \/ shared_at s !! t = Some LTry ->
  ((forall t' pc, shared_at s !! t' = Some pc -> keeps_out pc = false) <-> exists s', shared_step s s' /\ shared_at s' !! t = Some LHold).
Proof.
  intros Hn H Ht. apply shared_reachable in H as [[I1 I2 I3 I4 I5 I6] _]; [|done]. rewrite <- shares_zero, <- I2. assert (Hlt : (t < length (shared_at s))%nat) by (destruct Ht as [Ht | Ht]; by eapply lookup_lt_Some). split.
  - intros Hc. destruct Ht as [Ht | Ht]; eexists; (split; [by constructor|]); cbn; by apply list_lookup_insert.
  - intros (s' & Hs & Hh). assert (Hm : forall u pc l, shared_at (Shared l (<[u := pc]> (shared_at s))) !! t = Some LHold -> pc = LHold).
    { intros u pc l Hu. cbn in Hu. apply list_lookup_insert_Some in Hu as [(_ & -> & _) | [_ Hu]]; [done|]. destruct Ht; congruence. }
    destruct Hs as [s u pc E Hpc|s u E Hc|s u E|s u seen E|s u E Hc|s u E|s u E|s u E|s u view i x E Hi Hx|s u E|s u E|s u E]; try done; apply Hm in Hh; try done.
    + by destruct Hpc as [-> | [-> | [-> | ->]]].
    + by destruct seen.
    + by destruct (WRITER <=? x).
    + by destruct (current s <? WRITER).
Qed.
Print Assumptions C106_exclusive_free.
(** While there is no exclusive holder, a thread in lock_shared or try_lock_shared gets the lock
    with its next access when that reads the current value. *)
Theorem C106_shared_free (threads : nat) s t pc : Z.of_nat threads < 2 ^ 31 - 1 -> rtc shared_step (shared_initial threads) s -> shared_at s !! t = Some pc -> (pc = LTryAdd \/ exists view, pc = LSpin view) ->
  (forall t', shared_at s !! t' <> Some LHold) -> exists s', shared_step s s' /\ shared_at s' !! t = Some LShared.
Proof.
  intros Hn H Ht Hpc Hno. apply shared_reachable in H as [I Hs]; [|done]. pose proof (reader_current threads Hn s I) as Hrc. destruct I as [I1 I2 I3 I4 I5 I6]. assert (Hlt : (t < length (shared_at s))%nat) by (by eapply lookup_lt_Some).
  assert (Hw : writers (shared_at s) = 0). { clear -Hno. induction (shared_at s) as [|x l IH]; [done|]. change (holds x + writers l = 0). rewrite IH by (intros t'; apply (Hno (S t'))). specialize (Hno 0%nat). by destruct x. }
  apply Hrc in Hw. destruct Hpc as [-> | [view ->]].
  - eexists. split; [by apply shared_try_add|]. cbn. rewrite list_lookup_insert by done. by rewrite (proj2 (Z.ltb_lt _ _) Hw).
  - apply Hs in Ht as Hv. destruct (last (history s)) as [x|] eqn:El; [|by apply last_None in El]. unfold current in Hw. rewrite El in Hw. cbn in Hw. rewrite last_lookup in El.
    eexists. split; [eapply (shared_spin s t view _ x Ht); [|exact El]; lia|]. cbn. rewrite list_lookup_insert by done. by rewrite (proj2 (Z.leb_gt _ _) Hw).
Qed.
Print Assumptions C106_shared_free.
(** When every thread has left, the counter is 0 again. *)
Theorem C106_all_left (threads : nat) s : Z.of_nat threads < 2 ^ 31 - 1 -> rtc shared_step (shared_initial threads) s -> (forall t pc, shared_at s !! t = Some pc -> pc = LIdle) -> current s = 0.
Proof. intros Hn H Hid. apply shared_reachable in H as [I _]; [|done]. rewrite (sh_current _ _ I). apply shares_zero. intros t pc Ht. by rewrite (Hid t pc Ht). Qed.
Print Assumptions C106_all_left.

(** A reader has failed while a writer held the lock, both have left, and the writer of another
    thread can then get it. *)
Example C106_nonvacuous : exists s, rtc shared_step (shared_initial 3) s /\ shared_at s = [LIdle; LIdle; LLock] /\ history s = [0; 2 ^ 31 - 1; 2 ^ 31; 1; 0].
Proof.
  eexists. split; [|cycle 1].
  - eapply rtc_l; [apply (shared_call _ 0 LLock); [reflexivity|tauto]|]. eapply rtc_l; [apply (shared_lock_ok _ 0); reflexivity|].
    eapply rtc_l; [apply (shared_call _ 1 LTryAdd); [reflexivity|tauto]|]. eapply rtc_l; [apply (shared_try_add _ 1); reflexivity|].
    eapply rtc_l; [apply (shared_unlock _ 0); reflexivity|]. eapply rtc_l; [apply (shared_undo _ 1); reflexivity|]. eapply rtc_l; [apply (shared_call _ 2 LLock); [reflexivity|tauto]|]. apply rtc_refl.
  - split; reflexivity.
Qed.
