(** C77: mutual exclusion of the spin locks. *)
From Coq Require Import ZArith Lia.
From stdpp Require Import list relations.
From Verif Require Import LockModel.
Local Open Scope Z_scope.

(** ** spinlock *)
(** While the flag is clear nobody holds the lock; while it is set exactly one thread does. *)
Definition spin_inv (s : spin_state) : Prop :=
  if flag s then exists t, forall t', spin_at s t' = SHold <-> t' = t else forall t, spin_at s t <> SHold.
Lemma set_at_eq {A} (f : nat -> A) t x : set_at f t x t = x.
Proof. unfold set_at. by rewrite decide_True. Qed.
Lemma set_at_ne {A} (f : nat -> A) t x t' : t' <> t -> set_at f t x t' = f t'.
Proof. intros H. unfold set_at. by rewrite decide_False. Qed.
Lemma spin_step_inv s s' : spin_step s s' -> spin_inv s -> spin_inv s'.
Proof.
  assert (Hmove : forall s t pc, spin_at s t <> SHold -> pc <> SHold -> spin_inv s -> spin_inv (Spin (flag s) (set_at (spin_at s) t pc))).
  { clear. intros s t pc Ht Hpc I. unfold spin_inv in *. cbn [flag spin_at]. destruct (flag s).
    - destruct I as [h I]. exists h. intros t'. destruct (decide (t' = t)) as [-> | Hn]; [rewrite set_at_eq, <- I; by split|by rewrite set_at_ne].
    - intros t'. destruct (decide (t' = t)) as [-> | Hn]; [by rewrite set_at_eq|by rewrite set_at_ne]. }
  assert (Htake : forall s t pc, spin_at s t <> SHold -> pc <> SHold -> spin_inv s -> spin_inv (Spin true (set_at (spin_at s) t (if flag s then pc else SHold)))).
  { intros s0 t pc Ht Hpc I. destruct (flag s0) eqn:Ef.
    - rewrite <- Ef. by apply Hmove.
    - unfold spin_inv in *. rewrite Ef in I. cbn [flag spin_at]. exists t. intros t'. destruct (decide (t' = t)) as [-> | Hn]; [by rewrite set_at_eq|]. rewrite set_at_ne by done. split; [intros H; by apply I in H|done]. }
  intros H I. destruct H as [s t E|s t E|s t E|s t seen E|s t seen E|s t E|s t E].
  - apply Hmove; [by rewrite E|done|done].
  - apply Hmove; [by rewrite E|done|done].
  - apply Htake; [by rewrite E|done|done].
  - apply Hmove; [by rewrite E|by destruct seen|done].
  - apply Hmove; [by rewrite E|by destruct seen|done].
  - apply Htake; [by rewrite E|done|done].
  - unfold spin_inv in *. cbn [flag spin_at]. destruct (flag s).
    + destruct I as [h I]. intros t'. destruct (decide (t' = t)) as [-> | Hn]; [by rewrite set_at_eq|]. rewrite set_at_ne by done. intros H. apply I in H. apply I in E. congruence.
    + by apply I in E.
Qed.
Theorem C77_spinlock s : rtc spin_step spin_initial s -> forall t t', spin_at s t = SHold -> spin_at s t' = SHold -> t = t'.
Proof.
  intros H. assert (I : spin_inv s). { revert H. assert (I0 : spin_inv spin_initial) by done. revert I0. generalize spin_initial. intros s0 I0 H. induction H; [done|]. by apply IHrtc, (spin_step_inv x y). }
  intros t t' Ht Ht'. unfold spin_inv in I. destruct (flag s); [|by apply I in Ht]. destruct I as [h I]. apply I in Ht, Ht'. congruence.
Qed.
Print Assumptions C77_spinlock.
(** A thread gets the lock while another waits for it. *)
Example C77_spinlock_nonvacuous : exists s, rtc spin_step spin_initial s /\ spin_at s 0%nat = SHold /\ spin_at s 1%nat = SWait.
Proof.
  eexists. split.
  - eapply rtc_l; [apply (spin_call_lock _ 0); reflexivity|]. eapply rtc_l; [apply (spin_call_lock _ 1); reflexivity|].
    eapply rtc_l; [apply (spin_lock_set _ 0); reflexivity|]. eapply rtc_l; [apply (spin_lock_set _ 1); reflexivity|]. apply rtc_refl.
  - split; reflexivity.
Qed.

(** ** shared_spinlock *)
(** What a thread has added to the counter. *)
Definition share (pc : shared_pc) : Z :=
  match pc with
  | LHold => WRITER
  | LSpin _ | LUndo | LShared => 1
  | _ => 0
  end.
Definition shares (l : list shared_pc) : Z := foldr (fun pc a => share pc + a) 0 l.
Definition holds (pc : shared_pc) : Z := match pc with LHold => 1 | _ => 0 end.
Definition writers (l : list shared_pc) : Z := foldr (fun pc a => holds pc + a) 0 l.
Lemma shares_bounds l : writers l * WRITER <= shares l <= writers l * WRITER + (Z.of_nat (length l) - writers l) /\ 0 <= writers l <= Z.of_nat (length l).
Proof. induction l as [|[] l IH]; cbn [shares writers foldr share holds length]; unfold shares, writers, WRITER in *; lia. Qed.
Lemma shares_insert l t pc pc' : l !! t = Some pc -> shares (<[t := pc']> l) = shares l - share pc + share pc'.
Proof. revert t. induction l as [|x l IH]; intros [|t] E; try done; cbn in E. - injection E as ->. unfold shares. cbn. lia. - change (share x + shares (<[t := pc']> l) = share x + shares l - share pc + share pc'). rewrite (IH t E). lia. Qed.
Lemma writers_insert l t pc pc' : l !! t = Some pc -> writers (<[t := pc']> l) = writers l - holds pc + holds pc'.
Proof. revert t. induction l as [|x l IH]; intros [|t] E; try done; cbn in E. - injection E as ->. unfold writers. cbn. lia. - change (holds x + writers (<[t := pc']> l) = holds x + writers l - holds pc + holds pc'). rewrite (IH t E). lia. Qed.
Lemma share_pos l t pc : l !! t = Some pc -> share pc <= shares l.
Proof.
  revert t. induction l as [|x l IH]; intros [|t] E; try done; cbn in E; unfold shares in *; cbn [foldr].
  - injection E as ->. assert (0 <= shares l); [|unfold shares in *; lia]. pose proof (shares_bounds l) as [? ?]. unfold WRITER in *. lia.
  - apply IH in E. assert (0 <= share x) by (destruct x; cbn; unfold WRITER; lia). lia.
Qed.
Lemma writer_excludes l t t' pc : writers l <= 1 -> l !! t = Some LHold -> l !! t' = Some pc -> t <> t' -> pc <> LHold.
Proof.
  intros Hw E E' Hn ->. pose proof (writers_insert l t LHold LIdle E) as H1; cbn [holds] in H1. pose proof (writers_insert (<[t := LIdle]> l) t' LHold LIdle) as H2.
  rewrite list_lookup_insert_ne in H2 by done. specialize (H2 E'); cbn [holds] in H2. pose proof (shares_bounds (<[t' := LIdle]> (<[t := LIdle]> l))) as [_ H3]. lia.
Qed.

Record shared_inv (n : nat) (s : shared_state) : Prop := SharedInv {
  sh_length : length (shared_at s) = n;
  sh_current : current s = shares (shared_at s);
  sh_writers : writers (shared_at s) <= 1;
  (* a shared holder and a writer do not coexist *)
  sh_excl : forall t, shared_at s !! t = Some LShared -> writers (shared_at s) = 0;
  (* a thread waiting for the shared lock: if there was no writer some time since its fetch_add there is none now *)
  sh_view : forall t view i x, shared_at s !! t = Some (LSpin view) -> (view <= i)%nat -> history s !! i = Some x -> x < WRITER -> writers (shared_at s) = 0;
  sh_nonempty : history s <> [] }.

Lemma current_snoc h x l : current (Shared (h ++ [x]) l) = x.
Proof. unfold current. cbn. by rewrite last_snoc. Qed.
Section shared.
Context (n : nat) (Hn : Z.of_nat n < WRITER).
Lemma reader_current s : shared_inv n s -> current s < WRITER <-> writers (shared_at s) = 0.
Proof. intros I. destruct I as [I1 I2 I3 I4 I5 I6]. pose proof (shares_bounds (shared_at s)) as [? ?]. assert (writers (shared_at s) = 0 \/ writers (shared_at s) = 1) as [Hw | Hw] by lia; rewrite Hw in *; unfold WRITER in *; lia. Qed.
Lemma no_overflow s : shared_inv n s -> 0 <= current s < 2 ^ 32 - 1.
Proof. intros [I1 I2 I3 I4 I5 I6]. pose proof (shares_bounds (shared_at s)) as [? ?]. unfold WRITER in *. nia. Qed.
(** A step that changes neither the counter nor what the thread holds. *)
Lemma goes_inv s t pc pc' : shared_inv n s -> shared_at s !! t = Some pc -> share pc = share pc' -> pc <> LHold -> pc' <> LHold ->
  (pc' = LShared -> writers (shared_at s) = 0) -> (forall v, pc' = LSpin v -> exists v', pc = LSpin v' /\ (v' <= v)%nat) -> shared_inv n (goes s t pc').
Proof.
  intros [I1 I2 I3 I4 I5 I6] E Hs Hw Hw' Hsh Hv. assert (Hlt : (t < length (shared_at s))%nat) by (by eapply lookup_lt_Some).
  assert (Hww : writers (<[t := pc']> (shared_at s)) = writers (shared_at s)). { rewrite (writers_insert _ _ _ _ E); cbn [holds]. destruct pc, pc'; try done; cbn [holds]; lia. }
  constructor; unfold goes; cbn [shared_at history].
  - by rewrite insert_length.
  - unfold current in *. cbn [history]. rewrite I2, (shares_insert _ _ _ _ E). lia.
  - lia.
  - intros t' Ht'. rewrite Hww. destruct (decide (t' = t)) as [-> | Hne]; [rewrite list_lookup_insert in Ht' by done; apply Hsh; congruence|]. rewrite list_lookup_insert_ne in Ht' by done. by eapply I4.
  - intros t' view i x Ht' Hi Hx Hlt'. rewrite Hww. destruct (decide (t' = t)) as [-> | Hne].
    + rewrite list_lookup_insert in Ht' by done. injection Ht' as ->. destruct (Hv view eq_refl) as (v' & -> & Hle). eapply (I5 t v' i x); [done|lia|done|done].
    + rewrite list_lookup_insert_ne in Ht' by done. by eapply I5.
  - done.
Qed.
(** A step that writes the new value of the counter, after which there is no writer or which
    keeps the writers. *)
Lemma writes_inv s t pc pc' x : shared_inv n s -> shared_at s !! t = Some pc -> x = shares (shared_at s) - share pc + share pc' -> 0 <= x < 2 ^ 32 -> 
  writers (<[t := pc']> (shared_at s)) <= 1 -> (writers (<[t := pc']> (shared_at s)) = 0 \/ writers (<[t := pc']> (shared_at s)) = writers (shared_at s) /\ pc' <> LShared) ->
  (forall v, pc' = LSpin v -> v = length (history s)) -> shared_inv n (writes s x t pc').
Proof.
  intros I E Hx Hr Hw1 Hw Hv. pose proof I as [I1 I2 I3 I4 I5 I6]. assert (Hlt : (t < length (shared_at s))%nat) by (by eapply lookup_lt_Some).
  assert (Hsh : shares (<[t := pc']> (shared_at s)) = x) by (rewrite (shares_insert _ _ _ _ E); lia).
  assert (Hx0 : x < WRITER -> writers (<[t := pc']> (shared_at s)) = 0).
  { intros Hlx. pose proof (shares_bounds (<[t := pc']> (shared_at s))) as [? ?]. rewrite Hsh in *. unfold WRITER in *. nia. }
  unfold writes. unfold wrap32. rewrite Z.mod_small by done. constructor; cbn [shared_at history].
  - by rewrite insert_length.
  - by rewrite current_snoc.
  - done.
  - intros t' Ht'. destruct (decide (t' = t)) as [-> | Hne].
    + rewrite list_lookup_insert in Ht' by done. injection Ht' as ->. destruct Hw as [Hw | [_ Hw]]; [done|done].
    + rewrite list_lookup_insert_ne in Ht' by done. destruct Hw as [Hw | [Hw _]]; [done|]. rewrite Hw. by eapply I4.
  - intros t' view i y Ht' Hi Hy Hly. destruct Hw as [Hw | [Hw Hne']]; [done|]. apply lookup_app_Some in Hy as [Hy | [Hge Hy]].
    + destruct (decide (t' = t)) as [-> | Hne].
      * rewrite list_lookup_insert in Ht' by done. injection Ht' as ->. pose proof (Hv view eq_refl). apply lookup_lt_Some in Hy. lia.
      * rewrite list_lookup_insert_ne in Ht' by done. rewrite Hw. by eapply I5.
    + apply list_lookup_singleton_Some in Hy as [_ <-]. by apply Hx0.
  - by destruct (history s).
Qed.
Lemma shared_step_inv s s' : shared_step s s' -> shared_inv n s -> shared_inv n s'.
Proof.
  assert (Htake : forall s t pc, shared_inv n s -> shared_at s !! t = Some pc -> share pc = 0 -> pc <> LHold -> current s = 0 -> shared_inv n (writes s WRITER t LHold)).
  { clear s s'. intros s t pc I E Hsh Hpc Hc. pose proof I as [I1 I2 I3 I4 I5 I6]. rewrite I2 in Hc. assert (Hlt : (t < length (shared_at s))%nat) by (by eapply lookup_lt_Some).
    assert (Hw0 : writers (shared_at s) = 0). { pose proof (shares_bounds (shared_at s)) as [? ?]. unfold WRITER in *. nia. }
    assert (Hw : writers (<[t := LHold]> (shared_at s)) = 1). { rewrite (writers_insert _ _ _ _ E); cbn [holds]. destruct pc; try done; cbn [holds]; lia. }
    assert (Hno : forall t' pc', t' <> t -> <[t := LHold]> (shared_at s) !! t' = Some pc' -> share pc' <= 0). { intros t' pc' Hne Ht'. rewrite list_lookup_insert_ne in Ht' by done. apply share_pos in Ht'. lia. }
    unfold writes, wrap32. rewrite Z.mod_small by (unfold WRITER; lia). constructor; cbn [shared_at history].
    - by rewrite insert_length.
    - rewrite current_snoc, (shares_insert _ _ _ _ E). cbn [share]. lia.
    - lia.
    - intros t' Ht'. destruct (decide (t' = t)) as [-> | Hne]; [rewrite list_lookup_insert in Ht' by done; done|]. pose proof (Hno _ _ Hne Ht') as Hx. cbn in Hx. lia.
    - intros t' view i y Ht' _ _ _. destruct (decide (t' = t)) as [-> | Hne]; [rewrite list_lookup_insert in Ht' by done; done|]. pose proof (Hno _ _ Hne Ht') as Hx. cbn in Hx. lia.
    - by destruct (history s). }
  intros H I. pose proof (no_overflow s I) as Hov. pose proof (reader_current s I) as Hrc. pose proof I as [I1 I2 I3 I4 I5 I6]. pose proof (shares_bounds (shared_at s)) as [Hb1 Hb2].
  assert (Hsub : forall t pc, shared_at s !! t = Some pc -> share pc <= current s) by (intros; rewrite I2; by eapply share_pos).
  destruct H as [s t pc E Hpc|s t E Hc|s t E|s t seen E|s t E Hc|s t E|s t E|s t E|s t view i x E Hi Hx|s t E|s t E|s t E].
  - eapply goes_inv; [done|exact E| | | | |]; destruct Hpc as [-> | [-> | [-> | ->]]]; done.
  - by eapply Htake.
  - eapply goes_inv; done.
  - eapply goes_inv; [done|exact E|..]; by destruct seen.
  - by eapply Htake.
  - eapply goes_inv; done.
  - apply (writes_inv s t LHold LIdle); [done|done|cbn; lia| | | |done].
    + specialize (Hsub t _ E). cbn in Hsub. lia.
    + rewrite (writers_insert _ _ _ _ E); cbn [holds]. lia.
    + left. rewrite (writers_insert _ _ _ _ E); cbn [holds]. assert (1 <= writers (shared_at s)); [|lia]. pose proof (writers_insert _ _ _ LIdle E) as H; cbn [holds] in H. pose proof (shares_bounds (<[t := LIdle]> (shared_at s))) as [_ ?]. lia.
  - apply (writes_inv s t LAdd (LSpin (length (history s)))); [done|done|cbn; lia|lia| | |by intros v [= <-]].
    + rewrite (writers_insert _ _ _ _ E); cbn [holds]. lia.
    + right. rewrite (writers_insert _ _ _ _ E). split; [cbn [holds]; lia|done].
  - destruct (Z.leb_spec WRITER x) as [Hle | Hlt].
    + eapply goes_inv; [done|exact E|done|done|done|done|]. intros v [= ->]. eauto.
    + eapply goes_inv; [done|exact E|done|done|done| |done]. intros _. by eapply I5.
  - apply (writes_inv s t LTryAdd); [done|done| |lia| | |].
    + destruct (current s <? WRITER); cbn; lia.
    + rewrite (writers_insert _ _ _ _ E); cbn [holds]. destruct (current s <? WRITER); cbn [holds]; lia.
    + destruct (Z.ltb_spec (current s) WRITER) as [Hl | Hg].
      * left. rewrite (writers_insert _ _ _ _ E). apply Hrc in Hl. cbn [holds]. lia.
      * right. rewrite (writers_insert _ _ _ _ E). split; [cbn [holds]; lia|done].
    + by destruct (current s <? WRITER).
  - apply (writes_inv s t LUndo LIdle); [done|done|cbn; lia| | | |done].
    + specialize (Hsub t _ E). cbn in Hsub. lia.
    + rewrite (writers_insert _ _ _ _ E); cbn [holds]. lia.
    + right. rewrite (writers_insert _ _ _ _ E). split; [cbn [holds]; lia|done].
  - apply (writes_inv s t LShared LIdle); [done|done|cbn; lia| | | |done].
    + specialize (Hsub t _ E). cbn in Hsub. lia.
    + rewrite (writers_insert _ _ _ _ E); cbn [holds]. lia.
    + right. rewrite (writers_insert _ _ _ _ E). split; [cbn [holds]; lia|done].
Qed.
Lemma shared_initial_inv : shared_inv n (shared_initial n).
Proof.
  assert (Hs : forall k, shares (replicate k LIdle) = 0 /\ writers (replicate k LIdle) = 0). { intros k. unfold shares, writers. induction k as [|k [IH1 IH2]]; [done|]. cbn. lia. }
  destruct (Hs n) as [H1 H2]. constructor; cbn [shared_initial shared_at history]; [by rewrite replicate_length|by rewrite H1|lia| | |done].
  - intros t Ht. apply lookup_replicate in Ht as [Ht _]. done.
  - intros t view i x Ht. apply lookup_replicate in Ht as [Ht _]. done.
Qed.
End shared.
(** An exclusive holder excludes every other holder. *)
Theorem C77_shared_spinlock (threads : nat) s : Z.of_nat threads < 2 ^ 31 - 1 -> rtc shared_step (shared_initial threads) s ->
  forall t t', shared_at s !! t = Some LHold -> (shared_at s !! t' = Some LHold \/ shared_at s !! t' = Some LShared) -> t = t'.
Proof.
  intros Hn H. change (2 ^ 31 - 1) with WRITER in Hn. assert (I : shared_inv threads s). { pose proof (shared_initial_inv threads) as I0. revert I0 H. generalize (shared_initial threads). intros s0 I0 H. induction H; [done|]. by apply IHrtc, (shared_step_inv threads Hn x y). }
  destruct I as [I1 I2 I3 I4 I5 I6]. intros t t' Ht Ht'. destruct (decide (t = t')) as [|Hne]; [done|]. exfalso. destruct Ht' as [Ht' | Ht'].
  - exact (writer_excludes _ t t' LHold I3 Ht Ht' Hne eq_refl).
  - pose proof (writers_insert _ _ _ LIdle Ht) as Hw; cbn [holds] in Hw. pose proof (shares_bounds (<[t := LIdle]> (shared_at s))) as [_ ?]. pose proof (I4 t' Ht'). lia.
Qed.
Print Assumptions C77_shared_spinlock.
(** Two threads hold the shared lock; a writer then fails to get it. *)
Example C77_shared_nonvacuous : (exists s, rtc shared_step (shared_initial 3) s /\ shared_at s = [LShared; LShared; LWait]) /\
  (exists s, rtc shared_step (shared_initial 3) s /\ shared_at s = [LHold; LSpin 2; LIdle]).
Proof.
  split; eexists; (split; [|cycle 1]).
  - eapply rtc_l; [apply (shared_call _ 0 LAdd); [reflexivity|tauto]|]. eapply rtc_l; [apply (shared_add _ 0); reflexivity|]. eapply rtc_l; [apply (shared_spin _ 0 1 1 1); [reflexivity|lia|reflexivity]|].
    eapply rtc_l; [apply (shared_call _ 1 LTryAdd); [reflexivity|tauto]|]. eapply rtc_l; [apply (shared_try_add _ 1); reflexivity|].
    eapply rtc_l; [apply (shared_call _ 2 LLock); [reflexivity|tauto]|]. eapply rtc_l; [apply (shared_lock_fail _ 2); reflexivity|]. apply rtc_refl.
  - reflexivity.
  - eapply rtc_l; [apply (shared_call _ 0 LLock); [reflexivity|tauto]|]. eapply rtc_l; [apply (shared_lock_ok _ 0); reflexivity|].
    eapply rtc_l; [apply (shared_call _ 1 LAdd); [reflexivity|tauto]|]. eapply rtc_l; [apply (shared_add _ 1); reflexivity|]. eapply rtc_l; [apply (shared_spin _ 1 2 2 (2 ^ 31)); [reflexivity|lia|reflexivity]|]. apply rtc_refl.
  - reflexivity.
Qed.

(** Any number of shared holders may coexist. *)
Theorem C77_shared_coexist (threads : nat) : Z.of_nat threads < 2 ^ 31 - 1 ->
  exists s, rtc shared_step (shared_initial threads) s /\ forall t, (t < threads)%nat -> shared_at s !! t = Some LShared.
Proof.
  intros Hn. assert (G : forall k m, (k + m = threads)%nat -> exists h, rtc shared_step (shared_initial threads) (Shared h (replicate k LShared ++ replicate m LIdle)) /\ last h = Some (Z.of_nat k)).
  { intros k. induction k as [|k IH]; intros m E.
    - exists [0]. cbn in E. subst m. split; [apply rtc_refl|done].
    - destruct (IH (S m)) as (h & Hr & Hl); [lia|]. exists (h ++ [Z.of_nat (S k)]). split; [|by rewrite last_snoc].
      eapply rtc_transitive; [exact Hr|]. clear Hr IH.
      assert (Hins : forall x y, <[k := y]> (replicate k LShared ++ x :: replicate m LIdle) = replicate k LShared ++ y :: replicate m LIdle).
      { intros x y. rewrite insert_app_r_alt by (rewrite replicate_length; lia). by rewrite replicate_length, Nat.sub_diag. }
      assert (Hget : forall x, (replicate k LShared ++ x :: replicate m LIdle) !! k = Some x).
      { intros x. rewrite lookup_app_r by (rewrite replicate_length; lia). by rewrite replicate_length, Nat.sub_diag. }
      replace (replicate (S k) LShared ++ replicate m LIdle) with (replicate k LShared ++ LShared :: replicate m LIdle) by (rewrite replicate_S_end, <- app_assoc; done).
      cbn [replicate]. eapply rtc_l; [apply (shared_call _ k LTryAdd); [apply Hget|tauto]|]. unfold goes. cbn [history shared_at]. rewrite Hins.
      assert (Hc : forall l, current (Shared h l) = Z.of_nat k) by (intros; unfold current; cbn; by rewrite Hl).
      eapply rtc_l; [apply (shared_try_add _ k); apply Hget|]. rewrite Hc. unfold writes. cbn [history shared_at]. rewrite Hins.
      rewrite (proj2 (Z.ltb_lt _ _)) by (unfold WRITER; lia). unfold wrap32. rewrite Z.mod_small by lia. replace (Z.of_nat k + 1) with (Z.of_nat (S k)) by lia. apply rtc_refl. }
  destruct (G threads 0%nat ltac:(lia)) as (h & Hr & _). eexists. split; [exact Hr|]. intros t Ht. cbn. rewrite app_nil_r. by apply lookup_replicate.
Qed.
Print Assumptions C77_shared_coexist.
