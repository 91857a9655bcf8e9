(** Invariants of the thread pool. *)
From Coq Require Import PArith Lia.
From stdpp Require Import list list_numbers sets relations.
From Verif Require Import PoolModel.

(** ** Splitting a range into blocks *)
Lemma cut_join items step rem i k blocks own : cut items step rem i k = (blocks, own) -> mjoin blocks ++ own = items /\ length blocks = k.
Proof.
  revert items i blocks own. induction k as [|k IH]; intros items i blocks own E; cbn [cut] in E; [by injection E as <- <-|].
  remember (step + (if decide (i < rem) then 1 else 0)) as j eqn:Ej. clear Ej.
  destruct (cut (drop j items) step rem (S i) k) as [bl ow] eqn:Ec. injection E as <- <-. apply IH in Ec as [E1 E2].
  change (mjoin (take j items :: bl)) with (take j items ++ mjoin bl). rewrite <- app_assoc, E1, take_drop. cbn [length]. by rewrite E2.
Qed.
Lemma task_count_workers w n bs : 1 < task_count w n bs -> w <> 0.
Proof. unfold task_count. destruct (decide (w = 0)) as [-> | Hn]; [|done]. lia. Qed.
Lemma split_join w bs es blocks own : split_loop w bs es = (blocks, own) -> mjoin blocks ++ own = zip (seq 0 (length es)) es /\ (blocks <> [] -> w <> 0).
Proof.
  unfold split_loop. intros E. apply cut_join in E as [E1 E2]. split; [done|]. intros Hb. apply (task_count_workers w (length es) bs).
  destruct blocks; [done|]. cbn in E2. lia.
Qed.
Lemma split_indices w bs es blocks own : split_loop w bs es = (blocks, own) -> (mjoin blocks ++ own).*1 = seq 0 (length es).
Proof. intros E. apply split_join in E as [-> _]. rewrite fst_zip; [done|]. rewrite seq_length. lia. Qed.

(** ** What frames and tasks hold of a loop *)
Definition frame_id (f : frame) : option nat := match f with FMain _ => None | FTask id _ | FLoop id _ _ _ => Some id end.
Definition loop_id (f : frame) : option nat := match f with FLoop id _ _ _ => Some id | _ => None end.
Definition blocks_of (f : frame) : list (list item) := match f with FLoop _ blocks _ _ => blocks | _ => [] end.
(** Unfinished tasks. *)
Definition frame_count (id : nat) (f : frame) : nat :=
  match f with
  | FMain _ => 0
  | FTask j _ => if decide (j = id) then 1 else 0
  | FLoop j blocks _ _ => if decide (j = id) then length blocks else 0
  end.
Definition task_tally (id : nat) (tk : task) : nat := if decide (task_loop tk = id) then 1 else 0.
(** Elements still to be done. *)
Definition frame_pend (id : nat) (f : frame) : list nat :=
  match f with
  | FMain _ => []
  | FTask j its => if decide (j = id) then its.*1 else []
  | FLoop j blocks own _ => if decide (j = id) then (mjoin blocks ++ own).*1 else []
  end.
Definition task_pend (id : nat) (tk : task) : list nat := if decide (task_loop tk = id) then (task_items tk).*1 else [].
Definition fcount (id : nat) (fr : list frame) : nat := sum_list_with (frame_count id) fr.
Definition tcount (id : nat) (tks : list task) : nat := sum_list_with (task_tally id) tks.
Definition done_of (id : nat) (log : list pool_event) : list nat :=
  omap (fun e => match e with Applied j i => if decide (j = id) then Some i else None | _ => None end) log.
Definition event_id (e : pool_event) : nat :=
  match e with Started id _ | Applied id _ | Threw id _ | Returned id | Rethrew id | Left id => id end.

Lemma sum_with_perm {A} (f : A -> nat) l l' : l ≡ₚ l' -> sum_list_with f l = sum_list_with f l'.
Proof. induction 1; cbn; lia. Qed.
Lemma done_app id l l' : done_of id (l ++ l') = done_of id l ++ done_of id l'.
Proof. apply omap_app. Qed.

Record core_inv (w : nat) (fr : list frame) (tks : list task) (lat : nat -> nat) (exc dea : nat -> bool) (next : nat) (log : list pool_event) : Prop := CoreInv {
  c_ids : forall f id, f ∈ fr -> frame_id f = Some id -> id < next;
  c_tids : forall tk, tk ∈ tks -> task_loop tk < next;
  c_unique : NoDup (omap loop_id fr);
  c_dead : forall id, id ∈ omap loop_id fr -> dea id = false;
  c_latch : forall id, dea id = false -> id < next -> lat id = fcount id fr + tcount id tks;
  c_blocks : forall f, f ∈ fr -> blocks_of f <> [] -> w <> 0;
  c_fresh : forall e, e ∈ log -> event_id e < next;
  c_deadnew : forall id, dea id = true -> id < next;
  c_exact : forall id n, Started id n ∈ log -> (forall i, Threw id i ∉ log) -> done_of id log ++ (fr ≫= frame_pend id) ++ (tks ≫= task_pend id) ≡ₚ seq 0 n;
  c_exc : forall id i, Threw id i ∈ log -> exc id = true \/ Left id ∈ log;
  c_over : forall id, Returned id ∈ log \/ Rethrew id ∈ log -> dea id = true /\ fcount id fr + tcount id tks = 0;
  c_normal : forall id i, Returned id ∈ log -> Threw id i ∉ log;
  c_left : forall id, Left id ∈ log -> dea id = true;
  c_deadlog : forall id, dea id = true -> Returned id ∈ log \/ Rethrew id ∈ log \/ Left id ∈ log;
  c_alive : forall id, id < next -> dea id = true \/ id ∈ omap loop_id fr }.

Lemma core_perm w fr fr' tks tks' lat exc dea next log : fr ≡ₚ fr' -> tks ≡ₚ tks' -> core_inv w fr tks lat exc dea next log -> core_inv w fr' tks' lat exc dea next log.
Proof.
  intros Hf Ht []. constructor; try done.
  - intros f id Hin. rewrite <- Hf in Hin. by eapply c_ids0.
  - intros tk Hin. rewrite <- Ht in Hin. by eapply c_tids0.
  - by rewrite <- Hf.
  - intros id Hin. rewrite <- Hf in Hin. by apply c_dead0.
  - intros id H1 H2. rewrite c_latch0 by done. unfold fcount, tcount. by rewrite (sum_with_perm _ _ _ Hf), (sum_with_perm _ _ _ Ht).
  - intros f Hin. rewrite <- Hf in Hin. by eapply c_blocks0.
  - intros id n H1 H2. rewrite <- Hf, <- Ht. by apply c_exact0.
  - intros id H. unfold fcount, tcount. rewrite <- (sum_with_perm _ _ _ Hf), <- (sum_with_perm _ _ _ Ht). by apply c_over0.
  - intros id H. rewrite <- Hf. by apply c_alive0.
Qed.

(** Frames that differ in nothing the invariant depends on. *)
Record same (f f' : frame) : Prop := Same {
  s_id : frame_id f' = frame_id f;
  s_loop : loop_id f' = loop_id f;
  s_blocks : blocks_of f' = blocks_of f;
  s_count : forall id, frame_count id f' = frame_count id f;
  s_pend : forall id, frame_pend id f' = frame_pend id f }.
Lemma same_refl f : same f f.
Proof. by constructor. Qed.
Lemma running_items f i b b' its : running f = (i, b) :: its -> same f (with_items f ((i, b') :: its)).
Proof. destruct f as [r|id r|id [|] own d]; cbn; intros E; try discriminate; subst; by constructor. Qed.
Lemma raise_same f : same f (raise f).
Proof. unfold raise. destruct (running f) as [|[i b] its] eqn:E; [apply same_refl|by eapply running_items]. Qed.
Lemma raise_top_same fs : Forall2 same fs (raise_top fs).
Proof. destruct fs as [|f fs]; [constructor|]. constructor; [apply raise_same|]. apply Forall_Forall2_diag, Forall_true. apply same_refl. Qed.
Lemma core_ext w fr fr' tks lat exc dea next log : Forall2 same fr fr' -> core_inv w fr tks lat exc dea next log -> core_inv w fr' tks lat exc dea next log.
Proof.
  intros HF [].
  assert (Hin : forall f', f' ∈ fr' -> exists f, f ∈ fr /\ same f f'). { intros f' H. apply elem_of_list_lookup in H as [i Hi]. destruct (Forall2_lookup_r _ _ _ _ _ HF Hi) as (f & Hf & Hs). exists f. split; [by eapply elem_of_list_lookup_2|done]. }
  assert (Ho : omap loop_id fr' = omap loop_id fr). { clear -HF. induction HF as [|f f' fr fr' Hs HF IH]; [done|]. destruct Hs. cbn. rewrite s_loop0. by destruct (loop_id f); rewrite IH. }
  assert (Hc : forall id, fcount id fr' = fcount id fr). { intros id. clear -HF. induction HF as [|f f' fr fr' Hs HF IH]; [done|]. destruct Hs. unfold fcount in *. cbn. by rewrite s_count0, IH. }
  assert (Hp : forall id, (fr' ≫= frame_pend id) = (fr ≫= frame_pend id)). { intros id. clear -HF. induction HF as [|f f' fr fr' Hs HF IH]; [done|]. destruct Hs. cbn. by rewrite s_pend0, IH. }
  constructor; try done.
  - intros f id H Hid. apply Hin in H as (f0 & H & []). apply (c_ids0 f0 id H). congruence.
  - by rewrite Ho.
  - intros id. rewrite Ho. apply c_dead0.
  - intros id. rewrite Hc. apply c_latch0.
  - intros f H Hb. apply Hin in H as (f0 & H & []). apply (c_blocks0 f0 H). congruence.
  - intros id n. rewrite Hp. apply c_exact0.
  - intros id. rewrite Hc. apply c_over0.
  - intros id. rewrite Ho. apply c_alive0.
Qed.
Lemma core_same w f f' fr tks lat exc dea next log : same f f' -> core_inv w (f :: fr) tks lat exc dea next log -> core_inv w (f' :: fr) tks lat exc dea next log.
Proof. intros H. apply core_ext. constructor; [done|]. apply Forall_Forall2_diag, Forall_true. apply same_refl. Qed.

Lemma upd_eq {A} (f : nat -> A) i x : upd f i x i = x.
Proof. unfold upd. by rewrite decide_True. Qed.
Lemma upd_ne {A} (f : nat -> A) i x j : j <> i -> upd f i x j = f j.
Proof. intros H. unfold upd. by rewrite decide_False. Qed.
Lemma fcount_cons id f fr : fcount id (f :: fr) = frame_count id f + fcount id fr.
Proof. done. Qed.
Lemma tcount_cons id f fr : tcount id (f :: fr) = task_tally id f + tcount id fr.
Proof. done. Qed.
Lemma pend_cons id f fr : (f :: fr) ≫= frame_pend id = frame_pend id f ++ (fr ≫= frame_pend id).
Proof. done. Qed.
Lemma tpend_cons id f fr : (f :: fr) ≫= task_pend id = task_pend id f ++ (fr ≫= task_pend id).
Proof. done. Qed.
(** Loops that do not occur. *)
Lemma absent_count id fr : (forall f j, f ∈ fr -> frame_id f = Some j -> j < id) -> fcount id fr = 0 /\ (fr ≫= frame_pend id) = [].
Proof.
  induction fr as [|f fr IH]; intros H; [done|]. destruct IH as [IH1 IH2]; [intros g j Hg; apply H; by right|].
  rewrite fcount_cons, pend_cons, IH1, IH2. assert (Hf := fun j => H f j (elem_of_list_here f fr)).
  destruct f as [r|k r|k bl own d]; cbn in *; [done| |]; specialize (Hf k eq_refl); rewrite !decide_False by lia; done.
Qed.
Lemma absent_tcount id tks : (forall tk, tk ∈ tks -> task_loop tk < id) -> tcount id tks = 0 /\ (tks ≫= task_pend id) = [].
Proof.
  induction tks as [|f fr IH]; intros H; [done|]. destruct IH as [IH1 IH2]; [intros g Hg; apply H; by right|].
  rewrite tcount_cons, tpend_cons, IH1, IH2. specialize (H f (elem_of_list_here f fr)). unfold task_tally, task_pend. rewrite !decide_False by lia. done.
Qed.
Lemma absent_done id log : (forall e, e ∈ log -> event_id e < id) -> done_of id log = [].
Proof.
  induction log as [|e log IH]; intros H; [done|]. change (e :: log) with ([e] ++ log). rewrite done_app, IH by (intros e' He'; apply H; by right).
  specialize (H e (elem_of_list_here e log)). destruct e; cbn in *; try done. rewrite decide_False by lia. done.
Qed.

(** ** The steps *)
Section steps.
Context (w : nat).
Implicit Types (fr : list frame) (tks : list task) (log : list pool_event).
Notation inv := (core_inv w).
Ltac absurd_ev H := let H' := fresh in destruct H as [H' | H']; [|exfalso; apply elem_of_list_singleton in H'; discriminate H'].

Lemma core_main fr tks lat exc dea next log r : inv fr tks lat exc dea next log -> inv (FMain r :: fr) tks lat exc dea next log.
Proof.
  intros []. constructor; try done.
  - intros f id [-> | H]%elem_of_cons Hid; [done|by eapply c_ids0].
  - intros f [-> | H]%elem_of_cons Hb; [done|by eapply c_blocks0].
Qed.
Lemma core_unmain fr tks lat exc dea next log r : inv (FMain r :: fr) tks lat exc dea next log -> inv fr tks lat exc dea next log.
Proof.
  intros []. constructor; try done.
  - intros f id H. apply c_ids0. by right.
  - intros f H. apply c_blocks0. by right.
Qed.
Lemma core_begin fr tks lat exc dea next log blocks own n : inv fr tks lat exc dea next log -> (mjoin blocks ++ own).*1 = seq 0 n -> (blocks <> [] -> w <> 0) ->
  inv (FLoop next blocks own false :: fr) tks (upd lat next (length blocks)) (upd exc next false) dea (S next) (log ++ [Started next n]).
Proof.
  intros [] Hidx Hb.
  assert (Hdn : dea next = false). { destruct (dea next) eqn:E; [|done]. apply c_deadnew0 in E. lia. }
  destruct (absent_count next fr) as [Hc Hp]; [intros f j Hf Hj; by eapply c_ids0|]. destruct (absent_tcount next tks) as [Htc Htp]; [done|]. pose proof (absent_done next log c_fresh0) as Hdo.
  assert (Hev : forall e, e ∈ log ++ [Started next n] -> e ∈ log \/ e = Started next n) by (intros e He; apply elem_of_app in He as [? | ?%elem_of_list_singleton]; auto).
  constructor.
  - intros f id [-> | H]%elem_of_cons Hid; [cbn in Hid; injection Hid as <-; lia|]. apply (c_ids0 f id H) in Hid. lia.
  - intros tk H. apply c_tids0 in H. lia.
  - cbn. apply NoDup_cons. split; [|done]. intros H. apply elem_of_list_omap in H as (f & Hf & Hl). assert (Hl' : frame_id f = Some next) by (by destruct f). apply (c_ids0 f next Hf) in Hl'. lia.
  - intros id H. cbn in H. apply elem_of_cons in H as [-> | H]; [done|by apply c_dead0].
  - intros id Hd Hlt. rewrite fcount_cons. cbn [frame_count]. destruct (decide (next = id)) as [<- | Hn]; [rewrite upd_eq, Hc, Htc; lia|]. rewrite upd_ne by done. cbn. apply c_latch0; [done|lia].
  - intros f [-> | H]%elem_of_cons; [done|by apply c_blocks0].
  - intros e He. apply Hev in He as [He | ->]; [apply c_fresh0 in He; lia|cbn; lia].
  - intros id Hd. apply c_deadnew0 in Hd. lia.
  - intros id m Hs Ht. rewrite done_app, pend_cons. cbn [done_of omap list_omap]. rewrite app_nil_r. cbn [frame_pend]. apply Hev in Hs as [Hs | [= -> ->]].
    + rewrite decide_False by (apply c_fresh0 in Hs; cbn in Hs; lia). cbn [app]. apply c_exact0; [done|]. intros i Hi. apply (Ht i), elem_of_app. by left.
    + rewrite decide_True by done. rewrite Hdo, Hp, Htp. rewrite <- Hidx, !app_nil_r. reflexivity.
  - intros id i H. apply Hev in H as [H | ?]; [|done]. rewrite upd_ne by (apply c_fresh0 in H; cbn in H; lia). destruct (c_exc0 id i H); [by left|right; apply elem_of_app; by left].
  - intros id H. assert (H' : Returned id ∈ log \/ Rethrew id ∈ log) by (destruct H as [H | H]; apply Hev in H as [H | ?]; auto; done).
    destruct (c_over0 id H') as [Hd Hz]. split; [done|]. rewrite fcount_cons. cbn [frame_count]. rewrite decide_False; [done|]. apply c_deadnew0 in Hd. lia.
  - intros id i H Ht. apply Hev in H as [H | ?]; [|done]. apply Hev in Ht as [Ht | ?]; [|done]. by apply (c_normal0 id i).
  - intros id H. apply Hev in H as [H | ?]; [|done]. by apply c_left0.
  - intros id Hd. rewrite !elem_of_app. destruct (c_deadlog0 id Hd) as [? | [? | ?]]; auto.
  - intros id Hlt. cbn. rewrite elem_of_cons. destruct (decide (id = next)) as [-> | Hn]; [auto|]. destruct (c_alive0 id) as [? | ?]; [lia|auto|auto].
Qed.
Lemma core_apply fr tks lat exc dea next log f i b its : running f = (i, b) :: its -> inv (f :: fr) tks lat exc dea next log ->
  inv (with_items f its :: fr) tks lat exc dea next (log ++ applied f i).
Proof.
  intros Hr [].
  assert (Hid : frame_id (with_items f its) = frame_id f /\ loop_id (with_items f its) = loop_id f /\ blocks_of (with_items f its) = blocks_of f /\ forall id, frame_count id (with_items f its) = frame_count id f).
  { by destruct f as [r|id r|id [|] own d]. }
  destruct Hid as (Hid & Hl & Hb & Hc).
  assert (Hpend : forall id, done_of id (applied f i) ++ frame_pend id (with_items f its) = frame_pend id f).
  { intros id. destruct f as [r|j r|j [|] own d]; cbn in Hr; try discriminate; subst; cbn; [done| |]; by destruct (decide (j = id)). }
  assert (Hev : forall e, e ∈ log ++ applied f i -> e ∈ log \/ (exists j, e = Applied j i /\ frame_id f = Some j)).
  { intros e He. apply elem_of_app in He as [He | He]; [by left|right]. destruct f; cbn in He; [by apply elem_of_nil in He| |]; apply elem_of_list_singleton in He as ->; eauto. }
  assert (Hin : forall e, e ∈ log -> e ∈ log ++ applied f i) by (intros; apply elem_of_app; by left).
  constructor; try done.
  - intros g id [-> | H]%elem_of_cons Hg; [apply (c_ids0 f id); [by left|congruence]|apply (c_ids0 g id); [by right|done]].
  - cbn in *. by rewrite Hl.
  - intros id. cbn in *. rewrite Hl. apply c_dead0.
  - intros id. rewrite fcount_cons, Hc. apply c_latch0.
  - intros g [-> | H]%elem_of_cons; [rewrite Hb; apply c_blocks0; by left|apply c_blocks0; by right].
  - intros e He. apply Hev in He as [He | (j & -> & Hj)]; [by apply c_fresh0|]. cbn. apply (c_ids0 f j); [by left|done].
  - intros id n Hs Ht. apply Hev in Hs as [Hs | (j & Hj & _)]; [|done]. rewrite <- (c_exact0 id n Hs) by (intros k Hk; by apply (Ht k), Hin).
    rewrite done_app, !pend_cons, <- (Hpend id). rewrite <- !app_assoc. done.
  - intros id k H. apply Hev in H as [H | (j & Hj & _)]; [|done]. destruct (c_exc0 id k H); auto.
  - intros id H. rewrite fcount_cons, Hc. apply c_over0. destruct H as [H | H]; apply Hev in H as [H | (j & Hj & _)]; auto; done.
  - intros id k H Ht. apply Hev in H as [H | (j & Hj & _)]; [|done]. apply Hev in Ht as [Ht | (j & Hj & _)]; [|done]. by apply (c_normal0 id k).
  - intros id H. apply Hev in H as [H | (j & Hj & _)]; [|done]. by apply c_left0.
  - intros id Hd. destruct (c_deadlog0 id Hd) as [? | [? | ?]]; auto.
  - intros id. cbn in *. rewrite Hl. apply c_alive0.
Qed.
Lemma core_throw_task fr tks lat exc dea next log id i its its' : dea id = false -> inv (FTask id its :: fr) tks lat exc dea next log ->
  inv (FTask id its' :: fr) tks lat (upd exc id true) dea next (log ++ [Threw id i]).
Proof.
  intros Hd [].
  assert (Hev : forall e, e ∈ log ++ [Threw id i] -> e ∈ log \/ e = Threw id i) by (intros e He; apply elem_of_app in He as [? | ?%elem_of_list_singleton]; auto).
  assert (Hin : forall e, e ∈ log -> e ∈ log ++ [Threw id i]) by (intros; apply elem_of_app; by left).
  constructor; try done.
  - intros g j [-> | H]%elem_of_cons Hg; [apply (c_ids0 (FTask id its) j); [by left|done]|apply (c_ids0 g j); [by right|done]].
  - intros g [-> | H]%elem_of_cons; [done|apply c_blocks0; by right].
  - intros e He. apply Hev in He as [He | ->]; [by apply c_fresh0|]. cbn. apply (c_ids0 (FTask id its) id); [by left|done].
  - intros j n Hs Ht. apply Hev in Hs as [Hs | ?]; [|done]. rewrite <- (c_exact0 j n Hs) by (intros k Hk; by apply (Ht k), Hin).
    assert (Hj : j <> id). { intros ->. apply (Ht i), elem_of_app. right. by apply elem_of_list_singleton. }
    rewrite done_app, !pend_cons. cbn. rewrite !decide_False by done. by rewrite app_nil_r.
  - intros j k H. destruct (decide (j = id)) as [-> | Hn]; [left; apply upd_eq|]. rewrite upd_ne by done. apply Hev in H as [H | ?]; [|congruence]. destruct (c_exc0 j k H); auto.
  - intros j H. apply c_over0. destruct H as [H | H]; apply Hev in H as [H | ?]; auto; done.
  - intros j k H Ht. apply Hev in H as [H | ?]; [|done]. apply Hev in Ht as [Ht | [= -> ->]]; [by apply (c_normal0 j k)|]. destruct (c_over0 id) as [Hd' _]; [by left|congruence].
  - intros j H. apply Hev in H as [H | ?]; [|done]. by apply c_left0.
  - intros j Hj. destruct (c_deadlog0 j Hj) as [? | [? | ?]]; auto.
Qed.
(** execute_loop is left by an exception of its own block. *)
Lemma core_throw_own fr tks lat exc dea next log id i own d : inv (FLoop id [] own d :: fr) tks lat exc dea next log ->
  inv fr tks lat exc (upd dea id true) next (log ++ [Threw id i; Left id]).
Proof.
  intros []. assert (Hd : dea id = false) by (apply c_dead0; cbn; by left). cbn in c_unique0. apply NoDup_cons in c_unique0 as [Hnin Hnd].
  assert (Hlt : id < next) by (apply (c_ids0 (FLoop id [] own d) id); [by left|done]).
  assert (Hev : forall e, e ∈ log ++ [Threw id i; Left id] -> e ∈ log \/ e = Threw id i \/ e = Left id). { intros e He. apply elem_of_app in He as [? | He]; [by left|]. apply elem_of_cons in He as [-> | He%elem_of_list_singleton]; auto. }
  assert (Hin : forall e, e ∈ log -> e ∈ log ++ [Threw id i; Left id]) by (intros; apply elem_of_app; by left).
  assert (Hleft : Left id ∈ log ++ [Threw id i; Left id]) by (apply elem_of_app; right; right; by left).
  assert (Hno : forall e, e = Returned id \/ e = Rethrew id -> e ∉ log). { intros e He Hlog. destruct (c_over0 id) as [H _]; [destruct He as [-> | ->]; auto|congruence]. }
  constructor; try done.
  - intros g j H. apply c_ids0. by right.
  - intros j H. rewrite upd_ne by (intros ->; done). apply c_dead0. cbn. by right.
  - intros j Hj. destruct (decide (j = id)) as [-> | Hn]; [by rewrite upd_eq in Hj|]. rewrite upd_ne in Hj by done. intros Hl. rewrite (c_latch0 j Hj Hl), fcount_cons. cbn. by rewrite decide_False.
  - intros g H. apply c_blocks0. by right.
  - intros e He. apply Hev in He as [He | [-> | ->]]; [by apply c_fresh0|done|done].
  - intros j Hj. destruct (decide (j = id)) as [-> | Hn]; [done|]. rewrite upd_ne in Hj by done. by apply c_deadnew0.
  - intros j n Hs Ht. apply Hev in Hs as [Hs | [? | ?]]; [|done|done]. rewrite <- (c_exact0 j n Hs) by (intros k Hk; by apply (Ht k), Hin).
    assert (Hj : j <> id). { intros ->. apply (Ht i), elem_of_app. right. by left. }
    rewrite done_app, !pend_cons. cbn. rewrite !decide_False by done. by rewrite app_nil_r.
  - intros j k H. apply Hev in H as [H | [[= -> ->] | ?]]; [|by right|done]. destruct (c_exc0 j k H); auto.
  - intros j H. assert (H' : Returned j ∈ log \/ Rethrew j ∈ log) by (destruct H as [H | H]; apply Hev in H as [H | [? | ?]]; auto; done).
    destruct (c_over0 j H') as [Hj Hz]. assert (j <> id) by congruence. rewrite upd_ne by done. split; [done|]. rewrite fcount_cons in Hz. lia.
  - intros j k H Ht. apply Hev in H as [H | [? | ?]]; [|done|done]. apply Hev in Ht as [Ht | [[= -> ->] | ?]]; [by apply (c_normal0 j k)| |done]. by apply (Hno (Returned id)); [left|].
  - intros j H. destruct (decide (j = id)) as [-> | Hn]; [apply upd_eq|]. rewrite upd_ne by done. apply Hev in H as [H | [? | [= ->]]]; [by apply c_left0|done|done].
  - intros j Hj. destruct (decide (j = id)) as [-> | Hn]; [by right; right|]. rewrite upd_ne in Hj by done. destruct (c_deadlog0 j Hj) as [? | [? | ?]]; auto.
  - intros j Hj. destruct (decide (j = id)) as [-> | Hn]; [left; apply upd_eq|]. rewrite upd_ne by done. destruct (c_alive0 j Hj) as [? | Hx]; [by left|]. cbn in Hx. apply elem_of_cons in Hx as [? | Hx]; [done|by right].
Qed.
Lemma core_submit fr tks lat exc dea next log id b blocks own d : inv (FLoop id (b :: blocks) own d :: fr) tks lat exc dea next log ->
  inv (FLoop id blocks own d :: fr) (Task id b :: tks) lat exc dea next log.
Proof.
  intros [].
  assert (Hsum : forall j, fcount j (FLoop id blocks own d :: fr) + tcount j (Task id b :: tks) = fcount j (FLoop id (b :: blocks) own d :: fr) + tcount j tks).
  { intros j. rewrite !fcount_cons, tcount_cons. unfold task_tally. cbn. destruct (decide (id = j)); lia. }
  constructor; try done.
  - intros g j [-> | H]%elem_of_cons Hg; [apply (c_ids0 (FLoop id (b :: blocks) own d) j); [by left|done]|apply (c_ids0 g j); [by right|done]].
  - intros tk [-> | H]%elem_of_cons; [apply (c_ids0 (FLoop id (b :: blocks) own d) id); [by left|done]|by apply c_tids0].
  - intros j. rewrite Hsum. apply c_latch0.
  - intros g [-> | H]%elem_of_cons Hb; [apply (c_blocks0 (FLoop id (b :: blocks) own d)); [by left|done]|apply (c_blocks0 g); [by right|done]].
  - intros j n Hs Ht. rewrite <- (c_exact0 j n Hs Ht). rewrite !pend_cons, tpend_cons. unfold task_pend. cbn. destruct (decide (id = j)); [|done].
    change (mjoin (b :: blocks)) with (b ++ mjoin blocks). rewrite !fmap_app. apply Permutation_app_head. rewrite <- !app_assoc.
    rewrite (Permutation_app_swap_app (fr ≫= _) b.*1), (Permutation_app_swap_app own.*1), (Permutation_app_swap_app (mjoin blocks).*1). done.
  - intros j. rewrite Hsum. apply c_over0.
Qed.
Lemma core_take fr tks lat exc dea next log id b : inv fr (Task id b :: tks) lat exc dea next log -> inv (FTask id b :: fr) tks lat exc dea next log.
Proof.
  intros [].
  assert (Hsum : forall j, fcount j (FTask id b :: fr) + tcount j tks = fcount j fr + tcount j (Task id b :: tks)).
  { intros j. rewrite !fcount_cons, tcount_cons. unfold task_tally. cbn. destruct (decide (id = j)); lia. }
  constructor; try done.
  - intros g j [-> | H]%elem_of_cons Hg; [|by apply (c_ids0 g j)]. cbn in Hg. injection Hg as <-. apply (c_tids0 (Task id b)). by left.
  - intros tk H. apply c_tids0. by right.
  - intros j. rewrite Hsum. apply c_latch0.
  - intros g [-> | H]%elem_of_cons; [done|by apply c_blocks0].
  - intros j n Hs Ht. rewrite <- (c_exact0 j n Hs Ht). rewrite !pend_cons, tpend_cons. unfold task_pend. cbn. apply Permutation_app_head. rewrite <- !app_assoc. by rewrite (Permutation_app_swap_app (fr ≫= _)).
  - intros j. rewrite Hsum. apply c_over0.
Qed.
Lemma core_finish fr tks lat exc dea next log id : dea id = false -> inv (FTask id [] :: fr) tks lat exc dea next log -> inv fr tks (upd lat id (lat id - 1)) exc dea next log.
Proof.
  intros Hd []. assert (Hlt : id < next) by (apply (c_ids0 (FTask id []) id); [by left|done]). constructor; try done.
  - intros g j H. apply c_ids0. by right.
  - intros j Hj Hl. specialize (c_latch0 j Hj Hl). rewrite fcount_cons in c_latch0. cbn in c_latch0. destruct (decide (j = id)) as [-> | Hn].
    + rewrite upd_eq. rewrite decide_True in c_latch0 by done. lia.
    + rewrite upd_ne by done. rewrite decide_False in c_latch0 by done. done.
  - intros g H. apply c_blocks0. by right.
  - intros j n Hs Ht. rewrite <- (c_exact0 j n Hs Ht). rewrite pend_cons. cbn. by destruct (decide (id = j)).
  - intros j H. destruct (c_over0 j H) as [H1 H2]. split; [done|]. rewrite fcount_cons in H2. lia.
Qed.
(** execute_loop ends with the latch at zero. *)
Lemma core_end fr tks lat exc dea next log id d e : lat id = 0 -> (e = Returned id /\ exc id = false \/ e = Rethrew id) ->
  inv (FLoop id [] [] d :: fr) tks lat exc dea next log -> inv fr tks lat exc (upd dea id true) next (log ++ [e]).
Proof.
  intros Hl He []. assert (Hd : dea id = false) by (apply c_dead0; cbn; by left). cbn in c_unique0. apply NoDup_cons in c_unique0 as [Hnin Hnd].
  assert (Hlt : id < next) by (apply (c_ids0 (FLoop id [] [] d) id); [by left|done]).
  assert (Hid : event_id e = id) by (by destruct He as [[-> _] | ->]).
  assert (Hev : forall e', e' ∈ log ++ [e] -> e' ∈ log \/ e' = e) by (intros e' He'; apply elem_of_app in He' as [? | ?%elem_of_list_singleton]; auto).
  assert (Hin : forall e', e' ∈ log -> e' ∈ log ++ [e]) by (intros; apply elem_of_app; by left).
  assert (Hine : e ∈ log ++ [e]) by (apply elem_of_app; right; by apply elem_of_list_singleton).
  constructor; try done.
  - intros g j H. apply c_ids0. by right.
  - intros j H. rewrite upd_ne by (intros ->; done). apply c_dead0. cbn. by right.
  - intros j Hj. destruct (decide (j = id)) as [-> | Hn]; [by rewrite upd_eq in Hj|]. rewrite upd_ne in Hj by done. intros Hj'. rewrite (c_latch0 j Hj Hj'), fcount_cons. cbn. by rewrite decide_False.
  - intros g H. apply c_blocks0. by right.
  - intros e' He'. apply Hev in He' as [He' | ->]; [by apply c_fresh0|by rewrite Hid].
  - intros j Hj. destruct (decide (j = id)) as [-> | Hn]; [done|]. rewrite upd_ne in Hj by done. by apply c_deadnew0.
  - intros j n Hs Ht. apply Hev in Hs as [Hs | Hs]; [|by destruct He as [[-> _] | ->]]. rewrite <- (c_exact0 j n Hs) by (intros k Hk; by apply (Ht k), Hin).
    rewrite done_app, !pend_cons. replace (done_of j [e]) with (@nil nat) by (by destruct He as [[-> _] | ->]). rewrite app_nil_r. cbn. by destruct (decide (id = j)).
  - intros j k H. apply Hev in H as [H | H]; [|by destruct He as [[-> _] | ->]]. destruct (c_exc0 j k H); auto.
  - intros j H. destruct (decide (j = id)) as [-> | Hn].
    + rewrite upd_eq. split; [done|]. pose proof (c_latch0 id Hd Hlt) as Hla. rewrite Hl, fcount_cons in Hla. lia.
    + rewrite upd_ne by done. assert (H' : Returned j ∈ log \/ Rethrew j ∈ log). { destruct H as [H | H]; apply Hev in H as [H | H]; auto; destruct He as [[-> _] | ->]; congruence. }
      destruct (c_over0 j H') as [Hj Hz]. split; [done|]. rewrite fcount_cons in Hz. lia.
  - intros j k H Ht. apply Hev in Ht as [Ht | Ht]; [|by destruct He as [[-> _] | ->]]. apply Hev in H as [H | H]; [by apply (c_normal0 j k)|].
    destruct He as [[-> Hex] | ->]; [|done]. injection H as ->. destruct (c_exc0 id k Ht) as [? | HL]; [congruence|]. apply c_left0 in HL. congruence.
  - intros j H. apply Hev in H as [H | H]; [|by destruct He as [[-> _] | ->]]. destruct (decide (j = id)) as [-> | Hn]; [apply upd_eq|]. rewrite upd_ne by done. by apply c_left0.
  - intros j Hj. destruct (decide (j = id)) as [-> | Hn].
    + destruct He as [[-> _] | ->]; auto.
    + rewrite upd_ne in Hj by done. destruct (c_deadlog0 j Hj) as [? | [? | ?]]; auto.
  - intros j Hj. destruct (decide (j = id)) as [-> | Hn]; [left; apply upd_eq|]. rewrite upd_ne by done. destruct (c_alive0 j Hj) as [? | Hx]; [by left|]. cbn in Hx. apply elem_of_cons in Hx as [? | Hx]; [done|by right].
Qed.
End steps.

(** ** The whole state *)
Lemma join_insert {A} (ls : list (list A)) t l : ls !! t = Some l -> exists R, mjoin ls ≡ₚ l ++ R /\ forall l', mjoin (<[t := l']> ls) ≡ₚ l' ++ R.
Proof.
  revert t. induction ls as [|x ls IH]; intros [|t] E; try done; cbn in E.
  - injection E as ->. exists (mjoin ls). split; [done|]. intros l'. done.
  - destruct (IH t E) as (R & H1 & H2). exists (x ++ R). split.
    + change (mjoin (x :: ls)) with (x ++ mjoin ls). rewrite H1. by rewrite Permutation_app_swap_app.
    + intros l'. change (mjoin (<[S t := l']> (x :: ls))) with (x ++ mjoin (<[t := l']> ls)). rewrite H2. by rewrite Permutation_app_swap_app.
Qed.
(** In a stack the loops above are younger than everything below them, and only the top frame has
    blocks to submit. *)
Fixpoint ordered (st : list frame) : Prop :=
  match st with
  | [] => True
  | FLoop id _ _ _ :: fs => (forall g j, g ∈ fs -> frame_id g = Some j -> j < id) /\ ordered fs
  | _ :: fs => ordered fs
  end.
Definition lower (st : list frame) : Prop := match st with f :: fs => forall g, g ∈ fs -> blocks_of g = [] | [] => True end.
Definition core (s : pool) : Prop := core_inv (length (queues s)) (mjoin (stacks s)) (mjoin (queues s)) (latches s) (excs s) (dead s) (next_id s) (plog s).
Record pool_inv (s : pool) : Prop := PoolInv {
  p_core : core s;
  p_order : forall t st, stacks s !! t = Some st -> ordered st /\ lower st;
  p_workers : length (queues s) <= length (stacks s);
  p_undefined : undefined s = true -> exists id, Left id ∈ plog s }.

Lemma ordered_same fs fs' : Forall2 same fs fs' -> ordered fs -> ordered fs'.
Proof.
  induction 1 as [|f f' fs fs' Hs HF IH]; [done|]. intros Ho. destruct Hs.
  assert (Hf : ordered fs) by (by destruct f; cbn in Ho; try apply Ho). specialize (IH Hf).
  destruct f' as [r|id r|id bl own d]; [done|done|]. destruct f as [r0|id0 r0|id0 bl0 own0 d0]; try discriminate. cbn in s_loop0. injection s_loop0 as <-. cbn in Ho |- *. destruct Ho as [Ho _]. split; [|done].
  intros g j Hg Hj. apply elem_of_list_lookup in Hg as [k Hk]. destruct (Forall2_lookup_r _ _ _ _ _ HF Hk) as (g0 & Hg0 & []). apply (Ho g0 j); [by eapply elem_of_list_lookup_2|congruence].
Qed.
Lemma ordered_tail f fs : ordered (f :: fs) -> ordered fs.
Proof. by destruct f; cbn; try intros [? ?]. Qed.
Lemma lower_same fs fs' : Forall2 same fs fs' -> (forall g, g ∈ fs -> blocks_of g = []) -> forall g, g ∈ fs' -> blocks_of g = [].
Proof.
  intros HF H g Hg. apply elem_of_list_lookup in Hg as [k Hk]. destruct (Forall2_lookup_r _ _ _ _ _ HF Hk) as (g0 & Hg0 & []). rewrite s_blocks0. apply H. by eapply elem_of_list_lookup_2.
Qed.
Lemma lower_tail f fs : lower (f :: fs) -> lower fs.
Proof. destruct fs as [|g fs]; [done|]. intros H g' Hg'. apply H. by right. Qed.
Lemma order_insert (stk : list (list frame)) t st : (forall t st, stk !! t = Some st -> ordered st /\ lower st) -> ordered st -> lower st ->
  forall t' st', <[t := st]> stk !! t' = Some st' -> ordered st' /\ lower st'.
Proof. intros H H1 H2 t' st' E. apply list_lookup_insert_Some in E as [(-> & <- & _) | [_ E]]; [done|by eapply H]. Qed.
Lemma running_blocks f x its : running f = x :: its -> blocks_of f = [].
Proof. by destruct f as [r|id r|id [|] own d]. Qed.
Lemma ordered_ids f f' fs : frame_id f' = frame_id f -> loop_id f' = loop_id f -> ordered (f :: fs) -> ordered (f' :: fs).
Proof. destruct f, f'; cbn; try done; intros [=]; subst; done. Qed.

Lemma pool_step_inv t p s s' : pool_step t p s s' -> pool_inv s -> pool_inv s'.
Proof.
  intros H I. pose proof I as [Ic Io Iw Iu]. unfold core in Ic.
  assert (Hframe : forall (st : list frame), stacks s !! t = Some st -> exists R, mjoin (stacks s) ≡ₚ st ++ R /\ forall st', mjoin (<[t := st']> (stacks s)) ≡ₚ st' ++ R) by (intros; by apply join_insert).
  destruct H as [s f fs i th bs ls its Hu E Ha Hr|s f fs i th bs e es ls its blocks own Hu E Ha Hr Hsp|s f fs i its Hu E Ha Hr|s id i its fs Hu E Hd|s id i its d fs Hu E|s i its fs Hu E|s fs Hu E
    |s id b blocks own d fs w q Hu E Hq|s tk q Hu E Hq|s id fs tk q Hu E Hq|s id fs Hu E Hq|s id fs q Hu E Hq Hl|s id d fs Hu E Hq Hl Hx|s id d fs Hu E Hq Hl Hx|s id fs Hu E Hd|s id its fs Hu E Hd|s st Hu E Hb|s Hu];
    try (destruct (Hframe _ E) as (R & HR & HR'); destruct (Io _ _ E) as [Eo El]); try done.
  - (* empty nested loop *) pose proof (running_items f i _ (Body th ls) its Hr) as Hs. constructor; cbn [set_stack queues stacks latches excs dead next_id plog undefined]; [| |by rewrite insert_length|done].
    + unfold core. cbn. eapply core_perm; [symmetry; apply HR'|done|]. eapply core_same; [exact Hs|]. eapply core_perm; [exact HR|done|done].
    + apply order_insert; [done| |done]. destruct Hs. by eapply ordered_ids.
  - (* nested loop *) pose proof (running_items f i _ (Body th ls) its Hr) as Hs. constructor; cbn [set_stack queues stacks latches excs dead next_id plog undefined]; [| |by rewrite insert_length|congruence].
    + unfold core. cbn [queues stacks latches excs dead next_id plog]. eapply core_perm; [symmetry; apply HR'|done|]. apply core_begin.
      * eapply core_same; [exact Hs|]. eapply core_perm; [exact HR|done|done].
      * by eapply split_indices.
      * by eapply split_join.
    + apply order_insert; [done| |].
      * split.
        -- intros g j Hg Hj. destruct Ic. apply elem_of_cons in Hg as [-> | Hg].
           ++ apply (c_ids0 f j); [rewrite HR; by left|]. destruct Hs. congruence.
           ++ apply (c_ids0 g j); [rewrite HR; right; apply elem_of_app; by left|done].
        -- destruct Hs. by eapply ordered_ids.
      * intros g [-> | Hg]%elem_of_cons; [destruct Hs; rewrite s_blocks0; by eapply running_blocks|by apply El].
  - (* applied *) constructor; cbn [set_stack log_event queues stacks latches excs dead next_id plog undefined]; [| |by rewrite insert_length|congruence].
    + unfold core. cbn. eapply core_perm; [symmetry; apply HR'|done|]. cbn [app]. eapply core_apply; [exact Hr|]. eapply core_perm; [exact HR|done|done].
    + apply order_insert; [done| |done]. eapply ordered_ids; [| |exact Eo]; by destruct f.
  - (* throw in task *) constructor; cbn [set_stack queues stacks latches excs dead next_id plog undefined]; [| |by rewrite insert_length|congruence].
    + unfold core. cbn. eapply core_perm; [symmetry; apply HR'|done|]. cbn [app]. eapply core_throw_task; [done|]. eapply core_perm; [exact HR|done|done].
    + by apply order_insert.
  - (* throw in own block *) constructor; cbn [set_stack queues stacks latches excs dead next_id plog undefined]; [| |by rewrite insert_length|congruence].
    + unfold core. cbn. eapply core_perm; [symmetry; apply HR'|done|]. eapply core_ext; [apply Forall2_app; [apply raise_top_same|apply Forall_Forall2_diag, Forall_true, same_refl]|].
      eapply core_throw_own. eapply core_perm; [exact HR|done|done].
    + apply order_insert; [done| |].
      * eapply ordered_same; [apply raise_top_same|]. by eapply ordered_tail.
      * pose proof (lower_tail _ _ El) as El'. destruct fs as [|g fs]; [done|exact El'].
  - (* throw in main *) constructor; cbn [set_stack queues stacks latches excs dead next_id plog undefined]; [| |by rewrite insert_length|congruence].
    + unfold core. cbn. eapply core_perm; [symmetry; apply HR'|done|]. cbn [app]. eapply core_main, core_unmain. eapply core_perm; [exact HR|done|done].
    + by apply order_insert.
  - (* end of main *) constructor; cbn [set_stack queues stacks latches excs dead next_id plog undefined]; [| |by rewrite insert_length|congruence].
    + unfold core. cbn. eapply core_perm; [symmetry; apply HR'|done|]. eapply core_unmain. eapply core_perm; [exact HR|done|done].
    + apply order_insert; [done|done|by eapply lower_tail].
  - (* submit *) destruct (join_insert _ _ _ Hq) as (Q & HQ & HQ'). constructor; cbn [set_stack queues stacks latches excs dead next_id plog undefined]; [| |by rewrite !insert_length|congruence].
    + unfold core. cbn [queues stacks latches excs dead next_id plog]. rewrite insert_length. eapply core_perm; [symmetry; apply HR'| |].
      * symmetry. rewrite HQ'. rewrite <- app_assoc. rewrite Permutation_app_swap_app. reflexivity.
      * cbn [app]. apply core_submit. eapply core_perm; [exact HR| |exact Ic]. exact HQ.
    + by apply order_insert.
  - (* take *) destruct (join_insert _ _ _ Hq) as (Q & HQ & HQ'). constructor; cbn [set_stack queues stacks latches excs dead next_id plog undefined]; [| |by rewrite !insert_length|congruence].
    + unfold core. cbn [queues stacks latches excs dead next_id plog]. rewrite insert_length. eapply core_perm; [symmetry; apply HR'|symmetry; apply HQ'|]. cbn [app]. apply core_take. eapply core_perm; [exact HR|etransitivity; [exact HQ|by destruct tk]|done].
    + apply order_insert; [done|done|]. intros g Hg. by apply elem_of_nil in Hg.
  - (* help *) destruct (join_insert _ _ _ Hq) as (Q & HQ & HQ'). constructor; cbn [set_stack queues stacks latches excs dead next_id plog undefined]; [| |by rewrite !insert_length|congruence].
    + unfold core. cbn [queues stacks latches excs dead next_id plog]. rewrite insert_length. eapply core_perm; [symmetry; apply HR'|symmetry; apply HQ'|]. cbn [app]. apply core_take. eapply core_perm; [exact HR|etransitivity; [exact HQ|by destruct tk]|done].
    + apply order_insert; [done|done|]. intros g [-> | Hg]%elem_of_cons; [done|by apply El].
  - (* drained *) constructor; cbn [set_stack queues stacks latches excs dead next_id plog undefined]; [| |by rewrite insert_length|congruence].
    + unfold core. cbn. eapply core_perm; [symmetry; apply HR'|done|]. cbn [app]. eapply core_same; [|eapply core_perm; [exact HR|done|done]]. by constructor.
    + by apply order_insert.
  - (* yield *) constructor; cbn [set_stack queues stacks latches excs dead next_id plog undefined]; [| |by rewrite insert_length|congruence].
    + unfold core. cbn. eapply core_perm; [symmetry; apply HR'|done|]. cbn [app]. eapply core_same; [|eapply core_perm; [exact HR|done|done]]. by constructor.
    + by apply order_insert.
  - (* return *) constructor; cbn [set_stack queues stacks latches excs dead next_id plog undefined]; [| |by rewrite insert_length|congruence].
    + unfold core. cbn. eapply core_perm; [symmetry; apply HR'|done|]. eapply core_end; [done|by left|]. eapply core_perm; [exact HR|done|done].
    + apply order_insert; [done|by eapply ordered_tail|by eapply lower_tail].
  - (* rethrow *) constructor; cbn [set_stack queues stacks latches excs dead next_id plog undefined]; [| |by rewrite insert_length|congruence].
    + unfold core. cbn. eapply core_perm; [symmetry; apply HR'|done|]. eapply core_ext; [apply Forall2_app; [apply raise_top_same|apply Forall_Forall2_diag, Forall_true, same_refl]|].
      eapply core_end; [done|by right|]. eapply core_perm; [exact HR|done|done].
    + apply order_insert; [done| |].
      * eapply ordered_same; [apply raise_top_same|]. by eapply ordered_tail.
      * pose proof (lower_tail _ _ El) as El'. destruct fs as [|g fs]; [done|exact El'].
  - (* finish *) constructor; cbn [set_stack queues stacks latches excs dead next_id plog undefined]; [| |by rewrite insert_length|congruence].
    + unfold core. cbn. eapply core_perm; [symmetry; apply HR'|done|]. eapply core_finish; [done|]. eapply core_perm; [exact HR|done|done].
    + apply order_insert; [done|by eapply ordered_tail|by eapply lower_tail].
  - (* dangling *) constructor; cbn [set_stack queues stacks latches excs dead next_id plog undefined]; [done|done|done|]. intros _. exists id. destruct Ic.
    assert (Hc : fcount id (mjoin (stacks s)) <> 0). { rewrite (sum_with_perm _ _ _ HR : fcount id _ = fcount id _). cbn [app]. rewrite fcount_cons. cbn [frame_count]. rewrite decide_True by done. lia. }
    destruct (c_deadlog0 id Hd) as [Hx | [Hx | Hx]]; [| |done]; destruct (c_over0 id) as [_ Hz]; auto; lia.
Qed.
Lemma join_app {A} (a b : list (list A)) : mjoin (a ++ b) = mjoin a ++ mjoin b.
Proof. induction a as [|x a IH]; [done|]. change (mjoin ((x :: a) ++ b)) with (x ++ mjoin (a ++ b)). change (mjoin (x :: a)) with (x ++ mjoin a). by rewrite IH, app_assoc. Qed.
Lemma pool_initial_inv w mains : pool_inv (pool_initial w mains).
Proof.
  assert (Hq : forall A, mjoin (replicate w (@nil A)) = []) by (intros A; induction w as [|w IH]; [done|exact IH]).
  constructor; cbn [pool_initial queues stacks undefined plog]; [| | |done].
  - unfold core, pool_initial. cbn [queues stacks latches excs dead next_id plog]. rewrite Hq. rewrite replicate_length. rewrite join_app, Hq. cbn [app].
    induction mains as [|m mains IH].
    + cbn. constructor; cbn; try done; try apply NoDup_nil_2; intros; try lia; repeat match goal with H : _ ∈ [] |- _ => by apply elem_of_nil in H | H : _ \/ _ |- _ => destruct H as [H | H] end.
    + cbn. by apply core_main.
  - intros t st H. apply lookup_app_Some in H as [H | [_ H]].
    + apply lookup_replicate in H as [-> _]. done.
    + apply list_lookup_fmap_Some in H as (m & -> & _) || (rewrite list_lookup_fmap in H; destruct (mains !! _) as [m|]; [|done]; cbn in H; injection H as <-).
      split; [done|]. intros g Hg. by apply elem_of_nil in Hg.
  - rewrite app_length, !replicate_length. lia.
Qed.
Lemma reachable_pool_inv w mains s : rtc some_step (pool_initial w mains) s -> pool_inv s.
Proof. pose proof (pool_initial_inv w mains) as I0. revert I0. generalize (pool_initial w mains). intros s0 I0 H. induction H as [|x y z (t & p & Hxy) Hyz IH]; [done|]. by apply IH, (pool_step_inv t p x y). Qed.
