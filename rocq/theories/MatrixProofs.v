From Coq Require Import Lia.
From stdpp Require Import list list_numbers sets.
From Verif Require Import MatrixModel MatrixSpec.

Section Proofs.
Context {T : Type}.
Implicit Types (m : matrix T) (l : list (list T)) (s : rows T).

Definition mrepr m s : Prop :=
  mdata m = concat (rlist s) /\ mncols m = rcols s /\
  Forall (fun r => length r = rcols s) (rlist s) /\ (rlist s <> [] -> 0 < rcols s).

Lemma concat_length_uniform l c : Forall (fun r => length r = c) l -> length (concat l) = length l * c.
Proof.
  induction 1 as [|r l Hr Hl IH]; cbn; [done|]. rewrite app_length, IH, Hr. done.
Qed.
Lemma concat_lookup_uniform l c i j : Forall (fun r => length r = c) l -> j < c ->
  concat l !! (i * c + j) = (r ← l !! i; r !! j).
Proof.
  intros Hl Hj. revert i. induction Hl as [|r l Hr Hl IH]; intros i; cbn.
  - rewrite !lookup_nil. done.
  - destruct i as [|i]; cbn.
    + rewrite lookup_app_l by lia. done.
    + rewrite lookup_app_r by lia. rewrite Hr. replace (c + i * c + j - c) with (i * c + j) by lia. apply IH.
Qed.
Lemma concat_insert_uniform l c i j x r : Forall (fun r => length r = c) l -> j < c -> l !! i = Some r ->
  <[i * c + j := x]> (concat l) = concat (<[i := <[j := x]> r]> l).
Proof.
  intros Hl Hj. revert i. induction Hl as [|r0 l Hr Hl IH]; intros i Hi; cbn; [done|].
  destruct i as [|i]; cbn in *.
  - injection Hi as ->. rewrite insert_app_l by lia. done.
  - rewrite insert_app_r_alt by lia. rewrite Hr. replace (c + i * c + j - c) with (i * c + j) by lia.
    rewrite IH by done. done.
Qed.
Lemma concat_take_uniform l c n : Forall (fun r => length r = c) l -> take (n * c) (concat l) = concat (take n l).
Proof.
  intros Hl. revert n. induction Hl as [|r l Hr Hl IH]; intros n; cbn.
  - rewrite !take_nil. done.
  - destruct n as [|n]; cbn; [rewrite take_0; done|].
    rewrite take_app_ge by lia. rewrite Hr. replace (c + n * c - c) with (n * c) by lia. rewrite IH. done.
Qed.
Lemma concat_drop_uniform l c n : Forall (fun r => length r = c) l -> drop (n * c) (concat l) = concat (drop n l).
Proof.
  intros Hl. revert n. induction Hl as [|r l Hr Hl IH]; intros n; cbn.
  - rewrite !drop_nil. done.
  - destruct n as [|n]; cbn; [rewrite drop_0; done|].
    rewrite drop_app_ge by lia. rewrite Hr. replace (c + n * c - c) with (n * c) by lia. rewrite IH. done.
Qed.
Lemma concat_replicate (n c : nat) (x : T) : concat (replicate n (replicate c x)) = replicate (n * c) x.
Proof. induction n as [|n IH]; cbn; [done|]. rewrite IH, replicate_add. done. Qed.

Lemma mrepr_nrows m s : mrepr m s -> nrows m = length (rlist s).
Proof.
  intros (Hd&Hc&Hl&Hp). unfold nrows. rewrite Hd. pose proof (concat_length_uniform _ _ Hl) as Hlen.
  destruct (concat (rlist s)) as [|x d] eqn:E.
  - cbn in Hlen. destruct (rlist s) as [|r l] eqn:El; [done|]. specialize (Hp ltac:(done)). cbn in Hlen. lia.
  - rewrite Hlen, Hc. rewrite Nat.div_mul; [done|]. cbn in Hlen.
    intros H0. rewrite H0 in Hlen. lia.
Qed.
Lemma mrepr_at m s i j : mrepr m s -> mat_at m i j = (r ← rlist s !! i; r !! j).
Proof.
  intros H. pose proof (mrepr_nrows m s H) as Hn. destruct H as (Hd&Hc&Hl&Hp).
  unfold mat_at, ncols. rewrite Hn, Hc, Hd. case_decide as E.
  - apply concat_lookup_uniform; [done|lia].
  - destruct (rlist s !! i) as [r|] eqn:Er; [|done]. cbn.
    pose proof (lookup_lt_Some _ _ _ Er). pose proof (Forall_lookup_1 _ _ _ _ Hl Er) as Hr. cbn in Hr.
    symmetry. apply lookup_ge_None_2. lia.
Qed.
Lemma mrepr_row m s i : mrepr m s -> mat_row m i = rlist s !! i.
Proof.
  intros H. pose proof (mrepr_nrows m s H) as Hn. destruct H as (Hd&Hc&Hl&Hp).
  unfold mat_row, ncols. rewrite Hn, Hc, Hd. case_decide as E.
  - rewrite concat_drop_uniform by done. destruct (lookup_lt_is_Some_2 _ _ E) as [r Hr].
    rewrite (drop_S _ r) by done. cbn. rewrite Hr. f_equal.
    pose proof (Forall_lookup_1 _ _ _ _ Hl Hr) as Hlr. cbn in Hlr. rewrite <- Hlr. apply take_app.
  - symmetry. apply lookup_ge_None_2. lia.
Qed.
Lemma column_loop_ok m s j l k : mrepr m s -> drop k (rlist s) = l ->
  column_loop m j (seq k (length l)) = mapM (fun r => r !! j) l.
Proof.
  intros H. revert k. induction l as [|r l IH]; intros k Hk; cbn; [done|].
  rewrite (mrepr_at m s) by done.
  assert (Hr : rlist s !! k = Some r) by (rewrite <- (Nat.add_0_r k), <- lookup_drop, Hk; done).
  rewrite Hr. cbn. destruct (r !! j) as [x|]; [|done]. cbn.
  rewrite (IH (S k)); [|]. 2:{ rewrite (drop_S _ r) in Hk by done. congruence. }
  destruct (mapM _ l); done.
Qed.
Lemma mrepr_column m s j : mrepr m s -> j < rcols s -> mat_column m j = mapM (fun r => r !! j) (rlist s).
Proof.
  intros H Hj. unfold mat_column, ncols. pose proof H as (Hd&Hc&Hl&Hp). rewrite Hc.
  rewrite decide_True by done. rewrite (mrepr_nrows m s H). apply (column_loop_ok m s j (rlist s) 0 H). done.
Qed.

Lemma mrepr_looks_like m s : mrepr m s -> mat_looks_like m s.
Proof.
  intros H. split; [apply mrepr_nrows; done|]. split; [apply H|].
  split; [intros; apply mrepr_row; done|]. split; [intros; apply mrepr_at; done|].
  intros; apply mrepr_column; done.
Qed.

Lemma mrepr_write m s i j x r : mrepr m s -> rlist s !! i = Some r -> j < rcols s ->
  exists m', mat_write m i j x = Some m' /\ mrepr m' (Rows (<[i := <[j := x]> r]> (rlist s)) (rcols s)).
Proof.
  intros H Hr Hj. pose proof (mrepr_nrows m s H) as Hn. pose proof H as (Hd&Hc&Hl&Hp).
  pose proof (lookup_lt_Some _ _ _ Hr) as Hi.
  unfold mat_write, ncols. rewrite Hn, Hc. rewrite decide_True by done.
  rewrite decide_True. 2:{ rewrite Hd, (concat_length_uniform _ _ Hl). nia. }
  eexists; split; [done|]. unfold mrepr; cbn. split; [|split; [done|split]].
  - rewrite Hd. apply concat_insert_uniform; done.
  - apply Forall_insert; [done|]. rewrite insert_length. eapply (Forall_lookup_1 _ _ _ _ Hl Hr).
  - intros Hne. apply Hp. intros E. rewrite E in Hi. cbn in Hi. lia.
Qed.
Lemma mrepr_write_none m s i j x : mrepr m s -> (i < length (rlist s) -> rcols s <= j) -> mat_write m i j x = None.
Proof.
  intros H Hn. unfold mat_write. rewrite (mrepr_nrows m s H). unfold ncols. destruct H as (_&->&_).
  rewrite decide_False; [done|]. intros [H1 H2]. specialize (Hn H1). lia.
Qed.

Lemma assign_loop_ok xs : forall m s i pre post, mrepr m s ->
  rlist s !! i = Some (pre ++ post) -> length xs = length post ->
  exists m', assign_loop m i (length pre) xs = Some m' /\ mrepr m' (Rows (<[i := pre ++ xs]> (rlist s)) (rcols s)).
Proof.
  induction xs as [|x xs IH]; intros m s i pre post H Hr Hlen; cbn.
  - destruct post; [|done]. exists m. split; [done|]. rewrite list_insert_id by done. destruct s; done.
  - destruct post as [|y post]; [done|].
    pose proof H as (_&_&Hl&_). pose proof (Forall_lookup_1 _ _ _ _ Hl Hr) as Hlr. cbn in Hlr.
    rewrite app_length in Hlr. cbn in Hlr.
    destruct (mrepr_write m s i (length pre) x (pre ++ y :: post)) as (m1&Hm1&H1); [done..|lia|].
    rewrite Hm1. cbn.
    rewrite insert_app_r_alt in H1 by lia. rewrite Nat.sub_diag in H1. cbn in H1.
    replace (pre ++ x :: post) with ((pre ++ [x]) ++ post) in H1 by (rewrite <- app_assoc; done).
    destruct (IH m1 _ i (pre ++ [x]) post H1) as (m2&Hm2&H2).
    + cbn. apply list_lookup_insert. eapply lookup_lt_Some; done.
    + cbn in Hlen. lia.
    + rewrite app_length, Nat.add_1_r in Hm2. exists m2. split; [done|]. cbn in H2.
      rewrite list_insert_insert, <- app_assoc in H2. done.
Qed.
Lemma assign_row_ok m s i xs : mrepr m s -> i < length (rlist s) -> length xs = rcols s ->
  exists m', assign_row m i xs = Some m' /\ mrepr m' (Rows (<[i := xs]> (rlist s)) (rcols s)).
Proof.
  intros H Hi Hx. unfold assign_row. rewrite (mrepr_nrows m s H). pose proof H as (_&Hc&Hl&_).
  unfold ncols. rewrite Hc. rewrite decide_True by done.
  destruct (lookup_lt_is_Some_2 _ _ Hi) as [r Hr].
  apply (assign_loop_ok xs m s i [] r); try done.
  rewrite Hx. symmetry. apply (Forall_lookup_1 _ _ _ _ Hl Hr).
Qed.

Lemma insert4 l i k a b c d : i <> k ->
  <[k := a]> (<[i := b]> (<[k := c]> (<[i := d]> l))) = <[k := a]> (<[i := b]> l).
Proof.
  intros. rewrite (list_insert_commute (<[i := d]> l) i k) by done. rewrite !list_insert_insert. done.
Qed.
Lemma swap_loop_ok c : forall m s i k p1 q1 p2 q2, mrepr m s -> i <> k ->
  rlist s !! i = Some (p1 ++ q1) -> rlist s !! k = Some (p2 ++ q2) ->
  length p1 = length p2 -> length q1 = c -> length q2 = c ->
  exists m', swap_loop m i k (seq (length p1) c) = Some m' /\
    mrepr m' (Rows (<[k := p2 ++ q1]> (<[i := p1 ++ q2]> (rlist s))) (rcols s)).
Proof.
  induction c as [|c IH]; intros m s i k p1 q1 p2 q2 H Hik Hi Hk Hp Hq1 Hq2; cbn.
  - destruct q1, q2; try done. exists m. split; [done|].
    rewrite (list_insert_id (rlist s)) by done. rewrite list_insert_id by done. destruct s; done.
  - destruct q1 as [|x q1]; [done|]. destruct q2 as [|y q2]; [done|].
    pose proof H as (_&_&Hl&_). pose proof (Forall_lookup_1 _ _ _ _ Hl Hi) as Hli. cbn in Hli.
    rewrite app_length in Hli. cbn in Hli.
    rewrite !(mrepr_at m s) by done. rewrite Hi, Hk. cbn.
    rewrite list_lookup_middle by done. cbn. rewrite list_lookup_middle by done. cbn.
    destruct (mrepr_write m s i (length p1) y (p1 ++ x :: q1)) as (m1&Hm1&H1); [done..|lia|].
    rewrite Hm1. cbn.
    rewrite insert_app_r_alt in H1 by lia. rewrite Nat.sub_diag in H1. cbn in H1.
    destruct (mrepr_write m1 _ k (length p1) x (p2 ++ y :: q2) H1) as (m2&Hm2&H2); cbn.
    { rewrite list_lookup_insert_ne by done. done. }
    { lia. }
    rewrite Hm2. cbn. cbn in H2.
    rewrite insert_app_r_alt in H2 by lia. rewrite Hp, Nat.sub_diag in H2. cbn in H2.
    destruct (IH m2 _ i k (p1 ++ [y]) q1 (p2 ++ [x]) q2 H2 Hik) as (m3&Hm3&H3); cbn.
    { rewrite list_lookup_insert_ne by done. rewrite list_lookup_insert by (eapply lookup_lt_Some; done).
      rewrite <- app_assoc. done. }
    { rewrite list_lookup_insert; [rewrite <- app_assoc; done|].
      rewrite insert_length. eapply lookup_lt_Some; done. }
    { rewrite !app_length. cbn. lia. }
    { cbn in Hq1. lia. }
    { cbn in Hq2. lia. }
    rewrite app_length in Hm3. cbn in Hm3. rewrite Nat.add_1_r in Hm3.
    exists m3. split; [done|]. cbn in H3. rewrite <- !app_assoc in H3. cbn in H3.
    rewrite insert4 in H3 by done. done.
Qed.
Lemma swap_same_loop c : forall m s i a, mrepr m s -> i < length (rlist s) -> a + c <= rcols s ->
  swap_loop m i i (seq a c) = Some m.
Proof.
  induction c as [|c IH]; intros m s i a H Hi Ha; cbn; [done|].
  destruct (lookup_lt_is_Some_2 _ _ Hi) as [r Hr]. pose proof H as (Hd&Hc&Hl&_).
  pose proof (Forall_lookup_1 _ _ _ _ Hl Hr) as Hlr. cbn in Hlr.
  destruct (lookup_lt_is_Some_2 r a) as [x Hx]; [lia|].
  rewrite !(mrepr_at m s), Hr by done. cbn. rewrite Hx. cbn.
  assert (Hw : mat_write m i a x = Some m).
  { unfold mat_write. rewrite (mrepr_nrows m s H). unfold ncols. rewrite Hc.
    rewrite decide_True by lia. rewrite decide_True.
    2:{ rewrite Hd, (concat_length_uniform _ _ Hl). nia. }
    rewrite list_insert_id; [destruct m; cbn in *; congruence|].
    rewrite Hd, concat_lookup_uniform by (done || lia). rewrite Hr. done. }
  rewrite Hw. cbn. rewrite Hw. cbn. apply (IH m s i (S a)); [done..|lia].
Qed.

Lemma mrepr_empty : mrepr mat_empty (Rows [] 0).
Proof. repeat split; [constructor|done]. Qed.

Lemma mrepr_step m s o : mrepr m s -> has_cols s o ->
  match rstep s o with
  | Some s' => exists m', mstep m o = Some m' /\ mrepr m' s'
  | None => mstep m o = None
  end.
Proof.
  intros H Hok. pose proof (mrepr_nrows m s H) as Hn. pose proof H as (Hd&Hc&Hl&Hp).
  destruct o; cbn in Hok |- *.
  - eexists; split; [done|]. unfold mrepr; cbn. split; [symmetry; apply concat_replicate|]. split; [done|]. split.
    + apply Forall_replicate. apply replicate_length.
    + destruct nr; [done|lia].
  - unfold append_row, ncols. rewrite Hn, Hc. case_decide as E1; case_decide as E2.
    + eexists; split; [done|]. unfold mrepr; cbn. rewrite concat_app, Hd. cbn. rewrite app_nil_r.
      split; [done|]. split; [done|]. split.
      * apply Forall_app. split; [|constructor; [done|constructor]].
        destruct E1 as [->|E1]; [done|]. destruct (rlist s); [constructor|done].
      * intros _. destruct r; [done|cbn; lia].
    + exfalso. apply E2. destruct E1 as [? | ->]; auto.
    + exfalso. apply E1. destruct E2 as [?|E2]; [auto|]. right. destruct (rlist s); done.
    + done.
  - eexists; split; [done|]. unfold mrepr, mat_resize, ncols; cbn. rewrite Hc, Hd.
    split; [|split; [done|split]].
    + rewrite concat_app, concat_replicate, concat_take_uniform by done.
      rewrite (concat_length_uniform _ _ Hl). rewrite Nat.mul_sub_distr_r. done.
    + apply Forall_app. split; [apply Forall_take; done|]. apply Forall_replicate. apply replicate_length.
    + intros Hne. destruct Hok as [->|?]; [|done]. cbn in Hne. done.
  - unfold mat_pop. rewrite Hn. destruct (decide (rlist s = [])) as [E|E].
    + rewrite E. rewrite decide_True by done. done.
    + rewrite decide_False by (destruct (rlist s); done). eexists; split; [done|].
      unfold mrepr, mat_resize, ncols; cbn. rewrite Hc, Hd. split; [|split; [done|split]].
      * rewrite concat_take_uniform by done. rewrite (concat_length_uniform _ _ Hl).
        replace ((length (rlist s) - 1) * rcols s - length (rlist s) * rcols s) with 0 by nia.
        cbn. rewrite app_nil_r. done.
      * apply Forall_take. done.
      * intros _. apply Hp. done.
  - eexists; split; [done|]. apply mrepr_empty.
  - case_decide as E.
    + apply assign_row_ok; [done|tauto..].
    + unfold assign_row, ncols. rewrite Hn, Hc. rewrite decide_False by done. done.
  - rewrite (mrepr_row m s) by done. destruct (rlist s !! k) as [r|] eqn:Er; [|done]. cbn.
    pose proof (Forall_lookup_1 _ _ _ _ Hl Er) as Hlr. cbn in Hlr. case_decide as E.
    + apply assign_row_ok; done.
    + unfold assign_row. rewrite Hn. rewrite decide_False by lia. done.
  - unfold swap_rows. rewrite Hn. unfold ncols. rewrite Hc.
    destruct (rlist s !! i) as [r|] eqn:Er; cbn.
    + pose proof (lookup_lt_Some _ _ _ Er). destruct (rlist s !! k) as [r'|] eqn:Er'; cbn.
      * pose proof (lookup_lt_Some _ _ _ Er'). rewrite decide_True by done.
        destruct (decide (i = k)) as [->|Hne].
        -- rewrite (swap_same_loop _ m s) by (done || lia). eexists; split; [done|].
           rewrite Er in Er'. injection Er' as <-. rewrite list_insert_insert, list_insert_id by done. destruct s; done.
        -- pose proof (Forall_lookup_1 _ _ _ _ Hl Er) as Hlr. cbn in Hlr.
           pose proof (Forall_lookup_1 _ _ _ _ Hl Er') as Hlr'. cbn in Hlr'.
           apply (swap_loop_ok (rcols s) m s i k [] r [] r'); done.
      * rewrite decide_False; [done|]. apply lookup_ge_None in Er'. lia.
    + rewrite decide_False; [done|]. apply lookup_ge_None in Er. lia.
  - destruct (rlist s !! i) as [r|] eqn:Er; cbn.
    + pose proof (Forall_lookup_1 _ _ _ _ Hl Er) as Hlr. cbn in Hlr. case_decide as E.
      * apply mrepr_write; [done..|lia].
      * apply (mrepr_write_none m s); [done|]. lia.
    + apply (mrepr_write_none m s); [done|]. intros. apply lookup_ge_None in Er. lia.
Qed.

Lemma mrepr_run os : forall m s, mrepr m s -> all_has_cols s os ->
  match rrun s os with
  | Some s' => exists m', mrun m os = Some m' /\ mrepr m' s'
  | None => mrun m os = None
  end.
Proof.
  induction os as [|o os IH]; intros m s H Hok; cbn.
  - eauto.
  - destruct Hok as [Ho Hok]. pose proof (mrepr_step m s o H Ho) as Hs.
    destruct (rstep s o) as [s'|]; cbn.
    + destruct Hs as (m'&Hm'&H'). rewrite Hm'. cbn. apply IH; done.
    + rewrite Hs. done.
Qed.

Lemma concat_inj_uniform l l' c : 0 < c -> Forall (fun r => length r = c) l -> Forall (fun r => length r = c) l' ->
  concat l = concat l' -> l = l'.
Proof.
  intros Hc Hl. revert l'. induction Hl as [|r l Hr Hl IH]; intros l' Hl' E.
  - destruct Hl' as [|r' l' Hr' Hl']; [done|]. cbn in E. destruct r'; cbn in *; [lia|done].
  - destruct Hl' as [|r' l' Hr' Hl']; [cbn in E; destruct r; cbn in *; [lia|done]|].
    cbn in E. apply app_inj_1 in E as [-> E]; [|congruence]. f_equal. apply IH; done.
Qed.

Lemma mrepr_eqb eqb a b s t : (forall x y, eqb x y = true <-> x = y) -> mrepr a s -> mrepr b t ->
  mat_eqb eqb a b = true <-> rlist s = rlist t.
Proof.
  intros He Ha Hb. pose proof (mrepr_nrows a s Ha) as Hna. pose proof (mrepr_nrows b t Hb) as Hnb.
  pose proof Ha as (Hda&Hca&Hla&Hpa). pose proof Hb as (Hdb&Hcb&Hlb&Hpb).
  unfold mat_eqb, ncols. rewrite Hna, Hnb, Hca, Hcb.
  rewrite orb_true_iff, !andb_true_iff, !Nat.eqb_eq, He. split.
  - intros [Hemp|[[H1 H2] H3]].
    + destruct (mdata a) eqn:Ea; [|done]. destruct (mdata b) eqn:Eb; [|done].
      assert (length (rlist s) = 0) by (unfold nrows in Hna; rewrite Ea in Hna; done).
      assert (length (rlist t) = 0) by (unfold nrows in Hnb; rewrite Eb in Hnb; done).
      destruct (rlist s), (rlist t); done.
    + rewrite Hda, Hdb in H3. destruct (decide (rcols s = 0)) as [E|E].
      * destruct (rlist s) as [|r l]; [|specialize (Hpa ltac:(done)); lia].
        destruct (rlist t) as [|r l]; [done|cbn in *; lia].
      * apply (concat_inj_uniform _ _ (rcols s)); try done; [lia|]. rewrite H2. done.
  - intros E. destruct (rlist s) as [|r l] eqn:El.
    + left. rewrite Hda, Hdb, <- E. done.
    + right. rewrite <- E in *. split; [split; [done|]|rewrite Hda, Hdb; done].
      apply Forall_cons in Hla as [Hr _]. apply Forall_cons in Hlb as [Hr' _]. congruence.
Qed.
End Proofs.
