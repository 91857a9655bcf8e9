From Coq Require Import ZArith Lia.
From stdpp Require Import list list_numbers sets relations.
From Verif Require Import AlgorithmModel ParetoModel ParetoProofs NdSortModel NdSortProofs NdFastProofs.

(** ** The tasks: every schedule stores exactly the visited elements *)
Definition visited (visits : list (list (nat * nat))) (p : nat * nat) : Prop := exists vs, vs ∈ visits /\ p ∈ vs.
Definition task_ok (st : list (nat * nat)) (vs : list (nat * nat)) (tk : dtask) : Prop :=
  exists dn, vs = dn ++ todo tk /\ (forall p, p ∈ dn -> p ∈ st) /\
    (loaded tk = Some true -> forall p rest, todo tk = p :: rest -> p ∈ st).
Definition dinv (visits : list (list (nat * nat))) (s : dstate) : Prop :=
  Forall2 (task_ok (dstores s)) visits (dtasks s) /\ forall p, p ∈ dstores s -> visited visits p.

Lemma Forall2_insert_r {A B} (P : A -> B -> Prop) l k i y : Forall2 P l k -> (forall x, l !! i = Some x -> P x y) -> Forall2 P l (<[i := y]> k).
Proof.
  intros H. revert i. induction H as [|a b l k Hab H IH]; intros i Hi; [constructor|]. destruct i as [|i]; cbn.
  - constructor; auto.
  - constructor; [done|]. apply IH. done.
Qed.
Lemma dstep_inv visits s s' : dinv visits s -> dstep s s' -> dinv visits s'.
Proof.
  intros [H1 H2] Hs. destruct Hs as [ts st i p rest v Hi Hv|ts st i p rest v Hi]; cbn [dtasks dstores] in *.
  - split; cbn [dtasks dstores]; [|done]. apply Forall2_insert_r; [done|]. intros vs Hvs.
    destruct (Forall2_lookup_lr _ _ _ _ _ _ H1 Hvs Hi) as (dn&E&Hd&_). exists dn. cbn in *. split; [done|]. split; [done|].
    intros [= ->] q r [= -> ->]. destruct Hv as [?|[_ ?]]; done.
  - assert (Hmono : forall q, q ∈ st -> q ∈ (if v then st else p :: st)) by (intros q Hq; destruct v; [done|ins]).
    assert (Hp : forall vs, visits !! i = Some vs -> p ∈ (if v then st else p :: st) /\ p ∈ vs).
    { intros vs Hvs. destruct (Forall2_lookup_lr _ _ _ _ _ _ H1 Hvs Hi) as (dn&E&Hd&Hl). cbn in *. split.
      - destruct v; [apply (Hl eq_refl p rest eq_refl)|ins].
      - subst vs. ins. }
    split; cbn [dtasks dstores].
    + apply Forall2_insert_r.
      * eapply Forall2_impl; [exact H1|]. intros vs tk (dn&E&Hd&Hl). exists dn. split; [done|]. split; [auto|]. eauto.
      * intros vs Hvs. destruct (Forall2_lookup_lr _ _ _ _ _ _ H1 Hvs Hi) as (dn&E&Hd&Hl). exists (dn ++ [p]). cbn in *.
        split; [rewrite <- app_assoc; done|]. split; [|done]. intros q Hq. apply elem_of_app in Hq as [Hq|Hq]; [auto|].
        apply elem_of_list_singleton in Hq as ->. destruct (Hp vs Hvs). done.
    + intros q Hq. destruct v; [auto|]. apply elem_of_cons in Hq as [->|Hq]; [|auto].
      destruct (Forall2_lookup_r _ _ _ _ _ H1 Hi) as (vs&Hvs&_). exists vs. split; [eapply elem_of_list_lookup_2; done|].
      destruct (Hp vs Hvs). done.
Qed.
Lemma dtasks_result visits s : rtc dstep (dinit visits) s -> dfinished s -> forall r c, dmat_of s r c = true <-> visited visits (r, c).
Proof.
  intros Hr Hf. assert (Hinv : dinv visits s).
  { assert (H0 : dinv visits (dinit visits)).
    { split; cbn; [|set_solver]. induction visits as [|vs l IH]; cbn; [constructor|]. constructor; [|].
      - exists []. cbn. split; [done|]. split; [set_solver|done].
      - apply Forall2_fmap_r. apply Forall_Forall2_diag. apply Forall_forall. intros x _. exists []. cbn. split; [done|]. split; [set_solver|done]. }
    clear Hf. induction Hr as [|x y z Hxy _ IH]; [done|]. apply IH. eapply dstep_inv; done. }
  destruct Hinv as [H1 H2]. intros r c. unfold dmat_of. destruct (decide ((r, c) ∈ dstores s)) as [Hi|Hi].
  - split; [|done]. intros _. auto.
  - split; [done|]. intros (vs&Hvs&Hp). exfalso. apply Hi. apply elem_of_list_lookup in Hvs as [i Hvi].
    destruct (Forall2_lookup_l _ _ _ _ _ H1 Hvi) as (tk&Htk&dn&E&Hd&_).
    unfold dfinished in Hf. rewrite Forall_lookup in Hf. rewrite (Hf i tk Htk), app_nil_r in E. subst. auto.
Qed.

(** Every task eventually finishes: a step lowers the number of remaining actions. *)
Definition task_left (tk : dtask) : nat := 2 * length (todo tk) - (if loaded tk then 1 else 0).
Lemma sum_insert (l : list nat) : forall i x y, l !! i = Some x -> y < x -> sum_list (<[i := y]> l) < sum_list l.
Proof.
  induction l as [|a l IH]; intros i x y Hi Hy; [done|]. destruct i as [|i]; cbn in *; [injection Hi as ->; unfold id; lia|].
  apply Nat.add_lt_mono_l. apply (IH i x y Hi Hy).
Qed.
Lemma dstep_measure s s' : dstep s s' -> sum_list (task_left <$> dtasks s') < sum_list (task_left <$> dtasks s).
Proof.
  intros H. destruct H as [ts st i p rest v Hi Hv|ts st i p rest v Hi]; cbn [dtasks];
    rewrite list_fmap_insert; (eapply sum_insert; [rewrite list_lookup_fmap, Hi; done|]); unfold task_left; cbn; lia.
Qed.
Lemma dstep_progress s : ~ dfinished s -> exists s', dstep s s'.
Proof.
  intros H. unfold dfinished in H. apply not_Forall_Exists in H; [|intros tk; solve_decision].
  apply Exists_exists in H as (tk&Htk&Hne). destruct s as [ts st]. cbn in *. apply elem_of_list_lookup in Htk as [i Hi].
  destruct tk as [[|p rest] [v|]]; try done; [exists (DState (<[i:=DTask rest None]> ts) (if v then st else p :: st))|exists (DState (<[i:=DTask (p :: rest) (Some false)]> ts) st)].
  - econstructor. done.
  - econstructor; [done|]. auto.
Qed.

Lemma NoDup_filter_fst (P : nat * nat -> Prop) `{!forall x, Decision (P x)} l : NoDup l.*1 -> NoDup (filter P l).*1.
Proof.
  induction l as [|[a b] l IH]; intros Hnd; [constructor|]. cbn in Hnd. apply NoDup_cons in Hnd as [Ha Hnd]. rewrite filter_cons.
  destruct (decide (P (a, b))); [|auto]. cbn. apply NoDup_cons. split; [|auto]. intros Hin. apply Ha.
  apply fst_in in Hin as [r Hin]. apply elem_of_list_filter in Hin as [_ Hin]. apply fst_in. eauto.
Qed.

(** ** Diagonal and equal pairs *)
Section Degree.
Context (n : nat) (less : nat -> nat -> bool).

Lemma cnt_nonzero P : cnt n P <> 0 -> exists j, j < n /\ P j = true.
Proof.
  unfold cnt. destruct (filter _ _) as [|j l] eqn:E; [done|]. intros _. exists j.
  assert (j ∈ filter (fun j => P j = true) (seq 0 n)) as Hin by (rewrite E; set_solver).
  apply elem_of_list_filter in Hin as [H1 H2]. apply elem_of_seq in H2. split; [lia|done].
Qed.

Definition sym_inv (rows : list nat) (ps : list (nat * nat)) (d0 d : nat -> nat -> bool) : Prop :=
  (forall r, d r r = true <-> d0 r r = true \/ r ∈ rows) /\
  (forall r c, r <> c -> d r c = true <-> d0 r c = true \/ (((r, c) ∈ ps \/ (c, r) ∈ ps) /\ d0 r c = false /\ d0 c r = false)).

Lemma dset_true d r c r' c' : dset d r c r' c' = true <-> d r' c' = true \/ (r' = r /\ c' = c).
Proof. unfold dset. destruct (decide _); intuition. Qed.

Lemma sym_cell rows ps d0 d r c : r <> c -> sym_inv rows ps d0 d -> sym_inv rows (ps ++ [(r, c)]) d0 (dd_cell d (r, c)).
Proof.
  intros Hne [H1 H2]. unfold dd_cell.
  assert (Hin : forall a b, (a, b) ∈ ps ++ [(r, c)] <-> (a, b) ∈ ps \/ (a = r /\ b = c)).
  { intros a b. rewrite elem_of_app, elem_of_list_singleton. split; (intros [?|Hab]; [auto|]); [injection Hab; auto|destruct Hab; subst; auto]. }
  destruct (decide (d r c = false /\ d c r = false)) as [[E1 E2]|E].
  - split.
    + intros a. rewrite !dset_true, H1. split; [intros [[?|[? ?]]|[? ?]]; auto; congruence|tauto].
    + intros a b Hab. rewrite !dset_true, H2 by done. rewrite !Hin.
      assert (F1 : d0 r c = false). { apply not_true_is_false. intros F. assert (d r c = true) by (apply H2; auto). congruence. }
      assert (F2 : d0 c r = false). { apply not_true_is_false. intros F. assert (d c r = true) by (apply H2; auto). congruence. }
      split.
      * intros [[[?|?]|[-> ->]]|[-> ->]]; tauto.
      * intros [?|([[?|[-> ->]]|[?|[-> ->]]]&?&?)]; tauto.
  - split; [done|]. intros a b Hab. rewrite H2 by done. rewrite !Hin. split; [tauto|].
    assert (Hcov : forall x y, d0 x y = false -> d0 y x = false -> (x = r /\ y = c \/ x = c /\ y = r) -> (x, y) ∈ ps \/ (y, x) ∈ ps).
    { intros x y F1 F2 Hxy. destruct (decide ((x, y) ∈ ps \/ (y, x) ∈ ps)) as [?|Hn]; [done|]. exfalso. apply E.
      assert (x <> y) by (destruct Hxy as [[-> ->]|[-> ->]]; congruence).
      assert (d x y = false /\ d y x = false) as [? ?].
      { split; apply not_true_is_false; rewrite H2 by congruence; rewrite ?F1, ?F2; intros [?|[? _]]; [congruence|tauto|congruence|tauto]. }
      destruct Hxy as [[-> ->]|[-> ->]]; done. }
    intros [?|([[?|[-> ->]]|[?|[-> ->]]]&F1&F2)]; [tauto|tauto| |tauto|].
    + right. split; [|done]. apply Hcov; auto.
    + right. split; [|done]. apply Hcov; auto.
Qed.
Lemma sym_cells rows d0 qs : forall ps d, (forall r c, (r, c) ∈ qs -> r <> c) -> sym_inv rows ps d0 d ->
  sym_inv rows (ps ++ qs) d0 (foldl dd_cell d qs).
Proof.
  induction qs as [|[r c] qs IH]; intros ps d Hq H; [rewrite app_nil_r; done|]. cbn [foldl].
  replace (ps ++ (r, c) :: qs) with ((ps ++ [(r, c)]) ++ qs) by (rewrite <- app_assoc; done).
  apply IH; [intros a b Hab; apply Hq; ins|]. apply sym_cell; [apply Hq; ins|done].
Qed.
Lemma sym_row rows ps d0 d row : sym_inv rows ps d0 d ->
  sym_inv (rows ++ [row]) (ps ++ ((fun col => (row, col)) <$> seq (S row) (n - S row))) d0 (dd_row n d row).
Proof.
  intros H. unfold dd_row. apply sym_cells.
  - intros r c Hrc. apply elem_of_list_fmap in Hrc as (x&[= -> ->]&Hx). apply elem_of_seq in Hx. lia.
  - destruct H as [H1 H2]. split.
    + intros r. rewrite dset_true, H1, elem_of_app, elem_of_list_singleton. intuition.
    + intros r c Hrc. rewrite dset_true, H2 by done. split; [intros [?|[-> ->]]; [done|congruence]|tauto].
Qed.
Lemma sym_rows d0 qs : forall rows ps d, sym_inv rows ps d0 d ->
  sym_inv (rows ++ qs) (ps ++ (row ← qs; (fun col => (row, col)) <$> seq (S row) (n - S row))) d0 (foldl (dd_row n) d qs).
Proof.
  induction qs as [|row qs IH]; intros rows ps d H; [rewrite !app_nil_r; done|]. cbn [foldl]. rewrite bind_cons.
  replace (rows ++ row :: qs) with ((rows ++ [row]) ++ qs) by (rewrite <- app_assoc; done). rewrite app_assoc.
  apply IH. apply sym_row. done.
Qed.
Lemma symmetrise_false d r c : r < n -> c < n -> dd_symmetrise n d r c = false <-> r <> c /\ d r c = false /\ d c r = true.
Proof.
  intros Hr Hc. unfold dd_symmetrise. destruct (sym_rows d (seq 0 n) [] [] d) as [H1 H2].
  { split; [intros x; set_solver|]. intros x y Hxy. split; [auto|]. intros [?|[[?|?] _]]; [done|set_solver..]. }
  cbn [app] in *. rewrite <- not_true_iff_false. destruct (decide (r = c)) as [->|Hne].
  - rewrite H1, elem_of_seq. split; [|tauto]. intros Hn. exfalso. apply Hn. right. lia.
  - rewrite H2 by done.
    assert (Hin : forall a b, a < n -> b < n -> a < b -> (a, b) ∈ (row ← seq 0 n; (fun col => (row, col)) <$> seq (S row) (n - S row))).
    { intros a b Ha Hb Hab. apply elem_of_list_bind. exists a. rewrite elem_of_seq. split; [|lia]. apply elem_of_list_fmap.
      exists b. rewrite elem_of_seq. split; [done|lia]. }
    assert (Hcov : (r, c) ∈ (row ← seq 0 n; (fun col => (row, col)) <$> seq (S row) (n - S row)) \/
                   (c, r) ∈ (row ← seq 0 n; (fun col => (row, col)) <$> seq (S row) (n - S row))).
    { destruct (decide (r < c)); [left|right]; apply Hin; lia. }
    destruct (d r c), (d c r); intuition congruence.
Qed.

(** ** The fronts *)
Lemma remove_row_ok row cols : forall d, NoDup cols.*1 -> (forall c s, (c, s) ∈ cols -> d row c = false -> s <> 0) ->
  exists d', dd_remove_row row d cols = Some (d', (fun cs => (cs.1, if d row cs.1 then cs.2 else cs.2 - 1)) <$> cols) /\
    forall r c, r <> row -> d' r c = d r c.
Proof.
  induction cols as [|[c s] cols IH]; intros d Hnd Hz; cbn [dd_remove_row]; [exists d; done|].
  cbn in Hnd. apply NoDup_cons in Hnd as [Hc Hnd]. destruct (d row c) eqn:E.
  - destruct (IH d Hnd) as (d'&H1&H2); [intros c' s' Hc'; apply Hz; ins|]. rewrite H1. cbn. rewrite E. exists d'. done.
  - destruct s as [|s]; [exfalso; apply (Hz c 0); [ins|done..]|].
    destruct (IH (dset d row c) Hnd) as (d'&H1&H2).
    + intros c' s' Hc' Hd. apply (Hz c' s'); [ins|]. unfold dset in Hd. destruct (decide _); done.
    + rewrite H1. cbn. rewrite E. rewrite Nat.sub_0_r. exists d'. split.
      * f_equal. f_equal. f_equal. apply list_fmap_ext. intros i [c' s'] Hi. cbn. unfold dset. rewrite decide_False; [done|].
        intros [_ ->]. apply Hc. apply fst_in. exists s'. eapply elem_of_list_lookup_2; done.
      * intros r' c' Hr. rewrite H2 by done. unfold dset. rewrite decide_False by tauto. done.
Qed.

Notation outsum c Rm := (cnt n (fun r => less c r && bool_decide (r ∉ Rm))).
Lemma remove_rows_ok rows : forall Rm d cols, NoDup cols.*1 -> (forall c, c ∈ cols.*1 -> c < n) -> NoDup rows ->
  (forall r, r ∈ rows -> r < n /\ r ∉ Rm) ->
  (forall c s, (c, s) ∈ cols -> s = outsum c Rm) ->
  (forall r c, r < n -> c ∈ cols.*1 -> r ∉ Rm -> d r c = false <-> less c r = true) ->
  exists d' cols', dd_remove_rows rows d cols = Some (d', cols') /\ cols'.*1 = cols.*1 /\
    (forall c s, (c, s) ∈ cols' -> s = outsum c (Rm ++ rows)) /\
    (forall r c, r < n -> c ∈ cols.*1 -> r ∉ Rm ++ rows -> d' r c = false <-> less c r = true).
Proof.
  induction rows as [|row rows IH]; intros Rm d cols Hnd Hcn Hndr Hr Hs Hd; cbn [dd_remove_rows].
  - exists d, cols. rewrite app_nil_r. done.
  - destruct (Hr row) as [Hrn HrR]; [ins|]. apply NoDup_cons in Hndr as [Hrow Hndr].
    destruct (remove_row_ok row cols d Hnd) as (d1&E1&Hd1).
    { intros c s Hc Hf. rewrite (Hs c s Hc), cnt_0. intros Hz. specialize (Hz row Hrn).
      rewrite (proj1 (Hd row c Hrn ltac:(apply fst_in; eauto) HrR) Hf) in Hz. cbn in Hz. apply bool_decide_eq_false in Hz. tauto. }
    rewrite E1. cbn [mbind option_bind].
    set (cols1 := (fun cs : nat * nat => (cs.1, if d row cs.1 then cs.2 else cs.2 - 1)) <$> cols) in *.
    assert (Hf : cols1.*1 = cols.*1) by (unfold cols1; rewrite <- list_fmap_compose; done).
    destruct (IH (Rm ++ [row]) d1 cols1) as (d2&cols2&H1&H2&H3&H4).
    + rewrite Hf. done.
    + rewrite Hf. done.
    + done.
    + intros r Hrr. destruct (Hr r) as [? Hrm]; [ins|]. split; [done|]. assert (Hne : r <> row) by (intros ->; done). clear -Hrm Hne. set_solver.
    + intros c s Hc. unfold cols1 in Hc. apply elem_of_list_fmap in Hc as ([c' s']&[= -> ->]&Hc). cbn.
      assert (Hcin : c' ∈ cols.*1) by (apply fst_in; eauto). rewrite (Hs c' s' Hc).
      pose proof (Hd row c' Hrn Hcin HrR) as Hiff. destruct (d row c') eqn:E.
      * apply cnt_ext. intros j Hj. destruct (less c' j) eqn:El; [|done]. cbn. apply bool_decide_ext.
        assert (Hne : j <> row); [|clear -Hne; set_solver]. intros ->. destruct Hiff as [_ Hiff]. specialize (Hiff El). done.
      * rewrite (cnt_S n (fun r => less c' r && bool_decide (r ∉ Rm ++ [row])) _ row); [lia|done|..].
        -- rewrite bool_decide_false by (clear; set_solver). apply andb_false_r.
        -- rewrite (proj1 Hiff) by done. cbn. apply bool_decide_eq_true. done.
        -- intros x Hx Hxr. f_equal. apply bool_decide_ext. clear -Hxr. set_solver.
    + intros r c Hrn' Hc Hnin. rewrite Hf in Hc. rewrite Hd1 by (intros ->; apply Hnin; clear; set_solver). apply Hd; [done|done|]. clear -Hnin. set_solver.
    + exists d2, cols2. split; [done|]. rewrite Hf in H2, H4.
      replace (Rm ++ row :: rows) with ((Rm ++ [row]) ++ rows) by (rewrite <- app_assoc; done). split; [done|]. split; [done|]. done.
Qed.

Hypothesis Hirr : forall i, i < n -> less i i = false.
Hypothesis Htr : forall i j k, i < n -> j < n -> k < n -> less i j = true -> less j k = true -> less i k = true.

Record dds_inv (rank : nat) (d : nat -> nat -> bool) (cols : list (nat * nat)) (pf : list element) : Prop := {
  di_nodup : NoDup cols.*1;
  di_cols : forall c, c ∈ cols.*1 <-> c < n /\ c ∉ pf.*1;
  di_pf : NoDup pf.*1;
  di_pfn : forall i, i ∈ pf.*1 -> i < n;
  di_sum : forall c s, (c, s) ∈ cols -> s = outsum c pf.*1;
  di_d : forall r c, r < n -> c ∈ cols.*1 -> r ∉ pf.*1 -> d r c = false <-> less c r = true;
  di_rank : forall e, e ∈ pf -> e.2 < rank;
  di_sort : by_rank pf;
  di_ranked : ranked less pf;
  di_last : forall k c, rank = S k -> c ∈ cols.*1 -> exists j, j < n /\ less c j = true /\ (j ∉ pf.*1 \/ (j, k) ∈ pf);
  di_closed : forall i j, i ∈ pf.*1 -> j < n -> less i j = true -> j ∈ pf.*1;
}.

Lemma dds_loop_ok fuel : forall rank d cols pf, n < fuel + length pf -> dds_inv rank d cols pf ->
  exists res, dds_loop n fuel rank d cols pf = Some res /\ res.*1 ≡ₚ seq 0 n /\ by_rank res /\ ranked less res.
Proof.
  induction fuel as [|fuel IH]; intros rank d cols pf Hf H.
  - exfalso. cbn in Hf. assert (pf.*1 ⊆+ seq 0 n) as Hs.
    { apply NoDup_submseteq; [apply (di_pf _ _ _ _ H)|]. intros i Hi. apply elem_of_seq. apply (di_pfn _ _ _ _ H) in Hi. lia. }
    apply submseteq_length in Hs. rewrite fmap_length, seq_length in Hs. lia.
  - cbn [dds_loop].
    assert (Hsub : pf.*1 ⊆+ seq 0 n).
    { apply NoDup_submseteq; [apply (di_pf _ _ _ _ H)|]. intros i Hi. apply elem_of_seq. apply (di_pfn _ _ _ _ H) in Hi. lia. }
    destruct H as [H1 H2 H3 H4 H5 H6 H7 H8 H9 H10 H11].
    destruct (decide (length pf = n)) as [Hn|Hn].
    { exists pf. split; [done|]. split; [|done]. apply submseteq_Permutation_length_eq; [|done]. rewrite fmap_length, seq_length. lia. }
    set (removed := (filter (fun c : nat * nat => c.2 = 0) cols).*1) in *.
    set (rest := filter (fun c : nat * nat => c.2 <> 0) cols) in *.
    assert (Hrem : forall i, i ∈ removed <-> i < n /\ i ∉ pf.*1 /\ forall j, j < n -> less i j = true -> j ∈ pf.*1).
    { intros i. unfold removed. rewrite fst_in. split.
      - intros (s&Hs). apply elem_of_list_filter in Hs as [Hs Hin]. cbn in Hs. subst s.
        assert (i ∈ cols.*1) as Hi by (apply fst_in; eauto). apply H2 in Hi as [Hi1 Hi2]. split; [done|]. split; [done|].
        apply H5 in Hin. symmetry in Hin. rewrite cnt_0 in Hin. intros j Hj Hl. specialize (Hin j Hj). rewrite Hl in Hin. cbn in Hin.
        apply bool_decide_eq_false in Hin. destruct (decide (j ∈ pf.*1)); tauto.
      - intros (Hi1&Hi2&Hall). assert (i ∈ cols.*1) as Hi by (apply H2; done). apply fst_in in Hi as [s Hs]. exists s.
        apply elem_of_list_filter. split; [|done]. cbn. rewrite (H5 i s Hs). apply cnt_0. intros j Hj.
        destruct (less i j) eqn:E; [|done]. cbn. apply bool_decide_eq_false. specialize (Hall j Hj E). tauto. }
    assert (Hrest : forall c, c ∈ rest.*1 <-> c ∈ cols.*1 /\ c ∉ removed).
    { intros c. rewrite !fst_in. unfold removed. rewrite fst_in. split.
      - intros (s&Hs). apply elem_of_list_filter in Hs as [Hz Hs]. split; [eauto|]. intros (s'&Hs'). apply elem_of_list_filter in Hs' as [Hz' Hs'].
        apply H5 in Hs, Hs'. cbn in *. congruence.
      - intros [(s&Hs) Hn']. exists s. apply elem_of_list_filter. split; [|done]. intros Hz. apply Hn'. exists s. apply elem_of_list_filter. done. }
    assert (Hfst : (pf ++ ((fun i => (i, rank)) <$> removed)).*1 = pf.*1 ++ removed).
    { rewrite fmap_app. f_equal. rewrite <- list_fmap_compose. apply list_fmap_id. }
    assert (Hndrem : NoDup removed).
    { unfold removed. apply NoDup_filter_fst. done. }
    assert (Hndrest : NoDup rest.*1).
    { unfold rest. apply NoDup_filter_fst. done. }
    destruct (remove_rows_ok removed pf.*1 d rest) as (d'&cols'&R1&R2&R3&R4).
    { done. }
    { intros c Hc. apply Hrest in Hc as [Hc _]. apply H2. done. }
    { done. }
    { intros r Hr. apply Hrem in Hr as (?&?&_). done. }
    { intros c s Hc. apply H5. unfold rest in Hc. apply elem_of_list_filter in Hc as [_ Hc]. done. }
    { intros r c Hr Hc Hnr. apply Hrest in Hc as [Hc _]. apply H6; done. }
    rewrite R1. cbn [mbind option_bind].
    assert (Hne : removed <> []).
    { intros E. set (out := filter (fun i => i ∉ pf.*1) (seq 0 n)).
      destruct (maximal_exists n less Hirr Htr out) as (x&Hx&Hmax).
      - intros Ho. assert (seq 0 n ⊆+ pf.*1) as Hs2.
        { apply NoDup_submseteq; [apply NoDup_seq|]. intros i Hi. destruct (decide (i ∈ pf.*1)); [done|].
          assert (Hin : i ∈ out) by (unfold out; apply elem_of_list_filter; done). rewrite Ho in Hin. set_solver. }
        apply submseteq_length in Hs2, Hsub. rewrite fmap_length, seq_length in *. lia.
      - intros x Hx. apply elem_of_list_filter in Hx as [_ Hx]. apply elem_of_seq in Hx. lia.
      - apply elem_of_list_filter in Hx as [HxA Hx]. apply elem_of_seq in Hx.
        assert (x ∈ removed) as Hin; [|rewrite E in Hin; set_solver]. apply Hrem. split; [lia|]. split; [done|].
        intros j Hj Hl. destruct (decide (j ∈ pf.*1)) as [|Hjn]; [done|]. rewrite Hmax in Hl; [done|].
        apply elem_of_list_filter. rewrite elem_of_seq. split; [done|lia]. }
    assert (Hin : forall i r, (i, r) ∈ pf ++ ((fun i => (i, rank)) <$> removed) <-> (i, r) ∈ pf \/ (i ∈ removed /\ r = rank)).
    { intros i r. rewrite elem_of_app, elem_of_list_fmap. split; (intros [?|Hi]; [auto|right]).
      - destruct Hi as (y&[= -> ->]&Hy). done.
      - destruct Hi as [Hi ->]. eauto. }
    apply IH.
    + rewrite app_length, fmap_length. destruct removed; [done|]. cbn [length]. lia.
    + split; rewrite ?Hfst.
      * rewrite R2. done.
      * intros c. rewrite R2, Hrest, H2, not_elem_of_app. tauto.
      * apply NoDup_app. split; [done|]. split; [|done]. intros i Hi Hi'. apply Hrem in Hi'. tauto.
      * intros i Hi. apply elem_of_app in Hi as [Hi|Hi]; [auto|]. apply Hrem in Hi. tauto.
      * done.
      * intros r c Hr Hc Hnr. rewrite R2 in Hc. apply R4; done.
      * intros [i r] He. apply Hin in He as [He|[He ->]]; [apply H7 in He; cbn in *; lia|cbn; lia].
      * apply by_rank_app. split; [done|]. split; [apply by_rank_same|]. intros e [i r] He Hi. apply elem_of_list_fmap in Hi as (y&[= -> ->]&_).
        apply H7 in He. cbn. lia.
      * split.
        -- intros i r j s Hi Hj Hl. apply Hin in Hi as [Hi|[Hi ->]], Hj as [Hj|[Hj ->]].
           ++ apply (rk_dom _ _ H9 i r j s); done.
           ++ exfalso. apply Hrem in Hj as (Hj1&Hj2&_). apply Hj2. apply (H11 i j); [apply fst_in; eauto|done..].
           ++ apply H7 in Hj. done.
           ++ exfalso. apply Hrem in Hi as (_&_&Hi). apply Hrem in Hj as (Hj1&Hj2&_). apply Hj2. auto.
        -- intros i r Hi. apply Hin in Hi as [Hi|[Hi E]].
           ++ destruct (rk_prev _ _ H9 i r Hi) as (j&Hj&?). exists j. rewrite Hin. auto.
           ++ assert (Hic : i ∈ cols.*1) by (apply Hrem in Hi as (?&?&_); apply H2; done).
              destruct (H10 r i (eq_sym E) Hic) as (j&Hj&Hl&Hor). exists j. rewrite Hin. split; [|done]. left.
              destruct Hor as [Hor|?]; [|done]. exfalso. apply Hor. apply Hrem in Hi as (_&_&Hi). auto.
      * intros k c [= <-] Hc. rewrite R2 in Hc. apply Hrest in Hc as [Hc Hcr].
        destruct (decide (outsum c pf.*1 = 0)) as [Hz|Hnz].
        -- exfalso. apply Hcr, Hrem. apply H2 in Hc as [? ?]. split; [done|]. split; [done|]. rewrite cnt_0 in Hz. intros j Hj Hl.
           specialize (Hz j Hj). rewrite Hl in Hz. cbn in Hz. apply bool_decide_eq_false in Hz. destruct (decide (j ∈ pf.*1)); tauto.
        -- destruct (cnt_nonzero _ Hnz) as (j&Hj&Hp). apply andb_true_iff in Hp as [Hl Hp]. apply bool_decide_eq_true in Hp.
           exists j. split; [done|]. split; [done|]. rewrite Hin. destruct (decide (j ∈ removed)) as [|Hjr]; [auto|]. left.
           rewrite not_elem_of_app. done.
      * intros i j Hi Hj Hl. apply elem_of_app in Hi as [Hi|Hi].
        -- apply elem_of_app. left. apply (H11 i j); done.
        -- apply elem_of_app. left. apply Hrem in Hi as (_&_&Hi). auto.
Qed.

(** [visits]: (r, c) is visited iff r is worse than c in some objective. *)
Lemma dds_exact fuel visits res : n < fuel ->
  (forall r c, r < n -> c < n -> less c r = true <-> ~ visited visits (r, c) /\ visited visits (c, r)) ->
  dominanceDegreeSort n fuel visits res ->
  exists L, res = Some L /\ L.*1 ≡ₚ seq 0 n /\ by_rank L /\ ranked less L.
Proof.
  intros Hf Hv [s Hr Hfin]. pose proof (dtasks_result _ _ Hr Hfin) as Hm. unfold dds_finish.
  set (d := dd_symmetrise n (dmat_of s)).
  assert (Hd : forall r c, r < n -> c < n -> d r c = false <-> less c r = true).
  { intros r c Hrn Hcn. unfold d. rewrite symmetrise_false, Hv, <- !Hm by done. rewrite not_true_iff_false. split; [tauto|].
    intros [H1 H2]. split; [|done]. intros ->. congruence. }
  assert (Hfst : (colwiseSums n d).*1 = seq 0 n).
  { unfold colwiseSums. rewrite <- list_fmap_compose. apply list_fmap_id. }
  destruct (dds_loop_ok fuel 0 d (colwiseSums n d) []) as (L&HL).
  - cbn. lia.
  - split; rewrite ?Hfst; try done.
    + apply NoDup_seq.
    + intros c. rewrite elem_of_seq. cbn. split; [intros ?; split; [lia|set_solver]|intros [? _]; lia].
    + constructor.
    + set_solver.
    + intros c sm Hc. unfold colwiseSums in Hc. apply elem_of_list_fmap in Hc as (x&[= -> ->]&Hx). apply elem_of_seq in Hx.
      assert (E : forall l, (forall r, r ∈ l -> r < n) ->
        length l - length (filter (fun r => d r x = true) l) = length (filter (fun r => less x r && bool_decide (r ∉ ([] : list nat)) = true) l) /\
        length (filter (fun r => d r x = true) l) <= length l).
      { induction l as [|r l IH]; intros Hl; [done|]. destruct IH as [I1 I2]; [set_solver|]. rewrite !filter_cons.
        rewrite (bool_decide_true (r ∉ ([] : list nat))) by set_solver. rewrite andb_true_r.
        assert (Hrn : r < n) by (apply Hl; set_solver). pose proof (Hd r x Hrn ltac:(lia)) as Hiff.
        destruct (decide (d r x = true)) as [Hdx|Hdx].
        - rewrite decide_False by (rewrite <- Hiff; congruence). cbn [length]. lia.
        - rewrite decide_True by (rewrite <- Hiff; destruct (d r x); done). cbn [length]. lia. }
      pose proof (proj1 (E (seq 0 n) ltac:(intros r Hr'; apply elem_of_seq in Hr'; lia))) as E1. rewrite seq_length in E1. exact E1.
    + intros r c Hrn Hc _. apply elem_of_seq in Hc. apply Hd; lia.
    + set_solver.
    + split; set_solver.
    + set_solver.
  - eauto.
Qed.
End Degree.

(** ** Visits of one task on an ascending sequence *)
Lemma drop_equal_in (eq : nat -> nat -> bool) (v : nat -> nat -> Prop) row l :
  (forall p, p ∈ l -> eq p row = false <-> v row p) ->
  (forall i j a b, i < j -> l !! i = Some a -> l !! j = Some b -> v row a -> v row b) ->
  forall c, c ∈ drop_equal eq row l <-> c ∈ l /\ v row c.
Proof.
  induction l as [|p l IH]; intros He Hs c; cbn [drop_equal]; [set_solver|]. destruct (eq p row) eqn:E.
  - rewrite IH.
    + rewrite elem_of_cons. split; [intros [? ?]; auto|]. intros [[->|?] Hc]; [|auto]. apply He in Hc; [congruence|ins].
    + intros q Hq. apply He. ins.
    + intros i j a b Hij. apply (Hs (S i) (S j)). lia.
  - split; [|tauto]. intros Hc. split; [done|]. apply elem_of_cons in Hc as [->|Hc]; [apply He; [ins|done]|].
    apply elem_of_list_lookup in Hc as [j Hj]. apply (Hs 0 (S j) p c); [lia|done..|]. apply He; [ins|done].
Qed.
Lemma objective_visits_in (eq : nat -> nat -> bool) (v : nat -> nat -> Prop) l : NoDup l ->
  (forall i j a b, i < j -> l !! i = Some a -> l !! j = Some b -> (eq b a = false <-> v a b) /\ ~ v b a) ->
  (forall i j k a b c, i < j -> j < k -> l !! i = Some a -> l !! j = Some b -> l !! k = Some c -> v a b -> v a c) ->
  (forall a, a ∈ l -> ~ v a a) ->
  forall r c, (r, c) ∈ objective_visits eq l <-> r ∈ l /\ c ∈ l /\ v r c.
Proof.
  induction l as [|row l IH]; intros Hnd He Hs Hi r c; cbn [objective_visits]; [set_solver|].
  apply NoDup_cons in Hnd as [Hrow Hnd].
  assert (Hd : forall c, c ∈ drop_equal eq row l <-> c ∈ l /\ v row c).
  { apply drop_equal_in.
    - intros p Hp. apply elem_of_list_lookup in Hp as [j Hj]. apply (He 0 (S j)); [lia|done..].
    - intros i j a b Hij Ha Hb. apply (Hs 0 (S i) (S j)); [lia|lia|done..]. }
  rewrite elem_of_app, IH.
  - rewrite elem_of_list_fmap. split.
    + intros [(x&[= -> ->]&Hx)|(?&?&?)]; [|split_and!; try done; ins]. apply Hd in Hx as [? ?]. split_and!; [ins..|done].
    + intros (Hr&Hc&Hv). apply elem_of_cons in Hr as [->|Hr].
      * left. exists c. split; [done|]. apply Hd. apply elem_of_cons in Hc as [->|Hc]; [|done]. exfalso. apply (Hi row); [ins|done].
      * apply elem_of_cons in Hc as [->|Hc]; [|auto]. exfalso. apply elem_of_list_lookup in Hr as [j Hj].
        destruct (He 0 (S j) row r) as [_ Hn]; [lia|done..|]. done.
  - done.
  - intros i j a b Hij. apply (He (S i) (S j)). lia.
  - intros i j k a b d Hij Hjk. apply (Hs (S i) (S j) (S k)); lia.
  - intros a Ha. apply Hi. ins.
Qed.
