From Coq Require Import Reals ZArith Lia Lra.
From Flocq Require Import BinarySingleNaN Core.
From stdpp Require Import list list_numbers sets.
From Verif Require Import StdSort AlgorithmModel AlgorithmSpec AlgorithmProofs.
From Verif Require Import FloatBase FloatModel FloatSpec FloatProofs ParetoModel ParetoProofs FrontModel FrontSpec.
Local Open Scope nat_scope.

Lemma flt_B2R (a b : b64) : is_finite a = true -> is_finite b = true -> flt a b = Rlt_bool (B2R a) (B2R b).
Proof.
  intros Ha Hb. rewrite flt_fval by (apply is_finite_not_nan; done). rewrite !fval_finite by done. done.
Qed.
Lemma feq_B2R (a b : b64) : is_finite a = true -> is_finite b = true -> feq a b = Req_bool (B2R a) (B2R b).
Proof.
  intros Ha Hb. rewrite feq_fval by (apply is_finite_not_nan; done). rewrite !fval_finite by done. done.
Qed.

(** ** The lexicographic order *)
Lemma lex_cons x u y v : is_finite x = true -> is_finite y = true ->
  lex_greater (x :: u) (y :: v) = true <-> (B2R y < B2R x)%R \/ (B2R x = B2R y /\ lex_greater u v = true).
Proof.
  intros Hx Hy. cbn. rewrite feq_B2R, flt_B2R by done. case Req_bool_spec; intros E; cbn.
  - split; [auto|]. intros [?|[_ ?]]; [lra|done].
  - rewrite Rlt_bool_iff. split; [auto|]. intros [?|[? _]]; [done|lra].
Qed.
Lemma finite_cons x u : finite_vec (x :: u) -> is_finite x = true /\ finite_vec u.
Proof. intros H. inversion H; subst. done. Qed.

Lemma lex_irrefl u : finite_vec u -> lex_greater u u = false.
Proof.
  induction u as [|x u IH]; intros H; [done|]. apply finite_cons in H as [Hx Hu].
  apply not_true_is_false. intros E. apply lex_cons in E as [?|[_ E]]; [lra| |done..]. rewrite IH in E; done.
Qed.
Lemma lex_trans u : forall v w, length u = length v -> length v = length w -> finite_vec u -> finite_vec v -> finite_vec w ->
  lex_greater u v = true -> lex_greater v w = true -> lex_greater u w = true.
Proof.
  induction u as [|x u IH]; intros [|y v] [|z w]; try done. intros Hl Hl' Hu Hv Hw.
  apply finite_cons in Hu as [Hx Hu]. apply finite_cons in Hv as [Hy Hv]. apply finite_cons in Hw as [Hz Hw].
  rewrite !lex_cons by done. intros [H1|[H1 H1']] [H2|[H2 H2']]; [left; lra|left; lra|left; lra|].
  right. split; [lra|]. apply (IH v w); auto.
Qed.
Lemma lex_total u : forall v, length u = length v -> finite_vec u -> finite_vec v ->
  lex_greater u v = true \/ lex_greater v u = true \/ Forall2 (fun x y => B2R x = B2R y) u v.
Proof.
  induction u as [|x u IH]; intros [|y v]; try done; [right; right; constructor|]. intros Hl Hu Hv.
  apply finite_cons in Hu as [Hx Hu]. apply finite_cons in Hv as [Hy Hv]. rewrite !lex_cons by done.
  destruct (Rtotal_order (B2R x) (B2R y)) as [H|[H|H]]; [auto| |auto].
  destruct (IH v) as [?|[?|?]]; auto 6.
Qed.
Lemma lex_eq_l u : forall v w, Forall2 (fun x y : b64 => B2R x = B2R y) u v -> length v = length w ->
  finite_vec u -> finite_vec v -> finite_vec w ->
  lex_greater u w = lex_greater v w /\ lex_greater w u = lex_greater w v.
Proof.
  induction u as [|x u IH]; intros v w H; inversion H as [|? y ? v' E H']; subst; clear H; [done|].
  destruct w as [|z w]; [done|]. intros Hl Hu Hv Hw.
  apply finite_cons in Hu as [Hx Hu]. apply finite_cons in Hv as [Hy Hv]. apply finite_cons in Hw as [Hz Hw].
  destruct (IH v' w) as [H1 H2]; auto.
  split; apply eq_true_iff_eq; rewrite !lex_cons by done; rewrite E, ?H1, ?H2; done.
Qed.
Lemma lex_negtrans u v w : length u = length v -> length v = length w -> finite_vec u -> finite_vec v -> finite_vec w ->
  lex_greater u v = false -> lex_greater v w = false -> lex_greater u w = false.
Proof.
  intros Hl Hl' Hu Hv Hw H1 H2. apply not_true_is_false. intros E.
  destruct (lex_total u v Hl Hu Hv) as [?|[H|H]]; [congruence| |].
  - rewrite (lex_trans v u w) in H2; [done|congruence|congruence|done..].
  - destruct (lex_eq_l _ _ w H) as [H3 _]; auto. congruence.
Qed.
Lemma dominated_lex u : forall v, finite_vec u -> finite_vec v -> dominated_by u v -> lex_greater v u = true.
Proof.
  induction u as [|x u IH]; intros v Hu Hv [HF (i&a&b&Ha&Hb&Hlt)]; [destruct i; done|].
  inversion HF as [|? y ? v' Hxy HF']; subst. apply finite_cons in Hu as [Hx Hu]. apply finite_cons in Hv as [Hy Hv].
  apply lex_cons; [done..|]. destruct (Rle_lt_or_eq_dec _ _ Hxy) as [?|E]; [left; done|right]. split; [done|].
  destruct i as [|i]; cbn in Ha, Hb; [injection Ha as ->; injection Hb as ->; lra|].
  apply IH; [done..|]. split; [done|]. eauto 8.
Qed.

(** ** Rows *)
Section Rows.
Context (t : tolerances) (d : nat) (m : list (list b64)).
Hypothesis Hm : matrix d m.
Lemma row_lookup i r : m !! i = Some r -> row m i = r.
Proof. intros H. unfold row. rewrite nth_lookup, H. done. Qed.
Lemma row_in i : i < length m -> m !! i = Some (row m i).
Proof. intros H. destruct (lookup_lt_is_Some_2 m i H) as [r Hr]. rewrite Hr. f_equal. symmetry. apply row_lookup. done. Qed.
Lemma row_ok i : i < length m -> length (row m i) = d /\ finite_vec (row m i).
Proof. intros H. apply row_in in H. unfold matrix in Hm. rewrite Forall_lookup in Hm. apply (Hm i). done. Qed.

Lemma row_swo : swo_on (row_lexgt m) (seq 0 (length m)).
Proof.
  unfold row_lexgt. split.
  - intros x Hx. apply elem_of_seq in Hx. apply lex_irrefl. apply row_ok. lia.
  - intros x y z Hx Hy Hz. apply elem_of_seq in Hx, Hy, Hz.
    destruct (row_ok x), (row_ok y), (row_ok z); try lia. apply lex_trans; congruence.
  - intros x y z Hx Hy Hz. apply elem_of_seq in Hx, Hy, Hz.
    destruct (row_ok x), (row_ok y), (row_ok z); try lia. apply lex_negtrans; congruence.
Qed.

Section Ex.
Hypothesis Hex : exact t.
Lemma row_less_dom i j : i < length m -> j < length m -> (row_less t m i j = true <-> dominated_by (row m i) (row m j)).
Proof.
  intros Hi Hj. destruct Hex as (H1&H2&H3). destruct (row_ok i Hi), (row_ok j Hj).
  apply pareto_less_exact; (done || congruence).
Qed.
Lemma row_irrefl i : i < length m -> row_less t m i i = false.
Proof. intros Hi. apply not_true_is_false. rewrite row_less_dom by done. apply dominated_irrefl. Qed.
Lemma row_trans i j k : i < length m -> j < length m -> k < length m ->
  row_less t m i j = true -> row_less t m j k = true -> row_less t m i k = true.
Proof. intros Hi Hj Hk. rewrite !row_less_dom by done. apply dominated_trans. Qed.
Lemma row_cmp_ok i j : i < length m -> j < length m ->
  ((row_cmp t m i j < 0)%Z <-> row_less t m i j = true) /\ ((0 < row_cmp t m i j)%Z <-> row_less t m j i = true).
Proof.
  intros Hi Hj. destruct Hex as (H1&H2&H3). destruct (row_ok i Hi) as [Hli Hfi], (row_ok j Hj) as [Hlj Hfj].
  unfold row_cmp, row_less.
  assert (Hl : length (row m i) = length (row m j)) by congruence. assert (Hl' : length (row m j) = length (row m i)) by congruence.
  pose proof (paretoCompare_swap t H1 _ _ Hl Hfi Hfj) as Hsw.
  pose proof (paretoCompare_agree t H1 _ _ Hl Hfi Hfj (or_introl H3)) as Ha.
  pose proof (paretoCompare_agree t H1 _ _ Hl' Hfj Hfi (or_introl H3)) as Ha'.
  destruct (paretoCompare_spec t H1 _ _ Hl Hfi Hfj) as (_&_&Hv). rewrite <- Ha, <- Ha', <- Hsw. clear -Hv. lia.
Qed.
Lemma row_dom_lex i j : i < length m -> j < length m -> row_less t m i j = true -> row_lexgt m j i = true.
Proof. intros Hi Hj. rewrite row_less_dom by done. apply dominated_lex; apply row_ok; done. Qed.

Lemma maximal_front front : NoDup front ->
  (forall x, x ∈ front <-> x < length m /\ maximal (length m) (row_less t m) x) -> exact_front m front.
Proof.
  intros Hnd H. split; [done|]. intros i. rewrite H. split.
  - intros [Hi Hmax]. exists (row m i). split; [apply row_in; done|]. intros r' Hr' Hdom.
    apply elem_of_list_lookup in Hr' as [j Hj]. pose proof (lookup_lt_Some _ _ _ Hj) as Hjl.
    rewrite <- (row_lookup j r' Hj) in Hdom. apply row_less_dom in Hdom; [|done..]. rewrite Hmax in Hdom; done.
  - intros (r&Hr&Hn). pose proof (lookup_lt_Some _ _ _ Hr) as Hi. split; [done|]. intros j Hj.
    apply not_true_is_false. rewrite row_less_dom by done. rewrite (row_lookup i r Hr). apply Hn.
    apply elem_of_list_lookup. exists j. apply row_in. done.
Qed.

Lemma front_best_exact : exists front, findParetoFrontBestF t m = Some front /\ exact_front m front.
Proof.
  destruct (best_exact (length m) (row_less t m) (row_cmp t m)) as (front&H1&H2&H3).
  - apply row_irrefl.
  - apply row_trans.
  - apply row_cmp_ok.
  - exists front. split; [done|]. apply maximal_front; done.
Qed.
Lemma front_sort_exact sort : sort_contract sort -> exists front, findParetoFrontSortF t m sort = Some front /\ exact_front m front.
Proof.
  intros Hs. destruct (sort_front (length m) (row_less t m) (row_cmp t m) sort (row_lexgt m) Hs row_swo) as (front&H1&H2&_).
  exists front. split; [done|].
  destruct (front_exact (length m) (row_less t m) sort (row_lexgt m) Hs row_swo front row_irrefl row_trans row_dom_lex H2) as [H3 H4].
  apply maximal_front; done.
Qed.
Lemma front_kung_exact sort : sort_contract sort -> m <> [] ->
  exists front, findParetoFrontKungF t m sort = Some front /\ exact_front m front.
Proof.
  intros Hs Hne. destruct (kung_front (length m) (row_less t m) (row_cmp t m) sort (row_lexgt m) Hs row_swo row_trans) as (front&H1&H2).
  { destruct m; [done|cbn; lia]. }
  exists front. split; [done|].
  destruct (front_exact (length m) (row_less t m) sort (row_lexgt m) Hs row_swo front row_irrefl row_trans row_dom_lex H2) as [H3 H4].
  apply maximal_front; done.
Qed.
End Ex.
End Rows.

(** ** One objective *)
Lemma flt_swo (l : list b64) : finite_vec l -> swo_on flt l.
Proof.
  intros H. assert (Hf : forall x, x ∈ l -> is_finite x = true) by (apply Forall_forall; exact H). split.
  - intros x Hx. rewrite flt_B2R by auto. apply Rlt_bool_false. lra.
  - intros x y z Hx Hy Hz. rewrite !flt_B2R by auto. rewrite !Rlt_bool_iff. lra.
  - intros x y z Hx Hy Hz. rewrite !flt_B2R by auto. rewrite !Rlt_bool_iff_false. lra.
Qed.

Section One.
Context (t : tolerances) (m : list (list b64)).
Hypothesis Hm : matrix 1 m.
Hypothesis Hne : m <> [].
Lemma one_row r : r ∈ m -> r = [elem0 r] /\ is_finite (elem0 r) = true.
Proof.
  intros Hr. unfold matrix in Hm. rewrite Forall_forall in Hm. destruct (Hm r Hr) as [Hl Hf].
  destruct r as [|x [|]]; try done. apply finite_cons in Hf as [Hf _]. done.
Qed.
Lemma one_max : exists k best, m !! max_element flt elem0 m = Some best /\ max_element flt elem0 m = k /\
  forall r, r ∈ m -> (B2R (elem0 r) <= B2R (elem0 best))%R.
Proof.
  assert (Hf : finite_vec (elem0 <$> m)).
  { apply Forall_forall. intros x Hx. apply elem_of_list_fmap in Hx as (r&->&Hr). apply one_row. done. }
  destruct (max_element_ok flt elem0 m Hne (flt_swo _ Hf)) as (x&Hx&Hmax&_).
  rewrite list_lookup_fmap in Hx. destruct (m !! max_element flt elem0 m) as [best|] eqn:E; [|done]. cbn in Hx.
  injection Hx as <-. exists (max_element flt elem0 m), best. split; [done|]. split; [done|]. intros r Hr.
  pose proof (elem_of_list_lookup_2 _ _ _ E) as Hb.
  destruct (one_row r Hr) as [_ Hfr]. destruct (one_row best Hb) as [_ Hfb].
  apply elem_of_list_lookup in Hr as [j Hj]. specialize (Hmax j (elem0 r)).
  rewrite list_lookup_fmap, Hj in Hmax. specialize (Hmax eq_refl). rewrite flt_B2R in Hmax by done.
  rewrite Rlt_bool_iff_false in Hmax. lra.
Qed.
End One.

Lemma find_indices_in {A} (p : A -> bool) l i : i ∈ find_indices p l <-> exists x, l !! i = Some x /\ p x = true.
Proof.
  unfold find_indices. rewrite find_indices_from_ok.
  split; [intros (j&x&->&Hj&Hp); eauto|intros (x&Hx&Hp); exists i, x; done].
Qed.
Lemma find_indices_nodup {A} (p : A -> bool) l : NoDup (find_indices p l).
Proof.
  apply NoDup_alt. intros a b x Ha Hb. destruct (find_indices_from_sorted p l 0) as [_ H].
  destruct (Nat.lt_trichotomy a b) as [Hab|[?|Hab]]; [|done|]; specialize (H _ _ _ _ Hab Ha Hb) || specialize (H _ _ _ _ Hab Hb Ha); lia.
Qed.

Lemma front_1D_exact t m : exact t -> matrix 1 m -> m <> [] ->
  exists front, findParetoFront1D t m = Some front /\ exact_front m front.
Proof.
  intros (H1&H2&H3) Hm Hne. destruct (one_max m Hm Hne) as (k&best&Hb&_&Hmax).
  unfold findParetoFront1D. rewrite Hb. cbn [mbind option_bind]. eexists. split; [done|]. split; [apply find_indices_nodup|].
  intros i. rewrite find_indices_in. pose proof (elem_of_list_lookup_2 _ _ _ Hb) as Hbin.
  destruct (one_row m Hm best Hbin) as [Eb Hfb].
  split; intros (r&Hr&Hp); exists r; (split; [done|]); pose proof (elem_of_list_lookup_2 _ _ _ Hr) as Hrin;
    destruct (one_row m Hm r Hrin) as [Er Hfr].
  - rewrite floatIsEqual_exact in Hp by done. intros r' Hr' [_ (j&x&y&Hx&Hy&Hlt)].
    destruct (one_row m Hm r' Hr') as [Er' Hfr']. rewrite Er in Hx. rewrite Er' in Hy.
    destruct j as [|[|]]; try done. injection Hx as <-. injection Hy as <-. specialize (Hmax r' Hr').
    revert Hp. case Req_bool_spec; [|done]. lra.
  - rewrite floatIsEqual_exact by done. case Req_bool_spec; [done|]. intros E. exfalso. apply (Hp best Hbin).
    specialize (Hmax r Hrin). rewrite Er, Eb. split; [constructor; [cbn; done|constructor]|].
    exists 0, (elem0 r), (elem0 best). cbn. split; [done|]. split; [done|]. lra.
Qed.

Lemma front_exact_all t d m : exact t -> 0 < d -> matrix d m ->
  exists front, findParetoFront t m d = Some front /\ exact_front m front.
Proof.
  intros Hex Hd Hm. unfold findParetoFront. destruct (decide (m = [])) as [->|Hne].
  - exists []. split; [done|]. split; [apply NoDup_nil_2|]. intros i. split; [set_solver|]. intros (r&Hr&_).
    rewrite lookup_nil in Hr. done.
  - destruct (decide (d = 1)) as [->|Hd1]; [apply front_1D_exact; done|]. apply (front_best_exact t d m Hm Hex).
Qed.

Lemma exact_front_unique m f g : exact_front m f -> exact_front m g -> f ≡ₚ g.
Proof. intros [Hf Hf'] [Hg Hg']. apply NoDup_Permutation; [done..|]. intros i. rewrite Hf', Hg'. done. Qed.

(** ** Nadir points *)
Lemma elementwise_min_val (a r : list b64) d : length a = d -> length r = d -> finite_vec a -> finite_vec r ->
  exists p, elementwise_min flt a r = Some p /\ length p = d /\ finite_vec p /\
    forall k x y, a !! k = Some x -> r !! k = Some y -> exists z, p !! k = Some z /\ B2R z = Rmin (B2R x) (B2R y).
Proof.
  revert r d. induction a as [|x a IH]; intros [|y r] d Ha Hr Hfa Hfr; cbn in Ha, Hr; try lia.
  - exists []. split; [done|]. split; [done|]. split; [constructor|]. intros k x y Hx. rewrite lookup_nil in Hx. done.
  - destruct d as [|d]; [lia|]. apply finite_cons in Hfa as [Hx Hfa]. apply finite_cons in Hfr as [Hy Hfr].
    destruct (IH r d) as (p&Hp&Hl&Hf&Hk); [lia|lia|done|done|]. unfold elementwise_min in *. cbn [elementwise]. rewrite Hp.
    cbn [mbind option_bind]. eexists. split; [done|]. split; [cbn; lia|]. split.
    + constructor; [unfold std_min; destruct (flt y x); done|done].
    + intros [|k] a' b' Ha' Hb'; cbn in *; [|eauto]. injection Ha' as ->. injection Hb' as ->. eexists. split; [done|].
      unfold std_min. rewrite flt_B2R by done. case Rlt_bool_spec; intros H; symmetry; [apply Rmin_right; lra|apply Rmin_left; lra].
Qed.

Lemma nadir_loop_ok d rest : forall a, length a = d -> finite_vec a -> matrix d rest ->
  exists p, nadir_loop rest (Some a) = Some p /\ componentwise_min d (fun r => r ∈ a :: rest) p.
Proof.
  induction rest as [|r rest IH]; intros a Ha Hfa Hm.
  - exists a. split; [done|]. split; [done|]. intros k x Hx. split.
    + exists a, x. split; [set_solver|]. done.
    + intros r y Hr Hy. apply elem_of_list_singleton in Hr as ->. rewrite Hx in Hy. injection Hy as ->. lra.
  - inversion Hm as [|? ? [Hr Hfr] Hm']; subst.
    destruct (elementwise_min_val a r (length a)) as (p&Hp&Hpl&Hpf&Hpk); [done|lia|done|done|].
    destruct (IH p Hpl Hpf Hm') as (q&Hq&Hql&Hqk).
    exists q. split; [unfold nadir_loop in *; cbn [fold_left]; cbn [mbind option_bind]; rewrite Hp; done|].
    split; [done|]. intros k x Hx. destruct (Hqk k x Hx) as [(r0&y&Hr0&Hy&Hyx) Hmin].
    assert (Hkl : k < length a) by (apply lookup_lt_Some in Hx; lia).
    destruct (lookup_lt_is_Some_2 a k Hkl) as [xa Hxa]. destruct (lookup_lt_is_Some_2 r k) as [xr Hxr]; [lia|].
    destruct (Hpk k xa xr Hxa Hxr) as (z&Hz&Hzv).
    pose proof (Hmin p z ltac:(set_solver) Hz) as Hpz.
    split.
    + apply elem_of_cons in Hr0 as [->|Hr0].
      * rewrite Hz in Hy. injection Hy as <-. rewrite Hzv in Hyx. destruct (Rle_dec (B2R xa) (B2R xr)) as [Hle|Hle].
        -- exists a, xa. split; [set_solver|]. split; [done|]. rewrite Rmin_left in Hyx; lra.
        -- exists r, xr. split; [set_solver|]. split; [done|]. rewrite Rmin_right in Hyx; lra.
      * exists r0, y. split; [set_solver|]. done.
    + intros r1 y1 Hr1 Hy1. apply elem_of_cons in Hr1 as [->|Hr1].
      { rewrite Hxa in Hy1. injection Hy1 as <-. pose proof (Rmin_l (B2R xa) (B2R xr)). lra. }
      apply elem_of_cons in Hr1 as [->|Hr1].
      { rewrite Hxr in Hy1. injection Hy1 as <-. pose proof (Rmin_r (B2R xa) (B2R xr)). lra. }
      apply (Hmin r1); [set_solver|done].
Qed.

Lemma front_nadir_ok d m : matrix d m -> m <> [] ->
  exists p, findFrontNadirPoint m = Some p /\ componentwise_min d (fun r => r ∈ m) p.
Proof. intros Hm Hne. destruct m as [|r rest]; [done|]. inversion Hm as [|? ? [Hr Hf] Hm']; subst. apply nadir_loop_ok; done. Qed.

Lemma select_copy_ok {A} (l : list A) is : (forall i, i ∈ is -> i < length l) ->
  exists k, select_copy l is = Some k /\ forall x, x ∈ k <-> exists i, i ∈ is /\ l !! i = Some x.
Proof.
  induction is as [|i is IH]; intros H.
  - exists []. split; [done|]. intros x. split; [set_solver|]. intros (i&Hi&_). set_solver.
  - destruct (lookup_lt_is_Some_2 l i) as [y Hy]; [apply H; set_solver|].
    destruct IH as (k&Hk&Hx); [intros; apply H; set_solver|]. cbn. rewrite Hy, Hk. cbn. eexists. split; [done|].
    intros x. rewrite elem_of_cons, Hx. split.
    + intros [->|(j&Hj&?)]; [exists i; set_solver|exists j; set_solver].
    + intros (j&Hj&Hl). apply elem_of_cons in Hj as [->|Hj]; [left; congruence|right; eauto].
Qed.
Lemma componentwise_min_ext d S S' p : (forall r, S r <-> S' r) -> componentwise_min d S p -> componentwise_min d S' p.
Proof.
  intros H [Hl Hk]. split; [done|]. intros k x Hx. destruct (Hk k x Hx) as [(r&y&Hr&?) Hmin].
  split; [exists r, y; rewrite <- H; done|]. intros r' y' Hr'. apply Hmin. apply H. done.
Qed.

Lemma front_indices_bound m front i : exact_front m front -> i ∈ front -> i < length m.
Proof. intros [_ H] Hi. apply H in Hi as (r&Hr&_). apply lookup_lt_Some in Hr. done. Qed.

(** A finite matrix has a non-dominated row. *)
Lemma front_nonempty t d m front : exact t -> 0 < d -> matrix d m -> m <> [] -> exact_front m front -> front <> [].
Proof.
  intros Hex Hd Hm Hne Hf E. subst.
  destruct (best_gen (length m) (row_less t m) (row_cmp t m)) as (f&Hr&Hnd&_&Hpos&_).
  destruct (front_best_exact t d m Hm Hex) as (f'&Hr'&Hf'). unfold findParetoFrontBestF in Hr'. rewrite Hr in Hr'. injection Hr' as <-.
  pose proof (exact_front_unique _ _ _ Hf Hf') as Hp. apply Permutation_nil_l in Hp.
  apply Hpos; [|congruence]. destruct m; [done|cbn; lia].
Qed.

Lemma nadir_ok t d m : exact t -> 0 < d -> matrix d m -> m <> [] ->
  exists p, findNadirPoint t d m = Some p /\ componentwise_min d (fun r => r ∈ m /\ nondominated m r) p.
Proof.
  intros Hex Hd Hm Hne. destruct (front_exact_all t d m Hex Hd Hm) as (front&Hf&Hfe).
  pose proof (front_nonempty _ _ _ _ Hex Hd Hm Hne Hfe) as Hfne.
  unfold findNadirPoint. rewrite decide_False by done. rewrite Hf. cbn [mbind option_bind].
  destruct (select_copy_ok m front) as (k&Hk&Hkx); [intros i; apply front_indices_bound; done|].
  rewrite Hk. cbn [mbind option_bind].
  assert (Hkm : forall r, r ∈ k <-> r ∈ m /\ nondominated m r).
  { intros r. rewrite Hkx. destruct Hfe as [_ Hfe]. split.
    - intros (i&Hi&Hr). apply Hfe in Hi as (r'&Hr'&Hn). rewrite Hr in Hr'. injection Hr' as <-.
      split; [apply elem_of_list_lookup; eauto|done].
    - intros [Hr Hn]. apply elem_of_list_lookup in Hr as [i Hi]. exists i. split; [apply Hfe; eauto|done]. }
  assert (Hkd : matrix d k).
  { apply Forall_forall. intros r Hr. apply Hkm in Hr as [Hr _]. unfold matrix in Hm. rewrite Forall_forall in Hm. auto. }
  destruct k as [|r k].
  - exfalso. apply Hfne. destruct front as [|i front]; [done|]. destruct (lookup_lt_is_Some_2 m i) as [r Hr].
    { apply (front_indices_bound m (i :: front)); [done|set_solver]. }
    assert (r ∈ []) as Hx by (apply Hkx; exists i; set_solver). set_solver.
  - inversion Hkd as [|? ? [Hr Hfr] Hkd']; subst. destruct (nadir_loop_ok (length r) k r eq_refl Hfr Hkd') as (p&Hp&Hc).
    exists p. split; [done|]. eapply componentwise_min_ext; [|exact Hc]. exact Hkm.
Qed.
