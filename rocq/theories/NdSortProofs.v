From Coq Require Import ZArith Lia.
From stdpp Require Import list list_numbers sets relations.
From Verif Require Import StdSort AlgorithmModel AlgorithmSpec AlgorithmProofs ParetoModel ParetoProofs NdSortModel.

Lemma fst_in (L : list element) i : i ∈ L.*1 <-> exists r, (i, r) ∈ L.
Proof.
  rewrite elem_of_list_fmap. split.
  - intros ([j r]&->&H). exists r. done.
  - intros [r H]. exists (i, r). done.
Qed.

(** Sorted by rank. *)
Definition by_rank (L : list element) : Prop := forall p q e f, p <= q -> L !! p = Some e -> L !! q = Some f -> e.2 <= f.2.
Lemma by_rank_nil : by_rank [].
Proof. intros p q e f _ H. done. Qed.
Lemma by_rank_app L K : by_rank (L ++ K) <-> by_rank L /\ by_rank K /\ forall e f, e ∈ L -> f ∈ K -> e.2 <= f.2.
Proof.
  split.
  - intros H. split_and!.
    + intros p q e f Hpq He Hf. apply (H p q); [done|apply lookup_app_l_Some; done..].
    + intros p q e f Hpq He Hf. apply (H (length L + p) (length L + q)); [lia|rewrite lookup_app_r by lia; rewrite Nat.add_comm, Nat.add_sub; done..].
    + intros e f He Hf. apply elem_of_list_lookup in He as [p Hp], Hf as [q Hq].
      pose proof (lookup_lt_Some _ _ _ Hp).
      apply (H p (length L + q)); [lia|apply lookup_app_l_Some; done|].
      rewrite lookup_app_r by lia. rewrite Nat.add_comm, Nat.add_sub. done.
  - intros (H1&H2&H3) p q e f Hpq He Hf. apply lookup_app_Some in He as [He|[Hp He]], Hf as [Hf|[Hq Hf]].
    + apply (H1 p q); done.
    + apply H3; eapply elem_of_list_lookup_2; done.
    + apply lookup_lt_Some in Hf. lia.
    + apply (H2 (p - length L) (q - length L)); [lia|done..].
Qed.
Lemma by_rank_same r l : by_rank ((fun i : nat => (i, r)) <$> l).
Proof.
  intros p q e f _ He Hf. rewrite list_lookup_fmap in He, Hf. destruct (l !! p), (l !! q); cbn in *; simplify_eq. cbn. lia.
Qed.

Section Sorts.
Context (n : nat) (less : nat -> nat -> bool).

(** Dominators have smaller ranks; a positive rank has a dominator one rank below. *)
Record ranked (L : list element) : Prop := {
  rk_dom : forall i r j s, (i, r) ∈ L -> (j, s) ∈ L -> less i j = true -> s < r;
  rk_prev : forall i r, (i, S r) ∈ L -> exists j, (j, r) ∈ L /\ less i j = true;
}.

(** ** ENS *)
Lemma front_span_app rank rest : exists rest', rest = front_span rank rest ++ rest' /\
  Forall (fun e : element => e.2 = rank) (front_span rank rest) /\
  (forall e rest'', rest' = e :: rest'' -> e.2 <> rank).
Proof.
  induction rest as [|e rest IH]; cbn; [exists []; done|]. destruct (decide (e.2 = rank)) as [He|He].
  - destruct IH as (rest'&H1&H2&H3). exists rest'. split; [cbn; congruence|]. split; [constructor; done|done].
  - exists (e :: rest). split; [done|]. split; [done|]. intros ? ? [= -> ->]. done.
Qed.

Lemma ens_search_ok idx fuel : forall rank before rest,
  length rest < fuel -> idx < n -> (forall i r, (i, r) ∈ rest -> i < n) ->
  by_rank (before ++ rest) -> (forall e, e ∈ before -> e.2 < rank) -> (forall e, e ∈ rest -> rank <= e.2) ->
  exists b c r, ens_search n less fuel idx rank before rest = Some (b ++ (idx, r) :: c) /\ before ++ rest = b ++ c /\
    rank <= r /\ (forall e, e ∈ b -> e.2 < r) /\ (forall e, e ∈ c -> r <= e.2) /\
    (forall i, (i, r) ∈ c -> less idx i = false) /\
    (forall r', rank <= r' -> r' < r -> exists i, (i, r') ∈ b /\ less idx i = true).
Proof.
  induction fuel as [|fuel IH]; intros rank before rest Hf Hidx Hb Hs Hlt Hge; [lia|]. cbn [ens_search].
  destruct rest as [|e0 rest0] eqn:Er.
  - exists before, [], rank. split; [done|]. split; [done|]. split; [lia|]. split; [done|]. split; [set_solver|]. split; [set_solver|].
    intros r' ? ?. lia.
  - rewrite <- Er in *. clear Er. destruct (front_span_app rank rest) as (rest'&E&Hall&Hnext).
    remember (front_span rank rest) as front eqn:Ef.
    assert (Hbf : forall o, o ∈ front.*1 -> o < n).
    { intros o Ho. apply fst_in in Ho as [r Ho]. apply (Hb o r). rewrite E. apply elem_of_app. auto. }
    destruct (any_dominates_ok n less (fun _ _ => 0%Z) idx front.*1 Hidx Hbf) as (d&Hd&Hiff). rewrite Hd. cbn [mbind option_bind].
    rewrite Forall_forall in Hall.
    assert (Hgt : forall e, e ∈ rest' -> rank < e.2).
    { intros e He. destruct rest' as [|e1 rest'']; [set_solver|].
      assert (rank <= e1.2) by (apply Hge; rewrite E; ins). pose proof (Hnext e1 rest'' eq_refl).
      rewrite E in Hs. rewrite app_assoc in Hs. apply by_rank_app in Hs as (_&Hs&_).
      apply elem_of_list_lookup in He as [q Hq]. pose proof (Hs 0 q e1 e ltac:(lia) eq_refl Hq). lia. }
    destruct d.
    + destruct Hiff as [(o&Ho&Hless) _]; [done|]. apply fst_in in Ho as [r Ho]. assert (r = rank) as -> by apply (Hall _ Ho).
      assert (drop (length front) rest = rest') as -> by (rewrite E; apply drop_app).
      assert (Hne : 0 < length front) by (destruct front; [set_solver|cbn; lia]).
      destruct (IH (S rank) (before ++ front) rest') as (b&c&r&H1&H2&H3&H4&H5&H6&H7).
      * rewrite E, app_length in Hf. lia.
      * done.
      * intros i r Hi. apply (Hb i r). rewrite E. ins.
      * rewrite <- app_assoc, <- E. done.
      * intros e He. apply elem_of_app in He as [He|He]; [apply Hlt in He; lia|apply Hall in He; lia].
      * intros e He. apply Hgt in He. lia.
      * exists b, c, r. split; [done|]. split; [rewrite E, app_assoc; done|]. split; [lia|]. split; [done|]. split; [done|]. split; [done|].
        intros r' Hr1 Hr2. destruct (decide (r' = rank)) as [->|]; [|apply H7; lia].
        exists o. split; [|done]. assert (Hin : (o, rank) ∈ b ++ c) by (rewrite <- H2; ins).
        apply elem_of_app in Hin as [?|Hin]; [done|]. apply H5 in Hin. cbn in Hin. lia.
    + exists before, rest, rank. split; [done|]. split; [done|]. split; [lia|]. split; [done|]. split; [done|].
      split; [|intros; lia]. intros i Hi. apply not_true_is_false. intros Hless.
      assert (false = true); [|done]. apply Hiff. exists i. split; [|done]. apply fst_in. exists rank.
      rewrite E in Hi. apply elem_of_app in Hi as [?|Hi]; [done|]. apply Hgt in Hi. cbn in Hi. lia.
Qed.

(** For every comparison: each index once, in order of rank. *)
Lemma ens_loop_safe ix : forall pf, (forall x, x ∈ ix -> x < n) -> (forall i r, (i, r) ∈ pf -> i < n) -> by_rank pf ->
  exists res, ens_loop n less ix pf = Some res /\ res.*1 ≡ₚ pf.*1 ++ ix /\ by_rank res.
Proof.
  induction ix as [|x ix IH]; intros pf Hix Hpf Hs; cbn [ens_loop].
  - exists pf. rewrite app_nil_r. done.
  - destruct (ens_search_ok x (S (length pf)) 0 [] pf) as (b&c&r&H1&H2&H3&H4&H5&H6&H7);
      [lia|apply Hix; set_solver|done|done|set_solver|intros; lia|].
    rewrite H1. cbn [mbind option_bind]. cbn [app] in H2. subst pf.
    destruct (IH (b ++ (x, r) :: c)) as (res&R1&R2&R3).
    + intros y Hy. apply Hix. set_solver.
    + intros i s Hi. apply elem_of_app in Hi as [Hi|Hi]; [apply (Hpf i s); ins|].
      apply elem_of_cons in Hi as [[= -> ->]|Hi]; [apply Hix; set_solver|apply (Hpf i s); ins].
    + apply by_rank_app in Hs as (Hb&Hc&Hbc). apply by_rank_app. split; [done|]. split.
      * change ((x, r) :: c) with ([(x, r)] ++ c). apply by_rank_app. split; [apply (by_rank_same r [x])|]. split; [done|].
        intros e f He Hf. apply elem_of_list_singleton in He as ->. apply H5. done.
      * intros e f He Hf. apply elem_of_cons in Hf as [->|Hf]; [|auto]. apply H4 in He. cbn. lia.
    + exists res. split; [done|]. split; [|done]. rewrite R2, !fmap_app. cbn. clear. solve_Permutation.
Qed.

Section Exact.
Hypothesis Hirr : forall i, i < n -> less i i = false.
Hypothesis Htr : forall i j k, i < n -> j < n -> k < n -> less i j = true -> less j k = true -> less i k = true.

(** A dominator at every smaller rank. *)
Lemma ranked_below L : (forall i r, (i, r) ∈ L -> i < n) -> ranked L ->
  forall r i s, (i, r) ∈ L -> s < r -> exists j, (j, s) ∈ L /\ less i j = true.
Proof.
  intros Hb [H1 H2]. induction r as [|r IH]; intros i s Hi Hs; [lia|]. destruct (H2 i r Hi) as (j&Hj&Hij).
  destruct (decide (s = r)) as [->|]; [eauto|]. destruct (IH j s) as (k&Hk&Hjk); [done|lia|].
  exists k. split; [done|]. apply (Htr i j k); eauto.
Qed.

Lemma ens_loop_exact ix : forall pf, NoDup ix -> (forall x, x ∈ ix -> x < n) -> (forall i r, (i, r) ∈ pf -> i < n) -> by_rank pf ->
  (forall x y, x ∈ ix -> y ∈ pf.*1 -> less y x = false) ->
  (forall p q x y, p < q -> ix !! p = Some x -> ix !! q = Some y -> less x y = false) ->
  ranked pf -> exists res, ens_loop n less ix pf = Some res /\ ranked res.
Proof.
  induction ix as [|x ix IH]; intros pf Hnd Hix Hpf Hs Hnew Hord Hr; cbn [ens_loop].
  - exists pf. done.
  - destruct (ens_search_ok x (S (length pf)) 0 [] pf) as (b&c&r&H1&H2&H3&H4&H5&H6&H7);
      [lia|apply Hix; set_solver|done|done|set_solver|intros; lia|].
    rewrite H1. cbn [mbind option_bind]. cbn [app] in H2. subst pf. apply NoDup_cons in Hnd as [Hx Hnd].
    assert (Hxn : x < n) by (apply Hix; set_solver).
    assert (Hin : forall i s, (i, s) ∈ b ++ (x, r) :: c -> (i, s) ∈ b ++ c \/ (i = x /\ s = r)).
    { intros i s Hi. apply elem_of_app in Hi as [Hi|Hi]; [left; ins|]. apply elem_of_cons in Hi as [[= -> ->]|Hi]; [auto|left; ins]. }
    assert (Hin' : forall i s, (i, s) ∈ b ++ c -> (i, s) ∈ b ++ (x, r) :: c) by (intros i s Hi; ins).
    destruct (IH (b ++ (x, r) :: c)) as (res&R1&R2).
    + done.
    + intros y Hy. apply Hix. set_solver.
    + intros i s Hi. destruct (Hin i s Hi) as [?|[-> ->]]; eauto.
    + apply by_rank_app in Hs as (Hb&Hc&Hbc). apply by_rank_app. split; [done|]. split.
      * change ((x, r) :: c) with ([(x, r)] ++ c). apply by_rank_app. split; [apply (by_rank_same r [x])|]. split; [done|].
        intros e f He Hf. apply elem_of_list_singleton in He as ->. apply H5. done.
      * intros e f He Hf. apply elem_of_cons in Hf as [->|Hf]; [|auto]. apply H4 in He. cbn. lia.
    + intros y z Hy Hz. apply fst_in in Hz as [s Hz]. destruct (Hin z s Hz) as [Hz'|[-> ->]].
      * apply Hnew; [set_solver|]. apply fst_in. eauto.
      * apply elem_of_list_lookup in Hy as [q Hq]. apply (Hord 0 (S q)); [lia|done..].
    + intros p q y z Hpq. apply (Hord (S p) (S q)). lia.
    + pose proof (ranked_below _ Hpf Hr) as Hbelow. destruct Hr as [Hr1 Hr2]. split.
      * intros i s j u Hi Hj Hij. destruct (Hin i s Hi) as [Hi'|[-> ->]], (Hin j u Hj) as [Hj'|[-> ->]].
        -- eauto.
        -- rewrite Hnew in Hij; [done|set_solver|]. apply fst_in. eauto.
        -- destruct (decide (u < r)) as [|Hu]; [done|]. exfalso.
           assert (exists k, (k, r) ∈ b ++ c /\ less x k = true) as (k&Hk&Hxk).
           { destruct (decide (u = r)) as [->|Hne]; [eauto|]. destruct (Hbelow u j r Hj') as (k&Hk&Hjk); [lia|].
             exists k. split; [done|]. apply (Htr x j k); eauto. }
           apply elem_of_app in Hk as [Hk|Hk]; [apply H4 in Hk; cbn in Hk; lia|]. rewrite (H6 k Hk) in Hxk. done.
        -- rewrite Hirr in Hij; done.
      * intros i s Hi. destruct (Hin i (S s) Hi) as [Hi'|[-> <-]].
        -- destruct (Hr2 i s Hi') as (j&Hj&?). eauto.
        -- destruct (H7 s) as (j&Hj&?); [lia..|]. exists j. split; [|done]. ins.
    + exists res. done.
Qed.

Lemma maximal_exists (P : list nat) : P <> [] -> (forall x, x ∈ P -> x < n) ->
  exists x, x ∈ P /\ forall y, y ∈ P -> less x y = false.
Proof.
  induction P as [|x P IH]; intros Hne Hb; [done|]. destruct (decide (P = [])) as [->|HP].
  - exists x. split; [set_solver|]. intros y Hy. apply elem_of_list_singleton in Hy as ->. apply Hirr, Hb. set_solver.
  - destruct IH as (y&Hy&Hmax); [done|set_solver|]. destruct (less y x) eqn:E.
    + exists x. split; [set_solver|]. intros z Hz. apply elem_of_cons in Hz as [->|Hz]; [apply Hirr, Hb; set_solver|].
      destruct (less x z) eqn:E'; [|done]. rewrite <- (Hmax z Hz). symmetry. apply (Htr y x z); try done; apply Hb; set_solver.
    + exists y. split; [set_solver|]. intros z Hz. apply elem_of_cons in Hz as [->|Hz]; [done|auto].
Qed.
End Exact.

Section Sorted.
Context (sort : (nat -> nat -> bool) -> list nat -> list nat) (lexgt : nat -> nat -> bool).
Hypothesis Hsort : sort_contract sort.
Hypothesis Hlex : swo_on lexgt (seq 0 n).
Lemma ens_safe : exists res, efficientNonDominatedSort n less sort lexgt = Some res /\ res.*1 ≡ₚ seq 0 n /\ by_rank res.
Proof.
  destruct (sorted_indices n sort lexgt Hsort Hlex) as [Hp _]. unfold efficientNonDominatedSort.
  destruct (ens_loop_safe (argsort sort lexgt false (index_vector n 0)) []) as (res&H1&H2&H3).
  - intros x. rewrite Hp, elem_of_seq. lia.
  - set_solver.
  - apply by_rank_nil.
  - exists res. split; [done|]. split; [|done]. rewrite H2, <- Hp. done.
Qed.
Lemma ens_exact res :
  (forall i, i < n -> less i i = false) ->
  (forall i j k, i < n -> j < n -> k < n -> less i j = true -> less j k = true -> less i k = true) ->
  (forall i j, i < n -> j < n -> less i j = true -> lexgt j i = true) ->
  efficientNonDominatedSort n less sort lexgt = Some res -> ranked res.
Proof.
  intros Hirr Htr Hdl. destruct (sorted_indices n sort lexgt Hsort Hlex) as [Hp Hs]. unfold efficientNonDominatedSort.
  remember (argsort sort lexgt false (index_vector n 0)) as ix eqn:E. clear E. intros Hres.
  assert (Hb : forall x, x ∈ ix -> x < n) by (intros x; rewrite Hp, elem_of_seq; lia).
  destruct (ens_loop_exact Hirr Htr ix []) as (res'&H1&H2).
  - rewrite Hp. apply NoDup_seq.
  - done.
  - set_solver.
  - apply by_rank_nil.
  - set_solver.
  - intros p q x y Hpq Hx Hy. apply not_true_is_false. intros Hl. apply Hdl in Hl; [|eapply Hb, elem_of_list_lookup_2; done..].
    rewrite (Hs p q x y Hpq Hx Hy) in Hl. done.
  - split; set_solver.
  - congruence.
Qed.
End Sorted.
End Sorts.
