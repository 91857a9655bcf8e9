(** The contracts of the standard sorting functions, used as hypotheses wherever
    the code calls std::sort or std::partial_sort, and one function that meets them. *)
From Coq Require Import Lia Sorting.Sorted.
From stdpp Require Import list list_numbers sets.

(** The elements of [l] are strictly weakly ordered by [lt] (the precondition of
    std::sort). *)
Record swo_on {A} (lt : A -> A -> bool) (l : list A) : Prop := {
  swo_irrefl : forall x, x ∈ l -> lt x x = false;
  swo_trans : forall x y z, x ∈ l -> y ∈ l -> z ∈ l -> lt x y = true -> lt y z = true -> lt x z = true;
  swo_negtrans : forall x y z, x ∈ l -> y ∈ l -> z ∈ l -> lt x y = false -> lt y z = false -> lt x z = false;
}.

Definition sorted_by {A} (lt : A -> A -> bool) (l : list A) : Prop :=
  forall i j x y, i < j -> l !! i = Some x -> l !! j = Some y -> lt y x = false.

(** std::sort *)
Definition sort_contract {A} (sort : (A -> A -> bool) -> list A -> list A) : Prop :=
  forall lt l, swo_on lt l -> l ≡ₚ sort lt l /\ sorted_by lt (sort lt l).

(** std::partial_sort(first, first + k, last) *)
Definition partial_sort_contract {A} (psort : (A -> A -> bool) -> nat -> list A -> list A) : Prop :=
  forall lt k l, k <= length l -> swo_on lt l ->
    l ≡ₚ psort lt k l /\
    forall i j x y, i < k -> i < j -> psort lt k l !! i = Some x -> psort lt k l !! j = Some y -> lt y x = false.

Lemma swo_on_subset {A} (lt : A -> A -> bool) l k : (forall x, x ∈ k -> x ∈ l) -> swo_on lt l -> swo_on lt k.
Proof.
  intros H [Hi Ht Hn]. split.
  - intros x Hx. apply Hi. auto.
  - intros x y z Hx Hy Hz. apply Ht; auto.
  - intros x y z Hx Hy Hz. apply Hn; auto.
Qed.
Lemma swo_asym {A} (lt : A -> A -> bool) l x y : swo_on lt l -> x ∈ l -> y ∈ l -> lt x y = true -> lt y x = false.
Proof.
  intros [Hi Ht Hn] Hx Hy H. destruct (lt y x) eqn:E; [|done].
  rewrite <- (Hi x Hx). symmetry. apply (Ht x y x); done.
Qed.

(** Insertion sort. *)
Fixpoint ins {A} (lt : A -> A -> bool) (x : A) (l : list A) : list A :=
  match l with [] => [x] | y :: l => if lt y x then y :: ins lt x l else x :: y :: l end.
Fixpoint isort {A} (lt : A -> A -> bool) (l : list A) : list A :=
  match l with [] => [] | x :: l => ins lt x (isort lt l) end.

Lemma ins_perm {A} (lt : A -> A -> bool) x l : x :: l ≡ₚ ins lt x l.
Proof. induction l as [|y l IH]; cbn; [done|]. destruct (lt y x); [|done]. rewrite <- IH. apply Permutation_swap. Qed.
Lemma isort_perm {A} (lt : A -> A -> bool) l : l ≡ₚ isort lt l.
Proof. induction l as [|x l IH]; cbn; [done|]. rewrite <- ins_perm, <- IH. done. Qed.

Lemma sorted_by_cons {A} (lt : A -> A -> bool) x l :
  sorted_by lt (x :: l) <-> (forall y, y ∈ l -> lt y x = false) /\ sorted_by lt l.
Proof.
  split.
  - intros H. split.
    + intros y Hy. apply elem_of_list_lookup in Hy as [i Hi]. apply (H 0 (S i) x y); [lia|done..].
    + intros i j a b Hij Ha Hb. apply (H (S i) (S j) a b); [lia|done..].
  - intros [H1 H2] i j a b Hij Ha Hb. destruct i as [|i]; destruct j as [|j]; [lia| |lia|].
    + cbn in Ha, Hb. injection Ha as <-. apply H1. apply elem_of_list_lookup. eauto.
    + cbn in Ha, Hb. apply (H2 i j a b); [lia|done..].
Qed.
Lemma sorted_by_nil {A} (lt : A -> A -> bool) : sorted_by lt [].
Proof. intros i j x y _ H. rewrite lookup_nil in H. done. Qed.

Lemma ins_sorted {A} (lt : A -> A -> bool) x l : swo_on lt (x :: l) -> sorted_by lt l -> sorted_by lt (ins lt x l).
Proof.
  intros Hswo. induction l as [|y l IH]; intros H; cbn.
  - apply sorted_by_cons. split; [|apply sorted_by_nil]. intros y Hy. apply elem_of_nil in Hy. done.
  - apply sorted_by_cons in H as [H1 H2]. destruct (lt y x) eqn:E.
    + apply sorted_by_cons. split.
      * intros z Hz. rewrite <- ins_perm in Hz. apply elem_of_cons in Hz as [->|Hz]; [|auto].
        apply (swo_asym lt (x :: y :: l)); [done|set_solver..].
      * apply IH; [|done]. apply (swo_on_subset lt (x :: y :: l)); [|done]. set_solver.
    + apply sorted_by_cons. split.
      * intros z Hz. apply elem_of_cons in Hz as [->|Hz]; [done|].
        destruct (lt z x) eqn:Ez; [|done]. 
        rewrite <- Ez. apply (swo_negtrans lt (x :: y :: l) Hswo z y x); [set_solver..|auto|done].
      * apply sorted_by_cons. done.
Qed.
Lemma isort_contract {A} : sort_contract (@isort A).
Proof.
  intros lt l H. split; [apply isort_perm|]. induction l as [|x l IH]; cbn; [apply sorted_by_nil|].
  apply ins_sorted.
  - apply (swo_on_subset lt (x :: l)); [|done]. intros y. rewrite <- isort_perm. done.
  - apply IH. apply (swo_on_subset lt (x :: l)); [|done]. set_solver.
Qed.
Lemma isort_partial_contract {A} : partial_sort_contract (fun lt (_ : nat) => @isort A lt).
Proof.
  intros lt k l Hk H. destruct (isort_contract lt l H) as [H1 H2]. split; [done|].
  intros i j x y _ Hij. apply H2. done.
Qed.

Lemma sorted_by_app_inv {A} (lt : A -> A -> bool) l k : sorted_by lt (l ++ k) ->
  sorted_by lt l /\ sorted_by lt k /\ forall x y, x ∈ l -> y ∈ k -> lt y x = false.
Proof.
  intros H. split; [|split].
  - intros i j x y Hij Hx Hy. apply (H i j); [done|apply lookup_app_l_Some; done..].
  - intros i j x y Hij Hx Hy. apply (H (length l + i) (length l + j)); [lia|..];
      rewrite lookup_app_r by lia; [replace (length l + i - length l) with i by lia|replace (length l + j - length l) with j by lia]; done.
  - intros x y Hx Hy. apply elem_of_list_lookup in Hx as [i Hx]. apply elem_of_list_lookup in Hy as [j Hy].
    apply (H i (length l + j)).
    + apply lookup_lt_Some in Hx. lia.
    + apply lookup_app_l_Some; done.
    + rewrite lookup_app_r by lia. replace (length l + j - length l) with j by lia. done.
Qed.
