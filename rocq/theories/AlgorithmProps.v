(** Properties of the sequence algorithms (C11, C12, C13). *)
From Coq Require Import Lia.
From stdpp Require Import list list_numbers sets.
From Verif Require Import StdSort AlgorithmModel AlgorithmSpec AlgorithmProofs.

(** C11 *)
Theorem C11_lower_bound_first_not_less (A V : Type) (comp : A -> V -> bool) (l : list A) (v : V) :
  partitioned (fun x => comp x v) l ->
  exists i, lower_bound comp l v = Some i /\ first_failing (fun x => comp x v) l i.
Proof. apply lower_bound_ok. Qed.
Print Assumptions C11_lower_bound_first_not_less.

Example C11_nonvacuous :
  let l := (fun i => i / 3) <$> seq 0 200 in
  partitioned (fun x => x <? 41) l /\ lower_bound Nat.ltb l 41 = Some 123 /\ lower_bound Nat.ltb l 1000 = Some 200.
Proof.
  cbv zeta. split; [|vm_compute; done].
  intros i j x y Hij Hx Hy Hp. apply list_lookup_fmap_inv in Hx as (a&->&Ha). apply list_lookup_fmap_inv in Hy as (b&->&Hb).
  apply lookup_seq in Ha as [-> Ha]. apply lookup_seq in Hb as [-> Hb]. apply Nat.ltb_ge in Hp. apply Nat.ltb_ge.
  etransitivity; [exact Hp|]. apply Nat.div_le_mono; lia.
Qed.

(** C12: the index vector. *)
Theorem C12_index_vector (n first : nat) :
  length (index_vector n first) = n /\ forall i, i < n -> index_vector n first !! i = Some (first + i).
Proof. split; [apply seq_length|]. intros i Hi. by apply lookup_seq. Qed.
Print Assumptions C12_index_vector.
Example C12_index_vector_nonvacuous : index_vector 3 5 = [5; 6; 7].
Proof. done. Qed.

(** C12: argsort.  [r] is the range in iteration order; with reverse iterators the
    indices refer to the underlying sequence [reverse r], which is read from the
    largest to the smallest. *)
Theorem C12_argsort (A : Type) (lt : A -> A -> bool) sort (rev : bool) (r : list A) :
  sort_contract sort -> swo_on lt r ->
  let is := argsort sort lt rev r in
  index_perm r is /\
  if rev then ordered_through (fun x y => lt y x) (length r) (reverse r) is
  else ordered_through lt (length r) r is.
Proof. intros Hs Hl. apply argsort_ok; done. Qed.
Print Assumptions C12_argsort.

(** C12: partial_argsort: the first [m] positions are ordered and not after any other. *)
Theorem C12_partial_argsort (A : Type) (lt : A -> A -> bool) sort psort (full rev : bool) (m : nat) (r : list A) :
  sort_contract sort -> partial_sort_contract psort -> swo_on lt r -> m <= length r ->
  exists is, partial_argsort sort psort lt full rev m r = Some is /\ index_perm r is /\
    if rev then ordered_through (fun x y => lt y x) m (reverse r) is else ordered_through lt m r is.
Proof. intros Hs Hp Hl Hm. apply partial_argsort_ok; done. Qed.
Print Assumptions C12_partial_argsort.

Lemma nat_swo (l : list nat) : swo_on Nat.ltb l.
Proof.
  split.
  - intros x _. apply Nat.ltb_irrefl.
  - intros x y z _ _ _. rewrite !Nat.ltb_lt. lia.
  - intros x y z _ _ _. rewrite !Nat.ltb_ge. lia.
Qed.

Example C12_argsort_nonvacuous :
  sort_contract (@isort nat) /\ partial_sort_contract (fun lt (_ : nat) => @isort nat lt) /\
  swo_on Nat.ltb [5; 1; 4; 1] /\
  argsort isort Nat.ltb false [5; 1; 4; 1] = [1; 3; 2; 0] /\
  argsort isort Nat.ltb true (reverse [5; 1; 4; 1]) = [0; 2; 1; 3].
Proof.
  split; [apply isort_contract|]. split; [apply isort_partial_contract|]. split; [apply nat_swo|done].
Qed.

(** C12: the extremum functions return the first extremal position; for reverse
    iterators the position in the underlying sequence, which is the last one there. *)
Theorem C12_extrema (A B : Type) (lt : B -> B -> bool) (f : A -> B) (l : list A) :
  l <> [] -> swo_on lt (f <$> l) ->
  first_max lt (f <$> l) (max_element lt f l) /\
  first_max (fun x y => lt y x) (f <$> l) (min_element lt f l) /\
  argmax false lt f l = Some (max_element lt f l) /\
  argmin false lt f l = Some (min_element lt f l) /\
  (exists i, argmax true lt f l = Some i /\ last_max lt (f <$> reverse l) i) /\
  (exists i, argmin true lt f l = Some i /\ last_max (fun x y => lt y x) (f <$> reverse l) i).
Proof.
  intros Hne Hs. assert (0 < length l) by (destruct l; cbn; [done|lia]).
  pose proof (max_element_ok lt f l Hne Hs) as Hmax.
  pose proof (max_element_ok (fun x y => lt y x) f l Hne (swo_flip _ _ Hs)) as Hmin. rewrite <- min_element_max in Hmin.
  split; [done|]. split; [done|]. unfold argmax, argmin. rewrite !decide_True by done.
  split; [done|]. split; [done|]. rewrite fmap_reverse.
  rewrite <- (fmap_length f l).
  split; (eexists; split; [done|]); apply first_max_reverse; done.
Qed.
Print Assumptions C12_extrema.

Example C12_extrema_nonvacuous :
  swo_on Nat.ltb (Nat.pred <$> [3; 9; 2; 9; 2]) /\ max_element Nat.ltb Nat.pred [3; 9; 2; 9; 2] = 1 /\
  min_element Nat.ltb Nat.pred [3; 9; 2; 9; 2] = 2 /\ argmax true Nat.ltb Nat.pred [3; 9; 2; 9; 2] = Some 3.
Proof. split; [apply nat_swo|done]. Qed.

(** C13: erase_duplicates, for an order whose equivalence is equality. *)
Theorem C13_erase_duplicates (A : Type) sort (lt eqb : A -> A -> bool) (l : list A) :
  sort_contract sort -> (forall x y, eqb x y = true <-> x = y) -> swo_on lt l ->
  (forall a b, a ∈ l -> b ∈ l -> lt a b = false -> lt b a = false -> a = b) ->
  NoDup (erase_duplicates sort lt eqb l) /\ (forall x, x ∈ erase_duplicates sort lt eqb l <-> x ∈ l) /\
  sorted_by lt (erase_duplicates sort lt eqb l).
Proof. apply erase_duplicates_ok. Qed.
Print Assumptions C13_erase_duplicates.

Example C13_erase_duplicates_nonvacuous :
  erase_duplicates isort Nat.ltb Nat.eqb [3; 1; 3; 2; 1; 3] = [1; 2; 3] /\
  (forall a b, a ∈ [3; 1; 3; 2; 1; 3] -> b ∈ [3; 1; 3; 2; 1; 3] -> Nat.ltb a b = false -> Nat.ltb b a = false -> a = b).
Proof. split; [done|]. intros a b _ _. rewrite !Nat.ltb_ge. lia. Qed.

(** C13: find_indices returns exactly the matching indices, increasing. *)
Theorem C13_find_indices (A : Type) (p : A -> bool) (l : list A) :
  (forall i, i ∈ find_indices p l <-> exists x, l !! i = Some x /\ p x = true) /\
  (forall a b i j, a < b -> find_indices p l !! a = Some i -> find_indices p l !! b = Some j -> i < j).
Proof.
  split; [|apply (find_indices_from_sorted p l 0)]. intros i. unfold find_indices. rewrite find_indices_from_ok.
  split; [intros (j&x&->&Hj&Hp); eauto|intros (x&Hx&Hp); exists i, x; done].
Qed.
Print Assumptions C13_find_indices.

(** C13: index_of / find_index / contains find the first occurrence. *)
Theorem C13_find_first (A : Type) (p : A -> bool) (eqb : A -> A -> bool) (l : list A) (v : A) :
  (forall x y, eqb x y = true <-> x = y) ->
  match find_index p l with
  | Some i => exists x, l !! i = Some x /\ p x = true /\ forall j y, j < i -> l !! j = Some y -> p y = false
  | None => forall x, x ∈ l -> p x = false
  end /\
  match index_of eqb l v with
  | Some i => l !! i = Some v /\ forall j, j < i -> l !! j <> Some v
  | None => v ∉ l
  end /\
  (contains eqb l v = true <-> v ∈ l) /\
  find_all p l = filter (fun x => p x = true) l.
Proof.
  intros He. split; [apply find_index_ok|].
  assert (Hidx : match index_of eqb l v with
  | Some i => l !! i = Some v /\ forall j, j < i -> l !! j <> Some v
  | None => v ∉ l
  end).
  { unfold index_of. pose proof (find_index_ok (fun x => eqb x v) l) as H. destruct (find_index _ l) as [i|].
    - destruct H as (x&Hx&Hp&Hb). apply He in Hp as ->. split; [done|]. intros j Hj Hv.
      specialize (Hb j v Hj Hv). rewrite (proj2 (He v v)) in Hb; done.
    - intros Hv. specialize (H v Hv). rewrite (proj2 (He v v)) in H; done. }
  split; [done|]. split.
  - unfold index_of, find_index in Hidx. unfold contains. destruct (Nat.eqb _ _); cbn.
    + split; [done|]. intros; exfalso; auto.
    + split; [|done]. intros _. eapply elem_of_list_lookup_2. apply Hidx.
  - clear Hidx. induction l as [|x l IH]; [done|]. cbn [find_all]. destruct (p x) eqn:E.
    + rewrite filter_cons_True by done. rewrite IH. done.
    + rewrite filter_cons_False by congruence. done.
Qed.
Print Assumptions C13_find_first.

(** C13: erase_first_stable removes the first occurrence and nothing else. *)
Theorem C13_erase_first_stable (A : Type) (eqb : A -> A -> bool) (l : list A) (v : A) :
  (forall x y, eqb x y = true <-> x = y) ->
  match erase_first_stable eqb l v with
  | (l', true) => exists a b, l = a ++ v :: b /\ v ∉ a /\ l' = a ++ b
  | (l', false) => v ∉ l /\ l' = l
  end.
Proof. apply erase_first_ok. Qed.
Print Assumptions C13_erase_first_stable.

(** C13: select picks the elements in the order of the indices; moving out of the
    container gives the same when no index is repeated. *)
Theorem C13_select (A : Type) (l : list A) (is : list nat) :
  (forall i, i ∈ is -> i < length l) ->
  (exists k, select_copy l is = Some k /\ length k = length is /\
     forall a i, is !! a = Some i -> k !! a = l !! i) /\
  (NoDup is -> select_move l is = select_copy l is).
Proof.
  intros H. split.
  - induction is as [|i is IH]; cbn; [exists []; done|].
    destruct (lookup_lt_is_Some_2 l i) as [x Hx]; [apply H; set_solver|].
    destruct IH as (k&Hk&Hl&Hi); [intros; apply H; set_solver|]. rewrite Hx, Hk. cbn. eexists; split; [done|].
    split; [cbn; lia|]. intros [|a] j Hj; cbn in *; [congruence|auto].
  - intros Hnd. apply select_move_loop_ok; [done| |apply fmap_length].
    intros i _. apply list_lookup_fmap.
Qed.
Print Assumptions C13_select.

Example C13_select_nonvacuous :
  select_copy [10; 11; 12] [2; 0; 2] = Some [12; 10; 12] /\ select_move [10; 11; 12] [2; 0] = Some [12; 10] /\
  select_move [10; 11; 12] [2; 0; 2] = None.
Proof. done. Qed.

(** C13: elementwise extrema. *)
Theorem C13_elementwise (A : Type) (lt : A -> A -> bool) (l r : list A) :
  length l = length r -> swo_on lt (l ++ r) ->
  exists mn mx, elementwise_min lt l r = Some mn /\ elementwise_max lt l r = Some mx /\
    length mn = length l /\ length mx = length l /\
    forall i x y, l !! i = Some x -> r !! i = Some y ->
      (exists a, mn !! i = Some a /\ (a = x \/ a = y) /\ lt x a = false /\ lt y a = false) /\
      (exists b, mx !! i = Some b /\ (b = x \/ b = y) /\ lt b x = false /\ lt b y = false).
Proof.
  intros Hl Hs. destruct (elementwise_ok (std_min lt) l r Hl) as (mn&Hmn&Hlmn&Hi).
  destruct (elementwise_ok (std_max lt) l r Hl) as (mx&Hmx&Hlmx&Hi').
  exists mn, mx. split; [done|]. split; [done|]. split; [done|]. split; [done|].
  intros i x y Hx Hy. specialize (Hi i x y Hx Hy). specialize (Hi' i x y Hx Hy).
  assert (x ∈ l ++ r) by (apply elem_of_app; left; eapply elem_of_list_lookup_2; done).
  assert (y ∈ l ++ r) by (apply elem_of_app; right; eapply elem_of_list_lookup_2; done).
  pose proof (swo_irrefl _ _ Hs x ltac:(done)). pose proof (swo_irrefl _ _ Hs y ltac:(done)).
  unfold std_min, std_max in *. split.
  - exists (if lt y x then y else x). split; [done|]. destruct (lt y x) eqn:E; [|auto].
    split; [auto|]. split; [|done]. apply (swo_asym lt (l ++ r)); done.
  - exists (if lt x y then y else x). split; [done|]. destruct (lt x y) eqn:E; [|auto].
    split; [auto|]. split; [|done]. apply (swo_asym lt (l ++ r)); done.
Qed.
Print Assumptions C13_elementwise.

Example C13_elementwise_nonvacuous :
  elementwise_min Nat.ltb [1; 5; 3] [2; 4; 3] = Some [1; 4; 3] /\ elementwise_max Nat.ltb [1; 5; 3] [2; 4; 3] = Some [2; 5; 3].
Proof. done. Qed.

(** C13: partial_shuffle permutes the range; the draws correspond one to one to the
    possible arrangements of the prefix, so uniform draws give a uniform prefix. *)
Theorem C13_partial_shuffle (A : Type) (l : list A) (m : nat) :
  m <= length l ->
  (forall ds, length ds = m -> valid_draws (length l) ds -> exists k, partial_shuffle l m ds = Some k /\ l ≡ₚ k) /\
  (NoDup l -> forall ds ds' k k', length ds = m -> length ds' = m ->
     partial_shuffle l m ds = Some k -> partial_shuffle l m ds' = Some k' -> take m k = take m k' -> ds = ds') /\
  (forall p q, length p = m -> l ≡ₚ p ++ q ->
     exists ds k, length ds = m /\ valid_draws (length l) ds /\ partial_shuffle l m ds = Some k /\ take m k = p).
Proof.
  intros Hm. split; [|split].
  - intros ds Hl Hv. rewrite partial_shuffle_sh by done. apply sh_ok; done.
  - intros Hnd ds ds' k k' Hl Hl'. rewrite !partial_shuffle_sh by done. apply (sh_inj m l); done.
  - intros p q Hp Hl. destruct (sh_surj m l p q Hp Hl) as (ds&k&H1&H2&H3&H4). exists ds, k.
    rewrite partial_shuffle_sh by done. done.
Qed.
Print Assumptions C13_partial_shuffle.

Example C13_partial_shuffle_nonvacuous :
  valid_draws 5 [4; 0; 2] /\ partial_shuffle [0; 1; 2; 3; 4] 3 [4; 0; 2] = Some [4; 1; 0; 3; 2].
Proof.
  split; [|done]. split; [cbn; lia|]. intros [|[|[|i]]] d; cbn; intros [= <-]; lia.
Qed.
