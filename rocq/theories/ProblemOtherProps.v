(** C100: the travelling salesman problem and StringFinder. *)
From stdpp Require Import list list_numbers.
From Coq Require Import Reals Lra Lia.
From Verif Require Import ProblemModel ProblemSpec ProblemProofs ProblemOtherSpec.
Local Open Scope R_scope.

Definition place (cities : list (R * R)) (i : nat) : R * R := nth i cities (0, 0).
Lemma euclid_sym c d : euclid c d = euclid d c. Proof. unfold euclid. f_equal. ring. Qed.
Lemma euclid_nonneg c d : 0 <= euclid c d. Proof. apply sqrt_pos. Qed.
Lemma tsp_at_some cities i j : (i < length cities)%nat -> (j < length cities)%nat -> tsp_at (tsp_distances cities) i j = Some (euclid (place cities i) (place cities j)).
Proof.
  intros Hi Hj. destruct (lookup_lt_is_Some_2 cities i Hi) as [c Hc]. destruct (lookup_lt_is_Some_2 cities j Hj) as [d Hd]. unfold tsp_at, tsp_distances. rewrite list_lookup_fmap, Hc. cbn. rewrite list_lookup_fmap, Hd. cbn. unfold place. by rewrite (nth_lookup_Some _ _ _ _ Hc), (nth_lookup_Some _ _ _ _ Hd).
Qed.
Lemma tsp_at_none cities i j : (length cities <= i \/ length cities <= j)%nat -> tsp_at (tsp_distances cities) i j = None.
Proof.
  intros H. unfold tsp_at, tsp_distances. rewrite list_lookup_fmap. destruct (cities !! i) as [c|] eqn:E; [|done]. cbn. rewrite list_lookup_fmap. destruct (cities !! j) as [d|] eqn:E'; [|done]. apply lookup_lt_Some in E, E'. lia.
Qed.
Lemma tsp_sum_path cities l : Forall (fun i => i < length cities)%nat l -> forall acc, tsp_sum (tsp_distances cities) l acc = Some (acc + path (fun i j => euclid (place cities i) (place cities j)) l).
Proof.
  induction l as [|a l IH]; intros H acc; [cbn; f_equal; lra|]. apply Forall_cons in H as [Ha H]. destruct l as [|b l]; [cbn; f_equal; lra|]. pose proof H as H'. apply Forall_cons in H' as [Hb _]. change (tsp_sum (tsp_distances cities) (a :: b :: l) acc) with (d ← tsp_at (tsp_distances cities) a b; tsp_sum (tsp_distances cities) (b :: l) (acc + d)). rewrite tsp_at_some by done. cbn [mbind option_bind]. rewrite IH by done. f_equal. cbn [path]. lra.
Qed.
Lemma path_app {A} (d : A -> A -> R) l a b k : path d (l ++ [a] ++ b :: k) = path d (l ++ [a]) + d a b + path d (b :: k).
Proof.
  induction l as [|x l IH]; [cbn [app]; cbn [path]; lra|]. destruct l as [|y l]; [cbn [app path]; lra|]. cbn [app] in *. cbn [path] in *. rewrite IH. lra.
Qed.
Lemma path_reverse {A} (d : A -> A -> R) l : (forall x y, d x y = d y x) -> path d (reverse l) = path d l.
Proof.
  intros S. induction l as [|a l IH]; [done|]. destruct l as [|b l]; [done|]. rewrite !reverse_cons. rewrite reverse_cons in IH. rewrite <- app_assoc. rewrite path_app, IH. cbn [path]. rewrite S. lra.
Qed.
Lemma path_nonneg {A} (d : A -> A -> R) l : (forall x y, 0 <= d x y) -> 0 <= path d l.
Proof. intros N. induction l as [|a l IH]; [cbn; lra|]. destruct l as [|b l]; [cbn; lra|]. cbn [path] in *. specialize (N a b). lra. Qed.

Lemma TSP_value cities chrom : chrom <> [] -> Forall (fun i => i < length cities)%nat chrom ->
  TSP cities chrom = Some [- closed euclid (place cities <$> (chrom ++ [(length cities - 1)%nat]))].
Proof.
  intros Hne H. unfold TSP. cbn zeta. assert (Lm : length (tsp_distances cities) = length cities) by apply fmap_length. rewrite Lm, tsp_sum_path by done. cbn [mbind option_bind].
  destruct chrom as [|a l] eqn:E; [done|]. rewrite <- E in *. assert (Ha : (a < length cities)%nat) by (rewrite E in H; by apply Forall_cons in H as [? _]). destruct (last chrom) as [z|] eqn:Ez; [|apply last_None in Ez; by rewrite Ez in E].
  assert (Hz : (z < length cities)%nat) by (rewrite Forall_forall in H; apply H; by apply last_Some_elem_of). replace (head chrom) with (Some a) by (by rewrite E). cbn [mbind option_bind]. rewrite !tsp_at_some by lia. cbn [mbind option_bind].
  do 3 f_equal. set (e := (length cities - 1)%nat). set (d := fun i j => euclid (place cities i) (place cities j)).
  assert (P : forall k, path euclid (place cities <$> k) = path d k) by (induction k as [|x k IH]; [done|]; destruct k as [|y k]; [done|]; cbn [fmap list_fmap path] in *; by rewrite IH).
  assert (C : closed euclid (place cities <$> chrom ++ [e]) = path d (chrom ++ [e] ++ [a])).
  { rewrite <- P, app_assoc, (fmap_app _ (chrom ++ [e]) [a]). rewrite E. done. }
  rewrite C. apply last_Some in Ez as [k Ek]. rewrite Ek. rewrite <- app_assoc. cbn [app]. pose proof (path_app d (k ++ [z]) e a []) as P1. cbn [app] in P1. rewrite <- !app_assoc in P1. cbn [app] in P1. rewrite P1.
  pose proof (path_app d k z e []) as P2. cbn [app] in P2. rewrite P2. cbn [path]. unfold d. rewrite (euclid_sym (place cities e) (place cities z)). lra.
Qed.

(** C100: TSP: the value of a permutation of the cities but the last is minus the length of the
    tour through them and the last city; turning the permutation round changes nothing. *)
Theorem C100_tsp cities chrom : (2 <= length cities)%nat -> chrom ≡ₚ seq 0 (length cities - 1) ->
  let tour := chrom ++ [(length cities - 1)%nat] in
  tour ≡ₚ seq 0 (length cities) /\
  exists y, TSP cities chrom = Some [- y] /\ y = closed euclid ((fun i => nth i cities (0, 0)) <$> tour) /\ 0 <= y /\ TSP cities (reverse chrom) = Some [- y].
Proof.
  intros Hn Hp. cbn zeta. assert (F : Forall (fun i => i < length cities)%nat chrom) by (apply Forall_forall; intros i Hi; rewrite Hp in Hi; apply elem_of_seq in Hi; lia).
  assert (Hne : chrom <> []) by (intros ->; apply Permutation_length in Hp; rewrite seq_length in Hp; cbn in Hp; lia). split.
  - rewrite Hp. replace (length cities) with (length cities - 1 + 1)%nat at 3 by lia. rewrite seq_app. done.
  - eexists. split; [by apply TSP_value|]. split; [done|]. set (T := fmap _ _). assert (N : 0 <= closed euclid T) by (unfold closed; destruct T; [lra|]; apply path_nonneg, euclid_nonneg). split; [done|].
    rewrite TSP_value; [|intros E; apply Hne; apply (f_equal reverse) in E; by rewrite reverse_involutive in E|by apply Forall_reverse]. do 3 f_equal. fold (place cities) in T. unfold T. rewrite !fmap_app. cbn [fmap list_fmap]. rewrite fmap_reverse. set (z := place cities (length cities - 1)). set (l := place cities <$> chrom).
    assert (Hl : l <> []) by (unfold l; by destruct chrom). clearbody l z. clear -Hl.
    destruct (decide (length l = 0)%nat) as [Hz|Hz]; [by destruct l|]. destruct l as [|a k]; [done|]. destruct (reverse (a :: k)) as [|b m] eqn:E; [apply (f_equal length) in E; rewrite reverse_length in E; done|].
    unfold closed. cbn [app]. change (b :: (m ++ [z]) ++ [b]) with ((b :: m ++ [z]) ++ [b]). change (a :: (k ++ [z]) ++ [a]) with ((a :: k ++ [z]) ++ [a]).
    assert (Ez : forall (x : R * R) n, path euclid ((x :: n ++ [z]) ++ [x]) = path euclid (x :: n) + euclid (List.last (x :: n) x) z + euclid z x).
    { intros x n. replace ((x :: n ++ [z]) ++ [x]) with ((x :: n) ++ [z] ++ [x]) by (cbn [app]; by rewrite <- app_assoc). rewrite (path_app euclid (x :: n) z x []). destruct (exists_last (l := x :: n) ltac:(done)) as (n' & y & En). rewrite En, last_last, <- app_assoc. rewrite (path_app euclid n' y z []). cbn [path]. lra. }
    rewrite !Ez. rewrite <- E at 1. rewrite path_reverse by apply euclid_sym. assert (Hb : List.last (a :: k) a = b). { assert (E' : a :: k = reverse m ++ [b]) by (rewrite <- reverse_cons, <- E; by rewrite reverse_involutive). rewrite E'. apply last_last. }
    assert (Ha : List.last (b :: m) b = a) by (rewrite <- E, reverse_cons; apply last_last). rewrite Hb, Ha. rewrite (euclid_sym a z), (euclid_sym z b). lra.
Qed.
Print Assumptions C100_tsp.
(** C100: a gene that is not a city is read outside of the distance matrix. *)
Theorem C100_tsp_outside cities chrom : (exists i, i ∈ chrom /\ (length cities <= i)%nat) -> TSP cities chrom = None.
Proof.
  intros (i & Hi & Ho). unfold TSP. cbn zeta. set (m := tsp_distances cities).
  assert (X : forall l acc, i ∈ l -> tsp_sum m l acc = None \/ l = [i]).
  { induction l as [|a l IH]; intros acc H; [by apply elem_of_nil in H|]. destruct l as [|b l]; [right; apply elem_of_list_singleton in H; by subst|]. left. change (tsp_sum m (a :: b :: l) acc) with (d ← tsp_at m a b; tsp_sum m (b :: l) (acc + d)). destruct (tsp_at m a b) as [d|] eqn:E; [|done]. cbn [mbind option_bind].
    assert (L : (a < length cities)%nat /\ (b < length cities)%nat). { split; apply not_ge; intros G; unfold m in E; rewrite tsp_at_none in E; [done|lia|done|lia]. } apply elem_of_cons in H as [->|H]; [lia|]. destruct (IH (acc + d) H) as [->|E2]; [done|]. injection E2 as -> ->. lia. }
  destruct (X chrom 0 Hi) as [->| ->]; [done|]. cbn [tsp_sum mbind option_bind head last]. unfold m. rewrite (tsp_at_none cities _ i) by (right; done). done.
Qed.
Print Assumptions C100_tsp_outside.

(** C100: StringFinder counts the characters that agree with the target. *)
Lemma agree_le a : forall b, (agree a b <= length b)%nat.
Proof. induction a as [|x a IH]; intros [|y b]; cbn [agree length]; try lia. specialize (IH b). destruct (decide (x = y)); lia. Qed.
Lemma agree_all a : forall b, length a = length b -> (agree a b = length b <-> a = b).
Proof.
  induction a as [|x a IH]; intros [|y b] Hl; try done. cbn in Hl. injection Hl as Hl. cbn [agree length]. pose proof (agree_le a b). destruct (decide (x = y)) as [->|Hn].
  - split; [intros E; f_equal; apply IH; [done|lia]|intros E; injection E as ->]. pose proof (proj2 (IH b eq_refl) eq_refl). lia.
  - split; [lia|]. intros E. by injection E.
Qed.
Lemma for_to_sum n h : for_to n (fun i a => a + h i) 0 = big_sum n h.
Proof.
  assert (G : forall n a, for_to n (fun i a => a + h i) a = a + big_sum n h).
  { clear n. induction n as [|n IH]; intros a; [cbn; lra|]. cbn [big_sum]. rewrite <- Rplus_assoc, <- IH. unfold for_to. rewrite seq_S, foldl_app. done. }
  rewrite G. lra.
Qed.
Lemma StringFinder_value char_of target chrom : length chrom = length target -> StringFinder char_of target chrom = Some [INR (agree (char_of <$> chrom) target)].
Proof.
  intros Hl. unfold StringFinder. rewrite decide_True by done. do 2 f_equal.
  rewrite (for_to_sum (length chrom) (fun i => if decide (char_of (nth i chrom 0%Z) = nth i target 0%Z) then 1 else 0)). revert target Hl. induction chrom as [|x c IH] using rev_ind; intros target Hl; [by destruct target|].
  destruct target as [|y t _] using rev_ind; [rewrite app_length in Hl; cbn in Hl; lia|]. rewrite !app_length in *. cbn [length] in *. assert (Hl' : length c = length t) by lia. rewrite Nat.add_comm. cbn [Nat.add big_sum]. rewrite (big_sum_ext _ _ (fun i => if decide (char_of (nth i c 0%Z) = nth i t 0%Z) then 1 else 0)) by (intros i Hi; by rewrite !app_nth1 by lia).
  rewrite IH by done. rewrite fmap_app. assert (A : forall a b, length a = length b -> agree (a ++ [char_of x]) (b ++ [y]) = (agree a b + (if decide (char_of x = y) then 1 else 0))%nat) by (induction a as [|u a IHa]; intros [|w b] Hab; try done; [cbn; destruct (decide _); done|]; cbn [app agree]; rewrite IHa by (cbn in Hab; lia); lia).
  cbn [fmap list_fmap]. rewrite A by (rewrite fmap_length; done). rewrite plus_INR. f_equal. rewrite app_nth2, Nat.sub_diag by lia. rewrite app_nth2, Hl', Nat.sub_diag by lia. cbn [nth]. by destruct (decide _).
Qed.
Theorem C100_string_finder char_of target chrom : length chrom = length target ->
  StringFinder char_of target chrom = Some [INR (agree (char_of <$> chrom) target)] /\ (agree (char_of <$> chrom) target <= length target)%nat /\
  (StringFinder char_of target chrom = Some [INR (length target)] <-> char_of <$> chrom = target).
Proof.
  intros Hl. rewrite StringFinder_value by done. split; [done|]. split; [apply agree_le|]. rewrite <- (agree_all (char_of <$> chrom) target) by (by rewrite fmap_length). split; [|by intros ->]. intros E. apply (inj Some) in E. apply INR_eq. congruence.
Qed.
Print Assumptions C100_string_finder.
(** C100: the stated optimal value is attained within the bounds 32 to 127 if and only if the
    characters of the target are within the bounds. *)
Theorem C100_string_finder_optimal char_of target : (forall z, (32 <= z <= 127)%Z -> char_of z = z) ->
  let allowed c := Forall (fun z => (32 <= z <= 127)%Z) c in
  (exists c, length c = length target /\ allowed c /\ StringFinder char_of target c = Some [INR (length target)]) <-> allowed target.
Proof.
  intros Hc. cbn zeta. split.
  - intros (c & Hl & Ha & E). destruct (C100_string_finder char_of target c Hl) as (_ & _ & I). apply I in E. rewrite <- E. clear -Hc Ha. induction Ha as [|z l Hz _ IH]; [constructor|]. cbn [fmap list_fmap]. constructor; [by rewrite Hc|exact IH].
  - intros Ha. exists target. split; [done|]. split; [done|]. apply C100_string_finder; [done|]. clear -Hc Ha. induction Ha as [|z l Hz _ IH]; [done|]. cbn. rewrite Hc by done. by f_equal.
Qed.
Print Assumptions C100_string_finder_optimal.

Example C100_nonvacuous :
  TSP [(0, 0); (3, 4); (3, 0)] [1%nat; 0%nat] = Some [-12] /\ [1%nat; 0%nat] ≡ₚ seq 0 2 /\
  StringFinder (fun z => z) [72; 105]%Z [72; 104]%Z = Some [1] /\ ~ Forall (fun z => (32 <= z <= 127)%Z) [10]%Z.
Proof.
  split; [|split; [|split]].
  - rewrite TSP_value; [|done|repeat constructor; cbn; lia]. do 3 f_equal. cbn [length Nat.sub app fmap list_fmap place nth closed path]. unfold euclid. cbn [fst snd].
    replace ((3 - 0) ^ 2 + (4 - 0) ^ 2) with (5 ^ 2) by ring. replace ((0 - 3) ^ 2 + (0 - 0) ^ 2) with (3 ^ 2) by ring. replace ((3 - 3) ^ 2 + (0 - 4) ^ 2) with (4 ^ 2) by ring. rewrite !sqrt_pow2 by lra. lra.
  - constructor.
  - rewrite StringFinder_value by done. cbn. done.
  - intros H. apply Forall_cons in H as [H _]. lia.
Qed.
