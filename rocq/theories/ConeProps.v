(** C79: the cone tree. *)
From Coq Require Import Reals Lra Lia QArith.
From stdpp Require Import list list_numbers sets.
From Verif Require Import StdSort AlgorithmModel AlgorithmSpec AlgorithmProofs ConeModel ConeSpec ConeProofs.
Local Open Scope nat_scope.

(** ** Building *)
Lemma initial_inv d (ps : list rpoint) cap : ps <> [] -> build_inv d ps 0 (Tree ps [Node [] 0%R 0 (length ps) 0 0] cap).
Proof.
  intros Hne. assert (Hl : 0 < length ps) by (destruct ps; [done|cbn; lia]). split; cbn [points nodes].
  - done.
  - intros [|k] nd Hnd; [injection Hnd as <-; cbn; lia|by destruct k].
  - intros [|k] [|k'] x y _ _ H; [done|by destruct k'|by destruct k|by destruct k].
  - intros; lia.
  - intros; lia.
  - by eexists.
  - cbn. lia.
  - cbn. lia.
Qed.
Lemma build_loop_ok d (ps : list rpoint) fuel : forall i t, build_inv d ps i t -> Forall (fun x => length x = d) ps -> 2 * length ps <= fuel + i ->
  2 * length ps - 1 <= capacity t \/ is_Some (build_loop fuel i t) -> exists t', build_loop fuel i t = Some t' /\ build_inv d ps (length (nodes t')) t'.
Proof.
  induction fuel as [|fuel IH]; intros i t I Hd Hf Hcap; pose proof (open_count _ _ _ _ I) as Hc; pose proof (b_count _ _ _ _ I) as Hi.
  - destruct (b_root _ _ _ _ I) as (nd & Hnd & _). apply (b_range _ _ _ _ I) in Hnd. lia.
  - cbn [build_loop] in *. destruct (decide (i < length (nodes t))) as [Hlt | Hge]; [|exists t; split; [done|]; by replace (length (nodes t)) with i by lia].
    destruct (build_step_ok d ps i t I Hd Hlt) as (t' & E & I' & Ec); [destruct Hcap as [? | [x Hx]]; [by left|right; by destruct (build_step i t)]|].
    rewrite E in *. cbn [mbind option_bind] in *. apply IH; [done|done|lia|]. rewrite Ec. done.
Qed.
Lemma build_with_ok d (ps : list rpoint) reserved : ps <> [] -> Forall (fun x => length x = d) ps -> 2 * length ps - 1 <= reserved \/ is_Some (build_with reserved ps) ->
  exists t, build_with reserved ps = Some t /\ build_inv d ps (length (nodes t)) t.
Proof.
  intros Hne Hd Hcap. destruct ps as [|p ps]; [done|]. unfold build_with in *. assert (Hp : length p = d) by (by apply Forall_cons in Hd as [? _]). rewrite Hp in *. rewrite decide_True in * by done.
  apply build_loop_ok; [by apply initial_inv|done|lia|]. destruct Hcap as [? | ?]; [left; cbn [capacity]; lia|by right].
Qed.

(** ** Searching *)
Section Search.
Variables (d : nat) (ps : list rpoint) (t : rtree) (q : rpoint).
Hypothesis Hinv : build_inv d ps (length (nodes t)) t.
Hypothesis Hdim : Forall (fun x => length x = d) ps.
Hypothesis Hq : length q = d.
Definition inside (nd : rnode) (k : nat) : Prop := first nd <= k < last nd.
Definition found_ok (best : option (nat * R)) : Prop := match best with None => True | Some (j, p) => exists x, points t !! j = Some x /\ p = dot q x end.
Definition not_above (best : option (nat * R)) (x : rpoint) : Prop := match best with None => False | Some (_, p) => (dot q x <= p)%R end.
Lemma not_above_better best best' x : not_above best x -> (forall j p, best = Some (j, p) -> exists j' p', best' = Some (j', p') /\ (p <= p')%R) -> not_above best' x.
Proof. intros H Hb. destruct best as [[j p]|]; [|done]. destruct (Hb j p eq_refl) as (j' & p' & -> & Hp). cbn in *. lra. Qed.
Lemma linear_loop_ok range : forall k best, found_ok best -> (forall j x, range !! j = Some x -> points t !! (k + j) = Some x) ->
  let best' := linear_loop q range k best in
  found_ok best' /\ (forall x, x ∈ range -> not_above best' x) /\ (forall j p, best = Some (j, p) -> exists j' p', best' = Some (j', p') /\ (p <= p')%R).
Proof.
  induction range as [|x range IH]; intros k best Hf Hr; cbn [linear_loop].
  - split; [done|]. split; [intros x Hx; by apply elem_of_nil in Hx|]. intros j p ->. exists j, p. split; [done|lra].
  - rewrite inner_product_dot. set (best1 := if better (dot q x) best then Some (k, dot q x) else best).
    assert (H1 : found_ok best1). { unfold best1. destruct (better _ _); [|done]. exists x. split; [|done]. rewrite <- (Hr 0 x eq_refl). by rewrite Nat.add_0_r. }
    assert (H2 : not_above best1 x). { unfold best1, better. destruct best as [[j p]|]; [|cbn; lra]. destruct (nlt p (dot q x)) eqn:E; cbn -[nlt]; [lra|]. by apply rlt_false in E. }
    assert (H3 : forall j p, best = Some (j, p) -> exists j' p', best1 = Some (j', p') /\ (p <= p')%R).
    { intros j p ->. unfold best1, better. destruct (nlt p (dot q x)) eqn:E; eexists _, _; (split; [done|]); [apply rlt_true in E; lra|lra]. }
    clearbody best1. destruct (IH (S k) best1 H1) as (G1 & G2 & G3); [intros j y Hy; rewrite <- (Hr (S j) y Hy); f_equal; lia|]. split; [done|]. split.
    + intros y Hy. apply elem_of_cons in Hy as [-> | Hy]; [|by apply G2]. by eapply not_above_better.
    + intros j p E. destruct (H3 j p E) as (j1 & p1 & E1 & Hp1). destruct (G3 j1 p1 E1) as (j2 & p2 & E2 & Hp2). exists j2, p2. split; [done|lra].
Qed.
(** The bound of a node is a bound. *)
Lemma upper_bound_ok i nd k x : nodes t !! i = Some nd -> inside nd k -> points t !! k = Some x -> (dot q x <= upper_bound nd q (euclidean_norm q))%R.
Proof.
  intros Hi Hk Hx. assert (D := b_done _ _ _ _ Hinv i nd (lookup_lt_Some _ _ _ Hi) Hi). unfold upper_bound, euclidean_norm. rewrite !inner_product_dot. cbn [nadd nmul nsqrt real_num].
  apply bound_ok; [by rewrite (d_len _ _ _ _ _ D)| |apply D|by apply (d_bound _ _ _ _ _ D k)]. rewrite Hq. rewrite Forall_forall in Hdim. apply Hdim. rewrite <- (b_points _ _ _ _ Hinv). by eapply elem_of_list_lookup_2.
Qed.
Definition node_weight (i : nat) : nat := match nodes t !! i with Some nd => weight nd | None => 0 end.
Lemma search_loop_ok fuel : forall stack best, Forall (fun i => i < length (nodes t)) stack -> sum_list_with node_weight stack < fuel -> found_ok best ->
  (forall k x, points t !! k = Some x -> not_above best x \/ exists i nd, i ∈ stack /\ nodes t !! i = Some nd /\ inside nd k) ->
  exists best', search_loop fuel t q (euclidean_norm q) stack best = Some best' /\ found_ok best' /\ forall k x, points t !! k = Some x -> not_above best' x.
Proof.
  induction fuel as [|fuel IH]; intros stack best Hst Hw Hf Hcov; [lia|]. cbn [search_loop]. destruct stack as [|i stack].
  - exists best. split; [done|]. split; [done|]. intros k x Hx. destruct (Hcov k x Hx) as [? | (i & nd & Hi & _)]; [done|by apply elem_of_nil in Hi].
  - apply Forall_cons in Hst as [Hi Hst]. destruct (lookup_lt_is_Some_2 _ _ Hi) as [nd Hnd]. rewrite Hnd. cbn [mbind option_bind]. pose proof (b_range _ _ _ _ Hinv i nd Hnd) as Hr.
    assert (D := b_done _ _ _ _ Hinv i nd Hi Hnd). change (node_weight i + sum_list_with node_weight stack < S fuel) in Hw. unfold node_weight in Hw at 1. rewrite Hnd in Hw. unfold weight in Hw at 1.
    destruct (prunable best (upper_bound nd q (euclidean_norm q))) eqn:Epr.
    + apply IH; [done|lia|done|]. intros k x Hx. destruct (Hcov k x Hx) as [? | (j & nd' & Hj & Hnd' & Hin)]; [by left|]. apply elem_of_cons in Hj as [-> | Hj]; [|right; eauto]. left.
      rewrite Hnd in Hnd'. injection Hnd' as <-. unfold prunable in Epr. destruct best as [[j p]|]; [|done]. apply negb_true_iff, rlt_false in Epr. cbn. pose proof (upper_bound_ok i nd k x Hnd Hin Hx). lra.
    + destruct (is_leaf nd) eqn:El.
      * assert (Hl := linear_loop_ok (rows (points t) (first nd) (last nd)) (first nd) None I). cbv zeta in Hl. fold (find_linear q (points t) (first nd) (last nd)) in Hl.
        destruct Hl as (L1 & L2 & _); [intros j x Hj; rewrite rows_lookup in Hj; by case_decide|]. set (found := find_linear q (points t) (first nd) (last nd)) in *. clearbody found.
        set (best1 := match found with Some (elem, prod) => if better prod best then found else best | None => best end).
        assert (H1 : found_ok best1) by (unfold best1; destruct found as [[j p]|]; [|done]; by destruct (better p best)).
        assert (H2 : forall j p, found = Some (j, p) -> exists j' p', best1 = Some (j', p') /\ (p <= p')%R).
        { intros j p ->. unfold best1, better. destruct best as [[j' p']|]; [|exists j, p; split; [done|lra]]. destruct (nlt p' p) eqn:E; eexists _, _; (split; [done|]); [lra|by apply rlt_false in E]. }
        assert (H3 : forall j p, best = Some (j, p) -> exists j' p', best1 = Some (j', p') /\ (p <= p')%R).
        { intros j p ->. unfold best1, better. destruct found as [[j' p']|]; [|exists j, p; split; [done|lra]]. destruct (nlt p p') eqn:E; eexists _, _; (split; [done|]); [apply rlt_true in E; lra|lra]. }
        apply IH; [done|lia|done|]. intros k x Hx. destruct (Hcov k x Hx) as [? | (j & nd' & Hj & Hnd' & Hin)]; [left; by eapply not_above_better|]. apply elem_of_cons in Hj as [-> | Hj]; [|right; eauto]. left.
        rewrite Hnd in Hnd'. injection Hnd' as <-. eapply not_above_better; [|exact H2]. apply L2. apply elem_of_list_lookup. exists (k - first nd). unfold inside in Hin. rewrite rows_lookup. replace (first nd + (k - first nd)) with k by lia. rewrite decide_True by lia. done.
      * destruct (d_kids _ _ _ _ _ D) as [[E1 E2] | (E1 & E2 & l & r & Hl & Hrr & F1 & F2 & F3)]; [unfold is_leaf in El; rewrite !bool_decide_eq_true_2 in El by done; done|].
        rewrite !bool_decide_eq_false_2 by done. cbn [orb]. rewrite Hl. cbn [mbind option_bind]. rewrite Hrr. cbn [mbind option_bind].
        pose proof (b_range _ _ _ _ Hinv _ _ Hl) as Hlr. pose proof (b_range _ _ _ _ Hinv _ _ Hrr) as Hrr'.
        assert (Hwl : node_weight (left nd) = 2 * (last l - first l) - 1) by (unfold node_weight; by rewrite Hl). assert (Hwr : node_weight (right nd) = 2 * (last r - first r) - 1) by (unfold node_weight; by rewrite Hrr).
        assert (Hcov' : forall k x, points t !! k = Some x -> not_above best x \/ exists j nd', (j = left nd \/ j = right nd \/ j ∈ stack) /\ nodes t !! j = Some nd' /\ inside nd' k).
        { intros k x Hx. destruct (Hcov k x Hx) as [? | (j & nd' & Hj & Hnd' & Hin)]; [by left|]. right. apply elem_of_cons in Hj as [-> | Hj]; [|exists j, nd'; split; [by right; right|done]].
          rewrite Hnd in Hnd'. injection Hnd' as <-. unfold inside in *. destruct (decide (k < last l)); [exists (left nd), l; split; [by left|]; split; [done|lia]|exists (right nd), r; split; [by right; left|]; split; [done|lia]]. }
        destruct (nlt _ _).
        -- apply IH; [constructor; [by eapply lookup_lt_Some|]; constructor; [by eapply lookup_lt_Some|done]| |done|].
           ++ change (node_weight (right nd) + (node_weight (left nd) + sum_list_with node_weight stack) < fuel). lia.
           ++ intros k x Hx. destruct (Hcov' k x Hx) as [? | (j & nd' & Hj & ? & ?)]; [by left|]. right. exists j, nd'. split; [|done]. rewrite !elem_of_cons. tauto.
        -- apply IH; [constructor; [by eapply lookup_lt_Some|]; constructor; [by eapply lookup_lt_Some|done]| |done|].
           ++ change (node_weight (left nd) + (node_weight (right nd) + sum_list_with node_weight stack) < fuel). lia.
           ++ intros k x Hx. destruct (Hcov' k x Hx) as [? | (j & nd' & Hj & ? & ?)]; [by left|]. right. exists j, nd'. split; [|done]. rewrite !elem_of_cons. tauto.
Qed.
Lemma find_best_match_ok : exists j x, find_best_match t q = Some (Some (j, dot q x)) /\ points t !! j = Some x /\ best_match ps q x.
Proof.
  pose proof (b_points _ _ _ _ Hinv) as Hp. destruct (b_root _ _ _ _ Hinv) as (nd & Hnd & Hf & Hl). pose proof (b_range _ _ _ _ Hinv _ _ Hnd) as Hr. pose proof (Permutation_length Hp) as Hpl.
  unfold find_best_match. destruct (points t) as [|p0 pts] eqn:Ep; [cbn in Hpl; lia|]. rewrite <- Ep in *.
  assert (Hp0 : length p0 = d). { rewrite Forall_forall in Hdim. apply Hdim. rewrite <- Hp, Ep. by left. }
  rewrite decide_True by lia. destruct (search_loop_ok (2 * length (points t) + 1) [0] None) as (best & E & Hfo & Hall).
  - constructor; [by eapply lookup_lt_Some|done].
  - cbn [sum_list_with]. unfold node_weight. rewrite Hnd. unfold weight. lia.
  - done.
  - intros k x Hx. right. exists 0, nd. split; [by left|]. split; [done|]. apply lookup_lt_Some in Hx. unfold inside. lia.
  - rewrite E. assert (H0 : points t !! 0 = Some p0) by (by rewrite Ep). pose proof (Hall 0 p0 H0) as Hn. destruct best as [[j p]|]; [|done]. destruct Hfo as (x & Hx & ->). exists j, x. split; [done|]. split; [done|]. split.
    + rewrite <- Hp. by eapply elem_of_list_lookup_2.
    + intros y Hy. rewrite <- Hp in Hy. apply elem_of_list_lookup in Hy as [k Hk]. exact (Hall k y Hk).
Qed.
End Search.

(** The search in every tree that can be built without undefined behaviour, whatever amount of
    nodes was reserved, finds a point with the largest inner product. *)
Theorem C79_best_match reserved (ps : list (list R)) (q : list R) t : ps <> [] -> build_with reserved ps = Some t -> (forall p, p ∈ ps -> length p = length q) ->
  exists j x, find_best_match t q = Some (Some (j, dot q x)) /\ points t !! j = Some x /\ best_match ps q x.
Proof.
  intros Hne Hb Hd. assert (Hdim : Forall (fun x => length x = length q) ps) by (by apply Forall_forall). destruct (build_with_ok (length q) ps reserved Hne Hdim) as (t' & E & I); [right; by rewrite Hb|].
  rewrite Hb in E. injection E as <-. by apply (find_best_match_ok (length q)).
Qed.
(** The points of the tree are the given ones. *)
Theorem C79_points reserved (ps : list (list R)) t : build_with reserved ps = Some t -> points t ≡ₚ ps.
Proof.
  intros Hb. destruct ps as [|p ps]; [cbn in Hb; by injection Hb as <-|]. assert (Hd : Forall (fun x => length x = length p) (p :: ps)) by (unfold build_with in Hb; by destruct (decide (Forall (fun x => length x = length p) (p :: ps)))).
  destruct (build_with_ok (length p) (p :: ps) reserved) as (t' & E & I); [done|done|right; by rewrite Hb|]. rewrite Hb in E. injection E as <-. apply I.
Qed.
(** Reserving 2n - 1 nodes is enough for every set of points: building then never uses a dead node. *)
Theorem C79_reserve_enough_partial (ps : list (list R)) reserved d : (forall p, p ∈ ps -> length p = d) -> 2 * length ps - 1 <= reserved -> is_Some (build_with reserved ps).
Proof.
  intros Hd Hr. destruct ps as [|p ps]; [by eexists|]. destruct (build_with_ok d (p :: ps) reserved) as (t & E & _); [done|by apply Forall_forall|by left|]. by rewrite E.
Qed.
(** The amount that is reserved is not: with eleven equal points the reference to a node is used
    after the vector of the nodes was reallocated. *)
Lemma same_step n (p : rpoint) i (t : rtree) nd : points t = replicate n p -> nodes t !! i = Some nd -> first nd < last nd <= n ->
  exists c r, build_step i t =
    if decide (last nd - first nd <= 8) then Some (Tree (points t) (<[i := Node c r (first nd) (last nd) 0 0]> (nodes t)) (capacity t))
    else if decide (length (nodes t) + 2 <= capacity t) then
      Some (Tree (points t) (<[i := Node c r (first nd) (last nd) (length (nodes t)) (S (length (nodes t)))]> (nodes t) ++
        [Node [] 0%R (first nd) (S (first nd)) 0 0; Node [] 0%R (S (first nd)) (last nd) 0 0]) (capacity t))
    else None.
Proof.
  intros Hp Hnd Hr. unfold build_step. rewrite Hnd. cbn [mbind option_bind]. assert (Hl : length (points t) = n) by (by rewrite Hp, replicate_length).
  assert (Hne : rows (points t) (first nd) (last nd) <> []). { intros E. pose proof (rows_length (points t) (first nd) (last nd) ltac:(lia) ltac:(lia)) as H. rewrite E in H. cbn in H. lia. }
  destruct (find_center_ok (length p) (rows (points t) (first nd) (last nd)) Hne) as (c & Ec & _).
  { apply Forall_forall. intros x Hx. apply elem_of_list_lookup in Hx as [k Hk]. rewrite rows_lookup, Hp in Hk. case_decide; [|done]. by apply lookup_replicate in Hk as [-> _]. }
  destruct (find_radius_ok (rows (points t) (first nd) (last nd)) c Hne) as (r & Er & _). rewrite Ec. cbn [mbind option_bind]. rewrite Er. cbn [mbind option_bind]. exists c, r.
  change max_leaf_elements with 8. destruct (decide (last nd - first nd <= 8)); [done|].
  destruct (partition_points_ok (points t) (first nd) (last nd)) as (p1 & p2 & Epp & _); [lia|lia|]. rewrite Epp. cbn [mbind option_bind fst snd].
  rewrite partition_false; [|lia|lia|].
  - cbn [mbind option_bind fst snd]. rewrite (decide_True (P := first nd = first nd)) by done. done.
  - intros k. unfold closer. rewrite Hp. destruct (replicate n p !! k) as [x|] eqn:E1; [|done]. destruct (replicate n p !! p1) as [x1|] eqn:E2; [|done]. destruct (replicate n p !! p2) as [x2|] eqn:E3; [|done].
    apply lookup_replicate in E1 as [-> _], E2 as [-> _], E3 as [-> _]. apply rlt_false. lra.
Qed.
Theorem C79_dangling_refuted : build (replicate 11 [1%R]) = None /\ is_Some (build_with 21 (replicate 11 [1%R])).
Proof.
  split; [|apply (C79_reserve_enough_partial _ _ 1); [intros p Hp; by apply elem_of_replicate in Hp as [-> _]|cbn; lia]].
  unfold build, build_with. change (length (replicate 11 [1%R])) with 11. change (replicate 11 [1%R]) with ([1%R] :: replicate 10 [1%R]) at 1. cbv beta iota.
  rewrite decide_True by (apply Forall_forall; intros x Hx; by apply elem_of_replicate in Hx as [-> _]). change (2 * 11 + 1) with 23. change (reserved_nodes 11 `max` 1) with 5.
  Ltac same_next := match goal with |- build_loop (S ?f) ?i ?t = None => change (build_loop (S f) i t) with (if decide (i < length (nodes t)) then (t' ← build_step i t; build_loop f (S i) t') else Some t);
    rewrite decide_True by (cbn; lia); let c := fresh "c" in let r := fresh "r" in let E := fresh "E" in
    edestruct (same_step 11 [1%R] i t) as (c & r & E); [done|cbn; reflexivity|cbn; lia|]; rewrite E; clear E; cbn [first last nodes points capacity length app insert list_insert Nat.sub Nat.add mbind option_bind] end.
  same_next. rewrite decide_False by lia. rewrite decide_True by lia. cbn [mbind option_bind].
  same_next. rewrite decide_True by lia. cbn [mbind option_bind].
  same_next. rewrite decide_False by lia. rewrite decide_True by lia. cbn [mbind option_bind].
  same_next. rewrite decide_True by lia. cbn [mbind option_bind].
  same_next. rewrite decide_False by lia. rewrite decide_False by lia. done.
Qed.
Print Assumptions C79_best_match.
Print Assumptions C79_points.
Print Assumptions C79_reserve_enough_partial.
Print Assumptions C79_dangling_refuted.

(** ** Examples *)
(** Rationals; square roots of squares only. *)
#[local] Instance rat_num : num Q := Num Q 0%Q (fun x y => Qred (x + y)) (fun x y => Qred (x - y)) (fun x y => Qred (x * y)) (fun x y => Qred (x / y))
  (fun x => let y := Qred x in Qmake (Z.sqrt (Qnum y)) (Pos.sqrt (Qden y))) (fun x y => negb (Qle_bool y x)) (fun n => inject_Z (Z.of_nat n)).
Definition rats (l : list Z) : list (list Q) := (fun z => [inject_Z z]) <$> l.
(** Twenty-four points on a line, more than one leaf: the search finds the largest and the smallest. *)
Definition line : list Z := [5; -3; 12; 7; 0; 9; -8; 4; 11; 2; -6; 1; 8; 3; 10; -1; 6; -2; -4; -5; -7; 13; 15; 14]%Z.
Example C79_example : exists t, build (rats line) = Some t /\ 3 < length (nodes t) /\
  (option_map snd <$> find_best_match t [1%Q]) = Some (Some (15 # 1)%Q) /\ (option_map snd <$> find_best_match t [(-2)%Q]) = Some (Some (16 # 1)%Q).
Proof. eexists. split; [vm_compute; reflexivity|]. split; [vm_compute; lia|]. split; vm_compute; reflexivity. Qed.
(** Powers of three: the tree is so unbalanced that the reserved nodes do not suffice, although
    all points are different. *)
Example C79_example_distinct : build (rats ((fun n => 3 ^ Z.of_nat n)%Z <$> seq 0 12)) = None /\ is_Some (build_with 23 (rats ((fun n => 3 ^ Z.of_nat n)%Z <$> seq 0 12))).
Proof. split; [vm_compute; reflexivity|eexists; vm_compute; reflexivity]. Qed.
(** Over the reals: the hypotheses of the theorems hold. *)
Example C79_nonvacuous : exists t, build_with 23 (replicate 12 [1; 2]%R) = Some t /\ forall p, p ∈ replicate 12 [1; 2]%R -> length p = length [3; 4]%R.
Proof.
  assert (Hd : forall p, p ∈ replicate 12 [1; 2]%R -> length p = length [3; 4]%R) by (intros p Hp; by apply elem_of_replicate in Hp as [-> _]).
  destruct (C79_reserve_enough_partial (replicate 12 [1; 2]%R) 23 2 Hd) as [t Ht]; [cbn; lia|]. by exists t.
Qed.
