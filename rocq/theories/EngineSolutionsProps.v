(** C55: the solutions a run returns. *)
From stdpp Require Import list list_numbers sets.
From Coq Require Import Lia.
From Verif Require Import FloatBase FloatModel FloatSpec FloatProofs FloatProps StdSort AlgorithmModel AlgorithmProofs AlgorithmProps FrontSpec FrontModel FrontProofs FrontProps MergeModel MergeSpec MergeProps ReplacementSpec CacheModel CacheSpec CacheProofs CrossoverModel OperatorModel OperatorSpec CrossoverOpProps.
From Verif Require Import EngineModel EngineSpec EngineProofs EngineRuns EngineProps.

(** ** Sorting by a key and dropping repeated keys *)
Section keys.
Context {A K : Type} `{EqDecision K} (key : A -> K) (less : K -> K -> bool).
Hypothesis irr : forall k, less k k = false.
Hypothesis tra : forall a b c, less a b = true -> less b c = true -> less a c = true.
Hypothesis tot : forall a b, less a b = false -> less b a = false -> a = b.
Notation lt := (fun x y => less (key x) (key y)).
Notation eqb := (fun x y => bool_decide (key x = key y)).
Lemma unique_from_keys l : forall x, sorted_by lt (x :: l) ->
  NoDup (key <$> x :: unique_from eqb x l) /\ (forall z, z ∈ x :: l -> exists w, w ∈ x :: unique_from eqb x l /\ key w = key z) /\
  (forall w, w ∈ unique_from eqb x l -> less (key x) (key w) = true).
Proof.
  induction l as [|y l IH]; intros x Hs.
  - cbn. split; [apply NoDup_singleton|]. split; [intros z Hz; by exists z|]. intros w Hw. by apply elem_of_nil in Hw.
  - assert (Hyl : sorted_by lt (y :: l)). { intros i j a b Hij Ha Hb. apply (Hs (S i) (S j) a b); [lia|done|done]. }
    assert (Hxy : less (key y) (key x) = false) by (apply (Hs 0 1 x y); [lia|done|done]).
    cbn [unique_from]. destruct (bool_decide (key x = key y)) eqn:E.
    + apply bool_decide_eq_true in E. assert (Hxl : sorted_by lt (x :: l)).
      { intros i j a b Hij Ha Hb. destruct j as [|j]; [lia|]. destruct i as [|i]; [cbn in Ha; injection Ha as <-; rewrite E; apply (Hyl 0 (S j) y b); [lia|done|done]|].
        apply (Hs (S (S i)) (S (S j)) a b); [lia|done|done]. }
      destruct (IH x Hxl) as (H1 & H2 & H3). split; [done|]. split; [|done]. intros z Hz. apply elem_of_cons in Hz as [->|Hz]; [apply H2, elem_of_cons; by left|].
      apply elem_of_cons in Hz as [->|Hz]; [exists x; split; [apply elem_of_cons; by left|done]|]. apply H2, elem_of_cons. by right.
    + apply bool_decide_eq_false in E. destruct (IH y Hyl) as (H1 & H2 & H3).
      assert (Hlt : less (key x) (key y) = true). { destruct (less (key x) (key y)) eqn:El; [done|]. exfalso. apply E. by apply tot. }
      assert (H4 : forall w, w ∈ y :: unique_from eqb y l -> less (key x) (key w) = true). { intros w Hw. apply elem_of_cons in Hw as [->|Hw]; [done|]. apply (tra _ (key y)); [done|by apply H3]. }
      split; [|split; [|done]].
      * rewrite fmap_cons. apply NoDup_cons. split; [|done]. intros Hin. apply elem_of_list_fmap in Hin as (w & Ek & Hw). specialize (H4 w Hw). rewrite <- Ek, irr in H4. done.
      * intros z Hz. apply elem_of_cons in Hz as [->|Hz]; [exists x; split; [apply elem_of_cons; by left|done]|]. destruct (H2 z Hz) as (w & Hw & Ew). exists w. split; [apply elem_of_cons; by right|done].
Qed.
Lemma unique_keys l : sorted_by lt l -> NoDup (key <$> unique eqb l) /\ (forall z, z ∈ l -> exists w, w ∈ unique eqb l /\ key w = key z).
Proof.
  destruct l as [|x l]; cbn [unique]; [intros _; split; [apply NoDup_nil_2|intros z Hz; by apply elem_of_nil in Hz]|]. intros Hs. by destruct (unique_from_keys l x Hs) as (H1 & H2 & _).
Qed.
End keys.

(** ** Maximal elements *)
Lemma maximal_above {A} (less : A -> A -> bool) (l : list A) : strict_order less l -> forall n x, x ∈ l -> length (filter (fun y => less x y = true) l) <= n ->
  exists z, z ∈ l /\ (z = x \/ less x z = true) /\ forall w, w ∈ l -> less z w = false.
Proof.
  intros [Hirr Htr]. induction n as [|n IH]; intros x Hx Hn.
  - exists x. split; [done|]. split; [by left|]. intros w Hw. destruct (less x w) eqn:Hb; [|done]. exfalso. assert (Hin : w ∈ filter (fun y => less x y = true) l) by (by apply elem_of_list_filter).
    destruct (filter (fun y => less x y = true) l); [by apply elem_of_nil in Hin|cbn in Hn; lia].
  - destruct (filter (fun y => less x y = true) l) as [|y k] eqn:E.
    + exists x. split; [done|]. split; [by left|]. intros w Hw. destruct (less x w) eqn:Hb; [|done]. exfalso. assert (Hin : w ∈ filter (fun y => less x y = true) l) by (by apply elem_of_list_filter). rewrite E in Hin. by apply elem_of_nil in Hin.
    + assert (Hy : y ∈ filter (fun y => less x y = true) l) by (rewrite E; apply elem_of_cons; by left). apply elem_of_list_filter in Hy as [Hxy Hyl].
      destruct (IH y Hyl) as (z & Hz & Hyz & Hm).
      { assert (Hlen : length (filter (fun w => less y w = true) l) < length (filter (fun w => less x w = true) l)).
        { assert (Hle : forall q : list A, (forall a, a ∈ q -> a ∈ l) -> length (filter (fun w => less y w = true) q) <= length (filter (fun w => less x w = true) q) /\ (y ∈ q -> length (filter (fun w => less y w = true) q) < length (filter (fun w => less x w = true) q))).
          { intros q. induction q as [|a q IHk]; intros Hk; [split; [apply Nat.le_refl|]; intros Hin; by apply elem_of_nil in Hin|].
            destruct IHk as [L1 L2]; [intros b Hb; apply Hk, elem_of_cons; by right|].
            assert (Hal : a ∈ l) by (apply Hk, elem_of_cons; by left).
            assert (Hax : less y a = true -> less x a = true) by (intros Ha; by apply (Htr x y a)).
            split.
            - rewrite !filter_cons. destruct (decide (less y a = true)), (decide (less x a = true)); cbn; try lia. exfalso. auto.
            - intros Hin. rewrite !filter_cons. apply elem_of_cons in Hin as [<-|Hin].
              + destruct (decide (less y y = true)) as [Hyy|Hyy]; [by rewrite Hirr in Hyy|]. destruct (decide (less x y = true)); [|done]. cbn. lia.
              + specialize (L2 Hin). destruct (decide (less y a = true)), (decide (less x a = true)); cbn; try lia. exfalso. auto. }
          apply Hle; done. }
        rewrite E in Hlen. cbn in Hlen, Hn. lia. }
      exists z. split; [done|]. split; [|done]. right. destruct Hyz as [->|Hyz]; [done|]. by apply (Htr x y z).
Qed.

Lemma collect_in {A} (l : list A) : forall st x, x ∈ collect l st -> x ∈ l.
Proof.
  induction l as [|y l IH]; intros st x Hx; [done|]. destruct st as [|s st]; cbn in Hx; [by apply elem_of_nil in Hx|]. apply elem_of_cons. case_decide; [right; by eapply IH|].
  apply elem_of_cons in Hx as [->|Hx]; [by left|right; by eapply IH].
Qed.
Lemma merged_in {A} (less : A -> A -> bool) cmp l r res x : merged less cmp l r res -> x ∈ res -> x ∈ l \/ x ∈ r.
Proof.
  intros Hm Hx. inversion Hm as [r' E1 E2|l' E1 E2|l' r' lhs' rhs' s rst Hl Hr Esw Hrun Hfin Hv E1 E2]; subst; [by right|by left|].
  apply elem_of_app in Hx. assert (Hx' : x ∈ lhs' \/ x ∈ rhs') by (destruct Hx as [Hx|Hx]; apply collect_in in Hx; auto). case_decide; injection Esw as -> ->; tauto.
Qed.

Section c55.
Context {T : Type} `{EqDecision T}.
Notation cand := (candidate T).
Variable cf : settings T.
Variable oc : outcomes T.
Variable d : nat.
Variable row : list b64 -> Prop.
Variable f0 : list T -> list b64.
Hypothesis HC : contract cf oc d row.
Hypothesis row_finite : forall r, row r -> finite_vec r.
Hypothesis Hexact : exact (tols cf).
Hypothesis static : dynamic cf = false.
Hypothesis f_static : forall n c, fitness_function cf n c = f0 c.
Hypothesis eq_exact : forall a b, chrom_eq cf a b = true -> a = b.
Hypothesis Hsort : sorts_chromosomes cf.
Hypothesis Htotal : forall a b, chrom_less cf a b = false -> chrom_less cf b a = false -> a = b.
(** Merging as in MergeModel.v, whatever the schedule. *)
Hypothesis drops : merge_drops oc.
Hypothesis Hmerged : forall gen (l r : list cand), Forall (fun c => row (fitness c)) (l ++ r) -> antichain (cand_less (tols cf) fitness) l -> antichain (cand_less (tols cf) fitness) r ->
  merged (cand_less (tols cf) fitness) (cand_cmp (tols cf) fitness) l r (o_merge oc gen l r).
Hypothesis Hoptimal : forall gen m, length m = population_size cf -> Forall row m -> o_optimal oc gen m = [] \/ exact_front m (o_optimal oc gen m).

Definition good_rows (l : list cand) : Prop := Forall (fun c => row (fitness c)) l.
Lemma good_matrix l : good_rows l -> matrix d (fitness <$> l).
Proof. intros H. apply Forall_fmap. eapply Forall_impl; [exact H|]. intros c Hc. cbv [compose]. split; [by apply (k_row _ _ _ _ HC)|by apply row_finite]. Qed.
Lemma less_dom (x y : cand) : row (fitness x) -> row (fitness y) -> (cand_less (tols cf) fitness x y = true <-> dominated_by (fitness x) (fitness y)).
Proof.
  intros Hx Hy. destruct Hexact as (H1 & H2 & H3). unfold cand_less. apply pareto_less_exact; try done; [|by apply row_finite..]. by rewrite (k_row _ _ _ _ HC _ Hx), (k_row _ _ _ _ HC _ Hy).
Qed.
Lemma order_good l : good_rows l -> strict_order (cand_less (tols cf) fitness) l.
Proof. intros H. by apply (cand_order (tols cf) fitness d l Hexact (good_matrix l H)). Qed.
(** Every member of [l] is equal to or dominated by an undominated member. *)
Lemma above l x : good_rows l -> x ∈ l -> exists z, z ∈ l /\ (z = x \/ dominated_by (fitness x) (fitness z)) /\ forall w, w ∈ l -> ~ dominated_by (fitness z) (fitness w).
Proof.
  intros Hg Hx. destruct (maximal_above _ l (order_good l Hg) _ x Hx (le_n _)) as (z & Hz & Hxz & Hm). unfold good_rows in Hg. rewrite Forall_forall in Hg.
  exists z. split; [done|]. split; [destruct Hxz as [->|Hxz]; [by left|right; apply less_dom; auto]|].
  intros w Hw Hd. apply less_dom in Hd; [|by apply Hg..]. rewrite (Hm w Hw) in Hd. done.
Qed.
Definition no_domination (l : list cand) : Prop := forall x y, x ∈ l -> y ∈ l -> ~ dominated_by (fitness x) (fitness y).
Definition covered (all s : list cand) : Prop := forall y, y ∈ all -> exists x, x ∈ s /\ (dominated_by (fitness y) (fitness x) \/ fitness x = fitness y).
Lemma antichain_good l : good_rows l -> no_domination l -> antichain (cand_less (tols cf) fitness) l.
Proof.
  intros Hg Hn x y Hx Hy. destruct (cand_less (tols cf) fitness x y) eqn:E; [|done]. exfalso. unfold good_rows in Hg. rewrite Forall_forall in Hg. apply less_dom in E; [|by apply Hg..]. by apply (Hn x y).
Qed.
(** Merging. *)
Lemma merge_good gen l r : good_rows l -> good_rows r -> no_domination l -> no_domination r ->
  no_domination (o_merge oc gen l r) /\ covered (l ++ r) (o_merge oc gen l r) /\ good_rows (o_merge oc gen l r).
Proof.
  intros Gl Gr Nl Nr. assert (Glr : good_rows (l ++ r)) by (by apply Forall_app).
  pose proof (C21_merge_every_schedule_partial _ (tols cf) fitness d l r _ Hexact (good_matrix _ Glr) (antichain_good _ Gl Nl) (antichain_good _ Gr Nr) (Hmerged gen l r Glr (antichain_good _ Gl Nl) (antichain_good _ Gr Nr))) as E.
  assert (Hchar : forall x, x ∈ o_merge oc gen l r <-> x ∈ l ++ r /\ forall y, y ∈ l ++ r -> ~ dominated_by (fitness x) (fitness y)).
  { intros x. assert (Hund : forall all s, (forall y, y ∈ all <-> y ∈ l ++ r) -> (forall y, y ∈ s -> y ∈ l ++ r) -> x ∈ undominated (cand_less (tols cf) fitness) all s <-> x ∈ s /\ forall y, y ∈ l ++ r -> ~ dominated_by (fitness x) (fitness y)).
    { intros all s Hall Hs. unfold undominated. rewrite elem_of_list_filter, forallb_forall. unfold good_rows in Glr. rewrite Forall_forall in Glr. split.
      - intros [Hf Hx]. split; [done|]. intros y Hy Hd. apply less_dom in Hd; [|by apply Glr, Hs|by apply Glr]. specialize (Hf y). rewrite <- elem_of_list_In, Hall in Hf. specialize (Hf Hy). by rewrite Hd in Hf.
      - intros [Hx Hn]. split; [|done]. intros y Hy. rewrite <- elem_of_list_In, Hall in Hy. destruct (cand_less (tols cf) fitness x y) eqn:Ed; [|done]. exfalso. apply less_dom in Ed; [|by apply Glr, Hs|by apply Glr]. by apply (Hn y). }
    destruct (decide (length l < length r)).
    - rewrite E, elem_of_app, (Hund (r ++ l) r), (Hund (r ++ l) l), elem_of_app; [tauto|..]; intros y; rewrite ?elem_of_app; tauto.
    - rewrite E, elem_of_app, (Hund (l ++ r) l), (Hund (l ++ r) r), elem_of_app; [tauto|..]; intros y; rewrite ?elem_of_app; tauto. }
  split_and!.
  - intros x y Hx Hy. apply Hchar in Hx as [_ Hx]. apply Hchar in Hy as [Hy _]. by apply Hx.
  - intros y Hy. destruct (above (l ++ r) y Glr Hy) as (z & Hz & Hyz & Hm). exists z. split; [by apply Hchar|]. destruct Hyz as [->|Hyz]; [by right|by left].
  - apply Forall_forall. intros x Hx. apply Hchar in Hx as [Hx _]. unfold good_rows in Glr. rewrite Forall_forall in Glr. by apply Glr.
Qed.
Lemma covered_trans a b s : covered a b -> covered b s -> covered a s.
Proof.
  intros H1 H2 y Hy. destruct (H1 y Hy) as (x & Hx & Hyx). destruct (H2 x Hx) as (z & Hz & Hxz). exists z. split; [done|]. destruct Hyx as [Hyx|Hyx], Hxz as [Hxz|Hxz].
  - left. by eapply dominated_trans.
  - left. by rewrite Hxz.
  - left. by rewrite <- Hyx.
  - right. congruence.
Qed.
(** The candidates optimalSolutions finds. *)
Lemma optimal_good gen g l : runs cf d row g -> optimalSolutions cf oc gen g = Some l -> forall x, x ∈ l <-> x ∈ population g /\ forall y, y ∈ population g -> ~ dominated_by (fitness x) (fitness y).
Proof.
  intros [R1 R2 R3 R4 R5] H. unfold optimalSolutions in H. apply assertion_Some in H as [H _].
  assert (Hg : good_rows (population g)) by (eapply Forall_impl; [exact R3|]; by intros c (_ & _ & Hr)).
  assert (Hm : length (fitness_matrix g) = population_size cf) by (rewrite R4, fmap_length; done).
  assert (Hr : Forall row (fitness_matrix g)) by (rewrite R4; by apply Forall_fmap).
  destruct (Hoptimal gen (fitness_matrix g) Hm Hr) as [E|E].
  - rewrite E in H. destruct (C18_population_front _ (tols cf) fitness d (population g) Hexact (k_objectives _ _ _ _ HC) (good_matrix _ Hg)) as (fr & Ef & Hf). rewrite R1, Ef in H. injection H as <-. exact Hf.
  - assert (H' : select_copy (population g) (o_optimal oc gen (fitness_matrix g)) = Some l).
    { destruct (o_optimal oc gen (fitness_matrix g)) eqn:Eo; [|done]. exfalso.
      apply (front_nonempty (tols cf) d (fitness_matrix g) []); try done; [apply (k_objectives _ _ _ _ HC)|rewrite R4; by apply good_matrix|].
      intros En. rewrite En in Hm. cbn in Hm. pose proof (k_size _ _ _ _ HC). lia. }
    destruct (select_copy_ok (population g) (o_optimal oc gen (fitness_matrix g))) as (k & Hk & Hkx).
    { intros i Hi. rewrite R2. by apply (k_optimal _ _ _ _ HC gen (fitness_matrix g)). }
    rewrite H' in Hk. injection Hk as <-. intros x. rewrite Hkx. destruct E as [_ E]. rewrite R4 in E. split.
    + intros (i & Hi & Hx). rewrite R4 in Hi. apply E in Hi as (r & Hr' & Hn). rewrite list_lookup_fmap, Hx in Hr'. injection Hr' as <-.
      split; [apply elem_of_list_lookup; eauto|]. intros y Hy. apply Hn. apply elem_of_list_fmap. eauto.
    + intros (Hx & Hn). apply elem_of_list_lookup in Hx as [i Hx]. exists i. split; [|done]. rewrite R4. apply E. exists (fitness x). split; [by rewrite list_lookup_fmap, Hx|].
      intros r' Hr'. apply elem_of_list_fmap in Hr' as (y & -> & Hy). by apply Hn.
Qed.
(** updateOptimalSolutions. *)
Lemma update_good gen (sols opt : list cand) : Forall (evaluated_by f0) (sols ++ opt) -> good_rows sols -> good_rows opt -> no_domination sols -> no_domination opt ->
  let s := unique (fun l r : cand => bool_decide (chromosome l = chromosome r)) (sort cf (fun l r : cand => chrom_less cf (chromosome l) (chromosome r)) (o_merge oc gen sols opt)) in
  no_domination s /\ covered (sols ++ opt) s /\ good_rows s /\ NoDup (chromosome <$> s).
Proof.
  intros He Gs Go Ns No. cbn zeta. destruct (merge_good gen sols opt Gs Go Ns No) as (M1 & M2 & M3). destruct Hsort as [Hs Hw].
  set (m := o_merge oc gen sols opt) in *. destruct (Hs (fun l r : cand => chrom_less cf (chromosome l) (chromosome r)) m (Hw m)) as [Hp Hso]. set (sm := sort cf _ m) in *.
  assert (Hirr : forall k, chrom_less cf k k = false).
  { intros k. destruct (Hw [Cand [] k false]) as [H _ _]. apply (H (Cand [] k false)). apply elem_of_list_singleton. done. }
  assert (Htr : forall a b c, chrom_less cf a b = true -> chrom_less cf b c = true -> chrom_less cf a c = true).
  { intros a b c. destruct (Hw [Cand [] a false; Cand [] b false; Cand [] c false]) as [_ H _]. apply (H (Cand [] a false) (Cand [] b false) (Cand [] c false)); set_solver. }
  destruct (unique_keys chromosome (chrom_less cf) Hirr Htr Htotal sm Hso) as [U1 U2].
  set (s := unique _ sm) in *. assert (Hsin : forall x, x ∈ s -> x ∈ m) by (intros x Hx; apply unique_in in Hx; by rewrite Hp). split_and!.
  - intros x y Hx Hy. apply M1; by apply Hsin.
  - apply (covered_trans _ m); [done|]. intros y Hy. assert (Hy' : y ∈ sm) by (by rewrite <- Hp). destruct (U2 y Hy') as (w & Hw' & Ek). exists w. split; [done|]. right.
    assert (Hev : forall z, z ∈ m -> evaluated_by f0 z). { intros z Hz. rewrite Forall_forall in He. apply He. apply elem_of_app. exact (drops gen sols opt z Hz). }
    rewrite (proj2 (Hev w (Hsin w Hw'))), (proj2 (Hev y Hy)). by rewrite Ek.
  - apply Forall_forall. intros x Hx. unfold good_rows in M3. rewrite Forall_forall in M3. by apply M3, Hsin.
  - done.
Qed.

Record optimal_state (g : ga T) : Prop := {
  o_sound : sound_state f0 g;
  o_runs : runs cf d row g;
  o_good : good_rows (solutions g);
  o_anti : no_domination (solutions g);
  o_kept : if keep_all cf then forall v, v ∈ callbacks (log g) -> covered (v_pop v) (solutions g) else solutions g = [];
  o_dup : keep_all cf = true -> 0 < generation_cntr g -> NoDup (chromosome <$> solutions g);
  o_from : forall x, x ∈ solutions g -> exists v, v ∈ callbacks (log g) /\ x ∈ v_pop v;
  o_last : exists v, v ∈ callbacks (log g) /\ v_pop v = population g;
}.
Lemma runs_good g : runs cf d row g -> good_rows (population g).
Proof. intros [R1 R2 R3 R4 R5]. eapply Forall_impl; [exact R3|]. by intros c (_ & _ & Hr). Qed.
Lemma front_covers g (l : list cand) : runs cf d row g -> (forall x, x ∈ l <-> x ∈ population g /\ forall y, y ∈ population g -> ~ dominated_by (fitness x) (fitness y)) ->
  no_domination l /\ covered (population g) l /\ good_rows l.
Proof.
  intros Hr Hl. pose proof (runs_good g Hr) as Hg. split_and!.
  - intros x y Hx Hy. apply Hl in Hx as [_ Hx]. apply Hl in Hy as [Hy _]. by apply Hx.
  - intros y Hy. destruct (above (population g) y Hg Hy) as (z & Hz & Hyz & Hm). exists z. split; [by apply Hl|]. destruct Hyz as [->|Hyz]; [by right|by left].
  - apply Forall_forall. intros x Hx. apply Hl in Hx as [Hx _]. unfold good_rows in Hg. rewrite Forall_forall in Hg. by apply Hg.
Qed.
Hypothesis Hcache : dynamic cf = false \/ cached_generations cf = 0 \/ debug cf = false.
Lemma initialize_optimal Q initial g g' : valid_initial cf row initial -> Forall (fitness_sound f0) initial -> cache_ok Q (fitness_cache g) -> initializeAlgorithm cf oc initial g = Some g' -> optimal_state g'.
Proof.
  intros Hi Hf Hca H. pose proof (initialize_sound cf oc f0 f_static Q initial g g' Hf Hca H) as Hs.
  destruct (initialize_runs cf oc d row HC Hcache Q initial g Hi Hca) as (g2 & E & Hr & _). rewrite H in E. injection E as <-.
  apply initialize_Some in H as (pop0 & cs & [I1 I2 I3 I4 I5 I6 (I7 & I8 & I9 & I10)]).
  assert (Hlast : forall v, v ∈ callbacks (log g') <-> v = View 0 (length cs) (population g') (fitness_matrix g')). { intros v. rewrite I6. cbn zeta. logs. apply elem_of_list_singleton. }
  destruct (keep_all cf) eqn:Ek.
  - assert (Hch : forall x, x ∈ solutions g' <-> x ∈ population g' /\ forall y, y ∈ population g' -> ~ dominated_by (fitness x) (fitness y)).
    { destruct (C18_population_front _ (tols cf) fitness d (population g') Hexact (k_objectives _ _ _ _ HC) (good_matrix _ (runs_good _ Hr))) as (fr & Ef & Hfr). rewrite (r_obj _ _ _ _ Hr), Ef in I5. injection I5 as <-. exact Hfr. }
    destruct (front_covers g' _ Hr Hch) as (F1 & F2 & F3). split; try done.
    + rewrite Ek. intros v Hv. apply Hlast in Hv as ->. exact F2.
    + intros _ Hc. lia.
    + intros x Hx. eexists. split; [by apply Hlast|]. cbn. by apply Hch in Hx as [Hx _].
    + eexists. split; [by apply Hlast|]. done.
  - split; try done.
    + rewrite I5. constructor.
    + rewrite I5. intros x y Hx. by apply elem_of_nil in Hx.
    + by rewrite Ek.
    + congruence.
    + rewrite I5. intros x Hx. by apply elem_of_nil in Hx.
    + eexists. split; [by apply Hlast|]. done.
Qed.
Lemma advance_optimal g g' : optimal_state g -> advance cf oc (stopped g) = Some g' -> optimal_state g'.
Proof.
  intros [So R G A K D F L] H. pose proof (advance_sound cf oc f0 static f_static eq_exact Hsort drops _ _ (sound_stopped f0 _ So) H) as So'.
  destruct (advance_runs cf oc d row HC Hcache _ (runs_stopped cf d row _ R)) as (g2 & E & R'). rewrite H in E. injection E as <-.
  apply advance_Some in H as (ch0 & ch & cs & is & [A1 A2 A3 A4 A5 A6 A7 A8 (A9 & A10 & A11 & A12)]).
  assert (Hcb : forall v, v ∈ callbacks (log g') <-> v ∈ callbacks (log g) \/ v = View (generation_cntr g) (num_fitness_evals g + length cs) (population g') (fitness_matrix g')).
  { intros v. rewrite A8. cbn zeta. logs. by rewrite elem_of_app, elem_of_list_singleton. }
  destruct (keep_all cf) eqn:Ek.
  - destruct A7 as (opt & Ho & Hsol). cbn [stopped emit solutions] in Hsol.
    pose proof (optimal_good _ _ _ R' Ho) as Hopt. destruct (front_covers g' opt R' Hopt) as (F1 & F2 & F3).
    assert (Hev : Forall (evaluated_by f0) (solutions g ++ opt)).
    { apply Forall_app. split; [apply (s_sols _ _ So)|]. apply Forall_forall. intros x Hx. pose proof (s_pop _ _ So') as Hp. rewrite Forall_forall in Hp. apply Hp. by apply Hopt in Hx as [Hx _]. }
    destruct (update_good (S (generation_cntr (stopped g))) (solutions g) opt Hev G F3 A F1) as (U1 & U2 & U3 & U4). cbn zeta in *. rewrite <- Hsol in *.
    split; try done.
    + rewrite Ek. intros v Hv. apply Hcb in Hv as [Hv| ->].
      * apply (covered_trans _ (solutions g)); [by apply K|]. intros y Hy. apply U2, elem_of_app. by left.
      * cbn. apply (covered_trans _ opt); [done|]. intros y Hy. apply U2, elem_of_app. by right.
    + intros x Hx. rewrite Hsol in Hx. apply (update_in cf oc Hsort drops) in Hx as [Hx|Hx].
      * destruct (F x Hx) as (v & Hv & Hxv). exists v. split; [|done]. apply Hcb. by left.
      * eexists. split; [apply Hcb; by right|]. cbn. by apply Hopt in Hx as [Hx _].
    + eexists. split; [apply Hcb; by right|]. done.
  - cbn [stopped emit solutions] in A7. split; try done.
    + by rewrite A7.
    + by rewrite A7.
    + rewrite Ek. by rewrite A7.
    + congruence.
    + rewrite A7, K. intros x Hx. by apply elem_of_nil in Hx.
    + eexists. split; [apply Hcb; by right|]. done.
Qed.
Theorem C55_solutions_partial s generations initial g sols g' :
  valid_initial cf row initial -> Forall (fitness_sound f0) initial -> crepr (fitness_cache g) s ->
  solve cf oc generations initial g = Some (sols, g') ->
  (* mutually non-dominated *)
  (forall x y, x ∈ sols -> y ∈ sols -> ~ dominated_by (fitness x) (fitness y)) /\
  (* no two equal chromosomes: not when all are kept and only the initial population was made *)
  (keep_all cf = false \/ 0 < generation_cntr g' -> NoDup (chromosome <$> sols)) /\
  (* complete *)
  (if keep_all cf then forall v, v ∈ callbacks (log g') -> covers (v_pop v) sols else covers (population g') sols) /\
  (* from the populations *)
  (forall x, x ∈ sols -> exists v, v ∈ callbacks (log g') /\ x ∈ v_pop v).
Proof.
  intros Hi Hf Hca H.
  assert (Hinv : exists gl, optimal_state gl /\ stop_now oc gl /\ solved cf oc g gl sols g').
  { eapply solve_inv; [| |exact H].
    - intros g1 H1. eapply (initialize_optimal (fun _ _ => True)); [exact Hi|exact Hf| |exact H1]. by exists s.
    - intros g0 g1 Ho _ H1. by eapply advance_optimal. }
  destruct Hinv as (gl & [So R G A K D F L] & _ & [Z1 Z2 (Z3 & Z4 & Z5 & Z6 & Z7 & Z8) _ Z]).
  assert (Hcb : callbacks (log g') = callbacks (log gl)) by (rewrite Z1; by logs). rewrite Hcb.
  assert (Hcov : forall all, no_domination sols -> covered all sols -> covers all sols).
  { intros all Hn Hc. split; [|done]. intros x y Hx Hy Hd. destruct (Hc y Hy) as (z & Hz & [Hyz|Hyz]).
    - apply (Hn x z Hx Hz). by eapply dominated_trans.
    - apply (Hn x z Hx Hz). by rewrite Hyz. }
  destruct (keep_all cf) eqn:Ek.
  - subst sols. split; [exact A|]. split; [intros [?|Hc]; [done|]; apply D; [done|lia]|]. split; [intros v Hv; apply Hcov; [done|by apply K]|done].
  - destruct Z as (opt & Ho & Hsol). pose proof (optimal_good _ _ _ (runs_stopped cf d row _ R) Ho) as Hopt. destruct (front_covers (stopped gl) opt (runs_stopped cf d row _ R) Hopt) as (F1 & F2 & F3).
    assert (Hev : Forall (evaluated_by f0) (solutions gl ++ opt)).
    { apply Forall_app. split; [apply (s_sols _ _ So)|]. apply Forall_forall. intros x Hx. pose proof (s_pop _ _ So) as Hp. rewrite Forall_forall in Hp. apply Hp. by apply Hopt in Hx as [Hx _]. }
    destruct (update_good (generation_cntr gl) (solutions gl) opt Hev G F3 A F1) as (U1 & U2 & U3 & U4). cbn zeta in *. rewrite <- Hsol in *.
    split; [exact U1|]. split; [done|]. split.
    + apply Hcov; [exact U1|]. rewrite Z6. apply (covered_trans _ opt); [exact F2|]. intros y Hy. apply U2, elem_of_app. by right.
    + intros x Hx. rewrite Hsol in Hx. apply (update_in cf oc Hsort drops) in Hx as [Hx|Hx]; [by apply F|]. destruct L as (v & Hv & Ev). exists v. split; [done|]. rewrite Ev. by apply Hopt in Hx as [Hx _].
Qed.
End c55.
Print Assumptions C55_solutions_partial.
