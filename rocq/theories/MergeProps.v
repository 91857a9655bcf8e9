(** Properties of mergeParetoSets (C21). *)
From Coq Require Import Reals ZArith Lia.
From Flocq Require Import BinarySingleNaN.
From stdpp Require Import list relations sets.
From Verif Require Import FloatBase FloatModel FloatSpec FloatProofs FloatProps FrontSpec FrontModel FrontProofs FrontProps.
From Verif Require Import MergeModel MergeSpec MergeProofs.
Local Open Scope nat_scope.

(** The dominance tests of the code on the fitness vectors of candidates. *)
Definition cand_less {A} (t : tolerances) (fit : A -> list b64) (x y : A) : bool := paretoCompareLess t (fit x) (fit y).
Definition cand_cmp {A} (t : tolerances) (fit : A -> list b64) (x y : A) : Z := paretoCompare t (fit x) (fit y).

Lemma cand_order {A} t (fit : A -> list b64) d l : exact t -> matrix d (fit <$> l) ->
  strict_order (cand_less t fit) l /\
  (forall x y, x ∈ l -> y ∈ l ->
     ((cand_cmp t fit x y < 0)%Z <-> cand_less t fit x y = true) /\ ((0 < cand_cmp t fit x y)%Z <-> cand_less t fit y x = true)).
Proof.
  intros Hex Hm. assert (Hi : forall x, x ∈ l -> exists i, i < length (fit <$> l) /\ row (fit <$> l) i = fit x).
  { intros x Hx. apply elem_of_list_lookup in Hx as [i Hx]. exists i. split.
    - rewrite fmap_length. apply lookup_lt_Some in Hx. done.
    - apply row_lookup. rewrite list_lookup_fmap, Hx. done. }
  unfold cand_less, cand_cmp. split; [split|].
  - intros x Hx. destruct (Hi x Hx) as (i&Hil&E). rewrite <- E. apply (row_irrefl t d _ Hm Hex i Hil).
  - intros x y z Hx Hy Hz. destruct (Hi x Hx) as (i&Hil&Ei), (Hi y Hy) as (j&Hjl&Ej), (Hi z Hz) as (k&Hkl&Ek).
    rewrite <- Ei, <- Ej, <- Ek. apply (row_trans t d _ Hm Hex i j k); done.
  - intros x y Hx Hy. destruct (Hi x Hx) as (i&Hil&Ei), (Hi y Hy) as (j&Hjl&Ej).
    rewrite <- Ei, <- Ej. apply (row_cmp_ok t d _ Hm Hex i j); done.
Qed.

Lemma filter_all {A} (P : A -> Prop) `{forall x, Decision (P x)} l : Forall P l -> filter P l = l.
Proof. induction 1 as [|x l Hx Hl IH]; [done|]. rewrite filter_cons_True by done. rewrite IH. done. Qed.

(** C21, for exact comparison: every result of every interleaving is the members of
    the larger set (lhs if equal) and then those of the other that no member dominates. *)
Theorem C21_merge_every_schedule_partial (A : Type) (t : tolerances) (fit : A -> list b64) (d : nat) (lhs rhs res : list A) :
  exact t -> matrix d (fit <$> lhs ++ rhs) ->
  antichain (cand_less t fit) lhs -> antichain (cand_less t fit) rhs ->
  merged (cand_less t fit) (cand_cmp t fit) lhs rhs res ->
  let '(big, small) := if decide (length lhs < length rhs) then (rhs, lhs) else (lhs, rhs) in
  res = undominated (cand_less t fit) (big ++ small) big ++ undominated (cand_less t fit) (big ++ small) small.
Proof.
  intros Hex Hm Hal Har Hmg.
  assert (Hself : forall l, antichain (cand_less t fit) l -> undominated (cand_less t fit) l l = l).
  { intros l Ha. unfold undominated. apply filter_all. apply Forall_forall. intros x Hx. apply forallb_forall.
    intros y Hy. apply elem_of_list_In in Hy. rewrite (Ha x y Hx Hy). done. }
  inversion Hmg as [r E1 E2|l E1 E2|l r lhs' rhs' s rst Hl Hr Esw Hrun Hfin Hv E1 E2]; subst.
  - destruct res as [|x res]; [done|]. rewrite decide_True by (cbn; lia). rewrite (app_nil_r (x :: res)). rewrite Hself by done.
    cbn. rewrite app_nil_r. done.
  - rewrite decide_False by (cbn; lia). rewrite (app_nil_r res), Hself by done. cbn. rewrite app_nil_r. done.
  - assert (Hm' : matrix d (fit <$> lhs' ++ rhs')).
    { unfold matrix in *. destruct (decide (length lhs < length rhs)); injection Esw as -> ->; [|done].
      rewrite fmap_app, Forall_app in *. tauto. }
    destruct (cand_order t fit d _ Hex Hm') as [Hso Hcmp].
    assert (antichain (cand_less t fit) lhs' /\ antichain (cand_less t fit) rhs') as [Ha Hb].
    { destruct (decide (length lhs < length rhs)); injection Esw as -> ->; done. }
    destruct (merge_ok _ _ lhs' rhs' Hso Hcmp Ha Hb s rst Hrun Hfin Hv) as [-> ->].
    rewrite <- Esw. done.
Qed.
Print Assumptions C21_merge_every_schedule_partial.

Definition m_lhs : list (list b64) := [p_b; p_b].
Definition m_rhs : list (list b64) := [p_a; p_c].

(** C21 (refuted for the default tolerances): both sets are free of dominance, and the
    merged set contains [p_b] although [p_c] dominates it. *)
Lemma dominance_run (cl : list b64 -> list b64 -> bool) cc :
  body cl cc p_b p_a UNKNOWN UNKNOWN = (OPTIMAL, Some DOMINATED) ->
  body cl cc p_b p_c OPTIMAL UNKNOWN = (OPTIMAL, None) ->
  merged cl cc m_lhs m_rhs [p_b; p_b; p_c].
Proof.
  intros B1 B2.
  change [p_b; p_b; p_c] with (collect m_lhs (fst <$> [(OPTIMAL, AtLoad 2); (OPTIMAL, AtLoad 2)]) ++ collect m_rhs [DOMINATED; UNKNOWN]).
  change [(OPTIMAL, AtLoad 2); (OPTIMAL, AtLoad 2)] with (tasks (MState [(OPTIMAL, AtLoad 2); (OPTIMAL, AtLoad 2)] [[DOMINATED; DOMINATED]; []])).
  econstructor; [done|done|reflexivity| |repeat constructor|].
  2: { cbn. constructor; [right; set_solver|]. constructor; [left; done|constructor]. }
  unfold init_state, m_lhs, m_rhs. cbn [fmap list_fmap].
  Ltac ld i' j' := eapply rtc_l; [eapply (step_load _ _ _ _ _ _ i' j' _ _ UNKNOWN); [reflexivity|reflexivity|left; reflexivity]|cbn [insert list_insert]].
  Ltac bd i' j' B := eapply rtc_l; [eapply (step_body _ _ _ _ _ _ i' j' _ _ _ _ _); reflexivity|rewrite B; cbn [insert list_insert fst snd app]].
  ld 0 0. bd 0 0 B1. ld 0 1. bd 0 1 B2. ld 1 0. bd 1 0 B1. ld 1 1. bd 1 1 B2. apply rtc_refl.
Qed.
Theorem C21_merge_default_tolerances_refuted :
  let less := cand_less default_tolerances (fun v => v) in
  let cmp := cand_cmp default_tolerances (fun v => v) in
  antichain less m_lhs /\ antichain less m_rhs /\ less p_b p_c = true /\
  exists res, merged less cmp m_lhs m_rhs res /\ p_b ∈ res /\ p_c ∈ res.
Proof.
  cbv zeta. split; [|split; [|split]].
  - intros x y Hx Hy. unfold m_lhs in *. rewrite !elem_of_cons in *.
    destruct Hx as [-> |[-> |Hx]]; [| |set_solver]; (destruct Hy as [-> |[-> |Hy]]; [| |set_solver]); vm_compute; done.
  - intros x y Hx Hy. unfold m_rhs in *. rewrite !elem_of_cons in *.
    destruct Hx as [-> |[-> |Hx]]; [| |set_solver]; (destruct Hy as [-> |[-> |Hy]]; [| |set_solver]); vm_compute; done.
  - vm_compute. done.
  - exists [p_b; p_b; p_c]. split; [apply dominance_run; vm_compute; done|]. split; set_solver.
Qed.
Print Assumptions C21_merge_default_tolerances_refuted.

Definition q_a : list b64 := [fz 1; fz 1].
Definition q_b : list b64 := [fz 2; fz 2].
Definition q_c : list b64 := [fz 5; fz 0].
Example C21_nonvacuous :
  let less := cand_less zero_tolerances (fun v => v) in
  let cmp := cand_cmp zero_tolerances (fun v => v) in
  exact zero_tolerances /\ matrix 2 ((fun v => v) <$> [q_b] ++ [q_a]) /\ antichain less [q_b] /\ antichain less [q_a] /\
  merged less cmp [q_b] [q_a] [q_b].
Proof.
  cbv zeta. split; [apply zero_exact|]. split; [repeat constructor|].
  split; [intros x y Hx Hy; apply elem_of_list_singleton in Hx as ->; apply elem_of_list_singleton in Hy as ->; vm_compute; done|].
  split; [intros x y Hx Hy; apply elem_of_list_singleton in Hx as ->; apply elem_of_list_singleton in Hy as ->; vm_compute; done|].
  change [q_b] with (collect [q_b] (fst <$> [(OPTIMAL, AtLoad 1)]) ++ collect [q_a] [DOMINATED]) at 2.
  change [(OPTIMAL, AtLoad 1)] with (tasks (MState [(OPTIMAL, AtLoad 1)] [[DOMINATED]])).
  econstructor; [done|done|reflexivity| |repeat constructor|].
  2: { cbn. constructor; [right; set_solver|constructor]. }
  assert (B1 : body (cand_less zero_tolerances (fun v => v)) (cand_cmp zero_tolerances (fun v => v)) q_b q_a UNKNOWN UNKNOWN = (OPTIMAL, Some DOMINATED)) by (vm_compute; done).
  unfold init_state. cbn [fmap list_fmap].
  ld 0 0. bd 0 0 B1. apply rtc_refl.
Qed.

(** ** Some result is always possible: the loop can run to its end *)
Section possible.
Context {A : Type} (less : A -> A -> bool) (cmp : A -> A -> Z).
Lemma run_task (lhs rhs : list A) m : forall ts st i ls j, ts !! i = Some (ls, AtLoad j) -> i < length lhs -> length st = length rhs -> j + m = length rhs ->
  exists ls' st', length st' = length rhs /\ rtc (step less cmp lhs rhs) (MState ts st) (MState (<[i := (ls', AtLoad (length rhs))]> ts) st').
Proof.
  induction m as [|m IH]; intros ts st i ls j Hi Hl Hst Hj.
  - exists ls, st. split; [done|]. replace (length rhs) with j by lia. rewrite list_insert_id by done. apply rtc_refl.
  - destruct (lookup_lt_is_Some_2 lhs i Hl) as [l Hll]. destruct (lookup_lt_is_Some_2 rhs j) as [r Hr]; [lia|]. destruct (lookup_lt_is_Some_2 st j) as [h Hh]; [lia|].
    pose proof (lookup_lt_Some _ _ _ Hi) as Hit.
    set (ts1 := <[i := (ls, Loaded j UNKNOWN)]> ts). set (ts2 := <[i := ((body less cmp l r ls UNKNOWN).1, AtLoad (S j))]> ts1).
    set (st2 := <[j := h ++ match (body less cmp l r ls UNKNOWN).2 with Some w => [w] | None => [] end]> st).
    destruct (IH ts2 st2 i (body less cmp l r ls UNKNOWN).1 (S j)) as (ls' & st' & Hlen & Hrun).
    { unfold ts2, ts1. apply list_lookup_insert. by rewrite insert_length. }
    { done. } { unfold st2. by rewrite insert_length. } { lia. }
    exists ls', st'. split; [done|]. unfold ts2, ts1 in Hrun. rewrite !list_insert_insert in Hrun.
    eapply rtc_l; [apply (step_load _ _ _ _ _ _ i j ls h UNKNOWN); [done|done|by left]|].
    eapply rtc_l; [apply (step_body _ _ _ _ _ _ i j ls UNKNOWN l r h); try done; by apply list_lookup_insert|]. rewrite list_insert_insert. exact Hrun.
Qed.
Lemma run_tasks (lhs rhs : list A) k : k <= length lhs -> exists ts st, rtc (step less cmp lhs rhs) (init_state lhs rhs) (MState ts st) /\ length ts = length lhs /\ length st = length rhs /\
  (forall i, i < k -> exists ls, ts !! i = Some (ls, AtLoad (length rhs))) /\ (forall i, k <= i < length lhs -> ts !! i = Some (UNKNOWN, AtLoad 0)).
Proof.
  induction k as [|k IH]; intros Hk.
  - exists ((fun _ => (UNKNOWN, AtLoad 0)) <$> lhs), ((fun _ => []) <$> rhs). split; [apply rtc_refl|]. rewrite !fmap_length. split; [done|]. split; [done|]. split; [intros i Hi; lia|].
    intros i [_ Hi]. rewrite list_lookup_fmap. destruct (lookup_lt_is_Some_2 lhs i Hi) as [x ->]. done.
  - destruct IH as (ts & st & Hrun & Hts & Hst & Hd & Hn); [lia|]. destruct (run_task lhs rhs (length rhs) ts st k UNKNOWN 0) as (ls' & st' & Hst' & Hrun'); [apply Hn; lia|lia|done|done|].
    exists (<[k := (ls', AtLoad (length rhs))]> ts), st'. split; [by etrans|]. rewrite insert_length. split; [done|]. split; [done|]. split.
    + intros i Hi. destruct (decide (i = k)) as [->|Hne]; [exists ls'; apply list_lookup_insert; lia|]. rewrite list_lookup_insert_ne by done. apply Hd. lia.
    + intros i Hi. rewrite list_lookup_insert_ne by lia. apply Hn. lia.
Qed.
Theorem C21_merge_possible (lhs rhs : list A) : exists res, merged less cmp lhs rhs res.
Proof.
  destruct lhs as [|x lhs]; [eexists; constructor|]. destruct rhs as [|y rhs]; [eexists; constructor|].
  assert (H : forall l r : list A, exists s rst, rtc (step less cmp l r) (init_state l r) s /\ finished r s /\ Forall2 final_value (stores s) rst).
  { intros l r. destruct (run_tasks l r (length l) (le_n _)) as (ts & st & Hrun & Hts & Hst & Hd & _). exists (MState ts st).
    exists ((fun h => match last h with Some v => v | None => UNKNOWN end) <$> st). split; [done|]. split.
    - unfold finished. apply Forall_lookup. intros i [ls p] Hi. cbn in Hi. destruct (Hd i) as [ls' E]; [rewrite <- Hts; by eapply lookup_lt_Some|]. rewrite E in Hi. injection Hi as <- <-. done.
    - cbn. apply Forall2_fmap_r. clear. induction st as [|h st IH]; constructor; [|done]. cbv [compose]. destruct (last h) as [v|] eqn:E; [right; exact (last_Some_elem_of h v E)|left]. split; [|done]. by apply last_None. }
  destruct (decide (length (x :: lhs) < length (y :: rhs))) as [Hd|Hd].
  - destruct (H (y :: rhs) (x :: lhs)) as (s & rst & H1 & H2 & H3). eexists. eapply (merged_loop less cmp (x :: lhs) (y :: rhs) (y :: rhs) (x :: lhs)); [done|done| |done..]. by rewrite decide_True.
  - destruct (H (x :: lhs) (y :: rhs)) as (s & rst & H1 & H2 & H3). eexists. eapply (merged_loop less cmp (x :: lhs) (y :: rhs) (x :: lhs) (y :: rhs)); [done|done| |done..]. by rewrite decide_False.
Qed.
End possible.
Print Assumptions C21_merge_possible.
