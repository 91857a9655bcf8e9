(** C61, C62: the hypervolume and the automatic hypervolume metric. *)
From Coq Require Import ZArith Reals Lia Lra.
From Flocq Require Import Core BinarySingleNaN.
From stdpp Require Import list list_numbers gmap sets.
From Verif Require Import FloatBase FloatModel FloatSpec FloatProps StdSort AlgorithmModel ParetoModel FrontModel FrontSpec FrontProps RealProofs HyperModel HyperSpec HyperProofs HyperNum HyperAuto.
Local Open Scope Z_scope.

(** An order in which the iterations of hypervolume(par) add their terms, one for each point of
    the front. *)
Definition any_schedule {N} (o : num N) (m : list (list N)) (schedule : list nat) : Prop :=
  forall f, uniqueSortedParetoFront o m = Some f -> schedule ≡ₚ seq 0 (length f).

Lemma top_exists ref points : dominates_ref ref points ->
  Forall2 Z.le ref (zmax_all points ref) /\ Forall (between ref (zmax_all points ref)) points.
Proof.
  intros H. destruct (zmax_is_max points ref) as [[A B] L]. { eapply Forall_impl; [exact H|]. intros p Hp. apply Forall2_length in Hp. lia. }
  split; [apply A; set_solver|]. unfold dominates_ref in H. rewrite Forall_forall in H. apply Forall_forall. intros p Hp. split; [by apply H|]. apply A. set_solver.
Qed.
(** ** C61 *)
(** Exact arithmetic: for points with any integer coordinates, any number of objectives, any
    order of the points and any schedule, the computation succeeds and gives the measure. *)
Theorem C61_exact sort (ref : list Z) (points : list (list Z)) (schedule : list nat) :
  sort_contract sort -> dominates_ref ref points -> any_schedule (exact_num sort) (int_rows points) schedule ->
  exists v, hypervolume_par (exact_num sort) (length points) schedule (int_rows points) (ints ref) = Some (Some v) /\ measure (in_region ref points) v.
Proof.
  intros Hs Hd Hsch. destruct (top_exists ref points Hd) as [Ht Hb].
  destruct (par_ok (exact_num sort) _ ex_ok (exact_ok sort Hs) (ints ref) ref _ (proj2 (ex_oks _ _) eq_refl) I Ht (int_rows points) points (proj2 (ex_okm _ _) eq_refl) Hb schedule (length points)) as (x & E & ->).
  - unfold int_rows. by rewrite fmap_length.
  - exact Hsch.
  - exists (vol ref points). split; [exact E|]. apply vol_measure.
Qed.
Print Assumptions C61_exact.
(** The sequential function, used in the recursion, too. *)
Theorem C61_sequential sort (ref : list Z) (points : list (list Z)) : sort_contract sort -> dominates_ref ref points ->
  exists v, hypervolume_seq (exact_num sort) (S (length points)) (int_rows points) (ints ref) = Some (Some v) /\ measure (in_region ref points) v.
Proof.
  intros Hs Hd. destruct (top_exists ref points Hd) as [Ht Hb].
  destruct (seq_ok (exact_num sort) _ ex_ok (exact_ok sort Hs) (ints ref) ref _ (proj2 (ex_oks _ _) eq_refl) I Ht (S (length points)) (int_rows points) points (proj2 (ex_okm _ _) eq_refl) Hb) as (x & E & ->).
  - unfold int_rows. rewrite fmap_length. lia.
  - exists (vol ref points). split; [exact E|]. apply vol_measure.
Qed.
Print Assumptions C61_sequential.
(** Independent of the order of the points, of duplicates and of the schedule. *)
Theorem C61_independent sort sort' (ref : list Z) (points points' : list (list Z)) (schedule schedule' : list nat) :
  sort_contract sort -> sort_contract sort' -> dominates_ref ref points -> (forall p, p ∈ points <-> p ∈ points') ->
  any_schedule (exact_num sort) (int_rows points) schedule -> any_schedule (exact_num sort') (int_rows points') schedule' ->
  hypervolume_par (exact_num sort) (length points) schedule (int_rows points) (ints ref) =
  hypervolume_par (exact_num sort') (length points') schedule' (int_rows points') (ints ref).
Proof.
  intros Hs Hs' Hd Hp Hsch Hsch'. assert (Hd' : dominates_ref ref points'). { unfold dominates_ref in *. rewrite Forall_forall in Hd. apply Forall_forall. intros p H. by apply Hd, Hp. }
  destruct (C61_exact sort ref points schedule Hs Hd Hsch) as (v & -> & Hv). destruct (C61_exact sort' ref points' schedule' Hs' Hd' Hsch') as (v' & -> & Hv').
  do 2 f_equal. apply (measure_unique (in_region ref points)); [done|]. destruct Hv' as (l & H1 & H2 & H3). exists l. split; [done|]. split; [|done]. intros c. rewrite H2. unfold in_region.
  split; intros (p & H & Hc); exists p; (split; [by apply Hp|done]).
Qed.
Print Assumptions C61_independent.
(** The doubles of the code, with exact comparisons (zero tolerances) and any order of the
    multiplications: as long as the box up to some point [top] beyond all points has a measure
    of at most 2^53 (counting sides shorter than 1 as 1). *)
Theorem C61_binary64 (t : tolerances) product sort (ref : list b64) (points : list (list b64)) (schedule : list nat) (zref top : list Z) (zpoints : list (list Z)) :
  exact t -> product_contract product -> sort_contract sort ->
  Forall2 is_int ref zref -> Forall2 (Forall2 is_int) points zpoints -> dominates_ref zref zpoints ->
  Forall (fun p => Forall2 Z.le p top) zpoints -> Forall2 Z.le zref top -> foldr (fun x a => Z.max 1 x * a) 1 (zip_with Z.sub top zref) <= 2 ^ 53 ->
  any_schedule (float_num t product sort) points schedule ->
  exists x v, hypervolume_par (float_num t product sort) (length points) schedule points ref = Some x /\ is_int x v /\ measure (in_region zref zpoints) v.
Proof.
  intros Ht Hp Hs Href Hpts Hd Htop Hrt Hsmall Hsch.
  assert (Hsm : small53 (prod1 (span top zref))).
  { unfold small53. assert (E : prod1 (span top zref) = foldr (fun x a => Z.max 1 x * a) 1 (zip_with Z.sub top zref)).
    { unfold prod1, span. clear -Hrt. induction Hrt as [|x y l k Hxy H IH]; [done|]. cbn. rewrite IH. f_equal. lia. }
    rewrite E in *. pose proof (prod1_pos (span top zref)). rewrite <- E in *. lia. }
  destruct (par_ok (float_num t product sort) _ is_int (float_ok t product sort Ht Hp Hs) ref zref top Href Hsm Hrt points zpoints Hpts) with (schedule := schedule) (fuel := length points) as (x & E & Hx); [|lia|exact Hsch|].
  - unfold dominates_ref in Hd. rewrite Forall_forall in Hd, Htop. apply Forall_forall. intros p Hpp. split; [by apply Hd|by apply Htop].
  - exists x, (vol zref zpoints). split; [done|]. split; [done|]. apply vol_measure.
Qed.
Print Assumptions C61_binary64.

Definition hv_points : list (list Z) := [[1; 4; 2]; [3; 1; 2]; [2; 2; 5]; [3; 1; 2]; [1; 1; 1]].
Definition hv_ref : list Z := [0; -1; 0].
Definition float_row (v : list Z) : list b64 := (fun z => fmk z 0) <$> v.
Definition prod_left (l : list b64) : b64 := fold_left fmul l (fmk 1 0).
Lemma prod_left_ok : product_contract prod_left.
Proof.
  unfold prod_left. intros l. assert (H : forall l k x, products k x -> products (k ++ l) (fold_left fmul l x)).
  { clear. induction l as [|y l IH]; intros k x H; cbn; [by rewrite app_nil_r|]. change (y :: l) with ([y] ++ l). rewrite app_assoc. apply IH.
    eapply products_mul; [done|exact H|constructor]. }
  apply (H l [fmk 1 0]). constructor.
Qed.
(** The hypotheses can be met; the values of the example (38 cells). *)
Example C61_nonvacuous :
  dominates_ref hv_ref hv_points /\ sort_contract (@isort nat) /\
  (f ← uniqueSortedParetoFront (exact_num isort) (int_rows hv_points); Some (length f)) = Some 3%nat /\
  hypervolume_par (exact_num isort) 5 [2; 0; 1]%nat (int_rows hv_points) (ints hv_ref) = Some (Some 38) /\
  hypervolume_seq (exact_num isort) 6 (int_rows hv_points) (ints hv_ref) = Some (Some 38) /\
  length (remove_dups (hv_points ≫= box hv_ref)) = 38%nat /\
  exact zero_tolerances /\ product_contract prod_left /\
  (B2SF <$> hypervolume_par (float_num zero_tolerances prod_left isort) 5 [1; 0; 2]%nat (float_row <$> hv_points) (float_row hv_ref)) = Some (B2SF (fmk 38 0)) /\
  foldr (fun x a => Z.max 1 x * a) 1 (zip_with Z.sub [3; 4; 5] hv_ref) <= 2 ^ 53.
Proof.
  split. { repeat (apply Forall_cons; split; [repeat (constructor; [lia|]); constructor|]). apply Forall_nil. exact I. }
  split; [apply isort_contract|]. split; [vm_compute; reflexivity|]. split; [vm_compute; reflexivity|]. split; [vm_compute; reflexivity|]. split; [vm_compute; reflexivity|].
  split; [apply zero_exact|]. split; [apply prod_left_ok|]. split; [vm_compute; reflexivity|]. vm_compute. discriminate.
Qed.

(** ** C62 *)
(** What is recorded after the run: one value for each generation. *)
Definition any_schedules {N} (o : num N) (pops : list (list (list N) * list nat)) : Prop := Forall (fun ms => any_schedule o ms.1 ms.2) pops.
Lemma entries_Forall2 d bottom top (w : list Z) pops vs is (Q : list (list Z) -> Z -> Prop) :
  (forall P v i, entry d bottom top w P v i -> Q P v) -> entries d bottom top w pops vs is -> Forall2 Q pops vs.
Proof. intros H He. induction He; constructor; eauto. Qed.
Lemma bounds_exist d (pops : list (list (list Z))) : pops <> [] -> Forall (fun P => P <> [] /\ Forall (fun p => length p = d) P) pops ->
  exists bottom top, length bottom = d /\ Forall2 Z.le bottom top /\ Forall (fun P => Forall (between bottom top) P /\ P <> []) pops.
Proof.
  intros Hne H. destruct (mjoin pops) as [|p0 rest] eqn:E.
  { exfalso. destruct pops as [|P pops]; [done|]. apply Forall_cons in H as [[HP _] _]. cbn in E. by destruct P. }
  assert (Hin : forall P p, P ∈ pops -> p ∈ P -> p ∈ p0 :: rest). { intros P p HP Hp. rewrite <- E. apply elem_of_list_join. eauto. }
  assert (Hl : forall p, p ∈ p0 :: rest -> length p = d). { intros p Hp. rewrite <- E in Hp. apply elem_of_list_join in Hp as (P & Hp & HP). rewrite Forall_forall in H. destruct (H P HP) as [_ HF]. rewrite Forall_forall in HF. auto. }
  assert (Hr : Forall (fun r => length r = length p0) rest). { apply Forall_forall. intros r Hr. rewrite (Hl r), (Hl p0); [done|set_solver..]. }
  destruct (zmin_is_min rest p0 Hr) as [[A _] L]. destruct (zmax_is_max rest p0 Hr) as [[B _] _]. exists (zmin_all rest p0), (zmax_all rest p0). split; [rewrite L; apply Hl; set_solver|]. split.
  - eapply Zle_trans; [apply (A p0); set_solver|apply B; set_solver].
  - rewrite Forall_forall in H. apply Forall_forall. intros P HP. split; [|by apply H]. apply Forall_forall. intros p Hp. split; [apply A|apply B]; eauto.
Qed.

(** Exact arithmetic, one or two objectives: after every generation (the populations [pops] are
    those so far) every recorded value is the hypervolume relative to the current worst point.
    Missing: three or more objectives, where it is false. *)
Theorem C62_two_objectives_partial sort (d : nat) (old : auto_hv) (pops : list (list (list Z))) (schedules : list (list nat)) :
  sort_contract sort -> (d <= 2)%nat -> pops <> [] -> Forall (fun P => P <> [] /\ Forall (fun p => length p = d) P) pops -> length schedules = length pops ->
  any_schedules (exact_num sort) (zip (int_rows <$> pops) schedules) ->
  exists s w vs, auto_run (exact_num sort) d old (zip (int_rows <$> pops) schedules) = Some s /\
    worst_point s = ints w /\ length w = d /\ worst_of pops w /\ hv_data s = ints vs /\
    Forall2 (fun P v => measure (in_region w P) v) pops vs.
Proof.
  intros Hs Hd Hne Hpops Hlen Hsch. destruct (bounds_exist d pops Hne Hpops) as (bottom & top & Hb & Hbt & Hin).
  assert (Hfst : Forall2 (Forall2 (Forall2 ex_ok)) (fst <$> zip (int_rows <$> pops) schedules) pops).
  { rewrite fst_zip by (rewrite fmap_length; lia). clear. induction pops as [|P pops IH]; constructor; [by apply ex_okm|done]. }
  destruct (run_ok (exact_num sort) _ ex_ok (exact_ok sort Hs) d bottom top Hb Hbt I _ pops Hfst Hin Hsch _ [] [] [] [] (initial_ok _ ex_ok d bottom top old [])) as (s & w & vs & is & E & [S1 S2 S3 S4 S5 S6]).
  exists s, w, vs. split; [exact E|]. cbn [app] in *. destruct pops as [|P0 pops0]; [done|]. split; [by apply ex_oks|]. split; [eapply inside_length; [exact Hb|by apply S4]|]. split; [by apply S6|]. split; [by apply ex_oks|].
  eapply entries_Forall2; [|exact S5]. intros P v i He. rewrite (e_eq _ _ _ _ _ _ _ He Hd). apply vol_measure.
Qed.
Print Assumptions C62_two_objectives_partial.
(** Any number of objectives: the last value is right, the earlier ones are never too small. *)
Theorem C62_upper_bound_partial sort (d : nat) (old : auto_hv) (pops : list (list (list Z))) (schedules : list (list nat)) :
  sort_contract sort -> pops <> [] -> Forall (fun P => P <> [] /\ Forall (fun p => length p = d) P) pops -> length schedules = length pops ->
  any_schedules (exact_num sort) (zip (int_rows <$> pops) schedules) ->
  exists s w vs, auto_run (exact_num sort) d old (zip (int_rows <$> pops) schedules) = Some s /\
    worst_point s = ints w /\ length w = d /\ worst_of pops w /\ hv_data s = ints vs /\
    Forall2 (fun P v => exists v', measure (in_region w P) v' /\ v' <= v) pops vs.
Proof.
  intros Hs Hne Hpops Hlen Hsch. destruct (bounds_exist d pops Hne Hpops) as (bottom & top & Hb & Hbt & Hin).
  assert (Hfst : Forall2 (Forall2 (Forall2 ex_ok)) (fst <$> zip (int_rows <$> pops) schedules) pops).
  { rewrite fst_zip by (rewrite fmap_length; lia). clear. induction pops as [|P pops IH]; constructor; [by apply ex_okm|done]. }
  destruct (run_ok (exact_num sort) _ ex_ok (exact_ok sort Hs) d bottom top Hb Hbt I _ pops Hfst Hin Hsch _ [] [] [] [] (initial_ok _ ex_ok d bottom top old [])) as (s & w & vs & is & E & [S1 S2 S3 S4 S5 S6]).
  exists s, w, vs. split; [exact E|]. cbn [app] in *. destruct pops as [|P0 pops0]; [done|]. split; [by apply ex_oks|]. split; [eapply inside_length; [exact Hb|by apply S4]|]. split; [by apply S6|]. split; [by apply ex_oks|].
  eapply entries_Forall2; [|exact S5]. intros P v i He. exists (vol w P). split; [apply vol_measure|]. apply (e_ge _ _ _ _ _ _ _ He).
Qed.
Print Assumptions C62_upper_bound_partial.
(** The doubles of the code, one or two objectives, integer coordinates between [bottom] and
    [top]. *)
Theorem C62_binary64_partial (t : tolerances) product sort (d : nat) (old : auto_hv) (pops : list (list (list b64) * list nat)) (zpops : list (list (list Z))) (bottom top : list Z) :
  exact t -> product_contract product -> sort_contract sort -> (d <= 2)%nat -> zpops <> [] -> length bottom = d -> Forall2 Z.le bottom top ->
  foldr (fun x a => Z.max 1 (Z.abs x) * a) 1 (zip_with Z.sub top bottom) <= 2 ^ 53 ->
  Forall2 (Forall2 (Forall2 is_int)) (fst <$> pops) zpops ->
  Forall (fun P => Forall (fun p => Forall2 Z.le bottom p /\ Forall2 Z.le p top) P /\ P <> []) zpops -> any_schedules (float_num t product sort) pops ->
  exists s w vs, auto_run (float_num t product sort) d old pops = Some s /\
    Forall2 is_int (worst_point s) w /\ worst_of zpops w /\ Forall2 is_int (hv_data s) vs /\
    Forall2 (fun P v => measure (in_region w P) v) zpops vs.
Proof.
  intros Ht Hp Hs Hd Hne Hb Hbt Hsmall Hz Hin Hsch. assert (Hsm : small53 (prod1 (span top bottom))). { unfold small53. pose proof (prod1_pos (span top bottom)) as H1. change (prod1 (span top bottom) <= 2 ^ 53) in Hsmall. lia. }
  destruct (run_ok (float_num t product sort) _ is_int (float_ok t product sort Ht Hp Hs) d bottom top Hb Hbt Hsm pops zpops Hz Hin Hsch _ [] [] [] [] (initial_ok _ is_int d bottom top old [])) as (s & w & vs & is & E & [S1 S2 S3 S4 S5 S6]).
  exists s, w, vs. split; [exact E|]. cbn [app] in *. destruct zpops as [|P0 pops0]; [done|]. split; [done|]. split; [by apply S6|]. split; [done|].
  eapply entries_Forall2; [|exact S5]. intros P v i He. rewrite (e_eq _ _ _ _ _ _ _ He Hd). apply vol_measure.
Qed.
Print Assumptions C62_binary64_partial.

Definition recorded {N} (r : option (auto_hv (N := N))) : option (list N * list N) :=
  match r with Some s => Some (hv_data s, worst_point s) | None => None end.
(** Three objectives: false.  After the second generation the worst point is (-1,0,0); relative
    to it the front of the first generation has the hypervolume 6, recorded is 7. *)
Definition three : list (list (list Z)) := [[[1; 1; 2]; [1; 2; 1]; [0; 0; 0]]; [[-1; 0; 0]]].
Theorem C62_three_objectives_refuted :
  recorded (auto_run (exact_num isort) 3 (AutoHv [] [] []) (zip (map int_rows three) [[0; 1]%nat; [0%nat]])) = Some (ints [7; 0], ints [-1; 0; 0]) /\
  match recorded (auto_run (float_num zero_tolerances prod_left isort) 3 (AutoHv [] [] []) (zip (map (map float_row) three) [[0; 1]%nat; [0%nat]])) with
  | Some (data, worst) => (map B2SF data, map B2SF worst) = (map B2SF [fmk 7 0; fzero], map B2SF [fmk (-1) 0; fzero; fzero])
  | None => False
  end /\
  measure (in_region [-1; 0; 0] [[1; 1; 2]; [1; 2; 1]; [0; 0; 0]]) 6.
Proof.
  split; [vm_compute; reflexivity|]. split; [vm_compute; reflexivity|].
  exists (remove_dups ([[1; 1; 2]; [1; 2; 1]; [0; 0; 0]] ≫= box [-1; 0; 0])). split; [apply NoDup_remove_dups|]. split; [|vm_compute; reflexivity].
  intros c. rewrite elem_of_remove_dups, elem_of_list_bind. unfold in_region. split; intros (p & H1 & H2); exists p; [by rewrite <- elem_of_box|by rewrite elem_of_box].
Qed.
Print Assumptions C62_three_objectives_refuted.
Definition two_pops : list (list (list Z)) := [[[3; 1]; [1; 3]; [0; 0]]; [[2; 2]; [-1; 4]]; [[5; -2]]].
Example C62_nonvacuous :
  recorded (auto_run (exact_num isort) 2 (AutoHv [Some 5] [] []) (zip (map int_rows two_pops) [[1; 0]%nat; [0; 1]%nat; [0%nat]])) = Some (ints [16; 12; 0], ints [-1; -2]) /\
  Forall (fun P => P <> [] /\ Forall (fun p => length p = 2%nat) P) two_pops /\
  Forall (fun ms => (f ← uniqueSortedParetoFront (exact_num isort) ms.1; Some (length f)) = Some (length ms.2)) (zip (map int_rows two_pops) [[1; 0]%nat; [0; 1]%nat; [0%nat]]) /\
  length (remove_dups ([[3; 1]; [1; 3]; [0; 0]] ≫= box [-1; -2])) = 16%nat.
Proof.
  split; [vm_compute; reflexivity|]. split; [repeat (apply Forall_cons; split; [split; [done|repeat constructor]|]); apply Forall_nil; exact I|]. split; [|vm_compute; reflexivity].
  repeat (apply Forall_cons; split; [vm_compute; reflexivity|]). apply Forall_nil. exact I.
Qed.
