(** Runs for C102 and C103. *)
From stdpp Require Import list list_numbers sets.
From Coq Require Import Lia.
From Verif Require Import FloatBase FloatModel FloatSpec StdSort AlgorithmModel FrontModel CacheModel CacheSpec CacheProofs OperatorModel FloatProps.
From Verif Require Import EngineModel EngineSpec EngineProofs EngineExample EngineStepSpec EngineStepProps.

(** ** C102: the run [ex_run_keep_best] with a repair function *)
Definition rep_oc : outcomes nat :=
  let oc := ex_oc zero_tolerances (ex_keep_best zero_tolerances) in
  Outcomes nat (o_probe oc) (o_generate oc) (o_select oc) (o_rate oc) (o_cross oc) (o_mutate oc) (Some (fun _ _ x => (fun a => 2 * (a / 2)) <$> x)) (o_next oc) (o_optimal oc) (o_merge oc) (o_stop oc).
Example C102_nonvacuous :
  summary (solve (ex_cf 1 true false true zero_tolerances (fun _ => ex_fitness)) rep_oc 3 ex_initial ex_ga) =
  Some ([[6]], 2, 5, [HMetrics; HCallback; HStop; HMetrics; HCallback; HStop; HMetrics; HCallback; HStop], [[2]; [2]; [2]; [4]; [6]],
    [(0, [[2]; [2]; [2]]); (0, [[4]; [2]; [2]]); (1, [[6]; [4]; [4]])]).
Proof. vm_compute. reflexivity. Qed.

(** ** C103: two candidates; the first one stays *)
Definition two_cf : settings nat :=
  Settings 2 1 false false true 1 false zero_tolerances (fun a b => bool_decide (a = b)) lex isort (fun _ => ex_fitness).
Definition two_oc (mut : nat -> nat -> nat) : outcomes nat :=
  Outcomes nat [0] (fun k => [k]) (fun _ k _ => k `mod` 2) (fun _ _ => (fmk 1 0, fmk 0 0))
    (fun _ _ _ _ => Some (Cand [] [5] false, Cand [] [5] false)) (fun gen k _ => Some [mut gen k]) None (fun _ _ => Some [0; 3]) (fun _ _ => []) (fun _ => ex_merge zero_tolerances) (fun _ => false).
(** A log without the floating point values. *)
Inductive plain := PCall (x : list nat) | PCallback (pop : list (list nat)) | POther.
Definition plainly (e : event nat) : plain := match e with ECall x => PCall x | ECallback v => PCallback (chromosomes v) | _ => POther end.
Definition plain_log (r : option (list (candidate nat) * ga nat)) : list plain := match r with Some (_, g) => plainly <$> log g | None => [] end.
Definition plain_calls (l : list plain) : list (list nat) := omap (fun e => match e with PCall x => Some x | _ => None end) l.
Definition plain_callbacks (l : list plain) : list (list (list nat)) := omap (fun e => match e with PCallback x => Some x | _ => None end) l.
Lemma plain_calls_eq l : calls l = plain_calls (plainly <$> l).
Proof. induction l as [|[] l IH]; cbn; [done|f_equal; exact IH|exact IH..]. Qed.
Lemma plain_callbacks_eq l : chromosomes <$> callbacks l = plain_callbacks (plainly <$> l).
Proof. induction l as [|[] l IH]; cbn; [done|exact IH|exact IH|f_equal; exact IH|exact IH]. Qed.
Lemma plain_split k x l : (plainly <$> l) !! k = Some (PCall x) ->
  exists before after, l = before ++ ECall x :: after /\ calls before = plain_calls (take k (plainly <$> l)) /\ chromosomes <$> callbacks before = plain_callbacks (take k (plainly <$> l)).
Proof.
  rewrite list_lookup_fmap. intros H. destruct (l !! k) as [e|] eqn:E; [|done]. cbn in H. exists (take k l), (drop (S k) l).
  rewrite plain_calls_eq, plain_callbacks_eq, fmap_take. split; [|done]. rewrite <- (take_drop_middle l k e E) at 1. destruct e; try done. injection H as ->. done.
Qed.
Lemma plain_run k x r : plain_log r !! k = Some (PCall x) ->
  exists before after sols g', r = Some (sols, g') /\ log g' = before ++ ECall x :: after /\ calls before = plain_calls (take k (plain_log r)) /\ chromosomes <$> callbacks before = plain_callbacks (take k (plain_log r)).
Proof.
  destruct r as [[sols g']|]; [|done]. cbn [plain_log]. intros H. apply plain_split in H as (before & after & H). exists before, after, sols, g'. done.
Qed.
(** In the third generation the first child is the candidate that is in all populations. *)
Definition mut1 (gen k : nat) : nat := if k =? 1 then 10 + gen else if gen =? 2 then 0 else 20 + gen.
(** In the second generation it is the candidate that the first one added. *)
Definition mut2 (gen k : nat) : nat := if k =? 1 then 10 + gen else if gen =? 1 then 10 else 20 + gen.
(** In the third generation it is the candidate that the first one added and the second one removed. *)
Definition mut3 (gen k : nat) : nat := if k =? 1 then 10 + gen else if gen =? 2 then 10 else 20 + gen.

Lemma two_next mut gen m is : o_next (two_oc mut) gen m = Some is -> length is = population_size two_cf.
Proof. intros [= <-]. done. Qed.
(** The cache for one generation: a chromosome of the last generation is evaluated again, because
    it also was in an older one, as well as one of the current generation. *)
Theorem C103_refuted :
  dynamic two_cf = false /\ cached_generations two_cf = 1 /\
  (exists before after sols g',
    solve two_cf (two_oc mut1) 4 [] ex_ga = Some (sols, g') /\
    log g' = before ++ ECall [0] :: after /\
    chromosomes <$> callbacks before = [[[0]; [1]]; [[0]; [10]]; [[0]; [11]]] /\
    calls before = [[0]; [1]; [20]; [10]; [21]; [11]]) /\
  (exists before after sols g',
    solve two_cf (two_oc mut2) 4 [] ex_ga = Some (sols, g') /\
    log g' = before ++ ECall [10] :: after /\
    chromosomes <$> callbacks before = [[[0]; [1]]; [[0]; [10]]] /\
    calls before = [[0]; [1]; [20]; [10]]).
Proof.
  split; [done|]. split; [done|]. split.
  - destruct (plain_run 15 [0] (solve two_cf (two_oc mut1) 4 [] ex_ga)) as (before & after & sols & g' & E & El & Ec & Ev); [vm_compute; reflexivity|].
    exists before, after, sols, g'. split; [exact E|]. split; [exact El|]. rewrite Ec, Ev. split; vm_compute; reflexivity.
  - destruct (plain_run 10 [10] (solve two_cf (two_oc mut2) 4 [] ex_ga)) as (before & after & sols & g' & E & El & Ec & Ev); [vm_compute; reflexivity|].
    exists before, after, sols, g'. split; [exact E|]. split; [exact El|]. rewrite Ec, Ev. split; vm_compute; reflexivity.
Qed.
Print Assumptions C103_refuted.
(** The hypotheses of [C103_cached_partial] are met by these runs; in the third one the cache saves
    the call for the chromosome [10] of the last generation. *)
Example C103_nonvacuous :
  (dynamic two_cf = false /\ 0 < cached_generations two_cf /\ 0 < population_size two_cf) /\
  (forall gen m is, o_next (two_oc mut3) gen m = Some is -> length is = population_size two_cf) /\
  (exists s, crepr (fitness_cache ex_ga) s) /\
  plain_log (solve two_cf (two_oc mut3) 4 [] ex_ga) =
    [PCall [0]; PCall [1]; POther; PCallback [[0]; [1]]; POther;
     PCall [20]; PCall [10]; POther; PCallback [[0]; [10]]; POther;
     PCall [21]; PCall [11]; POther; PCallback [[0]; [11]]; POther;
     PCall [12]; POther; PCallback [[0]; [12]]; POther].
Proof.
  split; [cbn; lia|]. split; [apply two_next|]. split; [exists (Fifo 0 []); apply crepr_new|]. vm_compute. reflexivity.
Qed.
