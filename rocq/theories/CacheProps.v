(** Properties of fifo_cache (C04, C05). *)
From stdpp Require Import list list_numbers.
From Coq Require Import Lia.
From Verif Require Import CircularBufferModel CacheModel CacheSpec CacheProofs.

(** C04: after every sequence of insert / try_insert / range insert / clear /
    reset / copy, the cache is indistinguishable from a bounded FIFO map; in
    particular no stale iterator is ever dereferenced or erased, the size never
    exceeds the capacity, and the evicted entry is the oldest one. *)
Theorem C04_cache_refines_fifo_map (K V : Type) `{EqDecision K} (cap : nat) (os : list (cop K V)) :
  exists c, crun (cache_new cap) os = Some c /\ cache_looks_like c (frun (Fifo cap []) os).
Proof. exact (crun_refines cap os). Qed.
Print Assumptions C04_cache_refines_fifo_map.

(** A run with an eviction, an overwrite and a rejected try_insert. *)
Example C04_nonvacuous :
  let os := [CInsert 1 10; CInsert 2 20; CInsert 1 11; CTryInsert 2 99; CInsert 3 30] in
  (c ← crun (cache_new 2) os; Some (cache_get c 1, cache_get c 2, cache_get c 3, cache_size c))
  = Some (None, Some 20, Some 30, 2).
Proof. reflexivity. Qed.

(** C05 (refuted): inserting a range is not inserting its items one after the
    other; the duplicate key at the end of the range hides an item. *)
Theorem C05_range_insert_is_iterated_insert_refuted :
  ~ (forall (cap : nat) (os : list (cop nat nat)) (l : list (nat * nat)) c c1 c2,
       crun (cache_new cap) os = Some c ->
       cache_insert_range c l = Some c1 ->
       crun c (map (fun p => CInsert p.1 p.2) l) = Some c2 ->
       forall k, cache_get c1 k = cache_get c2 k).
Proof.
  intros H.
  specialize (H 2 [CInsert 1 0; CInsert 2 0] [(5, 0); (1, 0); (1, 0)] _ _ _ eq_refl eq_refl eq_refl 2).
  vm_compute in H. discriminate.
Qed.
Print Assumptions C05_range_insert_is_iterated_insert_refuted.

(** C05, what holds: a range no longer than the capacity, or whose keys are
    pairwise distinct and not cached, is inserted as by one insert per item. *)
Theorem C05_range_insert_is_iterated_insert_partial (K V : Type) `{EqDecision K} (cap : nat)
    (os : list (cop K V)) (l : list (K * V)) (c : cache K V) :
  crun (cache_new cap) os = Some c ->
  length l <= cache_capacity c \/
    (NoDup l.*1 /\ forall k, k ∈ l.*1 -> cache_contains c k = false) ->
  exists c1 c2, cache_insert_range c l = Some c1 /\
    crun c (map (fun p => CInsert p.1 p.2) l) = Some c2 /\
    cache_looks_like c1 (fadds (frun (Fifo cap []) os) l) /\
    cache_looks_like c2 (fadds (frun (Fifo cap []) os) l).
Proof.
  intros Hrun Hor.
  destruct (crepr_run os _ _ (crepr_new cap)) as (c'&Hc'&H). rewrite Hrun in Hc'. injection Hc' as <-.
  destruct (insert_range_eq c _ l H) as (c1&Hc1&H1).
  { pose proof (crepr_looks_like _ _ H) as (Hc&_&_&_&Hcont). rewrite Hc in Hor.
    destruct Hor as [Hor|[Hnd Hor]]; [left; done|right]. destruct H as (_&Hnd1&_).
    rewrite fmap_app. apply NoDup_app. split; [done|]. split; [|done].
    intros k Hk Hk2. specialize (Hor k Hk2). rewrite Hcont in Hor.
    apply bool_decide_eq_false in Hor. done. }
  destruct (insert_each l c _ H) as (c2&Hc2&H2).
  exists c1, c2. repeat split; try done; eapply crepr_looks_like; done.
Qed.
Print Assumptions C05_range_insert_is_iterated_insert_partial.

Example C05_nonvacuous :
  let c := crun (cache_new 2) [CInsert 1 10; CInsert 2 20] in
  (c ← c; Some (cache_contains c 7, cache_contains c 8, cache_contains c 9)) = Some (false, false, false) /\
  (c ← c; c1 ← cache_insert_range c [(7, 1); (8, 2); (9, 3)]; Some (cache_get c1 8, cache_get c1 2)) = Some (Some 2, None).
Proof. split; reflexivity. Qed.
