(** C67-C70: the pseudo random generator and the random booleans. *)
From Coq Require Import NArith ZArith Lia.
From stdpp Require Import list list_numbers.
From Verif Require Import RngModel RngSpec RngPrime RngProofs RngThreads.
Local Open Scope N_scope.

(** ** C67 *)
(** Any sequence of steps ([false]) and jumps ([true]) after seeding with any seed. *)
Definition advance (s : N * N) (ops : list bool) : N * N := fold_left (fun s (j : bool) => if j then jump s else step s) ops s.
Lemma advance_ok ops s : in_range s -> s <> zero_state -> in_range (advance s ops) /\ advance s ops <> zero_state.
Proof.
  revert s. induction ops as [|j ops IH]; intros s Hs Hz; [done|]. unfold advance. cbn [fold_left]. destruct j; apply IH.
  - rewrite jump_steps by done. by apply times_range.
  - rewrite jump_steps by done. by apply times_nonzero.
  - by apply step_range.
  - by apply step_nonzero.
Qed.
Theorem C67_state_nonzero (seed : N) (ops : list bool) : seed < 2 ^ 64 ->
  in_range (advance (seed_sequence seed) ops) /\ advance (seed_sequence seed) ops <> (0, 0).
Proof. intros _. destruct (seed_ok seed). by apply advance_ok. Qed.
Print Assumptions C67_state_nonzero.
(** The default seed; the state after the first step. *)
Example C67_nonvacuous : 0x3da99432ab975d26 < 2 ^ 64 /\
  seed_sequence 0x3da99432ab975d26 = (0xaa6ea88d5265ae1c, 0x072d54dd39005a5d) /\
  advance (seed_sequence 0) [false; true; false] <> advance (seed_sequence 0) [false; false; true; true] /\
  advance (seed_sequence 0) [false; true] = advance (seed_sequence 0) [true; false].
Proof. split; [reflexivity|]. split; [vm_compute; reflexivity|]. split; [vm_compute; discriminate|vm_compute; reflexivity]. Qed.

(** ** C68 *)
Theorem C68_jump (s : N * N) : in_range s -> jump s = times (2 ^ 96) step s.
Proof. apply jump_steps. Qed.
Print Assumptions C68_jump.
Example C68_nonvacuous : in_range (1, 0) /\ step (1, 0) = (0x1010001, 0x2000000000) /\ jump (1, 0) <> (1, 0).
Proof. split; [by split|]. vm_compute. split; [reflexivity|discriminate]. Qed.

(** ** C69 *)
Theorem C69_full_period : full_period step.
Proof.
  intros s Hs Hz. change (2 ^ 128 - 1) with period. split; [by apply times_period|]. split.
  - intros i j Hi Hj. by apply times_inj.
  - intros s' Hs' Hz'. by apply all_visited.
Qed.
Print Assumptions C69_full_period.
(** The generators of the threads, as created by successive jumps from a seed: the states they
    draw their numbers from are disjoint, for at most 2^32 threads with fewer than 2^96 numbers
    each. *)
Theorem C69_streams_disjoint (seed t t' i i' : N) :
  1 <= t <= 2 ^ 32 -> 1 <= t' <= 2 ^ 32 -> i + 1 < 2 ^ 96 -> i' + 1 < 2 ^ 96 ->
  times i step (times t jump (seed_sequence seed)) = times i' step (times t' jump (seed_sequence seed)) -> t = t' /\ i = i'.
Proof.
  destruct (seed_ok seed) as [Hs Hz]. revert Hs Hz. generalize (seed_sequence seed). intros s Hs Hz Ht Ht' Hi Hi' E.
  assert (Hj : forall t, times t jump s = times (t * stride) step s).
  { clear -Hs. intros t. induction t as [|t IH] using N.peano_ind; [done|]. unfold times in *. rewrite N.iter_succ, IH, N.mul_succ_l. fold (times (t * stride) step s). rewrite jump_steps by by apply times_range. rewrite <- times_add, (N.add_comm (2 ^ 96)). reflexivity. }
  assert (L1 : 1 * stride <= t * stride) by (apply N.mul_le_mono_r; lia). assert (L2 : 1 * stride <= t' * stride) by (apply N.mul_le_mono_r; lia).
  rewrite !Hj, <- !times_add in E. replace (i + t * stride) with ((i + t * stride - stride) + stride) in E by lia. replace (i' + t' * stride) with ((i' + t' * stride - stride) + stride) in E by lia. rewrite !times_add in E.
  assert (Hb : forall t i, 1 <= t <= 2 ^ 32 -> i + 1 < 2 ^ 96 -> i + t * stride - stride < period).
  { clear. intros t i Ht Hi. assert (t * stride <= 2 ^ 32 * stride) by (apply N.mul_le_mono_r; lia). change (2 ^ 32 * stride) with (2 ^ 128) in *. unfold period. change stride with (2 ^ 96) in *. lia. }
  apply times_inj in E; [|by apply times_range|by apply times_nonzero|by apply Hb|by apply Hb].
  assert (E' : t * stride + i = t' * stride + i'). { assert (1 * stride <= t * stride) by (apply N.mul_le_mono_r; lia). assert (1 * stride <= t' * stride) by (apply N.mul_le_mono_r; lia). lia. }
  assert (i < stride /\ i' < stride) as [Hi1 Hi1'] by (change stride with (2 ^ 96); lia).
  split; [rewrite <- (base_div t i), E' by done; by apply base_div|rewrite <- (base_mod t i), E' by done; by apply base_mod].
Qed.
Print Assumptions C69_streams_disjoint.
(** The same for the class with its registered generators: between two calls of seed(), in any
    interleaving of thread creation, destruction and drawing, no two numbers are drawn from the
    same state. *)
Theorem C69_no_state_reused (before ops : list gen_op) (seed : N) g g' log0 log :
  gen_run before initial_generators = Some (g, log0) -> gen_run (Seed seed :: ops) g = Some (g', log) ->
  no_seed ops -> live (threads g) + registers ops <= 2 ^ 32 -> (forall t, draws t ops < 2 ^ 96) -> NoDup log.
Proof.
  intros _ E Hns Hr Hd. cbn [gen_run gen_do] in E. destruct (reseed (seed_sequence seed) (threads g)) as [gl ts] eqn:Er. cbn [mbind option_bind] in E.
  destruct (gen_run ops (Generators gl ts)) as [[g1 log1]|] eqn:E1; [|done]. cbn [mbind option_bind] in E. assert (log = log1) as -> by congruence.
  pose proof (seed_inv seed (threads g)) as I. rewrite Er in I. cbn [fst snd] in I. destruct (seed_ok seed) as [Hs Hz].
  destruct (run_inv _ ops Hs Hns _ _ _ _ _ _ _ I E1) as (base' & count' & es' & I' & ->); [intros t; rewrite N.add_0_l; apply Hd|]. by eapply inv_nodup.
Qed.
Print Assumptions C69_no_state_reused.
(** The same from program start to the first seed(). *)
Theorem C69_no_state_reused_from_start (ops : list gen_op) g' log :
  gen_run ops initial_generators = Some (g', log) -> no_seed ops -> registers ops <= 2 ^ 32 -> (forall t, draws t ops < 2 ^ 96) -> NoDup log.
Proof.
  intros E Hns Hr Hd. destruct (seed_ok 0x3da99432ab975d26) as [Hs Hz]. pose proof (seed_inv 0x3da99432ab975d26 []) as I.
  destruct (run_inv _ ops Hs Hns _ _ _ _ _ _ _ I E) as (base' & count' & es' & I' & ->); [intros t; rewrite N.add_0_l; apply Hd|]. eapply inv_nodup; [done|done|exact I'|done].
Qed.
Print Assumptions C69_no_state_reused_from_start.
Definition some_ops : list gen_op := [Register; Register; Draw 0; Draw 1; Draw 0; Unregister 0; Register; Draw 2; Draw 2].
Example C69_nonvacuous :
  registers some_ops = 3 /\ draws 0 some_ops = 2 /\ (r ← gen_run some_ops initial_generators; Some (length r.2)) = Some 5%nat /\
  (r ← gen_run some_ops initial_generators; r2 ← gen_run [Seed 7; Draw 1; Register; Draw 3; Draw 2] r.1; Some (live (threads r.1), length r2.2)) = Some (2, 3%nat).
Proof. vm_compute. repeat split; reflexivity. Qed.

(** ** C70 *)
(** The i-th boolean is bit [i mod 63] of output [i / 63]; [used] outputs are consumed. *)
Theorem C70_bits (outputs : nat -> N) (n : nat) : (forall k, outputs k < 2 ^ 64) ->
  (bool_draws n outputs bool_initial).1 = (fun i => N.testbit (outputs (i / 63)%nat) (N.of_nat (i mod 63))) <$> seq 0 n /\
  (bool_draws n outputs bool_initial).2.2 = ((n + 62) / 63)%nat.
Proof.
  intros Ho. change bool_initial with (bool_state outputs 0). rewrite (bool_draws_ok outputs n Ho 0). cbn [fst snd]. split; [done|]. rewrite Nat.add_0_l. unfold bool_state.
  pose proof (Nat.mod_upper_bound n 63 ltac:(done)) as Hm. pose proof (Nat.div_mod n 63 ltac:(done)) as En. case_decide as Hr; cbn [snd].
  - apply (Nat.div_unique _ 63 _ 62); lia.
  - apply (Nat.div_unique _ 63 _ (n mod 63 - 1)%nat); lia.
Qed.
Print Assumptions C70_bits.
Example C70_nonvacuous : let outputs := fun k : nat => match k with O => 0xffffffffffffffff | S O => 0 | _ => 5 end in
  (forall k, outputs k < 2 ^ 64) /\ (bool_draws 129 outputs bool_initial).1 = replicate 63 true ++ replicate 63 false ++ [true; false; true].
Proof. split; [intros [|[|k]]; reflexivity|vm_compute; reflexivity]. Qed.
