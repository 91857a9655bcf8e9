(** C105: the generators are splitmix64 and xoroshiro128+, and what a seed determines. *)
From Coq Require Import NArith ZArith Lia.
From stdpp Require Import list list_numbers.
From Verif Require Import RngModel RngSpec RngProofs.
Local Open Scope N_scope.

(** The reference algorithms, with the unsigned arithmetic written as arithmetic mod 2^64. *)
Definition mod64 (x : N) : N := x mod 2 ^ 64.
Definition splitmix64 (state : N) : N * N :=
  let s := mod64 (state + 11400714819323198485) in
  let z1 := mod64 (N.lxor s (s / 2 ^ 30) * 13787848793156543929) in
  let z2 := mod64 (N.lxor z1 (z1 / 2 ^ 27) * 10723151780598845931) in
  (N.lxor z2 (z2 / 2 ^ 31), s).
(** The bits of the state after [s0], [s1]: [rotated x k i] is the bit [i] of [x] rotated to the left by [k]. *)
Definition rotated (x k i : N) : bool := N.testbit x ((i + (64 - k)) mod 64).
Definition bit0 (s0 s1 i : N) : bool :=
  xorb (rotated s0 24 i) (xorb (N.testbit (N.lxor s0 s1) i) (if i <? 16 then false else N.testbit (N.lxor s0 s1) (i - 16))).
Definition bit1 (s0 s1 i : N) : bool := rotated (N.lxor s0 s1) 37 i.

Lemma trunc_mod x : trunc x = x mod 2 ^ 64.
Proof. unfold trunc. change word_mask with (N.ones 64). apply N.land_ones. Qed.
Theorem C105_splitmix state : splitmix state = splitmix64 state.
Proof. unfold splitmix, splitmix64, wadd, wmul, mod64. by rewrite !trunc_mod, !N.shiftr_div_pow2. Qed.
Print Assumptions C105_splitmix.
(** Published outputs of splitmix64 for the seed 1234567. *)
Example C105_splitmix_outputs :
  let a := splitmix 1234567 in let b := splitmix a.2 in let c := splitmix b.2 in let d := splitmix c.2 in let e := splitmix d.2 in
  [a.1; b.1; c.1; d.1; e.1] = [6457827717110365317; 3203168211198807973; 9817491932198370423; 4593380528125082431; 16408922859458223821].
Proof. vm_compute. reflexivity. Qed.

Lemma testbit_high x i : x < 2 ^ 64 -> 64 <= i -> N.testbit x i = false.
Proof. intros Hx Hi. destruct (decide (x = 0)) as [->|]; [apply N.bits_0|]. apply N.bits_above_log2. apply N.log2_lt_pow2; [lia|]. eapply N.lt_le_trans; [exact Hx|]. apply N.pow_le_mono_r; lia. Qed.
Lemma trunc_bit x i : N.testbit (trunc x) i = (i <? 64) && N.testbit x i.
Proof.
  rewrite trunc_mod. destruct (N.ltb_spec i 64); [by rewrite N.mod_pow2_bits_low|]. by rewrite N.mod_pow2_bits_high.
Qed.
Lemma wshl_bit x k i : i < 64 -> N.testbit (wshl x k) i = if i <? k then false else N.testbit x (i - k).
Proof.
  intros Hi. unfold wshl. rewrite trunc_bit, (proj2 (N.ltb_lt i 64) Hi). cbn [andb]. destruct (N.ltb_spec i k); [by rewrite N.shiftl_spec_low|]. by rewrite N.shiftl_spec_high'.
Qed.
Lemma rotl_bit x k i : x < 2 ^ 64 -> 0 < k -> k < 64 -> i < 64 -> N.testbit (rotl x k) i = rotated x k i.
Proof.
  intros Hx Hk Hk' Hi. unfold rotl, rotated. rewrite N.lor_spec, wshl_bit, N.shiftr_spec' by done. destruct (N.ltb_spec i k).
  - cbn [orb]. rewrite N.mod_small by lia. f_equal. 
  - rewrite (testbit_high x (i + (64 - k))) by (done || lia). rewrite orb_false_r. f_equal. replace (i + (64 - k)) with ((i - k) + 1 * 64) by lia. rewrite N.mod_add by lia. by rewrite N.mod_small by lia.
Qed.
Theorem C105_xoroshiro s0 s1 : s0 < 2 ^ 64 -> s1 < 2 ^ 64 ->
  (next (s0, s1)).1 = (s0 + s1) mod 2 ^ 64 /\ in_range (step (s0, s1)) /\
  forall i, i < 64 -> N.testbit (step (s0, s1)).1 i = bit0 s0 s1 i /\ N.testbit (step (s0, s1)).2 i = bit1 s0 s1 i.
Proof.
  intros H0 H1. assert (Hx : N.lxor s0 s1 < 2 ^ 64).
  { destruct (decide (N.lxor s0 s1 = 0)) as [->|Hn]; [done|]. apply N.log2_lt_pow2; [by apply N.neq_0_lt_0|].
     pose proof (N.log2_lxor s0 s1) as Hl.
    assert (forall a, a < 2 ^ 64 -> N.log2 a < 64). { intros a Ha. destruct (decide (a = 0)) as [->|Ha0]; [done|]. apply N.log2_lt_pow2; [by apply N.neq_0_lt_0|done]. }
    pose proof (H s0 H0). pose proof (H s1 H1). eapply N.le_lt_trans; [exact Hl|]. by apply N.max_lub_lt. }
  split; [cbn; unfold wadd; apply trunc_mod|]. split; [by apply step_range|]. intros i Hi. cbn. split.
  - rewrite !N.lxor_spec, rotl_bit, wshl_bit by done. unfold bit0. by rewrite !N.lxor_spec, !xorb_assoc.
  - by rewrite rotl_bit by done.
Qed.
Print Assumptions C105_xoroshiro.

(** ** What a seed determines *)
(** The numbers drawn after seeding depend only on the seed, the operations and which threads
    have a generator; not on what was drawn or how the generators were seeded before. *)
Lemma reseed_same ts : forall us g, (fun o : option xstate => bool_decide (is_Some o)) <$> ts = (fun o : option xstate => bool_decide (is_Some o)) <$> us -> reseed g ts = reseed g us.
Proof.
  induction ts as [|[s|] ts IH]; intros [|[u|] us] g H; try done; cbn in H; cbn [reseed].
  - injection H as H. by rewrite (IH us).
  - injection H as H. by rewrite (IH us).
Qed.
Theorem C105_reproducible (seed : N) (ops : list gen_op) (g h : generators) :
  (fun o => bool_decide (is_Some o)) <$> threads g = (fun o => bool_decide (is_Some o)) <$> threads h ->
  gen_run (Seed seed :: ops) g = gen_run (Seed seed :: ops) h.
Proof. intros H. cbn [gen_run gen_do]. by rewrite (reseed_same _ _ _ H). Qed.
Print Assumptions C105_reproducible.

(** The thread registered as number [k] gets the generator [k + 1] jumps after the seed. *)
Lemma times_S {A} (k : nat) (f : A -> A) x : times (N.of_nat (S k)) f x = f (times (N.of_nat k) f x).
Proof. unfold times. by rewrite Nat2N.inj_succ, N.iter_succ. Qed.
Theorem C105_registered (n : nat) (s : xstate) :
  gen_run (replicate n Register) (Generators s []) =
    Some (Generators (times (N.of_nat n) jump s) ((fun k => Some (times (N.of_nat (S k)) jump s)) <$> seq 0 n), []).
Proof.
  assert (H : forall n m, gen_run (replicate n Register) (Generators (times (N.of_nat m) jump s) ((fun k => Some (times (N.of_nat (S k)) jump s)) <$> seq 0 m)) =
    Some (Generators (times (N.of_nat (m + n)) jump s) ((fun k => Some (times (N.of_nat (S k)) jump s)) <$> seq 0 (m + n)), [])).
  { clear n. induction n as [|n IH]; intros m; [by rewrite Nat.add_0_r|]. cbn [replicate gen_run gen_do global threads mbind option_bind].
    replace (jump (times (N.of_nat m) jump s)) with (times (N.of_nat (S m)) jump s) by apply times_S.
    replace (((fun k => Some (times (N.of_nat (S k)) jump s)) <$> seq 0 m) ++ [Some (times (N.of_nat (S m)) jump s)]) with ((fun k => Some (times (N.of_nat (S k)) jump s)) <$> seq 0 (S m)).
    2:{ rewrite seq_S, fmap_app. done. }
    rewrite IH. cbn [mbind option_bind]. by rewrite Nat.add_succ_comm. }
  exact (H n 0%nat).
Qed.
Print Assumptions C105_registered.
(** Seeding with [n] live threads (and none that ended) does the same. *)
Theorem C105_seeded (seed : N) (ts : list xstate) (s : xstate) :
  gen_run [Seed seed] (Generators s (Some <$> ts)) = gen_run (replicate (length ts) Register) (Generators (seed_sequence seed) []).
Proof.
  rewrite C105_registered. cbn [gen_run gen_do threads].
  assert (H : forall ts m, reseed (times (N.of_nat m) jump (seed_sequence seed)) (Some <$> ts) =
    (times (N.of_nat (m + length ts)) jump (seed_sequence seed), (fun k => Some (times (N.of_nat (S k)) jump (seed_sequence seed))) <$> seq m (length ts))).
  { clear ts. induction ts as [|t ts IH]; intros m; cbn [fmap list_fmap reseed length seq]; [by rewrite Nat.add_0_r|].
    replace (jump (times (N.of_nat m) jump (seed_sequence seed))) with (times (N.of_nat (S m)) jump (seed_sequence seed)) by apply times_S.
    rewrite IH. by rewrite Nat.add_succ_comm. }
  specialize (H ts 0%nat). change (times (N.of_nat 0) jump (seed_sequence seed)) with (seed_sequence seed) in H. rewrite H. done.
Qed.
Print Assumptions C105_seeded.
(** The numbers of a thread are those of its generator, and drawing does not change another one's. *)
Theorem C105_draws (n t : nat) (g : generators) (s : xstate) : threads g !! t = Some (Some s) ->
  gen_run (replicate n (Draw t)) g =
    Some (Generators (global g) (<[t := Some (times (N.of_nat n) step s)]> (threads g)), (fun k => times (N.of_nat k) step s) <$> seq 0 n).
Proof.
  assert (H : forall n m g s0, threads g !! t = Some (Some (times (N.of_nat m) step s0)) -> gen_run (replicate n (Draw t)) g =
    Some (Generators (global g) (<[t := Some (times (N.of_nat (m + n)) step s0)]> (threads g)), (fun k => times (N.of_nat k) step s0) <$> seq m n)).
  { clear n g s. induction n as [|n IH]; intros m g s0 Hs.
    - cbn [replicate gen_run]. rewrite Nat.add_0_r, list_insert_id by done. by destruct g.
    - cbn [replicate gen_run gen_do]. rewrite Hs. cbn [mbind option_bind]. replace (step (times (N.of_nat m) step s0)) with (times (N.of_nat (S m)) step s0) by apply times_S.
      rewrite (IH (S m) _ s0). 2:{ cbn [threads]. rewrite list_lookup_insert; [done|]. by eapply lookup_lt_Some. }
      cbn [mbind option_bind global threads seq fmap list_fmap]. rewrite list_insert_insert. by rewrite Nat.add_succ_comm. }
  intros Hs. exact (H n 0%nat g s Hs).
Qed.
Print Assumptions C105_draws.
Example C105_nonvacuous :
  (fun o : option xstate => bool_decide (is_Some o)) <$> [Some (1, 2); None; Some (3, 4)] = (fun o => bool_decide (is_Some o)) <$> [Some (5, 6); None; Some (0, 1)] /\
  (r ← gen_run [Register; Register; Draw 1; Draw 1] (Generators (1, 2) []); Some (length r.2)) = Some 2%nat /\
  bit0 1 0 0 = true /\ bit1 1 0 37 = true /\ (next (2 ^ 64 - 1, 2)).1 = 1.
Proof. vm_compute. repeat split; reflexivity. Qed.
