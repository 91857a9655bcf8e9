(** C83, C84: which genes cycle and edge crossover take from which parent. *)
From Coq Require Import Lia.
From stdpp Require Import list list_numbers sets relations sorting.
From Verif Require Import AlgorithmModel CrossoverModel CrossoverSpec CrossoverProofs CrossoverUnsignedProofs CrossoverMoreProofs CrossoverProps.

Lemma int_perm_check n l : bool_decide (NoDup l /\ Forall (fun x => x ∈ seq 0 n) l /\ Forall (fun x => x ∈ l) (seq 0 n)) = true -> int_perm n l.
Proof.
  intros Hb. apply bool_decide_eq_true in Hb as (H1 & H2 & H3). apply NoDup_Permutation; [done|apply NoDup_seq|].
  rewrite Forall_forall in H2, H3. split; [apply H2|apply H3].
Qed.

(** C83: every second cycle is exchanged. *)
Theorem C83_cycle_alternates {A : Type} `{EqDecision A} (p1 p2 : list A) :
  same_genes p1 p2 -> exists c, cycle p1 p2 = Some c /\ cycle_alternates p1 p2 c.
Proof.
  intros Hs. unfold cycle, findOddCycleIndices. pose proof (same_length p1 p2 Hs) as Hl. rewrite check_true by lia.
  apply (cycle_alternates_ok p1 p2 Hs). intros j g Hj. apply index_of_gene_ok; [apply Hs|done].
Qed.
Theorem C83_cycle_operator_alternates (n : nat) (p1 p2 : list nat) :
  int_perm n p1 -> int_perm n p2 -> 2 <= n -> exists c, Cycle p1 p2 = Some c /\ cycle_alternates p1 p2 c.
Proof.
  intros Hp1 Hp2 Hn. destruct (int_perm_facts n p1 Hp1) as (L1 & _ & _). destruct (int_perm_facts n p2 Hp2) as (L2 & _ & _).
  unfold Cycle. rewrite check_true by lia. rewrite decide_False by lia. rewrite (cycle_u_eq n p1 p2 Hp1 Hp2).
  apply C83_cycle_alternates. by apply (int_perm_same n).
Qed.
Print Assumptions C83_cycle_alternates.
Print Assumptions C83_cycle_operator_alternates.
(** Three cycles, starting at the positions 0, 1 and 2; the second is exchanged. *)
Example C83_nonvacuous :
  int_perm 6 [0; 1; 2; 3; 4; 5] /\ int_perm 6 [3; 4; 2; 0; 5; 1] /\
  Cycle [0; 1; 2; 3; 4; 5] [3; 4; 2; 0; 5; 1] = Some ([0; 4; 2; 3; 5; 1], [3; 1; 2; 0; 4; 5]).
Proof.
  split; [by apply int_perm_check|]. split; [by apply int_perm_check|]. vm_compute. done.
Qed.

(** C84: the genes are chosen greedily. *)
Theorem C84_edge_greedy {A : Type} `{EqDecision A} (p1 p2 : list A) :
  same_genes p1 p2 -> 2 <= length p1 -> exists c, edge p1 p2 = Some c /\ edge_greedy (first_unused p1) p1 p2 c.
Proof.
  intros Hs Hn. destruct (CrossoverEdgeProofs.edge_ok p1 p2 Hs Hn) as (c & Hc & _). exists c. split; [done|]. by apply edge_greedy_ok.
Qed.
Theorem C84_edge_operator_greedy (E n : nat) (p1 p2 : list nat) :
  n <= E -> int_perm n p1 -> int_perm n p2 -> 2 <= n ->
  exists c1 c2, Edge E p1 p2 = Some (c1, c2) /\ edge_greedy least_unused p1 p2 c1 /\ edge_greedy least_unused p2 p1 c2.
Proof.
  intros HE Hp1 Hp2 Hn. destruct (int_perm_facts n p1 Hp1) as (L1 & _ & _). destruct (int_perm_facts n p2 Hp2) as (L2 & _ & _).
  unfold Edge, pair_of. rewrite check_true by lia. rewrite decide_False by lia.
  destruct (edge_u_ok E n HE p1 p2 Hp1 Hp2 Hn) as (c1 & E1 & _). destruct (edge_u_ok E n HE p2 p1 Hp2 Hp1 Hn) as (c2 & E2 & _).
  rewrite E1. cbn [mbind option_bind]. rewrite E2. cbn [mbind option_bind]. exists c1, c2. split; [done|].
  split; by apply (edge_u_greedy_ok E n HE).
Qed.
Print Assumptions C84_edge_greedy.
Print Assumptions C84_edge_operator_greedy.

(** The child can leave the edges of its parents although unused neighbours are left: the
    default gene is compared with the neighbours. *)
Theorem C84_follows_edges_refuted :
  let p1 := [0; 2; 3; 4; 1] in let p2 := [0; 3; 2; 4; 1] in
  int_perm 5 p1 /\ int_perm 5 p2 /\
  exists c2, Edge 5 p1 p2 = Some ([0; 1; 4; 2; 3], c2) /\ edge_of p1 p2 0 2 /\ ~ edge_of p1 p2 0 1.
Proof.
  cbv zeta.
  split; [by apply int_perm_check|]. split; [by apply int_perm_check|]. eexists. split; [vm_compute; reflexivity|]. split.
  - left. exists 0. by left.
  - assert (Hno : forall p : list nat, (forall i, i < 4 -> ~ (p !! i = Some 0 /\ p !! S i = Some 1) /\ ~ (p !! i = Some 1 /\ p !! S i = Some 0)) -> length p = 5 -> ~ adjacent p 0 1).
    { intros p Hp Hl (i & Hi). assert (Hi4 : i < 4) by (destruct Hi as [[_ Hi]|[_ Hi]]; apply lookup_lt_Some in Hi; lia).
      destruct (Hp i Hi4) as [N1 N2]. destruct Hi; tauto. }
    intros [Ha|Ha]; revert Ha; apply Hno; try done; intros i Hi;
      (destruct i as [|[|[|[|]]]]; [..|lia]); cbn; split; intros [Q1 Q2]; discriminate.
Qed.
Print Assumptions C84_follows_edges_refuted.
Example C84_nonvacuous :
  same_genes [3; 0; 4; 1; 2; 5] [1; 5; 2; 0; 4; 3] /\ edge [3; 0; 4; 1; 2; 5] [1; 5; 2; 0; 4; 3] = Some [3; 4; 0; 2; 1; 5].
Proof. split; [apply (int_perm_same 6); apply ex_perm|]. vm_compute. done. Qed.
