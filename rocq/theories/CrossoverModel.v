(** Model of the point, uniform and permutation crossovers,
    /repo/src/crossover/crossover_impl.hpp, neighbour_list.hpp, binary.cpp,
    integer.cpp and permutation.cpp, and of the crossover operator,
    /repo/src/crossover/crossover_base.impl.hpp.

    A chromosome is a list.  An out-of-range access, a violated GAPP_ASSERT, an
    integer wrap-around that is not intended and a loop that uses up its fuel are
    [None].  Random numbers are arguments.  Simplified:
    - std::unordered_set is the list of the inserted genes; dynamic_bitset is a
      list of bool (BitsetModel.v models it, C06 and C07 justify this view);
    - the children's fitness and is_evaluated fields, which the operator
      overwrites, are not modelled inside the crossover functions;
    - unsigned genes are [nat]; the only place where their width matters is the
      EMPTY value of NeighbourList, which is an argument. *)
From stdpp Require Import list list_numbers.
From Verif Require Import AlgorithmModel.

(** Checked write of a vector element. *)
Definition wr {A} (l : list A) (i : nat) (x : A) : option (list A) :=
  if decide (i < length l) then Some (<[i := x]> l) else None.
(** GAPP_ASSERT. *)
Definition check {A} (P : Prop) {dec : Decision P} (k : option A) : option A := if decide P then k else None.

(** The set [first, last) of loop indices. *)
Definition range (first last : nat) : list nat := seq first (last - first).

(** utility.hpp 168-175 and 186-190: next_mod, increment_mod. *)
Definition next_mod (v m : nat) : option nat :=
  if decide (v < m) then Some (if decide (v + 1 = m) then 0 else v + 1) else None.

Section points.
Context {A : Type}.

(** swap(child1.chromosome[i], child2.chromosome[i]) *)
Definition swap_at (c : list A * list A) (i : nat) : option (list A * list A) :=
  x ← c.1 !! i; y ← c.2 !! i; c1 ← wr c.1 i y; c2 ← wr c.2 i x; Some (c1, c2).
Fixpoint swap_all (c : list A * list A) (is : list nat) : option (list A * list A) :=
  match is with
  | [] => Some c
  | i :: is => c' ← swap_at c i; swap_all c' is
  end.

(** The loops at crossover_impl.hpp 113-120. *)
Fixpoint swap_ranges (c : list A * list A) (pts : list nat) : option (list A * list A) :=
  match pts with
  | a :: b :: pts => c' ← swap_all c (range a b); swap_ranges c' pts
  | _ => Some c
  end.

(** crossover_impl.hpp 100-123. *)
Definition nPoint (sort : (nat -> nat -> bool) -> list nat -> list nat) (p1 p2 : list A) (pts : list nat) :
    option (list A * list A) :=
  check (length p1 = length p2) (
  check (Forall (fun p => p <= length p1) pts) (
  let s := sort Nat.ltb pts in
  let s' := if Nat.odd (length s) then s ++ [length p1] else s in
  swap_ranges (p2, p1) s')).

(** crossover_impl.hpp 125-140. *)
Definition singlePoint (p1 p2 : list A) (pt : nat) : option (list A * list A) :=
  check (pt <= length p1) (check (length p1 = length p2) (swap_all (p1, p2) (range 0 pt))).

(** crossover_impl.hpp 142-164. *)
Definition twoPoint (p1 p2 : list A) (pts : nat * nat) : option (list A * list A) :=
  check (pts.1 <= length p1) (check (pts.2 <= length p1) (check (length p1 = length p2) (
  let '(a, b) := if decide (pts.2 < pts.1) then (pts.2, pts.1) else pts in
  swap_all (p1, p2) (range a b)))).

(** binary.cpp 52-69, integer.cpp 51-69: [idxs] is what sampleUnique returned. *)
Definition uniform (p1 p2 : list A) (idxs : list nat) : option (list A * list A) :=
  check (length p1 = length p2) (swap_all (p1, p2) idxs).

End points.

(** crossover_impl.hpp 166-182. *)
Fixpoint no_repeats (present : list bool) (l : list nat) : option bool :=
  match l with
  | [] => Some true
  | v :: l => b ← present !! v; if b : bool then Some false else p ← wr present v true; no_repeats p l
  end.
Definition isValidIntegerPermutation (l : list nat) : option bool :=
  match l with
  | [] => Some true
  | x :: _ =>
    if decide (foldr Nat.min x l = 0) then
      if decide (foldr Nat.max x l = length l - 1) then no_repeats (replicate (length l) false) l
      else Some false
    else Some false
  end.
Definition check_perm {A} (l : list nat) (k : option A) : option A :=
  b ← isValidIntegerPermutation l; if b : bool then k else None.

(** dynamic_bitset, see above: construction, is_direct[gene] = true for a list of
    genes, find_first(false). *)
Fixpoint set_bits (b : list bool) (gs : list nat) : option (list bool) :=
  match gs with [] => Some b | g :: gs => b' ← wr b g true; set_bits b' gs end.
Fixpoint find_first_false (b : list bool) : nat :=
  match b with [] => 0 | x :: b => if x : bool then S (find_first_false b) else 0 end.

(** parent.chromosome[idx] for every index of a loop. *)
Definition reads {A} (l : list A) (is : list nat) : option (list A) := mapM (fun i => l !! i) is.

Section order.
Context {A : Type}.
(** The test whether a gene is direct; a hash set (generic) or a bitset (unsigned). *)
Variable mem : A -> option bool.

(** crossover_impl.hpp 203 and 235. *)
Fixpoint skip_direct (fuel : nat) (p2 : list A) (pos : nat) : option nat :=
  match fuel with
  | 0 => None
  | S fuel =>
    g ← p2 !! pos; d ← mem g;
    if d : bool then pos' ← next_mod pos (length p2); skip_direct fuel p2 pos' else Some pos
  end.
(** crossover_impl.hpp 201-209 and 233-241. *)
Fixpoint order1_loop (n : nat) (p2 : list A) (ppos cpos : nat) (child : list A) : option (list A) :=
  match n with
  | 0 => Some child
  | S n =>
    ppos ← skip_direct (S (length p2)) p2 ppos;
    g ← p2 !! ppos;
    child ← wr child cpos g;
    ppos ← next_mod ppos (length p2);
    cpos ← next_mod cpos (length p2);
    order1_loop n p2 ppos cpos child
  end.
Definition order1_body (p1 p2 : list A) (first last : nat) : option (list A) :=
  let n := length p1 in
  let pos := if decide (last = n) then 0 else last in
  order1_loop (n - (last - first)) p2 pos pos p1.

(** crossover_impl.hpp 258-265 and 284-291. *)
Fixpoint order2_loop (p2 : list A) (first last cpos : nat) (child : list A) : option (list A) :=
  match p2 with
  | [] => Some child
  | g :: p2 =>
    d ← mem g;
    if d : bool then order2_loop p2 first last cpos child
    else
      let cpos := if decide (cpos = first) then last else cpos in
      child ← wr child cpos g;
      order2_loop p2 first last (cpos + 1) child
  end.

(** crossover_impl.hpp 313: the iterator must not reach the end. *)
Fixpoint skip_kept (fuel : nat) (child : list A) (pos : nat) : option nat :=
  match fuel with
  | 0 => None
  | S fuel => g ← child !! pos; d ← mem g; if d : bool then skip_kept fuel child (pos + 1) else Some pos
  end.
(** crossover_impl.hpp 309-316 (generic) and 346-352 (unsigned): they differ in how
    the next free position is found. *)
Fixpoint position_loop (next : list A -> nat -> option nat) (p2 : list A) (cpos : nat) (child : list A) :
    option (list A) :=
  match p2 with
  | [] => Some child
  | g :: p2 =>
    d ← mem g;
    if d : bool then position_loop next p2 cpos child
    else
      pos ← next child cpos;
      child ← wr child pos g;
      position_loop next p2 (pos + 1) child
  end.
End order.

Section generic.
Context {A : Type} `{EqDecision A}.

(** std::unordered_set::contains *)
Definition in_set (s : list A) (g : A) : option bool := Some (bool_decide (g ∈ s)).
(** detail::index_of, algorithm.hpp 270-277 (AlgorithmModel.v). *)
Definition index_of_gene (l : list A) (g : A) : option nat := index_of (fun x y => bool_decide (x = y)) l g.

(** crossover_impl.hpp 184-212. *)
Definition order1 (p1 p2 : list A) (first last : nat) : option (list A) :=
  check (first <= last /\ last <= length p1) (check (length p1 = length p2) (
  direct ← reads p1 (range first last);
  order1_body (in_set direct) p1 p2 first last)).

(** crossover_impl.hpp 247-268. *)
Definition order2 (p1 p2 : list A) (first last : nat) : option (list A) :=
  check (first <= last /\ last <= length p1) (check (length p1 = length p2) (
  direct ← reads p1 (range first last);
  order2_loop (in_set direct) p2 first last 0 p1)).

(** crossover_impl.hpp 298-319. *)
Definition position (p1 p2 : list A) (idxs : list nat) : option (list A) :=
  check (Forall (fun i => i < length p1) idxs) (check (length p1 = length p2) (
  direct ← reads p1 idxs;
  position_loop (in_set direct) (fun child pos => skip_kept (in_set direct) (S (length child)) child pos) p2 0 p1)).

(** crossover_impl.hpp 373-390 and 419-435; [index] is index_of or index_lookup.
    The state is (deleted, num_deleted, odd_indices). *)
Definition cycle_state : Type := list bool * nat * list nat.
Definition visit (odd : bool) (pos : nat) (s : cycle_state) : option cycle_state :=
  d ← wr s.1.1 pos true; Some (d, s.1.2 + 1, if odd then s.2 ++ [pos] else s.2).
Fixpoint walk_cycle (fuel : nat) (index : A -> option nat) (c2 : list A) (start : A) (odd : bool) (pos : nat)
    (s : cycle_state) : option cycle_state :=
  match fuel with
  | 0 => None
  | S fuel =>
    g ← c2 !! pos;
    if decide (g = start) then Some s
    else
      pos ← index g;
      s ← visit odd pos s;
      walk_cycle fuel index c2 start odd pos s
  end.
Fixpoint cycles (fuel : nat) (index : A -> option nat) (c1 c2 : list A) (odd : bool) (s : cycle_state) : option (list nat) :=
  match fuel with
  | 0 => None
  | S fuel =>
    if decide (s.1.2 < length c1) then
      let pos := find_first_false s.1.1 in
      start ← c1 !! pos;
      s ← visit odd pos s;
      s ← walk_cycle (S (length c1)) index c2 start odd pos s;
      cycles fuel index c1 c2 (negb odd) s
    else Some s.2
  end.
(** crossover_impl.hpp 358-393. *)
Definition findOddCycleIndices (c1 c2 : list A) : option (list nat) :=
  check (length c1 = length c2) (
  cycles (S (length c1)) (index_of_gene c1) c1 c2 false (replicate (length c1) false, 0, [])).
(** crossover_impl.hpp 440-457. *)
Definition cycle_with (odd_indices : option (list nat)) (p1 p2 : list A) : option (list A * list A) :=
  check (length p1 = length p2) (idxs ← odd_indices; swap_all (p1, p2) idxs).
Definition cycle (p1 p2 : list A) : option (list A * list A) := cycle_with (findOddCycleIndices p1 p2) p1 p2.

(** crossover_impl.hpp 557-560 and 599-602. *)
Fixpoint pmx_chain (fuel : nat) (index : A -> option nat) (p1 : list A) (first last pos : nat) : option nat :=
  match fuel with
  | 0 => None
  | S fuel =>
    if decide (first <= pos /\ pos < last) then
      g ← p1 !! pos; pos' ← index g; pmx_chain fuel index p1 first last pos'
    else Some pos
  end.
(** crossover_impl.hpp 546-550 and 583-587: the copying part. *)
Fixpoint copy_at (p1 child : list A) (is : list nat) : option (list A) :=
  match is with
  | [] => Some child
  | i :: is => g ← p1 !! i; child ← wr child i g; copy_at p1 child is
  end.
(** crossover_impl.hpp 552-563 and 594-605. *)
Fixpoint pmx_loop (mem : A -> option bool) (index : A -> option nat) (p1 p2 : list A) (first last : nat)
    (is : list nat) (child : list A) : option (list A) :=
  match is with
  | [] => Some child
  | i :: is =>
    g ← p2 !! i; d ← mem g;
    if d : bool then pmx_loop mem index p1 p2 first last is child
    else
      pos ← pmx_chain (S (length p1)) index p1 first last i;
      child ← wr child pos g;
      pmx_loop mem index p1 p2 first last is child
  end.
(** crossover_impl.hpp 538-567. *)
Definition pmx (p1 p2 : list A) (first last : nat) : option (list A) :=
  check (length p1 = length p2) (check (first <= last /\ last <= length p1) (
  child ← copy_at p1 p2 (range first last);
  direct ← reads p1 (range first last);
  pmx_loop (in_set direct) (index_of_gene p2) p1 p2 first last (range first last) child)).

(** neighbour_list.hpp 37-47: NeighbourList<T>; the map from genes to lists is a
    function (an absent key is an empty list, as operator[] of unordered_map). *)
Definition nb_map : Type := A -> list A.
Definition nb_put (nb : nb_map) (g : A) (l : list A) : nb_map := fun x => if decide (x = g) then l else nb x.
Definition nb_add (nb : nb_map) (g v : A) : nb_map := if decide (v ∈ nb g) then nb else nb_put nb g (nb g ++ [v]).
Definition nb_remove (nb : nb_map) (g v : A) : nb_map :=
  nb_put nb g (erase_first_stable (fun x y => bool_decide (x = y)) (nb g) v).1.
(** The additions for one chromosome in neighbour_list.hpp 120-132, as
    (gene, neighbour) pairs in program order. *)
Definition front_adds (c : list A) : option (list (A * A)) := a ← c !! 0; b ← c !! 1; Some [(a, b)].
Definition back_adds (c : list A) : option (list (A * A)) :=
  if decide (2 <= length c) then a ← c !! (length c - 1); b ← c !! (length c - 2); Some [(a, b)] else None.
Definition inner_adds (c : list A) (i : nat) : option (list (A * A)) :=
  x ← c !! i; p ← c !! (i - 1); q ← c !! (i + 1); Some [(x, p); (x, q)].
(** neighbour_list.hpp 113-135 (the loop bound size() - 1 wraps for an empty chromosome). *)
Definition all_adds (c1 c2 : list A) : option (list (A * A)) :=
  check (length c1 = length c2) (
  f1 ← front_adds c1; f2 ← front_adds c2;
  mid ← mapM (fun i => a ← inner_adds c1 i; b ← inner_adds c2 i; Some (a ++ b)) (range 1 (length c1 - 1));
  b1 ← back_adds c1; b2 ← back_adds c2;
  Some (f1 ++ f2 ++ concat mid ++ b1 ++ b2)).
Definition makeNeighbourLists (c1 c2 : list A) : option nb_map :=
  adds ← all_adds c1 c2; Some (foldl (fun nb gv => nb_add nb gv.1 gv.2) (fun _ => []) adds).

(** crossover_impl.hpp 479-487: the range-for over nb_lists[last_gene]; removing from
    that very list would invalidate the iterators. *)
Fixpoint edge_scan (last : A) (nbs : list A) (nb : nb_map) (next : A) : option (nb_map * A) :=
  match nbs with
  | [] => Some (nb, next)
  | v :: nbs =>
    if decide (v = last) then None else
    let nb := nb_remove nb v last in
    edge_scan last nbs nb (if decide (length (nb v) <= length (nb next)) then v else next)
  end.
(** crossover_impl.hpp 474-491. *)
Fixpoint edge_loop (fuel : nat) (n : nat) (child remaining : list A) (nb : nb_map) : option (list A) :=
  if decide (length child = n) then Some child else
  match fuel with
  | 0 => None
  | S fuel =>
    l ← last child;
    next ← head remaining;
    '(nb, next) ← edge_scan l (nb l) nb next;
    edge_loop fuel n (child ++ [next]) (filter (fun g => g <> next) remaining) nb
  end.
(** crossover_impl.hpp 460-494. *)
Definition edge (p1 p2 : list A) : option (list A) :=
  check (length p1 = length p2) (
  nb ← makeNeighbourLists p1 p2;
  g ← p1 !! 0;
  edge_loop (length p1) (length p1) [g] (tail p1) nb).

End generic.

(** The overloads for unsigned genes. *)

(** crossover_impl.hpp 214-244. *)
Definition order1_u (p1 p2 : list nat) (first last : nat) : option (list nat) :=
  check (first <= last /\ last <= length p1) (check (length p1 = length p2) (check_perm p1 (check_perm p2 (
  direct ← reads p1 (range first last);
  is_direct ← set_bits (replicate (length p1) false) direct;
  order1_body (fun g => is_direct !! g) p1 p2 first last)))).

(** crossover_impl.hpp 270-295. *)
Definition order2_u (p1 p2 : list nat) (first last : nat) : option (list nat) :=
  check (first <= last /\ last <= length p1) (check (length p1 = length p2) (check_perm p1 (check_perm p2 (
  direct ← reads p1 (range first last);
  is_direct ← set_bits (replicate (length p1) false) direct;
  order2_loop (fun g => is_direct !! g) p2 first last 0 p1)))).

(** crossover_impl.hpp 335-342: the table from position [i] on and the value of
    [indirect]; the value -1 is [None]. *)
Fixpoint next_indirect_from (is_direct : list bool) (p1 : list nat) (i : nat) : option (list (option nat) * option nat) :=
  match p1 with
  | [] => Some ([], None)
  | g :: p1 =>
    '(t, ind) ← next_indirect_from is_direct p1 (i + 1);
    d ← is_direct !! g;
    let ind := if d : bool then ind else Some i in
    Some (ind :: t, ind)
  end.
(** crossover_impl.hpp 321-355; writing at index -1 is out of range. *)
Definition position_u (p1 p2 : list nat) (idxs : list nat) : option (list nat) :=
  check (Forall (fun i => i < length p1) idxs) (check (length p1 = length p2) (check_perm p1 (check_perm p2 (
  direct ← reads p1 idxs;
  is_direct ← set_bits (replicate (length p1) false) direct;
  '(next_indirect, _) ← next_indirect_from is_direct p1 0;
  position_loop (fun g => is_direct !! g) (fun _ pos => mjoin (next_indirect !! pos)) p2 0 p1)))).

(** The index_lookup tables, crossover_impl.hpp 412-416 and 588-592. *)
Fixpoint lookup_table_loop (c : list nat) (i : nat) (t : list nat) : option (list nat) :=
  match c with [] => Some t | g :: c => t ← wr t g i; lookup_table_loop c (i + 1) t end.
Definition lookup_table (c : list nat) : option (list nat) := lookup_table_loop c 0 (replicate (length c) 0).

(** crossover_impl.hpp 395-438. *)
Definition findOddCycleIndices_u (c1 c2 : list nat) : option (list nat) :=
  check (length c1 = length c2) (check_perm c1 (check_perm c2 (
  t ← lookup_table c1;
  cycles (S (length c1)) (fun g => t !! g) c1 c2 false (replicate (length c1) false, 0, [])))).
Definition cycle_u (p1 p2 : list nat) : option (list nat * list nat) :=
  cycle_with (findOddCycleIndices_u p1 p2) p1 p2.

(** crossover_impl.hpp 569-608. *)
Definition pmx_u (p1 p2 : list nat) (first last : nat) : option (list nat) :=
  check (length p1 = length p2) (check (first <= last /\ last <= length p1) (check_perm p1 (check_perm p2 (
  child ← copy_at p1 p2 (range first last);
  direct ← reads p1 (range first last);
  is_direct ← set_bits (replicate (length p1) false) direct;
  t ← lookup_table p2;
  pmx_loop (fun g => is_direct !! g) (fun g => t !! g) p1 p2 first last (range first last) child)))).

(** neighbour_list.hpp 53-102: NeighbourList<T> for unsigned T, four slots and a size;
    [E] is EMPTY = T(-1). *)
Record nb4 := Nb4 { slots : list nat; nsize : nat }.
Section unsigned_edge.
Variable E : nat.
Definition nb4_new : nb4 := Nb4 (replicate 4 E) 0.
(** neighbour_list.hpp 65-81; running off the four slots is GAPP_UNREACHABLE. *)
Fixpoint nb4_add_slots (l : list nat) (v : nat) : option (list nat * bool) :=
  match l with
  | [] => None
  | x :: l =>
    if decide (x = v) then Some (x :: l, false)
    else if decide (x = E) then Some (v :: l, true)
    else '(l', b) ← nb4_add_slots l v; Some (x :: l', b)
  end.
Definition nb4_add (nb : nb4) (v : nat) : option nb4 :=
  check (v <> E) ('(l, b) ← nb4_add_slots (slots nb) v; Some (Nb4 l (if b : bool then nsize nb + 1 else nsize nb))).
(** neighbour_list.hpp 83-95; size_-- on a zero size would wrap. *)
Fixpoint nb4_remove_slots (l : list nat) (v n : nat) : option (list nat * nat) :=
  match l with
  | [] => Some ([], n)
  | x :: l =>
    if decide (x = v) then
      check (0 < n) ('(l', n') ← nb4_remove_slots l v (n - 1); Some (E :: l', n'))
    else '(l', n') ← nb4_remove_slots l v n; Some (x :: l', n')
  end.
Definition nb4_remove (nb : nb4) (v : nat) : option nb4 :=
  check (v <> E) ('(l, n) ← nb4_remove_slots (slots nb) v (nsize nb); Some (Nb4 l n)).

(** neighbour_list.hpp 113-135 for std::vector<NeighbourList<T>>. *)
Fixpoint nb4_adds (t : list nb4) (adds : list (nat * nat)) : option (list nb4) :=
  match adds with
  | [] => Some t
  | (g, v) :: adds => nb ← t !! g; nb ← nb4_add nb v; t ← wr t g nb; nb4_adds t adds
  end.
Definition makeNeighbourLists_u (c1 c2 : list nat) : option (list nb4) :=
  adds ← all_adds c1 c2; nb4_adds (replicate (length c1) nb4_new) adds.

(** crossover_impl.hpp 517-528: the slots of nb_lists[last_gene] are read one by one,
    from the current state. *)
Fixpoint edge_scan_u (last : nat) (ks : list nat) (t : list nb4) (next : nat) : option (list nb4 * nat) :=
  match ks with
  | [] => Some (t, next)
  | k :: ks =>
    cur ← t !! last; v ← slots cur !! k;
    if decide (v = E) then edge_scan_u last ks t next else
    nb ← t !! v; nb ← nb4_remove nb last; t ← wr t v nb;
    nbv ← t !! v; nbn ← t !! next;
    edge_scan_u last ks t (if decide (nsize nbv <= nsize nbn) then v else next)
  end.
(** crossover_impl.hpp 512-532. *)
Fixpoint edge_loop_u (fuel n : nat) (child : list nat) (used : list bool) (t : list nb4) : option (list nat) :=
  if decide (length child = n) then Some child else
  match fuel with
  | 0 => None
  | S fuel =>
    l ← last child;
    '(t, next) ← edge_scan_u l (seq 0 4) t (find_first_false used);
    used ← wr used next true;
    edge_loop_u fuel n (child ++ [next]) used t
  end.
(** crossover_impl.hpp 496-535. *)
Definition edge_u (p1 p2 : list nat) : option (list nat) :=
  check (length p1 = length p2) (check_perm p1 (check_perm p2 (
  t ← makeNeighbourLists_u p1 p2;
  g ← p1 !! 0;
  used ← wr (replicate (length p1) false) g true;
  edge_loop_u (length p1) (length p1) [g] used t))).
End unsigned_edge.

(** permutation.cpp: the operators; the random numbers are arguments, and a number
    outside the range that was asked for is [None] (rng::randomInt, sampleUnique). *)
Definition randomInt {B} (lo hi v : nat) (k : option B) : option B := check (lo <= v /\ v <= hi) k.
Definition pair_of {B} (f : list B -> list B -> option (list B)) (p1 p2 : list B) : option (list B * list B) :=
  c1 ← f p1 p2; c2 ← f p2 p1; Some (c1, c2).
(** permutation.cpp 15-31, 33-49, 93-111: Order1, Order2 and PMX draw the segment alike. *)
Definition segment_crossover (f : list nat -> list nat -> nat -> nat -> option (list nat)) (len first : nat)
    (p1 p2 : list nat) : option (list nat * list nat) :=
  check (length p1 = length p2) (
  let n := length p1 in
  if decide (n < 2) then Some (p1, p2) else
  randomInt 1 (n - 1) len (randomInt 0 (n - len) first (
  pair_of (fun a b => f a b first (first + len)) p1 p2))).
Definition Order1 := segment_crossover order1_u.
Definition Order2 := segment_crossover order2_u.
Definition PMX := segment_crossover pmx_u.
(** permutation.cpp 51-66: [idxs] is the result of sampleUnique(0, n, ns). *)
Definition Position (ns : nat) (idxs : list nat) (p1 p2 : list nat) : option (list nat * list nat) :=
  check (length p1 = length p2) (
  let n := length p1 in
  if decide (n < 2) then Some (p1, p2) else
  randomInt 1 (n - 1) ns (check (length idxs = ns /\ NoDup idxs /\ Forall (fun i => i < n) idxs) (
  pair_of (fun a b => position_u a b idxs) p1 p2))).
(** permutation.cpp 68-77. *)
Definition Cycle (p1 p2 : list nat) : option (list nat * list nat) :=
  check (length p1 = length p2) (if decide (length p1 < 2) then Some (p1, p2) else cycle_u p1 p2).
(** permutation.cpp 79-91. *)
Definition Edge (E : nat) (p1 p2 : list nat) : option (list nat * list nat) :=
  check (length p1 = length p2) (if decide (length p1 < 2) then Some (p1, p2) else pair_of (edge_u E) p1 p2).
