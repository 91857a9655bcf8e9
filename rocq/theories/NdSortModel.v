(** Model of non-dominated sorting, /repo/src/algorithm/nd_sort.cpp.

    As in ParetoModel.v the fitness matrix appears through the outcomes of the row
    comparisons.  A FrontElement is a pair (idx, rank).  [None]: undefined behaviour
    (access out of range, unsigned wrap-around) or [fuel] exhausted. *)
From Coq Require Import ZArith.
From stdpp Require Import list list_numbers relations.
From Verif Require Import AlgorithmModel ParetoModel.

Notation element := (nat * nat)%type.

Section Sorts.
Variable n : nat. (* popsize *)
Variable less : nat -> nat -> bool. (* paretoCompareLess(first[i], first[j]) *)
Variable cmp : nat -> nat -> Z.     (* paretoCompare(first[i], first[j]) *)

(** ** efficientNonDominatedSort, nd_sort.cpp 326-364 *)
(** The front of the current rank starting at front_first (find_if not_equal_to(rank)). *)
Fixpoint front_span (rank : nat) (rest : list element) : list element :=
  match rest with
  | [] => []
  | e :: rest => if decide (e.2 = rank) then e :: front_span rank rest else []
  end.
(** The while loop: [before] holds the elements before front_first, [rest] the others. *)
Fixpoint ens_search (fuel idx rank : nat) (before rest : list element) : option (list element) :=
  match fuel with
  | 0 => None
  | S fuel =>
      match rest with
      | [] => Some (before ++ [(idx, rank)])
      | _ =>
          let front := front_span rank rest in
          dominated ← any_dominates n less idx (fst <$> front);
          if (dominated : bool) then ens_search fuel idx (S rank) (before ++ front) (drop (length front) rest)
          else Some (before ++ (idx, rank) :: rest)
      end
  end.
Fixpoint ens_loop (indices : list nat) (pareto_fronts : list element) : option (list element) :=
  match indices with
  | [] => Some pareto_fronts
  | idx :: indices =>
      pf ← ens_search (S (length pareto_fronts)) idx 0 [] pareto_fronts;
      ens_loop indices pf
  end.
Definition efficientNonDominatedSort sort (lexgt : nat -> nat -> bool) : option (list element) :=
  ens_loop (argsort sort lexgt false (index_vector n 0)) [].

(** ** fastNonDominatedSort, nd_sort.cpp 99-184 *)
Record dominance_list := DL { worse_indices : list nat; better_count : nat }.
Definition add_worse (k : nat) (d : dominance_list) := DL (worse_indices d ++ [k]) (better_count d).
Definition add_better (d : dominance_list) := DL (worse_indices d) (S (better_count d)).
(** Body of the double loop of constructDominanceLists, 126-139. *)
Definition dom_pair (dl : list dominance_list) (p : nat * nat) : list dominance_list :=
  let '(lhs, rhs) := p in
  let comp := cmp lhs rhs in
  if (comp <? 0)%Z then alter (add_worse lhs) rhs (alter add_better lhs dl)
  else if (0 <? comp)%Z then alter (add_worse rhs) lhs (alter add_better rhs dl)
  else dl.
Definition dom_pairs : list (nat * nat) := lhs ← seq 0 n; rhs ← seq 0 lhs; [(lhs, rhs)].
Definition constructDominanceLists : list dominance_list := foldl dom_pair (replicate n (DL [] 0)) dom_pairs.

(** for (size_t worse_idx : ...), 171-177. *)
Fixpoint fnds_worse (ws : list nat) (rank : nat) (dl : list dominance_list) (pf : list element)
  : option (list dominance_list * list element) :=
  match ws with
  | [] => Some (dl, pf)
  | w :: ws =>
      d ← dl !! w;
      match better_count d with
      | 0 => None
      | S c => fnds_worse ws rank (<[w := DL (worse_indices d) c]> dl) (if decide (c = 0) then pf ++ [(w, rank)] else pf)
      end
  end.
(** for (; front_first != front_last; ++front_first), 167-178. *)
Fixpoint fnds_front (k front_first rank : nat) (dl : list dominance_list) (pf : list element)
  : option (list dominance_list * list element) :=
  match k with
  | 0 => Some (dl, pf)
  | S k =>
      e ← pf !! front_first; d ← dl !! (e : element).1;
      r ← fnds_worse (worse_indices d) rank dl pf;
      let '(dl, pf) := (r : list dominance_list * list element) in fnds_front k (S front_first) rank dl pf
  end.
(** while (pfronts.size() != popsize), 162-180. *)
Fixpoint fnds_loop (fuel front_first front_last : nat) (dl : list dominance_list) (pf : list element) : option (list element) :=
  match fuel with
  | 0 => None
  | S fuel =>
      if decide (length pf = n) then Some pf
      else
        e ← pf !! front_first;
        r ← fnds_front (front_last - front_first) front_first (S (e : element).2) dl pf;
        let '(dl, pf') := (r : list dominance_list * list element) in fnds_loop fuel front_last (length pf') dl pf'
  end.
Definition fnds_first (dl : list dominance_list) : list element :=
  i ← seq 0 n; match dl !! i with Some d => if decide (better_count d = 0) then [(i, 0)] else [] | None => [] end.
Definition fastNonDominatedSort (fuel : nat) : option (list element) :=
  let dl := constructDominanceLists in
  let pf := fnds_first dl in
  fnds_loop fuel 0 (length pf) dl pf.

(** ** dominanceDegreeSort, nd_sort.cpp 198-315 *)
(** The dominance matrix; [true] is NONMAXIMAL.  Simplified: a function of the row and
    the column (addressing of Matrix is property C10). *)
Notation dmatrix := (nat -> nat -> bool).
Definition dset (d : dmatrix) (r c : nat) : dmatrix := fun r' c' => if decide (r' = r /\ c' = c) then true else d r' c'.

(** The task of one objective, 207-229, as the list of the matrix elements it visits in
    order.  [ascending] = indices.rbegin()..rend(); [eq prev_row row] = floatIsEqual of
    the objective's values. *)
Fixpoint drop_equal (eq : nat -> nat -> bool) (row : nat) (l : list nat) : list nat :=
  match l with [] => [] | p :: l' => if eq p row then drop_equal eq row l' else l end.
Fixpoint objective_visits (eq : nat -> nat -> bool) (ascending : list nat) : list (nat * nat) :=
  match ascending with
  | [] => []
  | row :: rest => ((fun col => (row, col)) <$> drop_equal eq row rest) ++ objective_visits eq rest
  end.

(** Interleaved execution of the tasks.  Visiting an element is a relaxed load and, if
    MAXIMAL was loaded, a store of NONMAXIMAL.  A load may miss stores of others; it can
    only return NONMAXIMAL if that was stored.  A task is the list of its remaining
    visits and, after a load, the value loaded for the first of them. *)
Record dtask := DTask { todo : list (nat * nat); loaded : option bool }.
Record dstate := DState { dtasks : list dtask; dstores : list (nat * nat) }.
Inductive dstep : dstate -> dstate -> Prop :=
| dstep_load ts st i p rest v :
    ts !! i = Some (DTask (p :: rest) None) -> (v = false \/ v = true /\ p ∈ st) ->
    dstep (DState ts st) (DState (<[i := DTask (p :: rest) (Some v)]> ts) st)
| dstep_store ts st i p rest v :
    ts !! i = Some (DTask (p :: rest) (Some v)) ->
    dstep (DState ts st) (DState (<[i := DTask rest None]> ts) (if (v : bool) then st else p :: st)).
Definition dinit (visits : list (list (nat * nat))) : dstate := DState ((fun l => DTask l None) <$> visits) [].
Definition dfinished (s : dstate) : Prop := Forall (fun tk => todo tk = []) (dtasks s).
Definition dmat_of (s : dstate) : dmatrix := fun r c => if decide ((r, c) ∈ dstores s) then true else false.

(** The second loop of constructDominanceMatrix, 231-245. *)
Definition dd_cell (d : dmatrix) (p : nat * nat) : dmatrix :=
  let '(row, col) := p in
  if decide (d row col = false /\ d col row = false) then dset (dset d row col) col row else d.
Definition dd_row (d : dmatrix) (row : nat) : dmatrix :=
  foldl dd_cell (dset d row row) ((fun col => (row, col)) <$> seq (S row) (n - S row)).
Definition dd_symmetrise (d : dmatrix) : dmatrix := foldl dd_row d (seq 0 n).

(** colwiseSums, 250-268. *)
Definition colwiseSums (d : dmatrix) : list (nat * nat) :=
  (fun c => (c, n - length (filter (fun r => d r c = true) (seq 0 n)))) <$> seq 0 n.

(** for (auto& [col, sum] : cols) of one removed row, 300-308. *)
Fixpoint dd_remove_row (row : nat) (d : dmatrix) (cols : list (nat * nat)) : option (dmatrix * list (nat * nat)) :=
  match cols with
  | [] => Some (d, [])
  | (col, sum) :: cols =>
      if d row col then r ← dd_remove_row row d cols; Some (r.1, (col, sum) :: r.2)
      else match sum with
           | 0 => None
           | S sum => r ← dd_remove_row row (dset d row col) cols; Some (r.1, (col, sum) :: r.2)
           end
  end.
Fixpoint dd_remove_rows (rows : list nat) (d : dmatrix) (cols : list (nat * nat)) : option (dmatrix * list (nat * nat)) :=
  match rows with
  | [] => Some (d, cols)
  | row :: rows =>
      r ← dd_remove_row row d cols;
      let '(d, cols) := (r : dmatrix * list (nat * nat)) in dd_remove_rows rows d cols
  end.
Fixpoint dds_loop (fuel rank : nat) (d : dmatrix) (cols : list (nat * nat)) (pf : list element) : option (list element) :=
  match fuel with
  | 0 => None
  | S fuel =>
      if decide (length pf = n) then Some pf
      else
        let removed := fst <$> filter (fun c => c.2 = 0) cols in
        let pf := pf ++ ((fun i => (i, rank)) <$> removed) in
        let cols := filter (fun c => c.2 <> 0) cols in
        r ← dd_remove_rows removed d cols;
        let '(d, cols) := (r : dmatrix * list (nat * nat)) in dds_loop fuel (S rank) d cols pf
  end.
(** The rest of dominanceDegreeSort once the per-objective tasks are done. *)
Definition dds_finish (fuel : nat) (d : dmatrix) : option (list element) :=
  let d := dd_symmetrise d in dds_loop fuel 0 d (colwiseSums d) [].
(** Every result the sort may return; [visits] are the tasks' visits. *)
Inductive dominanceDegreeSort (fuel : nat) (visits : list (list (nat * nat))) : option (list element) -> Prop :=
| dds_run s : rtc dstep (dinit visits) s -> dfinished s -> dominanceDegreeSort fuel visits (dds_finish fuel (dmat_of s)).
End Sorts.

(** ** class ParetoFronts, nd_sort.cpp 22-87; an iterator range is a pair of positions *)
(** resize, 29-34. *)
Definition pf_resize (elements : list element) (new_size : nat) : option (list element) :=
  if decide (new_size <= length elements) then Some (take new_size elements) else None.
(** ranks, 36-48. *)
Fixpoint ranks_loop (elements : list element) (ranks : list nat) : option (list nat) :=
  match elements with
  | [] => Some ranks
  | (idx, rank) :: es => if decide (idx < length ranks) then ranks_loop es (<[idx := rank]> ranks) else None
  end.
Definition pf_ranks (elements : list element) : option (list nat) := ranks_loop elements (replicate (length elements) 0).
(** fronts, 50-71. *)
Fixpoint fronts_loop (elements : list element) (it front_first : nat) (rest : list element) (fronts : list (nat * nat))
  : option (list (nat * nat)) :=
  match rest with
  | [] => Some (fronts ++ [(front_first, it)])
  | e :: rest =>
      f ← elements !! front_first;
      if decide (e.2 <> (f : element).2) then fronts_loop elements (S it) it rest (fronts ++ [(front_first, it)])
      else fronts_loop elements (S it) front_first rest fronts
  end.
Definition pf_fronts (elements : list element) : option (list (nat * nat)) :=
  if decide (elements = []) then None else fronts_loop elements 0 0 elements [].
(** partialFront, 73-87; [None] inside is the default-constructed empty range. *)
Definition pf_partialFront (elements : list element) (size : nat) : option (option (nat * nat)) :=
  if decide (0 < size <= length elements) then
    if decide (size = length elements) then Some None
    else
      r ← elements !! size; l ← elements !! (size - 1);
      let first := find_pos (fun e : element => Nat.eqb e.2 (r : element).2) (take size elements) in
      let last := size - 1 + find_pos (fun e : element => negb (Nat.eqb e.2 (l : element).2)) (drop (size - 1) elements) in
      Some (Some (first, last))
  else None.
