(** Model of the NSGA-III algorithm, /repo/src/algorithm/nsga3.cpp.  [None] is a failed
    assertion or undefined behaviour.  The parallel loop of associatePopWithRefs (which
    writes a different element in every iteration) is run in order. *)
From Coq Require Import ZArith.
From stdpp Require Import list list_numbers.
From Verif Require Import FloatBase FloatModel AlgorithmModel ParetoModel FrontModel NdSortModel NdFloatModel RandModel RealCrossoverModel Nsga2Model.

(** CandidateInfo, 77-82. *)
Record cinfo := CInfo { c_rank : nat; c_ref : nat; c_dist : b64 }.
Record nsga3 := Nsga3 { ref_lines : list (list b64); sol_info : list cinfo; niche_counts : list nat; ideal_point : list b64; nadir_point : list b64; extreme_points : list (list b64) }.

(** The literal 1E-6. *)
Definition f1em6 : b64 := fmk 4722366482869645 (-72).

Section nsga3.
Variable t : tolerances.
Variable sort : forall A, (A -> A -> bool) -> list A -> list A.
(** std::transform_reduce with std::plus (the order of the additions is unspecified), and
    std::pow(x, 2). *)
Variable reduce : list b64 -> b64.
Variable square : b64 -> b64.

(** std::inner_product(a, b, 0.0). *)
Definition inner_product (a b : list b64) : b64 := foldl (fun acc p => fadd acc (fmul p.1 p.2)) fzero (zip a b).
(** perpendicularDistanceSq, math.cpp 80-90. *)
Definition perpendicularDistanceSq (line point : list b64) : option b64 :=
  if decide (length line = length point) then
    let k := fdiv (inner_product line point) (inner_product line line) in
    Some (reduce ((fun lp : b64 * b64 => square (fsub lp.2 (fmul k lp.1))) <$> zip line point))
  else None.
(** ASF, 30-44. *)
Fixpoint asf_loop (ideal weights fitness : list b64) (dmax : b64) : b64 :=
  match ideal, weights, fitness with
  | i :: ideal, w :: weights, f :: fitness => asf_loop ideal weights fitness (fmax dmax (fdiv (fsub i f) w))
  | _, _, _ => dmax
  end.
Definition ASF (ideal weights fitness : list b64) : option b64 :=
  if decide (ideal <> [] /\ length weights = length ideal /\ length fitness = length weights) then Some (asf_loop ideal weights fitness (fneg finf)) else None.
(** weightVector, 47-55. *)
Definition weightVector (dimensions axis : nat) : list b64 := <[axis := fone]> (replicate dimensions f1em6).
(** normalizeFitnessVec, 58-71. *)
Fixpoint normalize_loop (fvec ideal nadir : list b64) : list b64 :=
  match fvec, ideal, nadir with
  | f :: fvec, i :: ideal, n :: nadir => fdiv (fsub i f) (fmax (fsub i n) f1em8) :: normalize_loop fvec ideal nadir
  | _, _, _ => []
  end.
Definition normalizeFitnessVec (fvec ideal nadir : list b64) : option (list b64) :=
  if decide (length fvec = length ideal /\ length ideal = length nadir) then Some (normalize_loop fvec ideal nadir) else None.

(** maxFitness, pop_stats.cpp 36-48. *)
Definition maxFitness (m : list (list b64)) : option (list b64) :=
  match m with [] => None | r :: rest => fold_left (fun acc r => a ← acc; elementwise_max flt a r) rest (Some r) end.
(** updateIdealPoint, 166-171. *)
Definition updateIdealPoint (fmat : list (list b64)) (ideal : list b64) : option (list b64) := m ← maxFitness fmat; elementwise_max flt ideal m.
(** updateExtremePoints, 173-203. *)
Definition extreme_point (fmat extreme : list (list b64)) (ideal : list b64) (dim : nat) : option (list b64) :=
  dists ← mapM (ASF ideal (weightVector (length ideal) dim)) (fmat ++ extreme);
  idx ← argmin false flt (fun x : b64 => x) dists;
  (fmat ++ extreme) !! idx.
Definition updateExtremePoints (fmat extreme : list (list b64)) (ideal : list b64) : option (list (list b64)) :=
  first ← head fmat;
  if decide (length first = length ideal) then mapM (extreme_point fmat extreme ideal) (seq 0 (length ideal)) else None.
(** updateNadirPoint, 205-209. *)
Definition updateNadirPoint (fmat extreme : list (list b64)) (ideal : list b64) : option (list (list b64) * list b64) :=
  extreme ← updateExtremePoints fmat extreme ideal;
  nadir ← findFrontNadirPoint extreme;
  Some (extreme, nadir).

(** The body of the loop of associatePopWithRefs, 228-237: ref_idx and ref_dist. *)
Definition associate (lines : list (list b64)) (ideal nadir fvec : list b64) : option (nat * b64) :=
  fnorm ← normalizeFitnessVec fvec ideal nadir;
  let closest := max_element flt (fun line => inner_product fnorm line) lines in
  line ← lines !! closest;
  dist ← perpendicularDistanceSq line fnorm;
  Some (closest, dist).
Fixpoint associate_all (lines fmat : list (list b64)) (ideal nadir : list b64) (els : list element) (info : list cinfo) : option (list cinfo) :=
  match els with
  | [] => Some info
  | (idx, _) :: els =>
      fvec ← fmat !! idx; '(r, d) ← associate lines ideal nadir fvec;
      i ← info !! idx;
      associate_all lines fmat ideal nadir els (<[idx := CInfo (c_rank i) r d]> info)
  end.
Definition resize_info (n : nat) (info : list cinfo) : list cinfo := take n info ++ replicate (n - length info) (CInfo 0 0 fzero).
(** associatePopWithRefs, 217-238. *)
Definition associatePopWithRefs (fmat : list (list b64)) (els : list element) (st : nsga3) : option nsga3 :=
  if decide (fmat <> [] /\ ref_lines st <> []) then
    ideal ← updateIdealPoint fmat (ideal_point st);
    '(extreme, nadir) ← updateNadirPoint fmat (extreme_points st) ideal;
    info ← associate_all (ref_lines st) fmat ideal nadir els (resize_info (length fmat) (sol_info st));
    Some (Nsga3 (ref_lines st) info (niche_counts st) ideal nadir extreme)
  else None.

(** refIndexOf, refDistOf, 261-269. *)
Definition ref_of (info : list cinfo) (e : element) : nat := c_ref (nth e.1 info (CInfo 0 0 fzero)).
Definition dist_of (info : list cinfo) (e : element) : b64 := c_dist (nth e.1 info (CInfo 0 0 fzero)).
Definition count_of (niche : list nat) (ref : nat) : nat := nth ref niche 0.
(** recalcNicheCounts, 211-215. *)
Fixpoint recalc_loop (info : list cinfo) (els : list element) (niche : list nat) : option (list nat) :=
  match els with
  | [] => Some niche
  | e :: els => let r := ref_of info e in if decide (r < length niche) then recalc_loop info els (<[r := S (count_of niche r)]> niche) else None
  end.
Definition recalcNicheCounts (info : list cinfo) (els : list element) (niche : list nat) : option (list nat) :=
  recalc_loop info els (replicate (length niche) 0).
(** referenceSetOf, 271-280. *)
Definition referenceSetOf (info : list cinfo) (niche : list nat) (els : list element) : option (list nat) :=
  let refs := erase_duplicates (sort nat) Nat.ltb Nat.eqb (ref_of info <$> els) in
  if decide (Forall (fun r => r < length niche) refs) then Some (sort nat (fun lhs rhs => Nat.ltb (count_of niche lhs) (count_of niche rhs)) refs) else None.
(** findClosestAssociated, 282-288: the position in the range. *)
Definition findClosestAssociated (info : list cinfo) (els : list element) (ref : nat) : nat :=
  min_element flt (fun sol => if Nat.eqb (ref_of info sol) ref then dist_of info sol else finf) els.
(** incrementNicheCount, 290-298. *)
Definition incrementNicheCount (niche refs : list nat) (ref : nat) : option (list nat * list nat) :=
  if decide (ref < length niche) then
    let niche := <[ref := S (count_of niche ref)]> niche in
    let current := find_pos (fun r => Nat.eqb r ref) refs in
    let first_eq := S current + find_pos (fun idx => Nat.leb (count_of niche ref) (count_of niche idx)) (drop (S current) refs) in
    refs ← iter_swap refs current (first_eq - 1);
    Some (niche, refs)
  else None.

(** The body of the loop of nextPopulation, 362-389; [ab] is the partial front. *)
Record nstate := NState { n_elements : list element; n_counts : list nat; n_refs : list nat }.
Definition niche_step (info : list cinfo) (ab : nat * nat) (i : nat) (st : nstate) : rand nstate :=
  rlet front <- rlift (head (n_refs st));
  let min_niche_count := count_of (n_counts st) front in
  let last_minimal_ref := find_pos (fun idx => negb (Nat.eqb (count_of (n_counts st) idx) min_niche_count)) (n_refs st) in
  rlet off <- randomInt 0 (Z.of_nat last_minimal_ref - 1);
  rlet selected <- rlift (n_refs st !! Z.to_nat off);
  rlet nr <- rlift (incrementNicheCount (n_counts st) (n_refs st) selected);
  let associated_sol_count := length (filter (fun sol => ref_of info sol = selected) (n_elements st)) in
  let closest := findClosestAssociated info (range ab (n_elements st)) selected in
  rlet elements <- rlift (iter_swap (n_elements st) (ab.1 + closest) (ab.1 + i));
  rret (NState elements nr.1 (if decide (associated_sol_count = 1) then (erase_first_stable Nat.eqb nr.2 selected).1 else nr.2)).
Fixpoint niche_loop (info : list cinfo) (ab : nat * nat) (is : list nat) (st : nstate) : rand nstate :=
  match is with
  | [] => rret st
  | i :: is => rlet st <- niche_step info ab i st; niche_loop info ab is st
  end.
(** 352: the ranks. *)
Fixpoint set_ranks (els : list element) (info : list cinfo) : option (list cinfo) :=
  match els with
  | [] => Some info
  | (idx, rank) :: els => i ← info !! idx; set_ranks els (<[idx := CInfo rank (c_ref i) (c_dist i)]> info)
  end.
(** createPopulation, 300-318. *)
Definition createPopulation (info : list cinfo) (els : list element) : option (list nat * list cinfo) :=
  new_info ← mapM (fun e : element => info !! e.1) els;
  Some (els.*1, new_info).

(** nextPopulation, 344-395.  If the combined population has exactly [popsize] members the
    partial front is a default constructed range, and comparing its iterators with those
    of the fronts is undefined. *)
Definition nsga3_next (ncols popsize : nat) (fmat : list (list b64)) (st : nsga3) : rand (list nat * nsga3) :=
  rassert (forallb (fun r => Nat.eqb (length r) ncols) fmat)
    (rlet pareto_fronts <- rlift (nonDominatedSort t fmat sort);
     rlet partial <- rlift (pf_partialFront pareto_fronts popsize);
     rlet ab <- rlift (partial : option (nat * nat));
     rlet info <- rlift (set_ranks pareto_fronts (resize_info (length fmat) (sol_info st)));
     rlet st <- rlift (associatePopWithRefs fmat (take ab.2 pareto_fronts) (Nsga3 (ref_lines st) info (niche_counts st) (ideal_point st) (nadir_point st) (extreme_points st)));
     rlet niche <- rlift (recalcNicheCounts (sol_info st) (take ab.1 pareto_fronts) (niche_counts st));
     rlet refs <- rlift (referenceSetOf (sol_info st) niche (range ab pareto_fronts));
     rlet ns <- niche_loop (sol_info st) ab (seq 0 (popsize - ab.1)) (NState pareto_fronts niche refs);
     rlet chosen <- rlift (pf_resize (n_elements ns) popsize);
     rlet res <- rlift (createPopulation (sol_info st) chosen);
     rret (res.1, Nsga3 (ref_lines st) res.2 (n_counts ns) (ideal_point st) (nadir_point st) (extreme_points st))).

(** initialize, 323-342; [lines] are the normalized reference lines of the generator. *)
Definition nsga3_initialize (ncols popsize : nat) (fmat lines : list (list b64)) (st : nsga3) : option nsga3 :=
  if decide (popsize <> 0 /\ 1 < ncols) then
    ideal ← maxFitness fmat;
    let niche := take (length lines) (niche_counts st) ++ replicate (length lines - length (niche_counts st)) 0 in
    pareto_fronts ← nonDominatedSort t fmat sort;
    info ← set_ranks pareto_fronts (resize_info popsize (sol_info st));
    st ← associatePopWithRefs fmat pareto_fronts (Nsga3 lines info niche ideal (nadir_point st) []);
    niche ← recalcNicheCounts (sol_info st) pareto_fronts (niche_counts st);
    Some (Nsga3 (ref_lines st) (sol_info st) niche (ideal_point st) (nadir_point st) (extreme_points st))
  else None.
(** nichedCompare, 240-259, and select, 397-405. *)
Definition nichedCompare (info : list cinfo) (lhs rhs : nat) : rand bool :=
  rlet l <- rlift (info !! lhs); rlet r <- rlift (info !! rhs);
  if Nat.eqb (c_ref l) (c_ref r) then
    rret (if Nat.eqb (c_rank l) (c_rank r) then flt (c_dist l) (c_dist r) else Nat.ltb (c_rank l) (c_rank r))
  else randomBool.
Definition nsga3_select (n : nat) (info : list cinfo) : rand nat :=
  rassert (negb (Nat.eqb n 0))
    (rlet i1 <- randomInt 0 (Z.of_nat n - 1); rlet i2 <- randomInt 0 (Z.of_nat n - 1);
     rlet b <- nichedCompare info (Z.to_nat i1) (Z.to_nat i2);
     rret (if (b : bool) then Z.to_nat i1 else Z.to_nat i2)).
(** optimalSolutions, 407-410. *)
Definition nsga3_optimal (info : list cinfo) : list nat := find_indices (fun i => Nat.eqb (c_rank i) 0) info.
End nsga3.
