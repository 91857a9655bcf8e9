(** Specification of the reference lines of NSGA-III. *)
From Coq Require Import Reals.
From stdpp Require Import list list_numbers.
From Flocq Require Import Core BinarySingleNaN.
From Verif Require Import FloatBase FloatSpec FrontSpec AlgorithmSpec Nsga3Model.

(** [p] is, in each of the [d] objectives, the largest value among the rows in [S]. *)
Definition componentwise_max (d : nat) (S : list b64 -> Prop) (p : list b64) : Prop :=
  length p = d /\
  forall k x, p !! k = Some x ->
    (exists r, S r /\ r !! k = Some x) /\
    (forall r y, S r -> r !! k = Some y -> (B2R y <= B2R x)%R).

(** [v] is how far [x] is from the ideal point along objective [k]: the largest distance in
    any objective, where the distances in the other objectives count 10^6 times. *)
Definition distance_along (ideal : list b64) (k : nat) (x : list b64) (v : b64) : Prop :=
  let q j i f := fdiv (fsub i f) (if decide (j = k) then fmk 1 0 else fmk 4722366482869645 (-72)) in
  (exists j i f, ideal !! j = Some i /\ x !! j = Some f /\ v = q j i f) /\
  (forall j i f, ideal !! j = Some i -> x !! j = Some f -> flt v (q j i f) = false).
(** [e] is one of the points closest to the ideal point along objective [k]. *)
Definition extreme_along (ideal : list b64) (k : nat) (points : list (list b64)) (e : list b64) : Prop :=
  e ∈ points /\
  (exists w, distance_along ideal k e w) /\
  forall x v w, x ∈ points -> distance_along ideal k x v -> distance_along ideal k e w -> flt v w = false.

(** [x] is the fitness [f] relative to the ideal and nadir points. *)
Definition normalized (f ideal nadir x : list b64) : Prop :=
  length x = length f /\
  forall j fj i n, f !! j = Some fj -> ideal !! j = Some i -> nadir !! j = Some n ->
    x !! j = Some (fdiv (fsub i fj) (fmax (fsub i n) (fmk 6044629098073146 (-79)))).
(** The inner product, added up from the left. *)
Fixpoint inner_from (acc : b64) (a b : list b64) : b64 :=
  match a, b with x :: a, y :: b => inner_from (fadd acc (fmul x y)) a b | _, _ => acc end.
Definition inner (a b : list b64) : b64 := inner_from fzero a b.
(** [v] is the squared distance of the point [x] from the line: the sum of the squared
    components of the difference from the projection. *)
Definition line_distance (reduce : list b64 -> b64) (square : b64 -> b64) (line x : list b64) (v : b64) : Prop :=
  exists terms, length terms = length x /\ v = reduce terms /\
    forall j l p, line !! j = Some l -> x !! j = Some p -> terms !! j = Some (square (fsub p (fmul (fdiv (inner line x) (inner line line)) l))).

(** What associating the members [els] of the population [m] with the reference lines does. *)
Record associated (reduce : list b64 -> b64) (square : b64 -> b64) (d : nat) (m : list (list b64)) (els : list (nat * nat)) (st st' : nsga3) : Prop := {
  as_lines : ref_lines st' = ref_lines st /\ niche_counts st' = niche_counts st;
  as_ideal : componentwise_max d (fun r => r = ideal_point st \/ r ∈ m) (ideal_point st');
  as_extreme : length (extreme_points st') = d /\
    forall k e, extreme_points st' !! k = Some e -> extreme_along (ideal_point st') k (m ++ extreme_points st) e;
  as_nadir : componentwise_min d (fun r => r ∈ extreme_points st') (nadir_point st');
  as_finite : finite_vec (ideal_point st') /\ matrix d (extreme_points st') /\ finite_vec (nadir_point st');
  as_members : forall idx rk f, (idx, rk) ∈ els -> m !! idx = Some f -> exists x c line,
    normalized f (ideal_point st') (nadir_point st') x /\
    sol_info st' !! idx = Some c /\ (exists c0, sol_info st !! idx = Some c0 /\ c_rank c = c_rank c0) /\
    ref_lines st !! c_ref c = Some line /\ line_distance reduce square line x (c_dist c) /\
    ((forall l, l ∈ ref_lines st -> is_nan (inner x l) = false) -> first_max flt (inner x <$> ref_lines st) (c_ref c));
  as_others : length (sol_info st') = length (sol_info st) /\ forall k, k ∉ els.*1 -> sol_info st' !! k = sol_info st !! k;
}.

(** Vectors of real numbers: inner product, and squared distance of [x] from [t] times [l]. *)
Local Open Scope R_scope.
Fixpoint rdot (a b : list R) : R := match a, b with x :: a, y :: b => x * y + rdot a b | _, _ => 0 end.
Fixpoint rdist2 (x : list R) (t : R) (l : list R) : R := match x, l with p :: x, q :: l => (p - t * q) * (p - t * q) + rdist2 x t l | _, _ => 0 end.
Definition reals (l : list b64) : list R := B2R <$> l.
