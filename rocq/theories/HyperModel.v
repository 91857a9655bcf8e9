(** Model of the hypervolume, /repo/src/metrics/pop_stats.cpp 107-203, and of the metric
    AutoHypervolume, /repo/src/metrics/distribution_metrics.cpp 49-83.
    The code is transcribed over any type of numbers; [float_num] below has the doubles of the
    code, [exact_num] the integers (exact arithmetic) with a value for +inf.  A fitness matrix is
    the list of its rows; [None] is a failed assertion, an access out of range, or the end of
    [fuel]. *)
From Coq Require Import ZArith.
From stdpp Require Import list list_numbers.
From Verif Require Import FloatBase FloatModel AlgorithmModel ParetoModel FrontModel.

(** The operations on numbers, and the functions on vectors of them that are used. *)
Record num (N : Type) := Num {
  n_zero : N;
  n_inf : N;
  n_add : N -> N -> N;
  n_sub : N -> N -> N;
  n_abs : N -> N;
  n_lt : N -> N -> bool;
  n_ne : N -> N -> bool;                      (* != *)
  n_product : list N -> N;                    (* std::reduce(l, 1.0, std::multiplies) *)
  n_front : list (list N) -> option (list nat); (* detail::findParetoFrontSort *)
}.
Arguments n_zero {N}. Arguments n_inf {N}. Arguments n_add {N}. Arguments n_sub {N}. Arguments n_abs {N}.
Arguments n_lt {N}. Arguments n_ne {N}. Arguments n_product {N}. Arguments n_front {N}.

Section hyper.
Context {N : Type}.
Variable o : num N.

(** operator!= of two spans or vectors. *)
Fixpoint differ (u v : list N) : bool :=
  match u, v with
  | [], [] => false
  | x :: u, y :: v => n_ne o x y || differ u v
  | _, _ => true
  end.
(** math::volumeBetween, /repo/src/utility/math.cpp 92-97. *)
Definition volumeBetween (p1 p2 : list N) : option N :=
  if decide (length p1 = length p2) then Some (n_abs o (n_product o (zip_with (n_sub o) p1 p2))) else None.

(** uniqueSortedParetoFront, pop_stats.cpp 124-137. *)
Fixpoint unique_loop (fmat : list (list N)) (indices : list nat) (front : list (list N)) : option (list (list N)) :=
  match indices with
  | [] => Some front
  | idx :: indices =>
      r ← fmat !! idx;
      let new := match last front with None => true | Some b => differ r b end in
      unique_loop fmat indices (if (new : bool) then front ++ [r] else front)
  end.
Definition uniqueSortedParetoFront (fmat : list (list N)) : option (list (list N)) :=
  indices ← n_front o fmat; unique_loop fmat indices [].

(** limitSet, 139-149: every row limited elementwise. *)
Fixpoint limitSet (fmat : list (list N)) (limit : list N) : option (list (list N)) :=
  match fmat with
  | [] => Some []
  | r :: fmat => r ← elementwise (std_min (n_lt o)) r limit; fmat ← limitSet fmat limit; Some (r :: fmat)
  end.

(** std::equal with std::greater_equal, 154; x >= y is y <= x. *)
Fixpoint greater_equal (u v : list N) : bool :=
  match u, v with
  | [], [] => true
  | x :: u, y :: v => (n_lt o y x || negb (n_ne o y x)) && greater_equal u v
  | _, _ => false
  end.
(** inclusiveHypervolume, 151-157. *)
Definition inclusiveHypervolume (point ref_point : list N) : option N :=
  if decide (length point = length ref_point) then
    if greater_equal point ref_point then volumeBetween point ref_point else None
  else None.

(** exclusiveHypervolume, 159-165; [hv] is hypervolume(seq). *)
Definition exclusiveHypervolume (hv : list (list N) -> option N) (point : list N) (rest : list (list N)) (ref_point : list N) : option N :=
  inclusive ← inclusiveHypervolume point ref_point;
  limited ← limitSet rest point;
  rest ← hv limited;
  Some (n_sub o inclusive rest).
(** The loop of hypervolume(seq), 190-195: the rest of a point are the points after it. *)
Fixpoint seq_loop (hv : list (list N) -> option N) (front : list (list N)) (ref_point : list N) (hypervolume : N) : option N :=
  match front with
  | [] => Some hypervolume
  | point :: rest =>
      exclusive ← exclusiveHypervolume hv point rest ref_point;
      seq_loop hv rest ref_point (n_add o hypervolume exclusive)
  end.
(** hypervolume(seq), 186-198. *)
Fixpoint hypervolume_seq (fuel : nat) (fmat : list (list N)) (ref_point : list N) : option N :=
  match fuel with
  | 0 => None
  | S fuel =>
      front ← uniqueSortedParetoFront fmat;
      seq_loop (fun m => hypervolume_seq fuel m ref_point) front ref_point (n_zero o)
  end.

(** hypervolume(par), 167-184.  The iterations compute their exclusive volumes independently
    and add them with fetch_add, in any order. *)
Fixpoint exclusives (fuel : nat) (front : list (list N)) (ref_point : list N) : option (list N) :=
  match front with
  | [] => Some []
  | point :: rest =>
      e ← exclusiveHypervolume (fun m => hypervolume_seq fuel m ref_point) point rest ref_point;
      es ← exclusives fuel rest ref_point;
      Some (e :: es)
  end.
Definition hypervolume_terms (fuel : nat) (fmat : list (list N)) (ref_point : list N) : option (list N) :=
  front ← uniqueSortedParetoFront fmat; exclusives fuel front ref_point.
(** [schedule] are the positions of the terms in the order in which they are added. *)
Definition hypervolume_par (fuel : nat) (schedule : list nat) (fmat : list (list N)) (ref_point : list N) : option N :=
  terms ← hypervolume_terms fuel fmat ref_point;
  Some (fold_left (n_add o) (omap (fun i => terms !! i) schedule) (n_zero o)).

(** AutoHypervolume, distribution_metrics.cpp 49-83.  minFitness and maxFitness are
    pop_stats.cpp 22-48. *)
Definition rowsLoop (f : N -> N -> N) (rows : list (list N)) (acc : list N) : option (list N) :=
  fold_left (fun acc r => a ← acc; elementwise f a r) rows (Some acc).
Definition min_fitness (m : list (list N)) : option (list N) :=
  match m with [] => None | r :: rest => rowsLoop (std_min (n_lt o)) rest r end.
Definition max_fitness (m : list (list N)) : option (list N) :=
  match m with [] => None | r :: rest => rowsLoop (std_max (n_lt o)) rest r end.
Record auto_hv := AutoHv { hv_data : list N; ideal_points : list (list N); worst_point : list N }.
(** initialize, 49-58. *)
Definition auto_initialize (num_objectives : nat) (old : auto_hv) : auto_hv := AutoHv [] [] (replicate num_objectives (n_inf o)).
(** The loop 72-78. *)
Fixpoint correct (data : list N) (ideals : list (list N)) (prev_worst worst : list N) : option (list N) :=
  match data, ideals with
  | [], _ => Some []
  | x :: data, ideal :: ideals =>
      old_vol ← volumeBetween ideal prev_worst;
      new_vol ← volumeBetween ideal worst;
      data ← correct data ideals prev_worst worst;
      Some (n_add o x (n_sub o new_vol old_vol) :: data)
  | _ :: _, [] => None
  end.
(** update, 60-83. *)
Definition auto_update (fuel : nat) (schedule : list nat) (s : auto_hv) (fmat : list (list N)) : option auto_hv :=
  worst ← min_fitness fmat;
  ideal ← max_fitness fmat;
  worst_point' ← elementwise (std_min (n_lt o)) (worst_point s) worst;
  data ← (if differ worst_point' (worst_point s) then correct (hv_data s) (ideal_points s) (worst_point s) worst_point' else Some (hv_data s));
  v ← hypervolume_par fuel schedule fmat worst_point';
  Some (AutoHv (data ++ [v]) (ideal_points s ++ [ideal]) worst_point').
(** A run: the populations and the schedules of their generations. *)
Fixpoint auto_updates (s : auto_hv) (pops : list (list (list N) * list nat)) : option auto_hv :=
  match pops with
  | [] => Some s
  | (fmat, schedule) :: pops => s ← auto_update (S (length fmat)) schedule s fmat; auto_updates s pops
  end.
Definition auto_run (num_objectives : nat) (old : auto_hv) (pops : list (list (list N) * list nat)) : option auto_hv :=
  auto_updates (auto_initialize num_objectives old) pops.
End hyper.
Arguments AutoHv {N}. Arguments hv_data {N}. Arguments ideal_points {N}. Arguments worst_point {N}.

(** The doubles of the code; [product] is std::transform_reduce (its order is unspecified),
    [sort] is std::sort, [t] are the tolerances in use. *)
Definition float_num (t : tolerances) (product : list b64 -> b64) sort : num b64 :=
  Num b64 fzero finf fadd fsub fabs flt (fun x y => negb (feq x y)) product (fun m => findParetoFrontSortF t m sort).

(** Exact arithmetic: the integers, and [None] for +inf (only compared, the operations on it do
    not matter). *)
Definition ex_op (f : Z -> Z -> Z) (x y : option Z) : option Z := a ← x; b ← y; Some (f a b).
Definition ex_lt (x y : option Z) : bool :=
  match x, y with Some a, Some b => (a <? b)%Z | Some _, None => true | None, _ => false end.
Definition ex_ne (x y : option Z) : bool := negb (bool_decide (x = y)).
(** paretoCompareLess, /repo/src/utility/math.cpp 16-35, with exact comparisons. *)
Fixpoint any2 (f : option Z -> option Z -> bool) (u v : list (option Z)) : bool :=
  match u, v with x :: u, y :: v => f x y || any2 f u v | _, _ => false end.
Definition ex_less (u v : list (option Z)) : bool := negb (any2 (fun x y => ex_lt y x) u v) && any2 ex_lt u v.
(** The comparison of findParetoFrontSort, /repo/src/core/population.cpp 47-54. *)
Fixpoint ex_lexgt (u v : list (option Z)) : bool :=
  match u, v with x :: u, y :: v => if ex_ne x y then ex_lt y x else ex_lexgt u v | _, _ => false end.
Definition ex_front sort (m : list (list (option Z))) : option (list nat) :=
  findParetoFrontSort (length m) (fun i j => ex_less (nth i m []) (nth j m [])) sort (fun i j => ex_lexgt (nth i m []) (nth j m [])).
Definition exact_num sort : num (option Z) :=
  Num (option Z) (Some 0%Z) None (ex_op Z.add) (ex_op Z.sub) (fmap Z.abs) ex_lt ex_ne (fun l => foldr (ex_op Z.mul) (Some 1%Z) l) (ex_front sort).
