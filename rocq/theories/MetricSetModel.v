(** The set of tracked metrics and the lookup by type: metrics/metric_set.hpp and .cpp, Monitor::type_id
    (metrics/monitor.hpp 60), utility/type_id.hpp, and track, get_metric, get_metric_if (core/ga_info.hpp). *)
From stdpp Require Import list.
From Coq Require Import ZArith.

Section metrics.
(** The metric classes and the values they record.  [derived t] is the first template argument of the Monitor that
    t inherits from, [address t] the address of TypeIdHelper<t>::var, [is_a t u] says that u is t or a base of t. *)
Context {T D G : Type} `{EqDecision T} (derived : T -> T) (address : T -> Z) (is_a : T -> T -> bool).
(** What a metric records in update; any function of the GA. *)
Context (measure : T -> G -> D).

(** A metric object: its dynamic type and data_. *)
Record metric := Metric { dynamic : T; data : list D }.
Definition type_id (t : T) : Z := address t.
(** Monitor::type_id is final. *)
Definition metric_type_id (m : metric) : Z := type_id (derived (dynamic m)).
(** MetricSet::MetricSet, metric_set.hpp 49-55: the metrics in the order of the arguments; track replaces the set. *)
Definition metric_set (ms : list metric) : list metric := foldl (fun v m => v ++ [m]) [] ms.
Definition track (old ms : list metric) : list metric := metric_set ms.
(** std::find_if; the position is the iterator. *)
Fixpoint find_if (p : metric -> bool) (ms : list metric) : option nat :=
  match ms with [] => None | m :: ms => if p m then Some 0 else S <$> find_if p ms end.
(** MetricSet::get, metric_set.hpp 57-64, which is get_metric_if; [Some None] is a null pointer, [None] the
    undefined behaviour of a static_cast to a class that is not the class of the object or a base of it. *)
Definition get (t : T) (ms : list metric) : option (option nat) :=
  match find_if (fun m => Z.eqb (metric_type_id m) (type_id t)) ms with
  | None => Some None
  | Some i => m ← ms !! i; if is_a (dynamic m) t then Some (Some i) else None
  end.
(** get_metric dereferences the pointer. *)
Definition get_metric (t : T) (ms : list metric) : option nat := r ← get t ms; r.
(** MetricSet::initialize and update, metric_set.cpp 7-21, with Monitor::initialize (monitor.hpp 53). *)
Definition initialize (ms : list metric) : list metric := (fun m => Metric (dynamic m) []) <$> ms.
Definition update (g : G) (ms : list metric) : list metric := (fun m => Metric (dynamic m) (data m ++ [measure (dynamic m) g])) <$> ms.
(** A run calls initialize once, and then update once per generation. *)
Definition run (gs : list G) (ms : list metric) : list metric := foldl (fun ms g => update g ms) (initialize ms) gs.
End metrics.
