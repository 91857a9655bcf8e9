(** C118: get_metric finds the metric of its type. *)
From stdpp Require Import list.
From Coq Require Import ZArith Lia.
From Verif Require Import MetricSetModel.

Section metrics.
Context {T D G : Type} `{EqDecision T} (derived : T -> T) (address : T -> Z) (is_a : T -> T -> bool) (measure : T -> G -> D).
(** Different objects have different addresses, and a class is a base of itself. *)
Context (Haddr : forall t u, address t = address u -> t = u) (Hrefl : forall t, is_a t t = true).
Implicit Types ms : list (metric (T := T) (D := D)).
Notation get := (get derived address is_a).
Notation get_metric := (get_metric derived address is_a).

Lemma find_spec p ms : match find_if p ms with
  | Some i => (exists m, ms !! i = Some m /\ p m = true) /\ forall j m, j < i -> ms !! j = Some m -> p m = false
  | None => forall j m, ms !! j = Some m -> p m = false end.
Proof.
  induction ms as [|m ms IH]; [intros j x H; by rewrite lookup_nil in H|]. cbn [find_if]. destruct (p m) eqn:E.
  - split; [by exists m|]. intros j x H. lia.
  - destruct (find_if p ms) as [i|]; cbn [fmap option_fmap option_map].
    + destruct IH as [(x & Hx & Hp) Hb]. split; [by exists x|]. intros [|j] y Hj Hy; cbn in Hy; [congruence|]. apply (Hb j); [lia|done].
    + intros [|j] y Hy; cbn in Hy; [congruence|]. by apply (IH j).
Qed.
(** Every class that is tracked is the argument of its own Monitor. *)
Definition direct ms : Prop := forall m, m ∈ ms -> derived (dynamic m) = dynamic m.
(** Then the lookup is defined; it gives a metric of the class that is asked for, and a null pointer if there is none. *)
Theorem C118_get_partial t ms : direct ms -> exists r, get t ms = Some r /\
  match r with Some i => exists m, ms !! i = Some m /\ dynamic m = t | None => forall m, m ∈ ms -> dynamic m <> t end.
Proof.
  intros Hd. unfold MetricSetModel.get. pose proof (find_spec (fun m => Z.eqb (metric_type_id derived address m) (type_id address t)) ms) as F. destruct (find_if _ ms) as [i|].
  - destruct F as [(m & Hm & Hp) _]. rewrite Hm. cbn [mbind option_bind]. apply Z.eqb_eq in Hp. unfold metric_type_id, type_id in Hp. apply Haddr in Hp. rewrite (Hd m) in Hp by (by eapply elem_of_list_lookup_2). rewrite Hp, Hrefl. exists (Some i). split; [done|]. by exists m.
  - exists None. split; [done|]. intros m Hm E. apply elem_of_list_lookup in Hm as [j Hj]. pose proof (F j m Hj) as Hp. apply Z.eqb_neq in Hp. apply Hp. unfold metric_type_id, type_id. rewrite (Hd m) by (by eapply elem_of_list_lookup_2). by rewrite E.
Qed.
Theorem C118_get_metric_partial t ms : direct ms -> (exists m, m ∈ ms /\ dynamic m = t) -> exists i m, get_metric t ms = Some i /\ ms !! i = Some m /\ dynamic m = t.
Proof.
  intros Hd (m0 & Hm0 & E0). unfold MetricSetModel.get_metric. destruct (C118_get_partial t ms Hd) as ([i|] & E & H); rewrite E; cbn [mbind option_bind].
  - destruct H as (m & Hm & Ht). by exists i, m.
  - exfalso. by apply (H m0).
Qed.
(** A metric of class B with a base class A that is the argument of the Monitor is not found as a B, although it is
    tracked; if the argument of its Monitor is a class A that is not its base, get_metric<A> is undefined. *)
Theorem C118_get_refuted A B (d : list D) : A <> B -> derived B = A ->
  get B [Metric B d] = Some None /\ (is_a B A = true -> get A [Metric B d] = Some (Some 0)) /\ (is_a B A = false -> get A [Metric B d] = None).
Proof.
  intros Hn Hd. unfold MetricSetModel.get, metric_type_id, type_id. cbn. rewrite Hd. assert (E : Z.eqb (address A) (address B) = false) by (apply Z.eqb_neq; intros E; by apply Hn, Haddr). rewrite E, Z.eqb_refl. cbn. split; [done|]. by split; intros ->.
Qed.

(** track keeps the metrics and their order. *)
Theorem C118_track old ms : track old ms = ms.
Proof. unfold track, metric_set. assert (H : forall v, foldl (fun v m => v ++ [m]) v ms = v ++ ms); [|by rewrite H]. induction ms as [|m ms IH]; intros v; cbn; [by rewrite app_nil_r|]. by rewrite IH, <- app_assoc. Qed.
(** After a run every metric has one value per generation, in order, and nothing of earlier runs, and the lookups
    give the same metrics as before. *)
Lemma run_spec (gs : list G) ms : run measure gs ms = (fun m => Metric (dynamic m) ((fun g => measure (dynamic m) g) <$> gs)) <$> ms.
Proof.
  unfold run. assert (H : forall pre, foldl (fun ms g => update measure g ms) ((fun m => Metric (dynamic m) ((fun g => measure (dynamic m) g) <$> pre)) <$> ms) gs = (fun m => Metric (dynamic m) ((fun g => measure (dynamic m) g) <$> pre ++ gs)) <$> ms); [|exact (H [])].
  induction gs as [|g gs IH]; intros pre; cbn [foldl]; [by rewrite app_nil_r|]. replace (pre ++ g :: gs) with ((pre ++ [g]) ++ gs) by (by rewrite <- app_assoc). rewrite <- IH. f_equal. unfold update. rewrite <- list_fmap_compose. apply list_fmap_ext. intros i m _. cbn. f_equal. by rewrite fmap_app.
Qed.
Theorem C118_run gs ms i m : ms !! i = Some m -> run measure gs ms !! i = Some (Metric (dynamic m) (map (measure (dynamic m)) gs)).
Proof. intros H. rewrite run_spec, list_lookup_fmap, H. done. Qed.
Lemma find_fmap p f ms : (forall m, p (f m) = p m) -> find_if p (f <$> ms) = find_if p ms.
Proof. intros H. induction ms as [|m ms IH]; [done|]. cbn [fmap list_fmap find_if]. rewrite H. destruct (p m); [done|]. f_equal. exact IH. Qed.
Theorem C118_same gs t ms : get t (run measure gs ms) = get t ms.
Proof.
  rewrite run_spec. unfold MetricSetModel.get. rewrite find_fmap by done. destruct (find_if _ ms) as [i|]; [|done]. rewrite list_lookup_fmap. by destruct (ms !! i).
Qed.
End metrics.

(** Classes 0 and 1 are metrics, 2 is derived from 1. *)
Example C118_example :
  let derived t := if decide (t = 2) then 1 else t in let is_a t u := bool_decide (t = u) || bool_decide (t = 2 /\ u = 1) in
  let get := get (D := nat) derived Z.of_nat is_a in
  get 1 [Metric 0 []; Metric 1 []; Metric 1 [7]] = Some (Some 1) /\ get 3 [Metric 0 []; Metric 1 []] = Some None /\
  get 2 [Metric 0 []; Metric 2 []] = Some None /\ get 1 [Metric 0 []; Metric 2 []] = Some (Some 1) /\
  run (fun t g => t + g) [10; 20; 30] [Metric 0 [5]; Metric 1 []] = [Metric 0 [10; 20; 30]; Metric 1 [11; 21; 31]].
Proof. by vm_compute. Qed.
Print Assumptions C118_get_partial.
Print Assumptions C118_get_metric_partial.
Print Assumptions C118_get_refuted.
Print Assumptions C118_track.
Print Assumptions C118_run.
Print Assumptions C118_same.
