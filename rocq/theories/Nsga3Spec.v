(** Specification for NSGA-III. *)
From stdpp Require Import list list_numbers.
From Verif Require Import FloatBase FloatSpec FrontSpec Nsga3Model.

(** [popsize] members chosen by rank: [L] lists (index, rank). *)
Record ranked_choice (n popsize : nat) (L : list (nat * nat)) (chosen : list nat) : Prop := {
  rc_size : length chosen = popsize;
  rc_distinct : NoDup chosen;
  rc_members : forall i, i ∈ chosen -> i < n;
  rc_rank : forall i j r s, i ∈ chosen -> j ∉ chosen -> (i, r) ∈ L -> (j, s) ∈ L -> r <= s;
  rc_whole : forall i r, (i, r) ∈ L -> length (filter (fun e => e.2 <= r) L) <= popsize -> i ∈ chosen;
  rc_cut : forall i r, i ∈ chosen -> (i, r) ∈ L -> length (filter (fun e => e.2 < r) L) < popsize;
}.

(** The state between generations: at least one reference line, a counter for each, and
    points with [d] coordinates. *)
Definition nsga3_ok (d : nat) (st : nsga3) : Prop :=
  ref_lines st <> [] /\ Forall (fun l => length l = d) (ref_lines st) /\ length (niche_counts st) = length (ref_lines st) /\
  length (ideal_point st) = d /\ Forall (fun l => length l = d) (extreme_points st).

(** [picks] take members of the front [front] one by one, each time from a line with the
    smallest count among the lines that have members left; [line] gives the line of a
    member and [count] the counts at the start. *)
Fixpoint niched_picks (line : nat -> nat) (count : nat -> nat) (front picks : list nat) : Prop :=
  match picks with
  | [] => True
  | p :: picks =>
      p ∈ front /\ (forall q, q ∈ front -> count (line p) <= count (line q)) /\
      niched_picks line (fun l => if decide (l = line p) then S (count l) else count l) (filter (fun q => q <> p) front) picks
  end.

(** One pick of the niching loop: the candidates at the positions [a .. a+i) are the ones
    picked so far from the front at [a .. b).  The list of lines is ordered by the counts and
    holds the line of every unpicked member; the pick takes a line [ref] with the smallest
    count and puts a closest member of it at position [a+i]. *)
Record niche_pick (line : nat * nat -> nat) (dist : nat * nat -> b64) (a b i : nat) (st st' : nstate) (ref : nat) : Prop := {
  np_ordered : forall p q x y, p < q -> n_refs st !! p = Some x -> n_refs st !! q = Some y -> nth x (n_counts st) 0 <= nth y (n_counts st) 0;
  np_listed : ref ∈ n_refs st;
  np_unpicked : forall p e, a + i <= p < b -> n_elements st !! p = Some e -> line e ∈ n_refs st;
  np_least : forall p e, a + i <= p < b -> n_elements st !! p = Some e -> nth ref (n_counts st) 0 <= nth (line e) (n_counts st) 0;
  np_counts : n_counts st' = <[ref := S (nth ref (n_counts st) 0)]> (n_counts st);
  np_keeps : forall p, p < a + i -> exists q, q <= a + i /\ n_elements st' !! q = n_elements st !! p;
  np_member : exists p e, a <= p < b /\ n_elements st !! p = Some e /\ n_elements st' !! (a + i) = Some e /\
    ((exists q f, a <= q < b /\ n_elements st !! q = Some f /\ line f = ref) -> line e = ref /\
      forall q f, a <= q < b -> n_elements st !! q = Some f -> line f = ref -> flt (dist f) (dist e) = false);
}.
