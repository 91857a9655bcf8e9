(** C49 for real genes: the tolerant operator== of candidates lets a changed candidate keep
    its old fitness (Candidate operator==, /repo/src/core/candidate.hpp 180-191). *)
From stdpp Require Import list list_numbers sets.
From Coq Require Import Lia Reals Lra.
From Flocq Require Import Core BinarySingleNaN.
From Verif Require Import FloatBase FloatModel FloatSpec FloatProps FrontSpec FrontModel FrontProofs StdSort ReplacementModel CacheModel CrossoverModel OperatorModel EngineModel EngineSpec EngineExample.

Global Instance spec_float_eq_dec : EqDecision SpecFloat.spec_float.
Proof. solve_decision. Defined.
Global Instance b64_eq_dec : EqDecision b64.
Proof. intros x y. destruct (decide (B2SF x = B2SF y)) as [H|H]; [left; by apply B2SF_inj|right; intros E; by rewrite E in H]. Defined.

(** One candidate with one gene, whose fitness is the gene; the mutation changes the gene 1
    to 1 + 2^-40. *)
Definition real_near_one : b64 := fmk (2 ^ 40 + 1) (-40).
Definition real_cf : settings b64 :=
  Settings 1 0 false false true 1 false default_tolerances (floatVecIsEqual default_tolerances) (fun _ _ => false) isort (fun _ c => c).
Definition real_oc : outcomes b64 :=
  Outcomes b64 [fmk 1 0] (fun _ => [fmk 1 0]) (fun _ _ _ => 0) (fun _ _ => (fmk 1 0, fmk 0 0)) (fun _ _ p1 p2 => Some (p1, p2))
    (fun _ _ _ => Some [real_near_one]) None (fun _ _ => Some (KeepChildren 1)) (fun _ _ => []) (fun _ l r => l ++ r) (fun _ => false).
Theorem C49_real_genes_refuted : exists sols g' c,
  solve real_cf real_oc 2 [] (Ga 0 0 0 0 [] [] [] (cache_new 0) []) = Some (sols, g') /\ c ∈ population g' /\ is_evaluated c = true /\
  chromosome c = [real_near_one] /\ fitness c = [fmk 1 0] /\ fitness c <> chromosome c.
Proof.
  set (r := solve _ _ _ _ _).
  assert (H : match r with Some (_, g') => (fun c => (B2SF <$> chromosome c, B2SF <$> fitness c, is_evaluated c)) <$> population g' | None => [] end =
     [([B2SF real_near_one], [B2SF (fmk 1 0)], true)]) by (vm_compute; reflexivity).
  assert (Hne : B2SF real_near_one <> B2SF (fmk 1 0)) by (vm_compute; discriminate).
  destruct r as [[sols g']|]; [|discriminate]. remember real_near_one as z eqn:Hz. remember (fmk 1 0) as o eqn:Ho. clear Hz Ho.
  destruct (population g') as [|c [|? ?]] eqn:Ep; try discriminate. cbn [fmap list_fmap] in H. injection H as Hc Hf He.
  exists sols, g', c. split; [done|]. rewrite Ep. split; [left|]. split; [done|].
  destruct (chromosome c) as [|x [|? ?]]; try discriminate. destruct (fitness c) as [|y [|? ?]]; try discriminate. cbn [fmap list_fmap] in Hc, Hf. injection Hc as Hc. injection Hf as Hf. apply B2SF_inj in Hc, Hf. subst x y.
  split; [done|]. split; [done|]. intros [= E]. by rewrite E in Hne.
Qed.
Print Assumptions C49_real_genes_refuted.

(** C54 for real genes: the wrong fitness gets into the cache.  The gene is changed to
    1 + 2^-40, to 2 and back to 1 + 2^-40 in the first three generations. *)
Definition real_cache_cf (n : nat) : settings b64 :=
  Settings 1 n false false true 1 false default_tolerances (floatVecIsEqual default_tolerances) (fun _ _ => false) isort (fun _ c => c).
Definition real_cache_oc : outcomes b64 :=
  Outcomes b64 [fmk 1 0] (fun _ => [fmk 1 0]) (fun _ _ _ => 0) (fun _ _ => (fmk 1 0, fmk 0 0)) (fun _ _ p1 p2 => Some (p1, p2))
    (fun gen _ _ => Some [if gen =? 1 then fmk 2 0 else real_near_one]) None (fun _ _ => Some (KeepChildren 1)) (fun _ _ => []) (fun _ l r => l ++ r) (fun _ => false).
Definition last_values (r : option (list (candidate b64) * ga b64)) : list (list SpecFloat.spec_float) :=
  match r with Some (_, g') => (fun c => B2SF <$> fitness c) <$> population g' | None => [] end.
Lemma real_cache_values :
  last_values (solve (real_cache_cf 3) real_cache_oc 4 [] (Ga 0 0 0 0 [] [] [] (cache_new 0) [])) <>
  last_values (solve (real_cache_cf 0) real_cache_oc 4 [] (Ga 0 0 0 0 [] [] [] (cache_new 0) [])).
Proof. vm_compute. discriminate. Qed.
Lemma real_cache_runs :
  is_Some (solve (real_cache_cf 3) real_cache_oc 4 [] (Ga 0 0 0 0 [] [] [] (cache_new 0) [])) /\
  is_Some (solve (real_cache_cf 0) real_cache_oc 4 [] (Ga 0 0 0 0 [] [] [] (cache_new 0) [])).
Proof.
  assert (H : forall (X : Type) (o : option X), match o with Some _ => true | None => false end = true -> is_Some o) by (intros X [x|]; [by eexists|done]).
  split; apply H; vm_compute; reflexivity.
Qed.
Theorem C54_real_genes_refuted : exists sols g' sols' h',
  solve (real_cache_cf 3) real_cache_oc 4 [] (Ga 0 0 0 0 [] [] [] (cache_new 0) []) = Some (sols, g') /\
  solve (real_cache_cf 0) real_cache_oc 4 [] (Ga 0 0 0 0 [] [] [] (cache_new 0) []) = Some (sols', h') /\
  population g' <> population h'.
Proof.
  generalize real_cache_values, real_cache_runs.
  generalize (solve (real_cache_cf 3) real_cache_oc 4 [] (Ga 0 0 0 0 [] [] [] (cache_new 0) [])), (solve (real_cache_cf 0) real_cache_oc 4 [] (Ga 0 0 0 0 [] [] [] (cache_new 0) [])).
  intros r r' Hne [[[sols g'] ->] [[sols' h'] ->]]. exists sols, g', sols', h'. split; [reflexivity|]. split; [reflexivity|].
  intros E. apply Hne. unfold last_values. by rewrite E.
Qed.
Print Assumptions C54_real_genes_refuted.
