(** C119: map applies its function once to each element in order; move_only_function behaves as a value. *)
From stdpp Require Import list.
From Coq Require Import Lia.
From Verif Require Import FunctionalModel.

Section map.
Context {A B S : Type} (invoke : A -> S -> B * S).
(** The results of the calls on the elements, one after the other. *)
Inductive calls : list A -> S -> list B -> S -> Prop :=
  | calls_nil s : calls [] s [] s
  | calls_cons a l s b s' bs s'' : invoke a s = (b, s') -> calls l s' bs s'' -> calls (a :: l) s (b :: bs) s''.
Theorem C119_map_push cont s : calls cont s (map_push invoke cont s).1 (map_push invoke cont s).2.
Proof.
  unfold map_push. assert (H : forall r s, exists bs s', map_push_loop invoke cont r s = (r ++ bs, s') /\ calls cont s bs s').
  { induction cont as [|a l IH]; intros r s0; [exists [], s0; split; [by rewrite app_nil_r|constructor]|]. cbn [map_push_loop]. destruct (invoke a s0) as [b s1] eqn:E. destruct (IH (r ++ [b]) s1) as (bs & s2 & E2 & C). exists (b :: bs), s2. rewrite E2, <- app_assoc. split; [done|]. by econstructor. }
  destruct (H [] s) as (bs & s' & -> & C). exact C.
Qed.
Theorem C119_map_index value_init cont s : exists bs s', map_index invoke value_init cont s = Some (bs, s') /\ calls cont s bs s'.
Proof.
  unfold map_index. assert (H : forall l pre done_ s, cont = pre ++ l -> length done_ = length pre -> exists bs s', map_index_loop invoke (length l) cont (length pre) (done_ ++ replicate (length l) value_init) s = Some (done_ ++ bs, s') /\ calls l s bs s').
  { induction l as [|a l IH]; intros pre d s0 Hc Hd; [exists [], s0; split; [done|constructor]|]. cbn [length map_index_loop]. rewrite Hc, list_lookup_middle by done. cbn [mbind option_bind]. destruct (invoke a s0) as [b s1] eqn:E.
    destruct (decide _) as [_|Hx]; [|exfalso; apply Hx; rewrite app_length, replicate_length; lia].
    destruct (IH (pre ++ [a]) (d ++ [b]) s1) as (bs & s2 & E2 & C); [rewrite Hc, <- app_assoc; done|rewrite !app_length; cbn; lia|]. exists (b :: bs), s2. split; [|by econstructor].
    rewrite <- Hc. replace (length pre + 1) with (length (pre ++ [a])) by (rewrite app_length; cbn; lia). replace (<[length pre:=b]> (d ++ replicate (Datatypes.S (length l)) value_init)) with ((d ++ [b]) ++ replicate (length l) value_init).
    - rewrite E2, <- app_assoc. done.
    - rewrite <- Hd. cbn [replicate]. replace (length d) with (length d + 0) by lia. rewrite insert_app_r. cbn. by rewrite <- app_assoc. }
  destruct (H cont [] [] s eq_refl eq_refl) as (bs & s' & E & C). by exists bs, s'.
Qed.
End map.

Section functions.
Context {A B S : Type} (invoke : A -> S -> B * S) (alloc : heap (S := S) -> nat).
Context (fresh : forall h, h (alloc h) = None).
(** Variables that hold their callables themselves. *)
Definition values := nat -> option S.
Definition value_step (o : op (A := A) (S := S)) (v : values) : option (values * option B) :=
  match o with
  | AssignCallable i f => Some (fun k => if decide (k = i) then Some f else v k, None)
  | AssignNull i => Some (fun k => if decide (k = i) then None else v k, None)
  | MoveAssign i j => Some (fun k => if decide (k = i) then v j else if decide (k = j) then None else v k, None)
  | Swap i j => Some (fun k => if decide (k = i) then v j else if decide (k = j) then v i else v k, None)
  | Call i a => f ← v i; Some (fun k => if decide (k = i) then Some (invoke a f).2 else v k, Some (invoke a f).1)
  end.
(** Every callable that is alive belongs to exactly one variable. *)
Definition owned (s : funcs (S := S)) : Prop :=
  (forall i j p, fptr s i = Some p -> fptr s j = Some p -> i = j) /\ (forall i p, fptr s i = Some p -> live s p <> None) /\ (forall p f, live s p = Some f -> exists i, fptr s i = Some p).
Definition holds (s : funcs (S := S)) (v : values) : Prop := forall i, v i = (fptr s i ≫= live s).
Definition result (s : funcs (S := S)) (v : values) (o : op) : Prop :=
  match step invoke alloc o s, value_step o v with
  | Some (s', b), Some (v', b') => b = b' /\ owned s' /\ holds s' v'
  | None, None => True
  | _, _ => False
  end.
(** No double free, no use of a dead callable, no leak; each variable acts as if it held the callable itself. *)
Lemma step_ok s v o : owned s -> holds s v -> result s v o.
Proof.
  intros (Hi & Hl & Ho) Hv. destruct o as [i f|i|i j|i j|i a]; unfold result; cbn [step value_step].
  - pose proof (fresh (live s)) as Hf. set (p := alloc (live s)) in *. clearbody p. assert (Hnp : forall k, fptr s k <> Some p) by (intros k E; by apply (Hl k p)).
    destruct (fptr s i) as [q|] eqn:Eq; cbn [release_old].
    + assert (q <> p) by (intros ->; by apply (Hnp i)). replace (upd (live s) p (Some f) q) with (live s q) by (unfold upd; by rewrite decide_False). destruct (live s q) as [x|] eqn:Ex; [|by apply (Hl i q) in Eq]. cbn [mbind option_bind]. split; [done|]. split; [split_and!|]; cbn [fptr live].
      * intros k l r. unfold upd. repeat case_decide; naive_solver.
      * intros k r. unfold upd. repeat case_decide; naive_solver.
      * intros r g. unfold upd. case_decide; [done|]. case_decide; [subst; exists i; by rewrite decide_True|]. intros Hr. destruct (Ho r g Hr) as [k Hk]. exists k. rewrite decide_False; [done|]. intros ->. congruence.
      * intros k. cbn [fptr live]. unfold upd. case_decide; [cbn; by rewrite decide_False, decide_True|]. rewrite (Hv k). destruct (fptr s k) as [r|] eqn:Er; [|done]. cbn. rewrite decide_False by naive_solver. rewrite decide_False by naive_solver. done.
    + cbn [mbind option_bind]. split; [done|]. split; [split_and!|]; cbn [fptr live].
      * intros k l r. unfold upd. repeat case_decide; naive_solver.
      * intros k r. unfold upd. repeat case_decide; naive_solver.
      * intros r g. unfold upd. case_decide; [subst; exists i; by rewrite decide_True|]. intros Hr. destruct (Ho r g Hr) as [k Hk]. exists k. rewrite decide_False; [done|]. intros ->. congruence.
      * intros k. cbn [fptr live]. unfold upd. case_decide; [cbn; by rewrite decide_True|]. rewrite (Hv k). destruct (fptr s k) as [r|] eqn:Er; [|done]. cbn. rewrite decide_False by naive_solver. done.
  - destruct (fptr s i) as [q|] eqn:Eq; cbn [release_old].
    + destruct (live s q) as [x|] eqn:Ex; [|by apply (Hl i q) in Eq]. cbn [mbind option_bind]. split; [done|]. split; [split_and!|]; cbn [fptr live].
      * intros k l r. unfold upd. repeat case_decide; naive_solver.
      * intros k r. unfold upd. repeat case_decide; naive_solver.
      * intros r g. unfold upd. case_decide; [done|]. intros Hr. destruct (Ho r g Hr) as [k Hk]. exists k. rewrite decide_False; [done|]. intros ->. congruence.
      * intros k. cbn [fptr live]. unfold upd. case_decide; [done|]. rewrite (Hv k). destruct (fptr s k) as [r|] eqn:Er; [|done]. cbn. rewrite decide_False by naive_solver. done.
    + cbn [mbind option_bind]. split; [done|]. split; [split_and!|]; cbn [fptr live].
      * intros k l r. unfold upd. repeat case_decide; naive_solver.
      * intros k r. unfold upd. repeat case_decide; naive_solver.
      * intros r g Hr. destruct (Ho r g Hr) as [k Hk]. exists k. unfold upd. rewrite decide_False; [done|]. intros ->. congruence.
      * intros k. cbn [fptr live]. unfold upd. case_decide; [done|]. apply (Hv k).
  - destruct (decide (i = j)) as [->|Hij].
    + replace (upd (fptr s) j None j) with (@None nat) by (unfold upd; by rewrite decide_True). cbn [release_old mbind option_bind]. split; [done|]. split; [split_and!|]; cbn [fptr live].
      * intros k l r. unfold upd. repeat case_decide; naive_solver.
      * intros k r. unfold upd. repeat case_decide; naive_solver.
      * intros r g Hr. destruct (Ho r g Hr) as [k Hk]. exists k. unfold upd. repeat case_decide; naive_solver.
      * intros k. cbn [fptr live]. unfold upd. repeat case_decide; subst; try done; apply Hv.
    + replace (upd (fptr s) j None i) with (fptr s i) by (unfold upd; by rewrite decide_False). destruct (fptr s i) as [q|] eqn:Eq; cbn [release_old].
      * destruct (live s q) as [x|] eqn:Ex; [|by apply (Hl i q) in Eq]. cbn [mbind option_bind]. split; [done|]. split; [split_and!|]; cbn [fptr live].
        -- intros k l r. unfold upd. repeat case_decide; naive_solver.
        -- intros k r. unfold upd. repeat case_decide; naive_solver.
        -- intros r g. unfold upd. case_decide; [done|]. intros Hr. destruct (Ho r g Hr) as [k Hk]. destruct (decide (k = j)) as [->|]; [exists i; by rewrite decide_True|]. exists k. rewrite decide_False by naive_solver. by rewrite decide_False.
        -- intros k. cbn [fptr live]. unfold upd. case_decide as Hk; [rewrite (Hv j); destruct (fptr s j) as [r|] eqn:Er; [|done]; cbn; rewrite decide_False by naive_solver; done|]. case_decide; [done|]. rewrite (Hv k). destruct (fptr s k) as [r|] eqn:Er; [|done]. cbn. rewrite decide_False by naive_solver. done.
      * cbn [mbind option_bind]. split; [done|]. split; [split_and!|]; cbn [fptr live].
        -- intros k l r. unfold upd. repeat case_decide; naive_solver.
        -- intros k r. unfold upd. repeat case_decide; naive_solver.
        -- intros r g Hr. destruct (Ho r g Hr) as [k Hk]. unfold upd. destruct (decide (k = j)) as [->|]; [exists i; by rewrite decide_True|]. exists k. rewrite decide_False by naive_solver. by rewrite decide_False.
        -- intros k. cbn [fptr live]. unfold upd. repeat case_decide; subst; try done; apply Hv.
  - split; [done|]. split; [split_and!|]; cbn [fptr live].
    + intros k l r. unfold upd. repeat case_decide; naive_solver.
    + intros k r. unfold upd. repeat case_decide; naive_solver.
    + intros r g Hr. destruct (Ho r g Hr) as [k Hk]. unfold upd. destruct (decide (k = j)) as [->|]; [exists i; repeat case_decide; naive_solver|]. destruct (decide (k = i)) as [->|]; [exists j; by rewrite decide_True|]. exists k. by rewrite !decide_False.
    + intros k. cbn [fptr live]. unfold upd. repeat case_decide; subst; apply Hv.
  - rewrite (Hv i). destruct (fptr s i) as [p|] eqn:Ep; [|done]. cbn [mbind option_bind]. destruct (live s p) as [f|] eqn:Ef; [|by apply (Hl i p) in Ep]. cbn [mbind option_bind]. destruct (invoke a f) as [b f'] eqn:E. cbn [fst snd]. split; [done|]. split; [split_and!|]; cbn [fptr live].
    + done.
    + intros k r. unfold upd. repeat case_decide; naive_solver.
    + intros r g. unfold upd. case_decide; [subst; by exists i|]. apply Ho.
    + intros k. cbn [fptr live]. case_decide; [subst; rewrite Ep; cbn; unfold upd; by rewrite decide_True|]. rewrite (Hv k). destruct (fptr s k) as [r|] eqn:Er; [|done]. cbn. unfold upd. rewrite decide_False by naive_solver. done.
Qed.
Fixpoint value_steps (os : list (op (A := A) (S := S))) (v : values) : option (values * list (option B)) :=
  match os with [] => Some (v, []) | o :: os => '(v, b) ← value_step o v; '(v, bs) ← value_steps os v; Some (v, b :: bs) end.
(** For every program: the same results, the same failures (calls of an empty function), and nothing is leaked. *)
Theorem C119_move_only os :
  match steps invoke alloc os none, value_steps os (fun _ => None) with
  | Some (s, bs), Some (v, bs') => bs = bs' /\ owned s /\ holds s v
  | None, None => True
  | _, _ => False
  end.
Proof.
  assert (H : forall os s v, owned s -> holds s v -> match steps invoke alloc os s, value_steps os v with Some (s, bs), Some (v, bs') => bs = bs' /\ owned s /\ holds s v | None, None => True | _, _ => False end).
  { clear os. induction os as [|o os IH]; intros s v Ho Hv; [done|]. pose proof (step_ok s v o Ho Hv) as R. unfold result in R. cbn [steps value_steps]. destruct (step invoke alloc o s) as [[s1 b]|], (value_step o v) as [[v1 b']|]; try done. cbn [mbind option_bind]. destruct R as (-> & Ho1 & Hv1). specialize (IH s1 v1 Ho1 Hv1). destruct (steps invoke alloc os s1) as [[s2 bs]|], (value_steps os v1) as [[v2 bs']|]; try done. cbn. destruct IH as (-> & ? & ?). done. }
  apply H; [split_and!; done|done].
Qed.
Theorem C119_is_set os s bs i : steps invoke alloc os none = Some (s, bs) -> is_set s i = true <-> exists f, (fptr s i ≫= live s) = Some f.
Proof.
  intros E. pose proof (C119_move_only os) as H. rewrite E in H. destruct (value_steps os _) as [[v bs']|]; [|done]. destruct H as (_ & (_ & Hl & _) & _). unfold is_set. destruct (fptr s i) as [p|] eqn:Ep; cbn; [|split; [done|by intros [? ?]]]. split; [|done]. intros _. destruct (live s p) as [f|] eqn:Ef; [by exists f|]. by apply (Hl i p) in Ep.
Qed.
(** A function_ref calls the callable it was made from, whose state changes; nothing else does. *)
Theorem C119_function_ref p f a h : h p = Some f -> exists h', call_ref invoke (Some p) a h = Some (h', (invoke a f).1) /\ h' p = Some (invoke a f).2 /\ forall q, q <> p -> h' q = h q.
Proof.
  intros Hp. unfold call_ref. cbn [mbind option_bind]. rewrite Hp. cbn [mbind option_bind]. destruct (invoke a f) as [b f']. exists (upd h p (Some f')). unfold upd. split_and!; [done|by rewrite decide_True|]. intros q Hq. by rewrite decide_False.
Qed.
Theorem C119_function_ref_empty a h : call_ref invoke None a h = None.
Proof. done. Qed.
End functions.

(** Callables that add up their arguments; addresses: the first of 0, 1, 2, 3 that is free. *)
Example C119_example :
  let invoke a s := (a + s, a + s) in let alloc (h : heap (S := nat)) := default 4 (head (filter (fun p => h p = None) [0; 1; 2; 3])) in
  map_push invoke [1; 2; 3] 10 = ([11; 13; 16], 16) /\ map_index invoke 0 [1; 2; 3] 10 = Some ([11; 13; 16], 16) /\
  snd <$> steps invoke alloc [AssignCallable 0 5; Call 0 1; MoveAssign 1 0; Call 1 1; AssignCallable 0 100; Swap 0 1; Call 0 1; Call 1 1; MoveAssign 0 0; Call 0 1] none
    = Some [None; Some 6; None; Some 7; None; None; Some 8; Some 101; None; Some 9] /\
  steps invoke alloc [AssignCallable 0 5; MoveAssign 1 0; Call 0 1] none = None.
Proof. by vm_compute. Qed.
Print Assumptions C119_map_push.
Print Assumptions C119_map_index.
Print Assumptions C119_move_only.
Print Assumptions C119_is_set.
Print Assumptions C119_function_ref.
Print Assumptions C119_function_ref_empty.
