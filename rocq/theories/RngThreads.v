(** Proofs about the thread local generators and the bool distribution. *)
From Coq Require Import NArith ZArith Lia.
From stdpp Require Import list list_numbers.
From Verif Require Import RngModel RngSpec RngPrime RngProofs.
Local Open Scope N_scope.

Fixpoint draws (t : nat) (ops : list gen_op) : N :=
  match ops with
  | [] => 0
  | Draw t' :: ops => (if decide (t = t') then 1 else 0) + draws t ops
  | _ :: ops => draws t ops
  end.
Fixpoint registers (ops : list gen_op) : N :=
  match ops with
  | [] => 0
  | Register :: ops => 1 + registers ops
  | _ :: ops => registers ops
  end.
Definition no_seed (ops : list gen_op) : Prop := forall seed, Seed seed ∉ ops.
Fixpoint live (ts : list (option xstate)) : N :=
  match ts with
  | [] => 0
  | Some _ :: ts => 1 + live ts
  | None :: ts => live ts
  end.

Definition stride : N := 2 ^ 96.
Definition at_step (s0 : xstate) (e : N) : xstate := times e step s0.
Lemma jump_at s0 e : in_range s0 -> jump (at_step s0 e) = at_step s0 (e + stride).
Proof. intros H. unfold at_step. rewrite jump_steps by by apply times_range. by rewrite (N.add_comm e), times_add. Qed.
Lemma step_at s0 e : step (at_step s0 e) = at_step s0 (e + 1).
Proof. unfold at_step. by rewrite (N.add_comm e), times_add. Qed.

Record inv (s0 : xstate) (g : generators) (base count : nat -> N) (K : N) (es : list N) : Prop := Inv {
  i_global : global g = at_step s0 (K * stride);
  i_live : forall t s, threads g !! t = Some (Some s) -> base t <> 0 /\ s = at_step s0 (base t * stride + count t);
  i_inj : forall t t', base t <> 0 -> base t = base t' -> t = t';
  i_new : forall t, (length (threads g) <= t)%nat -> base t = 0;
  i_le : forall t, base t <= K;
  i_nodup : NoDup es;
  i_count : forall t, count t < stride;
  i_es : forall e, e ∈ es -> exists t c, base t <> 0 /\ c < count t /\ e = base t * stride + c }.

Lemma base_div b c : c < stride -> (b * stride + c) / stride = b.
Proof. intros H. rewrite N.div_add_l by done. rewrite N.div_small by done. apply N.add_0_r. Qed.
Lemma base_mod b c : c < stride -> (b * stride + c) mod stride = c.
Proof. intros H. rewrite N.add_comm, N.mod_add by done. by apply N.mod_small. Qed.

Lemma run_inv s0 ops : in_range s0 -> no_seed ops -> forall g base count K es g' log, inv s0 g base count K es -> gen_run ops g = Some (g', log) -> (forall t, count t + draws t ops < stride) ->
  exists base' count' es', inv s0 g' base' count' (K + registers ops) (es ++ es') /\ log = at_step s0 <$> es'.
Proof.
  intros Hs0. induction ops as [|op ops IH]; intros Hns g base count K es g' log I E Hd.
  - cbn in E. injection E as <- <-. exists base, count, []. cbn [registers]. by rewrite app_nil_r, N.add_0_r.
  - assert (Hns' : no_seed ops). { intros seed H. apply (Hns seed). by right. } specialize (IH Hns').
    cbn [gen_run] in E. destruct (gen_do op g) as [[g1 drawn]|] eqn:E1; [|done]. cbn [mbind option_bind] in E. destruct (gen_run ops g1) as [[g2 log1]|] eqn:E2; [|done]. cbn [mbind option_bind] in E. apply (inj Some) in E.
    assert (E' : g' = g2 /\ log = match drawn with Some s => s :: log1 | None => log1 end) by (split; congruence). clear E. destruct E' as [-> ->].
    assert (IH' := fun b c k e I' Hd' => IH _ b c k e _ _ I' E2 Hd'). clear IH.
    destruct I as [I1 I2 I3 I4 I5 I6 I7 I8]. destruct op as [|t|t|seed]; cbn [gen_do] in E1.
    + apply (inj Some) in E1. assert (E' : Generators (jump (global g)) (threads g ++ [Some (jump (global g))]) = g1 /\ drawn = None) by (split; congruence). clear E1. destruct E' as [<- ->].
      destruct (IH' (fun t => if decide (t = length (threads g)) then K + 1 else base t) (fun t => if decide (t = length (threads g)) then 0 else count t) (K + 1) es) as (base' & count' & es' & H1 & H2).
      * assert (Ej : jump (global g) = at_step s0 ((K + 1) * stride)). { rewrite I1, jump_at by done. f_equal. lia. }
        constructor; cbn [global threads].
        -- exact Ej.
        -- intros t s Ht. destruct (decide (t = length (threads g))) as [-> | Hn].
           ++ rewrite lookup_app_r, Nat.sub_diag in Ht by lia. apply list_lookup_singleton_Some in Ht as [_ Ht]. apply (inj Some) in Ht. split; [lia|]. rewrite <- Ht, Ej. f_equal. lia.
           ++ assert (t < length (threads g ++ [Some (jump (global g))]))%nat as Hl by (by eapply lookup_lt_Some). rewrite app_length in Hl. cbn [length] in Hl. rewrite lookup_app_l in Ht by lia. by apply I2.
        -- intros t t'. destruct (decide (t = length (threads g))), (decide (t' = length (threads g))); [congruence| | |apply I3]; intros Hb Eb; [pose proof (I5 t'); lia|pose proof (I5 t); lia].
        -- intros t Ht. rewrite app_length in Ht. cbn [length] in Ht. destruct (decide (t = length (threads g))); [lia|]. apply I4. lia.
        -- intros t. destruct (decide (t = length (threads g))); [lia|]. pose proof (I5 t). lia.
        -- done.
        -- intros t. destruct (decide (t = length (threads g))); [done|apply I7].
        -- intros e He. destruct (I8 e He) as (t & c & Hb & Hc & ->). exists t, c. destruct (decide (t = length (threads g))) as [-> | Hn]; [|split; [exact Hb|split; [exact Hc|reflexivity]]]. exfalso. apply Hb, I4. lia.
      * intros t. specialize (Hd t). cbn [draws] in Hd. destruct (decide _); [|done]. pose proof (N.le_0_l (count t)). lia.
      * exists base', count', es'. split; [|done]. cbn [registers]. by rewrite N.add_assoc.
    + destruct (threads g !! t) as [[s|]|] eqn:Et; [|done|done]. apply (inj Some) in E1. assert (E' : Generators (global g) (<[t:=None]> (threads g)) = g1 /\ drawn = None) by (split; congruence). clear E1. destruct E' as [<- ->].
      destruct (IH' base count K es) as (base' & count' & es' & H1 & H2); [| |by exists base', count', es'].
      * constructor; cbn [global threads]; [done| |done| |done..].
        -- intros t' s' Ht'. destruct (decide (t' = t)) as [-> | Hn].
           ++ rewrite list_lookup_insert in Ht' by by eapply lookup_lt_Some. done.
           ++ rewrite list_lookup_insert_ne in Ht' by done. by apply I2.
        -- intros t'. rewrite insert_length. apply I4.
      * intros t'. apply (Hd t').
    + destruct (threads g !! t) as [[s|]|] eqn:Et; [|done|done]. apply (inj Some) in E1. assert (E' : Generators (global g) (<[t:=Some (step s)]> (threads g)) = g1 /\ drawn = Some s) by (split; congruence). clear E1. destruct E' as [<- ->].
      destruct (I2 t s Et) as [Hbt Es]. assert (Hdt : count t + 1 < stride). { specialize (Hd t). cbn [draws] in Hd. rewrite decide_True in Hd by done. lia. }
      destruct (IH' base (fun t' => if decide (t' = t) then count t + 1 else count t') K (es ++ [base t * stride + count t])) as (base' & count' & es' & H1 & H2).
      * constructor; cbn [global threads]; [done| |done| |done| | |].
        -- intros t' s' Ht'. destruct (decide (t' = t)) as [-> | Hn].
           ++ rewrite list_lookup_insert in Ht' by by eapply lookup_lt_Some. apply (inj Some), (inj Some) in Ht'. split; [done|]. rewrite <- Ht', Es, step_at. f_equal. lia.
           ++ rewrite list_lookup_insert_ne in Ht' by done. by apply I2.
        -- intros t'. rewrite insert_length. apply I4.
        -- apply NoDup_app. split; [done|]. split; [|apply NoDup_singleton]. intros e He Hin. apply elem_of_list_singleton in Hin. destruct (I8 e He) as (t' & c & Hb & Hc & E). rewrite Hin in E. pose proof (I7 t'). pose proof (I7 t).
           assert (base t = base t') as Eb. { rewrite <- (base_div (base t) (count t)), E by done. apply base_div. lia. } apply I3 in Eb; [|done]. subst t'. lia.
        -- intros t'. destruct (decide (t' = t)); [done|apply I7].
        -- intros e He. apply elem_of_app in He as [He | He].
           ++ destruct (I8 e He) as (t' & c & Hb & Hc & ->). exists t', c. destruct (decide (t' = t)) as [-> | Hn]; (split; [exact Hb|split; [lia|reflexivity]]).
           ++ apply elem_of_list_singleton in He. exists t, (count t). rewrite decide_True by reflexivity. split; [exact Hbt|]. split; [lia|exact He].
      * intros t'. specialize (Hd t'). cbn [draws] in Hd. destruct (decide (t' = t)) as [-> | Hn]; lia.
      * exists base', count', ((base t * stride + count t) :: es'). split.
        -- by rewrite <- app_assoc in H1.
        -- cbn [fmap list_fmap]. by rewrite H2, Es.
    + exfalso. apply (Hns seed). by left.
Qed.
Lemma inv_nodup s0 g base count K es : in_range s0 -> s0 <> zero_state -> inv s0 g base count K es -> K <= 2 ^ 32 -> NoDup (at_step s0 <$> es).
Proof.
  intros Hs Hz [I1 I2 I3 I4 I5 I6 I7 I8] HK. apply NoDup_fmap_2_strong; [|done]. intros e e' He He' E.
  assert (Hb : forall e, e ∈ es -> stride <= e /\ e - stride < period).
  { clear -I5 I7 I8 HK. intros e He. destruct (I8 e He) as (t & c & Hb & Hc & ->). pose proof (I5 t). pose proof (I7 t). assert (base t * stride <= 2 ^ 32 * stride) by (apply N.mul_le_mono_r; lia).
    assert (1 * stride <= base t * stride) by (apply N.mul_le_mono_r; lia). change (2 ^ 32 * stride) with (2 ^ 128) in *. unfold period. change (2 ^ 128 - 1) with (2 ^ 128 - 1). split; [lia|]. assert (stride <= 2 ^ 128) by (vm_compute; discriminate). lia. }
  destruct (Hb e He) as [H1 H2], (Hb e' He') as [H3 H4]. unfold at_step in E.
  replace e with ((e - stride) + stride) in E by lia. replace e' with ((e' - stride) + stride) in E by lia. rewrite !times_add in E.
  apply times_inj in E; [lia|by apply times_range|by apply times_nonzero|done|done].
Qed.

Lemma map_lookup {A B} (f : A -> B) l i : map f l !! i = option_map f (l !! i).
Proof. revert i. induction l as [|x l IH]; intros [|i]; cbn; auto. Qed.
(** ** Seeding the registered generators *)
Fixpoint bases (k : N) (ts : list (option xstate)) : list (option N) :=
  match ts with
  | [] => []
  | None :: ts => None :: bases k ts
  | Some _ :: ts => Some (k + 1) :: bases (k + 1) ts
  end.
Lemma reseed_eq s0 ts k : in_range s0 -> reseed (at_step s0 (k * stride)) ts = (at_step s0 ((k + live ts) * stride), map (option_map (fun b => at_step s0 (b * stride))) (bases k ts)).
Proof.
  intros H. revert k. induction ts as [|[s|] ts IH]; intros k; cbn [reseed live bases map option_map].
  - by rewrite N.add_0_r.
  - rewrite jump_at by done. replace (k * stride + stride) with ((k + 1) * stride) by lia. rewrite IH. by rewrite N.add_assoc.
  - by rewrite IH.
Qed.
Lemma bases_bounds ts k i b : bases k ts !! i = Some (Some b) -> k < b <= k + live ts.
Proof.
  revert k i. induction ts as [|[s|] ts IH]; intros k [|i] E; cbn in E; try done.
  - injection E as <-. cbn. lia.
  - apply IH in E. cbn. lia.
  - apply IH in E. cbn. lia.
Qed.
Lemma bases_inj ts k i j b : bases k ts !! i = Some (Some b) -> bases k ts !! j = Some (Some b) -> i = j.
Proof.
  revert k i j. induction ts as [|[s|] ts IH]; intros k [|i] [|j] E1 E2; cbn in E1, E2; try done.
  - injection E1 as <-. apply bases_bounds in E2. lia.
  - injection E2 as <-. apply bases_bounds in E1. lia.
  - f_equal. by eapply IH.
  - f_equal. by eapply IH.
Qed.
Lemma seed_inv seed ts : inv (seed_sequence seed) (Generators (reseed (seed_sequence seed) ts).1 (reseed (seed_sequence seed) ts).2)
  (fun t => match bases 0 ts !! t with Some (Some b) => b | _ => 0 end) (fun _ => 0) (live ts) [].
Proof.
  destruct (seed_ok seed) as [Hr Hz]. revert Hr Hz. generalize (seed_sequence seed). intros s0 Hr Hz.
  assert (E0 : s0 = at_step s0 (0 * stride)) by reflexivity. rewrite E0 at 2 3. rewrite reseed_eq by done. cbn [fst snd]. constructor; cbn [global threads].
  - by rewrite N.add_0_l.
  - intros t s Ht. unfold xstate in Ht. rewrite map_lookup in Ht. destruct (bases 0 ts !! t) as [[b|]|] eqn:E; [|done|done]. change (Some (Some (at_step s0 (b * stride))) = Some (Some s)) in Ht. apply (inj Some), (inj Some) in Ht. apply bases_bounds in E. split; [lia|]. by rewrite N.add_0_r.
  - intros t t'. destruct (bases 0 ts !! t) as [[b|]|] eqn:E; [|done|done]. destruct (bases 0 ts !! t') as [[b'|]|] eqn:E'; [|done|done]. intros _ ->. by eapply bases_inj.
  - intros t Ht. rewrite map_length in Ht. by rewrite lookup_ge_None_2.
  - intros t. destruct (bases 0 ts !! t) as [[b|]|] eqn:E; [|lia|lia]. apply bases_bounds in E. lia.
  - apply NoDup_nil_2.
  - done.
  - intros e He. by apply elem_of_nil in He.
Qed.

(** ** The bool distribution *)
Definition bool_state (outputs : nat -> N) (i : nat) : N * nat :=
  if decide ((i mod 63)%nat = O) then (1, (i / 63)%nat) else (N.shiftr (N.lor (outputs (i / 63)%nat) 0x8000000000000000) (N.of_nat (i mod 63)), S (i / 63)).
Lemma msb_bits w i : w < 2 ^ 64 -> N.testbit (N.lor w 0x8000000000000000) i = (if decide (i = 63) then true else N.testbit w i).
Proof.
  intros Hw. rewrite N.lor_spec. change 0x8000000000000000 with (2 ^ 63). case_decide as E; [subst; rewrite N.pow2_bits_true; apply orb_true_r|]. rewrite N.pow2_bits_false by done. apply orb_false_r.
Qed.
Lemma pool_one w r : w < 2 ^ 64 -> r < 64 -> N.shiftr (N.lor w 0x8000000000000000) r = 1 <-> r = 63.
Proof.
  intros Hw Hr. split.
  - intros E. destruct (N.eq_dec r 63) as [|Hn]; [done|]. exfalso. assert (H : N.testbit (N.shiftr (N.lor w 0x8000000000000000) r) (63 - r) = true). { rewrite N.shiftr_spec, msb_bits by (done || lia). by rewrite decide_True by lia. }
    rewrite E in H. destruct (63 - r) as [|p] eqn:Ep; [lia|]. destruct p; done.
  - intros ->. apply N.bits_inj. intros i. rewrite N.shiftr_spec, msb_bits by (done || lia). case_decide as E.
    + assert (i = 0) as -> by lia. done.
    + rewrite (proj1 (word_bits w) Hw) by lia. destruct i as [|[]]; [lia|done..].
Qed.
Lemma land_1_bit x : negb (N.land x 1 =? 0) = N.testbit x 0.
Proof. destruct x as [|[]]; done. Qed.
Lemma bool_draw_ok outputs i : (forall k, outputs k < 2 ^ 64) -> bool_draw outputs (bool_state outputs i) = (N.testbit (outputs (i / 63)%nat) (N.of_nat (i mod 63)), bool_state outputs (S i)).
Proof.
  intros Ho. pose proof (Nat.mod_upper_bound i 63 ltac:(done)) as Hm. pose proof (Nat.div_mod i 63 ltac:(done)) as Ei. set (q := (i / 63)%nat) in *. set (r := (i mod 63)%nat) in *.
  assert (Hs : bool_state outputs (S i) = (N.shiftr (N.lor (outputs q) 0x8000000000000000) (N.of_nat (S r)), S q)).
  { unfold bool_state. destruct (decide (r = 62%nat)) as [Hr | Hr].
    - assert (Eq : (S i / 63)%nat = S q) by (symmetry; apply (Nat.div_unique _ 63 _ 0); lia). assert (Er : (S i mod 63)%nat = 0%nat) by (symmetry; apply (Nat.mod_unique _ 63 (S q)); lia). rewrite Eq, Er, decide_True by done. f_equal.
      rewrite Hr. symmetry. by apply pool_one.
    - assert (Eq : (S i / 63)%nat = q) by (symmetry; apply (Nat.div_unique _ 63 _ (S r)); lia). assert (Er : (S i mod 63)%nat = S r) by (symmetry; apply (Nat.mod_unique _ 63 q); lia). rewrite Eq, Er, decide_False by done. done. }
  rewrite Hs. assert (Hb : forall w, w < 2 ^ 64 -> N.testbit (N.shiftr (N.lor w 0x8000000000000000) (N.of_nat r)) 0 = N.testbit w (N.of_nat r)).
  { intros w Hw. rewrite N.shiftr_spec, N.add_0_l, msb_bits by (done || lia). rewrite decide_False by lia. done. }
  unfold bool_state, bool_draw. fold q r. case_decide as Hr.
  - rewrite N.eqb_refl. cbv beta iota zeta. rewrite land_1_bit. rewrite <- (Hb (outputs q) (Ho q)). rewrite Hr. rewrite N.shiftr_0_r. done.
  - destruct (N.eqb_spec (N.shiftr (N.lor (outputs q) 0x8000000000000000) (N.of_nat r)) 1) as [E | E]; [exfalso; apply pool_one in E; [lia|done|lia]|]. cbv beta iota zeta. rewrite land_1_bit, Hb by done.
    rewrite N.shiftr_shiftr. do 3 f_equal. lia.
Qed.
Lemma bool_draws_ok outputs n : (forall k, outputs k < 2 ^ 64) -> forall i, bool_draws n outputs (bool_state outputs i) = ((fun j => N.testbit (outputs (j / 63)%nat) (N.of_nat (j mod 63))) <$> seq i n, bool_state outputs (i + n)).
Proof.
  intros Ho. induction n as [|n IH]; intros i; cbn [bool_draws seq fmap list_fmap]; [by rewrite Nat.add_0_r|]. rewrite bool_draw_ok by done. rewrite IH. do 2 f_equal. lia.
Qed.
