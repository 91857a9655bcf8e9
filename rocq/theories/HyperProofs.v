(** Lemmas about the hypervolume. *)
From Coq Require Import ZArith Lia.
From stdpp Require Import list list_numbers gmap sets.
From Verif Require Import AlgorithmModel HyperModel HyperSpec.
Local Open Scope Z_scope.

(** ** Cells *)
Definition prod (l : list Z) : Z := foldr Z.mul 1 l.
Definition span (p ref : list Z) : list Z := zip_with Z.sub p ref.
Fixpoint box (ref p : list Z) : list (list Z) :=
  match ref, p with
  | [], [] => [[]]
  | r :: ref, x :: p => c ← seqZ r (x - r); (cons c) <$> box ref p
  | _, _ => []
  end.
Lemma elem_of_box ref : forall p c, c ∈ box ref p <-> in_box ref p c.
Proof.
  unfold in_box. induction ref as [|r ref IH]; intros [|x p] c; cbn [box].
  - rewrite elem_of_list_singleton. split; [intros ->; split; constructor|]. intros [H _]. by inversion H.
  - rewrite elem_of_nil. split; [done|]. intros [H1 H2]. inversion H1; subst. inversion H2.
  - rewrite elem_of_nil. split; [done|]. intros [H1 H2]. inversion H2; subst. inversion H1.
  - rewrite elem_of_list_bind. split.
    + intros (z & H & Hz). apply elem_of_list_fmap in H as (c' & -> & Hc). apply IH in Hc as [H1 H2]. apply elem_of_seqZ in Hz. split; constructor; (done || lia).
    + intros [H1 H2]. inversion H1 as [|? z ? c' Hrz H1']; subst. inversion H2 as [|? ? ? ? Hzx H2']; subst.
      exists z. split; [|apply elem_of_seqZ; lia]. apply elem_of_list_fmap. exists c'. split; [done|]. by apply IH.
Qed.
Lemma NoDup_box ref : forall p, NoDup (box ref p).
Proof.
  induction ref as [|r ref IH]; intros [|x p]; cbn [box]; try constructor.
  - set_solver.
  - constructor.
  - generalize (NoDup_seqZ r (x - r)). generalize (seqZ r (x - r)). intros l Hl. induction Hl as [|z l Hz Hl IHl]; [constructor|].
    cbn. apply NoDup_app. split; [|split; [|exact IHl]].
    + apply NoDup_fmap_2; [|apply IH]. intros a b E. by injection E.
    + intros c Hc Hc'. apply elem_of_list_fmap in Hc as (c1 & -> & _). apply elem_of_list_bind in Hc' as (z' & H & Hz'). apply elem_of_list_fmap in H as (c2 & E & _). injection E as -> ->. done.
Qed.
Lemma length_box ref : forall p, Forall2 Z.le ref p -> Z.of_nat (length (box ref p)) = prod (span p ref).
Proof.
  induction ref as [|r ref IH]; intros p H; inversion H as [|? x ? p' Hx H']; subst; [done|]. cbn [box]. unfold span, prod. cbn [zip_with foldr]. fold (span p' ref). fold (prod (span p' ref)).
  rewrite <- (IH p' H'). assert (E : forall l : list Z, length (c ← l; cons c <$> box ref p') = (length l * length (box ref p'))%nat).
  { induction l as [|z l IHl]; [done|]. cbn. rewrite app_length, fmap_length. unfold mbind, list_bind in IHl |- *. rewrite IHl. done. }
  rewrite E, seqZ_length. nia.
Qed.
Definition reg (ref : list Z) (pts : list (list Z)) : gset (list Z) := list_to_set (pts ≫= box ref).
Lemma elem_of_reg ref pts c : c ∈ reg ref pts <-> in_region ref pts c.
Proof.
  unfold reg, in_region. rewrite elem_of_list_to_set, elem_of_list_bind. split; intros (p & H1 & H2).
  - exists p. by rewrite <- elem_of_box.
  - exists p. by rewrite elem_of_box.
Qed.
Definition vol (ref : list Z) (pts : list (list Z)) : Z := Z.of_nat (size (reg ref pts)).
Lemma vol_measure ref pts : measure (in_region ref pts) (vol ref pts).
Proof. exists (elements (reg ref pts)). split; [apply NoDup_elements|]. split; [|done]. intros c. by rewrite elem_of_elements, elem_of_reg. Qed.
Lemma measure_unique P v w : measure P v -> measure P w -> v = w.
Proof.
  intros (l & Hl & El & ->) (k & Hk & Ek & ->). f_equal. apply Permutation_length. apply NoDup_Permutation; [done..|]. intros c. by rewrite El, Ek.
Qed.
Definition boxset (ref p : list Z) : gset (list Z) := list_to_set (box ref p).
Lemma elem_of_boxset ref p c : c ∈ boxset ref p <-> in_box ref p c.
Proof. unfold boxset. by rewrite elem_of_list_to_set, elem_of_box. Qed.
Lemma size_boxset ref p : Forall2 Z.le ref p -> Z.of_nat (size (boxset ref p)) = prod (span p ref).
Proof. intros H. unfold boxset. rewrite size_list_to_set by apply NoDup_box. by apply length_box. Qed.
Lemma reg_nil ref : reg ref [] = ∅. Proof. done. Qed.
Lemma reg_cons ref p pts : reg ref (p :: pts) = boxset ref p ∪ reg ref pts.
Proof. unfold reg, boxset. cbn. by rewrite list_to_set_app_L. Qed.
Definition limit (p r : list Z) : list Z := zip_with Z.min r p.
Lemma in_box_limit ref p : forall r c, length r = length p -> in_box ref (limit p r) c <-> in_box ref r c /\ in_box ref p c.
Proof.
  unfold in_box. intros r c Hl. assert (E : Forall2 Z.lt c (limit p r) <-> Forall2 Z.lt c r /\ Forall2 Z.lt c p); [|tauto].
  revert r c Hl. induction p as [|y p IH]; intros [|x r] c Hl; cbn in Hl; [tauto|lia|lia|]. unfold limit. cbn [zip_with].
  destruct c as [|z c]; [split; [intros H|intros [H _]]; inversion H|]. rewrite !Forall2_cons, (IH r c) by lia. intuition lia.
Qed.
Lemma reg_limit ref p pts : Forall (fun r => length r = length p) pts -> reg ref (limit p <$> pts) = reg ref pts ∩ boxset ref p.
Proof.
  intros Hl. apply set_eq. intros c. rewrite elem_of_intersection, !elem_of_reg, elem_of_boxset. unfold in_region. rewrite Forall_forall in Hl. split.
  - intros (q & Hq & Hb). apply elem_of_list_fmap in Hq as (r & -> & Hr). apply in_box_limit in Hb as [H1 H2]; [|by apply Hl]. split; [by exists r|done].
  - intros [(r & Hr & H1) H2]. exists (limit p r). split; [by apply elem_of_list_fmap_1|]. apply in_box_limit; [by apply Hl|done].
Qed.
(** The exclusive volume. *)
Definition excl (ref p : list Z) (rest : list (list Z)) : Z := prod (span p ref) - vol ref (limit p <$> rest).
Lemma vol_cons ref p rest : Forall2 Z.le ref p -> Forall (fun r => length r = length p) rest -> vol ref (p :: rest) = excl ref p rest + vol ref rest.
Proof.
  intros Hp Hl. unfold excl, vol. rewrite reg_limit, <- size_boxset, reg_cons by done. generalize (boxset ref p) (reg ref rest). intros B R.
  assert (E1 : size B = (size (B ∖ R) + size (R ∩ B))%nat).
  { rewrite <- size_union by (intros c; rewrite elem_of_difference, ?elem_of_intersection; tauto). f_equal. apply set_eq. intros c. rewrite elem_of_union, elem_of_difference, elem_of_intersection. destruct (decide (c ∈ R)); tauto. }
  assert (E2 : size (B ∪ R) = (size (B ∖ R) + size R)%nat).
  { rewrite <- size_union by (intros c; rewrite elem_of_difference, ?elem_of_intersection; tauto). f_equal. apply set_eq. intros c. rewrite !elem_of_union, elem_of_difference. destruct (decide (c ∈ R)); tauto. }
  lia.
Qed.
Lemma excl_nonneg ref p rest : Forall2 Z.le ref p -> Forall (fun r => length r = length p) rest -> 0 <= excl ref p rest.
Proof.
  intros Hp Hl. unfold excl, vol. rewrite reg_limit, <- size_boxset by done. assert (size (reg ref rest ∩ boxset ref p) <= size (boxset ref p))%nat by (apply subseteq_size; set_solver). lia.
Qed.
Fixpoint excls (ref : list Z) (front : list (list Z)) : list Z :=
  match front with [] => [] | p :: rest => excl ref p rest :: excls ref rest end.
Definition sum (l : list Z) : Z := foldr Z.add 0 l.
Lemma sum_perm l k : l ≡ₚ k -> sum l = sum k.
Proof. induction 1; cbn; unfold sum in *; lia. Qed.
Lemma sum_excls ref d front : length ref = d -> Forall (fun p => Forall2 Z.le ref p) front -> sum (excls ref front) = vol ref front.
Proof.
  intros Hd. induction front as [|p rest IH]; intros H; [done|]. apply Forall_cons in H as [Hp H]. cbn [excls sum foldr]. fold (sum (excls ref rest)). rewrite IH, vol_cons; [done|done| |done].
  eapply Forall_impl; [exact H|]. intros r Hr. apply Forall2_length in Hr, Hp. lia.
Qed.
Lemma excls_nonneg ref front : Forall (fun p => Forall2 Z.le ref p) front -> Forall (Z.le 0) (excls ref front).
Proof.
  induction front as [|p rest IH]; intros H; [constructor|]. apply Forall_cons in H as [Hp H]. constructor; [|by apply IH]. apply excl_nonneg; [done|].
  eapply Forall_impl; [exact H|]. intros r Hr. apply Forall2_length in Hr, Hp. lia.
Qed.
Lemma vol_mono ref pts pts' : (forall p, p ∈ pts -> exists q, q ∈ pts' /\ Forall2 Z.le p q) -> vol ref pts <= vol ref pts'.
Proof.
  intros H. unfold vol. apply inj_le. apply subseteq_size. intros c. rewrite !elem_of_reg. intros (p & Hp & H1 & H2). destruct (H p Hp) as (q & Hq & Hle).
  exists q. split; [done|]. split; [done|]. clear -H2 Hle. revert q Hle. induction H2; intros q Hle; inversion Hle; subst; constructor; [lia|auto].
Qed.
Lemma Forall2_Zle_refl (l : list Z) : Forall2 Z.le l l. Proof. induction l; constructor; (lia || done). Qed.
Lemma vol_equiv ref pts front : (forall p, p ∈ front -> p ∈ pts) -> (forall p, p ∈ pts -> exists q, q ∈ front /\ Forall2 Z.le p q) -> vol ref front = vol ref pts.
Proof. intros H1 H2. apply Z.le_antisymm; apply vol_mono; [|done]. intros p Hp. exists p. split; [auto|apply Forall2_Zle_refl]. Qed.

(** The bound on all numbers in the computation. *)
Definition prod1 (l : list Z) : Z := foldr (fun x a => Z.max 1 (Z.abs x) * a) 1 l.
Lemma prod1_pos l : 1 <= prod1 l. Proof. induction l as [|x l IH]; cbn [prod1 foldr]; [lia|]. fold (prod1 l). nia. Qed.
Lemma prod_abs l : Z.abs (prod l) <= prod1 l.
Proof. induction l as [|x l IH]; cbn [prod prod1 foldr]; [lia|]. fold (prod l) (prod1 l). rewrite Z.abs_mul. pose proof (prod1_pos l). nia. Qed.
Lemma prod1_elem l x : x ∈ l -> Z.abs x <= prod1 l.
Proof. induction l as [|y l IH]; [set_solver|]. intros H. cbn [prod1 foldr]. fold (prod1 l). pose proof (prod1_pos l). apply elem_of_cons in H as [->|H]; [nia|]. specialize (IH H). nia. Qed.
Lemma prod1_le l : forall k, Forall2 (fun x y => Z.abs x <= Z.abs y) l k -> prod1 l <= prod1 k.
Proof.
  induction l as [|x l IH]; intros k H; inversion H as [|? y ? k' Hxy H']; subst; [done|]. cbn [prod1 foldr]. fold (prod1 l) (prod1 k'). specialize (IH k' H'). pose proof (prod1_pos l). nia.
Qed.
Lemma vol_le_box ref top pts : Forall2 Z.le ref top -> (forall p, p ∈ pts -> Forall2 Z.le p top) -> vol ref pts <= prod1 (span top ref).
Proof.
  intros H1 H2. apply Z.le_trans with (vol ref [top]).
  - apply vol_mono. intros p Hp. exists top. split; [set_solver|auto].
  - unfold vol. rewrite reg_cons, reg_nil, union_empty_r_L, size_boxset by done. pose proof (prod_abs (span top ref)). lia.
Qed.

(** ** The computation, over any numbers that represent integers *)
Record num_ok {N} (o : num N) (small : Z -> Prop) (ok : N -> Z -> Prop) : Prop := {
  small_mono : forall a b, Z.abs a <= Z.abs b -> small b -> small a;
  ok_zero : ok (n_zero o) 0;
  ok_add : forall x y a b, ok x a -> ok y b -> small (a + b) -> ok (n_add o x y) (a + b);
  ok_sub : forall x y a b, ok x a -> ok y b -> small (a - b) -> ok (n_sub o x y) (a - b);
  ok_abs : forall x a, ok x a -> ok (n_abs o x) (Z.abs a);
  ok_lt : forall x y a b, ok x a -> ok y b -> n_lt o x y = (a <? b);
  ok_ne : forall x y a b, ok x a -> ok y b -> n_ne o x y = negb (a =? b);
  ok_product : forall l k, Forall2 ok l k -> small (prod1 k) -> ok (n_product o l) (prod k);
  ok_front : forall d m zm, Forall2 (Forall2 ok) m zm -> Forall (fun r => length r = d) zm ->
    exists f, n_front o m = Some f /\ NoDup f /\ (forall i, i ∈ f -> (i < length m)%nat) /\
      forall i z, zm !! i = Some z -> exists j z', j ∈ f /\ zm !! j = Some z' /\ Forall2 Z.le z z';
  ok_inf : forall x a, ok x a -> n_lt o x (n_inf o) = true;
}.

Section computation.
Context {N : Type} (o : num N) (small : Z -> Prop) (ok : N -> Z -> Prop).
Hypothesis Hok : num_ok o small ok.
Notation oks := (Forall2 ok).
Notation okm := (Forall2 oks).
Lemma oks_lookup m zm (i : nat) (r : list N) : okm m zm -> m !! i = Some r -> exists z, zm !! i = Some z /\ oks r z.
Proof. intros H Hr. destruct (Forall2_lookup_l _ _ _ _ _ H Hr) as (z & Hz & Hz'). eauto. Qed.
Lemma differ_ok u v a b : oks u a -> oks v b -> length u = length v -> differ o u v = negb (bool_decide (a = b)).
Proof.
  intros H. revert v b. induction H as [|x a0 u a Hx H IH]; intros v b Hv Hl; inversion Hv as [|y b0 v' b' Hy Hv']; subst; cbn in Hl; [by rewrite bool_decide_eq_true_2|lia|lia|].
  cbn [differ]. rewrite (ok_ne _ _ _ Hok x y a0 b0 Hx Hy), (IH v' b' Hv') by lia. destruct (Z.eqb_spec a0 b0) as [->|Hne]; cbn.
  - f_equal. apply bool_decide_ext. split; [by intros ->|by injection 1].
  - rewrite bool_decide_eq_false_2 by congruence. done.
Qed.
Lemma span_ok u v a b : oks u a -> oks v b -> Forall (fun x => small x) (span a b) -> oks (zip_with (n_sub o) u v) (span a b).
Proof.
  intros H. revert v b. unfold span. induction H as [|x a0 u a Hx H IH]; intros v b Hv Hs; inversion Hv as [|y b0 v' b' Hy Hv']; subst; cbn in *; try constructor.
  - apply Forall_cons in Hs as [Hs1 Hs2]. by apply (ok_sub _ _ _ Hok).
  - apply Forall_cons in Hs as [Hs1 Hs2]. by apply IH.
Qed.
Lemma volumeBetween_ok u v a b : oks u a -> oks v b -> length a = length b -> small (prod1 (span a b)) ->
  exists x, volumeBetween o u v = Some x /\ ok x (Z.abs (prod (span a b))).
Proof.
  intros Hu Hv Hl Hs. unfold volumeBetween. pose proof (Forall2_length _ _ _ Hu) as E1. pose proof (Forall2_length _ _ _ Hv) as E2. rewrite decide_True by congruence.
  eexists. split; [done|]. apply (ok_abs _ _ _ Hok). apply (ok_product _ _ _ Hok); [|done]. apply span_ok; [done..|].
  apply Forall_forall. intros x Hx. eapply (small_mono _ _ _ Hok); [|exact Hs]. pose proof (prod1_elem _ _ Hx). pose proof (prod1_pos (span a b)). lia.
Qed.
Lemma std_min_ok x y a b : ok x a -> ok y b -> ok (std_min (n_lt o) x y) (Z.min a b).
Proof. intros Hx Hy. unfold std_min. rewrite (ok_lt _ _ _ Hok y x b a Hy Hx). destruct (Z.ltb_spec b a); [rewrite Z.min_r by lia|rewrite Z.min_l by lia]; done. Qed.
Lemma std_max_ok x y a b : ok x a -> ok y b -> ok (std_max (n_lt o) x y) (Z.max a b).
Proof. intros Hx Hy. unfold std_max. rewrite (ok_lt _ _ _ Hok x y a b Hx Hy). destruct (Z.ltb_spec a b); [rewrite Z.max_r by lia|rewrite Z.max_l by lia]; done. Qed.
Lemma elementwise_ok f g u v a b : (forall x y c d, ok x c -> ok y d -> ok (f x y) (g c d)) -> oks u a -> oks v b -> length a = length b ->
  exists w, elementwise f u v = Some w /\ oks w (zip_with g a b).
Proof.
  intros Hf H. revert v b. induction H as [|x a0 u a Hx H IH]; intros v b Hv Hl; inversion Hv as [|y b0 v' b' Hy Hv']; subst; cbn in Hl; try lia.
  - exists []. split; [done|constructor].
  - destruct (IH v' b' Hv' ltac:(lia)) as (w & Ew & Hw). cbn [elementwise]. rewrite Ew. cbn. eexists. split; [done|]. constructor; [by apply Hf|done].
Qed.
Lemma limitSet_ok p zp : oks p zp -> forall m zm, okm m zm -> Forall (fun r => length r = length zp) zm ->
  exists w, limitSet o m p = Some w /\ okm w (limit zp <$> zm).
Proof.
  intros Hp m zm H. induction H as [|r z m zm Hr H IH]; intros Hl.
  - exists []. split; [done|constructor].
  - apply Forall_cons in Hl as [Hl1 Hl2]. destruct (IH Hl2) as (w & Ew & Hw). destruct (elementwise_ok _ Z.min r p z zp std_min_ok Hr Hp Hl1) as (v & Ev & Hv).
    cbn [limitSet]. rewrite Ev. cbn [mbind option_bind]. rewrite Ew. cbn [mbind option_bind]. eexists. split; [done|]. constructor; done.
Qed.
Lemma greater_equal_ok u v a b : oks u a -> oks v b -> Forall2 Z.le b a -> greater_equal o u v = true.
Proof.
  intros H. revert v b. induction H as [|x a0 u a Hx H IH]; intros v b Hv Hl; inversion Hv as [|y b0 v' b' Hy Hv']; subst; inversion Hl as [|? ? ? ? Hl1 Hl2]; subst; [done|].
  cbn [greater_equal]. rewrite (ok_lt _ _ _ Hok y x b0 a0 Hy Hx), (ok_ne _ _ _ Hok y x b0 a0 Hy Hx), (IH v' b' Hv' Hl2). destruct (Z.ltb_spec b0 a0), (Z.eqb_spec b0 a0); (done || lia).
Qed.

Section fixed_ref.
Variables (ref : list N) (zref top : list Z).
Hypothesis Href : oks ref zref.
Hypothesis Hsmall : small (prod1 (span top zref)).
Hypothesis Htop : Forall2 Z.le zref top.
Definition between (p : list Z) : Prop := Forall2 Z.le zref p /\ Forall2 Z.le p top.
Lemma between_length p : between p -> length p = length zref.
Proof. intros [H _]. apply Forall2_length in H. done. Qed.
Lemma between_small p : between p -> small (prod1 (span p zref)).
Proof.
  intros [H1 H2]. eapply (small_mono _ _ _ Hok); [|exact Hsmall]. pose proof (prod1_pos (span p zref)). pose proof (prod1_pos (span top zref)).
  assert (prod1 (span p zref) <= prod1 (span top zref)); [|lia]. apply prod1_le. clear -H1 H2. revert p top H1 H2. unfold span. induction zref as [|r ref IH]; intros p top H1 H2.
  - inversion H1; subst. inversion H2; subst. constructor.
  - inversion H1 as [|? x ? p' Hx H1']; subst. inversion H2 as [|? y ? top' Hy H2']; subst. cbn. constructor; [lia|]. by apply IH.
Qed.
Lemma small_upto v : 0 <= v <= prod1 (span top zref) -> small v.
Proof. intros H. eapply (small_mono _ _ _ Hok); [|exact Hsmall]. lia. Qed.
Lemma vol_small pts : Forall between pts -> 0 <= vol zref pts <= prod1 (span top zref).
Proof. intros H. split; [unfold vol; lia|]. apply vol_le_box; [done|]. rewrite Forall_forall in H. intros p Hp. by apply H. Qed.
Lemma prod_span_nonneg p : Forall2 Z.le zref p -> 0 <= prod (span p zref).
Proof. intros H. rewrite <- size_boxset by done. lia. Qed.
Lemma inclusive_ok p zp : oks p zp -> between zp -> exists x, inclusiveHypervolume o p ref = Some x /\ ok x (prod (span zp zref)).
Proof.
  intros Hp Hb. unfold inclusiveHypervolume. pose proof (Forall2_length _ _ _ Hp) as E1. pose proof (Forall2_length _ _ _ Href) as E2. pose proof (between_length _ Hb) as E3.
  rewrite decide_True by congruence. rewrite (greater_equal_ok p ref zp zref Hp Href (proj1 Hb)).
  destruct (volumeBetween_ok p ref zp zref Hp Href E3 (between_small _ Hb)) as (x & E & Hx). exists x. split; [done|]. rewrite Z.abs_eq in Hx; [done|]. apply prod_span_nonneg, Hb.
Qed.
Lemma limit_between p q : between p -> between q -> between (limit p q).
Proof.
  unfold between. intros [H1 H2] [H3 H4]. clear -H1 H2 H3 H4. revert top p q H1 H2 H3 H4. unfold limit. induction zref as [|r ref IH]; intros top p q H1 H2 H3 H4.
  - inversion H1; subst. inversion H3; subst. inversion H2; subst. split; constructor.
  - inversion H1 as [|? x ? p' Hx H1']; subst. inversion H2 as [|? y ? top' Hy H2']; subst. inversion H3 as [|? z ? q' Hz H3']; subst. inversion H4; subst. cbn.
    destruct (IH top' p' q') as [A B]; [done..|]. split; constructor; (lia || done).
Qed.
Lemma exclusive_ok hv p zp rest zrest : oks p zp -> between zp -> okm rest zrest -> Forall between zrest ->
  (forall m zm, okm m zm -> Forall between zm -> length m = length rest -> exists x, hv m = Some x /\ ok x (vol zref zm)) ->
  exists x, exclusiveHypervolume o hv p rest ref = Some x /\ ok x (excl zref zp zrest).
Proof.
  intros Hp Hb Hr Hbr Hhv. unfold exclusiveHypervolume. destruct (inclusive_ok p zp Hp Hb) as (x & -> & Hx). cbn [mbind option_bind].
  assert (Hlen : Forall (fun r => length r = length zp) zrest). { eapply Forall_impl; [exact Hbr|]. intros r Hr'. transitivity (length zref); [by apply between_length|symmetry; by apply between_length]. }
  destruct (limitSet_ok p zp Hp rest zrest Hr Hlen) as (w & -> & Hw). cbn [mbind option_bind].
  assert (Hbw : Forall between (limit zp <$> zrest)). { apply Forall_fmap. eapply Forall_impl; [exact Hbr|]. intros r Hr'. by apply limit_between. }
  destruct (Hhv w _ Hw Hbw) as (y & -> & Hy). { apply Forall2_length in Hw, Hr. rewrite fmap_length in Hw. lia. }
  cbn [mbind option_bind]. eexists. split; [done|]. apply (ok_sub _ _ _ Hok); [done..|]. change (small (excl zref zp zrest)). apply small_upto.
  pose proof (excl_nonneg zref zp zrest (proj1 Hb) Hlen). split; [done|]. unfold excl. pose proof (vol_small [zp] (proj2 (Forall_singleton _ _) Hb)) as Hv. 
  unfold vol in Hv at 2. rewrite reg_cons, reg_nil, union_empty_r_L, size_boxset in Hv by apply Hb. unfold vol. lia.
Qed.
(** The sum of non-negative numbers. *)
Lemma fold_add_ok es zs : oks es zs -> Forall (Z.le 0) zs -> forall a za, ok a za -> 0 <= za -> za + sum zs <= prod1 (span top zref) ->
  ok (fold_left (n_add o) es a) (za + sum zs).
Proof.
  intros H. induction H as [|e z es zs He H IH]; intros Hz a za Ha Hza Hs; cbn [fold_left sum foldr] in *.
  - by rewrite Z.add_0_r.
  - apply Forall_cons in Hz as [Hz1 Hz2]. fold (sum zs) in Hs |- *. assert (0 <= sum zs) by (clear -Hz2; induction Hz2; cbn; [lia|fold (sum l) in *; lia]).
    rewrite Z.add_assoc. apply IH; [done| |lia|lia]. apply (ok_add _ _ _ Hok); [done..|]. apply small_upto. lia.
Qed.
Lemma unique_loop_ok d m zm idx : okm m zm -> Forall (fun r => length r = d) zm -> forall f zf, okm f zf -> (forall z, z ∈ zf -> z ∈ zm) ->
  (forall i, i ∈ idx -> (i < length m)%nat) ->
  exists f' zf', unique_loop o m idx f = Some f' /\ okm f' zf' /\ (length f' <= length f + length idx)%nat /\ (forall z, z ∈ zf' -> z ∈ zm) /\
    (forall z, z ∈ zf -> z ∈ zf') /\ forall i z, i ∈ idx -> zm !! i = Some z -> z ∈ zf'.
Proof.
  intros Hm Hd. induction idx as [|i idx IH]; intros f zf Hf Hsub Hi; cbn [unique_loop].
  - exists f, zf. split; [done|]. split; [done|]. split; [lia|]. split; [done|]. split; [done|]. set_solver.
  - destruct (lookup_lt_is_Some_2 m i) as [r Hr]; [apply Hi; set_solver|]. destruct (oks_lookup m zm i r Hm Hr) as (z & Hz & Hrz). rewrite Hr. cbn [mbind option_bind].
    set (new := match last f with None => true | Some b => differ o r b end).
    assert (Hnew : new = false -> z ∈ zf).
    { unfold new. rewrite last_lookup. destruct (f !! Nat.pred (length f)) as [b|] eqn:E; [|done]. destruct (oks_lookup f zf _ b Hf E) as (zb & Hzb & Hb).
      assert (Hlz : length z = d /\ length zb = d). { rewrite Forall_forall in Hd. split; apply Hd; [by eapply elem_of_list_lookup_2|]. apply Hsub. by eapply elem_of_list_lookup_2. }
      rewrite (differ_ok r b z zb Hrz Hb) by (apply Forall2_length in Hrz, Hb; lia). intros H. apply negb_false_iff, bool_decide_eq_true in H as ->. by eapply elem_of_list_lookup_2. }
    destruct new.
    + destruct (IH (f ++ [r]) (zf ++ [z])) as (f' & zf' & E & H1 & H2 & H3 & H4 & H5).
      * apply Forall2_app; [done|]. by constructor.
      * intros y Hy. apply elem_of_app in Hy as [Hy|Hy]; [auto|]. apply elem_of_list_singleton in Hy as ->. by eapply elem_of_list_lookup_2.
      * set_solver.
      * exists f', zf'. split; [done|]. split; [done|]. rewrite app_length in H2. cbn in H2 |- *. split; [lia|]. split; [done|]. split; [set_solver|].
        intros j y Hj Hy. apply elem_of_cons in Hj as [->|Hj]; [|eauto]. rewrite Hz in Hy. injection Hy as <-. set_solver.
    + destruct (IH f zf) as (f' & zf' & E & H1 & H2 & H3 & H4 & H5); [done|done|set_solver|]. exists f', zf'. split; [done|]. split; [done|]. cbn. split; [lia|]. split; [done|]. split; [done|].
      intros j y Hj Hy. apply elem_of_cons in Hj as [->|Hj]; [|eauto]. rewrite Hz in Hy. injection Hy as <-. auto.
Qed.
Lemma unique_ok m zm : okm m zm -> Forall between zm ->
  exists f zf, uniqueSortedParetoFront o m = Some f /\ okm f zf /\ (length f <= length m)%nat /\ Forall between zf /\ vol zref zf = vol zref zm.
Proof.
  intros Hm Hb. assert (Hd : Forall (fun r => length r = length zref) zm). { eapply Forall_impl; [exact Hb|]. intros r. apply between_length. }
  destruct (ok_front _ _ _ Hok _ m zm Hm Hd) as (idx & E & Hnd & Hlt & Hmax). unfold uniqueSortedParetoFront. rewrite E. cbn [mbind option_bind].
  destruct (unique_loop_ok _ m zm idx Hm Hd [] [] ltac:(constructor) ltac:(set_solver) Hlt) as (f & zf & Ef & H1 & H2 & H3 & _ & H5). exists f, zf.
  split; [done|]. split; [done|]. split.
  { cbn in H2. assert (length idx <= length (seq 0 (length m)))%nat; [|rewrite seq_length in *; lia]. apply submseteq_length, NoDup_submseteq; [done|]. intros i Hi. apply elem_of_seq. specialize (Hlt i Hi). lia. }
  split. { rewrite Forall_forall in Hb. apply Forall_forall. auto. }
  apply vol_equiv; [done|]. intros p Hp. apply elem_of_list_lookup in Hp as [i Hi]. destruct (Hmax i p Hi) as (j & z' & Hj & Hz' & Hle). exists z'. split; [|done]. by eapply H5.
Qed.
Lemma seq_loop_ok hv front zfront : okm front zfront -> Forall between zfront ->
  (forall m zm, okm m zm -> Forall between zm -> (length m < length front)%nat -> exists x, hv m = Some x /\ ok x (vol zref zm)) ->
  forall a za, ok a za -> 0 <= za -> za + vol zref zfront <= prod1 (span top zref) ->
  exists x, seq_loop o hv front ref a = Some x /\ ok x (za + vol zref zfront).
Proof.
  intros H. induction H as [|p zp front zfront Hp H IH]; intros Hb Hhv a za Ha Hza Hs; cbn [seq_loop].
  - exists a. split; [done|]. unfold vol. rewrite reg_nil, size_empty. by rewrite Z.add_0_r.
  - apply Forall_cons in Hb as [Hbp Hb]. destruct (exclusive_ok hv p zp front zfront Hp Hbp H Hb) as (e & -> & He). { intros m zm Hm Hbm Hl. apply Hhv; [done..|]. cbn. lia. }
    cbn [mbind option_bind]. assert (Hlen : Forall (fun r => length r = length zp) zfront). { eapply Forall_impl; [exact Hb|]. intros r Hr'. transitivity (length zref); [by apply between_length|symmetry; by apply between_length]. }
    rewrite vol_cons in Hs |- * by (done || apply Hbp). pose proof (excl_nonneg zref zp zfront (proj1 Hbp) Hlen). pose proof (vol_small zfront Hb). rewrite Z.add_assoc. apply IH; [done| | |lia|lia].
    + intros m zm Hm Hbm Hl. apply Hhv; [done..|]. cbn. lia.
    + apply (ok_add _ _ _ Hok); [done..|]. apply small_upto. lia.
Qed.
Theorem seq_ok fuel : forall m zm, okm m zm -> Forall between zm -> (length m < fuel)%nat -> exists x, hypervolume_seq o fuel m ref = Some x /\ ok x (vol zref zm).
Proof.
  induction fuel as [|fuel IH]; intros m zm Hm Hb Hf; [lia|]. cbn [hypervolume_seq]. destruct (unique_ok m zm Hm Hb) as (f & zf & -> & H1 & H2 & H3 & H4). cbn [mbind option_bind].
  rewrite <- H4. replace (vol zref zf) with (0 + vol zref zf) by lia. apply seq_loop_ok; [done|done| |apply (ok_zero _ _ _ Hok)|lia|].
  - intros m' zm' Hm' Hb' Hl. apply IH; [done..|]. lia.
  - pose proof (vol_small zf H3). lia.
Qed.
Lemma exclusives_ok fuel front zfront : okm front zfront -> Forall between zfront -> (length front <= fuel)%nat ->
  exists es, exclusives o fuel front ref = Some es /\ oks es (excls zref zfront).
Proof.
  intros H. induction H as [|p zp front zfront Hp H IH]; intros Hb Hf; cbn [exclusives excls] in *.
  - exists []. split; [done|constructor].
  - apply Forall_cons in Hb as [Hbp Hb]. destruct (exclusive_ok (fun m => hypervolume_seq o fuel m ref) p zp front zfront Hp Hbp H Hb) as (e & -> & He). { intros m zm Hm Hbm Hl. apply seq_ok; [done..|]. cbn in Hf. lia. }
    cbn in Hf. destruct IH as (es & -> & Hes); [done|lia|]. cbn [mbind option_bind]. eexists. split; [done|]. by constructor.
Qed.
Lemma perm_oks es zs is : oks es zs -> is ≡ₚ seq 0 (length es) -> oks (omap (fun i => es !! i) is) (omap (fun i => zs !! i) is) /\ omap (fun i => zs !! i) is ≡ₚ zs.
Proof.
  intros H Hp. split.
  - clear Hp. induction is as [|i is IH]; [constructor|]. cbn. destruct (es !! i) as [e|] eqn:E.
    + destruct (Forall2_lookup_l _ _ _ _ _ H E) as (z & -> & Hz). by constructor.
    + apply lookup_ge_None in E. rewrite (lookup_ge_None_2 zs i); [done|]. apply Forall2_length in H. lia.
  - rewrite Hp. rewrite (Forall2_length _ _ _ H). clear. induction zs as [|z zs IH] using rev_ind; [done|]. rewrite app_length. cbn [length]. rewrite seq_app, omap_app. cbn [omap list_omap seq].
    replace (0 + length zs)%nat with (length zs) by lia. rewrite list_lookup_middle by done. apply Permutation_app_tail. rewrite <- IH at 2. 
    assert (E : forall l : list nat, Forall (fun i => (i < length zs)%nat) l -> omap (fun i => (zs ++ [z]) !! i) l = omap (fun i => zs !! i) l).
    { induction l as [|i l IHl]; intros Hl; [done|]. apply Forall_cons in Hl as [Hi Hl]. cbn. rewrite lookup_app_l by done. by rewrite IHl. }
    rewrite E; [done|]. apply Forall_forall. intros i Hi. apply elem_of_seq in Hi. lia.
Qed.
Theorem par_ok m zm : okm m zm -> Forall between zm -> forall schedule fuel, (length m <= fuel)%nat ->
  (forall f, uniqueSortedParetoFront o m = Some f -> schedule ≡ₚ seq 0 (length f)) ->
  exists x, hypervolume_par o fuel schedule m ref = Some x /\ ok x (vol zref zm).
Proof.
  intros Hm Hb schedule fuel Hf Hp. unfold hypervolume_par, hypervolume_terms. destruct (unique_ok m zm Hm Hb) as (f & zf & E & H1 & H2 & H3 & H4). specialize (Hp f E). rewrite E. cbn [mbind option_bind].
  destruct (exclusives_ok fuel f zf H1 H3 ltac:(lia)) as (es & -> & Hes). cbn [mbind option_bind].
  assert (Hl : length es = length f). { apply Forall2_length in H1, Hes. rewrite H1, Hes. clear. induction zf; cbn; congruence. }
  eexists. split; [done|]. destruct (perm_oks es _ schedule Hes) as [P1 P2]; [by rewrite Hl|].
  assert (Hs : sum (omap (fun i => excls zref zf !! i) schedule) = vol zref zf).
  { rewrite <- (sum_excls zref (length zref) zf eq_refl); [|eapply Forall_impl; [exact H3|]; by intros q [? _]]. by apply sum_perm. }
  rewrite <- H4, <- Hs. apply (fold_add_ok _ _ P1) with (za := 0) (a := n_zero o).
  - rewrite P2. apply excls_nonneg. eapply Forall_impl; [exact H3|]. by intros q [? _].
  - apply (ok_zero _ _ _ Hok).
  - lia.
  - rewrite Hs. pose proof (vol_small zf H3). lia.
Qed.
End fixed_ref.
End computation.
