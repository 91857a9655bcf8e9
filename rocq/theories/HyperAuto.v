(** Lemmas about AutoHypervolume. *)
From Coq Require Import ZArith Lia.
From stdpp Require Import list list_numbers gmap sets.
From Verif Require Import AlgorithmModel HyperModel HyperSpec HyperProofs.
Local Open Scope Z_scope.

(** ** Moving the reference point *)
Definition is_max (m : list (list Z)) (ideal : list Z) : Prop :=
  (forall p, p ∈ m -> Forall2 Z.le p ideal) /\ forall k x, ideal !! k = Some x -> exists p, p ∈ m /\ p !! k = Some x.
Definition is_min (m : list (list Z)) (worst : list Z) : Prop :=
  (forall p, p ∈ m -> Forall2 Z.le worst p) /\ forall k x, worst !! k = Some x -> exists p, p ∈ m /\ p !! k = Some x.
Lemma Zle_trans u v w : Forall2 Z.le u v -> Forall2 Z.le v w -> Forall2 Z.le u w.
Proof. intros H. revert w. induction H; intros w Hw; inversion Hw; subst; constructor; [lia|auto]. Qed.
Lemma Zlt_le_trans u v w : Forall2 Z.lt u v -> Forall2 Z.le v w -> Forall2 Z.lt u w.
Proof. intros H. revert w. induction H; intros w Hw; inversion Hw; subst; constructor; [lia|auto]. Qed.
Lemma size_diff (X Y : gset (list Z)) : Y ⊆ X -> Z.of_nat (size X) - Z.of_nat (size Y) = Z.of_nat (size (X ∖ Y)).
Proof.
  intros H. assert (E : size X = (size Y + size (X ∖ Y))%nat); [|lia]. rewrite <- size_union by set_solver. f_equal. apply set_eq. intros c. rewrite elem_of_union, elem_of_difference. specialize (H c). destruct (decide (c ∈ Y)); tauto.
Qed.
Section move.
Variables (w w' ideal : list Z) (P : list (list Z)).
Hypothesis Hw : Forall2 Z.le w' w.
Hypothesis Hmin : forall p, p ∈ P -> Forall2 Z.le w p.
Hypothesis Hmax : is_max P ideal.
Hypothesis Hne : P <> [].
Lemma w_ideal : Forall2 Z.le w ideal.
Proof. clear Hw. destruct P as [|p P']; [done|]. eapply Zle_trans; [apply (Hmin p); set_solver|]. apply Hmax. set_solver. Qed.
Lemma reg_sub : reg w P ⊆ reg w' P.
Proof. intros c. rewrite !elem_of_reg. intros (p & Hp & H1 & H2). exists p. split; [done|]. split; [by eapply Zle_trans|done]. Qed.
Lemma box_sub : boxset w ideal ⊆ boxset w' ideal.
Proof. intros c. rewrite !elem_of_boxset. intros [H1 H2]. split; [by eapply Zle_trans|done]. Qed.
Lemma diff_sub : reg w' P ∖ reg w P ⊆ boxset w' ideal ∖ boxset w ideal.
Proof.
  intros c. rewrite !elem_of_difference, !elem_of_reg, !elem_of_boxset. intros [(p & Hp & H1 & H2) Hn]. split.
  - split; [done|]. eapply Zlt_le_trans; [exact H2|]. by apply Hmax.
  - intros [H3 _]. apply Hn. exists p. done.
Qed.
Lemma move_le : vol w' P - vol w P <= prod (span ideal w') - prod (span ideal w).
Proof.
  pose proof w_ideal as Hi. unfold vol. rewrite <- !size_boxset by (done || by eapply Zle_trans). rewrite !size_diff by (apply reg_sub || apply box_sub). apply inj_le, subseteq_size, diff_sub.
Qed.
Lemma diff_sup : (length w <= 2)%nat -> boxset w' ideal ∖ boxset w ideal ⊆ reg w' P ∖ reg w P.
Proof.
  intros Hd c. rewrite !elem_of_difference, !elem_of_reg, !elem_of_boxset. intros [[H1 H2] Hn]. split.
  - assert (Hnw : ~ Forall2 Z.le w c) by (intros H; by apply Hn). destruct Hmax as [M1 M2].
    destruct w as [|a [|b [|]]]; [| | |cbn in Hd; lia].
    + exfalso. inversion Hw; subst. inversion H1; subst. apply Hnw. constructor.
    + inversion Hw as [|a' ? l ? Ha Hl]; subst. inversion Hl; subst. inversion H1 as [|? x ? l Hx Hl1]; subst. inversion Hl1; subst. inversion H2 as [|? i ? l Hi Hl2]; subst. inversion Hl2; subst.
      destruct (M2 0%nat i eq_refl) as (p & Hp & E). exists p. split; [done|]. split; [done|]. pose proof (Forall2_length _ _ _ (M1 p Hp)) as L. destruct p as [|q [|]]; cbn in L; try lia. injection E as ->. by constructor.
    + inversion Hw as [|a' ? l ? Ha Hl]; subst. inversion Hl as [|b' ? l' ? Hb Hl']; subst. inversion Hl'; subst. inversion H1 as [|? x ? l Hx Hl1]; subst. inversion Hl1 as [|? y ? l' Hy Hl1']; subst. inversion Hl1'; subst.
      inversion H2 as [|? i ? l Hi Hl2]; subst. inversion Hl2 as [|? j ? l' Hj Hl2']; subst. inversion Hl2'; subst.
      assert (Hc : x < a \/ y < b). { destruct (Z_lt_le_dec x a); [by left|]. destruct (Z_lt_le_dec y b); [by right|]. exfalso. apply Hnw. by repeat (constructor; [lia|]). }
      destruct Hc as [Hc|Hc].
      * destruct (M2 1%nat j eq_refl) as (p & Hp & E). exists p. split; [done|]. split; [done|]. pose proof (Hmin p Hp) as Hwp. inversion Hwp as [|? q ? l Hq Hl3]; subst. inversion Hl3 as [|? r ? l' Hr Hl4]; subst. inversion Hl4; subst.
        injection E as ->. constructor; [lia|]. by constructor.
      * destruct (M2 0%nat i eq_refl) as (p & Hp & E). exists p. split; [done|]. split; [done|]. pose proof (Hmin p Hp) as Hwp. inversion Hwp as [|? q ? l Hq Hl3]; subst. inversion Hl3 as [|? r ? l' Hr Hl4]; subst. inversion Hl4; subst.
        injection E as ->. constructor; [lia|]. constructor; [lia|constructor].
  - intros (p & Hp & H3 & H4). apply Hn. split; [done|]. done.
Qed.
Lemma move_eq : (length w <= 2)%nat -> vol w' P - vol w P = prod (span ideal w') - prod (span ideal w).
Proof.
  intros Hd. pose proof w_ideal as Hi. unfold vol. rewrite <- !size_boxset by (done || by eapply Zle_trans). rewrite !size_diff by (apply reg_sub || apply box_sub).
  do 2 f_equal. apply set_eq. intros c. split; [apply diff_sub|by apply diff_sup].
Qed.
End move.

(** ** Minimum and maximum *)
Definition zmin_all (m : list (list Z)) (a : list Z) : list Z := fold_left (fun a r => zip_with Z.min a r) m a.
Definition zmax_all (m : list (list Z)) (a : list Z) : list Z := fold_left (fun a r => zip_with Z.max a r) m a.
Lemma zip_min_le u v : length u = length v -> Forall2 Z.le (zip_with Z.min u v) u /\ Forall2 Z.le (zip_with Z.min u v) v.
Proof. revert v. induction u as [|x u IH]; intros [|y v] H; cbn in H; try lia; [by split|]. destruct (IH v) as [A B]; [lia|]. cbn. split; constructor; (lia || done). Qed.
Lemma zip_max_le u v : length u = length v -> Forall2 Z.le u (zip_with Z.max u v) /\ Forall2 Z.le v (zip_with Z.max u v).
Proof. revert v. induction u as [|x u IH]; intros [|y v] H; cbn in H; try lia; [by split|]. destruct (IH v) as [A B]; [lia|]. cbn. split; constructor; (lia || done). Qed.
Lemma zmin_is_min m : forall a, Forall (fun r => length r = length a) m -> is_min (a :: m) (zmin_all m a) /\ length (zmin_all m a) = length a.
Proof.
  induction m as [|r m IH]; intros a Hl; cbn [zmin_all fold_left].
  - split; [|done]. split; [|intros k x Hx; exists a; split; [set_solver|done]]. intros p Hp. apply elem_of_list_singleton in Hp as ->. apply Forall2_Zle_refl.
  - apply Forall_cons in Hl as [Hr Hl]. fold (zmin_all m (zip_with Z.min a r)). assert (Hz : length (zip_with Z.min a r) = length a) by (rewrite zip_with_length; lia).
    destruct (IH (zip_with Z.min a r)) as [[A B] L]. { by rewrite Hz. } destruct (zip_min_le a r ltac:(lia)) as [M1 M2]. split; [|lia]. split.
    + intros p Hp. apply elem_of_cons in Hp as [->|Hp]; [eapply Zle_trans; [apply (A (zip_with Z.min a r)); set_solver|done]|]. apply elem_of_cons in Hp as [->|Hp]; [eapply Zle_trans; [apply (A (zip_with Z.min a r)); set_solver|done]|]. apply A. set_solver.
    + intros k x Hx. destruct (B k x Hx) as (p & Hp & E). apply elem_of_cons in Hp as [->|Hp]; [|exists p; split; [set_solver|done]].
      rewrite lookup_zip_with in E. destruct (a !! k) as [y|] eqn:Ea; [|done]. destruct (r !! k) as [z|] eqn:Er; [|done]. injection E as <-.
      destruct (Z.min_spec y z) as [[_ ->]|[_ ->]]; [exists a|exists r]; (split; [set_solver|done]).
Qed.
Lemma zmax_is_max m : forall a, Forall (fun r => length r = length a) m -> is_max (a :: m) (zmax_all m a) /\ length (zmax_all m a) = length a.
Proof.
  induction m as [|r m IH]; intros a Hl; cbn [zmax_all fold_left].
  - split; [|done]. split; [|intros k x Hx; exists a; split; [set_solver|done]]. intros p Hp. apply elem_of_list_singleton in Hp as ->. apply Forall2_Zle_refl.
  - apply Forall_cons in Hl as [Hr Hl]. fold (zmax_all m (zip_with Z.max a r)). assert (Hz : length (zip_with Z.max a r) = length a) by (rewrite zip_with_length; lia).
    destruct (IH (zip_with Z.max a r)) as [[A B] L]. { by rewrite Hz. } destruct (zip_max_le a r ltac:(lia)) as [M1 M2]. split; [|lia]. split.
    + intros p Hp. apply elem_of_cons in Hp as [->|Hp]; [eapply Zle_trans; [|apply (A (zip_with Z.max a r)); set_solver]; done|]. apply elem_of_cons in Hp as [->|Hp]; [eapply Zle_trans; [|apply (A (zip_with Z.max a r)); set_solver]; done|]. apply A. set_solver.
    + intros k x Hx. destruct (B k x Hx) as (p & Hp & E). apply elem_of_cons in Hp as [->|Hp]; [|exists p; split; [set_solver|done]].
      rewrite lookup_zip_with in E. destruct (a !! k) as [y|] eqn:Ea; [|done]. destruct (r !! k) as [z|] eqn:Er; [|done]. injection E as <-.
      destruct (Z.max_spec y z) as [[_ ->]|[_ ->]]; [exists r|exists a]; (split; [set_solver|done]).
Qed.

(** ** The run *)
Section run.
Context {N : Type} (o : num N) (small : Z -> Prop) (ok : N -> Z -> Prop).
Hypothesis Hok : num_ok o small ok.
Notation oks := (Forall2 ok).
Notation okm := (Forall2 oks).
Variables (d : nat) (bottom top : list Z).
Hypothesis Hd : length bottom = d.
Hypothesis Hbt : Forall2 Z.le bottom top.
Hypothesis Hsmall : small (prod1 (span top bottom)).
Notation inside := (between bottom top).
Lemma inside_length p : inside p -> length p = d.
Proof. intros [H _]. apply Forall2_length in H. lia. Qed.
Lemma rowsLoop_ok f g m zm : (forall x y a b, ok x a -> ok y b -> ok (f x y) (g a b)) -> okm m zm -> forall u a, oks u a -> Forall (fun r => length r = length a) zm ->
  exists v, rowsLoop f m u = Some v /\ oks v (fold_left (fun a r => zip_with g a r) zm a).
Proof.
  intros Hf H. induction H as [|r z m zm Hr H IH]; intros u a Hu Hl.
  - exists u. done.
  - apply Forall_cons in Hl as [Hz Hl]. destruct (elementwise_ok ok f g u r a z Hf Hu Hr ltac:(lia)) as (v & Ev & Hv). unfold rowsLoop. cbn [fold_left]. 
    cbn [mbind option_bind]. rewrite Ev. fold (rowsLoop f m v). cbn [fold_left]. apply IH; [done|]. rewrite zip_with_length. eapply Forall_impl; [exact Hl|]. cbv beta. lia.
Qed.
Lemma min_fitness_ok m zm : okm m zm -> Forall inside zm -> m <> [] -> exists v z, min_fitness o m = Some v /\ oks v z /\ is_min zm z /\ length z = d.
Proof.
  intros H Hin Hne. destruct H as [|r z m zm Hr H]; [done|]. apply Forall_cons in Hin as [Hz Hin]. apply inside_length in Hz.
  assert (Hl : Forall (fun r => length r = length z) zm). { eapply Forall_impl; [exact Hin|]. intros q Hq. apply inside_length in Hq. congruence. }
  destruct (rowsLoop_ok (std_min (n_lt o)) Z.min m zm (std_min_ok o small ok Hok) H r z Hr Hl) as (v & Ev & Hv). destruct (zmin_is_min zm z Hl) as [M L].
  exists v. eexists. split; [done|]. split; [exact Hv|]. split; [exact M|]. transitivity (length z); [exact L|done].
Qed.
Lemma max_fitness_ok m zm : okm m zm -> Forall inside zm -> m <> [] -> exists v z, max_fitness o m = Some v /\ oks v z /\ is_max zm z /\ length z = d.
Proof.
  intros H Hin Hne. destruct H as [|r z m zm Hr H]; [done|]. apply Forall_cons in Hin as [Hz Hin]. apply inside_length in Hz.
  assert (Hl : Forall (fun r => length r = length z) zm). { eapply Forall_impl; [exact Hin|]. intros q Hq. apply inside_length in Hq. congruence. }
  destruct (rowsLoop_ok (std_max (n_lt o)) Z.max m zm (std_max_ok o small ok Hok) H r z Hr Hl) as (v & Ev & Hv). destruct (zmax_is_max zm z Hl) as [M L].
  exists v. eexists. split; [done|]. split; [exact Hv|]. split; [exact M|]. transitivity (length z); [exact L|done].
Qed.

(** What has been recorded for the population [P]: the value, with the ideal point. *)
Record entry (w : list Z) (P : list (list Z)) (v : Z) (ideal : list Z) : Prop := {
  e_ne : P <> [];
  e_in : Forall inside P;
  e_min : forall p, p ∈ P -> Forall2 Z.le w p;
  e_max : is_max P ideal;
  e_ge : vol w P <= v;
  e_le : v <= prod (span ideal w);
  e_eq : (d <= 2)%nat -> v = vol w P;
}.
Inductive entries (w : list Z) : list (list (list Z)) -> list Z -> list (list Z) -> Prop :=
| E_nil : entries w [] [] []
| E_cons P Ps v vs i is : entry w P v i -> entries w Ps vs is -> entries w (P :: Ps) (v :: vs) (i :: is).
Record auto_state (s : auto_hv) (pops : list (list (list Z))) (w : list Z) (vs : list Z) (is : list (list Z)) : Prop := {
  a_data : oks (hv_data s) vs;
  a_ideal : okm (ideal_points s) is;
  a_worst : match pops with [] => worst_point s = replicate d (n_inf o) | _ => oks (worst_point s) w end;
  a_inside : pops <> [] -> inside w;
  a_entries : entries w pops vs is;
  a_min : pops <> [] -> worst_of pops w;
}.
Lemma ideal_inside P i : P <> [] -> Forall inside P -> is_max P i -> inside i.
Proof.
  intros Hne Hin [H1 H2]. rewrite Forall_forall in Hin. split.
  - destruct P as [|p P]; [done|]. eapply Zle_trans; [apply (Hin p); set_solver|]. apply H1. set_solver.
  - assert (L : length i = length top). { destruct P as [|p P]; [done|]. pose proof (Forall2_length _ _ _ (H1 p ltac:(set_solver))). destruct (Hin p ltac:(set_solver)) as [_ Hp]. apply Forall2_length in Hp. lia. }
    apply Forall2_same_length_lookup. split; [done|]. intros k x y Hx Hy. destruct (H2 k x Hx) as (p & Hp & E). destruct (Hin p Hp) as [_ Hpt]. by eapply (Forall2_lookup_lr _ _ _ _ _ _ Hpt).
Qed.
Lemma span_small u w : inside u -> inside w -> Forall2 Z.le w u -> small (prod1 (span u w)) /\ prod1 (span u w) <= prod1 (span top bottom).
Proof.
  intros [H1 H2] [H3 H4] H5. assert (Hle : prod1 (span u w) <= prod1 (span top bottom)).
  { apply prod1_le. clear -H1 H2 H3 H4 H5. revert bottom top u H1 H2 H3 H4 H5. unfold span. induction w as [|c w IH]; intros bottom top u H1 H2 H3 H4 H5.
    - inversion H3; subst. inversion H5; subst. inversion H4; subst. constructor.
    - inversion H3; subst. inversion H5; subst. inversion H4; subst. inversion H1; subst. inversion H2; subst. cbn. constructor; [lia|]. apply IH; done. }
  split; [|done]. eapply (small_mono _ _ _ Hok); [|exact Hsmall]. pose proof (prod1_pos (span u w)). lia.
Qed.
Lemma correct_ok w w' : inside w -> inside w' -> Forall2 Z.le w' w -> forall wp wp', oks wp w -> oks wp' w' -> forall pops vs is, entries w pops vs is ->
  forall data ideals, oks data vs -> okm ideals is -> exists data' vs', correct o data ideals wp wp' = Some data' /\ oks data' vs' /\ entries w' pops vs' is.
Proof.
  intros Hw Hw' Hle wp wp' Hwp Hwp' pops vs is H. induction H as [|P Ps v vs i is He H IH]; intros data ideals Hdata Hideals.
  - inversion Hdata; subst. exists [], []. split; [done|]. split; [constructor|constructor].
  - inversion Hdata as [|x ? data0 ? Hx Hdata0]; subst. inversion Hideals as [|id ? ideals0 ? Hid Hideals0]; subst. destruct (IH data0 ideals0 Hdata0 Hideals0) as (data' & vs' & Ec & H1 & H2).
    destruct He as [E1 E2 E3 E4 E5 E6 E7]. pose proof (ideal_inside P i E1 E2 E4) as Hi. pose proof (w_ideal w i P E3 E4 E1) as Hwi. assert (Hwi' : Forall2 Z.le w' i) by (by eapply Zle_trans).
    destruct (span_small i w Hi Hw Hwi) as [S1 _]. destruct (span_small i w' Hi Hw' Hwi') as [S2 S2'].
    destruct (volumeBetween_ok o small ok Hok id wp i w Hid Hwp) as (ov & Eo & Ho); [rewrite !inside_length; done|done|].
    destruct (volumeBetween_ok o small ok Hok id wp' i w' Hid Hwp') as (nv & En & Hn); [rewrite !inside_length; done|done|].
    cbn [correct]. rewrite Eo. cbn [mbind option_bind]. rewrite En. cbn [mbind option_bind]. rewrite Ec. cbn [mbind option_bind].
    pose proof (size_boxset w i Hwi) as B1. pose proof (size_boxset w' i Hwi') as B2. rewrite Z.abs_eq in Ho, Hn by lia.
    pose proof (move_le w w' i P Hle E3 E4 E1) as Hm. pose proof (prod_abs (span i w')) as Hpa.
    assert (Hmono : vol w P <= vol w' P). { unfold vol. apply inj_le, subseteq_size, (reg_sub w w' P Hle). }
    assert (Hpm : prod (span i w) <= prod (span i w')). { rewrite <- B1, <- B2. apply inj_le, subseteq_size. by apply box_sub. }
    assert (0 <= vol w P) by (unfold vol; lia). assert (Hsm : forall a, 0 <= a <= prod (span i w') -> small a). { intros a Ha. eapply (small_mono _ _ _ Hok); [|exact S2]. lia. }
    eexists _, ((v + (prod (span i w') - prod (span i w))) :: vs'). split; [done|]. split.
    + constructor; [|done]. apply (ok_add _ _ _ Hok); [done| |apply Hsm; lia]. apply (ok_sub _ _ _ Hok); [done|done|apply Hsm; lia].
    + constructor; [|done]. split; [done|done| |done|lia|lia|].
      * intros p Hp. eapply Zle_trans; [exact Hle|]. by apply E3.
      * intros Hd2. rewrite (E7 Hd2). rewrite <- (move_eq w w' i P Hle E3 E4 E1); [lia|]. apply inside_length in Hw. lia.
Qed.
Lemma elementwise_inf v z : oks v z -> length z = d -> elementwise (std_min (n_lt o)) (replicate d (n_inf o)) v = Some v.
Proof.
  intros H Hl. rewrite <- Hl. clear Hl. induction H as [|x a v z Hx H IH]; [done|]. cbn [length replicate elementwise]. rewrite IH. cbn [mbind option_bind]. unfold std_min. by rewrite (ok_inf _ _ _ Hok x a Hx).
Qed.
Lemma entries_app w pops vs is P v i : entries w pops vs is -> entry w P v i -> entries w (pops ++ [P]) (vs ++ [v]) (is ++ [i]).
Proof. intros H He. induction H; cbn; constructor; try done. constructor. Qed.
Lemma entries_inv w pops vs is : entries w pops vs is -> forall P, P ∈ pops -> P <> [] /\ Forall inside P /\ forall p, p ∈ P -> Forall2 Z.le w p.
Proof. induction 1 as [|P Ps v vs i is [] H IH]; intros Q HQ; [set_solver|]. apply elem_of_cons in HQ as [->|HQ]; [done|]. by apply IH. Qed.
Lemma is_min_inside P z : P <> [] -> Forall inside P -> is_min P z -> length z = d -> inside z.
Proof.
  intros Hne Hin [H1 H2] Hl. rewrite Forall_forall in Hin. split.
  - apply Forall2_same_length_lookup. split; [lia|]. intros k x y Hx Hy. destruct (H2 k y Hy) as (p & Hp & E). destruct (Hin p Hp) as [Hpt _]. by eapply (Forall2_lookup_lr _ _ _ _ _ _ Hpt).
  - destruct P as [|p P]; [done|]. eapply Zle_trans; [apply (H1 p); set_solver|]. apply Hin. set_solver.
Qed.
Lemma update_ok s pops w vs is m zm schedule : auto_state s pops w vs is -> okm m zm -> Forall inside zm -> zm <> [] ->
  (forall f, uniqueSortedParetoFront o m = Some f -> schedule ≡ₚ seq 0 (length f)) ->
  exists s' w' vs' is', auto_update o (S (length m)) schedule s m = Some s' /\ auto_state s' (pops ++ [zm]) w' vs' is'.
Proof.
  intros Hs Hm Hin Hne Hsch. assert (Hmne : m <> []). { intros ->. inversion Hm; subst. done. }
  destruct (min_fitness_ok m zm Hm Hin Hmne) as (mn & zmn & Emn & Hmn & Mmn & Lmn). destruct (max_fitness_ok m zm Hm Hin Hmne) as (mx & zmx & Emx & Hmx & Mmx & Lmx).
  unfold auto_update. rewrite Emn, Emx. cbn [mbind option_bind]. pose proof (is_min_inside zm zmn Hne Hin Mmn Lmn) as Hmni.
  assert (Hnew : exists wp' w' data' vs', elementwise (std_min (n_lt o)) (worst_point s) mn = Some wp' /\ oks wp' w' /\ inside w' /\ Forall2 Z.le w' zmn /\
    (if differ o wp' (worst_point s) then correct o (hv_data s) (ideal_points s) (worst_point s) wp' else Some (hv_data s)) = Some data' /\ oks data' vs' /\ entries w' pops vs' is /\ worst_of (pops ++ [zm]) w').
  { destruct (decide (pops = [])) as [->|Hpn].
    - destruct Hs as [S1 S2 S3 S4 S5 S6]. rewrite S3, (elementwise_inf mn zmn Hmn Lmn). inversion S5; subst. inversion S1 as [E|]; subst. 
      exists mn, zmn, [], []. split; [done|]. split; [done|]. split; [done|]. split; [apply Forall2_Zle_refl|]. split; [by destruct (differ o mn _)|]. split; [constructor|]. split; [constructor|].
      intros k x Hx. destruct Mmn as [M1 M2]. split; [destruct (M2 k x Hx) as (p & Hp & E'); exists zm, p; split; [set_solver|done]|].
      intros P p y HP Hp Hy. apply elem_of_list_singleton in HP as ->. by apply (Forall2_lookup_lr _ _ _ _ _ _ (M1 p Hp) Hx Hy).
    - destruct Hs as [S1 S2 S3 S4 S5 S6]. assert (Hwo : oks (worst_point s) w) by (destruct pops; [done|exact S3]). pose proof (S4 Hpn) as Hwi. pose proof (inside_length w Hwi) as Lw.
      destruct (elementwise_ok ok _ Z.min (worst_point s) mn w zmn (std_min_ok o small ok Hok) Hwo Hmn ltac:(lia)) as (wp' & Ewp & Hwp'). set (w' := zip_with Z.min w zmn) in *.
      destruct (zip_min_le w zmn ltac:(lia)) as [L1 L2]. fold w' in L1, L2.
      assert (Hwi' : inside w'). { destruct (limit_between bottom top zmn w Hmni Hwi) as [A B]. split; done. }
      assert (Hwof : worst_of (pops ++ [zm]) w').
      { intros k x Hx. destruct Mmn as [M1 M2]. unfold w' in Hx. rewrite lookup_zip_with in Hx. destruct (w !! k) as [a|] eqn:Ea; [|done]. destruct (zmn !! k) as [b|] eqn:Eb; [|done]. injection Hx as <-.
        destruct (S6 Hpn k a Ea) as [W1 W2]. split.
        - destruct (Z.min_spec a b) as [[_ ->]|[_ ->]].
          + destruct W1 as (P & p & HP & Hp & E'). exists P, p. split; [set_solver|done].
          + destruct (M2 k b Eb) as (p & Hp & E'). exists zm, p. split; [set_solver|done].
        - intros P p y HP Hp Hy. apply elem_of_app in HP as [HP|HP]; [specialize (W2 P p y HP Hp Hy); lia|]. apply elem_of_list_singleton in HP as ->.
          pose proof (Forall2_lookup_lr _ _ _ _ _ _ (M1 p Hp) Eb Hy). cbv beta in *. lia. }
      destruct (differ o wp' (worst_point s)) eqn:Ed.
      + destruct (correct_ok w w' Hwi Hwi' L1 _ _ Hwo Hwp' pops vs is S5 (hv_data s) (ideal_points s) S1 S2) as (data' & vs' & Ec & C1 & C2).
        exists wp', w', data', vs'. rewrite Ed. done.
      + exists wp', w, (hv_data s), vs. rewrite Ed. assert (Eww : w' = w).
        { rewrite (differ_ok o small ok Hok wp' (worst_point s) w' w Hwp' Hwo) in Ed; [|apply Forall2_length in Hwp', Hwo, L1; lia]. by apply negb_false_iff, bool_decide_eq_true in Ed. }
        rewrite Eww in *. done. }
  destruct Hnew as (wp' & w' & data' & vs' & Ew & Hw' & Hwi & Hwm & Ed & Hd' & He & Hwof). rewrite Ew. cbn [mbind option_bind]. rewrite Ed. cbn [mbind option_bind].
  assert (Hb : Forall (between w' top) zm). { apply Forall_forall. intros p Hp. rewrite Forall_forall in Hin. split; [eapply Zle_trans; [exact Hwm|by apply Mmn]|by apply Hin]. }
  assert (Hbtop : inside top) by (split; [done|apply Forall2_Zle_refl]). assert (Hwt : Forall2 Z.le w' top) by apply Hwi.
  destruct (par_ok o small ok Hok wp' w' top Hw' (proj1 (span_small top w' Hbtop Hwi Hwt)) Hwt m zm Hm Hb schedule (S (length m)) ltac:(lia) Hsch) as (x & Ex & Hx).
  rewrite Ex. cbn [mbind option_bind]. eexists _, w', (vs' ++ [vol w' zm]), (is ++ [zmx]). split; [done|].
  assert (Hent : entry w' zm (vol w' zm) zmx).
  { split; [done|done| |done|done| |done].
    - rewrite Forall_forall in Hb. intros p Hp. by apply Hb.
    - pose proof (vol_mono w' zm [zmx]) as Hv. unfold vol in Hv at 2. rewrite reg_cons, reg_nil, union_empty_r_L, size_boxset in Hv.
      + apply Hv. intros p Hp. exists zmx. split; [set_solver|]. by apply Mmx.
      + eapply w_ideal; [|exact Mmx|done]. rewrite Forall_forall in Hb. intros p Hp. by apply Hb. }
  split; cbn [hv_data ideal_points worst_point].
  - apply Forall2_app; [done|]. by constructor.
  - apply Forall2_app; [apply Hs|]. by constructor.
  - destruct pops; exact Hw'.
  - done.
  - by apply entries_app.
  - done.
Qed.
Theorem run_ok pops zpops : Forall2 okm (fst <$> pops) zpops -> Forall (fun m => Forall inside m /\ m <> []) zpops ->
  Forall (fun ms => forall f, uniqueSortedParetoFront o ms.1 = Some f -> ms.2 ≡ₚ seq 0 (length f)) pops ->
  forall s done w vs is, auto_state s done w vs is -> exists s' w' vs' is', auto_updates o s pops = Some s' /\ auto_state s' (done ++ zpops) w' vs' is'.
Proof.
  revert zpops. induction pops as [|[m sch] pops IH]; intros zpops Hz Hin Hsch s done w vs is Hs.
  - inversion Hz; subst. rewrite app_nil_r. by exists s, w, vs, is.
  - cbn in Hz. inversion Hz as [|? zm ? zpops' Hm Hz']; subst. apply Forall_cons in Hin as [[Hi Hne] Hin]. apply Forall_cons in Hsch as [Hs1 Hsch].
    destruct (update_ok s done w vs is m zm sch Hs Hm Hi Hne Hs1) as (s1 & w1 & vs1 & is1 & E1 & Hs'). cbn [auto_updates]. rewrite E1. cbn [mbind option_bind].
    destruct (IH zpops' Hz' Hin Hsch s1 _ w1 vs1 is1 Hs') as (s' & w' & vs' & is' & E & H). exists s', w', vs', is'. split; [done|]. by rewrite <- app_assoc in H.
Qed.
Lemma initial_ok old w : auto_state (auto_initialize o d old) [] w [] [].
Proof. split; try done; constructor. Qed.
End run.
