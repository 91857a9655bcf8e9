(** Proofs about the generators: the step is linear over GF(2), so polynomials in x act on the
    states, x as a step.  Arithmetic modulo the characteristic polynomial gives 2^96 steps. *)
From Coq Require Import NArith ZArith Lia.
From stdpp Require Import list list_numbers.
From Verif Require Import RngModel RngSpec RngPrime.
Local Open Scope N_scope.

(** ** Words *)
Lemma word_bits x : x < 2 ^ 64 <-> forall i, 64 <= i -> N.testbit x i = false.
Proof.
  split.
  - intros H i Hi. destruct (decide (x = 0)) as [-> | Hn]; [apply N.bits_0|]. apply N.bits_above_log2. apply N.log2_lt_pow2 in H; lia.
  - intros H. destruct (N.eq_dec x 0) as [-> | Hn]; [reflexivity|]. apply N.log2_lt_pow2; [lia|]. destruct (N.lt_ge_cases (N.log2 x) 64) as [|Hg]; [done|]. apply H in Hg. rewrite N.bit_log2 in Hg by done. done.
Qed.
Lemma trunc_bits x i : N.testbit (trunc x) i = N.testbit x i && (i <? 64).
Proof. unfold trunc. change word_mask with (N.ones 64). rewrite N.land_spec. f_equal. destruct (N.ltb_spec i 64); [by apply N.ones_spec_low|by apply N.ones_spec_high]. Qed.
Lemma trunc_mod x : trunc x = x mod 2 ^ 64.
Proof. unfold trunc. change word_mask with (N.ones 64). apply N.land_ones. Qed.
Lemma trunc_range x : trunc x < 2 ^ 64.
Proof. rewrite trunc_mod. by apply N.mod_lt. Qed.
Lemma lxor_range x y : x < 2 ^ 64 -> y < 2 ^ 64 -> N.lxor x y < 2 ^ 64.
Proof. rewrite !word_bits. intros Hx Hy i Hi. by rewrite N.lxor_spec, Hx, Hy. Qed.
Lemma shiftr_range x k : x < 2 ^ 64 -> N.shiftr x k < 2 ^ 64.
Proof. rewrite !word_bits. intros Hx i Hi. rewrite N.shiftr_spec by lia. apply Hx. lia. Qed.
Lemma wshl_bits x k i : N.testbit (wshl x k) i = (k <=? i) && N.testbit x (i - k) && (i <? 64).
Proof. unfold wshl. rewrite trunc_bits. f_equal. destruct (N.leb_spec k i); [rewrite N.shiftl_spec_high by lia; done|rewrite N.shiftl_spec_low by lia; done]. Qed.
Lemma wshl_lxor x y k : wshl (N.lxor x y) k = N.lxor (wshl x k) (wshl y k).
Proof. apply N.bits_inj. intros i. rewrite N.lxor_spec, !wshl_bits, N.lxor_spec. destruct (k <=? i), (i <? 64), (N.testbit x (i - k)), (N.testbit y (i - k)); done. Qed.
Lemma rotl_lxor_form x k : x < 2 ^ 64 -> k < 64 -> rotl x k = N.lxor (wshl x k) (N.shiftr x (64 - k)).
Proof.
  intros Hx Hk. unfold rotl. apply N.bits_inj. intros i. rewrite N.lor_spec, N.lxor_spec. destruct (N.testbit (wshl x k) i) eqn:E1; [|by destruct (N.testbit (N.shiftr x (64 - k)) i)].
  rewrite wshl_bits in E1. rewrite N.shiftr_spec by lia. rewrite (proj1 (word_bits x) Hx); [done|]. destruct (N.leb_spec k i); [lia|done].
Qed.
Lemma rotl_range x k : x < 2 ^ 64 -> rotl x k < 2 ^ 64.
Proof.
  intros Hx. apply word_bits. intros i Hi. unfold rotl. rewrite N.lor_spec. unfold wshl. rewrite trunc_bits. destruct (N.ltb_spec i 64); [lia|]. rewrite andb_false_r. cbn. by apply word_bits; [apply shiftr_range|].
Qed.
Lemma rotl_lxor x y k : x < 2 ^ 64 -> y < 2 ^ 64 -> k < 64 -> rotl (N.lxor x y) k = N.lxor (rotl x k) (rotl y k).
Proof.
  intros Hx Hy Hk. rewrite !rotl_lxor_form by (try apply lxor_range; done). rewrite wshl_lxor, N.shiftr_lxor. rewrite !N.lxor_assoc. f_equal. rewrite <- !N.lxor_assoc. f_equal. apply N.lxor_comm.
Qed.

(** ** The step *)
Definition vx (s t : xstate) : xstate := (N.lxor s.1 t.1, N.lxor s.2 t.2).
Notation zero := zero_state.
Lemma vx_comm s t : vx s t = vx t s.
Proof. unfold vx. by rewrite (N.lxor_comm s.1), (N.lxor_comm s.2). Qed.
Lemma vx_assoc s t u : vx s (vx t u) = vx (vx s t) u.
Proof. unfold vx. cbn. by rewrite !N.lxor_assoc. Qed.
Lemma vx_zero_l s : vx zero s = s.
Proof. unfold vx. cbn. rewrite ?N.lxor_0_l. by destruct s. Qed.
Lemma vx_zero_r s : vx s zero = s.
Proof. rewrite vx_comm. apply vx_zero_l. Qed.
Lemma vx_self s : vx s s = zero.
Proof. unfold vx. by rewrite !N.lxor_nilpotent. Qed.
Lemma vx_eq s t : vx s t = zero -> s = t.
Proof. unfold vx. intros H. injection H as H1 H2. apply N.lxor_eq in H1, H2. destruct s, t. by f_equal. Qed.
Lemma vx_range s t : in_range s -> in_range t -> in_range (vx s t).
Proof. intros [? ?] [? ?]. split; by apply lxor_range. Qed.
Lemma zero_range : in_range zero.
Proof. by split. Qed.
Lemma step_eq s : step s = (N.lxor (N.lxor (rotl s.1 24) (N.lxor s.1 s.2)) (wshl (N.lxor s.1 s.2) 16), rotl (N.lxor s.1 s.2) 37).
Proof. by destruct s. Qed.
Lemma step_range s : in_range s -> in_range (step s).
Proof.
  intros [H1 H2]. rewrite step_eq. assert (H := lxor_range _ _ H1 H2). split; cbn -[N.pow].
  - apply lxor_range; [apply lxor_range; [by apply rotl_range|done]|apply trunc_range].
  - by apply rotl_range.
Qed.
Lemma lxor4 a b c d : N.lxor (N.lxor a b) (N.lxor c d) = N.lxor (N.lxor a c) (N.lxor b d).
Proof. rewrite !N.lxor_assoc. f_equal. rewrite <- !N.lxor_assoc. f_equal. apply N.lxor_comm. Qed.
Lemma step_vx s t : in_range s -> in_range t -> step (vx s t) = vx (step s) (step t).
Proof.
  intros [Hs1 Hs2] [Ht1 Ht2]. rewrite !step_eq. unfold vx. cbn [fst snd]. rewrite (lxor4 s.1 t.1). rewrite !rotl_lxor by (try apply lxor_range; done). rewrite wshl_lxor.
  f_equal. rewrite (lxor4 (rotl s.1 24) (rotl t.1 24)). apply lxor4.
Qed.
Lemma step_zero : step zero = zero.
Proof. reflexivity. Qed.
Lemma times_range n s : in_range s -> in_range (times n step s).
Proof. intros H. unfold times. apply N.iter_invariant; [intros; by apply step_range|done]. Qed.
Lemma times_add {A} (f : A -> A) i j x : times (i + j) f x = times i f (times j f x).
Proof. apply N.iter_add. Qed.
Lemma times_mul {A} (f : A -> A) i j x : times (i * j) f x = times i (times j f) x.
Proof. unfold times. induction i as [|i IH] using N.peano_ind; [done|]. rewrite N.mul_succ_l, N.add_comm, N.iter_add, N.iter_succ, IH. done. Qed.
Lemma times_fixed {A} (f : A -> A) i x : f x = x -> times i f x = x.
Proof. intros H. unfold times. apply (N.iter_invariant i _ f (fun y => y = x)); [by intros ? ->|done]. Qed.

(** ** Polynomials acting on states *)
Fixpoint actp (p : positive) (s : xstate) : xstate :=
  match p with
  | xH => s
  | xO q => step (actp q s)
  | xI q => vx s (step (actp q s))
  end.
Definition act (q : N) (s : xstate) : xstate := match q with 0 => zero | Npos p => actp p s end.
Lemma act_range q s : in_range s -> in_range (act q s).
Proof.
  intros H. destruct q as [|p]; [apply zero_range|]. cbn [act]. induction p as [p IH|p IH|]; cbn [actp act]; [by apply vx_range; [|apply step_range]|by apply step_range|done].
Qed.
Lemma act_double q s : act (N.double q) s = step (act q s).
Proof. by destruct q. Qed.
Lemma act_succ_double q s : act (N.succ_double q) s = vx s (step (act q s)).
Proof. destruct q; [|done]. cbn. by rewrite vx_zero_r. Qed.
Lemma act_vx q s t : in_range s -> in_range t -> act q (vx s t) = vx (act q s) (act q t).
Proof.
  intros Hs Ht. destruct q as [|p]; [by rewrite vx_self|]. cbn [act]. induction p as [p IH|p IH|]; cbn [actp act]; [| |done].
  - rewrite IH, step_vx by by apply (act_range (Npos p)). rewrite !vx_assoc. f_equal. rewrite <- !vx_assoc. f_equal. apply vx_comm.
  - rewrite IH, step_vx by by apply (act_range (Npos p)). done.
Qed.
Lemma act_step q s : in_range s -> act q (step s) = step (act q s).
Proof.
  intros Hs. destruct q as [|p]; [done|]. cbn [act]. induction p as [p IH|p IH|]; cbn [actp act]; [| |done].
  - rewrite IH. rewrite step_vx; [done|done|]. by apply step_range, (act_range (Npos p)).
  - by rewrite IH.
Qed.
Lemma act_lxor p q s : in_range s -> act (N.lxor p q) s = vx (act p s) (act q s).
Proof.
  intros Hs. destruct p as [|p]; [by rewrite N.lxor_0_l, vx_zero_l|]. destruct q as [|q]; [by rewrite N.lxor_0_r, vx_zero_r|].
  change (N.lxor (Npos p) (Npos q)) with (Pos.lxor p q). cbn [act]. revert q.
  assert (Hr : forall p, in_range (actp p s)) by (intros; by apply (act_range (Npos _))).
  induction p as [p IH|p IH|]; intros [q|q|]; cbn [Pos.lxor actp].
  - change (Pos.lxor (xI p) (xI q)) with (N.double (Pos.lxor p q)). rewrite act_double, IH, step_vx by done. rewrite (vx_comm s), <- vx_assoc, (vx_assoc s), vx_self, vx_zero_l. done.
  - change (Pos.lxor (xI p) (xO q)) with (N.succ_double (Pos.lxor p q)). rewrite act_succ_double, IH, step_vx by done. by rewrite vx_assoc.
  - cbn. by rewrite (vx_comm s), <- vx_assoc, vx_self, vx_zero_r.
  - change (Pos.lxor (xO p) (xI q)) with (N.succ_double (Pos.lxor p q)). rewrite act_succ_double, IH, step_vx by done. by rewrite !vx_assoc, (vx_comm s).
  - change (Pos.lxor (xO p) (xO q)) with (N.double (Pos.lxor p q)). rewrite act_double, IH, step_vx by done. done.
  - cbn. apply vx_comm.
  - cbn. by rewrite vx_assoc, vx_self, vx_zero_l.
  - cbn. done.
  - cbn. by rewrite vx_self.
Qed.
Lemma act_half q s : in_range s -> act q s = vx (if N.odd q then s else zero) (step (act (N.div2 q) s)).
Proof. intros Hs. destruct q as [|[p|p|]]; cbn; rewrite ?vx_zero_l, ?vx_zero_r; done. Qed.

(** ** The characteristic polynomial annihilates the step *)
Definition char_poly : N := 0x10008828e513b43d5095b8f76579aa001.
Lemma additive_zero (f : N -> xstate) (k : nat) : (forall x y, x < 2 ^ 64 -> y < 2 ^ 64 -> f (N.lxor x y) = vx (f x) (f y)) -> (forall i, (i < k)%nat -> f (2 ^ N.of_nat i) = zero) -> f 0 = zero ->
  (k <= 64)%nat -> forall x, x < 2 ^ N.of_nat k -> f x = zero.
Proof.
  intros Hadd Hb H0. induction k as [|k IH]; intros Hk x Hx.
  - assert (x = 0) as -> by (cbn in Hx; lia). done.
  - assert (Hle : 2 ^ N.of_nat k < 2 ^ 64) by (apply N.pow_lt_mono_r; lia). pose proof (N.pow_nonzero 2 (N.of_nat k) ltac:(done)) as Hnz.
    rewrite Nat2N.inj_succ, N.pow_succ_r' in Hx.
    assert (E : x = N.lxor (x mod 2 ^ N.of_nat k) (if N.testbit x (N.of_nat k) then 2 ^ N.of_nat k else 0)).
    { apply N.bits_inj. intros i. rewrite N.lxor_spec. destruct (N.lt_trichotomy i (N.of_nat k)) as [Hi | [-> | Hi]].
      - rewrite N.mod_pow2_bits_low by done. destruct (N.testbit x (N.of_nat k)); [rewrite N.pow2_bits_false by lia|rewrite N.bits_0]; by rewrite xorb_false_r.
      - rewrite N.mod_pow2_bits_high by lia. destruct (N.testbit x (N.of_nat k)); [by rewrite N.pow2_bits_true|by rewrite N.bits_0].
      - rewrite N.mod_pow2_bits_high by lia. assert (N.testbit x i = false) as ->.
        { destruct (N.eq_dec x 0) as [-> | Hx0]; [apply N.bits_0|]. apply N.bits_above_log2. apply N.log2_lt_pow2; [lia|]. eapply N.lt_le_trans; [exact Hx|]. rewrite <- N.pow_succ_r'. apply N.pow_le_mono_r; lia. }
        destruct (N.testbit x (N.of_nat k)); [rewrite N.pow2_bits_false by lia|rewrite N.bits_0]; done. }
    rewrite E, Hadd.
    + rewrite IH; [|intros; apply Hb; lia|lia|by apply N.mod_lt]. rewrite vx_zero_l. destruct (N.testbit x _); [apply Hb; lia|done].
    + eapply N.lt_trans; [by apply N.mod_lt|done].
    + destruct (N.testbit x _); [done|reflexivity].
Qed.
Definition state_eqb (s t : xstate) : bool := (s.1 =? t.1) && (s.2 =? t.2).
Lemma state_eqb_eq s t : state_eqb s t = true <-> s = t.
Proof. unfold state_eqb. rewrite andb_true_iff, !N.eqb_eq. destruct s, t; cbn. split; [by intros [-> ->]|intros H; by injection H as -> ->]. Qed.
Definition basis_check (q : N) : bool := forallb (fun i => state_eqb (act q (2 ^ N.of_nat i, 0)) zero && state_eqb (act q (0, 2 ^ N.of_nat i)) zero) (seq 0 64).
Lemma char_check_ok : basis_check char_poly = true.
Proof. vm_compute. reflexivity. Qed.
Lemma zero_on_basis q s : in_range s -> (forall i, (i < 64)%nat -> act q (2 ^ N.of_nat i, 0) = zero /\ act q (0, 2 ^ N.of_nat i) = zero) -> act q s = zero.
Proof.
  intros [H1 H2] Hc.
  assert (Hz : act q (0, 0) = zero). { clear. destruct q as [|p]; [done|]. cbn [act]. induction p as [p IH|p IH|]; cbn [actp]; [rewrite IH; reflexivity|rewrite IH; reflexivity|reflexivity]. }
  assert (Hl : forall x y, x < 2 ^ 64 -> y < 2 ^ 64 -> act q (N.lxor x y, 0) = vx (act q (x, 0)) (act q (y, 0))).
  { intros x y Hx Hy. rewrite <- act_vx by (split; [done|reflexivity]). done. }
  assert (Hr : forall x y, x < 2 ^ 64 -> y < 2 ^ 64 -> act q (0, N.lxor x y) = vx (act q (0, x)) (act q (0, y))).
  { intros x y Hx Hy. rewrite <- act_vx by (split; [reflexivity|done]). done. }
  assert (E : s = vx (s.1, 0) (0, s.2)). { unfold vx. cbn. rewrite N.lxor_0_r. by destruct s as [? []]. }
  rewrite E, act_vx; [|by split; [exact H1|reflexivity]|by split; [reflexivity|exact H2]].
  rewrite (additive_zero (fun x => act q (x, 0)) 64 Hl); [|intros i Hi; by apply Hc|exact Hz|lia|exact H1].
  rewrite (additive_zero (fun x => act q (0, x)) 64 Hr); [|intros i Hi; by apply Hc|exact Hz|lia|exact H2]. done.
Qed.
Lemma basis_check_zero q s : basis_check q = true -> in_range s -> act q s = zero.
Proof.
  intros H Hs. apply zero_on_basis; [exact Hs|]. intros i Hi. unfold basis_check in H. rewrite forallb_forall in H. specialize (H i ltac:(apply elem_of_list_In, elem_of_seq; lia)).
  apply andb_true_iff in H as [Ha Hb]. split; [apply state_eqb_eq; exact Ha|apply state_eqb_eq; exact Hb].
Qed.
Lemma char_zero s : in_range s -> act char_poly s = zero.
Proof. exact (basis_check_zero char_poly s char_check_ok). Qed.

(** ** Multiplication modulo the characteristic polynomial *)
Definition xt (q : N) : N := let d := N.double q in if N.testbit d 128 then N.lxor d char_poly else d.
Fixpoint mulp (p : positive) (b : N) : N :=
  match p with
  | xH => b
  | xO q => xt (mulp q b)
  | xI q => N.lxor (xt (mulp q b)) b
  end.
Definition mul (a b : N) : N := match a with 0 => 0 | Npos p => mulp p b end.
Fixpoint powp (p : positive) : N :=
  match p with
  | xH => 2
  | xO q => let r := powp q in mul r r
  | xI q => let r := powp q in xt (mul r r)
  end.
Definition powx (n : N) : N := match n with 0 => 1 | Npos p => powp p end.
Lemma act_xt q s : in_range s -> act (xt q) s = step (act q s).
Proof. intros Hs. unfold xt. destruct (N.testbit _ _); [|apply act_double]. rewrite act_lxor, char_zero, vx_zero_r by done. apply act_double. Qed.
Lemma act_mul a b s : in_range s -> act (mul a b) s = act a (act b s).
Proof.
  intros Hs. destruct a as [|p]; [done|]. cbn [act mul]. induction p as [p IH|p IH|]; cbn [actp mulp act]; [| |done].
  - rewrite act_lxor, act_xt, IH by done. apply vx_comm.
  - by rewrite act_xt, IH.
Qed.
Lemma act_pow n s : in_range s -> act (powx n) s = times n step s.
Proof.
  intros Hs. destruct n as [|p]; [done|]. unfold times. cbn. revert s Hs. induction p as [p IH|p IH|]; intros s Hs; cbn.
  - rewrite act_xt, act_mul, !IH by (try (rewrite IH by done); try done; by apply (times_range (Npos p))). done.
  - rewrite act_mul, !IH by (try (rewrite IH by done); try done; by apply (times_range (Npos p))). done.
  - done.
Qed.

(** ** The jump *)
Lemma is_nth_bit_set_odd c n : is_nth_bit_set c n = N.odd (N.shiftr c n).
Proof.
  rewrite <- N.bit0_odd, N.shiftr_spec by lia. rewrite N.add_0_l. unfold is_nth_bit_set. destruct (N.testbit c n) eqn:E.
  - destruct (N.eqb_spec (N.land c (N.shiftl 1 n)) 0) as [H | H]; [|done]. assert (N.testbit (N.land c (N.shiftl 1 n)) n = true) as H'; [|by rewrite H, N.bits_0 in H'].
    rewrite N.land_spec, E, N.shiftl_spec_high, N.sub_diag by lia. done.
  - destruct (N.eqb_spec (N.land c (N.shiftl 1 n)) 0) as [H | H]; [done|]. exfalso. apply H, N.bits_inj. intros i. rewrite N.land_spec, N.bits_0. destruct (N.eq_dec i n) as [-> | Hi]; [by rewrite E|].
    rewrite N.shiftl_1_l, N.pow2_bits_false by done. apply andb_false_r.
Qed.
Lemma shiftr_small c n : c < 2 ^ n -> N.shiftr c n = 0.
Proof. intros H. rewrite N.shiftr_div_pow2. by apply N.div_small. Qed.
Lemma jump_inner_act c (k : nat) n acc s : in_range s -> c < 2 ^ (n + N.of_nat k) -> jump_inner c k n acc s = (vx acc (act (N.shiftr c n) s), times (N.of_nat k) step s).
Proof.
  revert n acc s. induction k as [|k IH]; intros n acc s Hs Hc.
  - cbn [jump_inner]. rewrite shiftr_small; [by rewrite vx_zero_r|]. by rewrite N.add_0_r in Hc.
  - cbn [jump_inner]. rewrite IH; [|by apply step_range|by replace (n + 1 + N.of_nat k) with (n + N.of_nat (S k)) by lia]. f_equal.
    + rewrite (act_half (N.shiftr c n)) by done. rewrite is_nth_bit_set_odd. rewrite act_step by done. rewrite N.div2_spec, N.shiftr_shiftr. rewrite vx_assoc. f_equal. destruct (N.odd _); [done|by rewrite vx_zero_r].
    + rewrite Nat2N.inj_succ, <- N.add_1_r, times_add. done.
Qed.
Definition jump_poly : N := N.lxor 0xd2a98b26625eee7b (mul 0xdddf9b1090aa7ac1 (powx 64)).
Lemma jump_poly_ok : jump_poly = powx (2 ^ 96).
Proof. vm_compute. reflexivity. Qed.
Lemma jump_act s : in_range s -> jump s = act jump_poly s.
Proof.
  intros Hs. unfold jump. rewrite jump_inner_act; [|done|vm_compute; reflexivity]. rewrite jump_inner_act; [|by apply times_range|vm_compute; reflexivity].
  rewrite !N.shiftr_0_r, vx_zero_l. unfold jump_poly. rewrite act_lxor, act_mul, act_pow by done. done.
Qed.
Lemma jump_steps s : in_range s -> jump s = times (2 ^ 96) step s.
Proof. intros Hs. rewrite jump_act by done. rewrite jump_poly_ok. by apply act_pow. Qed.

(** ** The period *)
Definition period : N := 2 ^ 128 - 1.
Lemma powx_period : powx period = 1.
Proof. vm_compute. reflexivity. Qed.
Lemma times_period s : in_range s -> times period step s = s.
Proof. intros Hs. rewrite <- act_pow, powx_period by done. done. Qed.
(** Inverses of x^(period/p) + 1. *)
Definition inverses : list (Z * N) := [(3%Z, 54068298935904287807113292502129625048); (5%Z, 252984460828109805362750244483772499955); (17%Z, 14638274987662255644002560645656116664);
  (257%Z, 64995446946714984731522728281250855382); (641%Z, 147226009004791688851259506029169943670); (65537%Z, 79856766895708353110086771044499417758);
  (274177%Z, 73455679920047619786217816082196946620); (6700417%Z, 334912597042788931219965943129196371669); (67280421310721%Z, 114123264804619493085611495459400395026)].
Lemma inverses_factors : map fst inverses = factors.
Proof. reflexivity. Qed.
Lemma inverses_ok : forallb (fun pu => mul pu.2 (N.lxor (powx (period / Z.to_N pu.1)) 1) =? 1) inverses = true.
Proof. vm_compute. reflexivity. Qed.
Lemma no_small_period p s : p ∈ factors -> in_range s -> times (period / Z.to_N p) step s = s -> s = zero.
Proof.
  intros Hp Hs H. rewrite <- inverses_factors in Hp. apply elem_of_list_In, in_map_iff in Hp as ([p' u] & E & Hi). cbn in E. subst p'.
  pose proof inverses_ok as Ho. rewrite forallb_forall in Ho. apply Ho in Hi. apply N.eqb_eq in Hi. cbn [fst snd] in Hi. revert Hi H. generalize (period / Z.to_N p). intros n Hi H.
  rewrite <- act_pow in H by done. change s with (act 1 s) at 1. rewrite <- Hi, act_mul, act_lxor by done. rewrite H. change (act 1 s) with s. rewrite vx_self.
  clear. destruct u as [|u]; [done|]. cbn [act]. induction u as [u IH|u IH|]; cbn [actp]; [rewrite IH; reflexivity|rewrite IH; reflexivity|reflexivity].
Qed.
Lemma order_full k s : in_range s -> s <> zero -> 0 < k < period -> times k step s <> s.
Proof.
  intros Hs Hz Hk H. assert (Hg : times (N.gcd k period) step s = s).
  { apply (gcd_closed (fun i => times i step s = s)); [|done|by apply times_period]. intros i j Hj Hi Hj1. rewrite (N.div_mod i j Hj), N.add_comm, times_add, (N.mul_comm j), times_mul in Hi. rewrite (times_fixed (times j step)) in Hi by done. done. }
  assert (Hgd := N.gcd_divide_r k period). assert (Hgk := N.gcd_divide_l k period). revert Hg Hgd Hgk. generalize (N.gcd k period). intros g Hg [r Hr] [r' Hr'].
  destruct (proper_divisor (Z.of_N g)) as (p & Hp & Hd).
  - exists (Z.of_N r). rewrite <- N2Z.inj_mul, <- Hr. reflexivity.
  - change (2 ^ 128 - 1)%Z with (Z.of_N period). destruct Hk as [Hk0 Hk]. clear -Hr' Hk0 Hk. assert (0 < g) by nia. assert (g <= k) by (apply N.divide_pos_le; [lia|by exists r']). lia.
  - apply Hz, (no_small_period p s Hp Hs). destruct Hd as [m Hm]. assert (Hp0 : (0 < p)%Z). { pose proof factors_prime as HF. rewrite Forall_forall in HF. pose proof (Znumtheory.prime_ge_2 p (HF p Hp)). lia. }
    assert (Hm0 : (0 <= m)%Z). { assert (0 <= m * Z.of_N g)%Z; [rewrite <- Hm; by apply Z.div_pos|]. assert (0 < g) by (clear -Hr' Hk; nia). nia. }
    assert (E : period / Z.to_N p = Z.to_N m * g). { apply N2Z.inj. rewrite N2Z.inj_div, N2Z.inj_mul, !Z2N.id by lia. exact Hm. }
    rewrite E, times_mul. by apply times_fixed.
Qed.
Lemma step_nonzero s : in_range s -> s <> zero -> step s <> zero.
Proof.
  intros Hs Hz H. apply Hz. rewrite <- (times_period s Hs). replace period with (N.pred period + 1) by reflexivity. rewrite times_add. change (times 1 step s) with (step s). rewrite H. by apply times_fixed.
Qed.
Lemma times_nonzero n s : in_range s -> s <> zero -> times n step s <> zero.
Proof.
  intros Hs Hz. assert (H : in_range (times n step s) /\ times n step s <> zero); [|apply H]. unfold times. apply (N.iter_invariant n _ step (fun s => in_range s /\ s <> zero)); [|done].
  intros t [Ht Htz]. split; [by apply step_range|by apply step_nonzero].
Qed.
Lemma times_inj s i j : in_range s -> s <> zero -> i < period -> j < period -> times i step s = times j step s -> i = j.
Proof.
  intros Hs Hz. assert (Hlt : forall i j, i < j -> j < period -> times i step s <> times j step s).
  { clear i j. intros i j Hij Hj H. replace j with ((j - i) + i) in H by lia. rewrite times_add in H. symmetry in H. revert H. apply order_full; [by apply times_range|by apply times_nonzero|lia]. }
  intros Hi Hj H. destruct (N.lt_trichotomy i j) as [Hl | [Hl | Hl]]; [|done|]; exfalso; [by apply (Hlt i j)|by apply (Hlt j i)].
Qed.
Lemma times_mod s i : in_range s -> times i step s = times (i mod period) step s.
Proof.
  intros Hs. rewrite (N.div_mod i period) at 1 by done. rewrite N.add_comm, times_add, (N.mul_comm period), times_mul. rewrite (times_fixed (times period step) (i / period) s (times_period s Hs)). reflexivity.
Qed.
Definition code (s : xstate) : N := s.1 + 2 ^ 64 * s.2.
Lemma code_inj s t : in_range s -> in_range t -> code s = code t -> s = t.
Proof.
  intros [H1 H2] [H3 H4] E. unfold code in E. assert (s.2 = t.2) as E2.
  { assert (forall x y, x < 2 ^ 64 -> (x + 2 ^ 64 * y) / 2 ^ 64 = y) as Hd. { intros x y Hx. rewrite N.mul_comm, N.div_add, (N.div_small x) by done. apply N.add_0_l. } rewrite <- (Hd s.1 s.2 H1), <- (Hd t.1 t.2 H3). by rewrite E. }
  rewrite E2 in E. destruct s as [a b], t as [c d]. cbn [fst snd] in *. subst. f_equal. apply N.add_cancel_r in E. exact E.
Qed.
Lemma all_visited s s' : in_range s -> s <> zero -> in_range s' -> s' <> zero -> exists i, i < period /\ times i step s = s'.
Proof.
  intros Hs Hz Hs' Hz'. set (l := (fun i => times (N.of_nat i) step s) <$> seq 0 (N.to_nat period)).
  assert (Hl : forall t, t ∈ l -> exists i, i < period /\ times i step s = t).
  { intros t Ht. unfold l in Ht. apply elem_of_list_fmap in Ht as (i & -> & Hi). apply elem_of_seq in Hi. exists (N.of_nat i). split; [lia|done]. }
  apply Hl. assert (Hc : code <$> l ≡ₚ N.of_nat <$> seq 1 (N.to_nat period)).
  { apply submseteq_Permutation_length_le; [unfold l; by rewrite !fmap_length, !seq_length|]. apply NoDup_submseteq.
    - apply NoDup_fmap_2_strong.
      + intros a b Ha Hb. destruct (Hl a Ha) as (i & _ & <-), (Hl b Hb) as (j & _ & <-). apply code_inj; by apply times_range.
      + unfold l. apply NoDup_fmap_2_strong; [|apply NoDup_seq]. intros i j Hi Hj E. apply elem_of_seq in Hi, Hj. apply times_inj in E; [lia|done|done|lia|lia].
    - intros c Hc. apply elem_of_list_fmap in Hc as (t & -> & Ht). destruct (Hl t Ht) as (i & _ & <-). pose proof (times_range i s Hs) as [Ha Hb]. pose proof (times_nonzero i s Hs Hz) as Hn.
      revert Ha Hb Hn. generalize (times i step s). intros [a b] Ha Hb Hn. cbn [fst snd] in *. apply elem_of_list_fmap. exists (N.to_nat (code (a, b))). split; [by rewrite N2Nat.id|]. apply elem_of_seq. unfold code, period. cbn [fst snd].
      assert (a <> 0 \/ b <> 0) as Hor. { destruct (N.eq_dec a 0) as [-> | ?]; [|by left]. destruct (N.eq_dec b 0) as [-> | ?]; [done|by right]. } change (2 ^ 128) with (2 ^ 64 * 2 ^ 64). nia. }
  assert (Hin : code s' ∈ code <$> l).
  { rewrite Hc. apply elem_of_list_fmap. exists (N.to_nat (code s')). split; [by rewrite N2Nat.id|]. apply elem_of_seq. destruct s' as [a b], Hs' as [Ha Hb]. unfold code, period. cbn [fst snd] in *.
    assert (a <> 0 \/ b <> 0) as Hor. { destruct (N.eq_dec a 0) as [-> | ?]; [|by left]. destruct (N.eq_dec b 0) as [-> | ?]; [done|by right]. } change (2 ^ 128) with (2 ^ 64 * 2 ^ 64). nia. }
  apply elem_of_list_fmap in Hin as (t & E & Ht). destruct (Hl t Ht) as (i & _ & Et). apply code_inj in E; [by subst|done|]. rewrite <- Et. by apply times_range.
Qed.

(** ** Seeding *)
Lemma xorshift_inj k x y : 0 < k -> N.lxor x (N.shiftr x k) = N.lxor y (N.shiftr y k) -> x = y.
Proof.
  intros Hk E. apply N.lxor_eq. assert (H : N.lxor (N.lxor x y) (N.shiftr (N.lxor x y) k) = 0). { rewrite N.shiftr_lxor, lxor4, E. apply N.lxor_nilpotent. }
  apply N.lxor_eq in H. revert H. generalize (N.lxor x y). intros d H. destruct (N.eq_dec d 0) as [|Hd]; [done|]. exfalso. rewrite N.shiftr_div_pow2 in H.
  assert (d / 2 ^ k < d); [|lia]. apply N.div_lt; [lia|]. apply N.pow_gt_1; lia.
Qed.
Lemma wmul_inj c c' x y : c * c' mod 2 ^ 64 = 1 -> x < 2 ^ 64 -> y < 2 ^ 64 -> wmul x c = wmul y c -> x = y.
Proof.
  intros Hc Hx Hy E. unfold wmul in E. rewrite !trunc_mod in E. assert (H : forall z, z < 2 ^ 64 -> ((z * c) mod 2 ^ 64 * c') mod 2 ^ 64 = z).
  { intros z Hz. rewrite N.mul_mod_idemp_l by done. rewrite <- N.mul_assoc, <- N.mul_mod_idemp_r by done. rewrite Hc, N.mul_1_r. by apply N.mod_small. }
  rewrite <- (H x Hx), <- (H y Hy). by rewrite E.
Qed.
Lemma wadd_range x y : wadd x y < 2 ^ 64.
Proof. apply trunc_range. Qed.
Lemma wmul_range x y : wmul x y < 2 ^ 64.
Proof. apply trunc_range. Qed.
Lemma splitmix_range st : (splitmix st).1 < 2 ^ 64.
Proof. unfold splitmix. cbn [fst]. apply lxor_range; [apply wmul_range|apply shiftr_range, wmul_range]. Qed.
Lemma splitmix_inj st st' : (splitmix st).1 = (splitmix st').1 -> (splitmix st).2 = (splitmix st').2.
Proof.
  unfold splitmix. cbn [fst snd]. intros E. apply xorshift_inj in E; [|lia].
  assert (Hw : forall x k, x < 2 ^ 64 -> N.lxor x (N.shiftr x k) < 2 ^ 64) by (intros; apply lxor_range; [done|by apply shiftr_range]).
  apply (wmul_inj _ 0x319642b2d24d8ec3) in E; [|vm_compute; reflexivity|apply Hw, wmul_range|apply Hw, wmul_range]. apply xorshift_inj in E; [|lia].
  apply (wmul_inj _ 0x96de1b173f119089) in E; [|vm_compute; reflexivity|apply Hw, wadd_range|apply Hw, wadd_range]. apply xorshift_inj in E; [|lia]. done.
Qed.
Lemma seed_ok seed : in_range (seed_sequence seed) /\ seed_sequence seed <> zero.
Proof.
  assert (E : seed_sequence seed = ((splitmix seed).1, (splitmix (splitmix seed).2).1)). { unfold seed_sequence. destruct (splitmix seed) as [a st]. cbn [fst snd]. by destruct (splitmix st). }
  rewrite E. split; [split; apply splitmix_range|]. intros H. assert (H1 : (splitmix seed).1 = 0) by exact (f_equal fst H). assert (H2 : (splitmix (splitmix seed).2).1 = 0) by exact (f_equal snd H). clear H.
  assert (H12 : (splitmix seed).1 = (splitmix (splitmix seed).2).1) by (rewrite H1, H2; reflexivity). apply splitmix_inj in H12. unfold splitmix in H12. cbn [fst snd] in H12.
  pose proof (wadd_range seed 0x9e3779b97f4a7c15) as Hr. revert H12 Hr. generalize (wadd seed 0x9e3779b97f4a7c15). intros x Hx Hr. unfold wadd in Hx. rewrite trunc_mod in Hx.
  destruct (N.lt_ge_cases (x + 0x9e3779b97f4a7c15) (2 ^ 64)) as [Hl | Hg].
  - rewrite N.mod_small in Hx by done. lia.
  - assert (Hm : (x + 0x9e3779b97f4a7c15) mod 2 ^ 64 = x + 0x9e3779b97f4a7c15 - 2 ^ 64). { symmetry. apply (N.mod_unique _ _ 1); lia. } rewrite Hm in Hx. lia.
Qed.
