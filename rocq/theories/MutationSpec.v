(** Specification of the mutation operators. *)
From Coq Require Import Reals ZArith.
From stdpp Require Import list.
From Flocq Require Import Core BinarySingleNaN.
From Verif Require Import FloatBase RandModel.
Local Open Scope nat_scope.

Section shapes.
Context {A : Type}.
Implicit Types c d : list A.
(** [d] is [c] with a part of at least two genes reversed. *)
Definition reversed_part c d : Prop := exists a m b, c = a ++ m ++ b /\ d = a ++ reverse m ++ b /\ 2 <= length m.
(** [d] is [c] with a part rearranged. *)
Definition shuffled_part c d : Prop := exists a m m' b, c = a ++ m ++ b /\ d = a ++ m' ++ b /\ m' ≡ₚ m.
(** [d] is [c] with two neighbouring non-empty parts exchanged. *)
Definition exchanged_parts c d : Prop := exists a m n b, c = a ++ m ++ n ++ b /\ d = a ++ n ++ m ++ b /\ m <> [] /\ n <> [].
(** [d] is [c] with the genes at two different positions exchanged. *)
Definition two_swapped c d : Prop := exists i j x y, i <> j /\ c !! i = Some x /\ c !! j = Some y /\ d !! i = Some y /\ d !! j = Some x /\
  length d = length c /\ forall k, k <> i -> k <> j -> d !! k = c !! k.
(** [d] is [c] with the genes at three different positions rotated. *)
Definition three_rotated c d : Prop := exists i j k x y z, NoDup [i; j; k] /\ c !! i = Some x /\ c !! j = Some y /\ c !! k = Some z /\
  d !! i = Some z /\ d !! j = Some x /\ d !! k = Some y /\ length d = length c /\ forall l, l ∉ [i; j; k] -> d !! l = c !! l.
End shapes.

(** std::shuffle rearranges its range. *)
Definition shuffle_contract {A} (shuffle : list A -> rand (list A)) : Prop :=
  forall l s, exists l' s', shuffle l s = Some (l', s') /\ l' ≡ₚ l.
(** Any number of words of the stream have been used. *)
Definition later (s s' : stream) : Prop := exists k, forall n, s' n = s (k + n).

(** The longest part an operator may choose: a share of the chromosome (rounded), but at
    least [least]. *)
Definition longest_part (least : Z) (share : b64) (len : nat) : Z :=
  Z.max least (Zfloor (round radix2 (FLT_exp (-1074) 53) ZnearestE (B2R share * IZR (Z.of_nat len))%R)).
Section parts.
Context {A : Type}.
Implicit Types c d : list A.
Definition reversed_part_upto (n : Z) c d : Prop := exists a m b, c = a ++ m ++ b /\ d = a ++ reverse m ++ b /\ (2 <= Z.of_nat (length m) <= n)%Z.
Definition shuffled_part_upto (n : Z) c d : Prop := exists a m m' b, c = a ++ m ++ b /\ d = a ++ m' ++ b /\ m' ≡ₚ m /\ (2 <= Z.of_nat (length m) <= n)%Z.
(** A part of at most [n] genes was moved to another place. *)
Definition moved_part_upto (n : Z) c d : Prop := exists a m b a' b', c = a ++ m ++ b /\ d = a' ++ m ++ b' /\ a ++ b = a' ++ b' /\
  length a <> length a' /\ (1 <= Z.of_nat (length m) <= n)%Z.
End parts.

(** [k] different positions were chosen; the genes there are in relation [R] with the old
    ones, the others are unchanged. *)
Definition mutated_at {A} (R : nat -> A -> A -> Prop) (k : Z) (c d : list A) : Prop :=
  length d = length c /\ exists pos : list nat, Z.of_nat (length pos) = k /\ NoDup pos /\ Forall (fun i => i < length c) pos /\
  forall i x, c !! i = Some x -> exists y, d !! i = Some y /\ (i ∈ pos -> R i x y) /\ (i ∉ pos -> y = x).
