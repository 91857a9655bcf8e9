(** Specification: a bitset is a list of booleans. *)
From stdpp Require Import list list_numbers.
From Verif Require Import BitsetModel.

(** Growing keeps the old bits and appends copies of [v]. *)
Definition lresize (l : list bool) (n : nat) (v : bool) : list bool :=
  take n l ++ replicate (n - length l) v.

Definition lstep (l : list bool) (o : bop) : option (list bool) :=
  match o with
  | BNew n v => Some (replicate n v)
  | BClear => Some []
  | BResize n v => Some (lresize l n v)
  | BFill v => Some (replicate (length l) v)
  | BSet i v => if decide (i < length l) then Some (<[i := v]> l) else None
  | BFlip i => b ← l !! i; Some (<[i := negb b]> l)
  | BNot => Some (map negb l)
  end.
Fixpoint lrun (l : list bool) (os : list bop) : option (list bool) :=
  match os with [] => Some l | o :: os => l ← lstep l o; lrun l os end.

(** First position holding [v], the length if there is none. *)
Fixpoint first_pos (v : bool) (l : list bool) : nat :=
  match l with [] => 0 | b :: l => if Bool.eqb b v then 0 else S (first_pos v l) end.

Definition bits_look_like (b : bitset) (l : list bool) : Prop :=
  bsize b = length l /\ (forall i, bs_get b i = l !! i) /\ (forall v, bs_find_first b v = first_pos v l) /\
  (l <> [] ->
     bs_popcount b = Some (length (filter (fun x => x = true) l)) /\
     bs_any_set b = Some (bool_decide (true ∈ l)) /\
     bs_none_set b = Some (bool_decide (true ∉ l)) /\
     bs_all_set b = Some (bool_decide (false ∉ l))).

(** A resize that does not leave a partially used block behind. *)
Definition resize_ok (sz n : nat) : Prop :=
  n <= sz \/ sz mod 64 = 0 \/ (n - 1) / 64 = (sz - 1) / 64.

(** All growing resizes of a history are of that kind. *)
Fixpoint resizes_ok (l : list bool) (os : list bop) : Prop :=
  match os with
  | [] => True
  | o :: os =>
      match o with BResize n _ => resize_ok (length l) n | _ => True end /\
      match lstep l o with Some l' => resizes_ok l' os | None => True end
  end.
