(** Model of gapp::detail::dynamic_bitset, /repo/src/utility/dynamic_bitset.hpp.

    A block (std::size_t, 64 bits, lines 24 and 31) is an [N] below 2^64; the
    block vector is a list.  Operations that have undefined behaviour or violate
    a GAPP_ASSERT return [None].  Simplified: the small_vector holding the blocks
    is a plain list (it is modelled in SmallVectorModel.v); copying is trivial. *)
From Coq Require Import NArith.
From stdpp Require Import list list_numbers.

(** dynamic_bitset.hpp 31: block_size. *)
Definition W : nat := 64.
Notation word := N (only parsing).

(** bit.hpp: ones<T>, zeros<T>. *)
Definition ones : word := N.ones 64.
Definition zeros : word := 0%N.

(** bit.hpp 74-77. *)
Definition block_of (v : bool) : word := if v then ones else zeros.

(** bit.hpp 58-64. *)
Definition mask_right_n (n : nat) : word :=
  if Nat.eqb n 0 then zeros else N.shiftr ones (N.of_nat (W - n)).

(** ~w on an unsigned 64-bit value. *)
Definition wnot (w : word) : word := N.lxor w ones.

(** The bits of a word, least significant first; std::popcount, countr_zero and
    countr_one count in this list. *)
Definition bits (w : word) : list bool := map (fun i => N.testbit w (N.of_nat i)) (seq 0 W).
Fixpoint count_true (l : list bool) : nat :=
  match l with [] => 0 | b :: l => (if b then 1 else 0) + count_true l end.
Fixpoint run_of (v : bool) (l : list bool) : nat :=
  match l with [] => 0 | b :: l => if Bool.eqb b v then S (run_of v l) else 0 end.
Definition popcount_w (w : word) : nat := count_true (bits w).
Definition countr_zero (w : word) : nat := run_of false (bits w).
Definition countr_one (w : word) : nat := run_of true (bits w).

(** dynamic_bitset.hpp 207-208. *)
Record bitset := Bitset { blocks : list word; bsize : nat }.

(** size / block_size + bool(size % block_size), lines 73, 78, 122. *)
Definition block_count (n : nat) : nat := n / W + (if Nat.eqb (n mod W) 0 then 0 else 1).

(** dynamic_bitset.hpp 70, 72-80. *)
Definition bs_empty : bitset := Bitset [] 0.
Definition bs_new (n : nat) (v : bool) : bitset := Bitset (replicate (block_count n) (block_of v)) n.

(** dynamic_bitset.hpp 94-102. *)
Definition bs_get (b : bitset) (i : nat) : option bool :=
  if decide (i < bsize b) then
    w ← blocks b !! (i / W);
    Some (negb (N.eqb (N.land w (N.shiftl 1 (N.of_nat (i mod W)))) 0))
  else None.

(** reference::set / clear / flip, dynamic_bitset.hpp 50-52 and 58-63. *)
Definition bs_set (b : bitset) (i : nat) (v : bool) : option bitset :=
  if decide (i < bsize b) then
    w ← blocks b !! (i / W);
    let mask := N.shiftl 1 (N.of_nat (i mod W)) in
    let w' := if v then N.lor w mask else N.land w (wnot mask) in
    Some (Bitset (<[i / W := w']> (blocks b)) (bsize b))
  else None.
Definition bs_flip (b : bitset) (i : nat) : option bitset :=
  if decide (i < bsize b) then
    w ← blocks b !! (i / W);
    Some (Bitset (<[i / W := N.lxor w (N.shiftl 1 (N.of_nat (i mod W)))]> (blocks b)) (bsize b))
  else None.

(** dynamic_bitset.hpp 114-118. *)
Definition bs_clear (b : bitset) : bitset := Bitset [] 0.

(** dynamic_bitset.hpp 231-249. *)
Definition full_block_count (b : bitset) : nat := bsize b / W.
Definition partial_block_size (b : bitset) : nat := bsize b mod W.
Definition partial_block_mask (b : bitset) : word := mask_right_n (partial_block_size b).
Definition partial_block (b : bitset) : option word :=
  w ← last (blocks b); Some (N.land w (partial_block_mask b)).

(** vector::resize(n, value). *)
Definition vec_resize (l : list word) (n : nat) (v : word) : list word :=
  take n l ++ replicate (n - length l) v.

(** dynamic_bitset.hpp 120-131; partial_block_mask() still sees the old size. *)
Definition bs_resize (b : bitset) (n : nat) (v : bool) : option bitset :=
  let bl := vec_resize (blocks b) (block_count n) (block_of v) in
  if Nat.ltb (bsize b) n then
    w ← last bl;
    let w1 := N.land w (partial_block_mask b) in
    let w2 := N.lor w1 (N.land (wnot (partial_block_mask b)) (block_of v)) in
    Some (Bitset (<[length bl - 1 := w2]> bl) n)
  else Some (Bitset bl n).

(** dynamic_bitset.hpp 133-139. *)
Definition bs_fill (b : bitset) (v : bool) : bitset :=
  Bitset (map (fun _ => block_of v) (blocks b)) (bsize b).

(** dynamic_bitset.hpp 146-156. *)
Definition bs_popcount (b : bitset) : option nat :=
  p ← partial_block b;
  Some (fold_left (fun c w => c + popcount_w w) (take (full_block_count b) (blocks b)) 0 + popcount_w p).

(** dynamic_bitset.hpp 158-166, 178-181: the partial block is read only when no
    full block decides. *)
Definition bs_any_set (b : bitset) : option bool :=
  if existsb (fun w => negb (N.eqb w zeros)) (take (full_block_count b) (blocks b)) then Some true
  else p ← partial_block b; Some (negb (N.eqb p zeros)).
Definition bs_none_set (b : bitset) : option bool := a ← bs_any_set b; Some (negb a).

(** dynamic_bitset.hpp 168-176. *)
Definition bs_all_set (b : bitset) : option bool :=
  if existsb (fun w => negb (N.eqb w ones)) (take (full_block_count b) (blocks b)) then Some false
  else p ← partial_block b; Some (Nat.eqb (popcount_w p) (partial_block_size b)).

(** dynamic_bitset.hpp 211-229. *)
Fixpoint find_one_loop (sz i : nat) (l : list word) : nat :=
  match l with
  | [] => sz
  | w :: l => if N.eqb w zeros then find_one_loop sz (S i) l else Nat.min sz (i * W + countr_zero w)
  end.
Fixpoint find_zero_loop (sz i : nat) (l : list word) : nat :=
  match l with
  | [] => sz
  | w :: l => if N.eqb w ones then find_zero_loop sz (S i) l else Nat.min sz (i * W + countr_one w)
  end.
(** dynamic_bitset.hpp 141-144. *)
Definition bs_find_first (b : bitset) (v : bool) : nat :=
  if v then find_one_loop (bsize b) 0 (blocks b) else find_zero_loop (bsize b) 0 (blocks b).

(** dynamic_bitset.hpp 183-193: one complement per block of the operand, written
    into a bitset of the same size. *)
Definition bs_not (b : bitset) : option bitset :=
  if decide (length (blocks b) <= block_count (bsize b)) then
    Some (Bitset (map wnot (blocks b) ++
                  replicate (block_count (bsize b) - length (blocks b)) zeros) (bsize b))
  else None.

(** dynamic_bitset.hpp 195-205. *)
Definition bs_eqb (a b : bitset) : option bool :=
  if negb (Nat.eqb (bsize a) (bsize b)) then Some false
  else if existsb (fun p => negb (N.eqb p.1 p.2))
            (zip (take (full_block_count a) (blocks a)) (take (full_block_count a) (blocks b)))
  then Some false
  else p ← partial_block a; q ← partial_block b; Some (N.eqb p q).

(** The mutating operations. *)
Inductive bop := BNew (n : nat) (v : bool) | BClear | BResize (n : nat) (v : bool) | BFill (v : bool)
               | BSet (i : nat) (v : bool) | BFlip (i : nat) | BNot.
Definition bstep (b : bitset) (o : bop) : option bitset :=
  match o with
  | BNew n v => Some (bs_new n v)
  | BClear => Some (bs_clear b)
  | BResize n v => bs_resize b n v
  | BFill v => Some (bs_fill b v)
  | BSet i v => bs_set b i v
  | BFlip i => bs_flip b i
  | BNot => bs_not b
  end.
Fixpoint brun (b : bitset) (os : list bop) : option bitset :=
  match os with [] => Some b | o :: os => b ← bstep b o; brun b os end.
