(** Model of the binary encoding of the real benchmark functions,
    /repo/src/problems/benchmark_function.cpp 12-33 and benchmark_function.hpp 146-180, over
    binary64.

    A BinaryGene is 0 or 1 (EncodingModel.v), so a bool here.  std::pow(2.0, n) is the argument
    [pow2].  A violated GAPP_ASSERT is [None]. *)
From stdpp Require Import list.
From Flocq Require Import BinarySingleNaN.
From Verif Require Import FloatBase RealCrossoverModel.

Definition fbit (b : bool) : b64 := if b then fone else fzero.
(** 22-25: std::accumulate over the bits of a variable. *)
Definition accumulate_bits (bits : list bool) : b64 := fold_left (fun acc bit => fadd (fmul acc ftwo) (fbit bit)) bits fzero.

Section convert.
Variable pow2 : nat -> b64.
(** 27-29: the value of a variable. *)
Definition convert_var (bits : list bool) (b : bounds) (var_bits : nat) : b64 :=
  let v := fdiv (accumulate_bits bits) (fsub (pow2 var_bits) fone) in
  let v := fmul v (fsub (upper b) (lower b)) in
  fadd v (lower b).
(** 12-33: convert; the bits of variable i are those from i * var_bits to (i + 1) * var_bits. *)
Definition convert (bchrom : list bool) (bs : list bounds) (var_bits : nat) : option (list b64) :=
  if decide (length bchrom = var_bits * length bs) then
    Some (imap (fun i b => convert_var (take ((i + 1) * var_bits - i * var_bits) (drop (i * var_bits) bchrom)) b var_bits) bs)
  else None.
(** benchmark_function.hpp 174-178: invoke of a binary chromosome; [binary_len] and [real_len]
    are the lengths given to the two base classes, [f] is the real coded function. *)
Definition invoke_binary {Y} (f : list b64 -> option Y) (binary_len real_len : nat) (bs : list bounds) (chrom : list bool) : option Y :=
  let var_bits := binary_len / real_len in
  vars ← convert chrom bs var_bits; f vars.
(** benchmark_function.hpp 146-165: the constructors make the binary chromosomes nvars * var_bits
    long. *)
Definition constructed_binary_len (nvars var_bits : nat) : nat := nvars * var_bits.
End convert.
