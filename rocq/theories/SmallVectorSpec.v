(** Specification: a vector is a list.  Histories act on two vectors. *)
From stdpp Require Import list list_numbers.
From Verif Require Import SmallVectorModel.

Section Spec.
Context {T : Type}.

(** One step on the pair of lists; a moved-from vector is valid, its contents
    are unspecified. *)
Inductive vstep : list T * list T -> svop T -> list T * list T -> Prop :=
  | VInit l k xs : vstep (l, k) (OInit xs) (xs, k)
  | VPush l k x : vstep (l, k) (OPush x) (l ++ [x], k)
  | VPop l k x : vstep (l ++ [x], k) OPop (l, k)
  | VReserve l k n : vstep (l, k) (OReserve n) (l, k)
  | VShrink l k : vstep (l, k) OShrink (l, k)
  | VResizeDown l k n x : n <= length l -> vstep (l, k) (OResize n x) (take n l, k)
  | VResizeUp l k n x : length l <= n -> vstep (l, k) (OResize n x) (l ++ replicate (n - length l) x, k)
  | VClear l k : vstep (l, k) OClear ([], k)
  | VReset l k : vstep (l, k) OReset ([], k)
  | VEmplace l1 l2 k x : vstep (l1 ++ l2, k) (OEmplace (length l1) x) (l1 ++ x :: l2, k)
  | VInsert l1 l2 k xs : vstep (l1 ++ l2, k) (OInsert (length l1) xs) (l1 ++ xs ++ l2, k)
  | VInsertInput l1 l2 k xs : vstep (l1 ++ l2, k) (OInsertInput (length l1) xs) (l1 ++ xs ++ l2, k)
  | VErase l1 l2 l3 k :
      vstep (l1 ++ l2 ++ l3, k) (OErase (length l1) (length l1 + length l2)) (l1 ++ l3, k)
  | VAssign l k xs : vstep (l, k) (OAssign xs) (xs, k)
  | VAssignInput l k xs : vstep (l, k) (OAssignInput xs) (xs, k)
  | VCopyAssign l k : vstep (l, k) OCopyAssign (k, k)
  | VMoveAssign l k fwd k' : vstep (l, k) (OMoveAssign fwd) (k, k')
  | VMoveConstruct l k k' : vstep (l, k) OMoveConstruct (k, k')
  | VSwap l k : vstep (l, k) OSwap (k, l)
  | VOther l k : vstep (l, k) OOther (k, l).

Inductive vrun : list T * list T -> list (svop T) -> list T * list T -> Prop :=
  | VNil s : vrun s [] s
  | VCons s o s1 os s2 : vstep s o s1 -> vrun s1 os s2 -> vrun s (o :: os) s2.

(** The operations are called within their preconditions. *)
Definition legal (s : list T * list T) (o : svop T) : Prop :=
  match o with
  | OPop => s.1 <> []
  | OEmplace p _ | OInsert p _ | OInsertInput p _ => p <= length s.1
  | OErase i j => i <= j /\ j <= length s.1
  | _ => True
  end.

(** The operations without the two defects: pop_back only for trivially
    destructible types; insertion of several elements only if the displaced
    tail is not longer than the inserted part (or nothing is inserted). *)
Definition clean (triv : bool) (s : list T * list T) (o : svop T) : Prop :=
  match o with
  | OPop => triv = true
  | OInsert p xs => length s.1 - p <= length xs \/ xs = []
  | _ => True
  end.

(** A client that stays within the preconditions whatever the unspecified
    contents of moved-from vectors are, and avoids the two defects. *)
Fixpoint vsafe (triv : bool) (s : list T * list T) (os : list (svop T)) : Prop :=
  match os with
  | [] => True
  | o :: os => legal s o /\ clean triv s o /\ forall s', vstep s o s' -> vsafe triv s' os
  end.
End Spec.
