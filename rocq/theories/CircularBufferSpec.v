(** Specification: a bounded double-ended queue, as a plain list. *)
From stdpp Require Import list.
From Verif Require Import CircularBufferModel.

Section Spec.
Context {T : Type}.

(** capacity and elements, front first *)
Record deque := Deque { dcap : nat; ditems : list T }.

(** Pushing at one end of a full deque drops exactly the element at the other
    end.  [None]: the documented precondition does not hold. *)
Definition dstep (d : deque) (o : op T) : option deque :=
  let c := dcap d in let l := ditems d in
  match o with
  | PushBack v => if decide (c = 0) then None
                  else Some (Deque c (if decide (length l = c) then tail l ++ [v] else l ++ [v]))
  | PushFront v => if decide (c = 0) then None
                   else Some (Deque c (if decide (length l = c) then v :: take (c - 1) l else v :: l))
  | PopFront => match l with [] => None | _ :: l' => Some (Deque c l') end
  | PopBack => match l with [] => None | _ => Some (Deque c (take (length l - 1) l)) end
  | Clear => Some (Deque c [])
  | Reset n => Some (Deque n [])
  | SetCapacity n => Some (Deque n (take n l))
  end.

Fixpoint drun (d : deque) (os : list (op T)) : option deque :=
  match os with
  | [] => Some d
  | o :: os => d ← dstep d o; drun d os
  end.

(** What a client of the buffer can see equals the list [l]. *)
Definition looks_like (b : cbuf T) (d : deque) : Prop :=
  capacity b = dcap d /\ size b = length (ditems d) /\ size b <= capacity b /\
  elements b = map Some (ditems d) /\
  (forall i, get b i = ditems d !! i) /\
  get_front b = head (ditems d) /\ get_back b = last (ditems d) /\
  is_empty b = bool_decide (ditems d = []) /\
  is_full b = bool_decide (length (ditems d) = dcap d).
End Spec.
Arguments deque : clear implicits.
