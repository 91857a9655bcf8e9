(** Model of gapp::detail::fifo_cache, /repo/src/utility/cache.hpp.

    The unordered_map [cache_] is an association list (a lookup returns the
    first match; the model keeps keys unique as insert_or_assign does); the
    iterators stored in [order_] are represented by the keys they point to, so
    dereferencing or erasing one that is not in the map is undefined behaviour
    ([None]).  Simplified: buckets and rehashing are not modelled (the code
    reserves capacity+1 buckets, lines 39 and 161, so that no rehash invalidates
    the iterators); [order_] is the circular buffer model itself. *)
From stdpp Require Import list.
From Verif Require Import CircularBufferModel.

Section Cache.
Context {K V : Type} `{EqDecision K}.

(** cache.hpp 189-190. *)
Record cache := Cache { map_ : list (K * V); order_ : cbuf K }.

(** unordered_map::find. *)
Fixpoint assoc (m : list (K * V)) (k : K) : option V :=
  match m with
  | [] => None
  | (k', v) :: m => if decide (k = k') then Some v else assoc m k
  end.

(** unordered_map::insert_or_assign, cache.hpp 110, 144: overwrite an existing
    mapping in place, otherwise add a new one; the flag is [inserted]. *)
Fixpoint insert_or_assign (m : list (K * V)) (k : K) (v : V) : list (K * V) * bool :=
  match m with
  | [] => ([(k, v)], true)
  | (k', v') :: m =>
      if decide (k = k') then ((k', v) :: m, false)
      else let (m', ins) := insert_or_assign m k v in ((k', v') :: m', ins)
  end.

(** unordered_map::try_emplace, cache.hpp 124. *)
Definition try_emplace (m : list (K * V)) (k : K) (v : V) : list (K * V) * bool :=
  match assoc m k with Some _ => (m, false) | None => insert_or_assign m k v end.

(** unordered_map::erase(iterator), cache.hpp 113, 127, 147; erasing an
    iterator to an element that is gone is undefined behaviour. *)
Fixpoint map_erase (m : list (K * V)) (k : K) : option (list (K * V)) :=
  match m with
  | [] => None
  | (k', v') :: m => if decide (k = k') then Some m else m' ← map_erase m k; Some ((k', v') :: m')
  end.

(** cache.hpp 38-41. *)
Definition cache_new (cap : nat) : cache := Cache [] (new cap).

(** cache.hpp 68-69. *)
Definition cache_size (c : cache) : nat := length (map_ c).
Definition cache_capacity (c : cache) : nat := capacity (order_ c).

(** cache.hpp 83-97 get, 78-81 contains. *)
Definition cache_get (c : cache) (k : K) : option V :=
  if Nat.eqb (cache_size c) 0 then None else assoc (map_ c) k.
Definition cache_contains (c : cache) (k : K) : bool :=
  match assoc (map_ c) k with Some _ => true | None => false end.

(** The common tail of the three inserting functions, cache.hpp 111-114,
    125-128, 145-148. *)
Definition register (o : cbuf K) (k : K) (mi : list (K * V) * bool) : option cache :=
  let (m, inserted) := mi in
  if inserted then
    m ← (if is_full o then k0 ← get_front o; map_erase m k0 else Some m);
    o ← emplace_back o k;
    Some (Cache m o)
  else Some (Cache m o).

(** cache.hpp 103-115. *)
Definition cache_insert (c : cache) (k : K) (v : V) : option cache :=
  if Nat.eqb (cache_capacity c) 0 then Some c
  else register (order_ c) k (insert_or_assign (map_ c) k v).

(** cache.hpp 117-129. *)
Definition cache_try_insert (c : cache) (k : K) (v : V) : option cache :=
  if Nat.eqb (cache_capacity c) 0 then Some c
  else register (order_ c) k (try_emplace (map_ c) k v).

(** The loop of cache.hpp 142-149. *)
Fixpoint insert_loop (c : cache) (l : list (K * V)) : option cache :=
  match l with
  | [] => Some c
  | (k, v) :: l => c ← register (order_ c) k (insert_or_assign (map_ c) k v); insert_loop c l
  end.

(** cache.hpp 131-150; the range is given as the keys paired with f(key). *)
Definition cache_insert_range (c : cache) (l : list (K * V)) : option cache :=
  if Nat.eqb (cache_capacity c) 0 then Some c
  else
    let insert_count := Nat.min (cache_capacity c) (length l) in
    insert_loop c (drop (length l - insert_count) l).

(** cache.hpp 152-156. *)
Definition cache_clear (c : cache) : option cache :=
  o ← clear (order_ c); Some (Cache [] o).

(** cache.hpp 158-163. *)
Definition cache_reset (c : cache) (n : nat) : option cache :=
  c ← cache_clear c; o ← reset (order_ c) n; Some (Cache (map_ c) o).

(** The loop of the copy constructor, cache.hpp 47-50: [*it] is read from the
    other map through the stored iterator. *)
Fixpoint copy_loop (m : list (K * V)) (ks : list (option K)) (c : cache) : option cache :=
  match ks with
  | [] => Some c
  | None :: _ => None
  | Some k :: ks =>
      v ← assoc m k;
      let m' := match assoc (map_ c) k with Some _ => map_ c | None => map_ c ++ [(k, v)] end in
      o ← emplace_back (order_ c) k;
      copy_loop m ks (Cache m' o)
  end.
(** cache.hpp 43-51. *)
Definition cache_copy (c : cache) : option cache :=
  copy_loop (map_ c) (elements (order_ c)) (cache_new (cache_capacity c)).

(** cache.hpp 103-163: the mutating operations (and copying). *)
Inductive cop := CInsert (k : K) (v : V) | CTryInsert (k : K) (v : V) | CInsertRange (l : list (K * V))
               | CClear | CReset (n : nat) | CCopy.

Definition cstep (c : cache) (o : cop) : option cache :=
  match o with
  | CInsert k v => cache_insert c k v
  | CTryInsert k v => cache_try_insert c k v
  | CInsertRange l => cache_insert_range c l
  | CClear => cache_clear c
  | CReset n => cache_reset c n
  | CCopy => cache_copy c
  end.

Fixpoint crun (c : cache) (os : list cop) : option cache :=
  match os with [] => Some c | o :: os => c ← cstep c o; crun c os end.

End Cache.
Arguments cache : clear implicits.
Arguments cop : clear implicits.
