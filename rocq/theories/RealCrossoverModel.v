(** Model of the real coded crossovers, /repo/src/crossover/real.cpp, over binary64
    (no fused operations, no extended precision).

    Random numbers are arguments, one (pair) per gene even where the code draws none.
    std::pow is an argument.  A violated GAPP_ASSERT or precondition is [None]. *)
From stdpp Require Import list.
From Flocq Require Import BinarySingleNaN.
From Verif Require Import FloatBase FloatModel CrossoverModel.

(** candidate.hpp 30-58 and 173-178: Bounds. *)
Record bounds := Bounds { lower : b64; upper : b64 }.

Definition fone : b64 := fmk 1 0.
Definition ftwo : b64 := fmk 2 0.
Definition fhalf : b64 := fmk 1 (-1).

(** std::clamp; its precondition is that hi < lo does not hold. *)
Definition clamp (v lo hi : b64) : option b64 :=
  if flt hi lo then None else Some (if flt v lo then lo else if flt hi v then hi else v).
(** std::minmax(a, b). *)
Definition fminmax (a b : b64) : b64 * b64 := if flt b a then (b, a) else (a, b).
(** rng.hpp 346-351: randomReal(lbound, ubound); [r] is the value of randomReal(). *)
Definition randomReal_in (l u r : b64) : option b64 :=
  if fle l u then Some (fadd l (fmul (fsub u l) r)) else None.

(** The loop over the genes, each child's gene clamped to the bounds. *)
Section loop.
Context {D : Type}.
Variable f : bounds -> b64 -> b64 -> D -> option (b64 * b64).
Fixpoint real_loop (bs : list bounds) (p1 p2 : list b64) (ds : list D) : option (list b64 * list b64) :=
  match bs, p1, p2, ds with
  | [], [], [], _ => Some ([], [])
  | b :: bs, x :: p1, y :: p2, d :: ds =>
    '(u, v) ← f b x y d; '(us, vs) ← real_loop bs p1 p2 ds; Some (u :: us, v :: vs)
  | _, _, _, _ => None
  end.
End loop.
Definition clamp2 (b : bounds) (u v : b64) : option (b64 * b64) :=
  u ← clamp u (lower b) (upper b); v ← clamp v (lower b) (upper b); Some (u, v).

(** real.cpp 20-42. *)
Definition arithmetic_gene (alpha : b64) (b : bounds) (x y : b64) (_ : unit) : option (b64 * b64) :=
  clamp2 b (fadd (fmul alpha x) (fmul (fsub fone alpha) y)) (fadd (fmul (fsub fone alpha) x) (fmul alpha y)).
Definition Arithmetic (alpha : b64) (bs : list bounds) (p1 p2 : list b64) : option (list b64 * list b64) :=
  real_loop (arithmetic_gene alpha) bs p1 p2 (replicate (length bs) ()).

(** real.cpp 44-69. *)
Definition blx_gene (alpha : b64) (b : bounds) (x y : b64) (r : b64 * b64) : option (b64 * b64) :=
  let '(range_min, range_max) := fminmax x y in
  let range_ext := fmul alpha (fsub range_max range_min) in
  u ← randomReal_in (fsub range_min range_ext) (fadd range_max range_ext) r.1;
  v ← randomReal_in (fsub range_min range_ext) (fadd range_max range_ext) r.2;
  clamp2 b u v.
Definition BLXa (alpha : b64) (rs : list (b64 * b64)) (bs : list bounds) (p1 p2 : list b64) := real_loop (blx_gene alpha) bs p1 p2 rs.

(** real.cpp 71-114. *)
Section sbx.
Variable t : tolerances.
Variable pow : b64 -> b64 -> b64.
Variable eta : b64.
Definition sbx_exponent : b64 := fneg (fadd eta fone).
Definition alphaToBetaPrime (alpha u : b64) : b64 :=
  if fle u (fdiv fone alpha) then pow (fmul u alpha) sbx_exponent
  else pow (fdiv fone (fsub ftwo (fmul u alpha))) sbx_exponent.
Definition sbx_gene (b : bounds) (x y : b64) (u : b64 * b64) : option (b64 * b64) :=
  let '(gene_low, gene_high) := fminmax x y in
  if floatIsEqual t gene_high gene_low then Some (x, y) else
  let beta1 := fadd fone (fdiv (fmul ftwo (fsub gene_low (lower b))) (fsub gene_high gene_low)) in
  let beta2 := fadd fone (fdiv (fmul ftwo (fsub (upper b) gene_high)) (fsub gene_high gene_low)) in
  let alpha1 := fsub ftwo (pow beta1 sbx_exponent) in
  let alpha2 := fsub ftwo (pow beta2 sbx_exponent) in
  let beta1_prime := alphaToBetaPrime alpha1 u.1 in
  let beta2_prime := alphaToBetaPrime alpha2 u.2 in
  clamp2 b (fmul fhalf (fsub (fadd x y) (fmul beta1_prime (fabs (fsub x y)))))
           (fmul fhalf (fadd (fadd x y) (fmul beta2_prime (fabs (fsub x y))))).
Definition SimulatedBinary (us : list (b64 * b64)) (bs : list bounds) (p1 p2 : list b64) := real_loop sbx_gene bs p1 p2 us.
End sbx.

(** real.cpp 116-147; the fitness vectors decide which parent is the better one. *)
Definition wright_gene (w : b64 * b64) (b : bounds) (x y : b64) (_ : unit) : option (b64 * b64) :=
  clamp2 b (fadd (fmul w.1 (fsub x y)) x) (fadd (fmul w.2 (fsub x y)) x).
Definition Wright (t : tolerances) (w : b64 * b64) (bs : list bounds) (f1 f2 p1 p2 : list b64) : option (list b64 * list b64) :=
  check (length f1 = length f2) (
  let '(b1, b2) := if paretoCompareLess t f1 f2 then (p2, p1) else (p1, p2) in
  real_loop (wright_gene w) bs b1 b2 (replicate (length bs) ())).
