(** The operators [/] and [%] by a scalar, and the assigning forms [/=] and [%=], with panics: the scalar operator is
    a parameter [op], [None] models a panic.  The scalar operators of machine integers and of floats follow. *)

From Coq Require Import ZArith Bool.
From Flocq Require Import Core.Core IEEE754.BinarySingleNaN.
From Verif Require Import Base Scalar MVector MMatrix MComplex MQuat MInt MFloat.

Section Lift.
Context {K : Type} {NK : Num K} (op : K -> K -> option K).

(** vector.rs 1608-1650 [impl_vector_scalar_binary_ops!] (one macro for [Mul], [Div] and [Rem]). *)
Definition vsop {n} (u : vec K n) (other : K) : option (vec K n) :=
  for_range_opt n (fun i result =>
    match op (vat u i) other with Some x => Some (vset result i x) | None => None end) (vzero n).

(** vector.rs 1862-1886 [DivAssign<S>], [RemAssign<S>]. *)
Definition vsop_assign {n} (u : vec K n) (other : K) : option (vec K n) :=
  for_range_opt n (fun i data =>
    match op (vat data i) other with Some x => Some (vset data i x) | None => None end) u.

(** point.rs 827-882 [Div<S>], [Rem<S>]; 987-1005 [DivAssign<S>], [RemAssign<S>]: the operator of the coordinates. *)
Definition psop {n} (p : vec K n) (other : K) : option (vec K n) := vsop p other.
Definition psop_assign {n} (p : vec K n) (other : K) : option (vec K n) := vsop_assign p other.

(** matrix.rs 8477-8556 [Div<S>], [Rem<S>]. *)
Definition msop {r c} (m : mat K r c) (other : K) : option (mat K r c) :=
  for_range_opt c (fun j result => for_range_opt r (fun i result =>
    match op (mget m j i) other with Some x => Some (mset result j i x) | None => None end) result) (mzero r c).

(** matrix.rs 8897-8924 [DivAssign<S>], [RemAssign<S>]. *)
Definition msop_assign {r c} (m : mat K r c) (other : K) : option (mat K r c) :=
  for_range_opt c (fun j data => for_range_opt r (fun i data =>
    match op (mget data j i) other with Some x => Some (mset data j i x) | None => None end) data) m.

(** complex.rs 2549-2596 [Div<S>], 2597-2644 [Rem<S>]; 2807-2835 the assigning forms: real part first. *)
Definition csop (z : complex K) (other : K) : option (complex K) :=
  match op (re z) other with
  | Some a => match op (im z) other with Some b => Some (mkC a b) | None => None end
  | None => None
  end.
Definition csop_assign (z : complex K) (other : K) : option (complex K) :=
  match op (re z) other with
  | Some a =>
      let z := mkC a (im z) in
      match op (im z) other with Some b => Some (mkC (re z) b) | None => None end
  | None => None
  end.

(** quaternion.rs 4238-4330 [Div<S>], [Rem<S>]: scalar part, then vector part. *)
Definition qsop (q : quat K) (other : K) : option (quat K) :=
  match op (qscalar q) other with
  | Some s => match vsop (qvector q) other with Some v => Some (qfrom_parts s v) | None => None end
  | None => None
  end.
(** quaternion.rs 4384-4402 [DivAssign<S>], [RemAssign<S>]: on the coordinates. *)
Definition qsop_assign (q : quat K) (other : K) : option (quat K) := vsop_assign (q : vec K 4) other.
End Lift.

(** Rust's built-in [/] and [%] of [iN]/[uN]: panic on a zero divisor and, in every build mode, on [MIN / -1] and
    [MIN % -1]; the quotient is truncated toward zero. *)
Section IntOps.
Local Open Scope Z_scope.
Definition wdiv_overflows (signed : bool) (w : positive) (x y : Z) : bool :=
  signed && (x =? wmin signed w) && (y =? -1).
Definition wquot {signed w} (x y : wint signed w) : option (wint signed w) :=
  if wval y =? 0 then None else if wdiv_overflows signed w (wval x) (wval y) then None
  else Some (wof signed w (Z.quot (wval x) (wval y))).
Definition wrem {signed w} (x y : wint signed w) : option (wint signed w) :=
  if wval y =? 0 then None else if wdiv_overflows signed w (wval x) (wval y) then None
  else Some (wof signed w (Z.rem (wval x) (wval y))).
End IntOps.

(** Rust's built-in [%] of [f32]/[f64] (C's [fmod]): NaN for an infinite dividend or a zero divisor; the sign is that
    of the dividend; on finite arguments the remainder of the truncating division, here computed on the integer
    significands brought to the smaller exponent. *)
Section FloatOps.
Context {prec emax : Z} {Hprec : Prec_gt_0 prec} {Hemax : Prec_lt_emax prec emax}.
Definition frem (x y : binary_float prec emax) : binary_float prec emax :=
  match x, y with
  | B754_nan, _ | _, B754_nan | B754_infinity _, _ | _, B754_zero _ => B754_nan
  | B754_zero s, _ => B754_zero s
  | B754_finite _ _ _ _, B754_infinity _ => x
  | B754_finite s m1 e1 _, B754_finite _ m2 e2 _ =>
      let e := Z.min e1 e2 in
      let k := Z.rem (Zpos m1 * 2 ^ (e1 - e)) (Zpos m2 * 2 ^ (e2 - e)) in
      binary_normalize prec emax Hprec Hemax mode_NE (SpecFloat.cond_Zopp s k) e s
  end.
End FloatOps.
