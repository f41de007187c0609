(** Sign functions of the scalar traits, and the classification of complex numbers of floats. *)

From Coq Require Import ZArith Bool.
From Flocq Require Import Core.Core IEEE754.BinarySingleNaN.
From Verif Require Import Base Scalar MComplex MInt MFloat.

Section FloatSign.
Context {prec emax : Z} {Hprec : Prec_gt_0 prec} {Hemax : Prec_lt_emax prec emax}.
Notation fl := (binary_float prec emax).

(** [x.is_infinite()]. *)
Definition fis_infinite (x : fl) : bool := match x with B754_infinity _ => true | _ => false end.

(** complex.rs 648-650 [is_finite], 669-671 [is_nan], 688-690 [is_infinite]. *)
Definition cis_finite (z : complex fl) : bool := andb (is_finite (re z)) (is_finite (im z)).
Definition cis_nan (z : complex fl) : bool := orb (is_nan (re z)) (is_nan (im z)).
Definition cis_infinite (z : complex fl) : bool :=
  andb (negb (cis_nan z)) (orb (fis_infinite (re z)) (fis_infinite (im z))).

(** The sign bit.  [MFloat] has a single NaN without a sign; [nb] is the sign bit the NaN happens to carry. *)
Definition fsignbit (nb : bool) (x : fl) : bool := match x with B754_nan => nb | _ => Bsign x end.

(** numeric lib.rs 1568-1612 ([SimdScalarSigned for f32, f64]): forwarded to the Rust standard library
    ([is_sign_positive]: sign bit clear; [copysign]: the magnitude of [x] with the sign bit of [sign];
    [signum]: NaN for NaN, else [copysign(1, x)]; [abs]: sign bit cleared). *)
Definition fis_sign_positive (nb : bool) (x : fl) : bool := negb (fsignbit nb x).
Definition fis_sign_negative (nb : bool) (x : fl) : bool := fsignbit nb x.
Definition fset_sign (b : bool) (x : fl) : fl :=
  match x with
  | B754_zero _ => B754_zero b
  | B754_infinity _ => B754_infinity b
  | B754_nan => B754_nan
  | B754_finite _ m e H => B754_finite b m e H
  end.
Definition fcopysign (nb : bool) (x sign : fl) : fl := fset_sign (fsignbit nb sign) x.
Definition fsignum (x : fl) : fl := if is_nan x then B754_nan else fset_sign (Bsign x) Bone.
Definition fabs (x : fl) : fl := fset_sign false x.
End FloatSign.

(** numeric lib.rs 1513-1543 ([SimdScalarSigned for i8..i128, isize]); [num_traits::Signed] of the integers:
    [is_positive] is [x > 0], [is_negative] is [x < 0], [signum] is 1, 0 or -1, and [abs] negates the negative numbers
    (wrapping here; builds with overflow checks panic for the least value). *)
Section IntSign.
Context {w : positive}.
Notation int := (wint true w).
Definition iis_sign_positive (x : int) : bool := (0 <? wval x)%Z.
Definition iis_sign_negative (x : int) : bool := (wval x <? 0)%Z.
Definition isignum (x : int) : int :=
  if (0 <? wval x)%Z then n1 else if (wval x =? 0)%Z then n0 else nneg n1.
Definition iabs (x : int) : int := if (wval x <? 0)%Z then nneg x else x.
Definition icopysign (x sign : int) : int := if (0 <=? wval sign)%Z then iabs x else nneg (iabs x).
End IntSign.
