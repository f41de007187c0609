(** The correctly rounded library of real functions: every result is the float nearest to the exact value, with the
    special values of IEEE 754.  It shows that the requirements of SpecLibm.v can be met. *)

From Coq Require Import ZArith Bool Reals.
From Flocq Require Import Core.Core IEEE754.BinarySingleNaN.
From Verif Require Import Base Scalar MReal MFloat MSign MComplexF.
Local Open Scope R_scope.

Section CR.
Context {prec emax : Z} {Hprec : Prec_gt_0 prec} {Hemax : Prec_lt_emax prec emax}.
Notation fl := (binary_float prec emax).
Notation fexp := (FLT_exp (3 - emax - prec) prec).

(** The float nearest to [r]; [s0] is the sign of a zero result for [r = 0]. *)
Definition cr_sign (r : R) (s0 : bool) : bool := if Rlt_dec r 0 then true else if Rlt_dec 0 r then false else s0.
Definition cr (r : R) (s0 : bool) : fl :=
  if Rlt_dec (Rabs (round radix2 fexp ZnearestE r)) (bpow radix2 emax) then
    fset_sign (cr_sign r s0)
      (binary_normalize prec emax Hprec Hemax mode_NE (ZnearestE (scaled_mantissa radix2 fexp r)) (cexp radix2 fexp r) false)
  else B754_infinity (cr_sign r s0).

Definition cr_atan2 (y x : fl) : fl :=
  if orb (is_nan y) (is_nan x) then B754_nan
  else fset_sign (Bsign y)
    (match y, x with
     | B754_infinity _, B754_infinity sx => cr (if sx then 3 * PI / 4 else PI / 4) false
     | B754_infinity _, _ => cr (PI / 2) false
     | _, B754_infinity sx => if sx then cr PI false else B754_zero false
     | B754_zero _, B754_zero sx => if sx then cr PI false else B754_zero false
     | _, _ => cr (ratan2 (Rabs (B2R y)) (B2R x)) false
     end).

Definition cr_libm (nb : bool) : libm fl := {|
  m_exp := fun x => match x with B754_nan => B754_nan | B754_infinity s => if s then B754_zero false else B754_infinity false
                   | _ => cr (exp (B2R x)) false end;
  m_ln := fun x => match x with B754_nan => B754_nan | B754_infinity s => if s then B754_nan else B754_infinity false
                  | B754_zero _ => B754_infinity true
                  | _ => if Bsign x then B754_nan else cr (ln (B2R x)) false end;
  m_sin := fun x => if is_finite x then cr (sin (B2R x)) (Bsign x) else B754_nan;
  m_cos := fun x => if is_finite x then cr (cos (B2R x)) false else B754_nan;
  m_sinh := fun x => if is_finite x then cr (sinh (B2R x)) (Bsign x) else x;
  m_cosh := fun x => if is_finite x then cr (cosh (B2R x)) false else fabs x;
  m_cbrt := fun x => if is_finite x then fset_sign (Bsign x) (cr (rcbrt (Rabs (B2R x))) false) else x;
  m_atan2 := cr_atan2;
  m_pi := cr PI false;
  m_frac_pi_2 := cr (PI / 2) false;
  m_frac_pi_4 := cr (PI / 4) false;
  m_nb := nb
|}.
End CR.
