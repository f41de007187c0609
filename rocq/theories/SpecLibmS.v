(** Specification vocabulary: further requirements on the real functions of the standard library, used for the inverse
    complex functions at finite arguments. *)

From Coq Require Import ZArith Bool Reals.
From Flocq Require Import Core.Core IEEE754.BinarySingleNaN.
From Verif Require Import Base Scalar MComplex MFloat MComplexF.
Local Open Scope R_scope.

Section SpecLibmS.
Context {prec emax : Z} {Hprec : Prec_gt_0 prec} {Hemax : Prec_lt_emax prec emax}.
Notation fl := (binary_float prec emax).

(** Signs: the two-argument arctangent has the sign of its first argument, signed zeros and infinities included; the
    sine has the sign of its argument between -2 and 2. *)
Record libm_signs (L : libm fl) : Prop := {
  sg_atan2 : forall y x, is_nan y = false -> is_nan x = false ->
    is_finite (m_atan2 L y x) = true /\ Rabs (B2R (m_atan2 L y x)) <= 4 /\ Bsign (m_atan2 L y x) = Bsign y;
  sg_atan2_inf : m_atan2 L (B754_zero false) (B754_infinity false) = B754_zero false;
  sg_sin : forall x, is_finite x = true -> Rabs (B2R x) <= 2 -> Bsign (m_sin L x) = Bsign x
}.

(** Correct rounding of three of the functions. *)
Record libm_rounded (L : libm fl) : Prop := {
  rd_sin : forall x, is_finite x = true ->
    B2R (m_sin L x) = round radix2 (FLT_exp (3 - emax - prec) prec) ZnearestE (sin (B2R x));
  rd_cos : forall x, is_finite x = true ->
    B2R (m_cos L x) = round radix2 (FLT_exp (3 - emax - prec) prec) ZnearestE (cos (B2R x));
  rd_atan2 : forall y x, is_finite y = true -> is_finite x = true -> 0 < B2R x ->
    B2R (m_atan2 L y x) = round radix2 (FLT_exp (3 - emax - prec) prec) ZnearestE (atan (B2R y / B2R x))
}.
End SpecLibmS.
