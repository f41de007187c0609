(** Specification vocabulary: what is required of the real functions of the standard library, and equality of floats up
    to the sign of zeros.  Independent of the models except for the record of functions. *)

From Coq Require Import ZArith Bool Reals.
From Flocq Require Import Core.Core IEEE754.BinarySingleNaN.
From Verif Require Import Base Scalar MComplex MFloat MComplexF.
Local Open Scope num_scope.

Section SpecLibm.
Context {prec emax : Z} {Hprec : Prec_gt_0 prec} {Hemax : Prec_lt_emax prec emax}.
Notation fl := (binary_float prec emax).

(** Equal, or both zero: what [==] says of numbers that are not NaN, with NaN equal to itself. *)
Definition feqv (x y : fl) : Prop := x = y \/ exists s t, x = B754_zero s /\ y = B754_zero t.
Definition ceqv (z w : complex fl) : Prop := feqv (re z) (re w) /\ feqv (im z) (im w).

(** Odd and even functions are so exactly, including signed zeros, infinities and NaN. *)
Record libm_symmetric (L : libm fl) : Prop := {
  sym_sin : forall x, m_sin L (- x) = - m_sin L x;
  sym_cos : forall x, m_cos L (- x) = m_cos L x;
  sym_sinh : forall x, m_sinh L (- x) = - m_sinh L x;
  sym_cosh : forall x, m_cosh L (- x) = m_cosh L x;
  sym_atan2 : forall y x, m_atan2 L (- y) x = - m_atan2 L y x;
  sym_ln_nan : m_ln L B754_nan = B754_nan
}.

(** Values at zeros and infinities, ranges and overflow, as IEEE 754 (section 9.2) and the C standard prescribe them. *)
Record libm_special (L : libm fl) : Prop := {
  sp_sin : forall x, is_finite x = true -> is_finite (m_sin L x) = true /\ (Rabs (B2R (m_sin L x)) <= 1)%R;
  sp_cos : forall x, is_finite x = true -> is_finite (m_cos L x) = true /\ (Rabs (B2R (m_cos L x)) <= 1)%R;
  sp_sin_0 : forall s, m_sin L (B754_zero s) = B754_zero s;
  sp_cos_0 : forall s, m_cos L (B754_zero s) = 1;
  sp_ln : forall x, is_finite x = true -> (0 < B2R x)%R ->
    is_finite (m_ln L x) = true /\ (Rabs (B2R (m_ln L x)) <= bpow radix2 (emax - 2))%R;
  sp_ln_0 : m_ln L (B754_zero false) = B754_infinity true;
  sp_ln_inf : m_ln L (B754_infinity false) = B754_infinity false;
  sp_atan2 : forall y x, is_finite y = true -> is_finite x = true ->
    is_finite (m_atan2 L y x) = true /\ (Rabs (B2R (m_atan2 L y x)) <= 4)%R;
  sp_atan2_pos : forall x, is_finite x = true -> (0 < B2R x)%R -> m_atan2 L (B754_zero false) x = B754_zero false;
  sp_atan2_neg : forall x, is_finite x = true -> (B2R x < 0)%R -> m_atan2 L (B754_zero false) x = m_pi L;
  sp_atan2_0 : m_atan2 L (B754_zero false) (B754_zero false) = B754_zero false;
  sp_pi : is_finite (m_pi L) = true /\ (2 <= B2R (m_pi L) <= 4)%R;
  sp_exp_inf : m_exp L (B754_infinity false) = B754_infinity false;
  sp_exp_over : forall x, is_finite x = true -> (bpow radix2 emax <= exp (B2R x))%R -> m_exp L x = B754_infinity false;
  sp_sinh_over : forall x, is_finite x = true -> (bpow radix2 emax <= sinh (B2R x))%R -> m_sinh L x = B754_infinity false;
  sp_cosh_over : forall x, is_finite x = true -> (bpow radix2 emax <= cosh (B2R x))%R -> m_cosh L x = B754_infinity false;
  sp_sinh_0 : forall s, m_sinh L (B754_zero s) = B754_zero s;
  sp_cosh_0 : forall s, m_cosh L (B754_zero s) = 1
}.
End SpecLibm.
