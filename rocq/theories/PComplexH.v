(** C118: overflow in the complex functions over floats. *)

From Coq Require Import ZArith Bool Reals.
From Flocq Require Import Core.Core IEEE754.BinarySingleNaN.
From Verif Require Import Base Scalar MComplex MFloat MFloatVec MSign MComplexF SpecLibm SpecCR LComplexKP.
Local Open Scope R_scope.

(** ** C118 Overflow and the real axis *)

(** Finite results of finite arguments, for every library with bounded sine and cosine and the usual special values:
    [cis] and [from_polar_decomposition] always; [exp], [cosh], [sinh], [cos] and [sin] when the real functions they use
    do not overflow; [norm] and [sqrt] when the squared norm does not overflow; [ln] when it does not underflow to zero
    either. *)
Theorem C118_finite :
  forall (prec emax : Z) (Hp : Prec_gt_0 prec) (He : Prec_lt_emax prec emax) (L : libm (binary_float prec emax)),
    libm_special L ->
    (forall r a : binary_float prec emax, is_finite r = true -> is_finite a = true ->
       cis_finite (fc_cis L a) = true /\ cis_finite (fc_from_polar L r a) = true) /\
    (forall z : complex (binary_float prec emax), cis_finite z = true ->
      (is_finite (m_exp L (re z)) = true -> cis_finite (fc_exp L z) = true) /\
      (is_finite (m_cosh L (re z)) = true -> is_finite (m_sinh L (re z)) = true ->
         cis_finite (fc_cosh L z) = true /\ cis_finite (fc_sinh L z) = true) /\
      (is_finite (m_cosh L (nneg (im z))) = true -> is_finite (m_sinh L (nneg (im z))) = true ->
         cis_finite (fc_cos L z) = true /\ cis_finite (fc_sin L z) = true) /\
      (is_finite (re z * re z + im z * im z)%N_ = true ->
         is_finite (fc_norm z) = true /\ cis_finite (fc_sqrt L z) = true /\
         (B2R (re z * re z + im z * im z)%N_ <> 0 -> cis_finite (fc_ln L z) = true))).
Proof. exact c118_finite. Qed.
Print Assumptions C118_finite.

(** On the real axis the complex functions give the values of the real ones, with a zero imaginary part.  For [ln] and
    [sqrt] the square of the argument must neither overflow nor underflow. *)
Theorem C118_real_axis :
  forall (prec emax : Z) (Hp : Prec_gt_0 prec) (He : Prec_lt_emax prec emax) (L : libm (binary_float prec emax)),
    (2 <= prec)%Z -> libm_special L ->
    forall x : binary_float prec emax, is_finite x = true ->
      (0 < B2R x -> is_finite (x * x)%N_ = true -> bpow radix2 (2 - emax) <= B2R x * B2R x ->
         fc_norm (mkC x (B754_zero false)) = x /\
         fc_ln L (mkC x (B754_zero false)) = mkC (m_ln L x) (B754_zero false) /\
         fc_sqrt L (mkC x (B754_zero false)) = mkC (fsqrt x) (B754_zero false)) /\
      (is_finite (m_exp L x) = true -> exists s, fc_exp L (mkC x (B754_zero false)) = mkC (m_exp L x) (B754_zero s)) /\
      (is_finite (m_cosh L x) = true -> exists s, fc_sinh L (mkC x (B754_zero false)) = mkC (m_sinh L x) (B754_zero s)) /\
      (is_finite (m_sinh L x) = true -> exists s, fc_cosh L (mkC x (B754_zero false)) = mkC (m_cosh L x) (B754_zero s)) /\
      (exists s, fc_sin L (mkC x (B754_zero false)) = mkC (m_sin L x) (B754_zero s)) /\
      (exists s, fc_cos L (mkC x (B754_zero false)) = mkC (m_cos L x) (B754_zero s)).
Proof. exact c118_real_axis. Qed.
Print Assumptions C118_real_axis.

(** Finite results of finite arguments fail on the real axis, for every such library and every format:
    exp(x + 0i) has a NaN imaginary part for every x from [emax] on; tanh(x + 0i) is NaN although tanh is at most 1;
    ln(x) is infinite and sqrt(x) is infinity + NaN i when x * x overflows; ln(x) is -infinity and sqrt(x) is zero for
    x > 0 when x * x underflows.  In [f64] all of these happen: at 2000, 2^600 and 2^-600. *)
Theorem C118_overflow_refuted :
  (forall (prec emax : Z) (Hp : Prec_gt_0 prec) (He : Prec_lt_emax prec emax) (L : libm (binary_float prec emax)),
     libm_special L ->
     forall x : binary_float prec emax, is_finite x = true ->
       (IZR emax <= B2R x -> fc_exp L (mkC x (B754_zero false)) = mkC (B754_infinity false) B754_nan) /\
       (IZR emax + 2 <= B2R x -> is_finite (x + x)%N_ = true -> fc_tanh L (mkC x (B754_zero false)) = mkC B754_nan (B754_zero false)) /\
       (0 < B2R x -> (x * x)%N_ = B754_infinity false ->
          fc_ln L (mkC x (B754_zero false)) = mkC (B754_infinity false) (B754_zero false) /\
          fc_sqrt L (mkC x (B754_zero false)) = mkC (B754_infinity false) B754_nan) /\
       (0 < B2R x -> (x * x)%N_ = B754_zero false ->
          fc_ln L (mkC x (B754_zero false)) = mkC (B754_infinity true) (B754_zero false) /\
          fc_sqrt L (mkC x (B754_zero false)) = mkC (B754_zero false) (B754_zero false))) /\
  (exists x y z : f64,
     (is_finite x = true /\ B2R x = 2000 /\ is_finite (x + x)%N_ = true) /\
     (is_finite y = true /\ B2R y = bpow radix2 600 /\ nmul y y = B754_infinity false) /\
     (is_finite z = true /\ B2R z = bpow radix2 (-600) /\ nmul z z = B754_zero false)).
Proof. exact c118_overflow_refuted. Qed.
Print Assumptions C118_overflow_refuted.

(** 3 is in the range of [C118_real_axis], and the correctly rounded library meets its requirements. *)
Example C118_example :
  let x := f64_of_Z 3 in
  is_finite x = true /\ 0 < B2R x /\ is_finite (nmul x x) = true /\ bpow radix2 (2 - 1024) <= B2R x * B2R x /\
  (forall nb, libm_special (cr_libm nb : libm f64)).
Proof. exact c118_example. Qed.
