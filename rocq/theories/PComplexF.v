(** C115: symmetries of the complex functions over floats. *)

From Coq Require Import ZArith Bool Reals.
From Flocq Require Import Core.Core IEEE754.BinarySingleNaN.
From Verif Require Import Base Scalar MComplex MFloat MFloatVec MSign MComplexF SpecLibm SpecLibmS SpecCR LComplexJP LComplexMP LComplexVP.
Local Open Scope R_scope.

(** ** C115 Conjugation and parity of complex functions *)

(** f(conj z) = conj f(z) for every complex number, finite or not, in every format and for every library of real
    functions that is exactly odd or even where the functions are.  [ceqv] ignores signs of zeros only. *)
Theorem C115_conjugation :
  forall (prec emax : Z) (Hp : Prec_gt_0 prec) (He : Prec_lt_emax prec emax) (L : libm (binary_float prec emax)),
    libm_symmetric L ->
    forall z : complex (binary_float prec emax),
      fc_exp L (cconj z) = cconj (fc_exp L z) /\
      fc_ln L (cconj z) = cconj (fc_ln L z) /\
      fc_sqrt L (cconj z) = cconj (fc_sqrt L z) /\
      fc_cbrt L (cconj z) = cconj (fc_cbrt L z) /\
      (forall e, fc_powf L (cconj z) e = cconj (fc_powf L z e)) /\
      fc_sinh L (cconj z) = cconj (fc_sinh L z) /\
      fc_sin L (cconj z) = cconj (fc_sin L z) /\
      ceqv (fc_cosh L (cconj z)) (cconj (fc_cosh L z)) /\
      ceqv (fc_cos L (cconj z)) (cconj (fc_cos L z)) /\
      ceqv (fc_tanh L (cconj z)) (cconj (fc_tanh L z)) /\
      ceqv (fc_tan L (cconj z)) (cconj (fc_tan L z)) /\
      fc_norm (cconj z) = fc_norm z /\
      fc_arg L (cconj z) = nneg (fc_arg L z) /\
      (forall r a, fc_from_polar L r (nneg a) = cconj (fc_from_polar L r a) /\ fc_cis L (nneg a) = cconj (fc_cis L a)).
Proof. exact c115_conjugation. Qed.
Print Assumptions C115_conjugation.

(** Odd and even functions over all complex numbers, finite or not; atanh and atan need nothing of the library. *)
Theorem C115_parity :
  forall (prec emax : Z) (Hp : Prec_gt_0 prec) (He : Prec_lt_emax prec emax) (L : libm (binary_float prec emax))
    (z : complex (binary_float prec emax)),
    (libm_symmetric L ->
      fc_sinh L (cneg z) = cneg (fc_sinh L z) /\
      fc_sin L (cneg z) = cneg (fc_sin L z) /\
      ceqv (fc_cosh L (cneg z)) (fc_cosh L z) /\
      ceqv (fc_cos L (cneg z)) (fc_cos L z) /\
      ceqv (fc_tanh L (cneg z)) (cneg (fc_tanh L z)) /\
      ceqv (fc_tan L (cneg z)) (cneg (fc_tan L z))) /\
    ceqv (fc_atanh L (cneg z)) (cneg (fc_atanh L z)) /\
    ceqv (fc_atan L (cneg z)) (cneg (fc_atan L z)).
Proof. exact c115_parity. Qed.
Print Assumptions C115_parity.

(** Inverse functions: atanh and atan for every argument not on a branch cut; acosh, asinh, acos and asin for arguments
    with an infinite or NaN part (with the exceptions named).  Finite arguments of the last four are settled by
    [C115_inverse_finite] and [C115_inverse_finite_refuted]. *)
Theorem C115_inverse_partial :
  forall (prec emax : Z) (Hp : Prec_gt_0 prec) (He : Prec_lt_emax prec emax) (L : libm (binary_float prec emax)),
    libm_symmetric L -> libm_special L ->
    forall z : complex (binary_float prec emax),
      ((cis_finite z = true -> nis0 (im z) = true -> Rabs (B2R (re z)) <= 1) ->
       ceqv (fc_atanh L (cconj z)) (cconj (fc_atanh L z))) /\
      ((cis_finite z = true -> nis0 (re z) = true -> Rabs (B2R (im z)) <= 1) ->
       ceqv (fc_atan L (cconj z)) (cconj (fc_atan L z))) /\
      (cis_finite z = false ->
       fc_acosh L (cconj z) = cconj (fc_acosh L z) /\
       (andb (is_nan (re z)) (fis_infinite (im z)) = false ->
        fc_asinh L (cconj z) = cconj (fc_asinh L z) /\ fc_asinh L (cneg z) = cneg (fc_asinh L z)) /\
       (andb (fis_infinite (re z)) (orb (is_nan (im z)) (nis0 (im z))) = false ->
        fc_acos L (cconj z) = cconj (fc_acos L z)) /\
       (andb (is_nan (im z)) (fis_infinite (re z)) = false ->
        fc_asin L (cconj z) = cconj (fc_asin L z))).
Proof. exact c115_inverse_partial. Qed.
Print Assumptions C115_inverse_partial.

(** Finite arguments off the branch cuts: acosh everywhere, asinh in the right half-plane.  The library must moreover have
    an arctangent and a sine of the right signs ([libm_signs]). *)
Theorem C115_inverse_finite :
  forall (prec emax : Z) (Hp : Prec_gt_0 prec) (He : Prec_lt_emax prec emax) (L : libm (binary_float prec emax)),
    (3 <= emax)%Z -> libm_symmetric L -> libm_special L -> libm_signs L ->
    forall z : complex (binary_float prec emax), cis_finite z = true ->
      ((B2R (im z) = 0 -> 1 <= B2R (re z)) -> ceqv (fc_acosh L (cconj z)) (cconj (fc_acosh L z))) /\
      (0 <= B2R (re z) -> (B2R (re z) = 0 -> Rabs (B2R (im z)) <= 1) ->
       ceqv (fc_asinh L (cconj z)) (cconj (fc_asinh L z))).
Proof. exact c115_inverse_finite. Qed.
Print Assumptions C115_inverse_finite.

(** The rest is false of [f64].  In the left half-plane asinh cancels: at -2^60 + 3 2^32 i, which is on no cut, it has the
    same value as at the conjugate, with imaginary part pi, even with correctly rounded sine, cosine and arctangent.
    acos(2^60 i) is finite but acos(-2^60 i) has an infinite imaginary part; asin(-2^60 i) is finite but asin(2^60 i) has
    an infinite imaginary part; neither function has a cut on the imaginary axis. *)
Theorem C115_inverse_finite_refuted :
  (forall L : libm f64, libm_symmetric L -> libm_special L -> libm_rounded L ->
     exists z : complex f64, cis_finite z = true /\ B2R (re z) < 0 /\ B2R (im z) <> 0 /\
       fc_asinh L (cconj z) = fc_asinh L z /\ 2 <= B2R (im (fc_asinh L z))) /\
  (forall L : libm f64, libm_special L ->
     (exists z : complex f64, cis_finite z = true /\ B2R (re z) = 0 /\ 1 < B2R (im z) /\
       cis_finite (fc_acos L z) = true /\ im (fc_acos L (cconj z)) = B754_infinity false) /\
     (exists z : complex f64, cis_finite z = true /\ B2R (re z) = 0 /\ B2R (im z) < -1 /\
       cis_finite (fc_asin L z) = true /\ im (fc_asin L (cconj z)) = B754_infinity false)).
Proof. exact c115_inverse_finite_refuted. Qed.
Print Assumptions C115_inverse_finite_refuted.

(** The further requirements can be met as well, and 3 - 5 i meets the hypotheses of [C115_inverse_finite]. *)
Example C115_example_finite :
  (forall nb : bool,
    libm_signs (cr_libm nb : libm f64) /\ libm_rounded (cr_libm nb : libm f64) /\
    libm_signs (cr_libm nb : libm f32) /\ libm_rounded (cr_libm nb : libm f32)) /\
  (let z := mkC (f64_of_Z 3) (f64_of_Z (-5)) in cis_finite z = true /\ B2R (im z) <> 0 /\ 0 <= B2R (re z) /\ B2R (re z) <> 0).
Proof. exact c115_example_finite. Qed.

(** Arguments with an infinite part give the limits of the C standard: acosh has real part +infinity; asinh an infinite
    real part with the sign of the argument's; acos and asin an infinite imaginary part; atanh is a signed zero plus
    +-pi/2 i. *)
Theorem C115_infinite_arguments :
  forall (prec emax : Z) (Hp : Prec_gt_0 prec) (He : Prec_lt_emax prec emax) (L : libm (binary_float prec emax))
    (z : complex (binary_float prec emax)),
    fis_infinite (re z) = true \/ fis_infinite (im z) = true ->
    re (fc_acosh L z) = B754_infinity false /\
    fis_infinite (re (fc_asinh L z)) = true /\
    (is_nan (re z) = false -> Bsign (re (fc_asinh L z)) = Bsign (re z)) /\
    fis_infinite (im (fc_acos L z)) = true /\
    fis_infinite (im (fc_asin L z)) = true /\
    (exists s, re (fc_atanh L z) = B754_zero s) /\
    (is_nan (im z) = false -> im (fc_atanh L z) = fcopysign (m_nb L) (m_frac_pi_2 L) (im z)).
Proof. exact c115_infinite_arguments. Qed.
Print Assumptions C115_infinite_arguments.

(** What fails, for every library with the usual special values:
    asinh is not odd on finite numbers, since asinh(2^60) is finite and asinh(-2^60) is -infinity;
    atanh(2 + 0i) and atanh(2 - 0i) are the same number, with a negative imaginary part;
    acos(infinity + 0i) and acos(infinity - 0i) are the same number, with imaginary part -infinity;
    asinh(NaN + infinity i) and its conjugate argument give real parts of opposite signs;
    atanh(1 - 0i) has the imaginary part +0, although atanh(1 + 0i) has it too. *)
Theorem C115_refuted :
  forall L : libm f64, libm_special L ->
    (exists z : complex f64, cis_finite z = true /\ cis_finite (fc_asinh L z) = true /\
       re (fc_asinh L (cneg z)) = B754_infinity true) /\
    (exists z : complex f64, cis_finite z = true /\ fc_atanh L (cconj z) = fc_atanh L z /\
       is_finite (im (fc_atanh L z)) = true /\ B2R (im (fc_atanh L z)) <= -1) /\
    (exists z : complex f64, re z = B754_infinity false /\ im z = B754_zero false /\
       fc_acos L (cconj z) = fc_acos L z /\ im (fc_acos L z) = B754_infinity true) /\
    (exists z : complex f64, re (fc_asinh L z) = B754_infinity false /\ re (fc_asinh L (cconj z)) = B754_infinity true) /\
    (exists z : complex f64, cis_finite z = true /\ im z = B754_zero false /\
       im (fc_atanh L z) = B754_zero false /\ im (fc_atanh L (cconj z)) = B754_zero false).
Proof. exact c115_refuted. Qed.
Print Assumptions C115_refuted.

(** The values of the inverse functions at every argument with an infinite part. *)
Theorem C115_infinite_values :
  forall (prec emax : Z) (Hp : Prec_gt_0 prec) (He : Prec_lt_emax prec emax) (L : libm (binary_float prec emax)) (s t : bool)
    (x : binary_float prec emax), is_finite x = true ->
    let inf (s : bool) : binary_float prec emax := B754_infinity s in
    let three := (1 + 1 + 1)%N_ in
    (let z := mkC (inf s) (inf t) in
       fc_acos L z = mkC (if s then three * m_frac_pi_4 L else m_frac_pi_4 L)%N_ (inf (negb t)) /\
       fc_acosh L z = mkC (inf false) (fset_sign t (if s then three * m_frac_pi_4 L else m_frac_pi_4 L)%N_) /\
       fc_asinh L z = mkC (inf s) (fset_sign t (m_frac_pi_4 L)) /\ fc_asin L z = mkC (fset_sign s (m_frac_pi_4 L)) (inf t)) /\
    (let z := mkC (inf s) x in
       (B2R x <> 0 -> fc_acos L z = mkC (if s then m_pi L else n0) (inf (negb (Bsign x)))) /\
       fc_acosh L z = mkC (inf false) (fset_sign (Bsign x) (if s then m_pi L else n0)) /\
       fc_asinh L z = mkC (inf s) (fset_sign (Bsign x) n0) /\ fc_asin L z = mkC (fset_sign s (m_frac_pi_2 L)) (inf (Bsign x))) /\
    (let z := mkC x (inf t) in
       fc_acos L z = mkC (m_frac_pi_2 L) (inf (negb t)) /\
       fc_acosh L z = mkC (inf false) (fset_sign t (m_frac_pi_2 L)) /\
       fc_asinh L z = mkC (inf (Bsign x)) (fset_sign t (m_frac_pi_2 L)) /\ fc_asin L z = mkC (fset_sign (Bsign x) n0) (inf t)).
Proof. exact c115_infinite_values. Qed.
Print Assumptions C115_infinite_values.

(** The requirements on the library can be met: the correctly rounded one meets them, in [f64] and [f32]. *)
Example C115_example :
  forall nb : bool,
    libm_symmetric (cr_libm nb : libm f64) /\ libm_special (cr_libm nb : libm f64) /\
    libm_symmetric (cr_libm nb : libm f32) /\ libm_special (cr_libm nb : libm f32).
Proof. exact c115_example. Qed.

(** Arguments in the scope of the partial statement: 1 + 2i is not on a cut, infinity + i is not finite. *)
Example C115_example_values :
  nis0 (im (mkC (f64_of_Z 1) (f64_of_Z 2))) = false /\
  cis_finite (mkC (B754_infinity false) (f64_of_Z 1) : complex f64) = false /\
  andb (fis_infinite (B754_infinity false : f64)) (orb (is_nan (f64_of_Z 1)) (nis0 (f64_of_Z 1))) = false.
Proof. exact c115_example_values. Qed.
