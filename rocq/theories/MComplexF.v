(** Elementary functions of complex numbers over IEEE floats (crates/cglinalg_core/src/complex.rs), with all the
    branches for zeros, infinities and NaN.  The real functions of the standard library ([f64::sin], ...) are not
    specified bit by bit by Rust, so the model takes them as a parameter; [+ - * /], [sqrt], comparisons and
    [copysign] are the IEEE operations. *)

From Coq Require Import ZArith Bool.
From Flocq Require Import Core.Core IEEE754.BinarySingleNaN.
From Verif Require Import Base Scalar MComplex MFloat MFloatVec MSign.
Local Open Scope num_scope.

(** The real functions of the scalar type ([SimdScalarFloat]) used by complex.rs; [m_nb] is the sign bit of the NaNs
    passed to [copysign]. *)
Record libm (fl : Type) := Libm {
  m_exp : fl -> fl;
  m_ln : fl -> fl;
  m_sin : fl -> fl;
  m_cos : fl -> fl;
  m_sinh : fl -> fl;
  m_cosh : fl -> fl;
  m_cbrt : fl -> fl;
  m_atan2 : fl -> fl -> fl;
  m_pi : fl;
  m_frac_pi_2 : fl;
  m_frac_pi_4 : fl;
  m_nb : bool
}.
Arguments m_exp {fl}. Arguments m_ln {fl}. Arguments m_sin {fl}. Arguments m_cos {fl}.
Arguments m_sinh {fl}. Arguments m_cosh {fl}. Arguments m_cbrt {fl}. Arguments m_atan2 {fl}.
Arguments m_pi {fl}. Arguments m_frac_pi_2 {fl}. Arguments m_frac_pi_4 {fl}. Arguments m_nb {fl}.

Section ComplexF.
Context {prec emax : Z} {Hprec : Prec_gt_0 prec} {Hemax : Prec_lt_emax prec emax}.
Notation fl := (binary_float prec emax).
Variable L : libm fl.

Definition fnan : fl := B754_nan.
Definition copysign (x sign : fl) : fl := fcopysign (m_nb L) x sign.

(** 729-731 [norm], 824-826 [arg], 845-851 [from_polar_decomposition], 1908-1912 [cis]. *)
Definition fc_norm (z : complex fl) : fl := fsqrt (cmodulus_squared z).
Definition fc_arg (z : complex fl) : fl := m_atan2 L (im z) (re z).
Definition fc_from_polar (scale angle : fl) : complex fl := mkC (scale * m_cos L angle) (scale * m_sin L angle).
Definition fc_cis (phase : fl) : complex fl := mkC (m_cos L phase) (m_sin L phase).

(** 919-924 [exp]. *)
Definition fc_exp (z : complex fl) : complex fl :=
  let exp_re := m_exp L (re z) in
  mkC (exp_re * m_cos L (im z)) (exp_re * m_sin L (im z)).

(** 961-966 [ln]. *)
Definition fc_ln (z : complex fl) : complex fl := mkC (m_ln L (fc_norm z)) (fc_arg z).

(** 1128-1135 [sqrt]. *)
Definition fc_sqrt (z : complex fl) : complex fl :=
  let two := 1 + 1 in
  let sqrt_norm := fsqrt (fc_norm z) in
  let angle := fc_arg z in
  mkC (sqrt_norm * m_cos L (angle / two)) (sqrt_norm * m_sin L (angle / two)).

(** 1160-1166 [cbrt]. *)
Definition fc_cbrt (z : complex fl) : complex fl :=
  let three := 1 + 1 + 1 in
  fc_from_polar (m_cbrt L (fc_norm z)) (fc_arg z / three).

(** 1367-1369 [powf]. *)
Definition fc_powf (z : complex fl) (exponent : fl) : complex fl := fc_exp (cmul_s (fc_ln z) exponent).

(** 1632-1653 [cosh]. *)
Definition fc_cosh (z : complex fl) : complex fl :=
  if andb (fis_infinite (re z)) (negb (is_finite (im z))) then mkC (fabs (re z)) fnan
  else if andb (nis0 (re z)) (negb (is_finite (im z))) then mkC fnan (re z)
  else if andb (nis0 (re z)) (nis0 (im z)) then mkC 1 (im z)
  else if andb (nis0 (im z)) (negb (is_finite (re z))) then mkC (fabs (re z)) (im z)
  else mkC (m_cosh L (re z) * m_cos L (im z)) (m_sinh L (re z) * m_sin L (im z)).

(** 1726-1743 [sinh]. *)
Definition fc_sinh (z : complex fl) : complex fl :=
  if andb (fis_infinite (re z)) (negb (is_finite (im z))) then mkC (re z) fnan
  else if andb (nis0 (re z)) (negb (is_finite (im z))) then mkC (re z) fnan
  else if andb (nis0 (im z)) (negb (is_finite (re z))) then z
  else mkC (m_sinh L (re z) * m_cos L (im z)) (m_cosh L (re z) * m_sin L (im z)).

(** 1810-1832 [tanh]. *)
Definition fc_tanh (z : complex fl) : complex fl :=
  if fis_infinite (re z) then
    if negb (is_finite (im z)) then mkC (copysign 1 (re z)) 0
    else
      let two := 1 + 1 in
      mkC (copysign 1 (re z)) (copysign 0 (m_sin L (two * im z)))
  else if andb (is_nan (re z)) (nis0 (im z)) then z
  else
    let two_times_re := re z + re z in
    let two_times_im := im z + im z in
    let denominator := m_cosh L two_times_re + m_cos L two_times_im in
    mkC (m_sinh L two_times_re / denominator) (m_sin L two_times_im / denominator).

(** 1439-1444 [cos], 1528-1535 [sin], 1580-1587 [tan]. *)
Definition fc_cos (z : complex fl) : complex fl := fc_cosh (mkC (- im z) (re z)).
Definition fc_sin (z : complex fl) : complex fl :=
  let z2 := fc_sinh (mkC (- im z) (re z)) in mkC (im z2) (- re z2).
Definition fc_tan (z : complex fl) : complex fl :=
  let z2 := fc_tanh (mkC (- im z) (re z)) in mkC (im z2) (- re z2).

(** 1674-1709 [acosh]. *)
Definition fc_acosh (z : complex fl) : complex fl :=
  if fis_infinite (re z) then
    if is_nan (im z) then mkC (fabs (re z)) (im z)
    else if fis_infinite (im z) then
      if Bltb 0 (re z) then mkC (re z) (copysign (m_frac_pi_4 L) (im z))
      else
        let three := 1 + 1 + 1 in
        mkC (- re z) (copysign (three * m_frac_pi_4 L) (im z))
    else if Bltb (re z) 0 then mkC (- re z) (copysign (m_pi L) (im z))
    else mkC (re z) (copysign 0 (im z))
  else if is_nan (re z) then
    if fis_infinite (im z) then mkC (fabs (im z)) (re z)
    else mkC (re z) (re z)
  else if fis_infinite (im z) then mkC (fabs (im z)) (copysign (m_frac_pi_2 L) (im z))
  else
    let one := cone in
    let two := cadd one one in
    let w := cadd (fc_sqrt (cdiv (cadd z one) two)) (fc_sqrt (cdiv (csub z one) two)) in
    cmul two (fc_ln w).

(** 1764-1793 [asinh]. *)
Definition fc_asinh (z : complex fl) : complex fl :=
  if fis_infinite (re z) then
    if is_nan (im z) then z
    else if fis_infinite (im z) then mkC (re z) (copysign (m_frac_pi_4 L) (im z))
    else mkC (re z) (copysign 0 (im z))
  else if is_nan (re z) then
    if fis_infinite (im z) then mkC (im z) (re z)
    else if nis0 (im z) then z
    else mkC (re z) (re z)
  else if fis_infinite (im z) then mkC (copysign (im z) (re z)) (copysign (m_frac_pi_2 L) (im z))
  else fc_ln (cadd z (fc_sqrt (cadd cone (cmul z z)))).

(** 1853-1884 [atanh]; [==] on complex numbers compares both parts. *)
Definition fc_eqb (z w : complex fl) : bool := andb (Beqb (re z) (re w)) (Beqb (im z) (im w)).
Definition fc_atanh (z : complex fl) : complex fl :=
  let one := cone in
  let two := cadd one one in
  if fis_infinite (im z) then mkC (copysign 0 (re z)) (copysign (m_frac_pi_2 L) (im z))
  else if is_nan (im z) then
    if orb (fis_infinite (re z)) (nis0 (re z)) then mkC (copysign 0 (re z)) (im z)
    else mkC (im z) (im z)
  else if is_nan (re z) then mkC (re z) (re z)
  else if fis_infinite (re z) then mkC (copysign 0 (re z)) (copysign (m_frac_pi_2 L) (im z))
  else if fc_eqb z one then mkC (B754_infinity false) 0
  else if fc_eqb z (cneg one) then mkC (B754_infinity true) 0
  else cdiv (csub (fc_ln (cadd one z)) (fc_ln (csub one z))) two.

(** 1465-1511 [acos]. *)
Definition fc_acos (z : complex fl) : complex fl :=
  if fis_infinite (re z) then
    if is_nan (im z) then mkC (im z) (re z)
    else if fis_infinite (im z) then
      if Bltb (re z) 0 then
        let three := 1 + 1 + 1 in
        mkC (three * m_frac_pi_4 L) (- im z)
      else mkC (m_frac_pi_4 L) (- im z)
    else if Bltb (re z) 0 then mkC (m_pi L) (if Bltb (im z) 0 then - re z else re z)
    else mkC 0 (if Bltb (im z) 0 then re z else - re z)
  else if is_nan (re z) then
    if fis_infinite (im z) then mkC (re z) (- im z)
    else mkC (re z) (re z)
  else if fis_infinite (im z) then mkC (m_frac_pi_2 L) (- im z)
  else if andb (nis0 (re z)) (orb (nis0 (im z)) (is_nan (im z))) then mkC (m_frac_pi_2 L) (- im z)
  else
    let w := fc_ln (cadd (cmul cunit_im (fc_sqrt (csub cone (cmul z z)))) z) in
    cmul (cneg cunit_im) w.

(** 1556-1563 [asin], 1608-1615 [atan]. *)
Definition fc_asin (z : complex fl) : complex fl :=
  let z2 := fc_asinh (mkC (- im z) (re z)) in mkC (im z2) (- re z2).
Definition fc_atan (z : complex fl) : complex fl :=
  let z2 := fc_atanh (mkC (- im z) (re z)) in mkC (im z2) (- re z2).
End ComplexF.
