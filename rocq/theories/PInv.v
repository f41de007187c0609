(** Property theorems about the inverse functions of complex numbers in floats (C144). *)

From Coq Require Import ZArith Bool Reals.
From Flocq Require Import Core.Core IEEE754.BinarySingleNaN.
From Verif Require Import Base Scalar SpecF SpecCplx SpecInv SpecLibm SpecCR MFloat MFloatVec MSign MComplex MComplexF LInvJ LInvK.
Local Open Scope R_scope.

(** ** C144 *)

(** [asinh] of -2^27 in [f64] (-2^12 in [f32]) is minus infinity, and [acos] of -2^27 i has a NaN real part, for every library with the usual special values.  The exact values are -Y and PI / 2 + i Y with Y at most 29. *)
Theorem C144_cancellation_refuted :
  (forall L : libm f64, libm_special L -> exists (z w : complex f64) (Y : R),
     cis_finite z = true /\ B2R (re z) = - sinh Y /\ B2R (im z) = 0 /\ 0 <= Y <= 29 /\ fc_asinh L z = mkC (B754_infinity true) (B754_zero false) /\
     cis_finite w = true /\ B2R (re w) = cos (PI / 2) * cosh Y /\ B2R (im w) = - (sin (PI / 2) * sinh Y) /\ fc_acos L w = mkC B754_nan (B754_infinity false)) /\
  (forall L : libm f32, libm_special L -> exists (z w : complex f32) (Y : R),
     cis_finite z = true /\ B2R (re z) = - sinh Y /\ B2R (im z) = 0 /\ 0 <= Y <= 14 /\ fc_asinh L z = mkC (B754_infinity true) (B754_zero false) /\
     cis_finite w = true /\ B2R (re w) = cos (PI / 2) * cosh Y /\ B2R (im w) = - (sin (PI / 2) * sinh Y) /\ fc_acos L w = mkC B754_nan (B754_infinity false)).
Proof. exact c144_cancellation_refuted. Qed.
Print Assumptions C144_cancellation_refuted.

(** [acos] of -2 in [f32] with the correctly rounded library: the real part is about -PI although the arc cosine has real part PI.  The rounded PI is larger than PI, so half of it has a negative cosine and the square root lands on the other side of the cut. *)
Theorem C144_branch_refuted :
  forall nb : bool, exists z : complex f32, cis_finite z = true /\ B2R (re z) = -2 /\ B2R (im z) = 0 /\ (exists Y, Y <= 0 /\ cos PI * cosh Y = -2 /\ - (sin PI * sinh Y) = 0) /\
    is_finite (re (fc_acos (cr_libm nb) z)) = true /\ B2R (re (fc_acos (cr_libm nb) z)) <= -3.
Proof. exact c144_branch_refuted. Qed.
Print Assumptions C144_branch_refuted.

(** Neither [asinh] nor [atanh] has a relative error bound: both are 0 at 2^-60.  [atanh] of 2^600 is NaN because the norm overflows. *)
Theorem C144_small_refuted :
  forall L : libm f64, libm_special L -> m_ln L (f64_of_Z 1) = B754_zero false ->
    (exists (z : complex f64) (X Y : R), cis_finite z = true /\ B2R (re z) = sinh X /\ B2R (re z) * cosh Y = sinh Y /\ B2R (im z) = 0 /\ 0 < X /\ 0 < Y /\
      fc_asinh L z = mkC (B754_zero false) (B754_zero false) /\ fc_atanh L z = mkC (B754_zero false) (B754_zero false)) /\
    (exists z : complex f64, cis_finite z = true /\ B2R (re z) = bpow radix2 600 /\ B2R (im z) = 0 /\ re (fc_atanh L z) = B754_nan).
Proof. exact c144_small_refuted. Qed.
Print Assumptions C144_small_refuted.

(** [acosh] everywhere, away from overflow and from the branch points -1 and 1 by 2^(1 - k): X + i Y is an exact inverse in the strip, and both parts are within 150 d of it besides the relative error d of the real part.  Missing: the cancellation-free bound at the branch points, where the error is not of order d. *)
Theorem C144_acosh_partial :
  forall (prec emax : Z) (Hp : Prec_gt_0 prec) (He : Prec_lt_emax prec emax) (L : libm (binary_float prec emax)) (d : R) (z : complex (binary_float prec emax)) (k : Z),
    (24 <= prec)%Z -> bpow radix2 (- prec) <= d <= / 65536 -> cis_finite z = true -> (2 * k + 40 <= emax)%Z ->
    let a := B2R (re z) in let b := B2R (im z) in
    bpow radix2 (1 - k) <= nm (a + 1) b <= bpow radix2 k -> bpow radix2 (1 - k) <= nm (a - 1) b <= bpow radix2 k -> b = 0 \/ bpow radix2 (3 - emax) <= Rabs b ->
    let s := cdiv (cadd z cone) (cadd cone cone) in let t := cdiv (csub z cone) (cadd cone cone) in
    root_at d L s -> root_at d L t -> log_at d L (cadd (fc_sqrt L s) (fc_sqrt L t)) ->
    exists X Y : R, 0 <= X /\ - PI <= Y <= PI /\ cosh X * cos Y = a /\ sinh X * sin Y = b /\
      fnear (re (fc_acosh L z)) X (d * X + 150 * d) /\ fnear (im (fc_acosh L z)) Y (150 * d).
Proof. exact c144_acosh. Qed.
Print Assumptions C144_acosh_partial.

(** [asinh] in the right half plane, with [kappa] measuring how far [1 + z z] is from 0.  Missing: the left half plane, where it is refuted. *)
Theorem C144_asinh_partial :
  forall (prec emax : Z) (Hp : Prec_gt_0 prec) (He : Prec_lt_emax prec emax) (L : libm (binary_float prec emax)) (d : R) (z : complex (binary_float prec emax)) (kappa : R) (k : Z),
    (24 <= prec)%Z -> bpow radix2 (- prec) <= d <= / 65536 -> cis_finite z = true -> (prec <= k)%Z -> (2 * k + 40 <= emax)%Z ->
    let a := B2R (re z) in let b := B2R (im z) in
    1 + a * a + b * b <= bpow radix2 k -> a * b = 0 \/ bpow radix2 (3 - emax) <= Rabs (a * b) -> 0 <= a -> (a = 0 -> -1 <= b) ->
    1 + a * a + b * b <= kappa * nm (1 + (a * a - b * b)) (2 * a * b) -> d * kappa <= / 65536 ->
    let s := cadd cone (cmul z z) in root_at d L s -> log_at d L (cadd z (fc_sqrt L s)) ->
    exists X Y : R, 0 <= X /\ - (PI / 2) <= Y <= PI / 2 /\ sinh X * cos Y = a /\ cosh X * sin Y = b /\
      fnear (re (fc_asinh L z)) X (d * X + 60 * (d * kappa)) /\ fnear (im (fc_asinh L z)) Y (60 * (d * kappa)).
Proof. exact c144_asinh. Qed.
Print Assumptions C144_asinh_partial.

(** [atanh] wherever [1 + z] and [1 - z] have a norm between 2^-k and 2^k.  Missing: relative error near 0 and large arguments, where it is refuted. *)
Theorem C144_atanh_partial :
  forall (prec emax : Z) (Hp : Prec_gt_0 prec) (He : Prec_lt_emax prec emax) (L : libm (binary_float prec emax)) (d : R) (z : complex (binary_float prec emax)) (k : Z),
    (24 <= prec)%Z -> bpow radix2 (- prec) <= d <= / 65536 -> cis_finite z = true -> (0 <= k)%Z -> (2 * k + 40 <= emax)%Z ->
    let a := B2R (re z) in let b := B2R (im z) in let r := nm (1 + a) b in let t := nm (1 - a) b in
    bpow radix2 (- k) <= r <= bpow radix2 k -> bpow radix2 (- k) <= t <= bpow radix2 k ->
    log_at d L (cadd cone z) -> log_at d L (csub cone z) ->
    exists X Y : R, X = (ln r - ln t) / 2 /\ - (PI / 2) <= Y <= PI / 2 /\
      sinh X * cos Y = a * (cosh X * cos Y) - b * (sinh X * sin Y) /\ cosh X * sin Y = a * (sinh X * sin Y) + b * (cosh X * cos Y) /\
      fnear (re (fc_atanh L z)) X (3 * d * (Rabs (ln r) + Rabs (ln t)) + 13 * d) /\ fnear (im (fc_atanh L z)) Y (25 * d).
Proof. exact c144_atanh. Qed.
Print Assumptions C144_atanh_partial.

(** [acos] in the upper half plane; on its left half the computed [i sqrt(1 - z z) + z] must not have crossed the negative real axis.  Missing: the lower half plane and the crossing, where it is refuted. *)
Theorem C144_acos_partial :
  forall (prec emax : Z) (Hp : Prec_gt_0 prec) (He : Prec_lt_emax prec emax) (L : libm (binary_float prec emax)) (d : R) (z : complex (binary_float prec emax)) (kappa : R) (k : Z),
    (24 <= prec)%Z -> bpow radix2 (- prec) <= d <= / 65536 -> cis_finite z = true -> (prec <= k)%Z -> (2 * k + 40 <= emax)%Z ->
    let a := B2R (re z) in let b := B2R (im z) in
    (a <> 0 \/ b <> 0) -> 1 + a * a + b * b <= bpow radix2 k -> a * b = 0 \/ bpow radix2 (3 - emax) <= Rabs (a * b) -> 0 <= b -> (b = 0 -> a <= 1) ->
    1 + a * a + b * b <= kappa * nm (1 - (a * a - b * b)) (2 * a * b) -> d * kappa <= / 65536 ->
    let s := csub cone (cmul z z) in let w := cadd (cmul cunit_im (fc_sqrt L s)) z in root_at d L s -> log_at d L w -> (0 <= a \/ 0 <= B2R (im w)) ->
    exists X Y : R, 0 <= X <= PI /\ Y <= 0 /\ cos X * cosh Y = a /\ - (sin X * sinh Y) = b /\
      fnear (re (fc_acos L z)) X (60 * (d * kappa)) /\ fnear (im (fc_acos L z)) Y (d * Rabs Y + 60 * (d * kappa)).
Proof. exact c144_acos. Qed.
Print Assumptions C144_acos_partial.

(** [asin] in the lower half plane.  Missing: the upper half plane, which is the left half plane of [asinh]. *)
Theorem C144_asin_partial :
  forall (prec emax : Z) (Hp : Prec_gt_0 prec) (He : Prec_lt_emax prec emax) (L : libm (binary_float prec emax)) (d : R) (z : complex (binary_float prec emax)) (kappa : R) (k : Z),
    (24 <= prec)%Z -> bpow radix2 (- prec) <= d <= / 65536 -> cis_finite z = true -> (prec <= k)%Z -> (2 * k + 40 <= emax)%Z ->
    let a := B2R (re z) in let b := B2R (im z) in
    1 + a * a + b * b <= bpow radix2 k -> a * b = 0 \/ bpow radix2 (3 - emax) <= Rabs (a * b) -> b <= 0 -> (b = 0 -> -1 <= a) ->
    1 + a * a + b * b <= kappa * nm (1 - (a * a - b * b)) (2 * a * b) -> d * kappa <= / 65536 ->
    let z' := mkC (nneg (im z)) (re z) in let s := cadd cone (cmul z' z') in root_at d L s -> log_at d L (cadd z' (fc_sqrt L s)) ->
    exists X Y : R, - (PI / 2) <= X <= PI / 2 /\ Y <= 0 /\ sin X * cosh Y = a /\ cos X * sinh Y = b /\
      fnear (re (fc_asin L z)) X (60 * (d * kappa)) /\ fnear (im (fc_asin L z)) Y (d * Rabs Y + 60 * (d * kappa)).
Proof. exact c144_asin. Qed.
Print Assumptions C144_asin_partial.

(** [atan] wherever the norms of [1 - i z] and [1 + i z] are between 2^-k and 2^k. *)
Theorem C144_atan_partial :
  forall (prec emax : Z) (Hp : Prec_gt_0 prec) (He : Prec_lt_emax prec emax) (L : libm (binary_float prec emax)) (d : R) (z : complex (binary_float prec emax)) (k : Z),
    (24 <= prec)%Z -> bpow radix2 (- prec) <= d <= / 65536 -> cis_finite z = true -> (0 <= k)%Z -> (2 * k + 40 <= emax)%Z ->
    let a := B2R (re z) in let b := B2R (im z) in let r := nm a (1 - b) in let t := nm a (1 + b) in
    bpow radix2 (- k) <= r <= bpow radix2 k -> bpow radix2 (- k) <= t <= bpow radix2 k ->
    let z' := mkC (nneg (im z)) (re z) in log_at d L (cadd cone z') -> log_at d L (csub cone z') ->
    exists X Y : R, - (PI / 2) <= X <= PI / 2 /\ Y = (ln t - ln r) / 2 /\
      sin X * cosh Y = a * (cos X * cosh Y) + b * (sin X * sinh Y) /\ cos X * sinh Y = b * (cos X * cosh Y) - a * (sin X * sinh Y) /\
      fnear (re (fc_atan L z)) X (25 * d) /\ fnear (im (fc_atan L z)) Y (3 * d * (Rabs (ln r) + Rabs (ln t)) + 13 * d).
Proof. exact c144_atan. Qed.
Print Assumptions C144_atan_partial.

(** The hypotheses hold in [f64] with the correctly rounded library: [acosh] at 3, [asinh] at 1, [atanh] at 1/2, [acos] at i, [asin] at -i, [atan] at -i/2. *)
Example C144_example :
  let L : libm f64 := cr_libm true in let d := bpow radix2 (-50) in let h : f64 := ndiv (f64_of_Z 1) (f64_of_Z 2) in
  (bpow radix2 (- 53) <= d <= / 65536 /\ libm_special L /\ m_ln L (f64_of_Z 1) = B754_zero false) /\
  (let z : complex f64 := mkC (f64_of_Z 3) (B754_zero false) in let s := cdiv (cadd z cone) (cadd cone cone) in let t := cdiv (csub z cone) (cadd cone cone) in
    B2R (re z) = 3 /\ B2R (im z) = 0 /\ bpow radix2 (1 - 2) <= nm (3 + 1) 0 <= bpow radix2 2 /\ bpow radix2 (1 - 2) <= nm (3 - 1) 0 <= bpow radix2 2 /\
    root_at d L s /\ root_at d L t /\ log_at d L (cadd (fc_sqrt L s) (fc_sqrt L t))) /\
  (let z : complex f64 := mkC (f64_of_Z 1) (B754_zero false) in let s := cadd cone (cmul z z) in
    B2R (re z) = 1 /\ B2R (im z) = 0 /\ 1 + 1 * 1 + 0 * 0 <= bpow radix2 53 /\ 1 + 1 * 1 + 0 * 0 <= 1 * nm (1 + (1 * 1 - 0 * 0)) (2 * 1 * 0) /\ d * 1 <= / 65536 /\
    root_at d L s /\ log_at d L (cadd z (fc_sqrt L s))) /\
  (let z : complex f64 := mkC h (B754_zero false) in
    B2R (re z) = / 2 /\ B2R (im z) = 0 /\ bpow radix2 (- 1) <= nm (1 + / 2) 0 <= bpow radix2 1 /\ bpow radix2 (- 1) <= nm (1 - / 2) 0 <= bpow radix2 1 /\
    log_at d L (cadd cone z) /\ log_at d L (csub cone z)) /\
  (let z : complex f64 := mkC (B754_zero false) (f64_of_Z 1) in let s := csub cone (cmul z z) in
    B2R (re z) = 0 /\ B2R (im z) = 1 /\ 1 + 0 * 0 + 1 * 1 <= 1 * nm (1 - (0 * 0 - 1 * 1)) (2 * 0 * 1) /\
    root_at d L s /\ log_at d L (cadd (cmul cunit_im (fc_sqrt L s)) z)) /\
  (let z : complex f64 := mkC (B754_zero false) (f64_of_Z (-1)) in let z' := mkC (nneg (im z)) (re z) in let s := cadd cone (cmul z' z') in
    B2R (re z) = 0 /\ B2R (im z) = -1 /\ root_at d L s /\ log_at d L (cadd z' (fc_sqrt L s))) /\
  (let z : complex f64 := mkC (B754_zero false) (nneg h) in let z' := mkC (nneg (im z)) (re z) in
    B2R (re z) = 0 /\ B2R (im z) = - / 2 /\ bpow radix2 (- 1) <= nm 0 (1 - - / 2) <= bpow radix2 1 /\ bpow radix2 (- 1) <= nm 0 (1 + - / 2) <= bpow radix2 1 /\
    log_at d L (cadd cone z') /\ log_at d L (csub cone z')).
Proof. exact c144_example. Qed.
