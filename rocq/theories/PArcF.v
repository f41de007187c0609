(** Property theorems about recovering angles in floats (C126). *)

From Coq Require Import Arith ZArith Reals.
From Flocq Require Import Core.Core IEEE754.BinarySingleNaN.
From Verif Require Import Base Scalar Spec SpecF SpecDrift SpecLibm SpecCR SpecArc MVector MMatrix MQuat MFloat MFloatVec MComplexF MRotF MTransform MArcF
  LFloatNormP LArcP LArcQ LArcS LArcA LArcR LArcT.
Local Open Scope R_scope.

(** ** C126 *)

(** [Quaternion::ln] of every finite quaternion, unit or not: the scalar part is not NaN and the vector part is finite, of
    magnitude at most 8 in every component.  The argument of the arc cosine never leaves [-1, 1]. *)
Theorem C126_ln :
  forall (prec emax : Z) (Hp : Prec_gt_0 prec) (He : Prec_lt_emax prec emax)
    (L : libm (binary_float prec emax)) (arccos arcsin : binary_float prec emax -> binary_float prec emax) (q : quat (binary_float prec emax)),
    (24 <= prec)%Z -> (2 * prec <= emax)%Z -> libm_special L -> libm_arc L arccos arcsin ->
    all_finite (q : vec _ 4) ->
    is_nan (vat (fqln L arccos q : vec _ 4) 0) = false /\
    forall i, (i < 3)%nat ->
      is_finite (vat (fqln L arccos q : vec _ 4) (S i)) = true /\ Rabs (B2R (vat (fqln L arccos q : vec _ 4) (S i))) <= 8.
Proof. exact c126_ln_all. Qed.
Print Assumptions C126_ln.

(** [Quaternion::slerp] between quaternions of length between 1/2 and 2, for every amount in [0, 1] and every threshold for
    falling back on linear interpolation: the components are finite. *)
Theorem C126_slerp :
  forall (prec emax : Z) (Hp : Prec_gt_0 prec) (He : Prec_lt_emax prec emax)
    (L : libm (binary_float prec emax)) (arccos arcsin : binary_float prec emax -> binary_float prec emax)
    (p q : quat (binary_float prec emax)) (amount threshold : binary_float prec emax),
    (24 <= prec)%Z -> (2 * prec <= emax)%Z -> libm_special L -> libm_arc L arccos arcsin ->
    all_finite (p : vec _ 4) -> all_finite (q : vec _ 4) -> is_finite amount = true -> 0 <= B2R amount <= 1 ->
    / 2 <= qlength (B2R (vat (p : vec _ 4) 0), B2R (vat (p : vec _ 4) 1), B2R (vat (p : vec _ 4) 2), B2R (vat (p : vec _ 4) 3)) <= 2 ->
    / 2 <= qlength (B2R (vat (q : vec _ 4) 0), B2R (vat (q : vec _ 4) 1), B2R (vat (q : vec _ 4) 2), B2R (vat (q : vec _ 4) 3)) <= 2 ->
    all_finite (fqslerp_eps L arccos p q amount threshold : vec _ 4).
Proof. exact c126_slerp_all. Qed.
Print Assumptions C126_slerp.

(** [Quaternion::rotation_between] and [Rotation3::rotation_between] of any two finite vectors, however long or short: when they
    return a rotation, its components are finite. *)
Theorem C126_rotation_between :
  forall (prec emax : Z) (Hp : Prec_gt_0 prec) (He : Prec_lt_emax prec emax)
    (L : libm (binary_float prec emax)) (arccos arcsin : binary_float prec emax -> binary_float prec emax)
    (v1 v2 : vec (binary_float prec emax) 3),
    (24 <= prec)%Z -> (2 * prec <= emax)%Z -> libm_special L -> libm_arc L arccos arcsin ->
    all_finite v1 -> all_finite v2 ->
    (forall q, fqrotation_between L arccos v1 v2 = Some q -> all_finite (q : vec _ 4)) /\
    (forall r, frot3rotation_between L arccos v1 v2 = Some r ->
      forall j i, (j < 3)%nat -> (i < 3)%nat -> is_finite (mget r j i) = true).
Proof. exact c126_rotation_between_all. Qed.
Print Assumptions C126_rotation_between.

(** [Rotation3::angle] of a rotation about a coordinate axis is a finite number between 0 and 4 for every finite angle. *)
Theorem C126_angle_coordinate :
  forall (prec emax : Z) (Hp : Prec_gt_0 prec) (He : Prec_lt_emax prec emax)
    (L : libm (binary_float prec emax)) (arccos arcsin : binary_float prec emax -> binary_float prec emax) (angle : binary_float prec emax),
    (24 <= prec)%Z -> (2 * prec <= emax)%Z -> libm_special L -> libm_arc L arccos arcsin ->
    is_finite angle = true ->
    forall r, r = frot3from_angle_x L angle \/ r = frot3from_angle_y L angle \/ r = frot3from_angle_z L angle ->
    is_finite (frot3angle arccos r) = true /\ 0 <= B2R (frot3angle arccos r) <= 4.
Proof. exact c126_angle_coordinate_all. Qed.
Print Assumptions C126_angle_coordinate.

(** [Rotation3::angle] of [Rotation3::from_axis_angle]: the axis is within [d] of a real unit vector and no component exceeds 1,
    sine and cosine are within [d] of those of [t].  Unless [t] is within about sqrt (d + u) of a half turn, the angle is
    finite; if moreover the arc cosine is accurate to [d], the cosine of the angle is within 13 d + 71 u of cos t.  Missing:
    the half turns, for which the claim fails ([C126_half_turn_refuted]). *)
Theorem C126_angle_partial :
  forall (prec emax : Z) (Hp : Prec_gt_0 prec) (He : Prec_lt_emax prec emax)
    (L : libm (binary_float prec emax)) (arccos arcsin : binary_float prec emax -> binary_float prec emax)
    (axis : vec (binary_float prec emax) 3) (angle : binary_float prec emax) (a : vec R 3) (t d : R),
    (24 <= prec)%Z -> (2 * prec <= emax)%Z -> libm_special L -> libm_arc L arccos arcsin ->
    0 <= d <= / 8 -> sum 3 (fun i => vat a i * vat a i) = 1 -> is_finite angle = true ->
    (forall i, (i < 3)%nat -> fnear (vat axis i) (vat a i) d /\ Rabs (B2R (vat axis i)) <= 1) ->
    fnear (m_sin L angle) (sin t) d -> fnear (m_cos L angle) (cos t) d ->
    -1 + 12 * d + 71 * bpow radix2 (- prec) <= cos t ->
    let th := frot3angle arccos (frot3from_axis_angle L axis angle) in
    is_finite th = true /\ 0 <= B2R th <= 4 /\
    ((forall x, is_finite x = true -> Rabs (B2R x) <= 1 -> Rabs (B2R (arccos x) - acos (B2R x)) <= d) ->
     Rabs (cos (B2R th) - cos t) <= 13 * d + 71 * bpow radix2 (- prec)).
Proof. exact c126_angle_all. Qed.
Print Assumptions C126_angle_partial.

(** [Rotation3::euler_angles] of [Rotation3::from_euler_angles]: the three angles are finite and the second is the arc sine of
    the sine of the one given.  Missing: rotations that do not come from Euler angles ([C126_euler_refuted]). *)
Theorem C126_euler_partial :
  forall (prec emax : Z) (Hp : Prec_gt_0 prec) (He : Prec_lt_emax prec emax)
    (L : libm (binary_float prec emax)) (arccos arcsin : binary_float prec emax -> binary_float prec emax)
    (ax ay az : binary_float prec emax),
    (24 <= prec)%Z -> (2 * prec <= emax)%Z -> libm_special L -> libm_arc L arccos arcsin ->
    is_finite ax = true -> is_finite ay = true -> is_finite az = true ->
    let e := frot3euler_angles L arcsin (frot3from_euler_angles L ax ay az) in
    is_finite (fst (fst e)) = true /\ is_finite (snd (fst e)) = true /\ is_finite (snd e) = true /\
    snd (fst e) = arcsin (m_sin L ay).
Proof. exact c126_euler_all. Qed.
Print Assumptions C126_euler_partial.

(** [Matrix3x3::rotation_between] of two finite [f64] vectors that are nearly parallel is a matrix of NaNs: the dot product of
    the normalised vectors rounds to a number above 1. *)
Theorem C126_matrix_rotation_between_refuted :
  forall (L : libm f64) (arccos arcsin : f64 -> f64), libm_arc L arccos arcsin ->
  exists v1 v2 : vec f64 3, all_finite v1 /\ all_finite v2 /\
  exists m, fm3rotation_between L arccos v1 v2 = Some m /\ mget m 0 0 = B754_nan.
Proof. exact c126_matrix_refuted. Qed.
Print Assumptions C126_matrix_rotation_between_refuted.

(** [Rotation3::angle] of the half turn about a normalised axis is NaN, if the cosine of the angle is -1 (as it is for the
    [f64] nearest to PI). *)
Theorem C126_half_turn_refuted :
  forall (L : libm f64) (arccos arcsin : f64 -> f64) (angle : f64), libm_arc L arccos arcsin -> m_cos L angle = nneg n1 ->
  exists v : vec f64 3, all_finite v /\ fvtry_unit v feps = Some (fvnormalize v) /\
  frot3angle arccos (frot3from_axis_angle L (fvnormalize v) angle) = B754_nan.
Proof. exact c126_half_turn_refuted. Qed.
Print Assumptions C126_half_turn_refuted.

(** The angle of [r.inverse() * r] is NaN for a rotation [r] made from a quaternion, and so is the second Euler angle of
    another. *)
Theorem C126_angle_refuted :
  forall (L : libm f64) (arccos arcsin : f64 -> f64), libm_arc L arccos arcsin ->
  exists q : quat f64, all_finite (q : vec f64 4) /\
  frot3angle arccos (rot_mul (rot_inverse (frot3from_quaternion q)) (frot3from_quaternion q)) = B754_nan.
Proof. exact c126_angle_refuted. Qed.
Print Assumptions C126_angle_refuted.

Theorem C126_euler_refuted :
  forall (L : libm f64) (arccos arcsin : f64 -> f64), libm_arc L arccos arcsin ->
  exists q : quat f64, all_finite (q : vec f64 4) /\
  snd (fst (frot3euler_angles L arcsin (frot3from_quaternion q))) = B754_nan.
Proof. exact c126_euler_refuted. Qed.
Print Assumptions C126_euler_refuted.

(** The correctly rounded library meets the requirements, and its cosine of PI is -1. *)
Example C126_library : let L : libm f64 := cr_libm true in
  libm_special L /\ libm_arc L cr_acos cr_asin /\ m_cos L (m_pi L) = nneg n1 /\ is_finite (m_pi L) = true /\
  Rabs (B2R (m_pi L) - PI) <= bpow radix2 (- 51).
Proof. exact c126_library. Qed.

(** The quaternions 1 and i, the x axis and the angle 1 meet the hypotheses above in [f64]. *)
Example C126_example : let L : libm f64 := cr_libm true in
  let p : quat f64 := qnew (f64_of_Z 1) (f64_of_Z 0) (f64_of_Z 0) (f64_of_Z 0) in
  let q : quat f64 := qnew (f64_of_Z 0) (f64_of_Z 1) (f64_of_Z 0) (f64_of_Z 0) in
  let axis : vec f64 3 := v3 (f64_of_Z 1) (f64_of_Z 0) (f64_of_Z 0) in let a : vec R 3 := v3 1 0 0 in
  all_finite (p : vec f64 4) /\ all_finite (q : vec f64 4) /\
  qlength (B2R (vat (p : vec _ 4) 0), B2R (vat (p : vec _ 4) 1), B2R (vat (p : vec _ 4) 2), B2R (vat (p : vec _ 4) 3)) = 1 /\
  qlength (B2R (vat (q : vec _ 4) 0), B2R (vat (q : vec _ 4) 1), B2R (vat (q : vec _ 4) 2), B2R (vat (q : vec _ 4) 3)) = 1 /\
  sum 3 (fun i => vat a i * vat a i) = 1 /\
  (forall i, (i < 3)%nat -> fnear (vat axis i) (vat a i) (bpow radix2 (- 53)) /\ Rabs (B2R (vat axis i)) <= 1) /\
  fnear (m_sin L (f64_of_Z 1)) (sin 1) (bpow radix2 (- 53)) /\ fnear (m_cos L (f64_of_Z 1)) (cos 1) (bpow radix2 (- 53)) /\
  -1 + 12 * bpow radix2 (- 53) + 71 * bpow radix2 (- 53) <= cos 1.
Proof. exact c126_example. Qed.
