(** Angle and axis of a rotation and the rotation between two vectors of the plane, over IEEE floats.  The real functions of
    the standard library are parameters, as in MArcF.v. *)

From Coq Require Import ZArith Bool.
From Flocq Require Import Core.Core IEEE754.BinarySingleNaN.
From Verif Require Import Base Scalar MVector MMatrix MQuat MFloat MFloatVec MSign MComplexF MRotF MTransform MArcF.
Local Open Scope num_scope.

Section AngF.
Context {prec emax : Z} {Hprec : Prec_gt_0 prec} {Hemax : Prec_lt_emax prec emax}.
Notation fl := (binary_float prec emax).
Variable L : libm fl.
Variable arccos : fl -> fl.

(** rotation.rs 1029-1037 [Rotation3::axis], 1064-1066 [axis_angle]. *)
Definition frot3axis (r : rotation fl 3) : option (vec fl 3) :=
  let axis := v3 (mget r 1 2 - mget r 2 1) (mget r 2 0 - mget r 0 2) (mget r 0 1 - mget r 1 0) in
  fvtry_unit axis feps.
Definition frot3axis_angle (r : rotation fl 3) : option (vec fl 3 * fl) :=
  option_map (fun axis => (axis, frot3angle arccos r)) (frot3axis r).

(** rotation.rs 857-859 [Rotation2::angle], 884-891 [from_angle]. *)
Definition frot2angle (r : rotation fl 2) : fl := m_atan2 L (mget r 0 1) (mget r 0 0).
Definition frot2from_angle (angle : fl) : rotation fl 2 := gm2from_angle (m_sin L) (m_cos L) angle.

(** rotation.rs 916-923 [Rotation2::rotation_between_axis], 947-953 [rotation_between]. *)
Definition frot2rotation_between_axis (a b : vec fl 2) : rotation fl 2 :=
  let cos_angle := vdot a b in
  let sin_angle := vat a 0 * vat b 1 - vat a 1 * vat b 0 in
  frot2from_angle (m_atan2 L sin_angle cos_angle).
Definition frot2rotation_between (a b : vec fl 2) : rotation fl 2 :=
  match fvtry_unit a n0, fvtry_unit b n0 with
  | Some unit_a, Some unit_b => frot2rotation_between_axis unit_a unit_b
  | _, _ => rot_identity 2
  end.

(** matrix.rs 3235-3240 [Matrix2x2::rotation_between_axis], 3183-3189 [rotation_between]. *)
Definition fm2rotation_between_axis (v1 v2 : vec fl 2) : mat fl 2 2 :=
  let cos_angle := vdot v1 v2 in
  let sin_angle := fsqrt (1 - cos_angle * cos_angle) in
  gm2from_angle (m_sin L) (m_cos L) (m_atan2 L sin_angle cos_angle).
Definition fm2rotation_between (v1 v2 : vec fl 2) : mat fl 2 2 :=
  match fvtry_unit v1 n0, fvtry_unit v2 n0 with
  | Some unit_v1, Some unit_v2 => fm2rotation_between_axis unit_v1 unit_v2
  | _, _ => midentity 2
  end.
End AngF.
