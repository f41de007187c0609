(** The functions that recover an angle, over IEEE floats: quaternion logarithm and interpolation, the rotation between two
    vectors, the angle and the Euler angles of a rotation.  The real functions of the standard library are parameters: [L]
    (MComplexF.v) and the two arc functions.  [+ - * /], [sqrt] and the comparisons are the IEEE operations. *)

From Coq Require Import ZArith Bool.
From Flocq Require Import Core.Core IEEE754.BinarySingleNaN.
From Verif Require Import Base Scalar MVector MMatrix MQuat MFloat MFloatVec MSign MComplexF MRotF MTransform.
Local Open Scope num_scope.

Section ArcF.
Context {prec emax : Z} {Hprec : Prec_gt_0 prec} {Hemax : Prec_lt_emax prec emax}.
Notation fl := (binary_float prec emax).
Variable L : libm fl.
(** [S::acos], [S::asin] (numeric/lib.rs 1733-1741). *)
Variables arccos arcsin : fl -> fl.

(** numeric/lib.rs 1657 [default_epsilon]: the machine epsilon 2^(1 - prec). *)
Definition feps : fl := binary_normalize prec emax Hprec Hemax mode_NE 1 (1 - prec) false.

(** unit.rs 178-224 [Unit::try_from_value] of vectors; the norm is not returned. *)
Definition fvtry_unit {n} (u : vec fl n) (threshold : fl) : option (vec fl n) :=
  let norm_squared := vnorm_squared u in
  if Bltb (threshold * threshold) norm_squared then Some (fvnormalize u) else None.

(** quaternion.rs 4609 [norm], 4638-4642 [normalize]. *)
Definition fqnorm (q : quat fl) : fl := fvnorm (q : vec fl 4).
Definition fqnormalize (q : quat fl) : quat fl := fvnormalize (q : vec fl 4).

(** quaternion.rs 1878-1903 [ln]. *)
Definition fqln_eps (q : quat fl) (threshold : fl) : quat fl :=
  let norm_v_squared := vnorm_squared (qvector q) in
  if Bleb norm_v_squared (threshold * threshold) then
    let norm := fabs (qscalar q) in
    qfrom_parts (m_ln L norm) (vzero 3)
  else
    let norm := fqnorm q in
    let arccos_s_over_norm_q := arccos (qscalar q / norm) in
    let q_scalar := m_ln L norm in
    let q_vector := vmul_s (qvector q) (arccos_s_over_norm_q / fsqrt norm_v_squared) in
    qfrom_parts q_scalar q_vector.
Definition fqln (q : quat fl) : quat fl := fqln_eps q feps.

(** quaternion.rs 2786-2788 [nlerp], 2843-2906 [slerp] ([slerp] passes the threshold 0.0005). *)
Definition fqnlerp (p q : quat fl) (amount : fl) : quat fl :=
  fqnormalize (qadd (qscale p (1 - amount)) (qscale q amount)).
Definition fqslerp_eps (p q : quat fl) (amount lerp_threshold : fl) : quat fl :=
  let result := if Bltb (qdot p q) n0 then qneg p else p in
  let cos_half_theta := qdot result q in
  if Bleb n1 (fabs cos_half_theta) then result
  else
    let sin_half_theta := fsqrt (1 - cos_half_theta * cos_half_theta) in
    if Bltb (fabs sin_half_theta) lerp_threshold then fqnlerp result q amount
    else
      let half_theta := arccos cos_half_theta in
      let a := m_sin L ((1 - amount) * half_theta) / sin_half_theta in
      let b := m_sin L (amount * half_theta) / sin_half_theta in
      let q_scalar := qscalar result * a + qscalar q * b in
      let q_vector := vadd (vmul_s (qvector result) a) (vmul_s (qvector q) b) in
      qfrom_parts q_scalar q_vector.

(** quaternion.rs 2365-2400 [rotation_between_axis], 2328-2334 [rotation_between]. *)
Definition fqrotation_between_axis (v1 v2 : vec fl 3) : option (quat fl) :=
  let v1_cross_v2 := vcross v1 v2 in
  match fvtry_unit v1_cross_v2 feps with
  | Some axis =>
      let cos_theta := vdot v1 v2 in
      if Bleb cos_theta (nneg n1) then None
      else if Bleb n1 cos_theta then Some qidentity
      else Some (gqfrom_axis_angle (m_sin L) (m_cos L) axis (arccos cos_theta))
  | None => if Bltb (vdot v1 v2) n0 then None else Some qidentity
  end.
Definition fqrotation_between (v1 v2 : vec fl 3) : option (quat fl) :=
  match fvtry_unit v1 n0, fvtry_unit v2 n0 with
  | Some unit_v1, Some unit_v2 => fqrotation_between_axis unit_v1 unit_v2
  | _, _ => Some qidentity
  end.

(** rotation.rs 1566-1568, 1593-1595 [Rotation3::rotation_between], [rotation_between_axis]. *)
Definition frot3rotation_between (v1 v2 : vec fl 3) : option (rotation fl 3) := option_map qto_matrix (fqrotation_between v1 v2).

(** matrix.rs 5249-5270 [Matrix3x3::rotation_between]. *)
Definition fm3rotation_between (v1 v2 : vec fl 3) : option (mat fl 3 3) :=
  match fvtry_normalize v1 n0, fvtry_normalize v2 n0 with
  | Some unit_v1, Some unit_v2 =>
      let cross := vcross unit_v1 unit_v2 in
      match fvtry_unit cross feps with
      | Some axis => Some (gm3from_axis_angle (m_sin L) (m_cos L) axis (arccos (vdot unit_v1 unit_v2)))
      | None => if Bltb (vdot unit_v1 unit_v2) n0 then None else Some (midentity 3)
      end
  | _, _ => Some (midentity 3)
  end.

(** rotation.rs 978-983 [Rotation3::angle], 1130-1138 [from_axis_angle], 1092-1096 [from_quaternion]. *)
Definition frot3angle (r : rotation fl 3) : fl :=
  let trace_self := mget r 0 0 + mget r 1 1 + mget r 2 2 in
  arccos ((trace_self - 1) / (1 + 1)).
Definition frot3from_axis_angle (axis : vec fl 3) (angle : fl) : rotation fl 3 := gm3from_axis_angle (m_sin L) (m_cos L) axis angle.
(** rotation.rs 1163-1168, 1194-1199, 1225-1230 [from_angle_x/y/z]. *)
Definition frot3from_angle_x (angle : fl) : rotation fl 3 := frot3from_axis_angle v3_unit_x angle.
Definition frot3from_angle_y (angle : fl) : rotation fl 3 := frot3from_axis_angle v3_unit_y angle.
Definition frot3from_angle_z (angle : fl) : rotation fl 3 := frot3from_axis_angle v3_unit_z angle.
Definition frot3from_quaternion (q : quat fl) : rotation fl 3 := qto_matrix q.

(** rotation.rs 1644-1657 [from_euler_angles]. *)
Definition frot3from_euler_angles (ax ay az : fl) : rotation fl 3 := geuler_to_matrix (m_sin L) (m_cos L) ax ay az.

(** rotation.rs 1837-1853 [euler_angles]: the angles about x, y and z. *)
Definition frot3euler_angles (r : rotation fl 3) : fl * fl * fl :=
  let yaw := arcsin (mget r 2 0) in
  let cos_yaw := m_cos L yaw in
  if nis0 (fabs cos_yaw) then (m_atan2 L (mget r 1 2) (mget r 1 1), yaw, 0)
  else (m_atan2 L (- mget r 2 1) (mget r 2 2), yaw, m_atan2 L (- mget r 1 0) (mget r 0 0)).
End ArcF.
