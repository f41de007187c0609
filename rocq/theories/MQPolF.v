(** Polar form of quaternions over IEEE floats.  The real functions of the standard library are parameters, as in MArcF.v. *)

From Coq Require Import ZArith Bool.
From Flocq Require Import Core.Core IEEE754.BinarySingleNaN.
From Verif Require Import Base Scalar MVector MMatrix MQuat MFloat MFloatVec MSign MComplexF MArcF.
Local Open Scope num_scope.

Section QPolF.
Context {prec emax : Z} {Hprec : Prec_gt_0 prec} {Hemax : Prec_lt_emax prec emax}.
Notation fl := (binary_float prec emax).
Variable L : libm fl.

(** unit.rs 178-196 [Unit::try_from_value_with_norm] of quaternions. *)
Definition fqtry_unit_norm (q : quat fl) (threshold : fl) : option (quat fl * fl) :=
  let norm_squared := qnorm_squared q in
  if Bltb (threshold * threshold) norm_squared then Some (fqnormalize q, fsqrt norm_squared) else None.

(** quaternion.rs 3055-3073 [polar_decomposition]. *)
Definition fqpolar (q : quat fl) : fl * fl * option (vec fl 3) :=
  match fqtry_unit_norm q n0 with
  | Some (unit_q, norm_q) =>
      match fvtry_unit (qvector q) n0 with
      | Some axis =>
          let cos_angle_over_two := fabs (qscalar unit_q) in
          let sin_angle_over_two := fvnorm (qvector unit_q) in
          (norm_q, m_atan2 L sin_angle_over_two cos_angle_over_two, Some axis)
      | None => (norm_q, n0, None)
      end
  | None => (n0, n0, None)
  end.

(** quaternion.rs 3105-3113 [from_polar_decomposition]. *)
Definition fqfrom_polar (scale angle : fl) (axis : vec fl 3) : quat fl :=
  let two := 1 + 1 in
  let sin_angle_over_two := m_sin L (angle / two) in
  let cos_angle_over_two := m_cos L (angle / two) in
  qfrom_parts (cos_angle_over_two * scale) (vmul_s (vmul_s axis sin_angle_over_two) scale).
End QPolF.
