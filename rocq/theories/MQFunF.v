(** Exponential, logarithm, roots, trigonometric and hyperbolic functions of quaternions, over IEEE floats.  The real functions
    of the standard library are parameters, as in MArcF.v. *)

From Coq Require Import ZArith Bool.
From Flocq Require Import Core.Core IEEE754.BinarySingleNaN.
From Verif Require Import Base Scalar MVector MMatrix MQuat MFloat MFloatVec MSign MComplexF MRotF MTransform MArcF.
Local Open Scope num_scope.

Section QFunF.
Context {prec emax : Z} {Hprec : Prec_gt_0 prec} {Hemax : Prec_lt_emax prec emax}.
Notation fl := (binary_float prec emax).
Variable L : libm fl.
Variable arccos : fl -> fl.

(** quaternion.rs 1681-1693 [arg]. *)
Definition fqarg_eps (q : quat fl) (threshold : fl) : fl :=
  if Bleb (qscalar q * qscalar q) (threshold * threshold) then m_frac_pi_2 L
  else m_atan2 L (fvnorm (qvector q)) (qscalar q).
Definition fqarg (q : quat fl) : fl := fqarg_eps q feps.

(** quaternion.rs 1793-1811 [exp]. *)
Definition fqexp_eps (q : quat fl) (threshold : fl) : quat fl :=
  let norm_v_squared := vnorm_squared (qvector q) in
  if Bleb norm_v_squared (threshold * threshold) then qfrom_parts (m_exp L (qscalar q)) (vzero 3)
  else
    let norm_v := fsqrt norm_v_squared in
    let exp_s := m_exp L (qscalar q) in
    let q_scalar := exp_s * m_cos L norm_v in
    let q_vector := vmul_s (qvector q) (exp_s * m_sin L norm_v / norm_v) in
    qfrom_parts q_scalar q_vector.
Definition fqexp (q : quat fl) : quat fl := fqexp_eps q feps.

(** quaternion.rs 1924-1927 [powf]. *)
Definition fqpowf (q : quat fl) (exponent : fl) : quat fl := fqexp (qscale (fqln L arccos q) exponent).

(** quaternion.rs 2092-2130 [sqrt]. *)
Definition fqsqrt_eps (q : quat fl) (threshold : fl) : quat fl :=
  let norm_self_squared := qnorm_squared q in
  if Bleb norm_self_squared (threshold * threshold) then qzero
  else
    let norm_v_squared := vnorm_squared (qvector q) in
    let norm_self := fsqrt norm_self_squared in
    if Bleb norm_v_squared (threshold * threshold) then
      let sqrt_norm_self := fsqrt norm_self in
      if Bltb n0 (qscalar q) then qfrom_real sqrt_norm_self
      else qfrom_pure (v3 sqrt_norm_self 0 0)
    else
      let one_half := 1 / (1 + 1) in
      let c := fsqrt (one_half / (norm_self + qscalar q)) in
      qfrom_parts ((norm_self + qscalar q) * c) (vmul_s (qvector q) c).
Definition fqsqrt (q : quat fl) : quat fl := fqsqrt_eps q feps.

(** quaternion.rs 3146-3163 [cos], 3228-3245 [sin]. *)
Definition fqcos (q : quat fl) : quat fl :=
  let norm_v := fvnorm (qvector q) in
  if nis0 norm_v then qfrom_real (m_cos L (qscalar q) * m_cosh L norm_v)
  else qfrom_parts (m_cos L (qscalar q) * m_cosh L norm_v)
                   (vmul_s (qvector q) (- m_sin L (qscalar q) * m_sinh L norm_v / norm_v)).
Definition fqsin (q : quat fl) : quat fl :=
  let norm_v := fvnorm (qvector q) in
  if nis0 norm_v then qfrom_real (m_sin L (qscalar q) * m_cosh L norm_v)
  else qfrom_parts (m_sin L (qscalar q) * m_cosh L norm_v)
                   (vmul_s (qvector q) (m_cos L (qscalar q) * m_sinh L norm_v / norm_v)).

(** quaternion.rs 3411-3428 [cosh], 3487-3504 [sinh]. *)
Definition fqcosh (q : quat fl) : quat fl :=
  let norm_v := fvnorm (qvector q) in
  if nis0 norm_v then qfrom_real (m_cosh L (qscalar q) * m_cos L norm_v)
  else qfrom_parts (m_cosh L (qscalar q) * m_cos L norm_v)
                   (vmul_s (qvector q) (m_sinh L (qscalar q) * m_sin L norm_v / norm_v)).
Definition fqsinh (q : quat fl) : quat fl :=
  let norm_v := fvnorm (qvector q) in
  if nis0 norm_v then qfrom_real (m_sinh L (qscalar q) * m_cos L norm_v)
  else qfrom_parts (m_sinh L (qscalar q) * m_cos L norm_v)
                   (vmul_s (qvector q) (m_cosh L (qscalar q) * m_sin L norm_v / norm_v)).

(** quaternion.rs 3322-3344 [tan], 3576-3597 [tanh]; the tangent functions of the standard library, used for real quaternions,
    are further parameters. *)
Definition fqtan (tangent : fl -> fl) (q : quat fl) : quat fl :=
  let norm_v := fvnorm (qvector q) in
  if nis0 norm_v then qfrom_real (tangent (qscalar q))
  else
    let cosh_norm_v := m_cosh L norm_v in
    let sinh_norm_v := m_sinh L norm_v in
    let cos_s := m_cos L (qscalar q) in
    let sin_s := m_sin L (qscalar q) in
    let denom_s := cos_s * cos_s + sinh_norm_v * sinh_norm_v in
    let denom_v := denom_s * norm_v in
    qfrom_parts (cos_s * sin_s / denom_s) (vmul_s (qvector q) (cosh_norm_v * sinh_norm_v / denom_v)).
Definition fqtanh (tangenth : fl -> fl) (q : quat fl) : quat fl :=
  let norm_v := fvnorm (qvector q) in
  if nis0 norm_v then qfrom_real (tangenth (qscalar q))
  else
    let cos_norm_v := m_cos L norm_v in
    let sin_norm_v := m_sin L norm_v in
    let cosh_s := m_cosh L (qscalar q) in
    let sinh_s := m_sinh L (qscalar q) in
    let denom_s := sinh_s * sinh_s + cos_norm_v * cos_norm_v in
    let denom_v := denom_s * norm_v in
    qfrom_parts (cosh_s * sinh_s / denom_s) (vmul_s (qvector q) (cos_norm_v * sin_norm_v / denom_v)).
End QFunF.
