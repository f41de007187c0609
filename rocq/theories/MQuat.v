(** Model of crates/cglinalg_core/src/quaternion.rs.  Line numbers refer to that file.
    [Quaternion] wraps a [Vector4] (48-50) in the order scalar, x, y, z. *)

From Coq Require Import Reals.
From Verif Require Import Base Scalar MVector MMatrix MPoint MReal MAngle MMisc MRot.

Definition quat (K : Type) : Type := vec K 4.

Section Quat.
Context {K : Type} `{NK : Num K}.
Local Open Scope num_scope.

(** 56 [new], 155 [from_parts], 183 [from_vector], 203 [from_fill]. *)
Definition qnew (s x y z : K) : quat K := v4 s x y z.
Definition qfrom_parts (s : K) (v : vec K 3) : quat K := qnew s (vat v 0) (vat v 1) (vat v 2).
Definition qfrom_vector (v : vec K 4) : quat K := v.
Definition qfrom_fill (a : K) : quat K := qnew a a a a.

(** 248 [scalar], 269 [vector]. *)
Definition qscalar (q : quat K) : K := vat (q : vec K 4) 0.
Definition qvector (q : quat K) : vec K 3 :=
  v3 (vat (q : vec K 4) 1) (vat (q : vec K 4) 2) (vat (q : vec K 4) 3).

(** 293-375, 419-440, 530-552: constants and embeddings. *)
Definition qunit_s : quat K := qfrom_parts 1 (vzero 3).
Definition qunit_x : quat K := qfrom_parts 0 v3_unit_x.
Definition qunit_y : quat K := qfrom_parts 0 v3_unit_y.
Definition qunit_z : quat K := qfrom_parts 0 v3_unit_z.
Definition qzero : quat K := qnew 0 0 0 0.
Definition qidentity : quat K := qfrom_parts 1 (vzero 3).
Definition qfrom_real (a : K) : quat K := qfrom_parts a (vzero 3).
Definition qfrom_pure (v : vec K 3) : quat K := qfrom_parts 0 v.

(** 570 [dot], 610 [modulus_squared], 639 [norm_squared], 703 [metric_distance_squared]. *)
Definition qdot (p q : quat K) : K := vdot (p : vec K 4) q.
Definition qnorm_squared (q : quat K) : K := vnorm_squared (q : vec K 4).
Definition qdist_squared (p q : quat K) : K := vdist_squared (p : vec K 4) q.

(** 738 [conjugate], 772 [conjugate_mut]. *)
Definition qconj (q : quat K) : quat K := qfrom_parts (qscalar q) (vneg (qvector q)).
Definition qconj_mut (q : quat K) : quat K :=
  let q1 := vset (q : vec K 4) 1 (- vat (q : vec K 4) 1) in
  let q2 := vset q1 2 (- vat q1 2) in
  vset q2 3 (- vat q2 3).

(** 3963 [Neg], 3987 [Add], 4035 [Sub], 4083 [Mul<S>], 4131-4143 [Mul], 4195-4235 [S * Quaternion]. *)
Definition qneg (q : quat K) : quat K := qfrom_parts (- qscalar q) (vneg (qvector q)).
Definition qadd (p q : quat K) : quat K :=
  qfrom_parts (qscalar p + qscalar q) (vadd (qvector p) (qvector q)).
Definition qsub (p q : quat K) : quat K :=
  qfrom_parts (qscalar p - qscalar q) (vsub (qvector p) (qvector q)).
Definition qscale (q : quat K) (a : K) : quat K :=
  qfrom_parts (qscalar q * a) (vmul_s (qvector q) a).
Definition s_mul_q (a : K) (q : quat K) : quat K :=
  qfrom_parts (a * qscalar q) (s_mul_v a (qvector q)).
Definition qmul (p q : quat K) : quat K :=
  let scalar := qscalar p * qscalar q - vdot (qvector p) (qvector q) in
  let vector := vadd (vadd (vmul_s (qvector q) (qscalar p)) (vmul_s (qvector p) (qscalar q)))
                     (vcross (qvector p) (qvector q)) in
  qfrom_parts scalar vector.

(** 4334-4400: assignment operators act on [coords]. *)
Definition qadd_assign (p q : quat K) : quat K := vadd_assign (p : vec K 4) q.
Definition qsub_assign (p q : quat K) : quat K := vsub_assign (p : vec K 4) q.
Definition qscale_assign (p : quat K) (a : K) : quat K := vmul_assign (p : vec K 4) a.

(** 797 [squared]. *)
Definition qsquared (q : quat K) : quat K := qmul q q.

(** 2775 [lerp]. *)
Definition qlerp (p q : quat K) (amount : K) : quat K := qadd p (qscale (qsub q p) amount).

Context `{ND : NumDiv K}.

(** 401 [is_zero], 463 [is_identity], 488 [is_pure], 513 [is_real].  [is_one] is [x - 1] being
    zero. *)
Definition qis_zero (q : quat K) : bool := vis_zero (q : vec K 4).
Definition qis_identity (q : quat K) : bool :=
  andb (nis0 (qscalar q - 1)) (vis_zero (qvector q)).
Definition qis_pure (q : quat K) : bool := nis0 (qscalar q).
Definition qis_real (q : quat K) : bool := vis_zero (qvector q).

(** 4238 [Div<S>], 4384 [DivAssign<S>]. *)
Definition qdiv_s (q : quat K) (a : K) : quat K := qfrom_parts (qscalar q / a) (vdiv_s (qvector q) a).
Definition qdiv_assign (q : quat K) (a : K) : quat K := vdiv_assign (q : vec K 4) a.

(** 815 [half], 2245 [inner], 2291 [outer], 2962 [project], 3001 [reject]. *)
Definition one_half : K := 1 / (1 + 1).
Definition qhalf (q : quat K) : quat K := qscale q one_half.
Definition qinner (p q : quat K) : quat K := qscale (qadd (qmul p q) (qmul q p)) one_half.
Definition qouter (p q : quat K) : quat K := qscale (qsub (qmul p q) (qmul q p)) one_half.
Definition qproject (p q : quat K) : quat K := qscale q (qdot p q / qnorm_squared q).
Definition qreject (p q : quat K) : quat K := qsub p (qproject p q).

(** 1235-1260 [to_matrix]. *)
Definition qto_matrix (q : quat K) : mat K 3 3 :=
  let qs := vat (q : vec K 4) 0 in let qx := vat (q : vec K 4) 1 in
  let qy := vat (q : vec K 4) 2 in let qz := vat (q : vec K 4) 3 in
  let s := (1 + 1) / qnorm_squared q in
  m3new
    (1 - s * qy * qy - s * qz * qz) (s * qx * qy + s * qs * qz) (s * qx * qz - s * qs * qy)
    (s * qx * qy - s * qs * qz) (1 - s * qx * qx - s * qz * qz) (s * qy * qz + s * qs * qx)
    (s * qx * qz + s * qs * qy) (s * qy * qz - s * qs * qx) (1 - s * qx * qx - s * qy * qy).

(** 1326-1345 [to_matrix_mut]: overwrites the nine entries one after the other. *)
Definition qto_matrix_mut (q : quat K) (m : mat K 3 3) : mat K 3 3 :=
  let qs := vat (q : vec K 4) 0 in let qx := vat (q : vec K 4) 1 in
  let qy := vat (q : vec K 4) 2 in let qz := vat (q : vec K 4) 3 in
  let s := (1 + 1) / qnorm_squared q in
  let m := mset m 0 0 (1 - s * qy * qy - s * qz * qz) in
  let m := mset m 0 1 (s * qx * qy + s * qs * qz) in
  let m := mset m 0 2 (s * qx * qz - s * qs * qy) in
  let m := mset m 1 0 (s * qx * qy - s * qs * qz) in
  let m := mset m 1 1 (1 - s * qx * qx - s * qz * qz) in
  let m := mset m 1 2 (s * qy * qz + s * qs * qx) in
  let m := mset m 2 0 (s * qx * qz + s * qs * qy) in
  let m := mset m 2 1 (s * qy * qz - s * qs * qx) in
  mset m 2 2 (1 - s * qx * qx - s * qy * qy).

(** 1406-1441 [to_affine_matrix]. *)
Definition qto_affine_matrix (q : quat K) : mat K 4 4 :=
  let qs := vat (q : vec K 4) 0 in let qx := vat (q : vec K 4) 1 in
  let qy := vat (q : vec K 4) 2 in let qz := vat (q : vec K 4) 3 in
  let s := (1 + 1) / qnorm_squared q in
  m4new
    (1 - s * qy * qy - s * qz * qz) (s * qx * qy + s * qs * qz) (s * qx * qz - s * qs * qy) 0
    (s * qx * qy - s * qs * qz) (1 - s * qx * qx - s * qz * qz) (s * qy * qz + s * qs * qx) 0
    (s * qx * qz + s * qs * qy) (s * qy * qz - s * qs * qx) (1 - s * qx * qx - s * qy * qy) 0
    0 0 0 1.

(** 1510-1538 [to_affine_matrix_mut]. *)
Definition qto_affine_matrix_mut (q : quat K) (m : mat K 4 4) : mat K 4 4 :=
  let qs := vat (q : vec K 4) 0 in let qx := vat (q : vec K 4) 1 in
  let qy := vat (q : vec K 4) 2 in let qz := vat (q : vec K 4) 3 in
  let s := (1 + 1) / qnorm_squared q in
  let m := mset m 0 0 (1 - s * qy * qy - s * qz * qz) in
  let m := mset m 0 1 (s * qx * qy + s * qs * qz) in
  let m := mset m 0 2 (s * qx * qz - s * qs * qy) in
  let m := mset m 0 3 0 in
  let m := mset m 1 0 (s * qx * qy - s * qs * qz) in
  let m := mset m 1 1 (1 - s * qx * qx - s * qz * qz) in
  let m := mset m 1 2 (s * qy * qz + s * qs * qx) in
  let m := mset m 1 3 0 in
  let m := mset m 2 0 (s * qx * qz + s * qs * qy) in
  let m := mset m 2 1 (s * qy * qz - s * qs * qx) in
  let m := mset m 2 2 (1 - s * qx * qx - s * qy * qy) in
  let m := mset m 2 3 0 in
  let m := mset m 3 0 0 in
  let m := mset m 3 1 0 in
  let m := mset m 3 2 0 in
  mset m 3 3 1.
End Quat.

(** 123 [try_cast]. *)
Definition qtry_cast {A B} (conv : A -> option B) (da : A) (db : B) (q : quat A)
  : option (quat B) := vtry_cast conv da db (q : vec A 4).

Local Open Scope R_scope.

(** 853-1016 [l1_norm], [norm] (= [modulus], [magnitude], [l2_norm]), [metric_distance]. *)
Definition ql1_norm (q : quat R) : R := vl1_norm (q : vec R 4).
Definition qnorm (q : quat R) : R := vnorm (q : vec R 4).
Definition qdist (p q : quat R) : R := vdist (p : vec R 4) q.

(** 4638-4661 [normalize], [try_normalize]. *)
Definition qnormalize (q : quat R) : quat R := vnormalize (q : vec R 4).
Definition qtry_normalize (q : quat R) (threshold : R) : option (quat R) :=
  if Rle_dec (qnorm q) threshold then None else Some (qnormalize q).

(** 4597-4671 [Normed for Quaternion], the part [Unit] uses. *)
Definition normed_quat : normed (quat R) :=
  {| nm_norm_squared := qnorm_squared; nm_norm := qnorm; nm_normalize := qnormalize |}.

(** 1096 [from_axis_angle]. *)
Definition qfrom_axis_angle (axis : vec R 3) (angle : R) : quat R :=
  let half := 1 / (1 + 1) in
  let s := sin (angle * half) in let c := cos (angle * half) in
  qfrom_parts c (vmul_s axis s).

(** 1136-1175 [from_matrix] (= [From<Matrix3x3>]). *)
Definition qfrom_matrix (m : mat R 3 3) : quat R :=
  let half := 1 / (1 + 1) in
  let trace := mtrace m in
  if Rge_dec trace 0 then
    let s := sqrt (1 + trace) in
    let qs := half * s in
    let s := half / s in
    let qx := (mget m 1 2 - mget m 2 1) * s in
    let qy := (mget m 2 0 - mget m 0 2) * s in
    let qz := (mget m 0 1 - mget m 1 0) * s in
    qnew qs qx qy qz
  else
    match Rgt_dec (mget m 0 0) (mget m 1 1), Rgt_dec (mget m 0 0) (mget m 2 2) with
    | left _, left _ =>
        let s := sqrt ((mget m 0 0 - mget m 1 1 - mget m 2 2) + 1) in
        let qx := half * s in
        let s := half / s in
        let qy := (mget m 1 0 + mget m 0 1) * s in
        let qz := (mget m 0 2 + mget m 2 0) * s in
        let qs := (mget m 1 2 - mget m 2 1) * s in
        qnew qs qx qy qz
    | _, _ =>
        if Rgt_dec (mget m 1 1) (mget m 2 2) then
          let s := sqrt ((mget m 1 1 - mget m 0 0 - mget m 2 2) + 1) in
          let qy := half * s in
          let s := half / s in
          let qz := (mget m 2 1 + mget m 1 2) * s in
          let qx := (mget m 1 0 + mget m 0 1) * s in
          let qs := (mget m 2 0 - mget m 0 2) * s in
          qnew qs qx qy qz
        else
          let s := sqrt ((mget m 2 2 - mget m 0 0 - mget m 1 1) + 1) in
          let qz := half * s in
          let s := half / s in
          let qx := (mget m 0 2 + mget m 2 0) * s in
          let qy := (mget m 2 1 + mget m 1 2) * s in
          let qs := (mget m 0 1 - mget m 1 0) * s in
          qnew qs qx qy qz
    end.

(** 1564-1574 [try_inverse] / [try_inverse_eps], 1599-1605 [is_invertible], 1631 [inverse]
    ([None] is the panic of [unwrap]).  The threshold is a parameter (default: machine epsilon). *)
Definition qtry_inverse_eps (q : quat R) (threshold : R) : option (quat R) :=
  let norm_squared := qnorm_squared q in
  if Rle_dec norm_squared (threshold * threshold) then None
  else Some (qdiv_s (qconj q) norm_squared).
Definition qis_invertible_eps (q : quat R) (threshold : R) : bool :=
  if Rge_dec (qnorm_squared q) (threshold * threshold) then true else false.
Definition qinverse_eps (q : quat R) (threshold : R) : option (quat R) := qtry_inverse_eps q threshold.

(** 1682-1691 [arg]. *)
Definition qarg_eps (q : quat R) (threshold : R) : R :=
  if Rle_dec (qscalar q * qscalar q) (threshold * threshold) then PI / 2
  else ratan2 (vnorm (qvector q)) (qscalar q).

(** 1794-1809 [exp]. *)
Definition qexp_eps (q : quat R) (threshold : R) : quat R :=
  let norm_v_squared := vnorm_squared (qvector q) in
  if Rle_dec norm_v_squared (threshold * threshold) then qfrom_parts (exp (qscalar q)) (vzero 3)
  else
    let norm_v := sqrt norm_v_squared in
    let exp_s := exp (qscalar q) in
    let q_scalar := exp_s * cos norm_v in
    let q_vector := vmul_s (qvector q) (exp_s * sin norm_v / norm_v) in
    qfrom_parts q_scalar q_vector.

(** 1878-1899 [ln]. *)
Definition qln_eps (q : quat R) (threshold : R) : quat R :=
  let norm_v_squared := vnorm_squared (qvector q) in
  if Rle_dec norm_v_squared (threshold * threshold) then
    qfrom_parts (ln (Rabs (qscalar q))) (vzero 3)
  else
    let norm := qnorm q in
    let arccos_s_over_norm_q := acos (qscalar q / norm) in
    let q_scalar := ln norm in
    let q_vector := vmul_s (qvector q) (arccos_s_over_norm_q / sqrt norm_v_squared) in
    qfrom_parts q_scalar q_vector.

(** 1925 [powf]. *)
Definition qpowf_eps (q : quat R) (exponent threshold : R) : quat R :=
  qexp_eps (qscale (qln_eps q threshold) exponent) threshold.

(** 2093-2128 [sqrt]. *)
Definition qsqrt_eps (q : quat R) (threshold : R) : quat R :=
  let norm_self_squared := qnorm_squared q in
  if Rle_dec norm_self_squared (threshold * threshold) then qzero
  else
    let norm_v_squared := vnorm_squared (qvector q) in
    let norm_self := sqrt norm_self_squared in
    if Rle_dec norm_v_squared (threshold * threshold) then
      let sqrt_norm_self := sqrt norm_self in
      if Rgt_dec (qscalar q) 0 then qfrom_real sqrt_norm_self
      else qfrom_pure (v3 sqrt_norm_self 0 0)
    else
      let one_half := 1 / (1 + 1) in
      let c := sqrt (one_half / (norm_self + qscalar q)) in
      qfrom_parts ((norm_self + qscalar q) * c) (vmul_s (qvector q) c).

(** 2162 [div_left], 2196 [div_right]. *)
Definition qdiv_left_eps (q left : quat R) (threshold : R) : option (quat R) :=
  match qtry_inverse_eps left threshold with
  | Some left_inv => Some (qmul left_inv q)
  | None => None
  end.
Definition qdiv_right_eps (q right : quat R) (threshold : R) : option (quat R) :=
  match qtry_inverse_eps right threshold with
  | Some right_inv => Some (qmul q right_inv)
  | None => None
  end.

(** 2365-2398 [rotation_between_axis], 2328 [rotation_between]. *)
Definition qrotation_between_axis_eps (v1 v2 : vec R 3) (threshold : R) : option (quat R) :=
  match unit_try_from_value (normed_vec 3) (vcross v1 v2) threshold with
  | Some axis =>
      let cos_theta := vdot v1 v2 in
      if Rle_dec cos_theta (- 1) then None
      else if Rge_dec cos_theta 1 then Some qidentity
      else Some (qfrom_axis_angle axis (acos cos_theta))
  | None => if Rlt_dec (vdot v1 v2) 0 then None else Some qidentity
  end.
Definition qrotation_between_eps (v1 v2 : vec R 3) (threshold : R) : option (quat R) :=
  match unit_try_from_value (normed_vec 3) v1 0, unit_try_from_value (normed_vec 3) v2 0 with
  | Some u1, Some u2 => qrotation_between_axis_eps u1 u2 threshold
  | _, _ => Some qidentity
  end.

(** 2436-2756 the viewing quaternions: [From] of the corresponding matrix. *)
Definition qlook_to_lh (direction up : vec R 3) := qfrom_matrix (m3look_to_lh direction up).
Definition qlook_to_rh (direction up : vec R 3) := qfrom_matrix (m3look_to_rh direction up).
Definition qlook_at_lh (eye target : point R 3) (up : vec R 3) :=
  qfrom_matrix (m3look_at_lh eye target up).
Definition qlook_at_rh (eye target : point R 3) (up : vec R 3) :=
  qfrom_matrix (m3look_at_rh eye target up).
Definition qlook_to_lh_inv (direction up : vec R 3) := qfrom_matrix (m3look_to_lh_inv direction up).
Definition qlook_to_rh_inv (direction up : vec R 3) := qfrom_matrix (m3look_to_rh_inv direction up).
Definition qlook_at_lh_inv (eye target : point R 3) (up : vec R 3) :=
  qfrom_matrix (m3look_at_lh_inv eye target up).
Definition qlook_at_rh_inv (eye target : point R 3) (up : vec R 3) :=
  qfrom_matrix (m3look_at_rh_inv eye target up).

(** 2798 [nlerp], 2843-2903 [slerp] (default threshold 0.0005). *)
Definition qnlerp (p q : quat R) (amount : R) : quat R :=
  qnormalize (qadd (qscale p (1 - amount)) (qscale q amount)).
Definition qslerp_eps (p q : quat R) (amount lerp_threshold : R) : quat R :=
  let result := if Rlt_dec (qdot p q) 0 then qneg p else p in
  let cos_half_theta := qdot result q in
  if Rge_dec (Rabs cos_half_theta) 1 then result
  else
    let sin_half_theta := sqrt (1 - cos_half_theta * cos_half_theta) in
    if Rlt_dec (Rabs sin_half_theta) lerp_threshold then qnlerp result q amount
    else
      let half_theta := acos cos_half_theta in
      let a := sin ((1 - amount) * half_theta) / sin_half_theta in
      let b := sin (amount * half_theta) / sin_half_theta in
      let q_scalar := qscalar result * a + qscalar q * b in
      let q_vector := vadd (vmul_s (qvector result) a) (vmul_s (qvector q) b) in
      qfrom_parts q_scalar q_vector.
Definition qslerp (p q : quat R) (amount : R) : quat R := qslerp_eps p q amount (5 / 10000).

(** 3055-3068 [polar_decomposition], 3105-3112 [from_polar_decomposition]. *)
Definition qpolar_decomposition (q : quat R) : R * R * option (vec R 3) :=
  match unit_try_from_value_with_norm normed_quat q 0 with
  | Some (unit_q, norm_q) =>
      match unit_try_from_value (normed_vec 3) (qvector q) 0 with
      | Some axis =>
          let cos_angle_over_two := Rabs (qscalar unit_q) in
          let sin_angle_over_two := vnorm (qvector unit_q) in
          (norm_q, ratan2 sin_angle_over_two cos_angle_over_two, Some axis)
      | None => (norm_q, 0, None)
      end
  | None => (0, 0, None)
  end.
Definition qfrom_polar_decomposition (scale angle : R) (axis : vec R 3) : quat R :=
  let s := sin (angle / (1 + 1)) in let c := cos (angle / (1 + 1)) in
  let scalar := c * scale in
  let vector := vmul_s (vmul_s axis s) scale in
  qfrom_parts scalar vector.

(** 3146 [cos], 3228 [sin], 3322 [tan]. *)
Definition qcos (q : quat R) : quat R :=
  let n := vnorm (qvector q) in
  if Req_EM_T n 0 then qfrom_real (cos (qscalar q) * cosh n)
  else qfrom_parts (cos (qscalar q) * cosh n)
                   (vmul_s (qvector q) (- sin (qscalar q) * sinh n / n)).
Definition qsin (q : quat R) : quat R :=
  let n := vnorm (qvector q) in
  if Req_EM_T n 0 then qfrom_real (sin (qscalar q) * cosh n)
  else qfrom_parts (sin (qscalar q) * cosh n)
                   (vmul_s (qvector q) (cos (qscalar q) * sinh n / n)).
Definition qtan (q : quat R) : quat R :=
  let n := vnorm (qvector q) in
  if Req_EM_T n 0 then qfrom_real (tan (qscalar q))
  else
    let cosh_n := cosh n in let sinh_n := sinh n in
    let cos_s := cos (qscalar q) in let sin_s := sin (qscalar q) in
    let denom_s := cos_s * cos_s + sinh_n * sinh_n in
    let denom_v := denom_s * n in
    qfrom_parts (cos_s * sin_s / denom_s) (vmul_s (qvector q) (cosh_n * sinh_n / denom_v)).

(** 3411 [cosh], 3487 [sinh], 3576 [tanh]. *)
Definition qcosh (q : quat R) : quat R :=
  let n := vnorm (qvector q) in
  if Req_EM_T n 0 then qfrom_real (cosh (qscalar q) * cos n)
  else qfrom_parts (cosh (qscalar q) * cos n)
                   (vmul_s (qvector q) (sinh (qscalar q) * sin n / n)).
Definition qsinh (q : quat R) : quat R :=
  let n := vnorm (qvector q) in
  if Req_EM_T n 0 then qfrom_real (sinh (qscalar q) * cos n)
  else qfrom_parts (sinh (qscalar q) * cos n)
                   (vmul_s (qvector q) (cosh (qscalar q) * sin n / n)).
Definition qtanh (q : quat R) : quat R :=
  let n := vnorm (qvector q) in
  if Req_EM_T n 0 then qfrom_real (rtanh (qscalar q))
  else
    let cos_n := cos n in let sin_n := sin n in
    let cosh_s := cosh (qscalar q) in let sinh_s := sinh (qscalar q) in
    let denom_s := sinh_s * sinh_s + cos_n * cos_n in
    let denom_v := denom_s * n in
    qfrom_parts (cosh_s * sinh_s / denom_s) (vmul_s (qvector q) (cos_n * sin_n / denom_v)).

(** 3189 [acos], 3271 [asin], 3369 [atan], 3448 [acosh], 3524 [asinh], 3617 [atanh].  [eps] is the
    threshold inside [sqrt], [ln] and [try_inverse].  The first three normalise the vector part
    without a check: on a real quaternion the code divides by zero (NaN), which the model shows as
    [None]. *)
Definition qsignum_vec (q : quat R) : option (quat R) :=
  if Req_EM_T (vnorm (qvector q)) 0 then None else Some (qfrom_pure (vnormalize (qvector q))).
Definition qacos_eps (q : quat R) (eps : R) : option (quat R) :=
  match qsignum_vec q with
  | None => None
  | Some u =>
      let r := qln_eps (qadd q (qsqrt_eps (qsub (qsquared q) qidentity) eps)) eps in
      Some (qneg (qmul u r))
  end.
Definition qasin_eps (q : quat R) (eps : R) : option (quat R) :=
  match qsignum_vec q with
  | None => None
  | Some u =>
      let r := qln_eps (qadd (qmul u q) (qsqrt_eps (qsub qidentity (qsquared q)) eps)) eps in
      Some (qneg (qmul u r))
  end.
Definition qatan_eps (q : quat R) (eps : R) : option (quat R) :=
  match qsignum_vec q with
  | None => None
  | Some u =>
      match qdiv_right_eps (qadd u q) (qsub u q) eps with
      | None => None
      | Some r => Some (qmul (qhalf u) (qln_eps r eps))
      end
  end.
Definition qacosh_eps (q : quat R) (eps : R) : quat R :=
  qln_eps (qadd q (qmul (qsqrt_eps (qadd q qidentity) eps) (qsqrt_eps (qsub q qidentity) eps))) eps.
Definition qasinh_eps (q : quat R) (eps : R) : quat R :=
  qln_eps (qadd q (qsqrt_eps (qadd (qsquared q) qidentity) eps)) eps.
Definition qatanh_eps (q : quat R) (eps : R) : quat R :=
  qhalf (qsub (qln_eps (qadd qidentity q) eps) (qln_eps (qsub qidentity q) eps)).

(** 4405-4593: approximate comparison of [coords]. *)
Definition qabs_diff_eq (p q t : quat R) : bool := vabs_diff_eq (p : vec R 4) q t.
Definition qabs_diff_all_eq (p q : quat R) (t : R) : bool := vabs_diff_all_eq (p : vec R 4) q t.

(** euler.rs 566-584 [From<Quaternion> for Euler]. *)
Definition euler_from_quat (q : quat R) : euler := euler_from_matrix (qto_matrix q).
