(** Properties of quaternions: C39-C51, C94, C95 and the quaternion parts of C10, C12, C86, C90. *)

From Coq Require Import List Arith Lia ZArith QArith_base Qcanon Reals Lra.
From Verif Require Import Base Scalar Spec SpecRot LBase MVector LVector LVectorR MMatrix LMatrix
  MPoint MReal MAngle MMisc MComplex MRot MQuat LQuat LQuatR LQuatFn LQuatInv LQuatP.
Import ListNotations.
Local Open Scope R_scope.

(** ** C39 *)
(** The product is Hamilton's, written out. *)
Theorem C39_hamilton_product :
  forall (K : Type) (NK : Num K) (LK : RingLaws K) (a b c d a' b' c' d' : K),
    (qmul (qnew a b c d) (qnew a' b' c' d') =
     qnew (a * a' - b * b' - c * c' - d * d')
          (a * b' + b * a' + c * d' - d * c')
          (a * c' - b * d' + c * a' + d * b')
          (a * d' + b * c' - c * b' + d * a'))%N_.
Proof. intros. apply qmul_hamilton. Qed.
Print Assumptions C39_hamilton_product.

Theorem C39_algebra :
  forall (K : Type) (NK : Num K) (LK : RingLaws K) (p q r : quat K) (a b : K),
    (qadd p q = qadd q p /\ qadd p (qadd q r) = qadd (qadd p q) r /\ qadd p qzero = p /\
     qadd p (qneg p) = qzero /\ qsub p q = qadd p (qneg q)) /\
    (qmul p (qmul q r) = qmul (qmul p q) r /\ qmul qidentity p = p /\ qmul p qidentity = p /\
     qmul (qadd p q) r = qadd (qmul p r) (qmul q r) /\
     qmul p (qadd q r) = qadd (qmul p q) (qmul p r) /\
     qmul qzero p = qzero /\ qmul p qzero = qzero) /\
    (qscale (qmul p q) a = qmul (qscale p a) q /\ qscale (qmul p q) a = qmul p (qscale q a) /\
     qscale p a = qmul p (qfrom_real a) /\ s_mul_q a p = qscale p a /\
     qscale p (a + b)%N_ = qadd (qscale p a) (qscale p b) /\
     qscale (qscale p a) b = qscale p (a * b)%N_ /\ qscale p n1 = p) /\
    qsquared p = qmul p p.
Proof. exact @c39_algebra. Qed.
Print Assumptions C39_algebra.

Theorem C39_units :
  forall (K : Type) (NK : Num K) (LK : RingLaws K) (q : quat K),
    (qmul qunit_x qunit_x = qneg (qidentity : quat K) /\
     qmul qunit_y qunit_y = qneg (qidentity : quat K) /\
     qmul qunit_z qunit_z = qneg (qidentity : quat K) /\
     qmul qunit_x qunit_y = (qunit_z : quat K) /\ qmul qunit_y qunit_x = qneg (qunit_z : quat K) /\
     qmul qunit_y qunit_z = (qunit_x : quat K) /\ qmul qunit_z qunit_y = qneg (qunit_x : quat K) /\
     qmul qunit_z qunit_x = (qunit_y : quat K) /\ qmul qunit_x qunit_z = qneg (qunit_y : quat K) /\
     qmul (qmul qunit_x qunit_y) qunit_z = qneg (qidentity : quat K)) /\
    q = qadd (qadd (qadd (qscale qunit_s (vat (q : vec K 4) 0)) (qscale qunit_x (vat (q : vec K 4) 1)))
                   (qscale qunit_y (vat (q : vec K 4) 2))) (qscale qunit_z (vat (q : vec K 4) 3)) /\
    q = qfrom_parts (qscalar q) (qvector q).
Proof. intros. exact (conj qmul_table (conj (quat_basis q) (quat_parts q))). Qed.
Print Assumptions C39_units.

Theorem C39_conjugate_norm :
  forall (K : Type) (NK : Num K) (LK : RingLaws K) (p q : quat K),
    qconj (qconj q) = q /\ qconj (qmul p q) = qmul (qconj q) (qconj p) /\
    qconj (qadd p q) = qadd (qconj p) (qconj q) /\ qconj_mut q = qconj q /\
    qnorm_squared (qmul p q) = (qnorm_squared p * qnorm_squared q)%N_ /\
    qmul q (qconj q) = qfrom_real (qnorm_squared q) /\
    qmul (qconj q) q = qfrom_real (qnorm_squared q) /\
    qnorm_squared q = sum 4 (fun i => vat (q : vec K 4) i * vat (q : vec K 4) i)%N_.
Proof. exact @c39_conj. Qed.
Print Assumptions C39_conjugate_norm.

Theorem C39_assign_ops :
  forall (K : Type) (NK : Num K) (LK : RingLaws K) (p q : quat K) (a t : K),
    qadd_assign p q = qadd p q /\ qsub_assign p q = qsub p q /\ qscale_assign p a = qscale p a /\
    qlerp p q t = qadd (qscale p (n1 - t)%N_) (qscale q t).
Proof.
  intros. exact (conj (qadd_assign_eq p q) (conj (qsub_assign_eq p q) (conj (qscale_assign_eq p a)
    (qlerp_affine p q t)))).
Qed.
Print Assumptions C39_assign_ops.

Theorem C39_commute_iff :
  forall (K : Type) (NK : Num K) (ND : NumDiv K) (FK : FieldLaws K) (p q : quat K),
    (n1 + n1 <> n0)%N_ ->
    (qmul p q = qmul q p <-> vcross (qvector p) (qvector q) = vzero 3).
Proof. intros. apply qmul_comm_iff. assumption. Qed.
Print Assumptions C39_commute_iff.

(** Over the reals: no zero divisors, multiplicative norm, triangle inequality. *)
Theorem C39_norm :
  forall p q : quat R,
    qnorm (qmul p q) = qnorm p * qnorm q /\ qnorm (qadd p q) <= qnorm p + qnorm q /\
    0 <= qnorm p /\ (qnorm p = 0 <-> p = qzero) /\ qnorm p * qnorm p = qnorm_squared p /\
    (qmul p q = qzero <-> p = qzero \/ q = qzero).
Proof.
  intros. exact (conj (qnorm_mul p q) (conj (qadd_norm p q) (conj (qnorm_nonneg p)
    (conj (qnorm_zero p) (conj (qnorm_sq p) (qmul_zero p q)))))).
Qed.
Print Assumptions C39_norm.

Example C39_example :
  qmul (qnew 1 2 3 4)%Z (qnew 5 6 7 8)%Z = (qnew (-60) 12 30 24)%Z /\
  qmul (qnew 5 6 7 8)%Z (qnew 1 2 3 4)%Z <> (qnew (-60) 12 30 24)%Z /\
  vcross (qvector (qnew 1 2 3 4)%Z) (qvector (qnew 5 4 6 8)%Z) = vzero 3.
Proof. split; [reflexivity|split; [discriminate|reflexivity]]. Qed.

(** ** C40 *)
Theorem C40_inverse :
  forall (q : quat R) (eps : R), 0 <= eps ->
    (qtry_inverse_eps q eps = None <-> qnorm q <= eps) /\
    (forall r, qtry_inverse_eps q eps = Some r ->
       qmul q r = qidentity /\ qmul r q = qidentity /\ qnorm r * qnorm q = 1) /\
    (eps < 1 -> qnorm q = 1 -> qtry_inverse_eps q eps = Some (qconj q)) /\
    qinverse_eps q eps = qtry_inverse_eps q eps.
Proof. exact c40_inverse. Qed.
Print Assumptions C40_inverse.

Theorem C40_division :
  forall (q d : quat R) (eps : R), 0 <= eps ->
    ((qdiv_left_eps q d eps = None <-> qnorm d <= eps) /\
     (forall x, qdiv_left_eps q d eps = Some x ->
        qmul d x = q /\ forall y, qmul d y = q -> y = x)) /\
    ((qdiv_right_eps q d eps = None <-> qnorm d <= eps) /\
     (forall x, qdiv_right_eps q d eps = Some x ->
        qmul x d = q /\ forall y, qmul y d = q -> y = x)).
Proof. intros q d eps H. exact (conj (qdiv_left_spec q d eps H) (qdiv_right_spec q d eps H)). Qed.
Print Assumptions C40_division.

Theorem C40_inverse_product :
  forall (p q : quat R),
    (forall eps p' q' r, 0 <= eps -> qtry_inverse_eps p eps = Some p' ->
       qtry_inverse_eps q eps = Some q' -> qtry_inverse_eps (qmul p q) eps = Some r ->
       r = qmul q' p') /\
    (p <> qzero -> q <> qzero ->
       exists p' q', qtry_inverse_eps p 0 = Some p' /\ qtry_inverse_eps q 0 = Some q' /\
         qtry_inverse_eps (qmul p q) 0 = Some (qmul q' p')).
Proof.
  intros p q. exact (conj (fun eps p' q' r H => qinverse_mul p q p' q' r eps H) (qinverse_mul_0 p q)).
Qed.
Print Assumptions C40_inverse_product.

Example C40_example : qnorm (qnew 1 1 1 1) = 2 /\ qnew 1 1 1 1 <> (qzero : quat R) /\
  exists r, qtry_inverse_eps (qnew 1 1 1 1) (1/2) = Some r.
Proof. exact c40_example. Qed.

(** ** C41 *)
(** The two tests differ exactly on the sphere [|q| = eps]. *)
Theorem C41_is_invertible_partial :
  forall (q : quat R) (eps : R), 0 <= eps ->
    (qis_invertible_eps q eps = true <-> eps <= qnorm q) /\
    (qnorm q <> eps ->
       (qis_invertible_eps q eps = true <-> exists r, qtry_inverse_eps q eps = Some r)) /\
    (qnorm q = eps -> qis_invertible_eps q eps = true /\ qtry_inverse_eps q eps = None).
Proof.
  intros q eps H. exact (conj (qis_invertible_iff q eps H) (conj (qis_invertible_try q eps H)
    (qis_invertible_boundary q eps H))).
Qed.
Print Assumptions C41_is_invertible_partial.

Theorem C41_is_invertible_refuted :
  forall eps : R, 0 <= eps ->
    exists q : quat R, qis_invertible_eps q eps = true /\ qtry_inverse_eps q eps = None.
Proof.
  intros eps H. exact (ex_intro _ (qfrom_real eps)
    (qis_invertible_boundary _ eps H (qboundary_exists eps H))).
Qed.
Print Assumptions C41_is_invertible_refuted.

Example C41_example : qis_invertible_eps (qnew 1 1 1 1) (1/2) = true /\ qnorm (qnew 1 1 1 1) <> 1/2.
Proof. exact c41_example. Qed.

(** ** C42 *)
(** Over any field, for [q] with non-zero norm: the matrix acts as [v -> q v q^-1]. *)
Theorem C42_to_matrix_action :
  forall (K : Type) (NK : Num K) (ND : NumDiv K) (FK : FieldLaws K) (p q qi : quat K) (v : vec K 3),
    qnorm_squared q <> n0 -> qmul q qi = qidentity -> qmul qi q = qidentity ->
    qfrom_pure (mmulv (qto_matrix q) v) = qmul (qmul q (qfrom_pure v)) qi /\
    mmul (mtranspose (qto_matrix q)) (qto_matrix q) = midentity 3 /\
    mmul (qto_matrix q) (mtranspose (qto_matrix q)) = midentity 3 /\
    m3det (qto_matrix q) = n1 /\
    (qnorm_squared p <> n0 -> qto_matrix (qmul p q) = mmul (qto_matrix p) (qto_matrix q)) /\
    qto_matrix (qneg q) = qto_matrix q /\
    qto_matrix (qconj q) = mtranspose (qto_matrix q) /\
    (forall a, a <> n0 -> qto_matrix (qscale q a) = qto_matrix q) /\
    qto_matrix (qidentity : quat K) = midentity 3.
Proof. exact @c42_action. Qed.
Print Assumptions C42_to_matrix_action.

Theorem C42_to_matrix_rotation :
  forall (q : quat R), q <> qzero -> is_rotation (qto_matrix q).
Proof. exact qto_matrix_rot. Qed.
Print Assumptions C42_to_matrix_rotation.

Theorem C42_to_matrix_variants :
  forall (K : Type) (NK : Num K) (ND : NumDiv K) (q : quat K) (m : mat K 3 3) (m' : mat K 4 4),
    qto_matrix_mut q m = qto_matrix q /\ qto_affine_matrix q = membed (qto_matrix q) /\
    qto_affine_matrix_mut q m' = membed (qto_matrix q).
Proof. exact @c42_variants. Qed.
Print Assumptions C42_to_matrix_variants.

(** [qto_matrix q = qto_matrix p] only for [p = q] or [p = -q]. *)
Theorem C42_double_cover :
  forall p q : quat R, qnorm p = 1 -> qnorm q = 1 ->
    (qto_matrix p = qto_matrix q <-> p = q \/ p = qneg q).
Proof. exact qdouble_cover. Qed.
Print Assumptions C42_double_cover.

Example C42_example : qto_matrix (qnew 1 1 1 1 : quat R) = m3new 0 1 0  0 0 1  1 0 0 /\
  qmul (qnew 1 1 1 1) (qnew (1/4) (-1/4) (-1/4) (-1/4)) = qidentity.
Proof. exact c42_example. Qed.

(** ** C43 *)
Theorem C43_from_matrix :
  forall m : mat R 3 3, is_rotation m ->
    qnorm (qfrom_matrix m) = 1 /\ qto_matrix (qfrom_matrix m) = m.
Proof. exact qfrom_matrix_spec. Qed.
Print Assumptions C43_from_matrix.

Theorem C43_from_to_matrix :
  forall q : quat R, qnorm q = 1 ->
    qfrom_matrix (qto_matrix q) = q \/ qfrom_matrix (qto_matrix q) = qneg q.
Proof. exact qfrom_to_matrix. Qed.
Print Assumptions C43_from_to_matrix.

Theorem C43_euler_of_quaternion :
  forall q : quat R, q <> qzero -> euler_to_matrix (euler_from_quat q) = qto_matrix q.
Proof. exact euler_from_quat_matrix. Qed.
Print Assumptions C43_euler_of_quaternion.

(** One rotation for each of the four branches (trace >= 0; x, y, z largest). *)
Example C43_example : is_rotation (midentity 3 : mat R 3 3) /\
  is_rotation (m3new 1 0 0  0 (-1) 0  0 0 (-1)) /\ is_rotation (m3new (-1) 0 0  0 1 0  0 0 (-1)) /\
  is_rotation (m3new (-1) 0 0  0 (-1) 0  0 0 1).
Proof. exact c43_example. Qed.

(** ** C44 *)
Theorem C44_axis_angle :
  forall (a : vec R 3) (s t : R), vnorm a = 1 ->
    qnorm (qfrom_axis_angle a t) = 1 /\
    qto_matrix (qfrom_axis_angle a t) = m3from_axis_angle a t /\
    (forall v, mmulv (qto_matrix (qfrom_axis_angle a t)) v = rodrigues a t v) /\
    qmul (qfrom_axis_angle a s) (qfrom_axis_angle a t) = qfrom_axis_angle a (s + t) /\
    mmul (m3from_axis_angle a s) (m3from_axis_angle a t) = m3from_axis_angle a (s + t) /\
    qfrom_axis_angle a (- t) = qconj (qfrom_axis_angle a t) /\
    qfrom_axis_angle a (t + 2 * PI) = qneg (qfrom_axis_angle a t) /\
    qfrom_axis_angle a 0 = qidentity.
Proof. exact c44_axis_angle. Qed.
Print Assumptions C44_axis_angle.

Theorem C44_elementary :
  forall t : R,
    m3from_angle_x t = qto_matrix (qfrom_axis_angle (v3 1 0 0) t) /\
    m3from_angle_y t = qto_matrix (qfrom_axis_angle (v3 0 1 0) t) /\
    m3from_angle_z t = qto_matrix (qfrom_axis_angle (v3 0 0 1) t).
Proof. exact c44_elementary. Qed.
Print Assumptions C44_elementary.

Example C44_example : vnorm (v3 (2/3) (2/3) (1/3)) = 1.
Proof. exact c44_example. Qed.

(** ** C45 *)
Theorem C45_exp_norm :
  forall (q : quat R) (v : vec R 3) (eps : R),
    qnorm (qexp_eps q eps) = exp (qscalar q) /\ qnorm (qexp_eps (qfrom_pure v) eps) = 1 /\
    (forall x, qexp_eps (qfrom_real x) eps = qfrom_real (exp x)).
Proof. intros. exact (conj (qexp_norm q eps) (conj (qexp_pure_unit v eps) (fun x => qexp_real x eps))). Qed.
Print Assumptions C45_exp_norm.

(** True away from the negative real axis (threshold zero); the code's threshold [eps] is covered by
    the second part.  Missing: the negative reals, where it is false. *)
Theorem C45_exp_ln_partial :
  forall (q : quat R) (eps : R),
    (qvector q <> vzero 3 \/ 0 < qscalar q ->
       qexp_eps (qln_eps q 0) 0 = q /\ qpowf_eps q 1 0 = q) /\
    (0 <= eps -> eps < vnorm (qvector q) -> eps < acos (qscalar q / qnorm q) ->
       qexp_eps (qln_eps q eps) eps = q /\ qpowf_eps q 1 eps = q) /\
    (forall x, 0 < x -> qexp_eps (qln_eps (qfrom_real x) eps) eps = qfrom_real x) /\
    (forall x, x < 0 -> qexp_eps (qln_eps (qfrom_real x) eps) eps = qfrom_real (- x)).
Proof. exact c45_exp_ln. Qed.
Print Assumptions C45_exp_ln_partial.

Theorem C45_exp_ln_refuted :
  forall eps : R, exists q : quat R, q <> qzero /\ qexp_eps (qln_eps q eps) eps <> q.
Proof. exact c45_refuted. Qed.
Print Assumptions C45_exp_ln_refuted.

Theorem C45_ln_exp :
  forall q : quat R, vnorm (qvector q) < PI -> qln_eps (qexp_eps q 0) 0 = q.
Proof. exact qln_exp0. Qed.
Print Assumptions C45_ln_exp.

Theorem C45_powers :
  forall (q p : quat R) (a b : R),
    qpowf_eps q (a + b) 0 = qmul (qpowf_eps q a 0) (qpowf_eps q b 0) /\
    qpowf_eps q 0 0 = qidentity /\
    qnorm (qpowf_eps q a 0) = Rpower (qnorm q) a /\
    (vcross (qvector p) (qvector q) = vzero 3 ->
     qexp_eps (qadd p q) 0 = qmul (qexp_eps p 0) (qexp_eps q 0)).
Proof.
  intros. exact (conj (qpowf_add q a b) (conj (qpowf_0 q) (conj (qpowf_norm q a) (qexp_add p q)))).
Qed.
Print Assumptions C45_powers.

Example C45_example : qvector (qnew (-1) 0 0 1) <> (vzero 3 : vec R 3) /\
  vnorm (qvector (qnew 1 0 0 1)) < PI.
Proof. exact c45_example. Qed.

(** ** C46 *)
Theorem C46_sqrt :
  forall q : quat R,
    qmul (qsqrt_eps q 0) (qsqrt_eps q 0) = q /\ 0 <= qscalar (qsqrt_eps q 0).
Proof. exact c46_sqrt. Qed.
Print Assumptions C46_sqrt.

(** With a positive threshold the two small regions around zero and around the real axis are
    excluded. *)
Theorem C46_sqrt_threshold :
  forall (q : quat R) (eps : R), 0 <= eps -> (q = qzero \/ eps < qnorm q) ->
    (qvector q = vzero 3 \/ eps < vnorm (qvector q)) ->
    qmul (qsqrt_eps q eps) (qsqrt_eps q eps) = q /\ 0 <= qscalar (qsqrt_eps q eps).
Proof. exact qsqrt_sq. Qed.
Print Assumptions C46_sqrt_threshold.

Example C46_example : qsqrt_eps (qfrom_real (-4)) (1/10) = qnew 0 2 0 0.
Proof. exact c46_example. Qed.

(** ** C47 *)
(** What holds: unit results for all amounts, exact end at 1, constant speed along the shorter arc.
    Missing: at 0 the result is [-p] when the dot product is negative. *)
Theorem C47_slerp_partial :
  forall (p q : quat R) (thr : R), qnorm p = 1 -> qnorm q = 1 ->
    (forall t, qnorm (qslerp_eps p q t thr) = 1) /\
    qslerp_eps p q 1 thr = q /\
    (0 <= qdot p q -> qslerp_eps p q 0 thr = p) /\
    (qdot p q < 0 -> qslerp_eps p q 0 thr = qneg p) /\
    (qslerp_eps p q 0 thr = p \/ qslerp_eps p q 0 thr = qneg p) /\
    qto_matrix (qslerp_eps p q 0 thr) = qto_matrix p.
Proof. exact c47_slerp. Qed.
Print Assumptions C47_slerp_partial.

Theorem C47_slerp_speed :
  forall (p q : quat R) (thr s t : R), qnorm p = 1 -> qnorm q = 1 ->
    Rabs (qdot p q) < 1 -> thr <= sqrt (1 - Rabs (qdot p q) * Rabs (qdot p q)) ->
    let theta := acos (Rabs (qdot p q)) in
    0 <= theta <= PI / 2 /\
    qdot (qslerp_eps p q s thr) (qslerp_eps p q t thr) = cos ((s - t) * theta) /\
    qdot (qslerp_eps p q 0 thr) (qslerp_eps p q t thr) = cos (t * theta).
Proof. exact c47_speed. Qed.
Print Assumptions C47_slerp_speed.

Theorem C47_slerp_start_refuted :
  exists p q : quat R, qnorm p = 1 /\ qnorm q = 1 /\ qslerp p q 0 <> p.
Proof. exact c47_refuted. Qed.
Print Assumptions C47_slerp_start_refuted.

Theorem C47_nlerp :
  forall (p q : quat R) (t : R), qnorm p = 1 -> qnorm q = 1 ->
    (p <> qneg q \/ t <> 1 / 2 -> qnorm (qnlerp p q t) = 1 /\
       exists c, 0 < c /\ forall i, (i < 4)%nat ->
         vat (qnlerp p q t : vec R 4) i = c * ((1 - t) * vat (p : vec R 4) i + t * vat (q : vec R 4) i)) /\
    qnlerp p q 0 = p /\ qnlerp p q 1 = q.
Proof.
  intros p q t H1 H2. exact (conj (fun N => conj (qnlerp_unit p q t H1 H2 N) (qnlerp_dir p q t H1 H2 N)) (qnlerp_ends p q H1 H2)).
Qed.
Print Assumptions C47_nlerp.

Example C47_example : qnorm (qnew 1 0 0 0) = 1 /\ qnorm (qnew (3/5) 0 (4/5) 0) = 1 /\
  Rabs (qdot (qnew 1 0 0 0) (qnew (3/5) 0 (4/5) 0)) < 1.
Proof. exact c47_example. Qed.

(** ** C48 *)
(** The decomposition returns half the angle that the constructor expects, and loses the sign of
    the scalar part; it never round-trips on a quaternion with a vector part. *)
Theorem C48_polar_partial :
  forall (q : quat R), qvector q <> vzero 3 ->
    exists t, qpolar_decomposition q = (qnorm q, t, Some (vnormalize (qvector q))) /\
      0 < t <= PI / 2 /\ qnorm q * cos t = Rabs (qscalar q) /\
      qnorm q * sin t = vnorm (qvector q) /\
      qfrom_polar_decomposition (qnorm q) (2 * t) (vnormalize (qvector q)) =
        qfrom_parts (Rabs (qscalar q)) (qvector q).
Proof. exact c48_polar. Qed.
Print Assumptions C48_polar_partial.

Theorem C48_polar_refuted :
  forall (q : quat R) (r t : R) (a : vec R 3), qvector q <> vzero 3 ->
    qpolar_decomposition q = (r, t, Some a) -> qfrom_polar_decomposition r t a <> q.
Proof. exact qpolar_roundtrip_never. Qed.
Print Assumptions C48_polar_refuted.

Theorem C48_from_polar :
  forall (r t : R) (a : vec R 3),
    (0 <= r -> vnorm a = 1 -> qnorm (qfrom_polar_decomposition r t a) = r) /\
    qfrom_polar_decomposition 1 t a = qfrom_axis_angle a t.
Proof. intros. exact (conj (qfrom_polar_norm r t a) (qfrom_polar_axis_angle t a)). Qed.
Print Assumptions C48_from_polar.

Theorem C48_polar_real :
  qpolar_decomposition qzero = (0, 0, None) /\
  forall x, x <> 0 -> qpolar_decomposition (qfrom_real x) = (Rabs x, 0, None).
Proof. exact (conj qpolar_zero qpolar_real). Qed.
Print Assumptions C48_polar_real.

Example C48_example : qvector (qnew 1 1 0 0) <> (vzero 3 : vec R 3).
Proof. exact c48_example. Qed.

(** ** C49 *)
Theorem C49_inner_outer :
  forall (K : Type) (NK : Num K) (ND : NumDiv K) (FK : FieldLaws K) (p q : quat K),
    (n1 + n1 <> n0)%N_ ->
    qadd (qinner p q) (qinner p q) = qadd (qmul p q) (qmul q p) /\
    qadd (qouter p q) (qouter p q) = qsub (qmul p q) (qmul q p) /\
    qadd (qinner p q) (qouter p q) = qmul p q /\
    qouter p q = qfrom_pure (vcross (qvector p) (qvector q)) /\
    qinner p q = qinner q p /\ qouter p q = qneg (qouter q p).
Proof.
  intros K NK ND FK p q H. exact (conj (qinner_twice p q H) (conj (qouter_twice p q H)
    (conj (qinner_outer p q H) (conj (qouter_cross p q H) (conj (qinner_comm p q)
    (qouter_anti p q H)))))).
Qed.
Print Assumptions C49_inner_outer.

Theorem C49_project_reject :
  forall (K : Type) (NK : Num K) (ND : NumDiv K) (FK : FieldLaws K) (p q : quat K),
    qadd (qproject p q) (qreject p q) = p /\
    (exists a, qproject p q = qscale q a) /\
    (qnorm_squared q <> n0 -> qdot (qreject p q) q = n0 /\ qproject q q = q).
Proof. exact @c49_project. Qed.
Print Assumptions C49_project_reject.

Example C49_example :
  qouter (qnew 1 2 3 4) (qnew 5 6 7 8) = qnew 0 (-4) 8 (-4) :> quat R.
Proof. exact c49_example. Qed.

(** ** C50 *)
(** [in_slice u z] is the quaternion [re z + u * im z]: for a unit vector [u] a copy of the complex
    numbers, and every quaternion lies in one. *)
Theorem C50_slice :
  forall q : quat R,
    exists (u : vec R 3) (z : complex R), vnorm u = 1 /\
      q = qfrom_parts (re z) (vmul_s u (im z)) /\
      forall f, f = (qcos, ccos) \/ f = (qsin, csin) \/ f = (qcosh, ccosh) \/ f = (qsinh, csinh) ->
        fst f q = qfrom_parts (re (snd f z)) (vmul_s u (im (snd f z))).
Proof. exact c50_slice. Qed.
Print Assumptions C50_slice.

Theorem C50_slice_all :
  forall (u : vec R 3) (z : complex R), vnorm u = 1 ->
    let emb w := qfrom_parts (re w) (vmul_s u (im w)) in
    qcos (emb z) = emb (ccos z) /\ qsin (emb z) = emb (csin z) /\
    qcosh (emb z) = emb (ccosh z) /\ qsinh (emb z) = emb (csinh z) /\
    (ccos z <> mkC 0 0 -> qtan (emb z) = emb (ctan z)) /\
    (ccosh z <> mkC 0 0 -> qtanh (emb z) = emb (ctanh z)) /\
    qexp_eps (emb z) 0 = emb (cexp z).
Proof. exact c50_slice_all. Qed.
Print Assumptions C50_slice_all.

Theorem C50_identities :
  forall q : quat R,
    qadd (qmul (qcos q) (qcos q)) (qmul (qsin q) (qsin q)) = qidentity /\
    qsub (qmul (qcosh q) (qcosh q)) (qmul (qsinh q) (qsinh q)) = qidentity /\
    (qcos q <> qzero -> qmul (qtan q) (qcos q) = qsin q /\ qmul (qcos q) (qtan q) = qsin q) /\
    (qcosh q <> qzero -> qmul (qtanh q) (qcosh q) = qsinh q /\ qmul (qcosh q) (qtanh q) = qsinh q).
Proof.
  intros q. exact (conj (qcos2_qsin2 q) (conj (qcosh2_qsinh2 q) (conj (qtan_qcos q) (qtanh_qcosh q)))).
Qed.
Print Assumptions C50_identities.

Theorem C50_real :
  forall x : R,
    qcos (qfrom_real x) = qfrom_real (cos x) /\ qsin (qfrom_real x) = qfrom_real (sin x) /\
    qtan (qfrom_real x) = qfrom_real (tan x) /\ qcosh (qfrom_real x) = qfrom_real (cosh x) /\
    qsinh (qfrom_real x) = qfrom_real (sinh x) /\
    qtanh (qfrom_real x) = qfrom_real (sinh x / cosh x).
Proof. exact qtrig_real. Qed.
Print Assumptions C50_real.

Example C50_example : qcos qzero <> qzero /\ qcosh qzero <> qzero.
Proof. exact c50_example. Qed.

(** ** C51 *)
Theorem C51_quaternion_rotation_between_axis :
  forall (u1 u2 : vec R 3) (eps : R), 0 <= eps -> vnorm u1 = 1 -> vnorm u2 = 1 ->
    (eps < vnorm (vcross u1 u2) ->
       exists q a t, qrotation_between_axis_eps u1 u2 eps = Some q /\ qnorm q = 1 /\
         mmulv (qto_matrix q) u1 = u2 /\ q = qfrom_axis_angle a t /\ vnorm a = 1 /\
         vdot a u1 = 0 /\ vdot a u2 = 0 /\ 0 <= t <= PI /\ cos t = vdot u1 u2) /\
    (vnorm (vcross u1 u2) <= eps ->
       (vdot u1 u2 < 0 -> qrotation_between_axis_eps u1 u2 eps = None) /\
       (0 <= vdot u1 u2 -> qrotation_between_axis_eps u1 u2 eps = Some qidentity)).
Proof. exact qrotation_between_axis_spec. Qed.
Print Assumptions C51_quaternion_rotation_between_axis.

Theorem C51_quaternion_rotation_between :
  forall (v1 v2 : vec R 3) (eps : R), 0 <= eps -> v1 <> vzero 3 -> v2 <> vzero 3 ->
    let u1 := vnormalize v1 in let u2 := vnormalize v2 in
    (eps < vnorm (vcross u1 u2) ->
       exists q a t, qrotation_between_eps v1 v2 eps = Some q /\ qnorm q = 1 /\
         mmulv (qto_matrix q) u1 = u2 /\ q = qfrom_axis_angle a t /\ vnorm a = 1 /\
         vdot a u1 = 0 /\ vdot a u2 = 0 /\ 0 <= t <= PI /\ cos t = vdot u1 u2) /\
    (vnorm (vcross u1 u2) <= eps ->
       (vdot u1 u2 < 0 -> qrotation_between_eps v1 v2 eps = None) /\
       (0 <= vdot u1 u2 -> qrotation_between_eps v1 v2 eps = Some qidentity)).
Proof. exact qrotation_between_spec. Qed.
Print Assumptions C51_quaternion_rotation_between.

Theorem C51_quaternion_rotation_between_exact :
  forall u1 u2 : vec R 3, vnorm u1 = 1 -> vnorm u2 = 1 ->
    (u2 <> vneg u1 -> exists q, qrotation_between_axis_eps u1 u2 0 = Some q /\ qnorm q = 1 /\
                                mmulv (qto_matrix q) u1 = u2) /\
    (u2 = vneg u1 -> qrotation_between_axis_eps u1 u2 0 = None).
Proof. exact qrotation_between_axis_exact. Qed.
Print Assumptions C51_quaternion_rotation_between_exact.

Example C51_quaternion_example :
  vnorm (v3 1 0 0) = 1 /\ vnorm (v3 0 (3/5) (4/5)) = 1 /\
  1/10 < vnorm (vcross (v3 1 0 0) (v3 0 (3/5) (4/5))).
Proof. exact c51q_example. Qed.

(** ** C61 (quaternions) *)
Theorem C61_quaternion_look :
  forall d up : vec R 3, vcross up d <> vzero 3 ->
    qnorm (qlook_to_lh d up) = 1 /\ qto_matrix (qlook_to_lh d up) = m3look_to_lh d up /\
    qnorm (qlook_to_rh d up) = 1 /\ qto_matrix (qlook_to_rh d up) = m3look_to_rh d up /\
    qto_matrix (qlook_to_lh_inv d up) = mtranspose (m3look_to_lh d up) /\
    qto_matrix (qlook_to_rh_inv d up) = mtranspose (m3look_to_rh d up).
Proof. exact qlook_spec. Qed.
Print Assumptions C61_quaternion_look.

(** ** C10, C12, C86, C90 (quaternions) *)
Theorem C10_quaternion_normalize :
  forall (q : quat R) (t : R),
    (q <> qzero -> qnorm (qnormalize q) = 1 /\ qscale (qnormalize q) (qnorm q) = q) /\
    (qnorm q = 1 -> qnormalize q = q) /\
    (qtry_normalize q t = None <-> qnorm q <= t) /\
    (t < qnorm q -> qtry_normalize q t = Some (qnormalize q)).
Proof. exact c10_quat. Qed.
Print Assumptions C10_quaternion_normalize.

Theorem C12_quaternion_try_cast :
  forall (A B : Type) (conv : A -> option B) (da : A) (db : B) (s x y z : A),
    (forall s' x' y' z', conv s = Some s' -> conv x = Some x' -> conv y = Some y' ->
       conv z = Some z' -> qtry_cast conv da db (qnew s x y z) = Some (qnew s' x' y' z')) /\
    (conv s = None \/ conv x = None \/ conv y = None \/ conv z = None <->
     qtry_cast conv da db (qnew s x y z) = None).
Proof. exact @c12_quat. Qed.
Print Assumptions C12_quaternion_try_cast.

Theorem C86_unit_quaternion :
  forall (x : quat R) (t : R),
    (x <> qzero -> qnorm (unit_from_value normed_quat x) = 1 /\
       qscale (unit_from_value normed_quat x) (qnorm x) = x /\
       unit_from_value_with_norm normed_quat x = (unit_from_value normed_quat x, qnorm x)) /\
    (0 <= t ->
     (unit_try_from_value normed_quat x t = None <-> qnorm x <= t) /\
     (unit_try_from_value_with_norm normed_quat x t = None <-> qnorm x <= t) /\
     (forall u, unit_try_from_value normed_quat x t = Some u ->
        qnorm u = 1 /\ qscale u (qnorm x) = x) /\
     (forall u r, unit_try_from_value_with_norm normed_quat x t = Some (u, r) ->
        qnorm u = 1 /\ qscale u (qnorm x) = x /\ r = qnorm x)).
Proof. exact unit_quat_all. Qed.
Print Assumptions C86_unit_quaternion.

Theorem C90_quaternion_approx :
  forall (p q : quat R) (t t' : R),
    (0 <= t -> qabs_diff_all_eq p p t = true) /\
    qabs_diff_all_eq p q t = qabs_diff_all_eq q p t /\
    (t <= t' -> qabs_diff_all_eq p q t = true -> qabs_diff_all_eq p q t' = true) /\
    (qabs_diff_all_eq p q t = true <->
     forall i, (i < 4)%nat -> Rabs (vat (p : vec R 4) i - vat (q : vec R 4) i) <= t).
Proof. exact c90_quat. Qed.
Print Assumptions C90_quaternion_approx.

Example C10_C12_C86_C90_quaternion_example :
  qnorm (qnew 1 1 1 1) = 2 /\ qnew 1 1 1 1 <> (qzero : quat R) /\
  qtry_cast (fun n : nat => Some (S n)) 0%nat 0%nat (qnew 1 2 3 4)%nat = Some (qnew 2 3 4 5)%nat /\
  qabs_diff_all_eq (qnew 1 1 1 1) (qnew 1 1 1 (3/2)) 1 = true.
Proof. exact c86_quat_example. Qed.

(** ** C94 *)
(** The inverse functions are right inverses where stated (threshold zero).  Missing: [acos] on
    pure quaternions off the x axis, [atan] on pure quaternions of norm >= 1, [asinh] on pure
    quaternions of norm > 1 off the x axis, and the real cuts below; see the [_refuted] and
    [_cut] theorems. *)
Theorem C94_inverse_trig_partial :
  forall q : quat R, qvector q <> vzero 3 ->
    (qscalar q <> 0 \/ vnormalize (qvector q) = v3 1 0 0 ->
       exists r, qacos_eps q 0 = Some r /\ qcos r = q) /\
    (exists r, qasin_eps q 0 = Some r /\ qsin r = q) /\
    (qscalar q <> 0 \/ vnorm (qvector q) < 1 ->
       exists r, qatan_eps q 0 = Some r /\ qcos r <> qzero /\ qtan r = q).
Proof.
  intros q H. exact (conj (qcos_acos q H) (conj (qsin_asin q H) (qtan_atan q H))).
Qed.
Print Assumptions C94_inverse_trig_partial.

Theorem C94_inverse_hyperbolic_partial :
  forall q : quat R,
    (qvector q <> vzero 3 \/ -1 < qscalar q -> qcosh (qacosh_eps q 0) = q) /\
    (qscalar q <> 0 \/ vnorm (qvector q) <= 1 \/ vnormalize (qvector q) = v3 1 0 0 ->
       qsinh (qasinh_eps q 0) = q) /\
    (qvector q <> vzero 3 \/ -1 < qscalar q < 1 ->
       qcosh (qatanh_eps q 0) <> qzero /\ qtanh (qatanh_eps q 0) = q).
Proof.
  intros q. exact (conj (qcosh_acosh q) (conj (qsinh_asinh q) (qtanh_atanh q))).
Qed.
Print Assumptions C94_inverse_hyperbolic_partial.

(** On real quaternions [acos], [asin], [atan] divide by the zero vector norm; on the real cuts
    [acosh] and [atanh] invert the wrong value. *)
Theorem C94_inverse_real_cut :
  forall (x eps : R) (v : vec R 3),
    (qacos_eps (qfrom_real x) eps = None /\ qasin_eps (qfrom_real x) eps = None /\
     qatan_eps (qfrom_real x) eps = None) /\
    (x <= -1 -> qcosh (qacosh_eps (qfrom_real x) 0) = qfrom_real (- x)) /\
    (1 < Rabs x -> qtanh (qatanh_eps (qfrom_real x) 0) = qfrom_real (/ x)) /\
    (0 <= eps -> vnorm v = 1 -> qatan_eps (qfrom_pure v) eps = None).
Proof.
  intros x eps v. exact (conj (qarc_real x eps) (conj (qacosh_cut x) (conj (qatanh_cut x)
    (qatan_panic v eps)))).
Qed.
Print Assumptions C94_inverse_real_cut.

Theorem C94_acos_refuted :
  exists (q r : quat R), qvector q <> vzero 3 /\ qacos_eps q 0 = Some r /\ qcos r <> q.
Proof. exact c94_refuted. Qed.
Print Assumptions C94_acos_refuted.

Example C94_example : qvector (qnew 1 1 0 0) <> (vzero 3 : vec R 3) /\ qscalar (qnew 1 1 0 0) <> 0 /\
  1 < Rabs (-3).
Proof. exact c94_example. Qed.

(** ** C95 *)
Theorem C95_arg :
  forall (q : quat R) (eps : R), 0 <= eps ->
    (eps < Rabs (qscalar q) ->
       0 <= qarg_eps q eps <= PI /\ qnorm q * cos (qarg_eps q eps) = qscalar q /\
       qnorm q * sin (qarg_eps q eps) = vnorm (qvector q)) /\
    (Rabs (qscalar q) <= eps -> qarg_eps q eps = PI / 2).
Proof. exact c95_arg. Qed.
Print Assumptions C95_arg.

Example C95_example : 0 < Rabs (qscalar (qnew (-3) 0 4 0)) /\ qnorm (qnew (-3) 0 4 0) = 5.
Proof. exact c95_example. Qed.
