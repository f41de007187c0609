(** Rotation matrices: proofs. *)

From Coq Require Import List Arith Lia Bool Reals Lra Psatz Ring.
From Verif Require Import Base Scalar Spec SpecRot LBase MVector LVector LVectorR MMatrix LMatrix
  LMatrixDet LMatrixR LMatrixM MPoint MReal LReal MAngle MMisc LMisc MRot.
Import ListNotations.
Local Open Scope R_scope.

Lemma orthonormal_iff n (m : mat R n n) :
  orthonormal_columns m <-> mmul (mtranspose m) m = midentity n.
Proof.
  split.
  - intros H. apply mat_ext. intros j i Hj Hi. rewrite mget_mmul, mget_midentity by auto.
    transitivity (sum n (fun k => mget m i k * mget m j k)).
    { apply sum_ext. intros k Hk. rewrite mget_mtranspose by auto. reflexivity. }
    rewrite (H i j Hi Hj). unfold delta. rewrite Nat.eqb_sym. reflexivity.
  - intros H j k Hj Hk.
    assert (E : mget (mmul (mtranspose m) m) k j = mget (midentity n) k j) by (rewrite H; reflexivity).
    rewrite mget_mmul, mget_midentity in E by auto.
    transitivity (sum n (fun i => nmul (mget (mtranspose m) i j) (mget m k i))).
    { apply sum_ext. intros i Hi. rewrite mget_mtranspose by auto. reflexivity. }
    rewrite E. unfold delta. rewrite Nat.eqb_sym. reflexivity.
Qed.
Lemma is_rotation3 (m : mat R 3 3) :
  is_rotation m <-> mmul (mtranspose m) m = midentity 3 /\ m3det m = 1.
Proof. unfold is_rotation. rewrite orthonormal_iff, m3det_laplace. reflexivity. Qed.
Lemma is_rotation2 (m : mat R 2 2) :
  is_rotation m <-> mmul (mtranspose m) m = midentity 2 /\ m2det m = 1.
Proof. unfold is_rotation. rewrite orthonormal_iff, m2det_laplace. reflexivity. Qed.

Lemma left_inv_right (m b : mat R 3 3) : mmul b m = midentity 3 -> mmul m b = midentity 3.
Proof.
  intros H. pose proof (m3inverse_complete b m H) as E.
  destruct (m3try_inverse_some _ _ E) as [_ E']. exact E'.
Qed.
Lemma left_inv_right2 (m b : mat R 2 2) : mmul b m = midentity 2 -> mmul m b = midentity 2.
Proof.
  intros H. pose proof (m2inverse_complete b m H) as E.
  destruct (m2try_inverse_some _ _ E) as [_ E']. exact E'.
Qed.

Lemma is_rotation_transpose (m : mat R 3 3) : is_rotation m -> is_rotation (mtranspose m).
Proof.
  rewrite !is_rotation3. intros [H D]. split.
  - rewrite mtranspose_invol. exact (left_inv_right _ _ H).
  - rewrite m3det_transpose. exact D.
Qed.
Lemma is_rotation_mul (a b : mat R 3 3) : is_rotation a -> is_rotation b -> is_rotation (mmul a b).
Proof.
  rewrite !is_rotation3. intros [H D] [H' D']. split.
  - rewrite mtranspose_mul. rewrite mmul_assoc, <- (mmul_assoc _ _ _ _ (mtranspose a) a b).
    rewrite H, mmul_1_l. exact H'.
  - rewrite m3det_mul, D, D'. rnum. ring.
Qed.
Lemma is_rotation_identity : is_rotation (midentity 3 : mat R 3 3).
Proof.
  rewrite is_rotation3. split; [|exact m3det_identity].
  rewrite mtranspose_identity, mmul_1_l. reflexivity.
Qed.
Lemma rotation_dot n (m : mat R n n) (u v : vec R n) :
  mmul (mtranspose m) m = midentity n -> vdot (mmulv m u) (mmulv m v) = vdot u v.
Proof.
  intros H. rewrite vdot_mmulv. rewrite <- mmulv_mmulv, H, mmulv_1. reflexivity.
Qed.
Lemma rotation_norm n (m : mat R n n) (u : vec R n) :
  mmul (mtranspose m) m = midentity n -> vnorm (mmulv m u) = vnorm u.
Proof.
  intros H. unfold vnorm, vnorm_squared. rewrite (rotation_dot n m u u H). reflexivity.
Qed.

(** All equations satisfied by the entries of a rotation matrix. *)
Lemma rotation_eqs a b c d e f g h k :
  is_rotation (m3new a b c d e f g h k) ->
  (a*a+b*b+c*c = 1 /\ d*d+e*e+f*f = 1 /\ g*g+h*h+k*k = 1 /\
   a*d+b*e+c*f = 0 /\ a*g+b*h+c*k = 0 /\ d*g+e*h+f*k = 0) /\
  (a*a+d*d+g*g = 1 /\ b*b+e*e+h*h = 1 /\ c*c+f*f+k*k = 1 /\
   a*b+d*e+g*h = 0 /\ a*c+d*f+g*k = 0 /\ b*c+e*f+h*k = 0) /\
  (a = e*k-f*h /\ b = f*g-d*k /\ c = d*h-e*g /\
   d = h*c-k*b /\ e = k*a-g*c /\ f = g*b-h*a /\
   g = b*f-c*e /\ h = c*d-a*f /\ k = a*e-b*d).
Proof.
  rewrite is_rotation3. intros [H D].
  pose proof (left_inv_right _ _ H) as H'.
  set (A := m3new (e*k-f*h) (h*c-k*b) (b*f-c*e)
                  (f*g-d*k) (k*a-g*c) (c*d-a*f)
                  (d*h-e*g) (g*b-h*a) (a*e-b*d)).
  assert (HA : mmul A (m3new a b c d e f g h k) = midentity 3).
  { revert D. unfold A. mcompute. rnum. intros D. pairs ltac:(lra). }
  assert (EA : A = mtranspose (m3new a b c d e f g h k)).
  { rewrite <- (mmul_1_r _ _ A), <- H', <- mmul_assoc, HA, mmul_1_l. reflexivity. }
  revert H H' EA. unfold A. clear A HA. mcompute. rnum. intros H H' EA.
  injection H as ?H. injection H' as ?H. injection EA as ?H.
  conjs; lra.
Qed.

Ltac rcompute := cbv [m2from_angle m3from_affine_angle m3from_angle_x m3from_angle_y m3from_angle_z
  m3from_axis_angle m4from_affine_angle_x m4from_affine_angle_y m4from_affine_angle_z
  m4from_affine_axis_angle euler_to_matrix euler_to_affine_matrix eu_x eu_y eu_z rodrigues
  sum m3look_rows m4look_rows m4look_cols pdiff porigin]; mcompute; rnum.

(** ** 2D *)
Lemma m2from_angle_rot t : is_rotation (m2from_angle t).
Proof.
  rewrite is_rotation2. pose proof (sin2_cos2R t). split; rcompute; [pairs ltac:(lra)|lra].
Qed.
Lemma m2from_angle_add s t : mmul (m2from_angle s) (m2from_angle t) = m2from_angle (s + t).
Proof.
  rcompute. rewrite sin_plus, cos_plus. pairs ltac:(ring).
Qed.
Lemma m2from_angle_neg t : mtranspose (m2from_angle t) = m2from_angle (- t).
Proof. rcompute. rewrite sin_neg, cos_neg. pairs ltac:(ring). Qed.
Lemma m2from_angle_0 : m2from_angle 0 = midentity 2.
Proof. rcompute. rewrite sin_0, cos_0. pairs ltac:(ring). Qed.
Lemma m2from_angle_act t x y :
  mmulv (m2from_angle t) (v2 x y) = v2 (x * cos t - y * sin t) (x * sin t + y * cos t).
Proof. rcompute. pairs ltac:(ring). Qed.
Lemma m2from_angle_period t (k : Z) : m2from_angle (t + 2 * IZR k * PI) = m2from_angle t.
Proof.
  assert (C : cos (t + 2 * IZR k * PI) = cos t /\ sin (t + 2 * IZR k * PI) = sin t).
  { destruct (Z_le_dec 0 k) as [H|H].
    - replace (IZR k) with (INR (Z.to_nat k)) by (rewrite INR_IZR_INZ, Z2Nat.id; auto).
      split; [apply cos_period|apply sin_period].
    - set (t' := t + 2 * IZR k * PI).
      replace t with (t' + 2 * INR (Z.to_nat (- k)) * PI).
      + rewrite cos_period, sin_period. auto.
      + unfold t'. rewrite INR_IZR_INZ, Z2Nat.id by lia. rewrite opp_IZR. ring. }
  destruct C as [C S]. unfold m2from_angle. cbv zeta. rewrite C, S. reflexivity.
Qed.
Lemma m3from_affine_angle_embed t : m3from_affine_angle t = membed (m2from_angle t).
Proof. reflexivity. Qed.
Lemma m2rot_norm t (v : vec R 2) : vnorm (mmulv (m2from_angle t) v) = vnorm v.
Proof. apply rotation_norm. apply (proj1 (is_rotation2 _)). apply m2from_angle_rot. Qed.
(** Every 2D rotation matrix is a [from_angle]. *)
Lemma rotation2_angle (m : mat R 2 2) : is_rotation m -> m = m2from_angle (ratan2 (mget m 0 1) (mget m 0 0)).
Proof.
  rewrite is_rotation2. mdestruct2 m. intros [H D].
  revert H D. rcompute. intros H D. injection H as ?H.
  assert (E : m00 * m00 + m01 * m01 = 1) by lra.
  destruct (ratan2_spec m00 m01) as [C S]. rewrite E, sqrt_1 in C, S.
  replace (cos (ratan2 m01 m00)) with m00 by lra. replace (sin (ratan2 m01 m00)) with m01 by lra.
  assert (D' : m00 * m11 - m10 * m01 = 1) by lra.
  assert (O : m00 * m10 + m01 * m11 = 0) by lra.
  assert (m11 = m00).
  { transitivity (m11 * (m00 * m00 + m01 * m01)); [rewrite E; ring|].
    replace (m11 * (m00 * m00 + m01 * m01))
      with (m00 * (m00 * m11 - m10 * m01) + m01 * (m00 * m10 + m01 * m11)) by ring.
    rewrite D', O. ring. }
  assert (m10 = - m01).
  { transitivity (m10 * (m00 * m00 + m01 * m01)); [rewrite E; ring|].
    replace (m10 * (m00 * m00 + m01 * m01))
      with (m00 * (m00 * m10 + m01 * m11) - m01 * (m00 * m11 - m10 * m01)) by ring.
    rewrite D', O. ring. }
  subst. reflexivity.
Qed.

(** ** 3D *)
Lemma m3from_angle_x_axis t : m3from_angle_x t = m3from_axis_angle v3_unit_x t.
Proof. rcompute. pairs ltac:(ring). Qed.
Lemma m3from_angle_y_axis t : m3from_angle_y t = m3from_axis_angle v3_unit_y t.
Proof. rcompute. pairs ltac:(ring). Qed.
Lemma m3from_angle_z_axis t : m3from_angle_z t = m3from_axis_angle v3_unit_z t.
Proof. rcompute. pairs ltac:(ring). Qed.

Lemma unit3 (a : vec R 3) : vnorm a = 1 ->
  vat a 0 * vat a 0 + vat a 1 * vat a 1 + vat a 2 * vat a 2 = 1.
Proof. rewrite unit_norm_iff. destruct3 a. mcompute. rnum. lra. Qed.

Lemma m3from_axis_angle_rodrigues (a v : vec R 3) t :
  mmulv (m3from_axis_angle a t) v = rodrigues a t v.
Proof. destruct3 a; destruct3 v. rcompute. pairs ltac:(ring). Qed.
Lemma m3from_axis_angle_vec (a v : vec R 3) t :
  mmulv (m3from_axis_angle a t) v =
  vadd (vadd (vmul_s v (cos t)) (vmul_s (vcross a v) (sin t))) (vmul_s a (vdot a v * (1 - cos t))).
Proof. destruct3 a; destruct3 v. rcompute. pairs ltac:(ring). Qed.
Lemma m3from_axis_angle_transpose (a : vec R 3) t :
  mtranspose (m3from_axis_angle a t) = m3from_axis_angle a (- t).
Proof. destruct3 a. rcompute. rewrite sin_neg, cos_neg. pairs ltac:(ring). Qed.

(** Composition: a polynomial identity in the components of the axis, modulo its length one. *)
Lemma m3from_axis_angle_add (a : vec R 3) s t : vnorm a = 1 ->
  mmul (m3from_axis_angle a s) (m3from_axis_angle a t) = m3from_axis_angle a (s + t).
Proof.
  intros H. rewrite unit_norm_iff in H. apply mmulv_ext. intros v. rewrite mmulv_mmulv.
  rewrite !m3from_axis_angle_vec. rewrite sin_plus, cos_plus.
  set (w := vadd (vadd (vmul_s v (cos t)) (vmul_s (vcross a v) (sin t)))
                 (vmul_s a (vdot a v * (1 - cos t)))).
  assert (D : vdot a w = vdot a v).
  { assert (O : vdot a (vcross a v) = 0).
    { destruct3 a; destruct3 v. rcompute. ring. }
    unfold w. rewrite !vdot_add_r, !vdot_mul_r, O, H. rnum. ring. }
  assert (X : vcross a w = vadd (vmul_s (vcross a v) (cos t))
     (vmul_s (vsub (vmul_s a (vdot a v)) v) (sin t))).
  { revert H. unfold w. clear. destruct3 a; destruct3 v. rcompute. intros H.
    assert (x * x = 1 - y * y - z * z) by lra.
    pairs ltac:(ring [H0]). }
  rewrite D, X. unfold w. clear. destruct3 a; destruct3 v. rcompute. pairs ltac:(ring).
Qed.
Lemma m3from_axis_angle_0 (a : vec R 3) : m3from_axis_angle a 0 = midentity 3.
Proof. destruct3 a. rcompute. rewrite sin_0, cos_0. pairs ltac:(ring). Qed.
Lemma m3from_axis_angle_det (a : vec R 3) t : vnorm a = 1 -> m3det (m3from_axis_angle a t) = 1.
Proof.
  intros H. apply unit3 in H. pose proof (sin2_cos2R t) as E. revert H E. destruct3 a. rcompute.
  generalize (sin t) (cos t). intros s c H E.
  assert (H' : x * x = 1 - y * y - z * z) by lra.
  assert (E' : s * s = 1 - c * c) by lra. ring [H' E'].
Qed.
Lemma m3from_axis_angle_rot (a : vec R 3) t : vnorm a = 1 -> is_rotation (m3from_axis_angle a t).
Proof.
  intros H. rewrite is_rotation3. split; [|apply m3from_axis_angle_det; auto].
  rewrite m3from_axis_angle_transpose, m3from_axis_angle_add by exact H.
  replace (- t + t) with 0 by ring. apply m3from_axis_angle_0.
Qed.
Lemma m3from_axis_angle_axis (a : vec R 3) t : vnorm a = 1 -> mmulv (m3from_axis_angle a t) a = a.
Proof.
  intros H. apply unit3 in H. revert H. destruct3 a. rcompute.
  generalize (sin t) (cos t). intros s c H.
  assert (H' : x * x = 1 - y * y - z * z) by lra. pairs ltac:(ring [H']).
Qed.
Lemma m3from_axis_angle_trace (a : vec R 3) t : vnorm a = 1 ->
  mtrace (m3from_axis_angle a t) = 1 + 2 * cos t.
Proof.
  intros H. apply unit3 in H. revert H. destruct3 a. rcompute.
  generalize (sin t) (cos t). intros s c H.
  assert (H' : x * x = 1 - y * y - z * z) by lra. ring [H'].
Qed.
Lemma cs_period t (k : Z) : cos (t + 2 * IZR k * PI) = cos t /\ sin (t + 2 * IZR k * PI) = sin t.
Proof.
  destruct (Z_le_dec 0 k) as [H|H].
  - replace (IZR k) with (INR (Z.to_nat k)) by (rewrite INR_IZR_INZ, Z2Nat.id; auto).
    split; [apply cos_period|apply sin_period].
  - set (t' := t + 2 * IZR k * PI).
    replace t with (t' + 2 * INR (Z.to_nat (- k)) * PI).
    + rewrite cos_period, sin_period. auto.
    + unfold t'. rewrite INR_IZR_INZ, Z2Nat.id by lia. rewrite opp_IZR. ring.
Qed.
Lemma m3from_axis_angle_period (a : vec R 3) t (k : Z) :
  m3from_axis_angle a (t + 2 * IZR k * PI) = m3from_axis_angle a t.
Proof.
  destruct (cs_period t k) as [C S]. unfold m3from_axis_angle. cbv zeta. rewrite C, S. reflexivity.
Qed.
Lemma m3from_axis_angle_neg (a : vec R 3) t :
  m3from_axis_angle (vneg a) (- t) = m3from_axis_angle a t.
Proof. destruct3 a. rcompute. rewrite sin_neg, cos_neg. pairs ltac:(ring). Qed.
Lemma m4from_affine_axis_angle_embed (a : vec R 3) t :
  m4from_affine_axis_angle a t = membed (m3from_axis_angle a t).
Proof. reflexivity. Qed.
Lemma m4from_affine_angle_embed t :
  m4from_affine_angle_x t = membed (m3from_angle_x t) /\
  m4from_affine_angle_y t = membed (m3from_angle_y t) /\
  m4from_affine_angle_z t = membed (m3from_angle_z t).
Proof. conjs; reflexivity. Qed.

(** ** rotation_between *)
Lemma rot_between_core (u1 u2 : vec R 3) :
  vnorm u1 = 1 -> vnorm u2 = 1 -> vcross u1 u2 <> vzero 3 ->
  let m := m3from_axis_angle (vnormalize (vcross u1 u2)) (acos (vdot u1 u2)) in
  is_rotation m /\ mmulv m u1 = u2.
Proof.
  intros H1 H2 Hc. cbv zeta. set (c := vcross u1 u2).
  split; [apply m3from_axis_angle_rot, vnormalize_norm; exact Hc|].
  assert (P : 0 < vnorm c) by (apply vnorm_pos; exact Hc).
  apply unit_norm_iff in H1. apply unit_norm_iff in H2.
  assert (L : vnorm c * vnorm c = 1 - vdot u1 u2 * vdot u1 u2).
  { rewrite vnorm_sq. unfold c. revert H1 H2. clear. destruct3 u1; destruct3 u2. rcompute.
    intros H1 H2. assert (E1 : x * x = 1 - y * y - z * z) by lra.
    assert (E2 : x0 * x0 = 1 - y0 * y0 - z0 * z0) by lra. ring [E1 E2]. }
  assert (B : -1 <= vdot u1 u2 <= 1) by nra.
  rewrite m3from_axis_angle_vec, cos_acos by exact B. rewrite sin_acos by exact B.
  unfold Rsqr. rewrite <- L, sqrt_square by lra.
  assert (A : vdot (vnormalize c) u1 = 0).
  { unfold vnormalize. transitivity (vdot c u1 * (1 / vnorm c)).
    { generalize (1 / vnorm c). intros i. unfold c. clear. destruct3 u1; destruct3 u2. rcompute. ring. }
    replace (vdot c u1) with 0; [ring|]. unfold c. clear. destruct3 u1; destruct3 u2. rcompute. ring. }
  rewrite A.
  assert (X : vmul_s (vcross (vnormalize c) u1) (vnorm c) = vcross c u1).
  { unfold vnormalize. assert (I : 1 / vnorm c * vnorm c = 1) by (field; lra). revert I.
    generalize (1 / vnorm c) (vnorm c). intros i n I. generalize c as w. intros w. clear - I.
    destruct3 u1; destruct3 w. rcompute. pairs ltac:(ring [I]). }
  rewrite X. unfold c. revert H1. clear. destruct3 u1; destruct3 u2. rcompute. intros H1.
  assert (E1 : x * x = 1 - y * y - z * z) by lra. pairs ltac:(ring [E1]).
Qed.

Lemma cross_zero_unit (u1 u2 : vec R 3) : vnorm u1 = 1 -> vnorm u2 = 1 ->
  vcross u1 u2 = vzero 3 -> u2 = vmul_s u1 (vdot u1 u2) /\ vdot u1 u2 * vdot u1 u2 = 1.
Proof.
  intros H1 H2 Hc. apply unit_norm_iff in H1. apply unit_norm_iff in H2.
  assert (E : u2 = vmul_s u1 (vdot u1 u2)).
  { assert (X : vcross (vcross u1 u2) u1 = vzero 3).
    { rewrite Hc. destruct3 u1. rcompute. pairs ltac:(ring). }
    revert X H1. clear. destruct3 u1; destruct3 u2. rcompute. intros X H1.
    injection X as X1 X2 X3. assert (E1 : x * x = 1 - y * y - z * z) by lra.
    pairs ltac:(idtac).
    - assert (G : x0 = x0 * (x * x + y * y + z * z)) by (replace (x * x + y * y + z * z) with 1 by lra; ring). lra.
    - assert (G : y0 = y0 * (x * x + y * y + z * z)) by (replace (x * x + y * y + z * z) with 1 by lra; ring). lra.
    - assert (G : z0 = z0 * (x * x + y * y + z * z)) by (replace (x * x + y * y + z * z) with 1 by lra; ring). lra. }
  split; [exact E|].
  transitivity (vdot u2 u2); [|exact H2]. rewrite E at 3 4. rewrite vdot_mul_l, vdot_mul_r, H1. rnum. ring.
Qed.
