(** Properties of rotation matrices, Euler angles and viewing matrices: C51 (matrix form), C52,
    C57-C62.  [is_rotation] (SpecRot.v): orthonormal columns and Laplace determinant one. *)

From Coq Require Import List Arith Lia ZArith Reals Lra.
From Verif Require Import Base Scalar Spec SpecRot LBase MVector LVector LVectorR MMatrix LMatrix
  MPoint MReal MAngle MMisc MRot LRot LRotBetween LLook LRotP.
Import ListNotations.
Local Open Scope R_scope.

(** ** C51 *)
Theorem C51_matrix_rotation_between_axis :
  forall (u1 u2 : vec R 3) (eps : R), 0 <= eps -> vnorm u1 = 1 -> vnorm u2 = 1 ->
    (eps < vnorm (vcross u1 u2) ->
       exists m a t, m3rotation_between_axis_eps u1 u2 eps = Some m /\ is_rotation m /\
         mmulv m u1 = u2 /\ (forall v, mmulv m v = rodrigues a t v) /\ vnorm a = 1 /\
         vdot a u1 = 0 /\ vdot a u2 = 0 /\ 0 <= t <= PI /\ cos t = vdot u1 u2) /\
    (vnorm (vcross u1 u2) <= eps ->
       (vdot u1 u2 < 0 -> m3rotation_between_axis_eps u1 u2 eps = None) /\
       (0 <= vdot u1 u2 -> m3rotation_between_axis_eps u1 u2 eps = Some (midentity 3))).
Proof. exact c51_matrix_axis. Qed.
Print Assumptions C51_matrix_rotation_between_axis.

Theorem C51_matrix_rotation_between :
  forall (v1 v2 : vec R 3) (eps : R), 0 <= eps -> v1 <> vzero 3 -> v2 <> vzero 3 ->
    let u1 := vnormalize v1 in let u2 := vnormalize v2 in
    (eps < vnorm (vcross u1 u2) ->
       exists m a t, m3rotation_between_eps v1 v2 eps = Some m /\ is_rotation m /\
         mmulv m u1 = u2 /\ (forall v, mmulv m v = rodrigues a t v) /\ vnorm a = 1 /\
         vdot a v1 = 0 /\ vdot a v2 = 0 /\ 0 <= t <= PI /\ cos t = vdot u1 u2) /\
    (vnorm (vcross u1 u2) <= eps ->
       (vdot u1 u2 < 0 -> m3rotation_between_eps v1 v2 eps = None) /\
       (0 <= vdot u1 u2 -> m3rotation_between_eps v1 v2 eps = Some (midentity 3))).
Proof. exact c51_matrix_vectors. Qed.
Print Assumptions C51_matrix_rotation_between.

(** With an exact zero test the answer is a rotation taking [u1] to [u2] unless they are opposite. *)
Theorem C51_matrix_rotation_between_exact :
  forall (u1 u2 v1 v2 : vec R 3) (eps : R), vnorm u1 = 1 -> vnorm u2 = 1 ->
    (u2 <> vneg u1 -> exists m, m3rotation_between_axis_eps u1 u2 0 = Some m /\ is_rotation m /\
                                mmulv m u1 = u2) /\
    (u2 = vneg u1 -> m3rotation_between_axis_eps u1 u2 0 = None) /\
    (v1 = vzero 3 \/ v2 = vzero 3 -> m3rotation_between_eps v1 v2 eps = Some (midentity 3)).
Proof.
  intros u1 u2 v1 v2 eps H1 H2. destruct (m3rotation_between_axis_exact u1 u2 H1 H2) as [A B].
  exact (conj A (conj B (m3rotation_between_zero v1 v2 eps))).
Qed.
Print Assumptions C51_matrix_rotation_between_exact.

Example C51_matrix_example :
  vnorm (v3 1 0 0) = 1 /\ vnorm (v3 0 (3/5) (4/5)) = 1 /\
  1/10 < vnorm (vcross (v3 1 0 0) (v3 0 (3/5) (4/5))).
Proof. exact c51_example. Qed.

(** ** C52 *)
(** The matrix always turns counter-clockwise: it is a rotation but takes [u1] to [u2] exactly when
    the signed area [u1 x u2] is non-negative. *)
Theorem C52_rotation_between_2d_partial :
  forall u1 u2 v1 v2 : vec R 2, vnorm u1 = 1 -> vnorm u2 = 1 ->
    is_rotation (m2rotation_between_axis u1 u2) /\
    (mmulv (m2rotation_between_axis u1 u2) u1 = u2 <->
     0 <= vat u1 0 * vat u2 1 - vat u1 1 * vat u2 0) /\
    (v1 <> vzero 2 -> v2 <> vzero 2 ->
     m2rotation_between v1 v2 = m2rotation_between_axis (vnormalize v1) (vnormalize v2)).
Proof.
  intros u1 u2 v1 v2 H1 H2. destruct (m2rotation_between_axis_iff u1 u2 H1 H2) as [A B].
  exact (conj A (conj B (m2rotation_between_nz v1 v2))).
Qed.
Print Assumptions C52_rotation_between_2d_partial.

Theorem C52_rotation_between_2d_refuted :
  exists u1 u2 : vec R 2, vnorm u1 = 1 /\ vnorm u2 = 1 /\
    mmulv (m2rotation_between_axis u1 u2) u1 <> u2.
Proof. exact c52_refuted. Qed.
Print Assumptions C52_rotation_between_2d_refuted.

Example C52_example : vnorm (v2 1 0) = 1 /\ vnorm (v2 0 1) = 1 /\
  0 <= vat (v2 1 0) 0 * vat (v2 0 1) 1 - vat (v2 1 0) 1 * vat (v2 0 1) 0.
Proof. exact c52_example. Qed.

(** ** C57 *)
Theorem C57_rotation_2d :
  forall (s t x y : R) (k : Z) (v : vec R 2),
    is_rotation (m2from_angle t) /\
    mmulv (m2from_angle t) (v2 x y) = v2 (x * cos t - y * sin t) (x * sin t + y * cos t) /\
    mmul (m2from_angle s) (m2from_angle t) = m2from_angle (s + t) /\
    vnorm (mmulv (m2from_angle t) v) = vnorm v /\
    mtranspose (m2from_angle t) = m2from_angle (- t) /\
    m2from_angle 0 = midentity 2 /\
    m2from_angle (t + 2 * IZR k * PI) = m2from_angle t /\
    m3from_affine_angle t = membed (m2from_angle t).
Proof.
  intros. exact (conj (m2from_angle_rot t) (conj (m2from_angle_act t x y)
    (conj (m2from_angle_add s t) (conj (m2rot_norm t v) (conj (m2from_angle_neg t)
    (conj m2from_angle_0 (conj (m2from_angle_period t k) (m3from_affine_angle_embed t)))))))).
Qed.
Print Assumptions C57_rotation_2d.

(** Every 2D rotation matrix is [from_angle] of its own angle. *)
Theorem C57_rotation_2d_complete :
  forall m : mat R 2 2, is_rotation m ->
    exists t, - PI < t <= PI /\ m = m2from_angle t.
Proof. exact c57_complete. Qed.
Print Assumptions C57_rotation_2d_complete.

Example C57_example : mmulv (m2from_angle (PI / 2)) (v2 1 0) = v2 0 1.
Proof. exact c57_example. Qed.

(** ** C58 *)
Theorem C58_rotation_3d :
  forall (a v : vec R 3) (s t : R) (k : Z), vnorm a = 1 ->
    is_rotation (m3from_axis_angle a t) /\
    mmulv (m3from_axis_angle a t) a = a /\
    mmulv (m3from_axis_angle a t) v = rodrigues a t v /\
    mtrace (m3from_axis_angle a t) = 1 + 2 * cos t /\
    m3from_axis_angle a (t + 2 * IZR k * PI) = m3from_axis_angle a t /\
    mmul (m3from_axis_angle a s) (m3from_axis_angle a t) = m3from_axis_angle a (s + t) /\
    mtranspose (m3from_axis_angle a t) = m3from_axis_angle a (- t) /\
    m3from_axis_angle (vneg a) (- t) = m3from_axis_angle a t /\
    m4from_affine_axis_angle a t = membed (m3from_axis_angle a t).
Proof.
  intros a v s t k H.
  exact (conj (m3from_axis_angle_rot a t H) (conj (m3from_axis_angle_axis a t H)
    (conj (m3from_axis_angle_rodrigues a v t) (conj (m3from_axis_angle_trace a t H)
    (conj (m3from_axis_angle_period a t k) (conj (m3from_axis_angle_add a s t H)
    (conj (m3from_axis_angle_transpose a t) (conj (m3from_axis_angle_neg a t)
    (m4from_affine_axis_angle_embed a t))))))))).
Qed.
Print Assumptions C58_rotation_3d.

Theorem C58_rotation_3d_elementary :
  forall t : R,
    m3from_angle_x t = m3from_axis_angle (v3 1 0 0) t /\
    m3from_angle_y t = m3from_axis_angle (v3 0 1 0) t /\
    m3from_angle_z t = m3from_axis_angle (v3 0 0 1) t /\
    m4from_affine_angle_x t = membed (m3from_angle_x t) /\
    m4from_affine_angle_y t = membed (m3from_angle_y t) /\
    m4from_affine_angle_z t = membed (m3from_angle_z t).
Proof.
  intros t. exact (conj (m3from_angle_x_axis t) (conj (m3from_angle_y_axis t)
    (conj (m3from_angle_z_axis t) (m4from_affine_angle_embed t)))).
Qed.
Print Assumptions C58_rotation_3d_elementary.

(** Rotations preserve dot products and lengths. *)
Theorem C58_rotation_isometry :
  forall (m : mat R 3 3) (u v : vec R 3), is_rotation m ->
    vdot (mmulv m u) (mmulv m v) = vdot u v /\ vnorm (mmulv m u) = vnorm u /\
    is_rotation (mtranspose m) /\ mmul (mtranspose m) m = midentity 3 /\
    mmul m (mtranspose m) = midentity 3.
Proof. exact c58_isometry. Qed.
Print Assumptions C58_rotation_isometry.

Example C58_example : vnorm (v3 (2/3) (2/3) (1/3)) = 1.
Proof. exact c58_example. Qed.

(** ** C59 *)
Theorem C59_euler_to_matrix :
  forall e : euler,
    euler_to_matrix e =
      mmul (mmul (m3from_angle_x (eu_x e)) (m3from_angle_y (eu_y e))) (m3from_angle_z (eu_z e)) /\
    is_rotation (euler_to_matrix e) /\
    euler_to_affine_matrix e = membed (euler_to_matrix e) /\
    m3from_euler_angles e = euler_to_matrix e /\
    m4from_euler_angles e = membed (euler_to_matrix e).
Proof.
  intros e. exact (conj (euler_product e) (conj (euler_rot e) (conj (euler_affine e)
    (conj eq_refl (euler_affine e))))).
Qed.
Print Assumptions C59_euler_to_matrix.

Example C59_example : euler_to_matrix (mkEuler (PI / 2) 0 (PI / 2)) = m3new 0 0 1  (-1) 0 0  0 (-1) 0.
Proof. exact c59_example. Qed.

(** ** C60 *)
Theorem C60_euler_extraction :
  forall m : mat R 3 3, is_rotation m -> euler_to_matrix (euler_from_matrix m) = m.
Proof. exact euler_from_matrix_inv. Qed.
Print Assumptions C60_euler_extraction.

Theorem C60_euler_roundtrip :
  forall e : euler,
    - (PI / 2) < eu_y e < PI / 2 -> - PI < eu_x e <= PI -> - PI < eu_z e <= PI ->
    euler_from_matrix (euler_to_matrix e) = e.
Proof. exact euler_roundtrip. Qed.
Print Assumptions C60_euler_roundtrip.

(** The returned angles lie in the principal ranges. *)
Theorem C60_euler_range :
  forall m : mat R 3 3,
    - (PI / 2) <= eu_y (euler_from_matrix m) <= PI / 2 /\
    - PI < eu_x (euler_from_matrix m) <= PI /\ - PI < eu_z (euler_from_matrix m) <= PI.
Proof. exact c60_range. Qed.
Print Assumptions C60_euler_range.

(** A rotation matrix in gimbal lock, and a principal triple. *)
Example C60_example : is_rotation (m3new 0 0 (-1)  0 1 0  1 0 0) /\
  - (PI / 2) < eu_y (mkEuler 3 1 (-2)) < PI / 2 /\ - PI < eu_x (mkEuler 3 1 (-2)) <= PI /\
  - PI < eu_z (mkEuler 3 1 (-2)) <= PI.
Proof. exact c60_example. Qed.

(** ** C61 *)
Theorem C61_look_to_lh :
  forall d up : vec R 3, vcross up d <> vzero 3 ->
    let m := m3look_to_lh d up in
    is_rotation m /\ mmulv m (vnormalize d) = v3 0 0 1 /\
    vat (mmulv m up) 0 = 0 /\ 0 < vat (mmulv m up) 1 /\
    mmul (m3look_to_lh_inv d up) m = midentity 3 /\ mmul m (m3look_to_lh_inv d up) = midentity 3.
Proof. exact m3look_to_lh_spec. Qed.
Print Assumptions C61_look_to_lh.

Theorem C61_look_to_rh :
  forall d up : vec R 3, vcross up d <> vzero 3 ->
    let m := m3look_to_rh d up in
    is_rotation m /\ mmulv m (vnormalize d) = v3 0 0 (-1) /\
    vat (mmulv m up) 0 = 0 /\ 0 < vat (mmulv m up) 1 /\
    mmul (m3look_to_rh_inv d up) m = midentity 3 /\ mmul m (m3look_to_rh_inv d up) = midentity 3.
Proof. exact m3look_to_rh_spec. Qed.
Print Assumptions C61_look_to_rh.

(** 3x3 [look_at] looks along [target - eye]. *)
Theorem C61_look_at_3x3 :
  forall (eye target : point R 3) (up : vec R 3), vcross up (pdiff target eye) <> vzero 3 ->
    let d := vnormalize (pdiff target eye) in
    mmulv (m3look_at_lh eye target up) d = v3 0 0 1 /\
    mmulv (m3look_at_rh eye target up) d = v3 0 0 (-1) /\
    mmulv (m3look_at_lh_inv eye target up) (v3 0 0 1) = d /\
    mmulv (m3look_at_rh_inv eye target up) (v3 0 0 (-1)) = d.
Proof. exact c61_look_at. Qed.
Print Assumptions C61_look_at_3x3.

(** The 4x4 matrices: points are first moved by [- eye] and then turned by the 3x3 matrix. *)
Theorem C61_look_4x4 :
  forall (eye p : point R 3) (d up v : vec R 3),
    mmulv (m4look_to_lh eye d up) (pto_homogeneous p) =
      pto_homogeneous (mmulv (m3look_to_lh d up) (pdiff p eye)) /\
    mmulv (m4look_to_rh eye d up) (pto_homogeneous p) =
      pto_homogeneous (mmulv (m3look_to_rh d up) (pdiff p eye)) /\
    mmulv (m4look_to_lh eye d up) (vto_homogeneous v) =
      vto_homogeneous (mmulv (m3look_to_lh d up) v) /\
    mmulv (m4look_to_rh eye d up) (vto_homogeneous v) =
      vto_homogeneous (mmulv (m3look_to_rh d up) v) /\
    mmulv (m4look_to_lh eye d up) (pto_homogeneous eye) = v4 0 0 0 1 /\
    mmulv (m4look_to_rh eye d up) (pto_homogeneous eye) = v4 0 0 0 1.
Proof.
  intros. destruct (m4look_to_vec eye d up v) as [A B]. destruct (m4look_to_eye eye d up) as [C D].
  exact (conj (m4look_to_lh_point eye d up p) (conj (m4look_to_rh_point eye d up p)
    (conj A (conj B (conj C D))))).
Qed.
Print Assumptions C61_look_4x4.

Theorem C61_look_at_4x4 :
  forall (eye target : point R 3) (up : vec R 3), vcross up (pdiff target eye) <> vzero 3 ->
    mmulv (m4look_at_lh eye target up) (pto_homogeneous eye) = v4 0 0 0 1 /\
    mmulv (m4look_at_lh eye target up) (pto_homogeneous target) = v4 0 0 (pdist target eye) 1 /\
    mmulv (m4look_at_rh eye target up) (pto_homogeneous eye) = v4 0 0 0 1 /\
    mmulv (m4look_at_rh eye target up) (pto_homogeneous target) = v4 0 0 (- pdist target eye) 1.
Proof. exact m4look_at_target. Qed.
Print Assumptions C61_look_at_4x4.

Example C61_example :
  vcross (v3 0 1 0) (v3 1 0 0) <> (vzero 3 : vec R 3) /\
  m3look_to_lh (v3 1 0 0) (v3 0 1 0) = m3new 0 0 1  0 1 0  (-1) 0 0.
Proof. exact (conj look_cross_example look_example_matrix). Qed.

(** ** C62 *)
(** What [look_*_inv] really computes: the inverse only when the eye is a fixed point of the
    rotation (for instance the origin); directions are always mapped back correctly. *)
Theorem C62_look_inv_partial :
  forall (eye : point R 3) (d up : vec R 3), vcross up d <> vzero 3 ->
    (mmul (m4look_to_lh_inv eye d up) (m4look_to_lh eye d up) = midentity 4 <->
       mmulv (m3look_to_lh d up) eye = eye) /\
    mmulv (m4look_to_lh_inv eye d up) (v4 0 0 0 1) =
      pto_homogeneous (mmulv (m3look_to_lh d up) eye) /\
    (forall v : vec R 3, mmulv (m4look_to_lh_inv eye d up) (vto_homogeneous v) =
       vto_homogeneous (mmulv (m3look_to_lh_inv d up) v)) /\
    mmul (m4look_to_lh_inv (porigin 3) d up) (m4look_to_lh (porigin 3) d up) = midentity 4 /\
    (mmul (m4look_to_rh_inv eye d up) (m4look_to_rh eye d up) = midentity 4 <->
       mmulv (m3look_to_rh d up) eye = eye) /\
    mmulv (m4look_to_rh_inv eye d up) (v4 0 0 0 1) =
      pto_homogeneous (mmulv (m3look_to_rh d up) eye) /\
    (forall v : vec R 3, mmulv (m4look_to_rh_inv eye d up) (vto_homogeneous v) =
       vto_homogeneous (mmulv (m3look_to_rh_inv d up) v)) /\
    mmul (m4look_to_rh_inv (porigin 3) d up) (m4look_to_rh (porigin 3) d up) = midentity 4.
Proof.
  intros eye d up H. destruct (m4look_to_lh_inv_spec eye d up H) as (A & B & C & D).
  destruct (m4look_to_rh_inv_spec eye d up H) as (A' & B' & C' & D').
  exact (conj A (conj B (conj C (conj D (conj A' (conj B' (conj C' D'))))))).
Qed.
Print Assumptions C62_look_inv_partial.

Theorem C62_look_inv_refuted :
  exists (eye : point R 3) (d up : vec R 3), vcross up d <> vzero 3 /\
    mmul (m4look_to_lh_inv eye d up) (m4look_to_lh eye d up) <> midentity 4 /\
    mmulv (m4look_to_lh_inv eye d up) (v4 0 0 0 1) <> pto_homogeneous eye.
Proof. exact m4look_inv_refuted. Qed.
Print Assumptions C62_look_inv_refuted.
