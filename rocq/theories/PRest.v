(** Property theorems about the in-place and convenience functions, predicates, constructors and distances that
    the other property files do not mention (C99-C106). *)

From Coq Require Import List Arith ZArith Reals Qcanon.
From Verif Require Import Base Scalar Spec SpecRot SpecTransform SpecProjection MVector MMatrix MPoint MReal MMisc MRot
  MComplex MQuat MTransform MProjection LRestP.
Import ListNotations.
Local Open Scope nat_scope.

(** ** C99 *)

Theorem C99_complex_in_place :
  forall (K : Type) (NK : Num K) (LK : RingLaws K) (z w : complex K) (s a b : K),
    (cadd_assign z w = cadd z w /\ csub_assign z w = csub z w /\
     cadd_assign_s z s = cadd z (cfrom_real s) /\ csub_assign_s z s = csub z (cfrom_real s) /\
     cmul_assign_s z s = cmul z (cfrom_real s) /\ cscale z s = cmul z (cfrom_real s) /\
     csquared (mkC a b) = mkC (a * a - b * b) (a * b + a * b) /\
     ccubed (mkC a b) = mkC (a * a * a - (1 + 1 + 1) * (a * b * b)) ((1 + 1 + 1) * (a * a * b) - b * b * b) /\
     csub_assign (cadd_assign z w) w = z)%N_.
Proof. exact c99_complex_in_place. Qed.
Print Assumptions C99_complex_in_place.

Theorem C99_scalar_division :
  forall (K : Type) (NK : Num K) (ND : NumDiv K) (FK : FieldLaws K) (z : complex K) (q : quat K) (s : K),
    s <> n0 ->
    cdiv_assign_s (cmul_assign_s z s) s = z /\ cmul_s (cunscale z s) s = z /\ cunscale (cmul_s z s) s = z /\
    cdiv_assign_s z s = cmul z (cfrom_real (ndiv n1 s)) /\
    qdiv_assign q s = qdiv_s q s /\ qscale (qdiv_s q s) s = q /\ qdiv_assign (qscale q s) s = q.
Proof. exact c99_scalar_division. Qed.
Print Assumptions C99_scalar_division.

Theorem C99_half :
  forall (K : Type) (NK : Num K) (ND : NumDiv K) (FK : FieldLaws K) (q : quat K),
    nadd n1 n1 <> n0 :> K -> qadd (qhalf q) (qhalf q) = q.
Proof. exact c99_half. Qed.
Print Assumptions C99_half.

Theorem C99_complex_map :
  forall (A B C : Type) (f : A -> B) (g : B -> C) (z : complex A),
    re (cmap f z) = f (re z) /\ im (cmap f z) = f (im z) /\
    cmap g (cmap f z) = cmap (fun x => g (f x)) z /\ cmap (fun x => x) z = z.
Proof. exact c99_complex_map. Qed.
Print Assumptions C99_complex_map.

Example C99_example :
  (csquared (mkC 3 4) = mkC (-7) 24 /\ ccubed (mkC 1 2) = mkC (-11) (-2))%Z /\
  (nadd n1 n1 <> n0 :> Qc).
Proof. exact c99_example. Qed.

(** ** C100 *)

Theorem C100_complex_predicates :
  forall (K : Type) (NK : Num K) (ND : NumDiv K) (FK : FieldLaws K) (z : complex K),
    (cis_zero z = true <-> z = czero) /\
    (cis_real z = true <-> exists x, z = cfrom_real x) /\
    (cis_imaginary z = true <-> exists x, z = cfrom_imaginary x) /\
    (nadd n1 n1 <> n0 :> K ->
       (cis_real z = true <-> cconj z = z) /\ (cis_imaginary z = true <-> cconj z = cneg z)).
Proof. exact c100_complex_predicates. Qed.
Print Assumptions C100_complex_predicates.

Theorem C100_quaternion_predicates :
  forall (K : Type) (NK : Num K) (ND : NumDiv K) (FK : FieldLaws K) (q : quat K),
    (qis_zero q = true <-> q = qzero) /\
    (qis_identity q = true <-> forall p, qmul q p = p) /\
    (qis_pure q = true <-> exists v, q = qfrom_pure v) /\
    (qis_real q = true <-> exists x, q = qfrom_real x) /\
    (nadd n1 n1 <> n0 :> K ->
       (qis_pure q = true <-> qconj q = qneg q) /\ (qis_real q = true <-> forall p, qmul q p = qmul p q)).
Proof. exact c100_quaternion_predicates. Qed.
Print Assumptions C100_quaternion_predicates.

Example C100_example :
  (nadd n1 n1 <> n0 :> Qc) /\ cis_real (mkC (1 + 1) 0)%Qc = true /\ cis_real (mkC 0 1)%Qc = false /\
  qis_pure (qnew 0 1 0 1)%Qc = true /\ qis_real (qnew 0 1 0 1)%Qc = false.
Proof. exact c100_example. Qed.

(** ** C101 *)

Theorem C101_standard_basis :
  forall (K : Type) (NK : Num K) (LK : RingLaws K) (i : nat) (u : vec K 2) (v : vec K 4) (a b c d : K),
    vat (v2_unit_x : vec K 2) i = delta 0 i /\ vat (v2_unit_y : vec K 2) i = delta 1 i /\
    vat (v3_unit_x : vec K 3) i = delta 0 i /\ vat (v3_unit_y : vec K 3) i = delta 1 i /\
    vat (v3_unit_z : vec K 3) i = delta 2 i /\
    vat (v4_unit_x : vec K 4) i = delta 0 i /\ vat (v4_unit_y : vec K 4) i = delta 1 i /\
    vat (v4_unit_z : vec K 4) i = delta 2 i /\ vat (v4_unit_w : vec K 4) i = delta 3 i /\
    vdot u v2_unit_x = vat u 0 /\ vdot u v2_unit_y = vat u 1 /\
    vdot v v4_unit_x = vat v 0 /\ vdot v v4_unit_y = vat v 1 /\
    vdot v v4_unit_z = vat v 2 /\ vdot v v4_unit_w = vat v 3 /\
    v3_from_v4 (v4 a b c d) = v3 a b c.
Proof. exact c101_standard_basis. Qed.
Print Assumptions C101_standard_basis.

(** [from_diagonal] scales every coordinate by its own entry, [from_diagonal_value] all by the same. *)
Theorem C101_diagonal_matrices :
  forall (K : Type) (NK : Num K) (LK : RingLaws K) (n : nat) (a : K) (d v : vec K n) (i j : nat),
    i < n -> j < n ->
    vat (mmulv (mfrom_diagonal d) v) i = nmul (vat d i) (vat v i) /\
    mmulv (mfrom_diagonal_value n a) v = vmul_s v a /\
    mget (mfrom_fill n n a) j i = a /\ mget (mfrom_diagonal d) j i = nmul (vat d i) (delta j i).
Proof. exact c101_diagonal_matrices. Qed.
Print Assumptions C101_diagonal_matrices.

Theorem C101_numbers_and_transforms :
  forall (K : Type) (NK : Num K) (LK : RingLaws K) (a x y z : K) (w : complex K) (q : quat K) (v : vec K 4) (i : nat),
    cfrom_imaginary x = cmul (cfrom_real x) (mkC n0 n1) /\ cmul (cfrom_imaginary x) (cfrom_imaginary y) = cfrom_real (nneg (nmul x y)) /\
    cmul cunit_re w = w /\
    vat (qfrom_vector v : vec K 4) i = vat v i /\ (i < 4 -> vat (qfrom_fill a : vec K 4) i = a) /\
    tr_apply_point (tr_new2 x y) (v2 a z) = v2 (nadd a x) (nadd z y) /\
    tr_apply_point (tr_new3 x y z) (v3 a a a) = v3 (nadd a x) (nadd a y) (nadd a z) /\
    sc_apply_point (sc_new2 x y) (v2 a z) = v2 (nmul a x) (nmul z y) /\
    sc_apply_point (sc_new3 x y z) (v3 a a a) = v3 (nmul a x) (nmul a y) (nmul a z).
Proof. exact c101_numbers_and_transforms. Qed.
Print Assumptions C101_numbers_and_transforms.

Theorem C101_zero_euler_angles :
  euler_to_matrix euler_zero = midentity 3.
Proof. exact c101_zero_euler_angles. Qed.
Print Assumptions C101_zero_euler_angles.

Example C101_example :
  mmulv (mfrom_diagonal (v3 2 3 5))%Z (v3 1 10 100)%Z = (v3 2 30 500)%Z.
Proof. exact c101_example. Qed.

(** ** C102 *)

Theorem C102_complex_metric :
  forall (x y z : complex R) (s : R),
    (cdistance x y = sqrt ((re x - re y) * (re x - re y) + (im x - im y) * (im x - im y)) /\
     0 <= cdistance x y /\ (cdistance x y = 0 <-> x = y) /\ cdistance x y = cdistance y x /\
     cdistance x z <= cdistance x y + cdistance y z /\
     0 <= cl1_norm x /\ (cl1_norm x = 0 <-> x = czero) /\ cl1_norm (cmul_s x s) = cl1_norm x * Rabs s /\
     cl1_norm (cadd x y) <= cl1_norm x + cl1_norm y /\
     cnorm x <= cl1_norm x <= sqrt 2 * cnorm x)%R.
Proof. exact c102_complex_metric. Qed.
Print Assumptions C102_complex_metric.

Theorem C102_quaternion_metric :
  forall (p q r : quat R) (s : R),
    (qdist_squared p q = sum 4 (fun i => (vat (p : vec R 4) i - vat (q : vec R 4) i) * (vat (p : vec R 4) i - vat (q : vec R 4) i)) /\
     qdist p q * qdist p q = qdist_squared p q /\
     0 <= qdist p q /\ (qdist p q = 0 <-> p = q) /\ qdist p q = qdist q p /\
     qdist p r <= qdist p q + qdist q r /\
     ql1_norm q = sum 4 (fun i => Rabs (vat (q : vec R 4) i)) /\ (ql1_norm q = 0 <-> q = qzero) /\
     ql1_norm (qscale q s) = ql1_norm q * Rabs s /\
     ql1_norm (qadd p q) <= ql1_norm p + ql1_norm q)%R.
Proof. exact c102_quaternion_metric. Qed.
Print Assumptions C102_quaternion_metric.

Theorem C102_point_metric :
  forall (n : nat) (p q : point R n),
    (pdot p q = sum n (fun i => vat p i * vat q i) /\ pnorm_squared p = sum n (fun i => vat p i * vat p i) /\
     0 <= pnorm p /\ pnorm p * pnorm p = pnorm_squared p /\ pnorm p = pdist p (porigin n) /\
     pdist p q = vnorm (pdiff p q) /\ pdist_squared p q = vnorm_squared (pdiff p q) /\
     (pnorm p = 0 <-> p = porigin n))%R.
Proof. exact c102_point_metric. Qed.
Print Assumptions C102_point_metric.

Theorem C102_matrix_distance :
  forall (r c : nat) (a b : mat R r c),
    (mdist_squared a b = sum r (fun i => sum c (fun j => (mget a j i - mget b j i) * (mget a j i - mget b j i))) /\
     mdist a b * mdist a b = mdist_squared a b /\ (mdist_squared a b = 0 <-> a = b))%R.
Proof. exact c102_matrix_distance. Qed.
Print Assumptions C102_matrix_distance.

Example C102_example :
  (cdistance (mkC 1 2) (mkC 4 6) = 5 /\ cl1_norm (mkC 3 (-4)) = 7 /\ pdist (v2 1 2) (v2 4 6) = 5)%R.
Proof. exact c102_example. Qed.

(** ** C103 *)

(** Rotation about an axis (Rodrigues' formula) followed by the translation. *)
Theorem C103_isometry_constructors :
  forall (axis d p v : vec R 3) (angle : R),
    vnorm axis = 1%R ->
    iso_apply_point (iso3from_axis_angle_translation axis angle d) p = vadd (rodrigues axis angle p) d /\
    iso_apply_vector (iso3from_axis_angle_translation axis angle d) v = rodrigues axis angle v /\
    iso_apply_point (iso3from_axis_angle axis angle) p = rodrigues axis angle p /\
    iso_apply_vector (iso3from_axis_angle axis angle) v = rodrigues axis angle v /\
    iso_apply_point (iso3from_angle_x angle) p = rodrigues (v3 1 0 0)%R angle p /\
    iso_apply_point (iso3from_angle_y angle) p = rodrigues (v3 0 1 0)%R angle p /\
    iso_apply_point (iso3from_angle_z angle) p = rodrigues (v3 0 0 1)%R angle p /\
    pdist (iso_apply_point (iso3from_axis_angle_translation axis angle d) p)
          (iso_apply_point (iso3from_axis_angle_translation axis angle d) v) = pdist p v.
Proof. exact c103_isometry_constructors. Qed.
Print Assumptions C103_isometry_constructors.

Theorem C103_isometry2_constructors :
  forall (d : vec R 2) (x y angle : R),
    (iso_apply_point (iso2from_angle_translation angle d) (v2 x y) =
       v2 (x * cos angle - y * sin angle + vat d 0) (x * sin angle + y * cos angle + vat d 1) /\
     iso_apply_vector (iso2from_angle_translation angle d) (v2 x y) =
       v2 (x * cos angle - y * sin angle) (x * sin angle + y * cos angle) /\
     iso_apply_point (iso2from_angle angle) (v2 x y) =
       v2 (x * cos angle - y * sin angle) (x * sin angle + y * cos angle))%R.
Proof. exact c103_isometry2_constructors. Qed.
Print Assumptions C103_isometry2_constructors.

Theorem C103_similarity_constructors :
  forall (K : Type) (NK : Num K) (LK : RingLaws K) (n : nat) (t : translation K n) (r : rotation K n) (s : K) (p : point K n) (v : vec K n),
    sim_apply_point (sim_from_parts t r s) p = vadd (mmulv r (vmul_s p s)) t /\
    sim_apply_vector (sim_from_parts t r s) v = mmulv r (vmul_s v s) /\
    sim_apply_point (sim_from_rotation r) p = mmulv r p /\
    sim_apply_point (sim_from_scale n s) p = vmul_s p s /\ sim_apply_vector (sim_from_scale n s) v = vmul_s v s /\
    sim_apply_point (sim_from_translation t) p = vadd p t /\ sim_apply_vector (sim_from_translation t) v = v.
Proof. exact c103_similarity_constructors. Qed.
Print Assumptions C103_similarity_constructors.

Example C103_example :
  vnorm (v3 (2/3) (2/3) (1/3))%R = 1%R.
Proof. exact c103_example. Qed.

(** ** C104 *)

Theorem C104_viewing_similarities :
  forall (eye target p : point R 3) (up : vec R 3),
    let d := pdiff target eye in
    vcross up d <> vzero 3 ->
    sim_apply_point (sim3look_to_lh eye d up) p = mmulv (m3look_to_lh d up) (pdiff p eye) /\
    sim_apply_point (sim3look_to_rh eye d up) p = mmulv (m3look_to_rh d up) (pdiff p eye) /\
    sim_apply_point (sim3look_at_lh eye target up) eye = vzero 3 /\
    sim_apply_point (sim3look_at_rh eye target up) eye = vzero 3 /\
    sim_apply_point (sim3look_at_lh eye target up) target = (v3 0 0 (pdist target eye))%R /\
    sim_apply_point (sim3look_at_rh eye target up) target = (v3 0 0 (- pdist target eye))%R /\
    iso_apply_point (iso3look_at_lh eye target up) target = (v3 0 0 (pdist target eye))%R /\
    iso_apply_point (iso3look_at_rh eye target up) target = (v3 0 0 (- pdist target eye))%R.
Proof. exact c104_viewing_similarities. Qed.
Print Assumptions C104_viewing_similarities.

(** The quaternion turns the viewing direction onto the z-axis, its inverse turns it back. *)
Theorem C104_viewing_quaternions :
  forall (eye target : point R 3) (up : vec R 3),
    let d := pdiff target eye in
    vcross up d <> vzero 3 ->
    qnorm (qlook_at_lh eye target up) = 1%R /\ qnorm (qlook_at_rh eye target up) = 1%R /\
    mmulv (qto_matrix (qlook_at_lh eye target up)) (vnormalize d) = (v3 0 0 1)%R /\
    mmulv (qto_matrix (qlook_at_rh eye target up)) (vnormalize d) = (v3 0 0 (-1))%R /\
    mmulv (qto_matrix (qlook_at_lh_inv eye target up)) (v3 0 0 1)%R = vnormalize d /\
    mmulv (qto_matrix (qlook_at_rh_inv eye target up)) (v3 0 0 (-1))%R = vnormalize d.
Proof. exact c104_viewing_quaternions. Qed.
Print Assumptions C104_viewing_quaternions.

Theorem C104_look_at_is_look_to :
  forall (eye target : point R 3) (up : vec R 3),
    let d := pdiff target eye in
    m4look_at_lh_inv eye target up = m4look_to_lh_inv eye d up /\
    m4look_at_rh_inv eye target up = m4look_to_rh_inv eye d up /\
    sim3look_at_lh_inv eye target up = sim3look_to_lh_inv eye d up /\
    sim3look_at_rh_inv eye target up = sim3look_to_rh_inv eye d up.
Proof. exact c104_look_at_is_look_to. Qed.
Print Assumptions C104_look_at_is_look_to.

Example C104_example :
  vcross (v3 0 1 0)%R (pdiff (v3 4 2 3) (v3 1 2 3))%R <> vzero 3.
Proof. exact c104_example. Qed.

(** ** C105 *)

Theorem C105_shear_composition :
  forall (f g : shear R 2) (f' g' : shear R 3) (p : point R 2) (p' : point R 3),
    vnorm (sh_direction f) = 1%R -> vnorm (sh_normal f) = 1%R -> vnorm (sh_direction g) = 1%R -> vnorm (sh_normal g) = 1%R ->
    vnorm (sh_direction f') = 1%R -> vnorm (sh_normal f') = 1%R -> vnorm (sh_direction g') = 1%R -> vnorm (sh_normal g') = 1%R ->
    tf_apply_point (sh2mul f g) p = Some (sh_apply_point f (sh_apply_point g p)) /\
    tf_apply_point (sh3mul f' g') p' = Some (sh_apply_point f' (sh_apply_point g' p')).
Proof. exact c105_shear_composition. Qed.
Print Assumptions C105_shear_composition.

Theorem C105_transform_inverse_vector :
  forall (K : Type) (NK : Num K) (ND : NumDiv K) (FK : FieldLaws K) (f : transform K 3) (v : vec K 3),
    (m4det f = n0 -> tf3inverse_apply_vector f v = None) /\
    (m4det f <> n0 -> vat (mmulv f (vextend v n0)) 3 = n0 -> tf3inverse_apply_vector f (tf_apply_vector f v) = Some v).
Proof. exact c105_transform_inverse_vector. Qed.
Print Assumptions C105_transform_inverse_vector.

Theorem C105_rotation_between :
  forall (v1 v2 : vec R 3) (eps : R),
    (0 <= eps)%R -> (eps < vnorm v1)%R -> (eps < vnorm v2)%R ->
    let u1 := vnormalize v1 in let u2 := vnormalize v2 in
    ((eps < vnorm (vcross u1 u2))%R -> exists r f,
       rot3rotation_between_eps v1 v2 eps = Some r /\ is_rotation r /\ rot_apply_vector r u1 = u2 /\
       iso3rotation_between_eps v1 v2 eps = Some f /\ iso_apply_vector f u1 = u2 /\ iso_translation f = vzero 3) /\
    ((vnorm (vcross u1 u2) <= eps)%R ->
       ((vdot u1 u2 < 0)%R -> rot3rotation_between_eps v1 v2 eps = None /\ iso3rotation_between_eps v1 v2 eps = None) /\
       ((0 <= vdot u1 u2)%R -> exists r f,
          rot3rotation_between_eps v1 v2 eps = Some r /\ iso3rotation_between_eps v1 v2 eps = Some f /\
          (forall v, rot_apply_vector r v = v) /\ (forall v, iso_apply_point f v = v))).
Proof. exact c105_rotation_between. Qed.
Print Assumptions C105_rotation_between.

Example C105_example :
  vnorm (v2 1 0)%R = 1%R /\ vnorm (v2 (3/5) (4/5))%R = 1%R.
Proof. exact c105_example. Qed.

(** ** C106 *)

(** The clip-space bounds are the images of the ends of the frustum and of the box, and the gaze direction
    points from the near plane to the far plane. *)
Theorem C106_projection_axes :
  forall (left right bottom top near far : R),
    (0 < right + left -> 0 < top + bottom -> 0 < near < far ->
     let '((xlo, xhi), (ylo, yhi), (zlo, zhi)) := proj_clip_ndc_bounds in
     let P := projects_to (m4from_perspective left right bottom top near far) in
     let O := fun p q => ortho_project_point (ortho_new left right bottom top near far) p = q in
     P (frustum_corner left right bottom top near far false false false) (v3 xlo ylo zlo) /\
     P (frustum_corner left right bottom top near far true true true) (v3 xhi yhi zhi) /\
     O (box_corner left right bottom top near far false false false) (v3 xlo ylo zlo) /\
     O (box_corner left right bottom top near far true true true) (v3 xhi yhi zhi) /\
     vadd (vmul_s proj_clip_unit_right xlo) (vadd (vmul_s proj_clip_unit_up ylo) (vmul_s proj_clip_unit_depth zlo)) = v3 xlo ylo zlo /\
     proj_clip_unit_gaze = (proj_clip_unit_depth : vec R 3) /\
     (forall d, in_frustum left right bottom top near far (vmul_s proj_view_unit_gaze d) -> 0 < d) /\
     proj_view_unit_gaze = vneg (proj_view_unit_depth : vec R 3) /\
     vcross proj_view_unit_right proj_view_unit_up = (proj_view_unit_depth : vec R 3))%R.
Proof. exact c106_projection_axes. Qed.
Print Assumptions C106_projection_axes.

Example C106_example :
  (0 < 3 + 1 /\ 0 < 2 + 1 /\ 0 < 1 < 4 /\ in_frustum 1 3 1 2 1 4 (vmul_s proj_view_unit_gaze 2))%R.
Proof. exact c106_example. Qed.
