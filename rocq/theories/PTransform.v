(** Property theorems about translations, scales, reflections, shears, rotations, isometries,
    similarities and general transforms (C53, C63-C76).  [represents] (SpecTransform.v) says that a
    homogeneous matrix maps coordinates as a given map does; [orthonormal_columns] and [is_rotation]
    are those of SpecRot.v. *)

From Coq Require Import List Arith Lia Reals Lra ZArith Qcanon.
From Verif Require Import Base Scalar Spec SpecRot SpecTransform LBase MVector MMatrix
  MPoint MReal MMisc MRot MQuat MTransform LTransformP.
Import ListNotations.
Local Open Scope R_scope.

(** ** C53 *)

Theorem C53_rotation2_between_axis :
  forall u1 u2 : vec R 2, vnorm u1 = 1 -> vnorm u2 = 1 ->
    is_rotation (rot2rotation_between_axis u1 u2) /\
    rot_apply_vector (rot2rotation_between_axis u1 u2) u1 = u2 /\
    iso_apply_vector (iso2rotation_between_axis u1 u2) u1 = u2 /\
    iso_apply_point (iso2rotation_between_axis u1 u2) u1 = u2.
Proof. exact c53_rotation2_between_axis. Qed.
Print Assumptions C53_rotation2_between_axis.

(** For non-zero vectors the direction of the first is mapped to the direction of the second; the
    function falls back to the identity exactly for a zero argument. *)
Theorem C53_rotation2_between :
  forall v1 v2 : vec R 2,
    (v1 <> vzero 2 -> v2 <> vzero 2 ->
       is_rotation (rot2rotation_between v1 v2) /\
       vmul_s (rot_apply_vector (rot2rotation_between v1 v2) v1) (vnorm v2) = vmul_s v2 (vnorm v1) /\
       iso_rotation (iso2rotation_between v1 v2) = rot2rotation_between v1 v2 /\
       iso_translation (iso2rotation_between v1 v2) = vzero 2) /\
    (v1 = vzero 2 \/ v2 = vzero 2 ->
       rot2rotation_between v1 v2 = midentity 2 /\ iso2rotation_between v1 v2 = iso_identity 2).
Proof. exact c53_rotation2_between. Qed.
Print Assumptions C53_rotation2_between.

(** In 3D with the code's threshold replaced by the exact value 0: a result exists exactly when the
    directions are not opposite. *)
Theorem C53_rotation3_between :
  forall u1 u2 : vec R 3, vnorm u1 = 1 -> vnorm u2 = 1 ->
    (u2 <> vneg u1 -> exists r f,
       rot3rotation_between_axis_eps u1 u2 0 = Some r /\ is_rotation r /\ rot_apply_vector r u1 = u2 /\
       iso3rotation_between_axis_eps u1 u2 0 = Some f /\ iso_apply_vector f u1 = u2 /\
       iso_translation f = vzero 3) /\
    (u2 = vneg u1 ->
       rot3rotation_between_axis_eps u1 u2 0 = None /\ iso3rotation_between_axis_eps u1 u2 0 = None).
Proof. exact c53_rotation3_between. Qed.
Print Assumptions C53_rotation3_between.

Example C53_example :
  vnorm (v2 1 0) = 1 /\ vnorm (v2 (3/5) (4/5)) = 1 /\ v2 3 4 <> (vzero 2 : vec R 2) /\
  v3 0 1 0 <> vneg (v3 1 0 0 : vec R 3).
Proof. exact c53_example. Qed.

(** ** C60 (Rotation3) *)

Theorem C60_rotation3_euler :
  forall (r : rotation R 3) (e : euler),
    (is_rotation r -> rot3from_euler_angles (rot3euler_angles r) = r) /\
    (- (PI / 2) < eu_y e < PI / 2 -> - PI < eu_x e <= PI -> - PI < eu_z e <= PI ->
       rot3euler_angles (rot3from_euler_angles e) = e).
Proof. exact c60_rotation3_euler. Qed.
Print Assumptions C60_rotation3_euler.

Theorem C43_rotation3_quaternion :
  forall (r : rotation R 3), is_rotation r ->
    qnorm (rot3to_quaternion r) = 1 /\ rot3from_quaternion (rot3to_quaternion r) = r.
Proof. exact c43_rotation3_quaternion. Qed.
Print Assumptions C43_rotation3_quaternion.

(** ** C63 *)

(** The forward viewing isometries are right: they turn [p - eye], so the eye goes to the origin, and
    their affine matrices are the [Matrix4x4] viewing matrices (C61). *)
Theorem C63_look_isometry :
  forall (eye p : point R 3) (d up v : vec R 3),
    iso_apply_point (iso3look_to_lh eye d up) p = mmulv (m3look_to_lh d up) (pdiff p eye) /\
    iso_apply_point (iso3look_to_rh eye d up) p = mmulv (m3look_to_rh d up) (pdiff p eye) /\
    iso_apply_vector (iso3look_to_lh eye d up) v = mmulv (m3look_to_lh d up) v /\
    iso_apply_vector (iso3look_to_rh eye d up) v = mmulv (m3look_to_rh d up) v /\
    iso_to_affine_matrix (iso3look_to_lh eye d up) = m4look_to_lh eye d up /\
    iso_to_affine_matrix (iso3look_to_rh eye d up) = m4look_to_rh eye d up /\
    iso_apply_point (iso3look_to_lh eye d up) eye = vzero 3 /\
    iso_apply_point (iso3look_to_rh eye d up) eye = vzero 3 /\
    iso3look_at_lh eye p up = iso3look_to_lh eye (pdiff p eye) up /\
    iso3look_at_rh eye p up = iso3look_to_rh eye (pdiff p eye) up.
Proof. exact c63_look_isometry. Qed.
Print Assumptions C63_look_isometry.

(** Full claim: [look_*_inv] is the inverse of [look_*].  What holds: it is the inverse only when the
    rotation sends the eye to its opposite (for instance for the eye at the origin); the rotation part
    is always the inverse, the translation part should have been [eye]. *)
Theorem C63_look_inverse_partial :
  forall (eye target : point R 3) (d up : vec R 3), vcross up d <> vzero 3 ->
    (iso3look_to_lh_inv eye d up = iso_inverse (iso3look_to_lh eye d up) <->
       mmulv (m3look_to_lh d up) eye = vneg eye) /\
    (iso3look_to_rh_inv eye d up = iso_inverse (iso3look_to_rh eye d up) <->
       mmulv (m3look_to_rh d up) eye = vneg eye) /\
    iso_inverse (iso3look_to_lh eye d up) = iso_from_parts eye (m3look_to_lh_inv d up) /\
    iso_inverse (iso3look_to_rh eye d up) = iso_from_parts eye (m3look_to_rh_inv d up) /\
    iso_rotation (iso3look_to_lh_inv eye d up) = m3look_to_lh_inv d up /\
    iso_rotation (iso3look_to_rh_inv eye d up) = m3look_to_rh_inv d up /\
    iso_translation (iso3look_to_lh_inv eye d up) = vneg (mmulv (m3look_to_lh_inv d up) eye) /\
    iso_translation (iso3look_to_rh_inv eye d up) = vneg (mmulv (m3look_to_rh_inv d up) eye) /\
    iso3look_at_lh_inv eye target up = iso3look_to_lh_inv eye (pdiff target eye) up /\
    iso3look_at_rh_inv eye target up = iso3look_to_rh_inv eye (pdiff target eye) up /\
    sim3look_to_lh_inv eye d up = sim_from_isometry (iso3look_to_lh_inv eye d up) /\
    sim3look_to_rh_inv eye d up = sim_from_isometry (iso3look_to_rh_inv eye d up).
Proof. exact c63_look_inverse_partial. Qed.
Print Assumptions C63_look_inverse_partial.

Theorem C63_look_inverse_refuted :
  exists (eye : point R 3) (d up : vec R 3), vcross up d <> vzero 3 /\
    iso3look_to_lh_inv eye d up <> iso_inverse (iso3look_to_lh eye d up) /\
    iso_apply_point (iso3look_to_lh_inv eye d up) (iso_apply_point (iso3look_to_lh eye d up) eye) <> eye.
Proof. exact c63_look_inverse_refuted. Qed.
Print Assumptions C63_look_inverse_refuted.

(** ** C64 *)

Theorem C64_translations :
  forall (K : Type) (NK : Num K) (LK : RingLaws K) (n : nat) (s t r : translation K n)
         (p q : point K n) (u v : vec K n),
    (forall i, (i < n)%nat -> vat (tr_apply_point t p) i = nadd (vat p i) (vat t i)) /\
    tr_apply_vector t v = v /\ tr_inverse_apply_vector t v = v /\
    tr_apply_point (tr_mul s t) p = tr_apply_point s (tr_apply_point t p) /\
    tr_mul r (tr_mul s t) = tr_mul (tr_mul r s) t /\ tr_mul s t = tr_mul t s /\
    tr_mul (tr_identity n) t = t /\ tr_apply_point (tr_identity n) p = p /\
    tr_mul t (tr_inverse t) = tr_identity n /\ tr_inverse_mut t = tr_inverse t /\
    tr_inverse_apply_point t (tr_apply_point t p) = p /\
    tr_apply_point t (tr_inverse_apply_point t p) = p /\
    tr_inverse_apply_point t p = tr_apply_point (tr_inverse t) p /\
    tr_apply_point (tr_between_points p q) p = q /\
    tr_apply_point (tr_between_vectors u v) u = v.
Proof. exact c64_translations. Qed.
Print Assumptions C64_translations.

Theorem C64_translation_matrix :
  forall (K : Type) (NK : Num K) (ND : NumDiv K) (FK : FieldLaws K) (n : nat) (s t : translation K n)
         (p : point K n) (v : vec K n),
    represents (tr_to_affine_matrix t) (tr_apply_point t) (tr_apply_vector t) /\
    tf_apply_point (tr_to_transform t) p = Some (tr_apply_point t p) /\
    tf_apply_vector (tr_to_transform t) v = tr_apply_vector t v /\
    tr_to_affine_matrix (tr_mul s t) = mmul (tr_to_affine_matrix s) (tr_to_affine_matrix t) /\
    tr_to_affine_matrix (tr_identity n) = midentity (S n).
Proof. exact c64_translation_matrix. Qed.
Print Assumptions C64_translation_matrix.

Example C64_example :
  tr_apply_point (tr_mul (v2 1 2) (v2 3 4))%Z (v2 10 20)%Z = (v2 14 26)%Z /\
  tr_apply_point (tr_between_points (v2 1 2) (v2 7 5))%Z (v2 1 2)%Z = (v2 7 5)%Z.
Proof. exact c64_example. Qed.

(** ** C65 *)

Theorem C65_scales :
  forall (K : Type) (NK : Num K) (LK : RingLaws K) (n : nat) (s t : scale K n) (c : K)
         (v : vec K n) (p : point K n),
    (forall i, (i < n)%nat -> vat (sc_apply_vector s v) i = nmul (vat s i) (vat v i) /\
                              vat (sc_apply_point s p) i = nmul (vat s i) (vat p i) /\
                              vat (sc_apply_vector (sc_from_scale n c) v) i = nmul c (vat v i) /\
                              vat (sc_mul s t) i = nmul (vat s i) (vat t i)) /\
    sc_apply_vector (sc_mul s t) v = sc_apply_vector s (sc_apply_vector t v) /\
    sc_apply_point (sc_mul s t) p = sc_apply_point s (sc_apply_point t p) /\
    sc_apply_vector (sc_identity n) v = v /\ sc_apply_point (sc_identity n) p = p /\
    mmulv (sc_to_matrix s) v = sc_apply_vector s v.
Proof. exact c65_scales. Qed.
Print Assumptions C65_scales.

Theorem C65_scale_inverse :
  forall (K : Type) (NK : Num K) (ND : NumDiv K) (FK : FieldLaws K) (n : nat) (s t : scale K n)
         (v : vec K n) (p : point K n),
    ((forall i, (i < n)%nat -> vat s i <> n0) ->
       sc_inverse_apply_vector s (sc_apply_vector s v) = v /\
       sc_apply_vector s (sc_inverse_apply_vector s v) = v /\
       sc_inverse_apply_point s (sc_apply_point s p) = p /\
       sc_apply_point s (sc_inverse_apply_point s p) = p /\
       sc_inverse_apply_vector s v = sc_apply_vector (sc_inverse s) v /\
       sc_inverse_apply_point s p = sc_apply_point (sc_inverse s) p /\
       sc_mul s (sc_inverse s) = sc_identity n) /\
    represents (sc_to_affine_matrix s) (sc_apply_point s) (sc_apply_vector s) /\
    tf_apply_point (sc_to_transform s) p = Some (sc_apply_point s p) /\
    tf_apply_vector (sc_to_transform s) v = sc_apply_vector s v /\
    sc_to_affine_matrix (sc_mul s t) = mmul (sc_to_affine_matrix s) (sc_to_affine_matrix t).
Proof. exact c65_scale_inverse. Qed.
Print Assumptions C65_scale_inverse.

Example C65_example :
  (forall i, (i < 2)%nat -> vat (v2 2 4 : vec R 2) i <> 0) /\
  sc_apply_vector (v2 2 4)%Z (v2 10 20)%Z = (v2 20 80)%Z.
Proof. exact c65_example. Qed.

(** ** C66 *)

(** Any dimension, any commutative ring: an involution on points and vectors that preserves dot
    products, negates the signed distance from the mirror plane, moves points along the normal. *)
Theorem C66_reflections :
  forall (K : Type) (NK : Num K) (LK : RingLaws K) (n : nat) (f : reflection K n)
         (p q : point K n) (u v : vec K n),
    vdot (re_normal f) (re_normal f) = n1 ->
    re_apply_point f (re_apply_point f p) = p /\ re_apply_vector f (re_apply_vector f v) = v /\
    re_inverse_apply_point f (re_apply_point f p) = p /\
    re_inverse_apply_vector f (re_apply_vector f v) = v /\
    re_apply_point (re_inverse f) (re_apply_point f p) = p /\
    vdot (re_apply_vector f u) (re_apply_vector f v) = vdot u v /\
    pdiff (re_apply_point f p) (re_apply_point f q) = re_apply_vector f (pdiff p q) /\
    vdot (pdiff (re_apply_point f p) (re_bias f)) (re_normal f) =
      nneg (vdot (pdiff p (re_bias f)) (re_normal f)) /\
    (exists c, pdiff (re_apply_point f p) p = vmul_s (re_normal f) c) /\
    re_apply_vector f (re_normal f) = vneg (re_normal f) /\
    (vdot v (re_normal f) = n0 -> re_apply_vector f v = v) /\
    (vdot (pdiff p (re_bias f)) (re_normal f) = n0 -> re_apply_point f p = p).
Proof. exact c66_reflections. Qed.
Print Assumptions C66_reflections.

Theorem C66_reflection_distance :
  forall (n : nat) (f : reflection R n) (p q : point R n) (v : vec R n),
    vnorm (re_normal f) = 1 ->
    pdist (re_apply_point f p) (re_apply_point f q) = pdist p q /\
    vnorm (re_apply_vector f v) = vnorm v /\
    (re_apply_point f p = p <-> vdot (pdiff p (re_bias f)) (re_normal f) = 0).
Proof. exact c66_reflection_distance. Qed.
Print Assumptions C66_reflection_distance.

Theorem C66_reflection_matrix :
  forall (f : reflection R 2) (g : reflection R 3),
    represents (re2to_affine_matrix f) (re_apply_point f) (re_apply_vector f) /\
    represents (re3to_affine_matrix g) (re_apply_point g) (re_apply_vector g) /\
    (forall p, tf_apply_point (re2to_transform f) p = Some (re_apply_point f p)) /\
    (forall v, tf_apply_vector (re2to_transform f) v = re_apply_vector f v) /\
    (forall p, tf_apply_point (re3to_transform g) p = Some (re_apply_point g p)) /\
    (forall v, tf_apply_vector (re3to_transform g) v = re_apply_vector g v).
Proof. exact c66_reflection_matrix. Qed.
Print Assumptions C66_reflection_matrix.

Example C66_example :
  vdot (v2 0 1)%Z (v2 0 1)%Z = 1%Z /\
  re_apply_point (mkReflection (v2 0 1) (v2 5 3))%Z (v2 7 10)%Z = (v2 7 (-4))%Z.
Proof. exact c66_example. Qed.

(** ** C67 *)

Theorem C67_shears :
  forall (K : Type) (NK : Num K) (LK : RingLaws K) (n : nat) (f : shear K n) (p : point K n) (v : vec K n),
    (forall i, (i < n)%nat ->
       vat (sh_apply_point f p) i =
       nadd (vat p i) (nmul (nmul (sh_factor f)
         (sum n (fun k => nmul (nsub (vat p k) (vat (sh_origin f) k)) (vat (sh_normal f) k))))
         (vat (sh_direction f) i))) /\
    (vdot (sh_direction f) (sh_normal f) = n0 ->
       sh_inverse_apply_point f (sh_apply_point f p) = p /\
       sh_apply_point f (sh_inverse_apply_point f p) = p /\
       sh_inverse_apply_vector f (sh_apply_vector f v) = v /\
       sh_apply_vector f (sh_inverse_apply_vector f v) = v /\
       vdot (pdiff (sh_apply_point f p) (sh_origin f)) (sh_normal f) =
         vdot (pdiff p (sh_origin f)) (sh_normal f)) /\
    sh_apply_point (sh_inverse f) p = sh_inverse_apply_point f p /\
    sh_apply_vector (sh_inverse f) v = sh_inverse_apply_vector f v /\
    (vdot (pdiff p (sh_origin f)) (sh_normal f) = n0 -> sh_apply_point f p = p).
Proof. exact c67_shears. Qed.
Print Assumptions C67_shears.

Theorem C67_shear_identity :
  forall (K : Type) (NK : Num K) (LK : RingLaws K) (n : nat),
    (forall f : shear K n, sh_identity n = Some f ->
       (forall p, sh_apply_point f p = p) /\ (forall v, sh_apply_vector f v = v)) /\
    ((sh_identity n : option (shear K n)) = None <-> n = 0%nat).
Proof. exact c67_shear_identity. Qed.
Print Assumptions C67_shear_identity.

(** With a unit direction and normal and a non-zero factor the inverse undoes the shear exactly when
    the direction lies in the shear plane. *)
Theorem C67_shear_inverse_iff :
  forall (n : nat) (f : shear R n),
    sh_factor f <> 0 -> vnorm (sh_direction f) = 1 -> vnorm (sh_normal f) = 1 ->
    ((forall p, sh_inverse_apply_point f (sh_apply_point f p) = p) <->
     vdot (sh_direction f) (sh_normal f) = 0).
Proof. exact c67_shear_inverse_iff. Qed.
Print Assumptions C67_shear_inverse_iff.

(** The named constructors build coordinate shears: [from_shear_xy] adds [s * y] to [x], etc. *)
Theorem C67_shear_constructors :
  forall (K : Type) (NK : Num K) (LK : RingLaws K) (s x y z : K),
    sh_apply_point (sh2from_shear_xy s) (v2 x y) = v2 (nadd x (nmul s y)) y /\
    sh_apply_point (sh2from_shear_yx s) (v2 x y) = v2 x (nadd y (nmul s x)) /\
    sh_apply_point (sh3from_shear_xy s) (v3 x y z) = v3 (nadd x (nmul s y)) y z /\
    sh_apply_point (sh3from_shear_xz s) (v3 x y z) = v3 (nadd x (nmul s z)) y z /\
    sh_apply_point (sh3from_shear_yx s) (v3 x y z) = v3 x (nadd y (nmul s x)) z /\
    sh_apply_point (sh3from_shear_yz s) (v3 x y z) = v3 x (nadd y (nmul s z)) z /\
    sh_apply_point (sh3from_shear_zx s) (v3 x y z) = v3 x y (nadd z (nmul s x)) /\
    sh_apply_point (sh3from_shear_zy s) (v3 x y z) = v3 x y (nadd z (nmul s y)).
Proof. exact c67_shear_constructors. Qed.
Print Assumptions C67_shear_constructors.

Example C67_example :
  vdot (v2 1 0)%Z (v2 0 1)%Z = 0%Z /\
  sh_apply_point (mkShear 3 (v2 0 1) (v2 1 0) (v2 0 1))%Z (v2 5 4)%Z = (v2 14 4)%Z.
Proof. exact c67_example. Qed.

(** ** C68 *)

(** Full claim: points and vectors.  Proved: points always; vectors exactly when the shear plane
    passes through the origin (or the factor is zero). *)
Theorem C68_shear_matrix_partial :
  forall (f : shear R 2) (g : shear R 3),
    vnorm (sh_direction f) = 1 -> vnorm (sh_normal f) = 1 ->
    vnorm (sh_direction g) = 1 -> vnorm (sh_normal g) = 1 ->
    (forall p, tf_apply_point (sh2to_transform f) p = Some (sh_apply_point f p)) /\
    (forall p, tf_apply_point (sh3to_transform g) p = Some (sh_apply_point g p)) /\
    (forall v, tf_apply_vector (sh2to_transform f) v = sh_apply_vector f v <->
               sh_factor f * vdot (sh_origin f : vec R 2) (sh_normal f) = 0) /\
    (forall v, tf_apply_vector (sh3to_transform g) v = sh_apply_vector g v <->
               sh_factor g * vdot (sh_origin g : vec R 3) (sh_normal g) = 0) /\
    (forall p q, pdiff (sh_apply_point f p) (sh_apply_point f q) =
                 tf_apply_vector (sh2to_transform f) (pdiff p q)) /\
    (forall p q, pdiff (sh_apply_point g p) (sh_apply_point g q) =
                 tf_apply_vector (sh3to_transform g) (pdiff p q)).
Proof. exact c68_shear_matrix_partial. Qed.
Print Assumptions C68_shear_matrix_partial.

Theorem C68_shear_vector_refuted :
  exists (f : shear R 2) (v : vec R 2),
    vnorm (sh_direction f) = 1 /\ vnorm (sh_normal f) = 1 /\ vdot (sh_direction f) (sh_normal f) = 0 /\
    tf_apply_vector (sh2to_transform f) v <> sh_apply_vector f v /\
    sh_apply_vector f (vzero 2) <> vzero 2.
Proof. exact c68_shear_vector_refuted. Qed.
Print Assumptions C68_shear_vector_refuted.

(** ** C69 *)

Theorem C69_rotations :
  forall (n : nat) (r s : rotation R n) (u v : vec R n) (p q : point R n),
    (forall i, (i < n)%nat -> vat (rot_apply_vector r v) i = sum n (fun k => mget r k i * vat v k)) /\
    rot_apply_vector (rot_mul r s) v = rot_apply_vector r (rot_apply_vector s v) /\
    rot_apply_point (rot_mul r s) p = rot_apply_point r (rot_apply_point s p) /\
    rot_apply_point r p = rot_apply_vector r p /\
    rot_inverse_apply_vector r v = rot_apply_vector (rot_inverse r) v /\
    rot_inverse_apply_point r p = rot_apply_point (rot_inverse r) p /\
    rot_inverse_mut r = Some (rot_inverse r) /\
    rot_apply_vector (rot_identity n) v = v /\
    (orthonormal_columns r ->
       rot_inverse_apply_vector r (rot_apply_vector r v) = v /\
       rot_apply_vector r (rot_inverse_apply_vector r v) = v /\
       rot_inverse_apply_point r (rot_apply_point r p) = p /\
       rot_apply_point r (rot_inverse_apply_point r p) = p /\
       rot_mul (rot_inverse r) r = rot_identity n /\ rot_mul r (rot_inverse r) = rot_identity n /\
       vdot (rot_apply_vector r u) (rot_apply_vector r v) = vdot u v /\
       vnorm (rot_apply_vector r v) = vnorm v /\
       pdist (rot_apply_point r p) (rot_apply_point r q) = pdist p q /\
       orthonormal_columns (rot_inverse r) /\
       (orthonormal_columns s -> orthonormal_columns (rot_mul r s))).
Proof. exact c69_rotations. Qed.
Print Assumptions C69_rotations.

(** Every public constructor yields a rotation, and so do product and inverse in 2D and 3D. *)
Theorem C69_rotation_constructors :
  forall (t : R) (a : vec R 3) (q : quat R) (e : euler) (r s : rotation R 3) (r2 s2 : rotation R 2),
    is_rotation (rot2from_angle t) /\
    (vnorm a = 1 -> is_rotation (rot3from_axis_angle a t)) /\
    (q <> qzero -> is_rotation (rot3from_quaternion q)) /\
    is_rotation (rot3from_euler_angles e) /\
    (is_rotation r -> is_rotation s -> is_rotation (rot_mul r s) /\ is_rotation (rot_inverse r)) /\
    (is_rotation r2 -> is_rotation s2 -> is_rotation (rot_mul r2 s2) /\ is_rotation (rot_inverse r2)) /\
    rot3from_angle_x t = m3from_angle_x t /\ rot3from_angle_y t = m3from_angle_y t /\
    rot3from_angle_z t = m3from_angle_z t.
Proof. exact c69_rotation_constructors. Qed.
Print Assumptions C69_rotation_constructors.

Example C69_example :
  orthonormal_columns (m2new 0 1 (-1) 0 : mat R 2 2).
Proof. exact c69_example. Qed.

(** ** C70 *)

Theorem C70_rotation2_angle :
  forall (t : R) (r : rotation R 2),
    (exists k : Z, rot2angle (rot2from_angle t) = t + 2 * IZR k * PI) /\
    - PI < rot2angle r <= PI /\
    (- PI < t <= PI -> rot2angle (rot2from_angle t) = t) /\
    (is_rotation r -> rot2from_angle (rot2angle r) = r).
Proof. exact c70_rotation2_angle. Qed.
Print Assumptions C70_rotation2_angle.

(** Euler's rotation theorem: every rotation is a rotation about some axis by an angle in [0, pi]. *)
Theorem C70_rotation3_euler_theorem :
  forall r : rotation R 3, is_rotation r ->
    exists a t, vnorm a = 1 /\ 0 <= t <= PI /\ r = rot3from_axis_angle a t.
Proof. exact c70_rotation3_euler_theorem. Qed.
Print Assumptions C70_rotation3_euler_theorem.

Theorem C70_rotation3_angle :
  forall (r : rotation R 3) (a : vec R 3) (t : R),
    (vnorm a = 1 -> 0 <= t <= PI -> rot3angle (rot3from_axis_angle a t) = t) /\
    (is_rotation r -> 0 <= rot3angle r <= PI /\
       mget r 0 0 + mget r 1 1 + mget r 2 2 = 1 + 2 * cos (rot3angle r)).
Proof. exact c70_rotation3_angle. Qed.
Print Assumptions C70_rotation3_angle.

(** The code's threshold is the machine epsilon; any non-negative one is covered.  The axis is absent
    exactly for angles so close to 0 or pi that [2 sin angle] is below it. *)
Theorem C70_rotation3_axis :
  forall (r : rotation R 3) (eps : R), is_rotation r -> 0 <= eps ->
    (forall a, rot3axis_eps r eps = Some a ->
       vnorm a = 1 /\ rot_apply_vector r a = a /\ rot3from_axis_angle a (rot3angle r) = r) /\
    (rot3axis_eps r eps = None <-> 2 * sin (rot3angle r) <= eps) /\
    rot3axis_angle_eps r eps = match rot3axis_eps r eps with Some a => Some (a, rot3angle r) | None => None end.
Proof. exact c70_rotation3_axis. Qed.
Print Assumptions C70_rotation3_axis.

Theorem C70_rotation3_axis_angle_roundtrip :
  forall (a : vec R 3) (t eps : R), vnorm a = 1 -> 0 <= t <= PI -> 0 <= eps -> eps < 2 * sin t ->
    rot3axis_angle_eps (rot3from_axis_angle a t) eps = Some (a, t).
Proof. exact c70_rotation3_axis_angle_roundtrip. Qed.
Print Assumptions C70_rotation3_axis_angle_roundtrip.

Example C70_example :
  vnorm (v3 0 0 1) = 1 /\ 0 <= PI / 2 <= PI /\ 1 < 2 * sin (PI / 2).
Proof. exact c70_example. Qed.

(** ** C71 *)

Theorem C71_isometry_composition :
  forall (K : Type) (NK : Num K) (LK : RingLaws K) (n : nat) (f g h : isometry K n) (p q : point K n) (v : vec K n),
    (forall i, (i < n)%nat -> vat (iso_apply_point f p) i =
       nadd (sum n (fun k => nmul (mget (iso_rotation f) k i) (vat p k))) (vat (iso_translation f) i)) /\
    iso_apply_vector f v = mmulv (iso_rotation f) v /\
    iso_apply_point (iso_mul f g) p = iso_apply_point f (iso_apply_point g p) /\
    iso_apply_vector (iso_mul f g) v = iso_apply_vector f (iso_apply_vector g v) /\
    iso_mul f (iso_mul g h) = iso_mul (iso_mul f g) h /\
    iso_mul (iso_identity n) f = f /\ iso_mul f (iso_identity n) = f /\
    iso_apply_point (iso_identity n) p = p /\ iso_apply_vector (iso_identity n) v = v /\
    iso_inverse_mut f = Some (iso_inverse f) /\
    iso_inverse_apply_point f p = iso_apply_point (iso_inverse f) p /\
    iso_inverse_apply_vector f v = iso_apply_vector (iso_inverse f) v /\
    pdiff (iso_apply_point f p) (iso_apply_point f q) = iso_apply_vector f (pdiff p q).
Proof. exact c71_isometry_composition. Qed.
Print Assumptions C71_isometry_composition.

Theorem C71_isometry_group :
  forall (n : nat) (f g : isometry R n) (p q : point R n) (u v : vec R n),
    orthonormal_columns (iso_rotation f) ->
    iso_mul (iso_inverse f) f = iso_identity n /\ iso_mul f (iso_inverse f) = iso_identity n /\
    iso_inverse_apply_point f (iso_apply_point f p) = p /\
    iso_apply_point f (iso_inverse_apply_point f p) = p /\
    iso_inverse_apply_vector f (iso_apply_vector f v) = v /\
    iso_apply_vector f (iso_inverse_apply_vector f v) = v /\
    pdist (iso_apply_point f p) (iso_apply_point f q) = pdist p q /\
    vdot (iso_apply_vector f u) (iso_apply_vector f v) = vdot u v /\
    orthonormal_columns (iso_rotation (iso_inverse f)) /\
    (orthonormal_columns (iso_rotation g) -> orthonormal_columns (iso_rotation (iso_mul f g))).
Proof. exact c71_isometry_group. Qed.
Print Assumptions C71_isometry_group.

Example C71_example :
  orthonormal_columns (iso_rotation (mkIsometry (v2 1 2) (m2new 0 1 (-1) 0)) : mat R 2 2) /\
  iso_apply_point (mkIsometry (v2 1 2) (m2new 0 1 (-1) 0))%Z (v2 3 4)%Z = (v2 (-3) 5)%Z.
Proof. exact c71_example. Qed.

(** ** C72 *)

Theorem C72_mixed_products :
  forall (K : Type) (NK : Num K) (LK : RingLaws K) (n : nat) (r s : rotation K n) (t u : translation K n)
         (f : isometry K n),
    rot_mul_tr r t = iso_mul (iso_from_rotation r) (iso_from_translation t) /\
    tr_mul_rot t r = iso_mul (iso_from_translation t) (iso_from_rotation r) /\
    iso_mul_tr f t = iso_mul f (iso_from_translation t) /\
    tr_mul_iso t f = iso_mul (iso_from_translation t) f /\
    iso_mul_rot f r = iso_mul f (iso_from_rotation r) /\
    rot_mul_iso r f = iso_mul (iso_from_rotation r) f /\
    iso_mul (iso_from_translation t) (iso_from_translation u) = iso_from_translation (tr_mul t u) /\
    iso_mul (iso_from_rotation r) (iso_from_rotation s) = iso_from_rotation (rot_mul r s).
Proof. exact c72_mixed_products. Qed.
Print Assumptions C72_mixed_products.

Theorem C72_mixed_products_on_points :
  forall (K : Type) (NK : Num K) (LK : RingLaws K) (n : nat) (r : rotation K n) (t : translation K n)
         (f : isometry K n) (p : point K n) (v : vec K n),
    iso_apply_point (rot_mul_tr r t) p = rot_apply_point r (tr_apply_point t p) /\
    iso_apply_point (tr_mul_rot t r) p = tr_apply_point t (rot_apply_point r p) /\
    iso_apply_point (iso_mul_tr f t) p = iso_apply_point f (tr_apply_point t p) /\
    iso_apply_point (tr_mul_iso t f) p = tr_apply_point t (iso_apply_point f p) /\
    iso_apply_point (iso_mul_rot f r) p = iso_apply_point f (rot_apply_point r p) /\
    iso_apply_point (rot_mul_iso r f) p = rot_apply_point r (iso_apply_point f p) /\
    iso_apply_vector (rot_mul_tr r t) v = rot_apply_vector r v /\
    iso_apply_vector (tr_mul_rot t r) v = rot_apply_vector r v /\
    iso_apply_vector (iso_mul_tr f t) v = iso_apply_vector f v /\
    iso_apply_vector (tr_mul_iso t f) v = iso_apply_vector f v /\
    iso_apply_vector (iso_mul_rot f r) v = iso_apply_vector f (rot_apply_vector r v) /\
    iso_apply_vector (rot_mul_iso r f) v = rot_apply_vector r (iso_apply_vector f v) /\
    iso_apply_point (iso_from_rotation r) p = rot_apply_point r p /\
    iso_apply_point (iso_from_translation t) p = tr_apply_point t p.
Proof. exact c72_mixed_products_on_points. Qed.
Print Assumptions C72_mixed_products_on_points.

Example C72_example :
  iso_apply_point (rot_mul_tr (m2new 0 1 (-1) 0) (v2 1 2))%Z (v2 10 20)%Z = (v2 (-22) 11)%Z.
Proof. exact c72_example. Qed.

(** ** C73 *)

(** Full claim: every tolerance comparison of isometries looks at rotation and translation.  This
    holds for [abs_diff_eq] and for both comparisons of similarities, but [abs_diff_all_eq] of
    isometries looks at the rotation only. *)
Theorem C73_isometry_approx_eq_partial :
  forall (n : nat) (f g t : isometry R n) (f' g' t' : similarity R n) (e : R),
    (iso_abs_diff_eq f g t = true <->
       (forall j i, (j < n)%nat -> (i < n)%nat ->
          Rabs (mget (iso_rotation f) j i - mget (iso_rotation g) j i) <= mget (iso_rotation t) j i) /\
       (forall i, (i < n)%nat ->
          Rabs (vat (iso_translation f) i - vat (iso_translation g) i) <= vat (iso_translation t) i)) /\
    (iso_abs_diff_all_eq f g e = true <->
       (forall j i, (j < n)%nat -> (i < n)%nat ->
          Rabs (mget (iso_rotation f) j i - mget (iso_rotation g) j i) <= e)) /\
    (sim_abs_diff_eq f' g' t' = true <->
       iso_abs_diff_eq (sim_isometry f') (sim_isometry g') (sim_isometry t') = true /\
       Rabs (sim_scale f' - sim_scale g') <= sim_scale t') /\
    (sim_abs_diff_all_eq f' g' e = true <->
       (forall j i, (j < n)%nat -> (i < n)%nat ->
          Rabs (mget (iso_rotation (sim_isometry f')) j i - mget (iso_rotation (sim_isometry g')) j i) <= e) /\
       (forall i, (i < n)%nat ->
          Rabs (vat (iso_translation (sim_isometry f')) i - vat (iso_translation (sim_isometry g')) i) <= e) /\
       Rabs (sim_scale f' - sim_scale g') <= e).
Proof. exact c73_isometry_approx_eq_partial. Qed.
Print Assumptions C73_isometry_approx_eq_partial.

(** Isometries a thousand units apart compare equal within 0.001. *)
Theorem C73_isometry_approx_eq_refuted :
  exists (f g : isometry R 3) (e : R),
    iso_abs_diff_all_eq f g e = true /\ e = 1 / 1000 /\
    Rabs (vat (iso_translation f) 0 - vat (iso_translation g) 0) = 1000.
Proof. exact c73_isometry_approx_eq_refuted. Qed.
Print Assumptions C73_isometry_approx_eq_refuted.

(** ** C74 *)

Theorem C74_similarity_composition :
  forall (K : Type) (NK : Num K) (LK : RingLaws K) (n : nat) (f g h : similarity K n) (k : isometry K n)
         (p q : point K n) (v : vec K n),
    (forall i, (i < n)%nat -> vat (sim_apply_point f p) i =
       nadd (nmul (sim_scale f) (sum n (fun j => nmul (mget (iso_rotation (sim_isometry f)) j i) (vat p j))))
            (vat (iso_translation (sim_isometry f)) i)) /\
    sim_apply_vector f v = vmul_s (mmulv (iso_rotation (sim_isometry f)) v) (sim_scale f) /\
    sim_apply_point (sim_mul f g) p = sim_apply_point f (sim_apply_point g p) /\
    sim_apply_vector (sim_mul f g) v = sim_apply_vector f (sim_apply_vector g v) /\
    sim_mul f (sim_mul g h) = sim_mul (sim_mul f g) h /\
    sim_mul (sim_identity n) f = f /\ sim_mul f (sim_identity n) = f /\
    sim_mul_iso f k = sim_mul f (sim_from_isometry k) /\
    sim_apply_point (sim_from_isometry k) p = iso_apply_point k p /\
    sim_apply_point (sim_identity n) p = p /\
    pdiff (sim_apply_point f p) (sim_apply_point f q) = sim_apply_vector f (pdiff p q).
Proof. exact c74_similarity_composition. Qed.
Print Assumptions C74_similarity_composition.

Theorem C74_similarity_inverse :
  forall (n : nat) (f : similarity R n) (p q : point R n) (v : vec R n),
    sim_scale f <> 0 -> orthonormal_columns (iso_rotation (sim_isometry f)) ->
    sim_inverse_apply_point f (sim_apply_point f p) = p /\
    sim_apply_point f (sim_inverse_apply_point f p) = p /\
    sim_inverse_apply_vector f (sim_apply_vector f v) = v /\
    sim_apply_vector f (sim_inverse_apply_vector f v) = v /\
    (exists g, sim_inverse f = Some g /\ sim_inverse_mut f = Some g /\
       sim_apply_point g p = sim_inverse_apply_point f p /\
       sim_apply_vector g v = sim_inverse_apply_vector f v /\
       sim_mul g f = sim_identity n /\ sim_mul f g = sim_identity n) /\
    pdist (sim_apply_point f p) (sim_apply_point f q) = Rabs (sim_scale f) * pdist p q /\
    vnorm (sim_apply_vector f v) = Rabs (sim_scale f) * vnorm v.
Proof. exact c74_similarity_inverse. Qed.
Print Assumptions C74_similarity_inverse.

Example C74_example :
  sim_scale (mkSimilarity (mkIsometry (v2 1 2) (midentity 2)) 3) <> 0 /\
  orthonormal_columns (midentity 2 : mat R 2 2) /\
  sim_apply_point (mkSimilarity (mkIsometry (v2 1 2) (m2new 0 1 (-1) 0)) 3)%Z (v2 10 20)%Z = (v2 (-59) 32)%Z.
Proof. exact c74_example. Qed.

(** ** C75 *)

Theorem C75_transform_points :
  forall (K : Type) (NK : Num K) (ND : NumDiv K) (FK : FieldLaws K) (n : nat) (f g : transform K n)
         (p q : point K n) (v : vec K n),
    (tf_apply_point f p = None <-> vat (mmulv f (vextend (p : vec K n) n1)) n = n0) /\
    (tf_apply_point f p = Some q <->
       exists w, w <> n0 /\ mmulv f (vextend (p : vec K n) n1) = vmul_s (vextend (q : vec K n) n1) w) /\
    (tf_apply_point g p = Some q -> tf_apply_point (tf_mul f g) p = tf_apply_point f q) /\
    tf_apply_point (tf_identity n) p = Some p /\ tf_apply_vector (tf_identity n) v = v.
Proof. exact c75_transform_points. Qed.
Print Assumptions C75_transform_points.

Theorem C75_transform_inverse_points :
  forall (K : Type) (NK : Num K) (ND : NumDiv K) (FK : FieldLaws K)
         (f : transform K 2) (p q : point K 2) (f3 : transform K 3) (p3 q3 : point K 3),
    (m3det f <> n0 -> exists h, tf2try_inverse f = Some h /\ tf2inverse f = Some h /\
       mmul f h = midentity 3 /\ mmul h f = midentity 3 /\
       (tf_apply_point f p = Some q -> tf2inverse_apply_point f q = Some (Some p) /\
                                       tf_apply_point h q = Some p)) /\
    (m3det f = n0 -> tf2try_inverse f = None /\ tf2inverse_apply_point f q = None) /\
    (m4det f3 <> n0 -> exists h, tf3try_inverse f3 = Some h /\ tf3inverse f3 = Some h /\
       mmul f3 h = midentity 4 /\ mmul h f3 = midentity 4 /\
       (tf_apply_point f3 p3 = Some q3 -> tf3inverse_apply_point f3 q3 = Some (Some p3) /\
                                          tf_apply_point h q3 = Some p3)) /\
    (m4det f3 = n0 -> tf3try_inverse f3 = None /\ tf3inverse_apply_point f3 q3 = None).
Proof. exact c75_transform_inverse_points. Qed.
Print Assumptions C75_transform_inverse_points.

(** Full claim: composition and inverse work on vectors for every matrix.  Proved when the inner map
    keeps the weight of the vector zero, in particular for affine matrices (last row [0 .. 0 1]). *)
Theorem C75_transform_vectors_partial :
  forall (K : Type) (NK : Num K) (ND : NumDiv K) (FK : FieldLaws K) (n : nat) (f g : transform K n) (v : vec K n),
    (forall i, (i < n)%nat -> vat (tf_apply_vector f v) i = sum n (fun k => nmul (mget f k i) (vat v k))) /\
    (vat (mmulv g (vextend v n0)) n = n0 ->
       tf_apply_vector (tf_mul f g) v = tf_apply_vector f (tf_apply_vector g v) /\
       (mmul f g = midentity (S n) -> tf_apply_vector f (tf_apply_vector g v) = v)) /\
    ((forall j, (j < n)%nat -> mget g j n = n0) -> vat (mmulv g (vextend v n0)) n = n0).
Proof. exact c75_transform_vectors_partial. Qed.
Print Assumptions C75_transform_vectors_partial.

(** A projective matrix for which neither composition nor the inverse works on vectors. *)
Theorem C75_transform_vectors_refuted :
  exists (f g : transform Qc 2) (v : vec Qc 2),
    tf_apply_vector (tf_mul f g) v <> tf_apply_vector f (tf_apply_vector g v) /\
    m3det g <> 0%Qc /\
    tf2inverse_apply_vector g (tf_apply_vector g v) <> Some v.
Proof. exact c75_transform_vectors_refuted. Qed.
Print Assumptions C75_transform_vectors_refuted.

Example C75_example :
  tf_apply_point (m3new 1 0 0 0 1 1 0 0 1)%Qc (v2 (Q2Qc (QArith_base.Qmake 6 1)) (Q2Qc (QArith_base.Qmake 2 1)))%Qc =
  Some (v2 (Q2Qc (QArith_base.Qmake 2 1)) (Q2Qc (QArith_base.Qmake 2 3)))%Qc /\
  tf_apply_point (m3new 1 0 0 0 1 1 0 0 1)%Qc (v2 (Q2Qc (QArith_base.Qmake 6 1)) (-(1)))%Qc = None.
Proof. exact c75_example. Qed.

(** ** C76 *)

(** Every to_affine_matrix represents the map of its transform, in every dimension. *)
Theorem C76_affine_matrices :
  forall (K : Type) (NK : Num K) (LK : RingLaws K) (n : nat) (t : translation K n) (s : scale K n)
         (r : rotation K n) (f : isometry K n) (g : similarity K n),
    represents (tr_to_affine_matrix t) (tr_apply_point t) (tr_apply_vector t) /\
    represents (sc_to_affine_matrix s) (sc_apply_point s) (sc_apply_vector s) /\
    represents (rot_to_affine_matrix r) (rot_apply_point r) (rot_apply_vector r) /\
    represents (iso_to_affine_matrix f) (iso_apply_point f) (iso_apply_vector f) /\
    represents (sim_to_affine_matrix g) (sim_apply_point g) (sim_apply_vector g).
Proof. exact c76_affine_matrices. Qed.
Print Assumptions C76_affine_matrices.

(** A matrix is determined by the map it represents, and products represent compositions. *)
Theorem C76_representation :
  forall (K : Type) (NK : Num K) (LK : RingLaws K) (n : nat) (m m' : mat K (S n) (S n))
         (fp fv gp gv : vec K n -> vec K n),
    (represents m fp fv -> represents m' fp fv -> m = m') /\
    (represents m fp fv -> represents m' gp gv ->
       represents (mmul m m') (fun p => fp (gp p)) (fun v => fv (gv v))).
Proof. exact c76_representation. Qed.
Print Assumptions C76_representation.

Theorem C76_products :
  forall (K : Type) (NK : Num K) (LK : RingLaws K) (n : nat) (s t : translation K n) (s' t' : scale K n)
         (r q : rotation K n) (f g : isometry K n) (f' g' : similarity K n),
    tr_to_affine_matrix (tr_mul s t) = mmul (tr_to_affine_matrix s) (tr_to_affine_matrix t) /\
    sc_to_affine_matrix (sc_mul s' t') = mmul (sc_to_affine_matrix s') (sc_to_affine_matrix t') /\
    rot_to_affine_matrix (rot_mul r q) = mmul (rot_to_affine_matrix r) (rot_to_affine_matrix q) /\
    iso_to_affine_matrix (iso_mul f g) = mmul (iso_to_affine_matrix f) (iso_to_affine_matrix g) /\
    sim_to_affine_matrix (sim_mul f' g') = mmul (sim_to_affine_matrix f') (sim_to_affine_matrix g') /\
    iso_to_affine_matrix (iso_identity n) = midentity (S n) /\
    sim_to_affine_matrix (sim_identity n) = midentity (S n) /\
    sim_to_affine_matrix (sim_from_isometry f) = iso_to_affine_matrix f.
Proof. exact c76_products. Qed.
Print Assumptions C76_products.

(** [to_transform] applied through [Transform] agrees with the direct application. *)
Theorem C76_transforms :
  forall (K : Type) (NK : Num K) (ND : NumDiv K) (FK : FieldLaws K) (n : nat) (r : rotation K n)
         (f : isometry K n) (g : similarity K n) (p : point K n) (v : vec K n),
    tf_apply_point (rot_to_transform r) p = Some (rot_apply_point r p) /\
    tf_apply_vector (rot_to_transform r) v = rot_apply_vector r v /\
    tf_apply_point (iso_to_transform f) p = Some (iso_apply_point f p) /\
    tf_apply_vector (iso_to_transform f) v = iso_apply_vector f v /\
    tf_apply_point (sim_to_transform g) p = Some (sim_apply_point g p) /\
    tf_apply_vector (sim_to_transform g) v = sim_apply_vector g v.
Proof. exact c76_transforms. Qed.
Print Assumptions C76_transforms.

Example C76_example :
  mmulv (sim_to_affine_matrix (mkSimilarity (mkIsometry (v2 1 2) (m2new 0 1 (-1) 0)) 3))%Z (v3 10 20 1)%Z
  = (v3 (-59) 32 1)%Z.
Proof. exact c76_example. Qed.
