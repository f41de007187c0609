(** Property theorems about the perspective and orthographic projections (C77-C85).
    [projects_to m p q] (SpecProjection.v) says that the homogeneous matrix [m] sends the point [p]
    to the point [q] after the perspective division; [in_frustum], [in_box], [in_cube] and the corner
    functions are defined there too.  The exact statements are over any field (so over ideal reals)
    with [1 + 1 <> 0]; the refutations of reading parameters back are computations in IEEE binary64
    (MFloat.v). *)

From Coq Require Import List Arith Reals Lra ZArith Qcanon.
From Verif Require Import Base Scalar Spec SpecProjection SpecTransform MVector MMatrix MPoint MReal
  MTransform MFloat MProjection LProjectionP.
Import ListNotations.
Local Open Scope R_scope.

(** ** C77 *)

(** A point off the camera plane has exactly one image; the image lies in the canonical cube exactly
    when the point lies in the frustum (in particular no point behind the camera gets in). *)
Theorem C77_perspective_frustum :
  forall (left right bottom top near far : R),
    0 < right + left -> 0 < top + bottom -> 0 < near < far ->
    (forall p : vec R 3,
       (vat p 2 <> 0 <-> exists q, projects_to (m4from_perspective left right bottom top near far) p q)) /\
    (forall p q q' : vec R 3,
       projects_to (m4from_perspective left right bottom top near far) p q ->
       projects_to (m4from_perspective left right bottom top near far) p q' -> q = q') /\
    (forall p q : vec R 3,
       projects_to (m4from_perspective left right bottom top near far) p q ->
       (in_frustum left right bottom top near far p <-> in_cube q)).
Proof. exact c77_perspective_frustum. Qed.
Print Assumptions C77_perspective_frustum.

(** Every point of the cube is the image of exactly one point, which lies in the frustum. *)
Theorem C77_perspective_bijection :
  forall (left right bottom top near far : R),
    0 < right + left -> 0 < top + bottom -> 0 < near < far ->
    forall q : vec R 3, in_cube q ->
    exists p : vec R 3, in_frustum left right bottom top near far p /\
      projects_to (m4from_perspective left right bottom top near far) p q /\
      forall p', projects_to (m4from_perspective left right bottom top near far) p' q -> p' = p.
Proof. exact c77_perspective_bijection. Qed.
Print Assumptions C77_perspective_bijection.

Theorem C77_perspective_corners :
  forall (left right bottom top near far : R),
    0 < right + left -> 0 < top + bottom -> 0 < near < far ->
    forall bx by_ bz : bool,
    projects_to (m4from_perspective left right bottom top near far)
      (frustum_corner left right bottom top near far bx by_ bz) (cube_corner bx by_ bz).
Proof. exact c77_perspective_corners. Qed.
Print Assumptions C77_perspective_corners.

(** Depth is strictly increasing with the distance from the camera plane, -1 exactly on the near
    plane and 1 exactly on the far plane. *)
Theorem C77_perspective_depth :
  forall (left right bottom top near far : R),
    0 < right + left -> 0 < top + bottom -> 0 < near < far ->
    (forall p1 p2 q1 q2 : vec R 3,
       projects_to (m4from_perspective left right bottom top near far) p1 q1 ->
       projects_to (m4from_perspective left right bottom top near far) p2 q2 ->
       0 < - vat p1 2 < - vat p2 2 -> vat q1 2 < vat q2 2) /\
    (forall p q : vec R 3, projects_to (m4from_perspective left right bottom top near far) p q ->
       (- vat p 2 = near <-> vat q 2 = -1) /\ (- vat p 2 = far <-> vat q 2 = 1)).
Proof. exact c77_perspective_depth. Qed.
Print Assumptions C77_perspective_depth.

(** An asymmetric frustum, one point inside and one outside. *)
Example C77_example :
  in_frustum 1 3 1 1 1 5 (v3 4 1 (-2)) /\ ~ in_frustum 1 3 1 1 1 5 (v3 4 3 (-2)) /\
  projects_to (m4from_perspective 1 3 1 1 1 5) (v3 4 1 (-2)) (v3 (1/2) (1/2) (1/4)).
Proof. exact c77_example. Qed.

(** ** C78 *)

(** The full claim is for all non-degenerate frusta; [right] and [left] need [left <> 0], [top] and
    [bottom] need [bottom <> 0] (see the refutation). *)
Theorem C78_perspective_params_partial :
  forall (K : Type) (NK : Num K) (ND : NumDiv K), FieldLaws K ->
  forall left right bottom top near far : K,
    (n1 + n1)%N_ <> n0 :> K -> (right + left)%N_ <> n0 -> (top + bottom)%N_ <> n0 ->
    near <> n0 -> far <> n0 -> (far - near)%N_ <> n0 ->
    let m := persp_new left right bottom top near far in
    persp_near m = near /\ persp_far m = far /\
    persp_aspect_ratio m = ((right + left) / (top + bottom))%N_ /\
    (left <> n0 -> persp_right m = right /\ persp_left m = left) /\
    (bottom <> n0 -> persp_top m = top /\ persp_bottom m = bottom).
Proof. exact c78_perspective_params_partial. Qed.
Print Assumptions C78_perspective_params_partial.

(** In binary64 the frustum with [left = 0], [right = 1] reads back [right] as NaN, and the one with
    [bottom = 0], [top = 1] reads back [top] as NaN. *)
Theorem C78_perspective_params_refuted :
  exists left right bottom top near far : f64,
    (left, right, bottom, top, near, far) =
      (f64_of_Z 0, f64_of_Z 1, f64_of_Z 1, f64_of_Z 1, f64_of_Z 1, f64_of_Z 2) /\
    f64_is_nan (persp_right (persp_new left right bottom top near far)) = true /\
    f64_is_nan (persp_top (persp_new bottom top left right near far)) = true.
Proof. exact c78_perspective_params_refuted. Qed.
Print Assumptions C78_perspective_params_refuted.

Example C78_example :
  let m := persp_new 1 3 1 1 1 5 in
  persp_near m = 1 /\ persp_far m = 5 /\ persp_aspect_ratio m = 2 /\ persp_right m = 3 /\
  persp_left m = 1 /\ persp_top m = 1 /\ persp_bottom m = 1.
Proof. exact c78_example. Qed.

(** ** C79 *)

(** [project_vector] and the transform of [to_transform] agree with the matrix.  [project_point]
    agrees in the first and third coordinates, its second coordinate is off by
    [(top - bottom) / (top + bottom)]; so it agrees exactly for [top = bottom]. *)
Theorem C79_project_point_partial :
  forall (K : Type) (NK : Num K) (ND : NumDiv K), FieldLaws K ->
  forall left right bottom top near far : K,
    (right + left)%N_ <> n0 -> (top + bottom)%N_ <> n0 -> (far - near)%N_ <> n0 ->
    let m := persp_new left right bottom top near far in
    forall p : vec K 3, vat p 2 <> n0 ->
    exists q : vec K 3, projects_to m p q /\
      persp_project_vector m p = q /\
      tf_apply_point (persp_to_transform m) p = Some q /\
      persp_project_point m p =
        v3 (vat q 0) (vat q 1 + (top - bottom) / (top + bottom))%N_ (vat q 2) /\
      (persp_project_point m p = q <-> top = bottom).
Proof. exact c79_project_point_partial. Qed.
Print Assumptions C79_project_point_partial.

(** A vertically asymmetric frustum and a point on its axis: the matrix sends the point to
    [y = -1/2], [project_point] to [y = 0]. *)
Theorem C79_project_point_refuted :
  exists (left right bottom top near far : R) (p q : vec R 3),
    0 < left /\ 0 < right /\ 0 < bottom /\ 0 < top /\ 0 < near < far /\
    in_frustum left right bottom top near far p /\
    projects_to (persp_new left right bottom top near far) p q /\
    persp_project_point (persp_new left right bottom top near far) p <> q.
Proof. exact c79_project_point_refuted. Qed.
Print Assumptions C79_project_point_refuted.

Example C79_example :
  persp_project_point (persp_new 1 3 1 1 1 5) (v3 4 1 (-2)) = v3 (1/2) (1/2) (1/4).
Proof. exact c79_example. Qed.

(** ** C80 *)

(** Where the parameters can be read back, [unproject_point] and [unproject_vector] invert the
    projection by the matrix on both sides; hence they invert [project_vector] always, and
    [project_point] for vertically symmetric frusta. *)
Theorem C80_unproject_partial :
  forall (K : Type) (NK : Num K) (ND : NumDiv K), FieldLaws K ->
  forall left right bottom top near far : K,
    (n1 + n1)%N_ <> n0 :> K -> (right + left)%N_ <> n0 -> (top + bottom)%N_ <> n0 ->
    near <> n0 -> far <> n0 -> (far - near)%N_ <> n0 -> left <> n0 -> bottom <> n0 ->
    let m := persp_new left right bottom top near far in
    (forall p q : vec K 3, projects_to m p q ->
       persp_unproject_point m q = p /\ persp_unproject_vector m q = p) /\
    (forall q : vec K 3, (far + near - (far - near) * vat q 2)%N_ <> n0 ->
       projects_to m (persp_unproject_point m q) q) /\
    (forall p : vec K 3, vat p 2 <> n0 ->
       persp_unproject_vector m (persp_project_vector m p) = p /\
       (top = bottom -> persp_unproject_point m (persp_project_point m p) = p)).
Proof. exact c80_unproject_partial. Qed.
Print Assumptions C80_unproject_partial.

Theorem C80_unproject_refuted :
  exists (left right bottom top near far : R) (p : vec R 3),
    0 < left /\ 0 < right /\ 0 < bottom /\ 0 < top /\ 0 < near < far /\
    in_frustum left right bottom top near far p /\
    persp_unproject_point (persp_new left right bottom top near far)
      (persp_project_point (persp_new left right bottom top near far) p) <> p.
Proof. exact c80_unproject_refuted. Qed.
Print Assumptions C80_unproject_refuted.

Example C80_example :
  persp_unproject_point (persp_new 1 3 1 1 1 5) (persp_project_point (persp_new 1 3 1 1 1 5) (v3 4 1 (-2)))
  = v3 4 1 (-2).
Proof. exact c80_example. Qed.

(** ** C81 *)

(** For a general frustum the field of view is the angle between the top and the bottom plane; the
    method returns it when it is at most a right angle and the (negative) angle less [PI] otherwise. *)
Theorem C81_vfov_partial :
  forall left right bottom top near far : R,
    0 < top + bottom -> 0 < near ->
    let angle := atan (top / near) + atan (bottom / near) in
    0 < angle < PI /\
    (angle <= PI / 2 -> persp_vfov (persp_new left right bottom top near far) = Some angle) /\
    (PI / 2 < angle -> persp_vfov (persp_new left right bottom top near far) = Some (angle - PI)).
Proof. exact c81_vfov_partial. Qed.
Print Assumptions C81_vfov_partial.

Theorem C81_from_vfov_partial :
  forall vfov aspect_ratio near far : R, 0 < vfov < PI -> 0 < aspect_ratio -> 0 < near ->
    (vfov <= PI / 2 -> persp_vfov (persp_from_vfov vfov aspect_ratio near far) = Some vfov) /\
    (PI / 2 < vfov -> persp_vfov (persp_from_vfov vfov aspect_ratio near far) = Some (vfov - PI)).
Proof. exact c81_from_vfov_partial. Qed.
Print Assumptions C81_from_vfov_partial.

Theorem C81_from_vfov_refuted :
  exists vfov aspect_ratio near far : R, 0 < vfov < PI /\ 0 < aspect_ratio /\ 0 < near < far /\
    persp_vfov (persp_from_vfov vfov aspect_ratio near far) <> Some vfov.
Proof. exact c81_from_vfov_refuted. Qed.
Print Assumptions C81_from_vfov_refuted.

Example C81_example :
  persp_vfov (persp_from_vfov (PI / 2) (4/3) 1 100) = Some (PI / 2) /\
  persp_vfov (persp_from_vfov (2 * (PI / 3)) (4/3) 1 100) = Some (- (PI / 3)).
Proof. exact c81_example. Qed.

(** ** C82 *)

Theorem C82_perspective_vfov :
  forall vfov aspect_ratio near far : R, 0 < vfov < PI -> 0 < aspect_ratio -> 0 < near ->
    let half_height := near * tan (vfov / 2) in
    let half_width := aspect_ratio * near * tan (vfov / 2) in
    m4from_perspective_vfov vfov aspect_ratio near far =
      m4from_perspective half_width half_width half_height half_height near far /\
    persp_aspect_ratio (persp_from_vfov vfov aspect_ratio near far) = aspect_ratio.
Proof. exact c82_perspective_vfov. Qed.
Print Assumptions C82_perspective_vfov.

Example C82_example :
  m4from_perspective_vfov (PI / 2) 2 1 5 = m4from_perspective 2 2 1 1 1 5.
Proof. exact c82_example. Qed.

(** ** C83 *)

(** [project_point]/[project_vector] are what the matrix does to points/vectors, for any scalars;
    the box is mapped affinely onto the cube, corners to corners. *)
Theorem C83_orthographic :
  (forall (K : Type) (NK : Num K) (ND : NumDiv K), FieldLaws K ->
   forall left right bottom top near far : K,
   represents (m4from_orthographic left right bottom top near far)
     (ortho_project_point (ortho_new left right bottom top near far))
     (ortho_project_vector (ortho_new left right bottom top near far))) /\
  (forall left right bottom top near far : R,
     0 < right + left -> 0 < top + bottom -> 0 < far - near ->
     let m := ortho_new left right bottom top near far in
     (forall p : vec R 3, in_box left right bottom top near far p <-> in_cube (ortho_project_point m p)) /\
     (forall q : vec R 3, exists p : vec R 3, ortho_project_point m p = q /\
        forall p', ortho_project_point m p' = q -> p' = p) /\
     (forall bx by_ bz : bool,
        ortho_project_point m (box_corner left right bottom top near far bx by_ bz) = cube_corner bx by_ bz) /\
     (forall p1 p2 : vec R 3, - vat p1 2 < - vat p2 2 ->
        vat (ortho_project_point m p1) 2 < vat (ortho_project_point m p2) 2)).
Proof. exact c83_orthographic. Qed.
Print Assumptions C83_orthographic.

Example C83_example :
  ortho_project_point (ortho_new 1 3 1 1 0 4) (v3 2 (1/2) (-1)) = v3 (1/2) (1/2) (-1/2).
Proof. exact c83_example. Qed.

(** ** C84 *)

(** The full claim is for all non-degenerate boxes; it needs [near <> 0], [left <> 0] and
    [bottom <> 0] respectively (see the refutation). *)
Theorem C84_orthographic_params_partial :
  forall (K : Type) (NK : Num K) (ND : NumDiv K), FieldLaws K ->
  forall left right bottom top near far : K,
    (n1 + n1)%N_ <> n0 :> K -> (right + left)%N_ <> n0 -> (top + bottom)%N_ <> n0 ->
    (far - near)%N_ <> n0 ->
    let m := ortho_new left right bottom top near far in
    (near <> n0 -> ortho_near m = near /\ ortho_far m = far) /\
    (left <> n0 -> ortho_right m = right /\ ortho_left m = left) /\
    (bottom <> n0 -> ortho_top m = top /\ ortho_bottom m = bottom).
Proof. exact c84_orthographic_params_partial. Qed.
Print Assumptions C84_orthographic_params_partial.

(** In binary64 a box with [near = 0], [left = 0], [bottom = 0] reads back [far], [right] and [top]
    as NaN. *)
Theorem C84_orthographic_params_refuted :
  exists left right bottom top near far : f64,
    (left, right, bottom, top, near, far) =
      (f64_of_Z 0, f64_of_Z 1, f64_of_Z 0, f64_of_Z 1, f64_of_Z 0, f64_of_Z 1) /\
    f64_is_nan (ortho_far (ortho_new left right bottom top near far)) = true /\
    f64_is_nan (ortho_right (ortho_new left right bottom top near far)) = true /\
    f64_is_nan (ortho_top (ortho_new left right bottom top near far)) = true.
Proof. exact c84_orthographic_params_refuted. Qed.
Print Assumptions C84_orthographic_params_refuted.

Example C84_example :
  let m := ortho_new 1 3 1 2 1 5 in
  ortho_near m = 1 /\ ortho_far m = 5 /\ ortho_right m = 3 /\ ortho_left m = 1 /\
  ortho_top m = 2 /\ ortho_bottom m = 1.
Proof. exact c84_example. Qed.

(** ** C85 *)

Theorem C85_orthographic_unproject_partial :
  forall (K : Type) (NK : Num K) (ND : NumDiv K), FieldLaws K ->
  forall left right bottom top near far : K,
    (n1 + n1)%N_ <> n0 :> K -> (right + left)%N_ <> n0 -> (top + bottom)%N_ <> n0 ->
    (far - near)%N_ <> n0 -> near <> n0 -> left <> n0 -> bottom <> n0 ->
    let m := ortho_new left right bottom top near far in
    forall p : vec K 3,
      ortho_unproject_point m (ortho_project_point m p) = p /\
      ortho_project_point m (ortho_unproject_point m p) = p /\
      ortho_unproject_vector m (ortho_project_vector m p) = p /\
      ortho_project_vector m (ortho_unproject_vector m p) = p.
Proof. exact c85_orthographic_unproject_partial. Qed.
Print Assumptions C85_orthographic_unproject_partial.

(** In binary64 with [near = 0]: the depth of every unprojected point computed here is NaN. *)
Theorem C85_orthographic_unproject_refuted :
  exists (left right bottom top near far : f64) (p : vec f64 3),
    (left, right, bottom, top, near, far) =
      (f64_of_Z 1, f64_of_Z 1, f64_of_Z 1, f64_of_Z 1, f64_of_Z 0, f64_of_Z 1) /\
    p = v3 (f64_of_Z 0) (f64_of_Z 0) (f64_of_Z (-1)) /\
    let m := ortho_new left right bottom top near far in
    f64_is_nan (vat (ortho_unproject_point m (ortho_project_point m p)) 2) = true.
Proof. exact c85_orthographic_unproject_refuted. Qed.
Print Assumptions C85_orthographic_unproject_refuted.

Example C85_example :
  ortho_unproject_point (ortho_new 1 3 1 2 1 5) (ortho_project_point (ortho_new 1 3 1 2 1 5) (v3 2 1 (-3)))
  = v3 2 1 (-3).
Proof. exact c85_example. Qed.
