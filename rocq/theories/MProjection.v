(** Model of the projection matrices (crates/cglinalg_core/src/matrix.rs 6674-7213) and of
    [Perspective3] and [Orthographic3] (crates/cglinalg_transform/src/projection.rs).  Both types
    are a single [matrix] field and are identified with it.  [left] and [bottom] are the distances
    of the planes [x = -left] and [y = -bottom] from the axis, as in the code. *)

From Coq Require Import Reals.
From Verif Require Import Base Scalar MVector MMatrix MPoint MReal MTransform.

Section Projection.
Context {K : Type} {NK : Num K} {ND : NumDiv K}.
Local Open Scope num_scope.

(** matrix.rs 6674-6704 [from_orthographic]. *)
Definition m4from_orthographic (left right bottom top near far : K) : mat K 4 4 :=
  let two := 1 + 1 in
  let c0r0 := two / (right - (- left)) in
  let c1r1 := two / (top - (- bottom)) in
  let c2r2 := (- two) / (far - near) in
  let c3r0 := (- (right + (- left))) / (right - (- left)) in
  let c3r1 := (- (top + (- bottom))) / (top - (- bottom)) in
  let c3r2 := (- (far + near)) / (far - near) in
  m4new c0r0 0 0 0
        0 c1r1 0 0
        0 0 c2r2 0
        c3r0 c3r1 c3r2 1.

(** matrix.rs 6861-6891 [from_perspective]. *)
Definition m4from_perspective (left right bottom top near far : K) : mat K 4 4 :=
  let two := 1 + 1 in
  let c0r0 := (two * near) / (right - (- left)) in
  let c1r1 := (two * near) / (top - (- bottom)) in
  let c2r0 := (right + (- left)) / (right - (- left)) in
  let c2r1 := (top + (- bottom)) / (top - (- bottom)) in
  let c2r2 := (- (far + near)) / (far - near) in
  let c3r2 := (- (two * far * near)) / (far - near) in
  m4new c0r0 0 0 0
        0 c1r1 0 0
        c2r0 c2r1 c2r2 (- (1))
        0 0 c3r2 0.

(** ** Perspective3 (projection.rs) *)

(** 305 [new]; 2236 [to_projective_matrix]; 2306 [to_transform]. *)
Definition persp_new (left right bottom top near far : K) : mat K 4 4 :=
  m4from_perspective left right bottom top near far.
Definition persp_to_transform (m : mat K 4 4) : transform K 3 := tf_from_matrix m.

(** 633-666 [aspect_ratio]. *)
Definition persp_aspect_ratio (m : mat K 4 4) : K := mget m 1 1 / mget m 0 0.

(** 877-950 [near], 995-1070 [far]. *)
Definition persp_near (m : mat K 4 4) : K :=
  let two := 1 + 1 in
  let ratio := (- mget m 2 2 + 1) / (- mget m 2 2 - 1) in
  ((1 - ratio) / (two * ratio)) * mget m 3 2.
Definition persp_far (m : mat K 4 4) : K :=
  let two := 1 + 1 in
  let ratio := (- mget m 2 2 + 1) / (- mget m 2 2 - 1) in
  ((1 - ratio) / two) * mget m 3 2.

(** 1116-1188 [right], 1234-1305 [left], 1351-1423 [top], 1469-1540 [bottom]. *)
Definition persp_right (m : mat K 4 4) : K :=
  let two := 1 + 1 in
  let ratio := (mget m 2 0 + 1) / (- mget m 2 0 + 1) in
  ((two * persp_near m) * (ratio / (ratio + 1))) * (1 / mget m 0 0).
Definition persp_left (m : mat K 4 4) : K :=
  let two := 1 + 1 in
  let ratio := (mget m 2 0 + 1) / (- mget m 2 0 + 1) in
  ((two * persp_near m) * (1 / (ratio + 1))) * (1 / mget m 0 0).
Definition persp_top (m : mat K 4 4) : K :=
  let two := 1 + 1 in
  let ratio := (mget m 2 1 + 1) / (- mget m 2 1 + 1) in
  ((two * persp_near m) * (ratio / (ratio + 1))) * (1 / mget m 1 1).
Definition persp_bottom (m : mat K 4 4) : K :=
  let two := 1 + 1 in
  let ratio := (mget m 2 1 + 1) / (- mget m 2 1 + 1) in
  ((two * persp_near m) * (1 / (ratio + 1))) * (1 / mget m 1 1).

(** 1919-1926 [project_point].  The second coordinate uses the entry [c3r1], as in the code. *)
Definition persp_project_point (m : mat K 4 4) (p : point K 3) : point K 3 :=
  let inverse_w := (- (1)) / vat p 2 in
  v3 ((mget m 0 0 * vat p 0 + mget m 2 0 * vat p 2) * inverse_w)
     ((mget m 1 1 * vat p 1 + mget m 3 1 * vat p 2) * inverse_w)
     ((mget m 2 2 * vat p 2 + mget m 3 2) * inverse_w).

(** 1979-1983 [project_vector]. *)
Definition persp_project_vector (m : mat K 4 4) (v : vec K 3) : vec K 3 :=
  let projected_vector := mmulv m (vextend v 1) in
  let one_div_w := 1 / vat projected_vector 3 in
  vcontract (vmul_s projected_vector one_div_w).

(** 2041-2078 [unproject_point]; 2136-2173 [unproject_vector] has the same body. *)
Definition persp_unproject_point (m : mat K 4 4) (p : point K 3) : point K 3 :=
  let two := 1 + 1 in
  let c0r0 := (persp_right m + persp_left m) / (two * persp_near m) in
  let c1r1 := (persp_top m + persp_bottom m) / (two * persp_near m) in
  let c2r3 := (persp_near m - persp_far m) / (two * persp_far m * persp_near m) in
  let c3r0 := (persp_right m - persp_left m) / (two * persp_near m) in
  let c3r1 := (persp_top m - persp_bottom m) / (two * persp_near m) in
  let c3r2 := - (1) in
  let c3r3 := (persp_far m + persp_near m) / (two * persp_far m * persp_near m) in
  let w := c2r3 * vat p 2 + c3r3 in
  let inverse_w := 1 / w in
  v3 ((c0r0 * vat p 0 + c3r0) * inverse_w)
     ((c1r1 * vat p 1 + c3r1) * inverse_w)
     (c3r2 * inverse_w).
Definition persp_unproject_vector (m : mat K 4 4) (v : vec K 3) : vec K 3 :=
  persp_unproject_point m v.

(** ** Orthographic3 (projection.rs) *)

(** 2978 [new]; 4084 [to_projective_matrix]; 4118 [to_transform]. *)
Definition ortho_new (left right bottom top near far : K) : mat K 4 4 :=
  m4from_orthographic left right bottom top near far.
Definition ortho_to_transform (m : mat K 4 4) : transform K 3 := tf_from_matrix m.

(** 3009-3081 [near], 3109-3182 [far]. *)
Definition ortho_near (m : mat K 4 4) : K :=
  let two := 1 + 1 in
  let ratio := (- mget m 3 2 + 1) / (- mget m 3 2 - 1) in
  ((- two) * (1 / (ratio - 1))) * (1 / mget m 2 2).
Definition ortho_far (m : mat K 4 4) : K :=
  let two := 1 + 1 in
  let ratio := (- mget m 3 2 + 1) / (- mget m 3 2 - 1) in
  ((- two) * (ratio / (ratio - 1))) * (1 / mget m 2 2).

(** 3210-3282 [right], 3310-3381 [left], 3409-3480 [top], 3508-3579 [bottom]. *)
Definition ortho_right (m : mat K 4 4) : K :=
  let two := 1 + 1 in
  let ratio := (- mget m 3 0 + 1) / (mget m 3 0 + 1) in
  (two * (ratio / (ratio + 1))) * (1 / mget m 0 0).
Definition ortho_left (m : mat K 4 4) : K :=
  let two := 1 + 1 in
  let ratio := (- mget m 3 0 + 1) / (mget m 3 0 + 1) in
  (two * (1 / (ratio + 1))) * (1 / mget m 0 0).
Definition ortho_top (m : mat K 4 4) : K :=
  let two := 1 + 1 in
  let ratio := (- mget m 3 1 + 1) / (mget m 3 1 + 1) in
  (two * (ratio / (ratio + 1))) * (1 / mget m 1 1).
Definition ortho_bottom (m : mat K 4 4) : K :=
  let two := 1 + 1 in
  let ratio := (- mget m 3 1 + 1) / (mget m 3 1 + 1) in
  (two * (1 / (ratio + 1))) * (1 / mget m 1 1).

(** 3906-3911 [project_point], 3936-3941 [project_vector]. *)
Definition ortho_project_point (m : mat K 4 4) (p : point K 3) : point K 3 :=
  v3 (mget m 0 0 * vat p 0 + mget m 3 0)
     (mget m 1 1 * vat p 1 + mget m 3 1)
     (mget m 2 2 * vat p 2 + mget m 3 2).
Definition ortho_project_vector (m : mat K 4 4) (v : vec K 3) : vec K 3 :=
  v3 (mget m 0 0 * vat v 0) (mget m 1 1 * vat v 1) (mget m 2 2 * vat v 2).

(** 3970-3999 [unproject_point], 4028-4054 [unproject_vector]. *)
Definition ortho_unproject_point (m : mat K 4 4) (p : point K 3) : point K 3 :=
  let one_half := 1 / (1 + 1) in
  let c0r0 := one_half * (ortho_right m + ortho_left m) in
  let c1r1 := one_half * (ortho_top m + ortho_bottom m) in
  let c2r2 := (- one_half) * (ortho_far m - ortho_near m) in
  let c3r0 := one_half * (ortho_right m - ortho_left m) in
  let c3r1 := one_half * (ortho_top m - ortho_bottom m) in
  let c3r2 := (- one_half) * (ortho_far m + ortho_near m) in
  v3 (c0r0 * vat p 0 + c3r0) (c1r1 * vat p 1 + c3r1) (c2r2 * vat p 2 + c3r2).
Definition ortho_unproject_vector (m : mat K 4 4) (v : vec K 3) : vec K 3 :=
  let one_half := 1 / (1 + 1) in
  let c0r0 := one_half * (ortho_right m + ortho_left m) in
  let c1r1 := one_half * (ortho_top m + ortho_bottom m) in
  let c2r2 := (- one_half) * (ortho_far m - ortho_near m) in
  v3 (c0r0 * vat v 0) (c1r1 * vat v 1) (c2r2 * vat v 2).

(** 1630-1866 and 3638-3881: the axes of view space and clip space and the clip bounds. *)
Definition proj_view_unit_right : vec K 3 := v3 1 0 0.
Definition proj_view_unit_up : vec K 3 := v3 0 1 0.
Definition proj_view_unit_depth : vec K 3 := v3 0 0 1.
Definition proj_view_unit_gaze : vec K 3 := vneg (v3 0 0 1).
Definition proj_clip_unit_right : vec K 3 := v3 1 0 0.
Definition proj_clip_unit_up : vec K 3 := v3 0 1 0.
Definition proj_clip_unit_depth : vec K 3 := v3 0 0 1.
Definition proj_clip_unit_gaze : vec K 3 := v3 0 0 1.
Definition proj_clip_ndc_bounds : (K * K) * (K * K) * (K * K) :=
  ((- (1), 1), (- (1), 1), (- (1), 1)).
End Projection.

Local Open Scope R_scope.

(** matrix.rs 7179-7213 [from_perspective_vfov] over exact reals.  Within [0 < vfov < PI] the
    tangent is defined. *)
Definition m4from_perspective_vfov (vfov aspect_ratio near far : R) : mat R 4 4 :=
  let range := tan (vfov / 2) * near in
  let c0r0 := (2 * near) / (range * aspect_ratio + range * aspect_ratio) in
  let c1r1 := near / range in
  let c2r2 := - (far + near) / (far - near) in
  let c3r2 := - (2 * far * near) / (far - near) in
  m4new c0r0 0 0 0
        0 c1r1 0 0
        0 0 c2r2 (- 1)
        0 0 c3r2 0.

(** projection.rs 591-598 [from_vfov]. *)
Definition persp_from_vfov (vfov aspect_ratio near far : R) : mat R 4 4 :=
  m4from_perspective_vfov vfov aspect_ratio near far.

(** [(numerator / denominator).atan()] as floats compute it when the denominator vanishes: the
    quotient of a non-zero numerator by [+0] is an infinity, whose arctangent is a right angle; [0/0]
    is a NaN (None). *)
Definition ratan_quot (numerator denominator : R) : option R :=
  if Req_EM_T denominator 0 then
    (if Rlt_dec 0 numerator then Some (PI / 2)
     else if Rlt_dec numerator 0 then Some (- (PI / 2)) else None)
  else Some (atan (numerator / denominator)).

(** projection.rs 825-832 [vfov]. *)
Definition persp_vfov (m : mat R 4 4) : option R :=
  let numerator := 2 * mget m 1 1 in
  let denominator := mget m 2 1 * mget m 2 1 + mget m 1 1 * mget m 1 1 - 1 in
  ratan_quot numerator denominator.
