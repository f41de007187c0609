(** What a projection is supposed to do, independent of the projection model. *)

From Coq Require Import Reals.
From Verif Require Import Base Scalar Spec MVector MMatrix.

(** The homogeneous matrix [m] sends the point [p] to the point [q]: it sends [(p, 1)] to a non-zero
    multiple of [(q, 1)]. *)
Definition projects_to {K : Type} {NK : Num K} {n : nat} (m : mat K (S n) (S n)) (p q : vec K n) : Prop :=
  exists w : K, w <> n0 /\ mmulv m (vextend p n1) = vmul_s (vextend q n1) w.

Local Open Scope R_scope.

(** The view frustum of a camera at the origin looking along the negative z-axis: between the planes
    at distances [near] and [far], and inside the pyramid through the rectangle
    [-left..right] x [-bottom..top] of the near plane. *)
Definition in_frustum (left right bottom top near far : R) (p : vec R 3) : Prop :=
  let d := - vat p 2 in
  near <= d <= far /\
  - left * d <= vat p 0 * near <= right * d /\
  - bottom * d <= vat p 1 * near <= top * d.

(** The view box of an orthographic camera. *)
Definition in_box (left right bottom top near far : R) (p : vec R 3) : Prop :=
  - left <= vat p 0 <= right /\ - bottom <= vat p 1 <= top /\ near <= - vat p 2 <= far.

(** The canonical cube. *)
Definition in_cube (q : vec R 3) : Prop :=
  -1 <= vat q 0 <= 1 /\ -1 <= vat q 1 <= 1 /\ -1 <= vat q 2 <= 1.

(** The end of the interval [-lo..hi] selected by a boolean, and the corresponding end of [-1..1]. *)
Definition side (b : bool) (lo hi : R) : R := if b then hi else - lo.
Definition unit_side (b : bool) : R := if b then 1 else -1.
Definition plane (b : bool) (near far : R) : R := if b then far else near.

(** A corner of the frustum and of the box. *)
Definition frustum_corner (left right bottom top near far : R) (bx by_ bz : bool) : vec R 3 :=
  let d := plane bz near far in
  v3 (side bx left right * (d / near)) (side by_ bottom top * (d / near)) (- d).
Definition box_corner (left right bottom top near far : R) (bx by_ bz : bool) : vec R 3 :=
  v3 (side bx left right) (side by_ bottom top) (- plane bz near far).
Definition cube_corner (bx by_ bz : bool) : vec R 3 := v3 (unit_side bx) (unit_side by_) (unit_side bz).

(** Coordinates in the cube of a point at distance [d] from the camera plane and offset [x] from the axis: perspective
    and orthographic. *)
Definition persp_depth (near far d : R) : R := (far + near) / (far - near) - 2 * far * near / ((far - near) * d).
Definition persp_side (near lo hi d x : R) : R := (2 * near * x / d - (hi - lo)) / (hi + lo).
Definition ortho_depth (near far d : R) : R := (2 * d - (far + near)) / (far - near).
Definition ortho_side (lo hi x : R) : R := (2 * x - (hi - lo)) / (hi + lo).
