(** Model of the rotation, viewing and projection matrices of
    crates/cglinalg_core/src/matrix.rs (line numbers refer to that file) and of
    crates/cglinalg_core/src/euler.rs.  Ideal reals; angles are radians ([A: Into<Radians<S>>]
    arguments are converted by [deg_to_rad] first when given in degrees, see MAngle.v). *)

From Coq Require Import Reals.
From Verif Require Import Base Scalar MVector MMatrix MPoint MReal MAngle MMisc.
Local Open Scope R_scope.

(** 3133 [Matrix2x2::from_angle]. *)
Definition m2from_angle (angle : R) : mat R 2 2 :=
  let s := sin angle in let c := cos angle in
  m2new c s (- s) c.

(** 3235 [Matrix2x2::rotation_between_axis], 3183 [rotation_between]. *)
Definition m2rotation_between_axis (v1 v2 : vec R 2) : mat R 2 2 :=
  let cos_angle := vdot v1 v2 in
  let sin_angle := sqrt (1 - cos_angle * cos_angle) in
  m2from_angle (ratan2 sin_angle cos_angle).
Definition m2rotation_between (v1 v2 : vec R 2) : mat R 2 2 :=
  match unit_try_from_value (normed_vec 2) v1 0, unit_try_from_value (normed_vec 2) v2 0 with
  | Some u1, Some u2 => m2rotation_between_axis u1 u2
  | _, _ => midentity 2
  end.

(** 4664 [Matrix3x3::from_affine_angle]. *)
Definition m3from_affine_angle (angle : R) : mat R 3 3 :=
  let s := sin angle in let c := cos angle in
  m3new c s 0  (- s) c 0  0 0 1.

(** 4705, 4744, 4783 [Matrix3x3::from_angle_x/y/z]. *)
Definition m3from_angle_x (angle : R) : mat R 3 3 :=
  let s := sin angle in let c := cos angle in
  m3new 1 0 0  0 c s  0 (- s) c.
Definition m3from_angle_y (angle : R) : mat R 3 3 :=
  let s := sin angle in let c := cos angle in
  m3new c 0 (- s)  0 1 0  s 0 c.
Definition m3from_angle_z (angle : R) : mat R 3 3 :=
  let s := sin angle in let c := cos angle in
  m3new c s 0  (- s) c 0  0 0 1.

(** 4824-4844 [Matrix3x3::from_axis_angle]. *)
Definition m3from_axis_angle (axis : vec R 3) (angle : R) : mat R 3 3 :=
  let s := sin angle in let c := cos angle in
  let k := 1 - c in
  let x := vat axis 0 in let y := vat axis 1 in let z := vat axis 2 in
  m3new
    (k * x * x + c) (k * x * y + s * z) (k * x * z - s * y)
    (k * x * y - s * z) (k * y * y + c) (k * y * z + s * x)
    (k * x * z + s * y) (k * y * z - s * x) (k * z * z + c).

(** 4888 [Matrix3x3::look_to_lh], 4940 [look_to_rh].  [look_basis z up] is the common part: the
    three axes built from the z-axis. *)
Definition look_x (z_axis up : vec R 3) : vec R 3 := vnormalize (vcross up z_axis).
Definition look_y (z_axis up : vec R 3) : vec R 3 := vnormalize (vcross z_axis (look_x z_axis up)).
Definition m3look_rows (x y z : vec R 3) : mat R 3 3 :=
  m3new (vat x 0) (vat y 0) (vat z 0)
        (vat x 1) (vat y 1) (vat z 1)
        (vat x 2) (vat y 2) (vat z 2).
Definition m3look_to_lh (direction up : vec R 3) : mat R 3 3 :=
  let z_axis := vnormalize direction in
  m3look_rows (look_x z_axis up) (look_y z_axis up) z_axis.
Definition m3look_to_rh (direction up : vec R 3) : mat R 3 3 :=
  let z_axis := vneg (vnormalize direction) in
  m3look_rows (look_x z_axis up) (look_y z_axis up) z_axis.

(** 4994, 5040 [look_at_lh/rh], 5083-5221 the [_inv] versions. *)
Definition m3look_at_lh (eye target : point R 3) (up : vec R 3) := m3look_to_lh (pdiff target eye) up.
Definition m3look_at_rh (eye target : point R 3) (up : vec R 3) := m3look_to_rh (pdiff target eye) up.
Definition m3look_to_lh_inv (direction up : vec R 3) := mtranspose (m3look_to_lh direction up).
Definition m3look_to_rh_inv (direction up : vec R 3) := mtranspose (m3look_to_rh direction up).
Definition m3look_at_lh_inv (eye target : point R 3) (up : vec R 3) :=
  mtranspose (m3look_at_lh eye target up).
Definition m3look_at_rh_inv (eye target : point R 3) (up : vec R 3) :=
  mtranspose (m3look_at_rh eye target up).

(** 5302-5314 [rotation_between_axis_eps]; 5297 [rotation_between_axis] calls it with the
    machine epsilon. *)
Definition m3rotation_between_axis_eps (v1 v2 : vec R 3) (threshold : R) : option (mat R 3 3) :=
  let cross := vcross v1 v2 in
  let cos_angle := vdot v1 v2 in
  match unit_try_from_value (normed_vec 3) cross threshold with
  | Some axis => Some (m3from_axis_angle axis (acos cos_angle))
  | None => if Rlt_dec cos_angle 0 then None else Some (midentity 3)
  end.

(** 5254-5267 [rotation_between_eps]; 5249 [rotation_between]. *)
Definition m3rotation_between_eps (v1 v2 : vec R 3) (threshold : R) : option (mat R 3 3) :=
  match vtry_normalize v1 0, vtry_normalize v2 0 with
  | Some u1, Some u2 =>
      match unit_try_from_value (normed_vec 3) (vcross u1 u2) threshold with
      | Some axis => Some (m3from_axis_angle axis (acos (vdot u1 u2)))
      | None => if Rlt_dec (vdot u1 u2) 0 then None else Some (midentity 3)
      end
  | _, _ => Some (midentity 3)
  end.

(** 6361, 6404, 6447 [Matrix4x4::from_affine_angle_x/y/z]. *)
Definition m4from_affine_angle_x (angle : R) : mat R 4 4 :=
  let s := sin angle in let c := cos angle in
  m4new 1 0 0 0  0 c s 0  0 (- s) c 0  0 0 0 1.
Definition m4from_affine_angle_y (angle : R) : mat R 4 4 :=
  let s := sin angle in let c := cos angle in
  m4new c 0 (- s) 0  0 1 0 0  s 0 c 0  0 0 0 1.
Definition m4from_affine_angle_z (angle : R) : mat R 4 4 :=
  let s := sin angle in let c := cos angle in
  m4new c s 0 0  (- s) c 0 0  0 0 1 0  0 0 0 1.

(** 6492-6520 [Matrix4x4::from_affine_axis_angle]. *)
Definition m4from_affine_axis_angle (axis : vec R 3) (angle : R) : mat R 4 4 :=
  let s := sin angle in let c := cos angle in
  let k := 1 - c in
  let x := vat axis 0 in let y := vat axis 1 in let z := vat axis 2 in
  m4new
    (k * x * x + c) (k * x * y + s * z) (k * x * z - s * y) 0
    (k * x * y - s * z) (k * y * y + c) (k * y * z + s * x) 0
    (k * x * z + s * y) (k * y * z - s * x) (k * z * z + c) 0
    0 0 0 1.

(** 7262 [Matrix4x4::look_to_lh], 7328 [look_to_rh]. *)
Definition m4look_rows (x y z : vec R 3) (eye : point R 3) : mat R 4 4 :=
  let eye_vec := pdiff eye (porigin 3) in
  let neg_eye_x := - vdot eye_vec x in
  let neg_eye_y := - vdot eye_vec y in
  let neg_eye_z := - vdot eye_vec z in
  m4new (vat x 0) (vat y 0) (vat z 0) 0
        (vat x 1) (vat y 1) (vat z 1) 0
        (vat x 2) (vat y 2) (vat z 2) 0
        neg_eye_x neg_eye_y neg_eye_z 1.
Definition m4look_to_lh (eye : point R 3) (direction up : vec R 3) : mat R 4 4 :=
  let z_axis := vnormalize direction in
  m4look_rows (look_x z_axis up) (look_y z_axis up) z_axis eye.
Definition m4look_to_rh (eye : point R 3) (direction up : vec R 3) : mat R 4 4 :=
  let z_axis := vnormalize (vneg direction) in
  m4look_rows (look_x z_axis up) (look_y z_axis up) z_axis eye.

(** 7393 [look_at_lh], 7442 [look_at_rh]. *)
Definition m4look_at_lh (eye target : point R 3) (up : vec R 3) :=
  m4look_to_lh eye (pdiff target eye) up.
Definition m4look_at_rh (eye target : point R 3) (up : vec R 3) :=
  m4look_to_rh eye (pdiff target eye) up.

(** 7488 [look_to_lh_inv], 7551 [look_to_rh_inv]. *)
Definition m4look_cols (x y z : vec R 3) (eye : point R 3) : mat R 4 4 :=
  let eye_vec := pdiff eye (porigin 3) in
  let eye_x := vdot eye_vec x in
  let eye_y := vdot eye_vec y in
  let eye_z := vdot eye_vec z in
  m4new (vat x 0) (vat x 1) (vat x 2) 0
        (vat y 0) (vat y 1) (vat y 2) 0
        (vat z 0) (vat z 1) (vat z 2) 0
        eye_x eye_y eye_z 1.
Definition m4look_to_lh_inv (eye : point R 3) (direction up : vec R 3) : mat R 4 4 :=
  let z_axis := vnormalize direction in
  m4look_cols (look_x z_axis up) (look_y z_axis up) z_axis eye.
Definition m4look_to_rh_inv (eye : point R 3) (direction up : vec R 3) : mat R 4 4 :=
  let z_axis := vnormalize (vneg direction) in
  m4look_cols (look_x z_axis up) (look_y z_axis up) z_axis eye.

(** 7613 [look_at_lh_inv], 7659 [look_at_rh_inv]. *)
Definition m4look_at_lh_inv (eye target : point R 3) (up : vec R 3) :=
  m4look_to_lh_inv eye (pdiff target eye) up.
Definition m4look_at_rh_inv (eye target : point R 3) (up : vec R 3) :=
  m4look_to_rh_inv eye (pdiff target eye) up.

(** ** Euler angles (euler.rs): x = roll, y = yaw, z = pitch, in radians. *)
Record euler : Type := mkEuler { eu_x : R; eu_y : R; eu_z : R }.

(** euler.rs 215 [zero]. *)
Definition euler_zero : euler := mkEuler 0 0 0.

(** euler.rs 331-352 [to_matrix]. *)
Definition euler_to_matrix (e : euler) : mat R 3 3 :=
  let sr := sin (eu_x e) in let cr := cos (eu_x e) in
  let sy := sin (eu_y e) in let cy := cos (eu_y e) in
  let sp := sin (eu_z e) in let cp := cos (eu_z e) in
  m3new
    (cy * cp) (cr * sp + cp * sy * sr) (sp * sr - cp * cr * sy)
    (- cy * sp) (cp * cr - sy * sp * sr) (cp * sr + cr * sy * sp)
    sy (- cy * sr) (cy * cr).

(** euler.rs 458-490 [to_affine_matrix]. *)
Definition euler_to_affine_matrix (e : euler) : mat R 4 4 :=
  let sr := sin (eu_x e) in let cr := cos (eu_x e) in
  let sy := sin (eu_y e) in let cy := cos (eu_y e) in
  let sp := sin (eu_z e) in let cp := cos (eu_z e) in
  m4new
    (cy * cp) (cr * sp + cp * sy * sr) (sp * sr - cp * cr * sy) 0
    (- cy * sp) (cp * cr - sy * sp * sr) (cp * sr + cr * sy * sp) 0
    sy (- cy * sr) (cy * cr) 0
    0 0 0 1.

(** euler.rs 494-509 [from_matrix]. *)
Definition euler_from_matrix (m : mat R 3 3) : euler :=
  let yaw := asin (mget m 2 0) in
  let cos_yaw := cos yaw in
  let '(pitch, roll) :=
    if Req_EM_T (Rabs cos_yaw) 0 then (0, ratan2 (mget m 1 2) (mget m 1 1))
    else (ratan2 (- mget m 1 0) (mget m 0 0), ratan2 (- mget m 2 1) (mget m 2 2)) in
  mkEuler roll yaw pitch.

(** matrix_euler.rs 62-72, 133-143 [from_euler_angles] for angles in radians. *)
Definition m3from_euler_angles (e : euler) : mat R 3 3 := euler_to_matrix e.
Definition m4from_euler_angles (e : euler) : mat R 4 4 := euler_to_affine_matrix e.
