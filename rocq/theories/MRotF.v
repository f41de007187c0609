(** Model of the rotation constructors of crates/cglinalg_core/src/{matrix,quaternion,euler}.rs over any scalar type; the
    sine and cosine of the scalar type ([Radians::sin_cos]) are parameters.  Used for floats; over the reals with [sin]
    and [cos] these are the functions of MRot.v and MQuat.v (LRotFP.v).  Angles are radians. *)

From Verif Require Import Base Scalar MVector MMatrix MQuat.
Local Open Scope num_scope.

Section RotF.
Context {K : Type} `{N : Num K} `{ND : NumDiv K}.
Variables sine cosine : K -> K.

(** matrix.rs 3133-3143 [Matrix2x2::from_angle]. *)
Definition gm2from_angle (angle : K) : mat K 2 2 :=
  let s := sine angle in let c := cosine angle in
  m2new c s (- s) c.

(** matrix.rs 4705-4716, 4744-4755, 4783-4794 [Matrix3x3::from_angle_x/y/z]. *)
Definition gm3from_angle_x (angle : K) : mat K 3 3 :=
  let s := sine angle in let c := cosine angle in
  m3new 1 0 0  0 c s  0 (- s) c.
Definition gm3from_angle_y (angle : K) : mat K 3 3 :=
  let s := sine angle in let c := cosine angle in
  m3new c 0 (- s)  0 1 0  s 0 c.
Definition gm3from_angle_z (angle : K) : mat K 3 3 :=
  let s := sine angle in let c := cosine angle in
  m3new c s 0  (- s) c 0  0 0 1.

(** matrix.rs 4824-4845 [Matrix3x3::from_axis_angle]. *)
Definition gm3from_axis_angle (axis : vec K 3) (angle : K) : mat K 3 3 :=
  let s := sine angle in let c := cosine angle in
  let k := 1 - c in
  let x := vat axis 0 in let y := vat axis 1 in let z := vat axis 2 in
  m3new
    (k * x * x + c) (k * x * y + s * z) (k * x * z - s * y)
    (k * x * y - s * z) (k * y * y + c) (k * y * z + s * x)
    (k * x * z + s * y) (k * y * z - s * x) (k * z * z + c).

(** quaternion.rs 1096-1106 [from_axis_angle]. *)
Definition gqfrom_axis_angle (axis : vec K 3) (angle : K) : quat K :=
  let one_half := 1 / (1 + 1) in
  let s := sine (angle * one_half) in let c := cosine (angle * one_half) in
  qfrom_parts c (vmul_s axis s).

(** euler.rs 331-352 [to_matrix]; the angles are the roll (x), the yaw (y) and the pitch (z). *)
Definition geuler_to_matrix (ax ay az : K) : mat K 3 3 :=
  let sr := sine ax in let cr := cosine ax in
  let sy := sine ay in let cy := cosine ay in
  let sp := sine az in let cp := cosine az in
  m3new
    (cy * cp) (cr * sp + cp * sy * sr) (sp * sr - cp * cr * sy)
    (- cy * sp) (cp * cr - sy * sp * sr) (cp * sr + cr * sy * sp)
    sy (- cy * sr) (cy * cr).
End RotF.
