(** The field of view of a perspective projection in floats, the tangent and the arctangent being parameters.  The rest of the
    code of projection.rs is generic in the scalar and modelled in MProjection.v. *)

From Coq Require Import List Arith ZArith.
From Flocq Require Import IEEE754.BinarySingleNaN.
From Verif Require Import Base Scalar MVector MMatrix MFloat MProjection.
Local Open Scope num_scope.

Section Fov.
Context {prec emax : Z} {Hprec : FLX.Prec_gt_0 prec} {Hemax : Prec_lt_emax prec emax}.
Notation fl := (binary_float prec emax).

(** matrix.rs 7179-7213 [from_perspective_vfov]; [tangent] is [Angle::tan] of cglinalg_trigonometry lib.rs 153 on radians,
    which is the [tan] of the scalar (cglinalg_numeric lib.rs 1728). *)
Definition ffrom_perspective_vfov (tangent : fl -> fl) (vfov aspect_ratio near far : fl) : mat fl 4 4 :=
  let two := 1 + 1 in
  let range := tangent (ndiv vfov two) * near in
  let c0r0 := ndiv (two * near) (range * aspect_ratio + range * aspect_ratio) in
  let c1r1 := ndiv near range in
  let c2r2 := ndiv (- (far + near)) (far - near) in
  let c3r2 := ndiv (- (two * far * near)) (far - near) in
  m4new c0r0 0 0 0
        0 c1r1 0 0
        0 0 c2r2 (- (1))
        0 0 c3r2 0.

(** projection.rs 591-598 [from_vfov]. *)
Definition fpersp_from_vfov (tangent : fl -> fl) (vfov aspect_ratio near far : fl) : mat fl 4 4 :=
  ffrom_perspective_vfov tangent vfov aspect_ratio near far.

(** projection.rs 825-832 [vfov]; [arctangent] is the [atan] of the scalar. *)
Definition fpersp_vfov (arctangent : fl -> fl) (m : mat fl 4 4) : fl :=
  let two := 1 + 1 in
  let numerator := two * mget m 1 1 in
  let denominator := mget m 2 1 * mget m 2 1 + mget m 1 1 * mget m 1 1 - 1 in
  arctangent (ndiv numerator denominator).
End Fov.
