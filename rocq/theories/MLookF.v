(** Viewing matrices over IEEE floats: the functions of MRot.v that normalise, with the float [normalize] of MFloatVec.v. *)

From Coq Require Import ZArith.
From Flocq Require Import Core.Core IEEE754.BinarySingleNaN.
From Verif Require Import Base Scalar MVector MMatrix MPoint MFloat MFloatVec.

Section LookF.
  Context {prec emax : Z} {Hp : Prec_gt_0 prec} {He : Prec_lt_emax prec emax}.
  Notation fl := (binary_float prec emax).

  (** matrix.rs 4890, 4891 (and 4942, 4943, 7266, 7267, 7332, 7333): the x-axis and the y-axis from the z-axis and [up]. *)
  Definition flook_x (z_axis up : vec fl 3) : vec fl 3 := fvnormalize (vcross up z_axis).
  Definition flook_y (z_axis up : vec fl 3) : vec fl 3 := fvnormalize (vcross z_axis (flook_x z_axis up)).

  (** matrix.rs 4888 [Matrix3x3::look_to_lh], 4940 [look_to_rh]. *)
  Definition fm3look_rows (x y z : vec fl 3) : mat fl 3 3 :=
    m3new (vat x 0) (vat y 0) (vat z 0)
          (vat x 1) (vat y 1) (vat z 1)
          (vat x 2) (vat y 2) (vat z 2).
  Definition fm3look_to_lh (direction up : vec fl 3) : mat fl 3 3 :=
    let z_axis := fvnormalize direction in
    fm3look_rows (flook_x z_axis up) (flook_y z_axis up) z_axis.
  Definition fm3look_to_rh (direction up : vec fl 3) : mat fl 3 3 :=
    let z_axis := vneg (fvnormalize direction) in
    fm3look_rows (flook_x z_axis up) (flook_y z_axis up) z_axis.

  (** matrix.rs 4994, 5040 [look_at_lh], [look_at_rh]. *)
  Definition fm3look_at_lh (eye target : point fl 3) (up : vec fl 3) : mat fl 3 3 := fm3look_to_lh (pdiff target eye) up.
  Definition fm3look_at_rh (eye target : point fl 3) (up : vec fl 3) : mat fl 3 3 := fm3look_to_rh (pdiff target eye) up.

  (** matrix.rs 7262 [Matrix4x4::look_to_lh], 7328 [look_to_rh]. *)
  Definition fm4look_rows (x y z : vec fl 3) (eye : point fl 3) : mat fl 4 4 :=
    let eye_vec := pdiff eye (porigin 3) in
    let neg_eye_x := nneg (vdot eye_vec x) in
    let neg_eye_y := nneg (vdot eye_vec y) in
    let neg_eye_z := nneg (vdot eye_vec z) in
    m4new (vat x 0) (vat y 0) (vat z 0) n0
          (vat x 1) (vat y 1) (vat z 1) n0
          (vat x 2) (vat y 2) (vat z 2) n0
          neg_eye_x neg_eye_y neg_eye_z n1.
  Definition fm4look_to_lh (eye : point fl 3) (direction up : vec fl 3) : mat fl 4 4 :=
    let z_axis := fvnormalize direction in
    fm4look_rows (flook_x z_axis up) (flook_y z_axis up) z_axis eye.
  Definition fm4look_to_rh (eye : point fl 3) (direction up : vec fl 3) : mat fl 4 4 :=
    let z_axis := fvnormalize (vneg direction) in
    fm4look_rows (flook_x z_axis up) (flook_y z_axis up) z_axis eye.

  (** matrix.rs 7393 [look_at_lh], 7442 [look_at_rh]. *)
  Definition fm4look_at_lh (eye target : point fl 3) (up : vec fl 3) : mat fl 4 4 := fm4look_to_lh eye (pdiff target eye) up.
  Definition fm4look_at_rh (eye target : point fl 3) (up : vec fl 3) : mat fl 4 4 := fm4look_to_rh eye (pdiff target eye) up.
End LookF.
