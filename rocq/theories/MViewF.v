(** Inverse viewing matrices, viewing isometries and viewing similarities over IEEE floats: the functions of MRot.v and
    MTransform.v on top of the float matrices of MLookF.v. *)

From Coq Require Import ZArith.
From Flocq Require Import Core.Core IEEE754.BinarySingleNaN.
From Verif Require Import Base Scalar MVector MMatrix MPoint MFloat MFloatVec MTransform MLookF.

Section ViewF.
  Context {prec emax : Z} {Hp : Prec_gt_0 prec} {He : Prec_lt_emax prec emax}.
  Notation fl := (binary_float prec emax).

  (** matrix.rs 5083, 5126 [Matrix3x3::look_to_lh_inv], [look_to_rh_inv], 5173, 5220 [look_at_lh_inv], [look_at_rh_inv]. *)
  Definition fm3look_to_lh_inv (direction up : vec fl 3) : mat fl 3 3 := mtranspose (fm3look_to_lh direction up).
  Definition fm3look_to_rh_inv (direction up : vec fl 3) : mat fl 3 3 := mtranspose (fm3look_to_rh direction up).
  Definition fm3look_at_lh_inv (eye target : point fl 3) (up : vec fl 3) : mat fl 3 3 := mtranspose (fm3look_at_lh eye target up).
  Definition fm3look_at_rh_inv (eye target : point fl 3) (up : vec fl 3) : mat fl 3 3 := mtranspose (fm3look_at_rh eye target up).

  (** matrix.rs 7488 [Matrix4x4::look_to_lh_inv], 7551 [look_to_rh_inv]. *)
  Definition fm4look_cols (x y z : vec fl 3) (eye : point fl 3) : mat fl 4 4 :=
    let eye_vec := pdiff eye (porigin 3) in
    let eye_x := vdot eye_vec x in
    let eye_y := vdot eye_vec y in
    let eye_z := vdot eye_vec z in
    m4new (vat x 0) (vat x 1) (vat x 2) n0
          (vat y 0) (vat y 1) (vat y 2) n0
          (vat z 0) (vat z 1) (vat z 2) n0
          eye_x eye_y eye_z n1.
  Definition fm4look_to_lh_inv (eye : point fl 3) (direction up : vec fl 3) : mat fl 4 4 :=
    let z_axis := fvnormalize direction in
    fm4look_cols (flook_x z_axis up) (flook_y z_axis up) z_axis eye.
  Definition fm4look_to_rh_inv (eye : point fl 3) (direction up : vec fl 3) : mat fl 4 4 :=
    let z_axis := fvnormalize (vneg direction) in
    fm4look_cols (flook_x z_axis up) (flook_y z_axis up) z_axis eye.

  (** matrix.rs 7613 [look_at_lh_inv], 7659 [look_at_rh_inv]. *)
  Definition fm4look_at_lh_inv (eye target : point fl 3) (up : vec fl 3) : mat fl 4 4 := fm4look_to_lh_inv eye (pdiff target eye) up.
  Definition fm4look_at_rh_inv (eye target : point fl 3) (up : vec fl 3) : mat fl 4 4 := fm4look_to_rh_inv eye (pdiff target eye) up.

  (** isometry.rs 1440-1774: the eight viewing isometries have this body with their own rotation, which is the 3x3 viewing
      matrix (rotation.rs 1264-1538): [vector = rotation * (-eye) - Point3::origin()]. *)
  Definition fiso3view (eye : point fl 3) (rotation : rotation fl 3) : isometry fl 3 :=
    let vector := pdiff (rot_apply_point rotation (pneg eye)) (porigin 3) in
    iso_from_parts (tr_from_vector vector) rotation.
  Definition fiso3look_to_lh (eye : point fl 3) (direction up : vec fl 3) : isometry fl 3 := fiso3view eye (fm3look_to_lh direction up).
  Definition fiso3look_to_rh (eye : point fl 3) (direction up : vec fl 3) : isometry fl 3 := fiso3view eye (fm3look_to_rh direction up).
  Definition fiso3look_at_lh (eye target : point fl 3) (up : vec fl 3) : isometry fl 3 := fiso3view eye (fm3look_at_lh eye target up).
  Definition fiso3look_at_rh (eye target : point fl 3) (up : vec fl 3) : isometry fl 3 := fiso3view eye (fm3look_at_rh eye target up).
  Definition fiso3look_to_lh_inv (eye : point fl 3) (direction up : vec fl 3) : isometry fl 3 := fiso3view eye (fm3look_to_lh_inv direction up).
  Definition fiso3look_to_rh_inv (eye : point fl 3) (direction up : vec fl 3) : isometry fl 3 := fiso3view eye (fm3look_to_rh_inv direction up).
  Definition fiso3look_at_lh_inv (eye target : point fl 3) (up : vec fl 3) : isometry fl 3 := fiso3view eye (fm3look_at_lh_inv eye target up).
  Definition fiso3look_at_rh_inv (eye target : point fl 3) (up : vec fl 3) : isometry fl 3 := fiso3view eye (fm3look_at_rh_inv eye target up).

  (** similarity.rs 1488-1639: the isometries wrapped by [from_isometry]. *)
  Definition fsim3look_to_lh (eye : point fl 3) (direction up : vec fl 3) : similarity fl 3 := sim_from_isometry (fiso3look_to_lh eye direction up).
  Definition fsim3look_to_rh (eye : point fl 3) (direction up : vec fl 3) : similarity fl 3 := sim_from_isometry (fiso3look_to_rh eye direction up).
  Definition fsim3look_at_lh (eye target : point fl 3) (up : vec fl 3) : similarity fl 3 := sim_from_isometry (fiso3look_at_lh eye target up).
  Definition fsim3look_at_rh (eye target : point fl 3) (up : vec fl 3) : similarity fl 3 := sim_from_isometry (fiso3look_at_rh eye target up).
End ViewF.
