(** The quaternion of a rotation matrix over IEEE floats: [qfrom_matrix] of MQuat.v with float comparisons, and the constructors
    built on it. *)

From Coq Require Import ZArith.
From Flocq Require Import Core.Core IEEE754.BinarySingleNaN.
From Verif Require Import Base Scalar MVector MMatrix MPoint MQuat MFloat MFloatVec MLookF.
Local Open Scope num_scope.

Section QMatF.
  Context {prec emax : Z} {Hp : Prec_gt_0 prec} {He : Prec_lt_emax prec emax}.
  Notation fl := (binary_float prec emax).

  (** quaternion.rs 1136-1175 [from_matrix]; a > b is [Bltb b a], a >= b is [Bleb b a]. *)
  Definition fqfrom_matrix (m : mat fl 3 3) : quat fl :=
    let half := 1 / (1 + 1) in
    let trace := mtrace m in
    if Bleb 0 trace then
      let s := fsqrt (1 + trace) in
      let qs := half * s in
      let s := half / s in
      let qx := (mget m 1 2 - mget m 2 1) * s in
      let qy := (mget m 2 0 - mget m 0 2) * s in
      let qz := (mget m 0 1 - mget m 1 0) * s in
      qnew qs qx qy qz
    else if andb (Bltb (mget m 1 1) (mget m 0 0)) (Bltb (mget m 2 2) (mget m 0 0)) then
      let s := fsqrt ((mget m 0 0 - mget m 1 1 - mget m 2 2) + 1) in
      let qx := half * s in
      let s := half / s in
      let qy := (mget m 1 0 + mget m 0 1) * s in
      let qz := (mget m 0 2 + mget m 2 0) * s in
      let qs := (mget m 1 2 - mget m 2 1) * s in
      qnew qs qx qy qz
    else if Bltb (mget m 2 2) (mget m 1 1) then
      let s := fsqrt ((mget m 1 1 - mget m 0 0 - mget m 2 2) + 1) in
      let qy := half * s in
      let s := half / s in
      let qz := (mget m 2 1 + mget m 1 2) * s in
      let qx := (mget m 1 0 + mget m 0 1) * s in
      let qs := (mget m 2 0 - mget m 0 2) * s in
      qnew qs qx qy qz
    else
      let s := fsqrt ((mget m 2 2 - mget m 0 0 - mget m 1 1) + 1) in
      let qz := half * s in
      let s := half / s in
      let qx := (mget m 0 2 + mget m 2 0) * s in
      let qy := (mget m 2 1 + mget m 1 2) * s in
      let qs := (mget m 0 1 - mget m 1 0) * s in
      qnew qs qx qy qz.

  (** 2436 [look_to_lh], 2485 [look_to_rh], 2530 [look_at_lh], 2575 [look_at_rh]: [From] of the viewing matrix. *)
  Definition fqlook_to_lh (direction up : vec fl 3) : quat fl := fqfrom_matrix (fm3look_to_lh direction up).
  Definition fqlook_to_rh (direction up : vec fl 3) : quat fl := fqfrom_matrix (fm3look_to_rh direction up).
  Definition fqlook_at_lh (eye target : point fl 3) (up : vec fl 3) : quat fl := fqfrom_matrix (fm3look_at_lh eye target up).
  Definition fqlook_at_rh (eye target : point fl 3) (up : vec fl 3) : quat fl := fqfrom_matrix (fm3look_at_rh eye target up).
End QMatF.
