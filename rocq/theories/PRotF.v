(** Property theorems about the rotation constructors in floats (C124). *)

From Coq Require Import Arith ZArith Reals.
From Flocq Require Import Core.Core IEEE754.BinarySingleNaN.
From Verif Require Import Base Scalar Spec SpecF SpecRot SpecDrift SpecRotF MVector MMatrix MQuat MFloat MRotF LFloatNormP LRotFP.
Local Open Scope R_scope.

(** ** C124 *)

(** [Matrix3x3::from_axis_angle] in floats.  The components of the axis are within [d] of a real unit vector [a], the sine and
    cosine supplied by the scalar type are within [d] of those of the real angle [t].  Then every entry is finite and within
    8 d + 15 u of the entry of the rotation by [t] about [a] (Rodrigues' formula); u is the unit roundoff. *)
Theorem C124_axis_angle_matrix :
  forall (prec emax : Z) (Hp : Prec_gt_0 prec) (He : Prec_lt_emax prec emax)
    (sine cosine : binary_float prec emax -> binary_float prec emax)
    (axis : vec (binary_float prec emax) 3) (angle : binary_float prec emax) (a : vec R 3) (t d : R),
    (24 <= prec)%Z -> (34 <= emax)%Z -> 0 <= d <= / 8 ->
    sum 3 (fun i => vat a i * vat a i) = 1 ->
    (forall i, (i < 3)%nat -> fnear (vat axis i) (vat a i) d) ->
    fnear (sine angle) (sin t) d -> fnear (cosine angle) (cos t) d ->
    forall j i, (j < 3)%nat -> (i < 3)%nat ->
      fnear (mget (gm3from_axis_angle sine cosine axis angle) j i) (vat (rodrigues a t (axis3 j)) i)
        (8 * d + 15 * bpow radix2 (- prec)).
Proof. exact c124_axis_angle_matrix. Qed.
Print Assumptions C124_axis_angle_matrix.

(** [Quaternion::from_axis_angle] in floats: the components are within 3 d + 2 u of cos (t/2) and sin (t/2) a. *)
Theorem C124_axis_angle_quaternion :
  forall (prec emax : Z) (Hp : Prec_gt_0 prec) (He : Prec_lt_emax prec emax)
    (sine cosine : binary_float prec emax -> binary_float prec emax)
    (axis : vec (binary_float prec emax) 3) (angle : binary_float prec emax) (a : vec R 3) (t d : R),
    (24 <= prec)%Z -> (34 <= emax)%Z -> 0 <= d <= / 8 ->
    sum 3 (fun i => vat a i * vat a i) = 1 ->
    (forall i, (i < 3)%nat -> fnear (vat axis i) (vat a i) d) ->
    let half : binary_float prec emax := nmul angle (ndiv n1 (nadd n1 n1)) in
    fnear (sine half) (sin (t / 2)) d -> fnear (cosine half) (cos (t / 2)) d ->
    let q := gqfrom_axis_angle sine cosine axis angle : vec _ 4 in
    fnear (vat q 0) (cos (t / 2)) (3 * d + 2 * bpow radix2 (- prec)) /\
    (forall i, (i < 3)%nat -> fnear (vat q (S i)) (sin (t / 2) * vat a i) (3 * d + 2 * bpow radix2 (- prec))).
Proof. exact c124_axis_angle_quaternion. Qed.
Print Assumptions C124_axis_angle_quaternion.

(** [Quaternion::to_matrix] in floats, for any quaternion with finite components and length between 2^-k and 2^k: every entry
    is within 80 u of the entry of the exact rotation v |-> q v q^-1.  The quaternion need not be a unit. *)
Theorem C124_quaternion_matrix :
  forall (prec emax : Z) (Hp : Prec_gt_0 prec) (He : Prec_lt_emax prec emax) (k : Z) (q : quat (binary_float prec emax)),
    (24 <= prec)%Z -> (0 <= k)%Z -> (2 * k + 31 <= emax)%Z ->
    (forall i, (i < 4)%nat -> is_finite (vat (q : vec _ 4) i) = true) ->
    let val : rquat := (B2R (vat (q : vec _ 4) 0), B2R (vat (q : vec _ 4) 1), B2R (vat (q : vec _ 4) 2), B2R (vat (q : vec _ 4) 3)) in
    bpow radix2 (- k) <= qlength val <= bpow radix2 k ->
    forall j i, (j < 3)%nat -> (i < 3)%nat ->
      fnear (mget (qto_matrix q) j i) (vat (qsandwich val (axis3 j)) i) (80 * bpow radix2 (- prec)).
Proof. exact c124_quaternion_matrix. Qed.
Print Assumptions C124_quaternion_matrix.

(** The two ways of building the matrix agree: going through the quaternion lands within 36 d + 104 u of the same rotation. *)
Theorem C124_axis_angle_quaternion_matrix :
  forall (prec emax : Z) (Hp : Prec_gt_0 prec) (He : Prec_lt_emax prec emax)
    (sine cosine : binary_float prec emax -> binary_float prec emax)
    (axis : vec (binary_float prec emax) 3) (angle : binary_float prec emax) (a : vec R 3) (t d : R),
    (24 <= prec)%Z -> (34 <= emax)%Z -> 0 <= d <= / 64 ->
    sum 3 (fun i => vat a i * vat a i) = 1 ->
    (forall i, (i < 3)%nat -> fnear (vat axis i) (vat a i) d) ->
    let half : binary_float prec emax := nmul angle (ndiv n1 (nadd n1 n1)) in
    fnear (sine half) (sin (t / 2)) d -> fnear (cosine half) (cos (t / 2)) d ->
    forall j i, (j < 3)%nat -> (i < 3)%nat ->
      fnear (mget (qto_matrix (gqfrom_axis_angle sine cosine axis angle)) j i) (vat (rodrigues a t (axis3 j)) i)
        (36 * d + 104 * bpow radix2 (- prec)).
Proof. exact c124_axis_angle_quaternion_matrix. Qed.
Print Assumptions C124_axis_angle_quaternion_matrix.

(** [Matrix2x2::from_angle] and [Matrix3x3::from_angle_x/y/z] add no error of their own. *)
Theorem C124_coordinate_angles :
  forall (prec emax : Z) (Hp : Prec_gt_0 prec) (He : Prec_lt_emax prec emax)
    (sine cosine : binary_float prec emax -> binary_float prec emax) (angle : binary_float prec emax) (t d : R),
    0 <= d -> fnear (sine angle) (sin t) d -> fnear (cosine angle) (cos t) d ->
    (forall j i, (j < 2)%nat -> (i < 2)%nat -> fnear (mget (gm2from_angle sine cosine angle) j i) (vat (turn2 t (axis2 j)) i) d) /\
    (forall j i, (j < 3)%nat -> (i < 3)%nat ->
      fnear (mget (gm3from_angle_x sine cosine angle) j i) (vat (rodrigues (axis3 0) t (axis3 j)) i) d /\
      fnear (mget (gm3from_angle_y sine cosine angle) j i) (vat (rodrigues (axis3 1) t (axis3 j)) i) d /\
      fnear (mget (gm3from_angle_z sine cosine angle) j i) (vat (rodrigues (axis3 2) t (axis3 j)) i) d).
Proof. exact c124_coordinate_angles. Qed.
Print Assumptions C124_coordinate_angles.

(** [EulerAngles::to_matrix] in floats: within 6 d + 8 u of turning about z by [c], then about y by [b], then about x by [a]. *)
Theorem C124_euler :
  forall (prec emax : Z) (Hp : Prec_gt_0 prec) (He : Prec_lt_emax prec emax)
    (sine cosine : binary_float prec emax -> binary_float prec emax) (ax ay az : binary_float prec emax) (a b c d : R),
    (24 <= prec)%Z -> (34 <= emax)%Z -> 0 <= d <= / 8 ->
    fnear (sine ax) (sin a) d -> fnear (cosine ax) (cos a) d ->
    fnear (sine ay) (sin b) d -> fnear (cosine ay) (cos b) d ->
    fnear (sine az) (sin c) d -> fnear (cosine az) (cos c) d ->
    forall j i, (j < 3)%nat -> (i < 3)%nat ->
      fnear (mget (geuler_to_matrix sine cosine ax ay az) j i) (vat (euler_turn a b c (axis3 j)) i) (6 * d + 8 * bpow radix2 (- prec)).
Proof. exact c124_euler. Qed.
Print Assumptions C124_euler.

(** The axis (3/5, 4/5, 0) rounded to [f64], with sine 1 and cosine 0, meets the hypotheses of the axis-angle theorems (a turn by
    PI/2 for the matrix, by PI for the quaternion) and of the Euler theorem, with [d] the unit roundoff. *)
Example C124_example :
  let x : f64 := ndiv (f64_of_Z 3) (f64_of_Z 5) in let y : f64 := ndiv (f64_of_Z 4) (f64_of_Z 5) in
  let axis : vec f64 3 := v3 x y (n0 : f64) in let a : vec R 3 := v3 (3 / 5)%R (4 / 5)%R 0%R in
  let u := bpow radix2 (- 53) in
  sum 3 (fun i => (vat a i * vat a i)%R) = 1%R /\
  (forall i, (i < 3)%nat -> fnear (vat axis i) (vat a i) u) /\
  fnear (n1 : f64) (sin (PI / 2)) u /\ fnear (n0 : f64) (cos (PI / 2)) u.
Proof. exact c124_example. Qed.

(** The quaternion 1 + 2i + 2j + 4k of length 5 meets the hypotheses of [C124_quaternion_matrix] with [k = 3]. *)
Example C124_quaternion_example :
  let q : quat f64 := qnew (f64_of_Z 1) (f64_of_Z 2) (f64_of_Z 2) (f64_of_Z 4) in
  (forall i, (i < 4)%nat -> is_finite (vat (q : vec _ 4) i) = true) /\
  qlength (B2R (vat (q : vec _ 4) 0), B2R (vat (q : vec _ 4) 1), B2R (vat (q : vec _ 4) 2), B2R (vat (q : vec _ 4) 3)) = 5%R.
Proof. exact c124_quaternion_example. Qed.
