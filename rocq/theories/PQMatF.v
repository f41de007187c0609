(** Property theorems about quaternions of rotation matrices in floats (C131). *)

From Coq Require Import Arith ZArith Reals.
From Flocq Require Import Core.Core IEEE754.BinarySingleNaN.
From Verif Require Import Base Scalar Spec SpecF SpecRot SpecDrift SpecRigid SpecRotF SpecLook SpecQMat MVector MMatrix MPoint MQuat MFloat MLookF MQMatF
  LFloatNormP LLookGP LQMatFP.
Local Open Scope R_scope.

(** ** C131 *)

(** [Quaternion::from_matrix] in a format of at least the precision of [f32]: if every entry of the matrix is within [e] of the matrix
    of a real unit quaternion, then the result is within 15 (e + u) of that quaternion or of its negative, component by component,
    whichever of the four branches is taken. *)
Theorem C131_from_matrix :
  forall (prec emax : Z) (Hp : Prec_gt_0 prec) (He : Prec_lt_emax prec emax) (m : mat (binary_float prec emax) 3 3) (w x y z e : R),
    let u := bpow radix2 (- prec) in
    (24 <= prec)%Z -> 0 <= e <= / 1024 -> qlength (w, x, y, z) = 1 ->
    (forall j i, (j < 3)%nat -> (i < 3)%nat -> fnear (mget m j i) (vat (qsandwich (w, x, y, z) (axis3 j)) i) e) ->
    exists g, (g = 1 \/ g = -1) /\
      forall k, (k < 4)%nat -> fnear (vat (fqfrom_matrix m : vec _ 4) k) (g * vat (v4 w x y z) k) (15 * (e + u)).
Proof. exact c131_from_matrix. Qed.
Print Assumptions C131_from_matrix.

(** The same for a matrix close to any rotation matrix [M]: the result is close to a unit quaternion that turns like [M], its length is
    close to one, and [to_matrix] leads back to [M] up to 180 e + 260 u. *)
Theorem C131_rotation_matrix :
  forall (prec emax : Z) (Hp : Prec_gt_0 prec) (He : Prec_lt_emax prec emax) (m : mat (binary_float prec emax) 3 3) (M : mat R 3 3) (e : R),
    let u := bpow radix2 (- prec) in
    let q := fqfrom_matrix m : vec _ 4 in
    (24 <= prec)%Z -> (33 <= emax)%Z -> 0 <= e <= / 1024 -> is_rotation M ->
    (forall j i, (j < 3)%nat -> (i < 3)%nat -> fnear (mget m j i) (mget M j i) e) ->
    turns_near q (fun i j => mget M j i) (15 * (e + u)) /\
    Rabs (qlength (B2R (vat q 0), B2R (vat q 1), B2R (vat q 2), B2R (vat q 3)) - 1) <= 64 * (e + u) /\
    (forall j i, (j < 3)%nat -> (i < 3)%nat -> fnear (mget (qto_matrix (fqfrom_matrix m)) j i) (mget M j i) (180 * e + 260 * u)).
Proof. exact c131_rotation_matrix. Qed.
Print Assumptions C131_rotation_matrix.

(** From a quaternion, unit or not, to its matrix and back: the normalised quaternion or its negative up to 1215 units of roundoff. *)
Theorem C131_round_trip :
  forall (prec emax : Z) (Hp : Prec_gt_0 prec) (He : Prec_lt_emax prec emax) (k : Z) (q : quat (binary_float prec emax)),
    (24 <= prec)%Z -> (0 <= k)%Z -> (2 * k + 31 <= emax)%Z ->
    (forall i, (i < 4)%nat -> is_finite (vat (q : vec _ 4) i) = true) ->
    let len := qlength (B2R (vat (q : vec _ 4) 0), B2R (vat (q : vec _ 4) 1), B2R (vat (q : vec _ 4) 2), B2R (vat (q : vec _ 4) 3)) in
    bpow radix2 (- k) <= len <= bpow radix2 k ->
    exists g, (g = 1 \/ g = -1) /\
      forall i, (i < 4)%nat -> fnear (vat (fqfrom_matrix (qto_matrix q) : vec _ 4) i) (g * (B2R (vat (q : vec _ 4) i) / len)) (1215 * bpow radix2 (- prec)).
Proof. exact c131_round_trip. Qed.
Print Assumptions C131_round_trip.

(** [Quaternion::look_to_lh] and [look_to_rh]: close to a unit quaternion that turns the coordinate system into the frame of the
    observer when the direction and [up] enclose an angle whose sine s is not tiny. *)
Theorem C131_look_to :
  forall (prec emax : Z) (Hp : Prec_gt_0 prec) (He : Prec_lt_emax prec emax) (k : Z) (d up : vec (binary_float prec emax) 3),
    let u := bpow radix2 (- prec) in let s := rsine (fval up) (fval d) in
    (24 <= prec)%Z -> (0 <= k)%Z -> (2 * (k + prec) + 13 <= emax)%Z ->
    (forall i, (i < 3)%nat -> is_finite (vat d i) = true) -> (forall i, (i < 3)%nat -> is_finite (vat up i) = true) ->
    bpow radix2 (- k) <= rlength 3 (fval d) <= bpow radix2 k -> bpow radix2 (- k) <= rlength 3 (fval up) <= bpow radix2 k ->
    524288 * u <= s ->
    turns_near (fqlook_to_lh d up : vec _ 4) (frame (fval d) (fval up)) (15 * (273 * u / s + u)) /\
    turns_near (fqlook_to_rh d up : vec _ 4) (frame (fun a => - fval d a) (fval up)) (15 * (273 * u / s + u)).
Proof. exact c131_look_to. Qed.
Print Assumptions C131_look_to.

(** [Quaternion::look_at_lh] and [look_at_rh]: the same with the exact difference of target and eye as the direction. *)
Theorem C131_look_at :
  forall (prec emax : Z) (Hp : Prec_gt_0 prec) (He : Prec_lt_emax prec emax) (k : Z) (eye target up : vec (binary_float prec emax) 3),
    let u := bpow radix2 (- prec) in let D := fun i => fval target i - fval eye i in let s := rsine (fval up) D in
    (24 <= prec)%Z -> (0 <= k)%Z -> (2 * (k + prec) + 13 <= emax)%Z ->
    (forall i, (i < 3)%nat -> is_finite (vat eye i) = true) -> (forall i, (i < 3)%nat -> is_finite (vat target i) = true) ->
    (forall i, (i < 3)%nat -> is_finite (vat up i) = true) ->
    bpow radix2 (- k) <= rlength 3 D <= bpow radix2 k -> bpow radix2 (- k) <= rlength 3 (fval up) <= bpow radix2 k ->
    524288 * u <= s ->
    turns_near (fqlook_at_lh eye target up : vec _ 4) (frame D (fval up)) (15 * (273 * u / s + u)) /\
    turns_near (fqlook_at_rh eye target up : vec _ 4) (frame (fun a => - D a) (fval up)) (15 * (273 * u / s + u)).
Proof. exact c131_look_at. Qed.
Print Assumptions C131_look_at.

(** A half turn about (1, 1, 0), for which the trace is negative, meets the hypotheses with e = 0; the direction (3, 4, 0) with [up] =
    (0, 1, 0) meets those of the viewing theorems (see also [C127_example] and [C124_quaternion_example]). *)
Example C131_example :
  is_rotation (m3new 0 1 0 1 0 0 0 0 (-1) : mat R 3 3) /\
  (forall j i, (j < 3)%nat -> (i < 3)%nat -> fnear (mget half_turn j i) (mget (m3new 0 1 0 1 0 0 0 0 (-1) : mat R 3 3) j i) 0) /\
  B2R (mtrace half_turn) = -1 /\
  qsandwich (0, / sqrt 2, / sqrt 2, 0) (axis3 0) = axis3 1 /\
  (let d := vz 3 4 0 in let up := vz 0 1 0 in 524288 * bpow radix2 (- 53) <= rsine (fval up) (fval d)).
Proof. exact c131_example. Qed.
