(** Property theorems about rotations between two vectors in floats (C135, C136). *)

From Coq Require Import Arith ZArith Reals.
From Flocq Require Import Core.Core IEEE754.BinarySingleNaN.
From Verif Require Import Base Scalar Spec SpecF SpecDrift SpecRot SpecRotF SpecRigid SpecLook SpecBetw SpecCR SpecArc MVector MMatrix MQuat MFloat MComplexF MRotF MTransform MArcF
  LBetwP LBetwR.
Local Open Scope R_scope.

(** ** C135 *)

(** The exact rotation about the common normal by the angle between the vectors takes the first direction to the second; the bounds below are relative to it. *)
Theorem C135_exact :
  forall v w : nat -> R, 0 < rsine v w -> 0 < rlength 3 v -> 0 < rlength 3 w ->
    rodrigues (turn_axis v w) (turn_angle v w) (vdir v) = vdir w.
Proof. exact c135_exact. Qed.
Print Assumptions C135_exact.

(** [Quaternion::rotation_between] of vectors whose sine is not too small: the components are those of half the turn. *)
Theorem C135_quaternion :
  forall (prec emax : Z) (Hp : Prec_gt_0 prec) (He : Prec_lt_emax prec emax) (k : Z) (L : libm (binary_float prec emax))
    (arccos : binary_float prec emax -> binary_float prec emax) (v w : vec (binary_float prec emax) 3) (d : R),
    (24 <= prec)%Z -> (2 * prec + 31 <= emax)%Z -> (0 <= k)%Z -> (2 * k + 31 <= emax)%Z ->
    (forall i, (i < 3)%nat -> is_finite (vat v i) = true) -> (forall i, (i < 3)%nat -> is_finite (vat w i) = true) ->
    bpow radix2 (- k) <= rlength 3 (fval v) <= bpow radix2 k -> bpow radix2 (- k) <= rlength 3 (fval w) <= bpow radix2 k ->
    0 <= d <= / 256 -> turn_lib L arccos d ->
    let u := bpow radix2 (- prec) in let s := rsine (fval v) (fval w) in let t := turn_angle (fval v) (fval w) in
    512 * u <= s * s ->
    exists q : quat (binary_float prec emax), fqrotation_between L arccos v w = Some q /\
      fnear (vat (q : vec _ 4) 0) (cos (t / 2)) (6 * d + 350 * u / s) /\
      forall i, (i < 3)%nat -> fnear (vat (q : vec _ 4) (S i)) (sin (t / 2) * vat (turn_axis (fval v) (fval w)) i) (6 * d + 350 * u / s).
Proof. exact c135_quaternion. Qed.
Print Assumptions C135_quaternion.

(** [Rotation3::rotation_between]: the entries of the matrix, and where the matrix takes the first direction. *)
Theorem C135_rotation :
  forall (prec emax : Z) (Hp : Prec_gt_0 prec) (He : Prec_lt_emax prec emax) (k : Z) (L : libm (binary_float prec emax))
    (arccos : binary_float prec emax -> binary_float prec emax) (v w : vec (binary_float prec emax) 3) (d : R),
    (24 <= prec)%Z -> (2 * prec + 31 <= emax)%Z -> (0 <= k)%Z -> (2 * k + 31 <= emax)%Z ->
    (forall i, (i < 3)%nat -> is_finite (vat v i) = true) -> (forall i, (i < 3)%nat -> is_finite (vat w i) = true) ->
    bpow radix2 (- k) <= rlength 3 (fval v) <= bpow radix2 k -> bpow radix2 (- k) <= rlength 3 (fval w) <= bpow radix2 k ->
    0 <= d <= / 256 -> turn_lib L arccos d ->
    let u := bpow radix2 (- prec) in let s := rsine (fval v) (fval w) in let e := 72 * d + 4280 * u / s in
    512 * u <= s * s ->
    exists r, frot3rotation_between L arccos v w = Some r /\
      (forall j i, (j < 3)%nat -> (i < 3)%nat ->
        fnear (mget r j i) (vat (rodrigues (turn_axis (fval v) (fval w)) (turn_angle (fval v) (fval w)) (axis3 j)) i) e) /\
      (forall i, (i < 3)%nat -> Rabs (rdot (fun j => B2R (mget r j i)) (rdir (fval v)) - rdir (fval w) i) <= 7 / 4 * e).
Proof. exact c135_rotation. Qed.
Print Assumptions C135_rotation.

(** [Matrix3x3::rotation_between], which builds the matrix from the axis and the angle directly. *)
Theorem C135_matrix :
  forall (prec emax : Z) (Hp : Prec_gt_0 prec) (He : Prec_lt_emax prec emax) (k : Z) (L : libm (binary_float prec emax))
    (arccos : binary_float prec emax -> binary_float prec emax) (v w : vec (binary_float prec emax) 3) (d : R),
    (24 <= prec)%Z -> (2 * prec + 31 <= emax)%Z -> (0 <= k)%Z -> (2 * k + 31 <= emax)%Z ->
    (forall i, (i < 3)%nat -> is_finite (vat v i) = true) -> (forall i, (i < 3)%nat -> is_finite (vat w i) = true) ->
    bpow radix2 (- k) <= rlength 3 (fval v) <= bpow radix2 k -> bpow radix2 (- k) <= rlength 3 (fval w) <= bpow radix2 k ->
    0 <= d <= / 256 -> turn_lib L arccos d ->
    let u := bpow radix2 (- prec) in let s := rsine (fval v) (fval w) in let e := 16 * d + 943 * u / s in
    512 * u <= s * s ->
    exists m, fm3rotation_between L arccos v w = Some m /\
      (forall j i, (j < 3)%nat -> (i < 3)%nat ->
        fnear (mget m j i) (vat (rodrigues (turn_axis (fval v) (fval w)) (turn_angle (fval v) (fval w)) (axis3 j)) i) e) /\
      (forall i, (i < 3)%nat -> Rabs (rdot (fun j => B2R (mget m j i)) (rdir (fval v)) - rdir (fval w) i) <= 7 / 4 * e).
Proof. exact c135_matrix. Qed.
Print Assumptions C135_matrix.

(** For nearly parallel vectors the quaternion is near the identity, and so is the exact rotation. *)
Theorem C135_nearly_parallel :
  forall (prec emax : Z) (Hp : Prec_gt_0 prec) (He : Prec_lt_emax prec emax) (k : Z) (L : libm (binary_float prec emax))
    (arccos : binary_float prec emax -> binary_float prec emax) (v w : vec (binary_float prec emax) 3) (d : R),
    (24 <= prec)%Z -> (2 * prec + 31 <= emax)%Z -> (0 <= k)%Z -> (2 * k + 31 <= emax)%Z ->
    (forall i, (i < 3)%nat -> is_finite (vat v i) = true) -> (forall i, (i < 3)%nat -> is_finite (vat w i) = true) ->
    bpow radix2 (- k) <= rlength 3 (fval v) <= bpow radix2 k -> bpow radix2 (- k) <= rlength 3 (fval w) <= bpow radix2 k ->
    0 <= d <= / 256 -> turn_lib L arccos d ->
    let u := bpow radix2 (- prec) in
    0 < rcosine (fval v) (fval w) -> rsine (fval v) (fval w) * rsine (fval v) (fval w) <= 512 * u ->
    exists q : quat (binary_float prec emax), fqrotation_between L arccos v w = Some q /\
      (forall i, (i < 4)%nat -> fnear (vat (q : vec _ 4) i) (delta i 0) (30 * sqrt u + 4 * d)) /\
      rlength 3 (fun i => rdir (fval w) i - rdir (fval v) i) <= 23 * sqrt u.
Proof. exact c135_nearly_parallel. Qed.
Print Assumptions C135_nearly_parallel.

(** The hypotheses hold for (1, 2, 2), (2, -1, 2) and the correctly rounded library in [f64]. *)
Example C135_example :
  turn_lib (cr_libm true : libm f64) cr_acos (bpow radix2 (-51)) /\
  let v : vec f64 3 := v3 (f64_of_Z 1) (f64_of_Z 2) (f64_of_Z 2) in let w : vec f64 3 := v3 (f64_of_Z 2) (f64_of_Z (-1)) (f64_of_Z 2) in
  (forall i, (i < 3)%nat -> is_finite (vat v i) = true) /\ (forall i, (i < 3)%nat -> is_finite (vat w i) = true) /\
  rlength 3 (fval v) = 3 /\ rlength 3 (fval w) = 3 /\ rcosine (fval v) (fval w) = 4 / 9 /\
  rsine (fval v) (fval w) * rsine (fval v) (fval w) = 65 / 81.
Proof. exact c135_example. Qed.

(** The hypotheses of the nearly parallel case hold for (2^27, 0, 0) and (2^27, 1, 0). *)
Example C135_parallel_example :
  let v : vec f64 3 := v3 (f64_of_Z (2 ^ 27)) (f64_of_Z 0) (f64_of_Z 0) in let w : vec f64 3 := v3 (f64_of_Z (2 ^ 27)) (f64_of_Z 1) (f64_of_Z 0) in
  (forall i, (i < 3)%nat -> is_finite (vat v i) = true) /\ (forall i, (i < 3)%nat -> is_finite (vat w i) = true) /\
  bpow radix2 (- (28)) <= rlength 3 (fval v) <= bpow radix2 28 /\ bpow radix2 (- (28)) <= rlength 3 (fval w) <= bpow radix2 28 /\
  0 < rcosine (fval v) (fval w) /\ rsine (fval v) (fval w) * rsine (fval v) (fval w) <= 512 * bpow radix2 (- (53)).
Proof. exact c135_parallel_example. Qed.

(** ** C136 *)

(** Unless the vectors are nearly opposite, the first direction is taken to the second up to a multiple of the square root of the unit roundoff.  What is missing are the nearly opposite vectors for which a rotation is returned. *)
Theorem C136_image_partial :
  forall (prec emax : Z) (Hp : Prec_gt_0 prec) (He : Prec_lt_emax prec emax) (k : Z) (L : libm (binary_float prec emax))
    (arccos : binary_float prec emax -> binary_float prec emax) (v w : vec (binary_float prec emax) 3) (d : R),
    (24 <= prec)%Z -> (2 * prec + 31 <= emax)%Z -> (0 <= k)%Z -> (2 * k + 31 <= emax)%Z ->
    (forall i, (i < 3)%nat -> is_finite (vat v i) = true) -> (forall i, (i < 3)%nat -> is_finite (vat w i) = true) ->
    bpow radix2 (- k) <= rlength 3 (fval v) <= bpow radix2 k -> bpow radix2 (- k) <= rlength 3 (fval w) <= bpow radix2 k ->
    0 <= d <= / 256 -> turn_lib L arccos d ->
    let u := bpow radix2 (- prec) in
    0 < rcosine (fval v) (fval w) \/ 512 * u <= rsine (fval v) (fval w) * rsine (fval v) (fval w) ->
    exists r, frot3rotation_between L arccos v w = Some r /\
      forall i, (i < 3)%nat -> Rabs (rdot (fun j => B2R (mget r j i)) (rdir (fval v)) - rdir (fval w) i) <= 130 * d + 700 * sqrt u.
Proof. exact c136_image. Qed.
Print Assumptions C136_image_partial.

(** For nearly opposite vectors the axis is made of rounding errors: in [f64] there are vectors for which a rotation is returned, whatever the library, that misses the second direction by 2/5. *)
Theorem C136_nearly_opposite_refuted :
  exists v w : vec f64 3,
    (forall i, (i < 3)%nat -> is_finite (vat v i) = true) /\ (forall i, (i < 3)%nat -> is_finite (vat w i) = true) /\
    bpow radix2 (- (54)) <= rlength 3 (fval v) <= bpow radix2 54 /\ bpow radix2 (- (54)) <= rlength 3 (fval w) <= bpow radix2 54 /\
    forall (L : libm f64) (arccos : f64 -> f64), turn_lib L arccos (/ 256) ->
    exists q : quat f64, fqrotation_between L arccos v w = Some q /\
      let val : rquat := (B2R (vat (q : vec f64 4) 0), B2R (vat (q : vec f64 4) 1), B2R (vat (q : vec f64 4) 2), B2R (vat (q : vec f64 4) 3)) in
      2 / 5 <= rlength 3 (fun i => vat (qsandwich val (vdir (fval v))) i - rdir (fval w) i).
Proof. exact c136_opposite. Qed.
Print Assumptions C136_nearly_opposite_refuted.

(** The square root is needed: vectors at an angle of about 2^-27 in [f64] get the identity. *)
Theorem C136_small_angle :
  exists v w : vec f64 3,
    (forall (L : libm f64) (arccos : f64 -> f64), fqrotation_between L arccos v w = Some qidentity) /\
    bpow radix2 (- 28) <= rdir (fval w) 1%nat - rdir (fval v) 1%nat.
Proof. exact c136_lost. Qed.
Print Assumptions C136_small_angle.
