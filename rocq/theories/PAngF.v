(** Property theorems about angles recovered from rotations in floats (C137, C138, and C126 for the plane). *)

From Coq Require Import Arith ZArith Reals.
From Flocq Require Import Core.Core IEEE754.BinarySingleNaN.
From Verif Require Import Base Scalar Spec SpecF SpecRot SpecRotF SpecRigid SpecAng SpecLibm SpecCR SpecArc MVector MMatrix MQuat MFloat MComplexF MRotF MTransform MArcF MAngF
  LAngR.
Local Open Scope R_scope.

(** ** C137 *)

(** [euler_angles] of a matrix whose entries are within [e] of a rotation by Euler angles whose second angle has a positive cosine: the three angles, the outer two up to full turns. *)
Theorem C137_euler :
  forall (prec emax : Z) (Hp : Prec_gt_0 prec) (He : Prec_lt_emax prec emax) (L : libm (binary_float prec emax))
    (arccos arcsin : binary_float prec emax -> binary_float prec emax) (r : rotation (binary_float prec emax) 3) (a b c d e : R),
    0 <= d <= / 64 -> ang_lib L arccos arcsin d ->
    - PI <= a <= PI -> - (PI / 2) <= b <= PI / 2 -> - PI <= c <= PI ->
    0 <= e -> 0 < cos b -> 8 * e <= cos b * cos b -> 4 * d <= cos b ->
    (forall j i, (j < 3)%nat -> (i < 3)%nat -> fnear (mget r j i) (vat (euler_turn a b c (axis3 j)) i) e) ->
    let '(x, y, z) := frot3euler_angles L arcsin r in
    fnear_turn x a (d + 2 * e / cos b) /\ fnear y b (d + 5 / 4 * e / cos b) /\ fnear_turn z c (d + 2 * e / cos b).
Proof. exact c137_euler. Qed.
Print Assumptions C137_euler.

(** [euler_angles] after [from_euler_angles]. *)
Theorem C137_euler_round_trip :
  forall (prec emax : Z) (Hp : Prec_gt_0 prec) (He : Prec_lt_emax prec emax) (L : libm (binary_float prec emax))
    (arccos arcsin : binary_float prec emax -> binary_float prec emax) (ax ay az : binary_float prec emax) (d : R),
    (24 <= prec)%Z -> (34 <= emax)%Z -> 0 <= d <= / 64 -> ang_lib L arccos arcsin d ->
    is_finite ax = true -> is_finite ay = true -> is_finite az = true ->
    Rabs (B2R ax) <= PI -> Rabs (B2R ay) <= PI / 2 -> Rabs (B2R az) <= PI ->
    let s := cos (B2R ay) in let e := 6 * d + 8 * bpow radix2 (- prec) in
    0 < s -> 8 * e <= s * s ->
    let '(x, y, z) := frot3euler_angles L arcsin (frot3from_euler_angles L ax ay az) in
    fnear_turn x (B2R ax) (d + 2 * e / s) /\ fnear y (B2R ay) (d + 5 / 4 * e / s) /\ fnear_turn z (B2R az) (d + 2 * e / s).
Proof. exact c137_euler_round_trip. Qed.
Print Assumptions C137_euler_round_trip.

(** [Rotation3::axis_angle] of a matrix whose entries are within [e] of the rotation about [a] by [t]. *)
Theorem C137_axis_angle :
  forall (prec emax : Z) (Hp : Prec_gt_0 prec) (He : Prec_lt_emax prec emax) (L : libm (binary_float prec emax))
    (arccos arcsin : binary_float prec emax -> binary_float prec emax) (r : rotation (binary_float prec emax) 3) (a : vec R 3) (t d e : R),
    (24 <= prec)%Z -> (2 * prec + 31 <= emax)%Z -> ang_lib L arccos arcsin d ->
    sum 3 (fun i => vat a i * vat a i) = 1 -> 0 <= t <= PI -> 0 <= e ->
    let u := bpow radix2 (- prec) in let s := sin t in
    0 < s -> 64 * (e + u) <= s * s ->
    (forall j i, (j < 3)%nat -> (i < 3)%nat -> fnear (mget r j i) (vat (rodrigues a t (axis3 j)) i) e) ->
    exists axis angle, frot3axis_angle arccos r = Some (axis, angle) /\
      (forall i, (i < 3)%nat -> fnear (vat axis i) (vat a i) ((7 / 2 * e + 18 * u) / s)) /\ fnear angle t (d + (2 * e + 13 * u) / s).
Proof. exact c137_axis_angle. Qed.
Print Assumptions C137_axis_angle.

(** [axis_angle] after [from_axis_angle]. *)
Theorem C137_axis_angle_round_trip :
  forall (prec emax : Z) (Hp : Prec_gt_0 prec) (He : Prec_lt_emax prec emax) (L : libm (binary_float prec emax))
    (arccos arcsin : binary_float prec emax -> binary_float prec emax) (axis : vec (binary_float prec emax) 3) (angle : binary_float prec emax) (a : vec R 3) (d : R),
    (24 <= prec)%Z -> (2 * prec + 31 <= emax)%Z -> 0 <= d <= / 64 -> ang_lib L arccos arcsin d ->
    sum 3 (fun i => vat a i * vat a i) = 1 -> (forall i, (i < 3)%nat -> fnear (vat axis i) (vat a i) d) ->
    is_finite angle = true -> 0 <= B2R angle <= PI ->
    let u := bpow radix2 (- prec) in let s := sin (B2R angle) in
    0 < s -> 512 * (d + 2 * u) <= s * s ->
    exists axis' angle', frot3axis_angle arccos (frot3from_axis_angle L axis angle) = Some (axis', angle') /\
      (forall i, (i < 3)%nat -> fnear (vat axis' i) (vat a i) ((28 * d + 71 * u) / s)) /\ fnear angle' (B2R angle) (d + (16 * d + 43 * u) / s).
Proof. exact c137_axis_angle_round_trip. Qed.
Print Assumptions C137_axis_angle_round_trip.

(** [Rotation2::angle], also after [from_angle]. *)
Theorem C137_plane_angle :
  forall (prec emax : Z) (Hp : Prec_gt_0 prec) (He : Prec_lt_emax prec emax) (L : libm (binary_float prec emax))
    (arccos arcsin : binary_float prec emax -> binary_float prec emax) (d : R), 0 <= d <= / 64 -> ang_lib L arccos arcsin d ->
    (forall (r : rotation (binary_float prec emax) 2) (t e : R), 0 <= e <= / 8 -> - PI <= t <= PI ->
      (forall j i, (j < 2)%nat -> (i < 2)%nat -> fnear (mget r j i) (vat (turn2 t (axis2 j)) i) e) ->
      fnear_turn (frot2angle L r) t (d + 2 * e)) /\
    (forall x, is_finite x = true -> Rabs (B2R x) <= PI -> fnear_turn (frot2angle L (frot2from_angle L x)) (B2R x) (3 * d)).
Proof. exact c137_plane_angle. Qed.
Print Assumptions C137_plane_angle.

(** [Rotation2::rotation_between]: the entries of the rotation that takes one direction to the other. *)
Theorem C137_plane_between :
  forall (prec emax : Z) (Hp : Prec_gt_0 prec) (He : Prec_lt_emax prec emax) (k : Z) (L : libm (binary_float prec emax))
    (arccos arcsin : binary_float prec emax -> binary_float prec emax) (v w : vec (binary_float prec emax) 2) (d : R),
    (24 <= prec)%Z -> (2 * prec + 31 <= emax)%Z -> (0 <= k)%Z -> (2 * k + 31 <= emax)%Z -> 0 <= d <= / 64 -> ang_lib L arccos arcsin d ->
    (forall i, (i < 2)%nat -> is_finite (vat v i) = true) -> (forall i, (i < 2)%nat -> is_finite (vat w i) = true) ->
    bpow radix2 (- k) <= rlength 2 (fval v) <= bpow radix2 k -> bpow radix2 (- k) <= rlength 2 (fval w) <= bpow radix2 k ->
    exists t, - PI <= t <= PI /\ turn2 t (dir2 (fval v)) = dir2 (fval w) /\
      forall j i, (j < 2)%nat -> (i < 2)%nat ->
        fnear (mget (frot2rotation_between L v w) j i) (vat (turn2 t (axis2 j)) i) (2 * d + 120 * bpow radix2 (- prec)).
Proof. exact c137_plane_between. Qed.
Print Assumptions C137_plane_between.

(** The hypotheses hold for the correctly rounded library in [f64], the angles 1/2 and 1, the axis (3/5, 4/5, 0) and the vector (3, -4). *)
Example C137_example :
  let d := bpow radix2 (-51) in let u := bpow radix2 (- (53)) in
  ang_lib (cr_libm true : libm f64) cr_acos cr_asin d /\ 0 <= d <= / 64 /\
  (let ay : f64 := ndiv (f64_of_Z 1) (f64_of_Z 2) in let s := cos (B2R ay) in
   is_finite ay = true /\ Rabs (B2R ay) <= PI / 2 /\ 0 < s /\ 8 * (6 * d + 8 * u) <= s * s) /\
  (let angle : f64 := f64_of_Z 1 in let s := sin (B2R angle) in
   is_finite angle = true /\ 0 <= B2R angle <= PI /\ 0 < s /\ 512 * (d + 2 * u) <= s * s) /\
  (let axis : vec f64 3 := v3 (ndiv (f64_of_Z 3) (f64_of_Z 5)) (ndiv (f64_of_Z 4) (f64_of_Z 5)) n0 in let a : vec R 3 := v3 (3 / 5) (4 / 5) 0 in
   sum 3 (fun i => vat a i * vat a i) = 1 /\ forall i, (i < 3)%nat -> fnear (vat axis i) (vat a i) d) /\
  (let v : vec f64 2 := v2 (f64_of_Z 3) (f64_of_Z (-4)) in
   (forall i, (i < 2)%nat -> is_finite (vat v i) = true) /\ rlength 2 (fval v) = 5).
Proof. exact c137_example. Qed.

(** ** C138 *)

(** Extracting the angles of a matrix within [e] of a rotation and building the matrix of these angles gives the matrix back.  What is missing are the rotations at and near gimbal lock, where the cosine of the second angle vanishes. *)
Theorem C138_rebuild_partial :
  forall (prec emax : Z) (Hp : Prec_gt_0 prec) (He : Prec_lt_emax prec emax) (L : libm (binary_float prec emax))
    (arccos arcsin : binary_float prec emax -> binary_float prec emax) (r : rotation (binary_float prec emax) 3) (a b c d e : R),
    (24 <= prec)%Z -> (34 <= emax)%Z -> 0 <= d <= / 64 -> ang_lib L arccos arcsin d ->
    - PI <= a <= PI -> - (PI / 2) <= b <= PI / 2 -> - PI <= c <= PI ->
    0 <= e -> 0 < cos b -> 32 * e <= cos b * cos b -> 4 * d <= cos b ->
    (forall j i, (j < 3)%nat -> (i < 3)%nat -> fnear (mget r j i) (vat (euler_turn a b c (axis3 j)) i) e) ->
    let '(x, y, z) := frot3euler_angles L arcsin r in
    let bound := 12 * d + 12 * e / cos b + 8 * bpow radix2 (- prec) in
    forall j i, (j < 3)%nat -> (i < 3)%nat ->
      fnear (mget (frot3from_euler_angles L x y z) j i) (vat (euler_turn a b c (axis3 j)) i) bound /\
      Rabs (B2R (mget (frot3from_euler_angles L x y z) j i) - B2R (mget r j i)) <= bound + e.
Proof. exact c138_rebuild. Qed.
Print Assumptions C138_rebuild_partial.

(** At gimbal lock there is a rotation, exact in [f64], whose matrix is not given back: an entry is off by 3/4 at least, for every accurate library whose cosine of its arc sine of 1 is not exactly 0. *)
Theorem C138_gimbal_lock_refuted :
  exists r : rotation f64 3,
    (forall j i, (j < 3)%nat -> (i < 3)%nat -> is_finite (mget r j i) = true /\ B2R (mget r j i) = vat (euler_turn (PI / 2) (PI / 2) 0 (axis3 j)) i) /\
    forall (L : libm f64) (arccos arcsin : f64 -> f64) (d : R),
      0 <= d <= / 64 -> ang_lib L arccos arcsin d -> libm_special L -> libm_symmetric L -> B2R (m_cos L (arcsin n1)) <> 0 ->
      let '(x, y, z) := frot3euler_angles L arcsin r in
      3 / 4 <= Rabs (B2R (mget (frot3from_euler_angles L x y z) 0 1) - B2R (mget r 0 1)).
Proof. exact c138_gimbal. Qed.
Print Assumptions C138_gimbal_lock_refuted.

(** The correctly rounded library meets these requirements. *)
Example C138_library :
  let L : libm f64 := cr_libm true in let d := bpow radix2 (-51) in
  0 <= d <= / 64 /\ ang_lib L cr_acos cr_asin d /\ libm_special L /\ libm_symmetric L /\ B2R (m_cos L (cr_asin (n1 : f64))) <> 0.
Proof. exact c138_library. Qed.

(** ** C126 *)

(** [Matrix2x2::rotation_between] of a vector and itself is a matrix of NaNs for (3, 4) in [f64]: the dot product of the normalised vectors rounds to a number above 1, and the sine is the square root of a negative number. *)
Theorem C126_plane_rotation_between_refuted :
forall (L : libm f64) (arccos arcsin : f64 -> f64), libm_arc L arccos arcsin -> libm_symmetric L ->
  exists v : vec f64 2, all_finite v /\ fval v 0%nat = 3 /\ fval v 1%nat = 4 /\
    forall j i, (j < 2)%nat -> (i < 2)%nat -> mget (fm2rotation_between L v v) j i = B754_nan.
Proof. exact c126_plane_refuted. Qed.
Print Assumptions C126_plane_rotation_between_refuted.
