(** Property theorems about the polar form of quaternions in floats (C152). *)

From Coq Require Import List Arith ZArith Reals.
From Flocq Require Import Core.Core IEEE754.BinarySingleNaN.
From Verif Require Import Base Scalar SpecF SpecRigid SpecAng SpecArc SpecCR MVector MQuat MFloat MSign MComplexF MQPolF LQPolP.
Local Open Scope R_scope.

(** ** C152 *)

(** Norm, half angle and axis of the decomposition.  The half angle is between 0 and PI/2, since the code takes the magnitude of the scalar part.  Missing: quaternions whose vector part is shorter than 2^-k, or longer than 2^k. *)
Theorem C152_decomposition_partial :
  forall (prec emax : Z) (Hp : Prec_gt_0 prec) (He : Prec_lt_emax prec emax) (L : libm (binary_float prec emax))
    (arccos arcsin : binary_float prec emax -> binary_float prec emax) (d : R) (q : quat (binary_float prec emax)) (k : Z),
  let u := bpow radix2 (- prec) in let r := rlength 4 (fval (q : vec _ 4)) in let n := rlength 3 (fval (qvector q)) in
  (24 <= prec)%Z -> (2 * prec + 33 <= emax)%Z -> 0 <= d <= / 64 -> ang_lib L arccos arcsin d -> (0 <= k)%Z -> (2 * k + 31 <= emax)%Z ->
  all_finite (q : vec _ 4) -> bpow radix2 (- k) <= n -> r <= bpow radix2 k ->
  exists norm angle axis theta, fqpolar L q = (norm, angle, Some axis) /\
    0 <= theta <= PI / 2 /\ r * cos theta = Rabs (B2R (qscalar q)) /\ r * sin theta = n /\
    fnear norm r (8 * u * r) /\ fnear angle theta (d + 60 * u) /\ forall i, (i < 3)%nat -> fnear (vat axis i) (fval (qvector q) i / n) (12 * u).
Proof. exact c152_decomposition. Qed.
Print Assumptions C152_decomposition_partial.

(** A real quaternion has no axis and the angle 0. *)
Theorem C152_real :
  forall (prec emax : Z) (Hp : Prec_gt_0 prec) (He : Prec_lt_emax prec emax) (L : libm (binary_float prec emax)) (q : quat (binary_float prec emax)) (k : Z),
  (24 <= prec)%Z -> (0 <= k)%Z -> (2 * k + 31 <= emax)%Z -> all_finite (q : vec _ 4) ->
  (forall i, (i < 3)%nat -> B2R (vat (qvector q) i) = 0) -> bpow radix2 (- k) <= Rabs (B2R (qscalar q)) <= bpow radix2 k ->
  exists norm, fqpolar L q = (norm, n0, None) /\ fnear norm (Rabs (B2R (qscalar q))) (8 * bpow radix2 (- prec) * Rabs (B2R (qscalar q))).
Proof. exact c152_real. Qed.
Print Assumptions C152_real.

(** The quaternion built from a scale, an angle and an axis. *)
Theorem C152_from :
  forall (prec emax : Z) (Hp : Prec_gt_0 prec) (He : Prec_lt_emax prec emax) (L : libm (binary_float prec emax))
    (arccos arcsin : binary_float prec emax -> binary_float prec emax) (d : R) (scale angle : binary_float prec emax) (axis : vec (binary_float prec emax) 3) (S : R),
  let u := bpow radix2 (- prec) in let q := fqfrom_polar L scale angle axis in let t := B2R angle / 2 in
  (24 <= prec)%Z -> (2 * prec + 33 <= emax)%Z -> 0 <= d <= / 64 -> ang_lib L arccos arcsin d ->
  fbnd S scale -> fbnd 9 angle -> (forall i, (i < 3)%nat -> fbnd 2 (vat axis i)) -> bpow radix2 (12 - emax) <= S <= bpow radix2 (emax - 6) ->
  fnear (qscalar q) (B2R scale * cos t) ((d + 8 * u) * S) /\
  forall i, (i < 3)%nat -> fnear (vat (qvector q) i) (B2R scale * sin t * B2R (vat axis i)) ((3 * d + 25 * u) * S).
Proof. exact c152_from. Qed.
Print Assumptions C152_from.

(** There and back, with the angle doubled: the quaternion with the magnitude of its scalar part.  Same range. *)
Theorem C152_round_trip_partial :
  forall (prec emax : Z) (Hp : Prec_gt_0 prec) (He : Prec_lt_emax prec emax) (L : libm (binary_float prec emax))
    (arccos arcsin : binary_float prec emax -> binary_float prec emax) (d : R) (q : quat (binary_float prec emax)) (k : Z),
  let u := bpow radix2 (- prec) in let r := rlength 4 (fval (q : vec _ 4)) in let n := rlength 3 (fval (qvector q)) in
  (24 <= prec)%Z -> (2 * prec + 33 <= emax)%Z -> 0 <= d <= / 64 -> ang_lib L arccos arcsin d -> (0 <= k)%Z -> (2 * k + 31 <= emax)%Z ->
  all_finite (q : vec _ 4) -> bpow radix2 (- k) <= n -> r <= bpow radix2 k ->
  exists norm angle axis, fqpolar L q = (norm, angle, Some axis) /\ let q' := fqfrom_polar L norm (nadd angle angle) axis in
    fnear (qscalar q') (Rabs (B2R (qscalar q))) ((5 * d + 120 * u) * r) /\
    forall i, (i < 3)%nat -> fnear (vat (qvector q') i) (B2R (vat (qvector q) i)) ((5 * d + 120 * u) * r).
Proof. exact c152_round_trip. Qed.
Print Assumptions C152_round_trip_partial.

(** In f64, whatever the library: a positive real quaternion is decomposed as if it were zero, one has an infinite norm, and one with a vector part has no axis. *)
Theorem C152_range_refuted :
  exists p q a : quat f64, all_finite (p : vec f64 4) /\ all_finite (q : vec f64 4) /\ all_finite (a : vec f64 4) /\ forall L : libm f64,
    (0 < B2R (qscalar p) /\ fqpolar L p = (n0, n0, None)) /\ fqpolar L q = (B754_infinity false, n0, None) /\
    (0 < B2R (vat (qvector a) 0) /\ fqpolar L a = (n1, n0, None)).
Proof. exact c152_small_and_large_refuted. Qed.
Print Assumptions C152_range_refuted.

(** -3 + 4 i in f64, with a correctly rounded library, meets the hypotheses with k = 3. *)
Example C152_example :
  let L := cr_libm true : libm f64 in let d := bpow radix2 (2 - 53) in let q := qnew (f64_of_Z (-3)) (f64_of_Z 4) n0 n0 : quat f64 in
  ang_lib L cr_acos cr_asin d /\ 0 <= d <= / 64 /\ all_finite (q : vec f64 4) /\ B2R (qscalar q) = -3 /\
  rlength 3 (fval (qvector q)) = 4 /\ rlength 4 (fval (q : vec f64 4)) = 5 /\ bpow radix2 (- 3) <= 4 /\ 5 <= bpow radix2 3.
Proof. exact c152_example. Qed.
