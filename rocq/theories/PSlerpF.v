(** Property theorems about the accuracy of quaternion interpolation in floats (C132). *)

From Coq Require Import Arith ZArith Reals.
From Flocq Require Import Core.Core IEEE754.BinarySingleNaN.
From Verif Require Import Base Scalar Spec SpecF SpecRigid SpecSlerp SpecArc SpecCR MVector MQuat MFloat MComplexF MArcF LFloatNormP LSlerpFP.
Local Open Scope R_scope.

(** ** C132 *)

(** What the specification means: the point on the great circle has length one, encloses the fraction [t] of the whole angle with the
    start, and runs from one end to the other. *)
Theorem C132_great_circle :
  forall (P Q : nat -> R) (t : R), rlength 4 P = 1 -> rlength 4 Q = 1 -> - 1 < dot4 P Q < 1 ->
    rlength 4 (great_circle P Q t) = 1 /\ dot4 P (great_circle P Q t) = cos (t * acos (dot4 P Q)) /\
    (forall i, great_circle P Q 0 i = P i) /\ (forall i, great_circle P Q 1 i = Q i).
Proof. exact c132_great_circle. Qed.
Print Assumptions C132_great_circle.

(** [Quaternion::nlerp] of floats within [d] of unit quaternions P and Q: the point of the segment divided by its length s, up to 36 d / s. *)
Theorem C132_nlerp :
  forall (prec emax : Z) (Hp : Prec_gt_0 prec) (He : Prec_lt_emax prec emax) (d : R) (P Q : nat -> R)
      (p q : quat (binary_float prec emax)) (amount : binary_float prec emax),
    (24 <= prec)%Z -> (2 * prec + 31 <= emax)%Z -> bpow radix2 (- prec) <= d <= / 65536 ->
    rlength 4 P = 1 -> rlength 4 Q = 1 ->
    (forall i, (i < 4)%nat -> fnear (vat (p : vec _ 4) i) (P i) d) -> (forall i, (i < 4)%nat -> fnear (vat (q : vec _ 4) i) (Q i) d) ->
    is_finite amount = true -> 0 <= B2R amount <= 1 ->
    let s := rlength 4 (chord P Q (B2R amount)) in
    64 * d <= s ->
    forall i, (i < 4)%nat -> fnear (vat (fqnlerp p q amount : vec _ 4) i) (chord P Q (B2R amount) i / s) (36 * d / s).
Proof. exact c132_nlerp. Qed.
Print Assumptions C132_nlerp.

(** [Quaternion::slerp] with any threshold up to 1/2 (the code passes 0.0005) and any library with relative error [d]: the point on the
    great circle from P or -P, whichever is not on the far side of Q, up to 12 sqrt d + 5 threshold^2, for all unit quaternions. *)
Theorem C132_slerp :
  forall (prec emax : Z) (Hp : Prec_gt_0 prec) (He : Prec_lt_emax prec emax) (L : libm (binary_float prec emax))
      (arccos : binary_float prec emax -> binary_float prec emax) (d : R) (P Q : nat -> R)
      (p q : quat (binary_float prec emax)) (amount threshold : binary_float prec emax),
    (24 <= prec)%Z -> (2 * prec + 31 <= emax)%Z -> bpow radix2 (- prec) <= d <= / 65536 -> accurate_arc L arccos d ->
    rlength 4 P = 1 -> rlength 4 Q = 1 ->
    (forall i, (i < 4)%nat -> fnear (vat (p : vec _ 4) i) (P i) d) -> (forall i, (i < 4)%nat -> fnear (vat (q : vec _ 4) i) (Q i) d) ->
    is_finite amount = true -> 0 <= B2R amount <= 1 -> is_finite threshold = true -> 0 <= B2R threshold <= / 2 ->
    exists g, (g = 1 \/ g = -1) /\ - (24 * d) <= g * dot4 P Q /\
      forall i, (i < 4)%nat -> fnear (vat (fqslerp_eps L arccos p q amount threshold : vec _ 4) i)
        (great_circle (fun i => g * P i) Q (B2R amount) i) (12 * sqrt d + 5 * (B2R threshold * B2R threshold)).
Proof. exact c132_slerp. Qed.
Print Assumptions C132_slerp.

(** For quaternions that are neither close to each other nor to opposite ones (|P . Q| at most 1 - k), the error is a multiple of [d] and
    of the unit roundoff over k. *)
Theorem C132_slerp_apart :
  forall (prec emax : Z) (Hp : Prec_gt_0 prec) (He : Prec_lt_emax prec emax) (L : libm (binary_float prec emax))
      (arccos : binary_float prec emax -> binary_float prec emax) (d k : R) (P Q : nat -> R)
      (p q : quat (binary_float prec emax)) (amount threshold : binary_float prec emax),
    (24 <= prec)%Z -> (2 * prec + 31 <= emax)%Z -> bpow radix2 (- prec) <= d <= / 65536 -> accurate_arc L arccos d ->
    rlength 4 P = 1 -> rlength 4 Q = 1 ->
    (forall i, (i < 4)%nat -> fnear (vat (p : vec _ 4) i) (P i) d) -> (forall i, (i < 4)%nat -> fnear (vat (q : vec _ 4) i) (Q i) d) ->
    is_finite amount = true -> 0 <= B2R amount <= 1 -> is_finite threshold = true ->
    48 * d <= k -> B2R threshold * B2R threshold <= k / 4 -> Rabs (dot4 P Q) <= 1 - k ->
    exists g, (g = 1 \/ g = -1) /\ - (24 * d) <= g * dot4 P Q /\
      forall i, (i < 4)%nat -> fnear (vat (fqslerp_eps L arccos p q amount threshold : vec _ 4) i)
        (great_circle (fun i => g * P i) Q (B2R amount) i) (232 * d + 22 * bpow radix2 (- prec) / k).
Proof. exact c132_slerp_apart. Qed.
Print Assumptions C132_slerp_apart.

(** The square root in [C132_slerp] is needed: for two [f64] quaternions 2^-27 apart the rounded scalar product is 1 and [slerp] returns the
    first one even for the amount 1, whatever the library. *)
Theorem C132_sharp :
  exists (P Q : nat -> R) (p q : quat f64),
    rlength 4 P = 1 /\ rlength 4 Q = 1 /\ 0 < dot4 P Q < 1 /\
    (forall i, (i < 4)%nat -> fnear (vat (p : vec f64 4) i) (P i) (bpow radix2 (- 53))) /\
    (forall i, (i < 4)%nat -> fnear (vat (q : vec f64 4) i) (Q i) (bpow radix2 (- 53))) /\
    forall (L : libm f64) (arccos : f64 -> f64) (threshold : f64),
      fqslerp_eps L arccos p q n1 threshold = p /\
      Rabs (B2R (vat (p : vec f64 4) 1) - great_circle P Q 1 1) = sqrt (bpow radix2 (- 53)) / sqrt 2.
Proof. exact c132_sharp. Qed.
Print Assumptions C132_sharp.

(** The hypotheses hold for the identity and the float quaternion nearest (3/5, 4/5, 0, 0), the correctly rounded library, the amount 1/4
    and the threshold 0.0005. *)
Example C132_example :
  let p : quat f64 := v4 n1 n0 n0 n0 in let q : quat f64 := v4 (zq 3 5) (zq 4 5) n0 n0 in let d := bpow radix2 (- 53) in
  accurate_arc (cr_libm true : libm f64) cr_acos d /\
  rlength 4 ex_p = 1 /\ rlength 4 ex_q = 1 /\
  (forall i, (i < 4)%nat -> fnear (vat (p : vec f64 4) i) (ex_p i) d) /\ (forall i, (i < 4)%nat -> fnear (vat (q : vec f64 4) i) (ex_q i) d) /\
  is_finite (zq 1 4) = true /\ 0 <= B2R (zq 1 4) <= 1 /\ is_finite (zq 5 10000) = true /\ 0 <= B2R (zq 5 10000) <= / 2 /\
  48 * d <= 2 / 5 /\ B2R (zq 5 10000) * B2R (zq 5 10000) <= 2 / 5 / 4 /\ Rabs (dot4 ex_p ex_q) <= 1 - 2 / 5 /\
  64 * d <= rlength 4 (chord ex_p ex_q (B2R (zq 1 4))).
Proof. exact c132_example. Qed.
