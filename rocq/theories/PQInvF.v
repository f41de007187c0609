(** Property theorems about the inverse and the division of quaternions in floats (C129). *)

From Coq Require Import Arith ZArith Reals.
From Flocq Require Import Core.Core IEEE754.BinarySingleNaN.
From Verif Require Import Base Scalar Spec SpecF SpecDrift SpecQInv MVector MQuat MFloat MQInvF LQInvF LQInvFP.
Local Open Scope R_scope.

(** ** C129 *)

(** The inverse of the specification is the two-sided inverse for the Hamilton product, and its length is the inverse length. *)
Theorem C129_exact_inverse :
  forall a b : rquat, 0 < qlength a ->
  hamilton a (rqinv a) = (1, 0, 0, 0) /\ hamilton (rqinv a) a = (1, 0, 0, 0) /\
  hamilton a (hamilton (rqinv a) b) = b /\ hamilton (hamilton b (rqinv a)) a = b /\ qlength (rqinv a) = / qlength a.
Proof. exact c129_spec. Qed.
Print Assumptions C129_exact_inverse.

(** [Quaternion::try_inverse] in a format of at least the precision of [f32], for a quaternion of length N at least twice the machine
    epsilon whose square is in range: there is an inverse, within 10 units of roundoff (relative to its length), and its computed
    products with the quaternion are within 42 units of 1.  Missing from the full property: lengths outside this range. *)
Theorem C129_inverse_partial :
  forall (prec emax : Z) (Hp : Prec_gt_0 prec) (He : Prec_lt_emax prec emax) (k : Z) (q : quat (binary_float prec emax)),
    let u := bpow radix2 (- prec) in
    let fin (q : quat (binary_float prec emax)) := forall i, (i < 4)%nat -> is_finite (vat (q : vec _ 4) i) = true in
    let val (q : quat (binary_float prec emax)) : rquat :=
      (B2R (vat (q : vec _ 4) 0), B2R (vat (q : vec _ 4) 1), B2R (vat (q : vec _ 4) 2), B2R (vat (q : vec _ 4) 3)) in
    let N := qlength (val q) in
    (24 <= prec)%Z -> (2 * prec <= emax)%Z -> (0 <= k)%Z -> (2 * k + 32 <= emax)%Z ->
    fin q -> bpow radix2 (- k) <= N <= bpow radix2 k -> bpow radix2 (2 - prec) <= N ->
    fqis_invertible q = true /\
    exists v, fqtry_inverse q = Some v /\ fin v /\ qdistance (val v) (rqinv (val q)) <= 10 * u / N /\
      fin (qmul q v) /\ qdistance (val (qmul q v)) (1, 0, 0, 0) <= 42 * u /\
      fin (qmul v q) /\ qdistance (val (qmul v q)) (1, 0, 0, 0) <= 42 * u.
Proof. exact c129_inverse. Qed.
Print Assumptions C129_inverse_partial.

(** [div_left] and [div_right]: within 42 units of the exact quotients; multiplying back gives the dividend up to 74 units. *)
Theorem C129_division_partial :
  forall (prec emax : Z) (Hp : Prec_gt_0 prec) (He : Prec_lt_emax prec emax) (k : Z) (p q : quat (binary_float prec emax)) (P : R),
    let u := bpow radix2 (- prec) in
    let fin (q : quat (binary_float prec emax)) := forall i, (i < 4)%nat -> is_finite (vat (q : vec _ 4) i) = true in
    let val (q : quat (binary_float prec emax)) : rquat :=
      (B2R (vat (q : vec _ 4) 0), B2R (vat (q : vec _ 4) 1), B2R (vat (q : vec _ 4) 2), B2R (vat (q : vec _ 4) 3)) in
    let N := qlength (val q) in
    (24 <= prec)%Z -> (2 * prec <= emax)%Z -> (0 <= k)%Z -> (2 * k + 32 <= emax)%Z ->
    fin q -> bpow radix2 (- k) <= N <= bpow radix2 k -> bpow radix2 (2 - prec) <= N ->
    fin p -> bpow radix2 (- k) <= P <= bpow radix2 k -> qlength (val p) <= P ->
    exists l r, fqdiv_left p q = Some l /\ fqdiv_right p q = Some r /\ fin l /\ fin r /\
      qdistance (val l) (hamilton (rqinv (val q)) (val p)) <= 42 * u * (P / N) /\
      qdistance (val r) (hamilton (val p) (rqinv (val q))) <= 42 * u * (P / N) /\
      fin (qmul q l) /\ fin (qmul r q) /\
      qdistance (val (qmul q l)) (val p) <= 74 * u * P /\ qdistance (val (qmul r q)) (val p) <= 74 * u * P.
Proof. exact c129_division. Qed.
Print Assumptions C129_division_partial.

(** Every quaternion of length at most half the machine epsilon counts as not invertible, though none but zero is singular. *)
Theorem C129_small_not_invertible :
  forall (prec emax : Z) (Hp : Prec_gt_0 prec) (He : Prec_lt_emax prec emax) (p q : quat (binary_float prec emax)),
    (24 <= prec)%Z -> (2 * prec + 31 <= emax)%Z ->
    (forall i, (i < 4)%nat -> is_finite (vat (q : vec _ 4) i) = true) ->
    qlength (B2R (vat (q : vec _ 4) 0), B2R (vat (q : vec _ 4) 1), B2R (vat (q : vec _ 4) 2), B2R (vat (q : vec _ 4) 3)) <= bpow radix2 (- prec) ->
    fqtry_inverse q = None /\ fqis_invertible q = false /\ fqdiv_left p q = None /\ fqdiv_right p q = None.
Proof. exact c129_small. Qed.
Print Assumptions C129_small_not_invertible.

(** "A non-zero quaternion whose inverse is representable is inverted" is false in [f64]: 2^-60 has no inverse (threshold), and the
    inverse of 2^600 is zero (the squared norm overflows), with a zero product. *)
Theorem C129_inverse_refuted :
  (exists q : quat f64, (forall i, (i < 4)%nat -> is_finite (vat (q : vec f64 4) i) = true) /\ 0 < B2R (vat (q : vec f64 4) 0) /\
     is_finite (ndiv n1 (vat (q : vec f64 4) 0)) = true /\ fqtry_inverse q = None) /\
  (exists q v : quat f64, (forall i, (i < 4)%nat -> is_finite (vat (q : vec f64 4) i) = true) /\
     0 < B2R (ndiv n1 (vat (q : vec f64 4) 0)) /\ fqtry_inverse q = Some v /\ (forall i, (i < 4)%nat -> B2R (vat (v : vec f64 4) i) = 0) /\
     (forall i, (i < 4)%nat -> B2R (vat (qmul q v : vec f64 4) i) = 0)).
Proof. exact c129_refuted. Qed.
Print Assumptions C129_inverse_refuted.

(** The hypotheses hold for 1 + 2i + 2j + 4k in [f64]. *)
Example C129_example :
  let q := qnew (f64_of_Z 1) (f64_of_Z 2) (f64_of_Z 2) (f64_of_Z 4) in
  let val (q : quat f64) : rquat := (B2R (vat (q : vec _ 4) 0), B2R (vat (q : vec _ 4) 1), B2R (vat (q : vec _ 4) 2), B2R (vat (q : vec _ 4) 3)) in
  (forall i, (i < 4)%nat -> is_finite (vat (q : vec f64 4) i) = true) /\ qlength (val q) = 5 /\
  bpow radix2 (- 10) <= 5 <= bpow radix2 10 /\ bpow radix2 (2 - 53) <= 5 /\ (2 * 10 + 32 <= 1024)%Z /\
  rqinv (val q) = (1 / 25, - 2 / 25, - 2 / 25, - 4 / 25).
Proof. exact c129_example. Qed.
