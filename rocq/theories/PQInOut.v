(** Property theorems about inner and outer products of quaternions in floats (C151). *)

From Coq Require Import List Arith ZArith Reals.
From Flocq Require Import Core.Core IEEE754.BinarySingleNaN.
From Verif Require Import Base Scalar SpecF SpecRigid MVector MQuat MFloat LQInOut.
Local Open Scope R_scope.

(** ** C151 *)

(** The inner product commutes exactly, for all floats, also NaN and infinities. *)
Theorem C151_inner_commutes :
  forall (prec emax : Z) (Hp : Prec_gt_0 prec) (He : Prec_lt_emax prec emax) (p q : quat (binary_float prec emax)), qinner p q = qinner q p.
Proof. exact c151_inner_commutes. Qed.
Print Assumptions C151_inner_commutes.

(** The components of the inner product: (ps qs - pv . qv, ps qv + qs pv), up to 18 units roundoff relative to the lengths. *)
Theorem C151_inner :
  forall (prec emax : Z) (Hp : Prec_gt_0 prec) (He : Prec_lt_emax prec emax) (p q : quat (binary_float prec emax)) (P N : R),
  (24 <= prec)%Z -> 0 < P -> 0 < N -> bpow radix2 (31 - emax) <= P * N <= bpow radix2 (emax - 31) ->
  (forall i, (i < 4)%nat -> is_finite (vat (p : vec _ 4) i) = true /\ is_finite (vat (q : vec _ 4) i) = true) ->
  let a := fun i => B2R (vat (p : vec _ 4) i) in let b := fun i => B2R (vat (q : vec _ 4) i) in let e := 18 * bpow radix2 (- prec) * (P * N) in
  rlength 4 a <= P -> rlength 4 b <= N ->
  fnear (vat (qinner p q : vec _ 4) 0) (a 0%nat * b 0%nat - (a 1%nat * b 1%nat + a 2%nat * b 2%nat + a 3%nat * b 3%nat)) e /\
  forall i, (1 <= i < 4)%nat -> fnear (vat (qinner p q : vec _ 4) i) (a 0%nat * b i + b 0%nat * a i) e.
Proof. exact c151_inner. Qed.
Print Assumptions C151_inner.

(** The components of the outer product: (0, pv x qv).  The scalar part is exactly zero, and swapping the factors exactly negates the value. *)
Theorem C151_outer :
  forall (prec emax : Z) (Hp : Prec_gt_0 prec) (He : Prec_lt_emax prec emax) (p q : quat (binary_float prec emax)) (P N : R),
  (24 <= prec)%Z -> 0 < P -> 0 < N -> bpow radix2 (31 - emax) <= P * N <= bpow radix2 (emax - 31) ->
  (forall i, (i < 4)%nat -> is_finite (vat (p : vec _ 4) i) = true /\ is_finite (vat (q : vec _ 4) i) = true) ->
  let a := fun i => B2R (vat (p : vec _ 4) i) in let b := fun i => B2R (vat (q : vec _ 4) i) in let e := 18 * bpow radix2 (- prec) * (P * N) in
  rlength 4 a <= P -> rlength 4 b <= N ->
  vat (qouter p q : vec _ 4) 0 = B754_zero false /\
  fnear (vat (qouter p q : vec _ 4) 1) (a 2%nat * b 3%nat - a 3%nat * b 2%nat) e /\
  fnear (vat (qouter p q : vec _ 4) 2) (a 3%nat * b 1%nat - a 1%nat * b 3%nat) e /\
  fnear (vat (qouter p q : vec _ 4) 3) (a 1%nat * b 2%nat - a 2%nat * b 1%nat) e /\
  forall i, (i < 4)%nat -> B2R (vat (qouter q p : vec _ 4) i) = - B2R (vat (qouter p q : vec _ 4) i).
Proof. exact c151_outer. Qed.
Print Assumptions C151_outer.

(** The outer product of a quaternion with itself is exactly zero if its square does not overflow. *)
Theorem C151_outer_self :
  forall (prec emax : Z) (Hp : Prec_gt_0 prec) (He : Prec_lt_emax prec emax) (q : quat (binary_float prec emax)), (24 <= prec)%Z ->
  (forall i, (i < 4)%nat -> is_finite (vat (qsquared q : vec _ 4) i) = true) -> qouter q q = qzero.
Proof. exact c151_outer_self. Qed.
Print Assumptions C151_outer_self.

(** The sum of the two products overflows although both products are exact: the inner product of 2^1023 and 1 is infinite. *)
Theorem C151_overflow :
  exists p : quat f64, (forall i, (i < 4)%nat -> is_finite (vat (p : vec f64 4) i) = true) /\ qmul p qidentity = p /\ qmul qidentity p = p /\
  qscalar (qinner p qidentity) = B754_infinity false.
Proof. exact c151_overflow. Qed.
Print Assumptions C151_overflow.

(** 1 + 2 i + 3 j + 4 k and 5 + 6 i + 7 j + 8 k in f64. *)
Example C151_example :
  let f := f64_of_Z in let p := qnew (f 1%Z) (f 2%Z) (f 3%Z) (f 4%Z) in let q := qnew (f 5%Z) (f 6%Z) (f 7%Z) (f 8%Z) in
  (bpow radix2 (31 - 1024) <= 6 * 14 <= bpow radix2 (1024 - 31) /\ rlength 4 (fun i => B2R (vat (p : vec f64 4) i)) <= 6 /\ rlength 4 (fun i => B2R (vat (q : vec f64 4) i)) <= 14 /\
   forall i, (i < 4)%nat -> is_finite (vat (p : vec f64 4) i) = true /\ is_finite (vat (q : vec f64 4) i) = true) /\
  qinner p q = qnew (f (-60)%Z) (f 16%Z) (f 22%Z) (f 28%Z) /\ qouter p q = qnew (f 0%Z) (f (-4)%Z) (f 8%Z) (f (-4)%Z).
Proof. exact c151_example. Qed.
