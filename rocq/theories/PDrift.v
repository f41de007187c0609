(** Property theorems about long products of quaternions, complex numbers and rotation matrices in floats (C122). *)

From Coq Require Import List Arith ZArith Reals.
From Flocq Require Import Core.Core IEEE754.BinarySingleNaN.
From Verif Require Import Base Scalar Spec SpecF SpecRot SpecDrift MVector MMatrix MComplex MQuat MFloat LFloatNormP LDriftP.

(** ** C122 *)

(** [k] float quaternions of length within [d] of one, multiplied from left to right: as long as k (d + 30 u) <= 1/4
    (u the unit roundoff) nothing overflows, the result is within 60 k u of the exact product of the given numbers, and
    its length is within 2 k (d + 30 u) of one. *)
Theorem C122_quaternion_products :
  forall (prec emax : Z) (Hp : Prec_gt_0 prec) (He : Prec_lt_emax prec emax) (d : R)
    (l : list (quat (binary_float prec emax))),
    (24 <= prec)%Z -> (32 <= emax)%Z -> (0 <= d)%R ->
    let u := bpow radix2 (- prec) in let k := INR (length l) in
    let val (q : quat (binary_float prec emax)) : rquat :=
      (B2R (vat (q : vec _ 4) 0), B2R (vat (q : vec _ 4) 1), B2R (vat (q : vec _ 4) 2), B2R (vat (q : vec _ 4) 3)) in
    (forall q, In q l ->
       (forall i, (i < 4)%nat -> is_finite (vat (q : vec _ 4) i) = true) /\ (Rabs (qlength (val q) - 1) <= d)%R) ->
    (k * (d + 30 * u) <= / 4)%R ->
    let r := fold_left qmul l qidentity in
    (forall i, (i < 4)%nat -> is_finite (vat (r : vec _ 4) i) = true) /\
    (qdistance (val r) (qproduct (map val l)) <= 60 * k * u)%R /\
    (Rabs (qlength (val r) - 1) <= 2 * k * (d + 30 * u))%R.
Proof. exact c122_quaternion_products. Qed.
Print Assumptions C122_quaternion_products.

(** The same for complex numbers (rotations of the plane), with 10 u per factor. *)
Theorem C122_complex_products :
  forall (prec emax : Z) (Hp : Prec_gt_0 prec) (He : Prec_lt_emax prec emax) (d : R)
    (l : list (complex (binary_float prec emax))),
    (24 <= prec)%Z -> (32 <= emax)%Z -> (0 <= d)%R ->
    let u := bpow radix2 (- prec) in let k := INR (length l) in
    let val (z : complex (binary_float prec emax)) : rcomplex := (B2R (re z), B2R (im z)) in
    (forall z, In z l ->
       is_finite (re z) = true /\ is_finite (im z) = true /\ (Rabs (rclength (val z) - 1) <= d)%R) ->
    (k * (d + 10 * u) <= / 4)%R ->
    let r := fold_left cmul l cidentity in
    is_finite (re r) = true /\ is_finite (im r) = true /\
    (rcdistance (val r) (rcproduct (map val l)) <= 20 * k * u)%R /\
    (Rabs (rclength (val r) - 1) <= 2 * k * (d + 10 * u))%R.
Proof. exact c122_complex_products. Qed.
Print Assumptions C122_complex_products.

(** [k] float matrices ([n <= 4]), each with entries within [d] of an orthonormal real matrix, multiplied from left to
    right: as long as D = k n (2 d + 24 u) <= 1/4 nothing overflows, every entry is within [D] of the product of the real
    matrices, and the rows of the result are orthonormal up to [3 D]. *)
Theorem C122_matrix_products :
  forall (prec emax : Z) (Hp : Prec_gt_0 prec) (He : Prec_lt_emax prec emax) (n : nat) (d : R)
    (l : list (mat (binary_float prec emax) n n * mat R n n)),
    (24 <= prec)%Z -> (32 <= emax)%Z -> (n <= 4)%nat -> (0 <= d)%R ->
    let u := bpow radix2 (- prec) in let D := (INR (length l) * (INR n * (2 * d + 24 * u)))%R in
    (forall a q, In (a, q) l ->
       orthonormal_columns q /\
       (forall j i, (j < n)%nat -> (i < n)%nat -> fnear (mget a j i) (mget q j i) d)) ->
    (D <= / 4)%R ->
    let r := fold_left mmul (map fst l) (midentity n) in
    (forall j i, (j < n)%nat -> (i < n)%nat ->
       fnear (mget r j i) (rmatproduct n (map (fun p j i => mget (snd p) j i) l) j i) D) /\
    (forall i i', (i < n)%nat -> (i' < n)%nat ->
       (Rabs (sum n (fun j => (B2R (mget r j i) * B2R (mget r j i'))%R) - delta i i') <= 3 * D)%R).
Proof. exact c122_matrix_products. Qed.
Print Assumptions C122_matrix_products.

(** Up to 2^40 factors (1/2, 1/2, 1/2, 1/2) in [f64] meet the hypotheses with [d = 0]. *)
Example C122_example :
  let h : f64 := ndiv (f64_of_Z 1) (f64_of_Z 2) in let q : quat f64 := qnew h h h h in
  qlength (B2R (vat (q : vec _ 4) 0), B2R (vat (q : vec _ 4) 1), B2R (vat (q : vec _ 4) 2), B2R (vat (q : vec _ 4) 3)) = 1%R /\
  (forall i, (i < 4)%nat -> is_finite (vat (q : vec _ 4) i) = true) /\
  (IZR (2 ^ 40) * (0 + 30 * bpow radix2 (- 53)) <= / 4)%R.
Proof. exact c122_example. Qed.

(** Rotation by the angle with cosine 3/5 and sine 4/5: the entries 0.6 and 0.8 rounded to [f64] meet the hypotheses with
    [d] the unit roundoff, for products of up to 2^40 of them. *)
Example C122_matrix_example :
  let c : f64 := ndiv (f64_of_Z 3) (f64_of_Z 5) in let s : f64 := ndiv (f64_of_Z 4) (f64_of_Z 5) in
  let a : mat f64 2 2 := v2 (v2 c s) (v2 (nneg s) c) in
  let q : mat R 2 2 := v2 (v2 (3 / 5)%R (4 / 5)%R) (v2 (- (4 / 5))%R (3 / 5)%R) in
  orthonormal_columns q /\
  (forall j i, (j < 2)%nat -> (i < 2)%nat -> fnear (mget a j i) (mget q j i) (bpow radix2 (- 53))) /\
  (IZR (2 ^ 40) * (INR 2 * (2 * bpow radix2 (- 53) + 24 * bpow radix2 (- 53))) <= / 4)%R.
Proof. exact c122_matrix_example. Qed.
