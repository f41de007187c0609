(** Float arithmetic: exact on integers, accurate on bounded inputs. *)

From Coq Require Import List Arith ZArith Bool Lia Reals.
From Flocq Require Import Core.Core IEEE754.BinarySingleNaN.
From Verif Require Import Base Scalar Spec SpecF MVector MMatrix MComplex MQuat MFloat LFloatExP.

(** ** C108 Float arithmetic on integer-valued data is exact *)

(** Every format and dimension: integer components of magnitude at most [A] and [B] with
    n A B < 2^prec. *)
Theorem C108_dot_exact :
  forall (prec emax : Z) (Hp : Prec_gt_0 prec) (He : Prec_lt_emax prec emax) (n : nat)
    (u v : vec (binary_float prec emax) n) (a b : vec Z n) (A B : Z),
    (forall i, (i < n)%nat -> fint (vat u i) (vat a i) /\ (Z.abs (vat a i) <= A)%Z) ->
    (forall i, (i < n)%nat -> fint (vat v i) (vat b i) /\ (Z.abs (vat b i) <= B)%Z) ->
    (0 <= A)%Z -> (0 <= B)%Z -> (Z.of_nat n * (A * B) < 2 ^ prec)%Z ->
    fint (vdot u v) (sum n (fun i => vat a i * vat b i)%Z).
Proof. exact c108_dot_exact. Qed.
Print Assumptions C108_dot_exact.

(** Products of matrices (and matrix times column vector, the case k = 1). *)
Theorem C108_matrix_product_exact :
  forall (prec emax : Z) (Hp : Prec_gt_0 prec) (He : Prec_lt_emax prec emax) (r c k : nat)
    (m : mat (binary_float prec emax) r c) (p : mat (binary_float prec emax) c k)
    (v : vec (binary_float prec emax) c)
    (a : mat Z r c) (b : mat Z c k) (w : vec Z c) (A B : Z),
    (forall j i, (j < c)%nat -> (i < r)%nat -> fint (mget m j i) (mget a j i) /\ (Z.abs (mget a j i) <= A)%Z) ->
    (forall j i, (j < k)%nat -> (i < c)%nat -> fint (mget p j i) (mget b j i) /\ (Z.abs (mget b j i) <= B)%Z) ->
    (forall i, (i < c)%nat -> fint (vat v i) (vat w i) /\ (Z.abs (vat w i) <= B)%Z) ->
    (0 <= A)%Z -> (0 <= B)%Z -> (Z.of_nat c * (A * B) < 2 ^ prec)%Z ->
    (forall j i, (j < k)%nat -> (i < r)%nat ->
       fint (mget (mmul m p) j i) (sum c (fun l => mget a l i * mget b j l)%Z)) /\
    (forall i, (i < r)%nat -> fint (vat (mmulv m v) i) (sum c (fun l => mget a l i * vat w l)%Z)).
Proof. exact c108_matrix_product_exact. Qed.
Print Assumptions C108_matrix_product_exact.

(** Determinants of matrices with integer entries of magnitude at most [A]: n! A^n < 2^prec suffices
    ([laplace] is the mathematical determinant). *)
Theorem C108_determinant_exact :
  forall (prec emax : Z) (Hp : Prec_gt_0 prec) (He : Prec_lt_emax prec emax) (A : Z), (1 <= A)%Z ->
    (forall (m : mat (binary_float prec emax) 2 2) (a : mat Z 2 2), (2 * (A * A) < 2 ^ prec)%Z ->
       (forall j i, (j < 2)%nat -> (i < 2)%nat -> fint (mget m j i) (mget a j i) /\ (Z.abs (mget a j i) <= A)%Z) ->
       fint (m2det m) (laplace 2 (fun i j => mget a j i))) /\
    (forall (m : mat (binary_float prec emax) 3 3) (a : mat Z 3 3), (6 * (A * A * A) < 2 ^ prec)%Z ->
       (forall j i, (j < 3)%nat -> (i < 3)%nat -> fint (mget m j i) (mget a j i) /\ (Z.abs (mget a j i) <= A)%Z) ->
       fint (m3det m) (laplace 3 (fun i j => mget a j i))) /\
    (forall (m : mat (binary_float prec emax) 4 4) (a : mat Z 4 4), (24 * (A * A * A * A) < 2 ^ prec)%Z ->
       (forall j i, (j < 4)%nat -> (i < 4)%nat -> fint (mget m j i) (mget a j i) /\ (Z.abs (mget a j i) <= A)%Z) ->
       fint (m4det m) (laplace 4 (fun i j => mget a j i))).
Proof. exact c108_determinant_exact. Qed.
Print Assumptions C108_determinant_exact.

(** For such matrices [try_inverse] returns [None] exactly when the matrix is singular. *)
Theorem C108_try_inverse_exact :
  forall (prec emax : Z) (Hp : Prec_gt_0 prec) (He : Prec_lt_emax prec emax) (A : Z), (1 <= A)%Z ->
    (forall (m : mat (binary_float prec emax) 2 2) (a : mat Z 2 2), (2 * (A * A) < 2 ^ prec)%Z ->
       (forall j i, (j < 2)%nat -> (i < 2)%nat -> fint (mget m j i) (mget a j i) /\ (Z.abs (mget a j i) <= A)%Z) ->
       (m2try_inverse m = None <-> laplace 2 (fun i j => mget a j i) = 0%Z)) /\
    (forall (m : mat (binary_float prec emax) 3 3) (a : mat Z 3 3), (6 * (A * A * A) < 2 ^ prec)%Z ->
       (forall j i, (j < 3)%nat -> (i < 3)%nat -> fint (mget m j i) (mget a j i) /\ (Z.abs (mget a j i) <= A)%Z) ->
       (m3try_inverse m = None <-> laplace 3 (fun i j => mget a j i) = 0%Z)) /\
    (forall (m : mat (binary_float prec emax) 4 4) (a : mat Z 4 4), (24 * (A * A * A * A) < 2 ^ prec)%Z ->
       (forall j i, (j < 4)%nat -> (i < 4)%nat -> fint (mget m j i) (mget a j i) /\ (Z.abs (mget a j i) <= A)%Z) ->
       (m4try_inverse m = None <-> laplace 4 (fun i j => mget a j i) = 0%Z)).
Proof. exact c108_try_inverse_exact. Qed.
Print Assumptions C108_try_inverse_exact.

(** Complex, cross and quaternion products of integers bounded by [A]. *)
Theorem C108_products_exact :
  forall (prec emax : Z) (Hp : Prec_gt_0 prec) (He : Prec_lt_emax prec emax) (A : Z),
    (1 <= A)%Z -> (4 * (A * A) < 2 ^ prec)%Z ->
    (forall (z w : complex (binary_float prec emax)) (a b : complex Z),
       fint (re z) (re a) -> fint (im z) (im a) -> fint (re w) (re b) -> fint (im w) (im b) ->
       (Z.abs (re a) <= A)%Z -> (Z.abs (im a) <= A)%Z -> (Z.abs (re b) <= A)%Z -> (Z.abs (im b) <= A)%Z ->
       fint (re (cmul z w)) (re a * re b - im a * im b)%Z /\ fint (im (cmul z w)) (re a * im b + im a * re b)%Z) /\
    (forall (u v : vec (binary_float prec emax) 3) (a b : vec Z 3),
       (forall i, (i < 3)%nat -> fint (vat u i) (vat a i) /\ (Z.abs (vat a i) <= A)%Z) ->
       (forall i, (i < 3)%nat -> fint (vat v i) (vat b i) /\ (Z.abs (vat b i) <= A)%Z) ->
       fint (vat (vcross u v) 0) (vat a 1 * vat b 2 - vat a 2 * vat b 1)%Z /\
       fint (vat (vcross u v) 1) (vat a 2 * vat b 0 - vat a 0 * vat b 2)%Z /\
       fint (vat (vcross u v) 2) (vat a 0 * vat b 1 - vat a 1 * vat b 0)%Z) /\
    (forall (p q : quat (binary_float prec emax)) (a b : quat Z),
       (forall i, (i < 4)%nat -> fint (vat (p : vec _ 4) i) (vat (a : vec _ 4) i) /\ (Z.abs (vat (a : vec _ 4) i) <= A)%Z) ->
       (forall i, (i < 4)%nat -> fint (vat (q : vec _ 4) i) (vat (b : vec _ 4) i) /\ (Z.abs (vat (b : vec _ 4) i) <= A)%Z) ->
       let x := fun i => vat (a : vec _ 4) i in let y := fun i => vat (b : vec _ 4) i in let r := qmul p q : vec _ 4 in
       fint (vat r 0) (x 0%nat * y 0%nat - x 1%nat * y 1%nat - x 2%nat * y 2%nat - x 3%nat * y 3%nat)%Z /\
       fint (vat r 1) (x 0%nat * y 1%nat + x 1%nat * y 0%nat + x 2%nat * y 3%nat - x 3%nat * y 2%nat)%Z /\
       fint (vat r 2) (x 0%nat * y 2%nat - x 1%nat * y 3%nat + x 2%nat * y 0%nat + x 3%nat * y 1%nat)%Z /\
       fint (vat r 3) (x 0%nat * y 3%nat + x 1%nat * y 2%nat - x 2%nat * y 1%nat + x 3%nat * y 0%nat)%Z).
Proof. exact c108_products_exact. Qed.
Print Assumptions C108_products_exact.

(** The determinant of [[1, 2], [3, 4]] and the product (1 + 2i)(3 + 4i) in [f64]. *)
Example C108_example :
  fint (m2det (m2new (f64_of_Z 1) (f64_of_Z 3) (f64_of_Z 2) (f64_of_Z 4))) (-2) /\
  fint (re (cmul (mkC (f64_of_Z 1) (f64_of_Z 2)) (mkC (f64_of_Z 3) (f64_of_Z 4)))) (-5) /\ (24 * (4 * 4 * 4 * 4) < 2 ^ 53)%Z.
Proof. exact c108_example. Qed.

(** ** C109 Accuracy of products of complex numbers, vectors and quaternions, and of determinants *)

(** Every format with at least 24 bits ([f32], [f64]), arguments bounded by [P] and [N] with [P * N] not near the
    overflow or underflow threshold: no overflow, and every component is within 5 units roundoff of the exact
    value, relative to [P * N]. *)
Theorem C109_complex_product :
  forall (prec emax : Z) (Hp : Prec_gt_0 prec) (He : Prec_lt_emax prec emax) (P N : R)
    (z w : complex (binary_float prec emax)),
    (24 <= prec)%Z -> (0 < P)%R -> (0 < N)%R ->
    (bpow radix2 (31 - emax) <= P * N <= bpow radix2 (emax - 31))%R ->
    fbnd P (re z) -> fbnd P (im z) -> fbnd N (re w) -> fbnd N (im w) ->
    fnear (re (cmul z w)) (B2R (re z) * B2R (re w) - B2R (im z) * B2R (im w))%R (5 * bpow radix2 (- prec) * (P * N))%R /\
    fnear (im (cmul z w)) (B2R (re z) * B2R (im w) + B2R (im z) * B2R (re w))%R (5 * bpow radix2 (- prec) * (P * N))%R.
Proof. exact c109_complex_product. Qed.
Print Assumptions C109_complex_product.

Theorem C109_cross_product :
  forall (prec emax : Z) (Hp : Prec_gt_0 prec) (He : Prec_lt_emax prec emax) (P N : R)
    (u v : vec (binary_float prec emax) 3),
    (24 <= prec)%Z -> (0 < P)%R -> (0 < N)%R ->
    (bpow radix2 (31 - emax) <= P * N <= bpow radix2 (emax - 31))%R ->
    (forall i, (i < 3)%nat -> fbnd P (vat u i)) -> (forall i, (i < 3)%nat -> fbnd N (vat v i)) ->
    let U := fun i => B2R (vat u i) in let V := fun i => B2R (vat v i) in
    let e := (5 * bpow radix2 (- prec) * (P * N))%R in
    fnear (vat (vcross u v) 0) (U 1%nat * V 2%nat - U 2%nat * V 1%nat)%R e /\
    fnear (vat (vcross u v) 1) (U 2%nat * V 0%nat - U 0%nat * V 2%nat)%R e /\
    fnear (vat (vcross u v) 2) (U 0%nat * V 1%nat - U 1%nat * V 0%nat)%R e.
Proof. exact c109_cross_product. Qed.
Print Assumptions C109_cross_product.

(** Components of the Hamilton product. *)
Theorem C109_quaternion_product :
  forall (prec emax : Z) (Hp : Prec_gt_0 prec) (He : Prec_lt_emax prec emax) (P N : R)
    (p q : quat (binary_float prec emax)),
    (24 <= prec)%Z -> (0 < P)%R -> (0 < N)%R ->
    (bpow radix2 (31 - emax) <= P * N <= bpow radix2 (emax - 31))%R ->
    (forall i, (i < 4)%nat -> fbnd P (vat (p : vec _ 4) i)) -> (forall i, (i < 4)%nat -> fbnd N (vat (q : vec _ 4) i)) ->
    let a := fun i => B2R (vat (p : vec _ 4) i) in let b := fun i => B2R (vat (q : vec _ 4) i) in
    let r := qmul p q : vec _ 4 in let e := (15 * bpow radix2 (- prec) * (P * N))%R in
    fnear (vat r 0) (a 0%nat * b 0%nat - a 1%nat * b 1%nat - a 2%nat * b 2%nat - a 3%nat * b 3%nat)%R e /\
    fnear (vat r 1) (a 0%nat * b 1%nat + a 1%nat * b 0%nat + a 2%nat * b 3%nat - a 3%nat * b 2%nat)%R e /\
    fnear (vat r 2) (a 0%nat * b 2%nat - a 1%nat * b 3%nat + a 2%nat * b 0%nat + a 3%nat * b 1%nat)%R e /\
    fnear (vat r 3) (a 0%nat * b 3%nat + a 1%nat * b 2%nat - a 2%nat * b 1%nat + a 3%nat * b 0%nat)%R e.
Proof. exact c109_quaternion_product. Qed.
Print Assumptions C109_quaternion_product.

(** Entries bounded by [M]: errors of 5, 33 and 372 units roundoff relative to M^n; [laplace] is the
    mathematical determinant of the matrix of real values. *)
Theorem C109_determinants :
  forall (prec emax : Z) (Hp : Prec_gt_0 prec) (He : Prec_lt_emax prec emax) (M : R),
    (24 <= prec)%Z -> (31 <= emax)%Z -> (0 < M)%R ->
    (forall m : mat (binary_float prec emax) 2 2,
       (bpow radix2 (31 - emax) <= M * M <= bpow radix2 (emax - 31))%R ->
       (forall j i, (j < 2)%nat -> (i < 2)%nat -> fbnd M (mget m j i)) ->
       fnear (m2det m) (laplace 2 (fun i j => B2R (mget m j i))) (5 * bpow radix2 (- prec) * (M * M))%R) /\
    (forall m : mat (binary_float prec emax) 3 3,
       (bpow radix2 (31 - emax) <= M * M * M <= bpow radix2 (emax - 31))%R ->
       (forall j i, (j < 3)%nat -> (i < 3)%nat -> fbnd M (mget m j i)) ->
       fnear (m3det m) (laplace 3 (fun i j => B2R (mget m j i))) (33 * bpow radix2 (- prec) * (M * M * M))%R) /\
    (forall m : mat (binary_float prec emax) 4 4,
       (bpow radix2 (31 - emax) <= M * M * M * M <= bpow radix2 (emax - 31))%R ->
       (forall j i, (j < 4)%nat -> (i < 4)%nat -> fbnd M (mget m j i)) ->
       fnear (m4det m) (laplace 4 (fun i j => B2R (mget m j i))) (372 * bpow radix2 (- prec) * (M * M * M * M))%R).
Proof. exact c109_determinants. Qed.
Print Assumptions C109_determinants.

(** Arguments bounded by 4 in [f64]: all the scales are admissible. *)
Example C109_example :
  (bpow radix2 (31 - 1024) <= 4 * 4 * 4 * 4 <= bpow radix2 (1024 - 31))%R /\ fbnd 4 (f64_of_Z 3) /\ fbnd 4 (ndiv (f64_of_Z 1) (f64_of_Z 4)).
Proof. exact c109_example. Qed.

(** ** C110 Complex division and inverse in floats *)

(** [N] is the modulus of the divisor, [P] bounds the dividend; the scales of the numerator, the denominator and
    the quotient stay away from the overflow and underflow thresholds.  Then nothing overflows and both components
    of [z / w] are within 15 units roundoff of the exact quotient, relative to [P / N]. *)
Theorem C110_division_partial :
  forall (prec emax : Z) (Hp : Prec_gt_0 prec) (He : Prec_lt_emax prec emax) (P : R)
    (z w : complex (binary_float prec emax)),
    let n2 := (B2R (re w) * B2R (re w) + B2R (im w) * B2R (im w))%R in let N := sqrt n2 in
    (47 <= prec)%Z -> (0 < P)%R -> (0 < N)%R ->
    (bpow radix2 (31 - emax) <= P * N <= bpow radix2 (emax - 31))%R ->
    (bpow radix2 (31 - emax) <= N * N <= bpow radix2 (emax - 31))%R ->
    (bpow radix2 (31 - emax) <= P / N <= bpow radix2 (emax - 31))%R ->
    fbnd P (re z) -> fbnd P (im z) -> is_finite (re w) = true -> is_finite (im w) = true ->
    fnear (re (cdiv z w)) ((B2R (re z) * B2R (re w) + B2R (im z) * B2R (im w)) / n2)%R (15 * bpow radix2 (- prec) * (P / N))%R /\
    fnear (im (cdiv z w)) ((B2R (im z) * B2R (re w) - B2R (re z) * B2R (im w)) / n2)%R (15 * bpow radix2 (- prec) * (P / N))%R.
Proof. exact c110_division_partial. Qed.
Print Assumptions C110_division_partial.

Theorem C110_inverse_partial :
  forall (prec emax : Z) (Hp : Prec_gt_0 prec) (He : Prec_lt_emax prec emax) (w : complex (binary_float prec emax)),
    let n2 := (B2R (re w) * B2R (re w) + B2R (im w) * B2R (im w))%R in let N := sqrt n2 in
    (47 <= prec)%Z -> (0 < N)%R ->
    (bpow radix2 (31 - emax) <= N * N <= bpow radix2 (emax - 31))%R ->
    (bpow radix2 (31 - emax) <= 1 / N <= bpow radix2 (emax - 31))%R ->
    is_finite (re w) = true -> is_finite (im w) = true ->
    exists v, ctry_inverse w = Some v /\
      fnear (re v) (B2R (re w) / n2)%R (6 * bpow radix2 (- prec) * (1 / N))%R /\
      fnear (im v) (- B2R (im w) / n2)%R (6 * bpow radix2 (- prec) * (1 / N))%R.
Proof. exact c110_inverse_partial. Qed.
Print Assumptions C110_inverse_partial.

(** "A finite non-zero complex number divided by itself is 1, and can be inverted when its inverse is representable"
    fails in [f64] outside that range: the square of the modulus overflows or underflows. *)
Theorem C110_division_refuted :
  (exists z : complex f64, is_finite (re z) = true /\ is_finite (im z) = true /\ (0 < B2R (re z))%R /\
     is_nan (re (cdiv z z)) = true) /\
  (exists z : complex f64, is_finite (re z) = true /\ is_finite (im z) = true /\ (0 < B2R (re z))%R /\
     is_finite (ndiv n1 (re z)) = true /\ ctry_inverse z = None) /\
  (exists z v : complex f64, is_finite (re z) = true /\ is_finite (im z) = true /\
     ctry_inverse z = Some v /\ is_finite (re v) = true /\ B2R (re v) = 0%R /\ (0 < B2R (ndiv n1 (re z)))%R).
Proof. exact c110_division_refuted. Qed.
Print Assumptions C110_division_refuted.

(** (3 + 4i) / (1 + 2i) in [f64]: all scales are moderate. *)
Example C110_example :
  let z := mkC (f64_of_Z 3) (f64_of_Z 4) in let w := mkC (f64_of_Z 1) (f64_of_Z 2) in
  fint (cmodulus_squared w) 5 /\ B2SF (re (cdiv z w)) = B2SF (ndiv (f64_of_Z 11) (f64_of_Z 5)) /\
  B2SF (im (cdiv z w)) = B2SF (ndiv (nneg (f64_of_Z 2)) (f64_of_Z 5)).
Proof. exact c110_example. Qed.

(** ** C111 Accuracy of matrix inverses in floats *)

(** 2x2: entries bounded by [M], and the determinant not smaller than [M^2 / D]. *)
Theorem C111_inverse2_partial :
  forall (prec emax : Z) (Hp : Prec_gt_0 prec) (He : Prec_lt_emax prec emax) (M : R) (D : Z) (m : mat (binary_float prec emax) 2 2),
    (24 <= prec)%Z -> (31 <= emax)%Z -> (0 < M)%R -> (1 <= D < 2 ^ 26)%Z -> (2 ^ 18 * (D * D) <= 2 ^ prec)%Z ->
    (bpow radix2 (31 - emax) <= M * M <= bpow radix2 (emax - 31))%R ->
    (forall j i, (j < 2)%nat -> (i < 2)%nat -> fbnd M (mget m j i)) ->
    (M * M <= IZR D * Rabs (laplace 2 (fun i j => B2R (mget m j i))))%R ->
    exists (w : mat (binary_float prec emax) 2 2) (c : mat R 2 2), m2try_inverse m = Some w /\
      (forall i j, (i < 2)%nat -> (j < 2)%nat -> sum 2 (fun k => (B2R (mget m k i) * mget c j k)%R) = delta i j) /\
      (forall i j, (i < 2)%nat -> (j < 2)%nat -> fnear (mget w j i) (mget c j i) (IZR (11 * D * D) * bpow radix2 (- prec) * (1 / M))%R).
Proof. exact c111_inverse2_partial. Qed.
Print Assumptions C111_inverse2_partial.

(** 3x3: entries bounded by [M], and the determinant not smaller than [M^3 / D]. *)
Theorem C111_inverse3_partial :
  forall (prec emax : Z) (Hp : Prec_gt_0 prec) (He : Prec_lt_emax prec emax) (M : R) (D : Z) (m : mat (binary_float prec emax) 3 3),
    (24 <= prec)%Z -> (31 <= emax)%Z -> (0 < M)%R -> (1 <= D < 2 ^ 26)%Z -> (2 ^ 32 * (D * D) <= 2 ^ prec)%Z ->
    (bpow radix2 (31 - emax) <= M * M * M <= bpow radix2 (emax - 31))%R ->
    (forall j i, (j < 3)%nat -> (i < 3)%nat -> fbnd M (mget m j i)) ->
    (M * M * M <= IZR D * Rabs (laplace 3 (fun i j => B2R (mget m j i))))%R ->
    exists (w : mat (binary_float prec emax) 3 3) (c : mat R 3 3), m3try_inverse m = Some w /\
      (forall i j, (i < 3)%nat -> (j < 3)%nat -> sum 3 (fun k => (B2R (mget m k i) * mget c j k)%R) = delta i j) /\
      (forall i j, (i < 3)%nat -> (j < 3)%nat -> fnear (mget w j i) (mget c j i) (IZR (141 * D * D) * bpow radix2 (- prec) * (1 / M))%R).
Proof. exact c111_inverse3_partial. Qed.
Print Assumptions C111_inverse3_partial.

(** 4x4: entries bounded by [M], and the determinant not smaller than [M^4 / D]. *)
Theorem C111_inverse4_partial :
  forall (prec emax : Z) (Hp : Prec_gt_0 prec) (He : Prec_lt_emax prec emax) (M : R) (D : Z) (m : mat (binary_float prec emax) 4 4),
    (24 <= prec)%Z -> (31 <= emax)%Z -> (0 < M)%R -> (1 <= D < 2 ^ 26)%Z -> (2 ^ 38 * (D * D) <= 2 ^ prec)%Z ->
    (bpow radix2 (31 - emax) <= M * M * M * M <= bpow radix2 (emax - 31))%R ->
    (forall j i, (j < 4)%nat -> (i < 4)%nat -> fbnd M (mget m j i)) ->
    (M * M * M * M <= IZR D * Rabs (laplace 4 (fun i j => B2R (mget m j i))))%R ->
    exists (w : mat (binary_float prec emax) 4 4) (c : mat R 4 4), m4try_inverse m = Some w /\
      (forall i j, (i < 4)%nat -> (j < 4)%nat -> sum 4 (fun k => (B2R (mget m k i) * mget c j k)%R) = delta i j) /\
      (forall i j, (i < 4)%nat -> (j < 4)%nat -> fnear (mget w j i) (mget c j i) (IZR (4510 * D * D) * bpow radix2 (- prec) * (1 / M))%R).
Proof. exact c111_inverse4_partial. Qed.
Print Assumptions C111_inverse4_partial.

(** A 2x2 matrix of finite floats whose real determinant is zero is always detected, if the products do not overflow. *)
Theorem C111_singular2 :
  forall (prec emax : Z) (Hp : Prec_gt_0 prec) (He : Prec_lt_emax prec emax) (m : mat (binary_float prec emax) 2 2),
    (forall j i, (j < 2)%nat -> (i < 2)%nat -> is_finite (mget m j i) = true) ->
    is_finite (nmul (mget m 0 0) (mget m 1 1)) = true ->
    laplace 2 (fun i j => B2R (mget m j i)) = 0%R -> m2try_inverse m = None.
Proof. exact c111_singular2. Qed.
Print Assumptions C111_singular2.

(** "[try_inverse] fails exactly for the singular matrices" is false in [f64]: an exactly singular 3x3 matrix of
    small integers is inverted; a diagonal matrix with representable inverse is rejected (its determinant underflows);
    a singular 2x2 matrix with finite entries is "inverted" to a matrix of NaNs (the products overflow). *)
Theorem C111_inverse_refuted :
  (exists (m : mat f64 3 3) (a : mat Z 3 3), (forall j i, (j < 3)%nat -> (i < 3)%nat -> fint (mget m j i) (mget a j i)) /\
     laplace 3 (fun i j => mget a j i) = 0%Z /\
     exists w, m3try_inverse m = Some w /\ is_finite (mget w 0 0) = true) /\
  (exists m : mat f64 2 2, m2try_inverse m = None /\ mget m 0 1 = n0 /\ mget m 1 0 = n0 /\
     (0 < B2R (mget m 0 0))%R /\ (0 < B2R (mget m 1 1))%R /\
     is_finite (ndiv n1 (mget m 0 0)) = true /\ is_finite (ndiv n1 (mget m 1 1)) = true) /\
  (exists m : mat f64 2 2, (forall j i, (j < 2)%nat -> (i < 2)%nat -> is_finite (mget m j i) = true) /\
     laplace 2 (fun i j => B2R (mget m j i)) = 0%R /\
     exists w, m2try_inverse m = Some w /\ is_nan (mget w 0 0) = true).
Proof. exact c111_inverse_refuted. Qed.
Print Assumptions C111_inverse_refuted.

(** [[1, 2], [3, 4]] in [f64]: M = 4 and D = 8 (determinant -2); the code returns [[-2, 1], [1.5, -0.5]] exactly here. *)
Example C111_example :
  let m := m2new (f64_of_Z 1) (f64_of_Z 3) (f64_of_Z 2) (f64_of_Z 4) in
  (2 ^ 18 * (8 * 8) <= 2 ^ 53)%Z /\ (4 * 4 <= IZR 8 * Rabs (1 * 4 - 2 * 3))%R /\
  match m2try_inverse m with
  | Some w => B2SF (mget w 0 0) = B2SF (f64_of_Z (-2)) /\ B2SF (mget w 1 0) = B2SF (f64_of_Z 1)
  | None => False
  end.
Proof. exact c111_example. Qed.
