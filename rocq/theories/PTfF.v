(** Property theorems about general transforms and homogeneous coordinates in floats (C153). *)

From Coq Require Import List Arith ZArith Reals.
From Flocq Require Import Core.Core IEEE754.BinarySingleNaN.
From Verif Require Import Base Scalar Spec SpecF SpecArc MReal MVector MMatrix MPoint MTransform MFloat LTfP.
Local Open Scope R_scope.

(** ** C153 *)

(** A vector, relative to the sum of the magnitudes of the products. *)
Theorem C153_vector :
  forall (prec emax : Z) (Hp : Prec_gt_0 prec) (He : Prec_lt_emax prec emax) (n : nat) (f : transform (binary_float prec emax) n) (v : vec (binary_float prec emax) n) (i : nat) (T : R),
  (24 <= prec)%Z -> (n <= 3)%nat -> (i < n)%nat -> (forall k, (k <= n)%nat -> is_finite (mget f k i) = true) -> all_finite v ->
  sum n (fun k => Rabs (B2R (mget f k i) * B2R (vat v k))) <= T -> bpow radix2 (31 - emax) <= T <= bpow radix2 (emax - 31) ->
  fnear (vat (tf_apply_vector f v) i) (sum n (fun k => B2R (mget f k i) * B2R (vat v k))) (8 * bpow radix2 (- prec) * T).
Proof. exact c153_vector. Qed.
Print Assumptions C153_vector.

(** A point under any transform, with the condition number kappa of the weight: the bound of the rows over the weight. *)
Theorem C153_point :
  forall (prec emax : Z) (Hp : Prec_gt_0 prec) (He : Prec_lt_emax prec emax) (n : nat) (f : transform (binary_float prec emax) n) (p : point (binary_float prec emax) n) (T kappa : R),
  let u := bpow radix2 (- prec) in let h i := sum n (fun k => B2R (mget f k i) * B2R (vat p k)) + B2R (mget f n i) in
  (24 <= prec)%Z -> (n <= 3)%nat -> (forall k i, (k <= n)%nat -> (i <= n)%nat -> is_finite (mget f k i) = true) -> all_finite (p : vec _ n) ->
  (forall i, (i <= n)%nat -> sum n (fun k => Rabs (B2R (mget f k i) * B2R (vat p k))) + Rabs (B2R (mget f n i)) <= T) ->
  bpow radix2 (31 - emax) <= T <= bpow radix2 (emax - 31) -> h n <> 0 -> T <= kappa * Rabs (h n) -> 64 * u * kappa <= 1 ->
  exists q, tf_apply_point f p = Some q /\ forall i, (i < n)%nat -> fnear (vat q i) (h i / h n) (12 * u * kappa * (1 + Rabs (h i / h n))).
Proof. exact c153_point. Qed.
Print Assumptions C153_point.

(** A point under an affine transform: the weight is exactly 1, so it never panics, and no condition number enters. *)
Theorem C153_affine :
  forall (prec emax : Z) (Hp : Prec_gt_0 prec) (He : Prec_lt_emax prec emax) (n : nat) (f : transform (binary_float prec emax) n) (p : point (binary_float prec emax) n),
  (24 <= prec)%Z -> (n <= 3)%nat -> (forall k i, (k <= n)%nat -> (i <= n)%nat -> is_finite (mget f k i) = true) -> all_finite (p : vec _ n) ->
  (forall k, (k < n)%nat -> B2R (mget f k n) = 0) -> B2R (mget f n n) = 1 ->
  exists q, tf_apply_point f p = Some q /\ forall i T, (i < n)%nat ->
    sum n (fun k => Rabs (B2R (mget f k i) * B2R (vat p k))) + Rabs (B2R (mget f n i)) <= T -> bpow radix2 (31 - emax) <= T <= bpow radix2 (emax - 31) ->
    fnear (vat q i) (sum n (fun k => B2R (mget f k i) * B2R (vat p k)) + B2R (mget f n i)) (8 * bpow radix2 (- prec) * T).
Proof. exact c153_affine. Qed.
Print Assumptions C153_affine.

(** Homogeneous coordinates: there and back is exact; otherwise each coordinate is the correctly rounded quotient; a zero weight gives None. *)
Theorem C153_homogeneous :
  forall (prec emax : Z) (Hp : Prec_gt_0 prec) (He : Prec_lt_emax prec emax) (n : nat),
  (forall p : point (binary_float prec emax) n, all_finite (p : vec _ n) ->
    exists q, pfrom_homogeneous (pto_homogeneous p) = Some q /\ forall i, (i < n)%nat -> is_finite (vat q i) = true /\ B2R (vat q i) = B2R (vat p i)) /\
  (forall v : vec (binary_float prec emax) (S n), all_finite v -> B2R (vat v n) <> 0 ->
    exists q, pfrom_homogeneous v = Some q /\ forall i, (i < n)%nat -> Rabs (B2R (vat v i) / B2R (vat v n)) <= bpow radix2 (emax - 1) ->
      is_finite (vat q i) = true /\ B2R (vat q i) = round radix2 (FLT_exp (3 - emax - prec) prec) ZnearestE (B2R (vat v i) / B2R (vat v n))) /\
  forall v : vec (binary_float prec emax) (S n), is_finite (vat v n) = true -> B2R (vat v n) = 0 -> pfrom_homogeneous v = None.
Proof. exact c153_homogeneous. Qed.
Print Assumptions C153_homogeneous.

(** The bound on kappa is needed: in f64 the weight can cancel to zero although its exact value is 1, and apply_point panics. *)
Theorem C153_cancelled_weight :
  exists (f : transform f64 2) (p : point f64 2), (forall k i, (k <= 2)%nat -> (i <= 2)%nat -> is_finite (mget f k i) = true) /\ all_finite (p : vec f64 2) /\
    sum 2 (fun k => B2R (mget f k 2) * B2R (vat p k)) + B2R (mget f 2 2) = 1 /\ tf_apply_point f p = None.
Proof. exact c153_cancelled_weight. Qed.
Print Assumptions C153_cancelled_weight.

(** A projective transform of the plane in f64 meets the hypotheses with T = 16 and kappa = 4. *)
Example C153_example :
  let f := m3new (f64_of_Z 2) (f64_of_Z 0) (f64_of_Z 1) (f64_of_Z 0) (f64_of_Z 3) (f64_of_Z 0) (f64_of_Z 5) (f64_of_Z 7) (f64_of_Z 4) : mat f64 3 3 in
  let p := (f64_of_Z 1, (f64_of_Z 2, tt)) : vec f64 2 in
  (forall i, (i <= 2)%nat -> sum 2 (fun k => Rabs (B2R (mget f k i) * B2R (vat p k))) + Rabs (B2R (mget f 2 i)) <= 16) /\
  sum 2 (fun k => B2R (mget f k 2) * B2R (vat p k)) + B2R (mget f 2 2) = 5 /\ 64 * bpow radix2 (-53) * 4 <= 1 /\
  exists q : point f64 2, tf_apply_point f p = Some q /\ fnear (vat q 0) (7 / 5) (bpow radix2 (-45)) /\ fnear (vat q 1) (13 / 5) (bpow radix2 (-45)).
Proof. exact c153_example. Qed.
