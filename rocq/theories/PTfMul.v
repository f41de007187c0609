(** Property theorems about products of affine transforms in floats (C161). *)

From Coq Require Import List Arith ZArith Reals.
From Flocq Require Import Core.Core IEEE754.BinarySingleNaN.
From Verif Require Import Base Scalar Spec SpecF SpecArc MReal MVector MMatrix MPoint MTransform MFloat LTfMulP.
Local Open Scope R_scope.

(** ** C161 *)

(** The product of two affine transforms is again affine without any rounding in its last row, never fails on a point, and moves points and vectors to within 264 u F G P of the exact composite. *)
Theorem C161_product :
  forall (prec emax : Z) (Hp : Prec_gt_0 prec) (He : Prec_lt_emax prec emax) (n : nat) (f g : transform (binary_float prec emax) n) (F G P : R),
  let u := bpow radix2 (- prec) in let a k i := B2R (mget f k i) in let b k i := B2R (mget g k i) in
  (24 <= prec)%Z -> (36 <= emax)%Z -> (n <= 3)%nat -> 1 <= F -> 1 <= G -> 1 <= P -> F * G * P <= bpow radix2 (emax - 36) ->
  (forall k i, (k <= n)%nat -> (i <= n)%nat -> fbnd F (mget f k i) /\ fbnd G (mget g k i)) ->
  (forall k, (k < n)%nat -> a k n = 0 /\ b k n = 0) -> a n n = 1 -> b n n = 1 ->
  (forall k, (k <= n)%nat -> is_finite (mget (tf_mul f g) k n) = true /\ B2R (mget (tf_mul f g) k n) = b k n) /\
  (forall p : point (binary_float prec emax) n, (forall k, (k < n)%nat -> fbnd P (vat p k)) ->
    exists q, tf_apply_point (tf_mul f g) p = Some q /\ forall i, (i < n)%nat ->
      fnear (vat q i) (sum n (fun k => a k i * (sum n (fun j => b j k * B2R (vat p j)) + b n k)) + a n i) (264 * u * (F * G * P))) /\
  (forall v : vec (binary_float prec emax) n, (forall k, (k < n)%nat -> fbnd P (vat v k)) -> forall i, (i < n)%nat ->
    fnear (vat (tf_apply_vector (tf_mul f g) v) i) (sum n (fun k => a k i * sum n (fun j => b j k * B2R (vat v j)))) (264 * u * (F * G * P))).
Proof. exact c161_product. Qed.
Print Assumptions C161_product.

(** Two affine transforms of the plane in f64. *)
Example C161_example :
  let z := f64_of_Z in
  let f : transform f64 2 := m3new (z 2%Z) (z 1%Z) (z 0%Z) (z (-1)%Z) (z 3%Z) (z 0%Z) (z 3%Z) (z (-2)%Z) (z 1%Z) in
  let g : transform f64 2 := m3new (z 0%Z) (z 1%Z) (z 0%Z) (z (-1)%Z) (z 0%Z) (z 0%Z) (z 2%Z) (z 3%Z) (z 1%Z) in
  let p : point f64 2 := v2 (z 4%Z) (z (-3)%Z) in
  (forall k i, (k <= 2)%nat -> (i <= 2)%nat -> fbnd 3 (mget f k i) /\ fbnd 3 (mget g k i)) /\ (forall k, (k < 2)%nat -> fbnd 4 (vat p k)) /\
  exists q, tf_apply_point (tf_mul f g) p = Some q /\ fnear (vat q 0) 6 (264 * bpow radix2 (- 53) * 36) /\ fnear (vat q 1) 24 (264 * bpow radix2 (- 53) * 36).
Proof. exact c161_example. Qed.
