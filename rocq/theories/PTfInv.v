(** Property theorems about inverting affine transforms in floats (C162). *)

From Coq Require Import List Arith ZArith Reals.
From Flocq Require Import Core.Core IEEE754.BinarySingleNaN.
From Verif Require Import Base Scalar Spec SpecF MReal MVector MMatrix MPoint MTransform MFloat LTfInvP.
Local Open Scope R_scope.

(** ** C162 *)

(** For an invertible affine transform of the plane, the float inverse exists, never fails on a point, and moves vectors and points to near the exact preimage; the constant D measures how far the determinant is from zero. *)
Theorem C162_inverse2 :
  forall (prec emax : Z) (Hp : Prec_gt_0 prec) (He : Prec_lt_emax prec emax) (M P : R) (D : Z) (f : transform (binary_float prec emax) 2),
  let u := bpow radix2 (- prec) in let a k i := B2R (mget f k i) in let X := IZR D * IZR D * u * (P / M) in
  (24 <= prec)%Z -> (31 <= emax)%Z -> 0 < M -> (1 <= D < 2 ^ 26)%Z -> (2 ^ 32 * (D * D) <= 2 ^ prec)%Z -> bpow radix2 (31 - emax) <= M * M * M <= bpow radix2 (emax - 31) ->
  (forall j i, (j < 3)%nat -> (i < 3)%nat -> fbnd M (mget f j i)) -> M * M * M <= IZR D * Rabs (laplace 3 (fun i j => B2R (mget f j i))) ->
  (forall k, (k < 2)%nat -> a k 2%nat = 0) -> a 2%nat 2%nat = 1 -> 0 < P -> bpow radix2 (31 - emax) <= P / M -> 12 * IZR D * (P / M) <= bpow radix2 (emax - 31) ->
  (forall v : vec (binary_float prec emax) 2, (forall k, (k < 2)%nat -> fbnd P (vat v k)) ->
    exists y (x : nat -> R), tf2inverse_apply_vector f v = Some y /\ (forall i, (i < 2)%nat -> sum 2 (fun k => a k i * x k) = B2R (vat v i)) /\ forall i, (i < 2)%nat -> fnear (vat y i) (x i) (495 * X)) /\
  (forall p : point (binary_float prec emax) 2, (forall k, (k < 2)%nat -> fbnd P (vat p k)) -> 1 <= P -> 2048 * X <= 1 ->
    exists q (x : nat -> R), tf2inverse_apply_point f p = Some (Some q) /\ (forall i, (i < 2)%nat -> sum 2 (fun k => a k i * x k) + a 2%nat i = B2R (vat p i)) /\ forall i, (i < 2)%nat -> fnear (vat q i) (x i) (1704 * X * (1 + Rabs (x i)))).
Proof. exact c162_inverse2. Qed.
Print Assumptions C162_inverse2.

(** The same in space, with larger constants. *)
Theorem C162_inverse3 :
  forall (prec emax : Z) (Hp : Prec_gt_0 prec) (He : Prec_lt_emax prec emax) (M P : R) (D : Z) (f : transform (binary_float prec emax) 3),
  let u := bpow radix2 (- prec) in let a k i := B2R (mget f k i) in let X := IZR D * IZR D * u * (P / M) in
  (24 <= prec)%Z -> (31 <= emax)%Z -> 0 < M -> (1 <= D < 2 ^ 26)%Z -> (2 ^ 38 * (D * D) <= 2 ^ prec)%Z -> bpow radix2 (31 - emax) <= M * M * M * M <= bpow radix2 (emax - 31) ->
  (forall j i, (j < 4)%nat -> (i < 4)%nat -> fbnd M (mget f j i)) -> M * M * M * M <= IZR D * Rabs (laplace 4 (fun i j => B2R (mget f j i))) ->
  (forall k, (k < 3)%nat -> a k 3%nat = 0) -> a 3%nat 3%nat = 1 -> 0 < P -> bpow radix2 (31 - emax) <= P / M -> 28 * IZR D * (P / M) <= bpow radix2 (emax - 31) ->
  (forall v : vec (binary_float prec emax) 3, (forall k, (k < 3)%nat -> fbnd P (vat v k)) ->
    exists y (x : nat -> R), tf3inverse_apply_vector f v = Some y /\ (forall i, (i < 3)%nat -> sum 3 (fun k => a k i * x k) = B2R (vat v i)) /\ forall i, (i < 3)%nat -> fnear (vat y i) (x i) (13698 * X)) /\
  (forall p : point (binary_float prec emax) 3, (forall k, (k < 3)%nat -> fbnd P (vat p k)) -> 1 <= P -> 40000 * X <= 1 ->
    exists q (x : nat -> R), tf3inverse_apply_point f p = Some (Some q) /\ (forall i, (i < 3)%nat -> sum 3 (fun k => a k i * x k) + a 3%nat i = B2R (vat p i)) /\ forall i, (i < 3)%nat -> fnear (vat q i) (x i) (37424 * X * (1 + Rabs (x i)))).
Proof. exact c162_inverse3. Qed.
Print Assumptions C162_inverse3.

(** An affine transform of the plane in f64 with determinant 5 and a point whose preimage (4/5, -2/5) is not a float. *)
Example C162_example :
  let z := f64_of_Z in
  let f : transform f64 2 := m3new (z 3%Z) (z 1%Z) (z 0%Z) (z 1%Z) (z 2%Z) (z 0%Z) (z 2%Z) (z (-3)%Z) (z 1%Z) in
  let p : point f64 2 := v2 (z 4%Z) (z (-3)%Z) in
  (forall k i, (k < 3)%nat -> (i < 3)%nat -> fbnd 3 (mget f k i)) /\ laplace 3 (fun i j => B2R (mget f j i)) = 5 /\ (forall k, (k < 2)%nat -> fbnd 4 (vat p k)) /\
  exists q, tf2inverse_apply_point f p = Some (Some q) /\ fnear (vat q 0) (4 / 5) (150000 * bpow radix2 (- 53)) /\ fnear (vat q 1) (- 2 / 5) (150000 * bpow radix2 (- 53)).
Proof. exact c162_example. Qed.
