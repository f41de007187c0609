(** Property theorems about scaling by a scalar and dividing by it in floats (C165). *)

From Coq Require Import List Arith ZArith Reals.
From Flocq Require Import Core.Core IEEE754.BinarySingleNaN.
From Verif Require Import Base Scalar SpecF MReal MVector MMatrix MPoint MComplex MQuat MFloat LDivFP.
Local Open Scope R_scope.

(** ** C165 *)

(** Multiplying by a scalar and dividing by it returns every component to within 2 u of itself, and exactly when the product was exact, for vectors, matrices, quaternions and complex numbers. *)
Theorem C165_back :
  forall (prec emax : Z) (Hp : Prec_gt_0 prec) (He : Prec_lt_emax prec emax) (s : binary_float prec emax),
  let ok x := is_finite x = true /\ Rabs (B2R x) <= bpow radix2 (emax - 2) /\ (B2R x * B2R s = 0 \/ bpow radix2 (2 - emax) <= Rabs (B2R x * B2R s) <= bpow radix2 (emax - 1)) in
  let back x y := fnear y (B2R x) (2 * bpow radix2 (- prec) * Rabs (B2R x)) /\ (B2R (nmul x s) = B2R x * B2R s -> B2R y = B2R x) in
  is_finite s = true -> B2R s <> 0 ->
  (forall n (v : vec (binary_float prec emax) n) i, (i < n)%nat -> ok (vat v i) -> back (vat v i) (vat (vdiv_s (vmul_s v s) s) i)) /\
  (forall r c (m : mat (binary_float prec emax) r c) j i, (j < c)%nat -> (i < r)%nat -> ok (mget m j i) -> back (mget m j i) (mget (mdiv_s (mmul_s m s) s) j i)) /\
  (forall (q : quat (binary_float prec emax)) i, (i < 4)%nat -> ok (vat q i) -> back (vat q i) (vat (qdiv_s (qscale q s) s) i)) /\
  (forall z : complex (binary_float prec emax), (ok (re z) -> back (re z) (re (cdiv_s (cmul_s z s) s))) /\ (ok (im z) -> back (im z) (im (cdiv_s (cmul_s z s) s)))).
Proof. exact c165_back. Qed.
Print Assumptions C165_back.

(** Bit for bit, for all values including infinities and NaN: division commutes with negation of either argument, division by one does nothing, and the assignment operators agree with the operators. *)
Theorem C165_signs :
  forall (prec emax : Z) (Hp : Prec_gt_0 prec) (He : Prec_lt_emax prec emax) (s : binary_float prec emax),
  (forall n (v : vec (binary_float prec emax) n), vdiv_s (vneg v) s = vneg (vdiv_s v s) /\ vdiv_s v (nneg s) = vneg (vdiv_s v s) /\ vdiv_s v n1 = v /\ vdiv_assign v s = vdiv_s v s) /\
  (forall r c (m : mat (binary_float prec emax) r c), mdiv_s (mneg m) s = mneg (mdiv_s m s) /\ mdiv_s m (nneg s) = mneg (mdiv_s m s) /\ mdiv_s m n1 = m /\ mdiv_assign m s = mdiv_s m s) /\
  (forall q : quat (binary_float prec emax), qdiv_s (qneg q) s = qneg (qdiv_s q s) /\ qdiv_s q (nneg s) = qneg (qdiv_s q s) /\ qdiv_s q n1 = q /\ qdiv_assign q s = qdiv_s q s) /\
  (forall z : complex (binary_float prec emax), cdiv_s (cneg z) s = cneg (cdiv_s z s) /\ cdiv_s z (nneg s) = cneg (cdiv_s z s) /\ cdiv_s z n1 = z /\ cdiv_assign_s z s = cdiv_s z s).
Proof. exact c165_signs. Qed.
Print Assumptions C165_signs.

(** The inverse of a 1x1 matrix is missing exactly for zeros of either sign and is otherwise the correctly rounded reciprocal. *)
Theorem C165_inverse1 :
  forall (prec emax : Z) (Hp : Prec_gt_0 prec) (He : Prec_lt_emax prec emax) (m : mat (binary_float prec emax) 1 1),
  let x := mget m 0 0 in
  (m1try_inverse m = None <-> is_finite x = true /\ B2R x = 0) /\
  (bpow radix2 (2 - emax) <= Rabs (B2R x) <= bpow radix2 (emax - 2) -> exists w, m1try_inverse m = Some w /\ fnear (mget w 0 0) (/ B2R x) (bpow radix2 (- prec) * Rabs (/ B2R x))).
Proof. exact c165_inverse1. Qed.
Print Assumptions C165_inverse1.

(** Multiplying 1/49 by 49 in f64 does not give one, dividing 1 * 49 by 49 does; the 1x1 inverse of 49 and of minus zero. *)
Example C165_example :
  let z := f64_of_Z in let v : vec f64 2 := v2 (z 1%Z) (z 5%Z) in let s := ndiv (z 1%Z) (z 49%Z) in
  is_finite s = true /\ vat (vmul_s (vdiv_s v (z 49%Z)) (z 49%Z)) 0 <> z 1%Z /\ vat (vdiv_s (vmul_s v (z 49%Z)) (z 49%Z)) 0 = z 1%Z /\
  m1try_inverse (m1new (z 49%Z)) = Some (m1new s) /\ m1try_inverse (m1new (nneg (z 0%Z))) = None.
Proof. exact c165_example. Qed.
