(** Property theorems about transposition, conjugation and signs of products in floats (C166). *)

From Coq Require Import List Arith ZArith Reals.
From Flocq Require Import Core.Core IEEE754.BinarySingleNaN.
From Verif Require Import Base Scalar SpecLibm MReal MVector MMatrix MQuat MFloat LSignLawP.
Local Open Scope R_scope.

(** ** C166 *)

(** The transpose of a product is the product of the transposes in reverse order bit for bit; negating a factor negates the product up to the sign of zero, negating both changes nothing. *)
Theorem C166_matrices :
  forall (prec emax : Z) (Hp : Prec_gt_0 prec) (He : Prec_lt_emax prec emax) (r k c : nat) (a : mat (binary_float prec emax) r k) (b : mat (binary_float prec emax) k c) (v : vec (binary_float prec emax) k),
  mtranspose (mmul a b) = mmul (mtranspose b) (mtranspose a) /\
  (forall j i, (j < c)%nat -> (i < r)%nat -> mget (mmul (mneg a) (mneg b)) j i = mget (mmul a b) j i /\ feqv (mget (mmul (mneg a) b) j i) (nneg (mget (mmul a b) j i)) /\ feqv (mget (mmul a (mneg b)) j i) (nneg (mget (mmul a b) j i))) /\
  (forall i, (i < r)%nat -> feqv (vat (mmulv (mneg a) v) i) (nneg (vat (mmulv a v) i)) /\ feqv (vat (mmulv a (vneg v)) i) (nneg (vat (mmulv a v) i))).
Proof. exact c166_matrices. Qed.
Print Assumptions C166_matrices.

(** The cross product is antisymmetric and odd in each argument up to the sign of zero. *)
Theorem C166_cross :
  forall (prec emax : Z) (Hp : Prec_gt_0 prec) (He : Prec_lt_emax prec emax) (u v : vec (binary_float prec emax) 3) (i : nat),
  (i < 3)%nat -> feqv (vat (vcross v u) i) (nneg (vat (vcross u v) i)) /\ vcross (vneg u) (vneg v) = vcross u v /\
  feqv (vat (vcross (vneg u) v) i) (nneg (vat (vcross u v) i)) /\ feqv (vat (vcross u (vneg v)) i) (nneg (vat (vcross u v) i)).
Proof. exact c166_cross. Qed.
Print Assumptions C166_cross.

(** The conjugate of a product is the product of the conjugates in reverse order up to the sign of zero, and the squared norm ignores conjugation and negation bit for bit. *)
Theorem C166_quaternions :
  forall (prec emax : Z) (Hp : Prec_gt_0 prec) (He : Prec_lt_emax prec emax) (p q : quat (binary_float prec emax)),
  qnorm_squared (qconj q) = qnorm_squared q /\ qnorm_squared (qneg q) = qnorm_squared q /\ qmul (qneg p) (qneg q) = qmul p q /\
  forall i, (i < 4)%nat -> feqv (vat (qmul (qconj q) (qconj p)) i) (vat (qconj (qmul p q)) i) /\ feqv (vat (qmul (qneg p) q) i) (vat (qneg (qmul p q)) i) /\ feqv (vat (qmul p (qneg q)) i) (vat (qneg (qmul p q)) i).
Proof. exact c166_quaternions. Qed.
Print Assumptions C166_quaternions.

(** Two quaternions in f64 that do not commute, and a cross product that is zero with the same sign in both orders, so that the sign of zero has to be left out. *)
Example C166_example :
  let i : Z -> f64 := f64_of_Z in let t := ndiv (i 1%Z) (i 3%Z) in
  let p : quat f64 := qnew t (i 2%Z) (i 0%Z) (i 7%Z) in let q : quat f64 := qnew (i 5%Z) (i 2%Z) t (i 7%Z) in
  is_finite (vat (qmul p q) 1) = true /\ vat (qmul p q) 1 <> vat (qmul q p) 1 /\ vat (qmul (qconj q) (qconj p)) 1 = vat (qconj (qmul p q)) 1 /\
  vat (vcross (v3 t (i 1%Z) (i 1%Z)) (v3 t (i 1%Z) (i 1%Z))) 0 <> nneg (vat (vcross (v3 t (i 1%Z) (i 1%Z)) (v3 t (i 1%Z) (i 1%Z))) 0).
Proof. exact c166_example. Qed.
