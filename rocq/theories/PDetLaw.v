(** Property theorems about signs, transposition and equal columns of determinants in floats (C167). *)

From Coq Require Import List Arith ZArith Reals.
From Flocq Require Import Core.Core IEEE754.BinarySingleNaN.
From Verif Require Import Base Scalar SpecLibm MReal MVector MMatrix MFloat LDetLawP.
Local Open Scope R_scope.

(** ** C167 *)

(** Negating a 2x2 or 4x4 matrix keeps the determinant bit for bit, negating a 3x3 matrix negates it; transposing a 2x2 matrix keeps it and exchanging its columns negates it (up to the sign of zero), infinities and NaN included. *)
Theorem C167_signs :
  forall (prec emax : Z) (Hp : Prec_gt_0 prec) (He : Prec_lt_emax prec emax) (u v : vec (binary_float prec emax) 2) (a : mat (binary_float prec emax) 2 2) (b : mat (binary_float prec emax) 3 3) (c : mat (binary_float prec emax) 4 4),
  m2det (mneg a) = m2det a /\ m2det (mtranspose a) = m2det a /\ feqv (m2det (v2 v u)) (nneg (m2det (v2 u v))) /\
  feqv (m3det (mneg b)) (nneg (m3det b)) /\ m4det (mneg c) = m4det c.
Proof. exact c167_signs. Qed.
Print Assumptions C167_signs.

(** A 2x2 matrix with equal columns is refused by [try_inverse] exactly when the product of its entries does not overflow and is not NaN. *)
Theorem C167_equal_columns :
  forall (prec emax : Z) (Hp : Prec_gt_0 prec) (He : Prec_lt_emax prec emax) (u : vec (binary_float prec emax) 2),
  m2try_inverse (v2 u u) = None <-> is_finite (nmul (vat u 0) (vat u 1)) = true.
Proof. exact c167_equal_columns. Qed.
Print Assumptions C167_equal_columns.

(** None of this holds for larger matrices: a 3x3 and a 4x4 matrix of integers in f64 with two equal columns have determinants 16 and 128 and are inverted (so exchanging the equal columns does not change the sign), and transposing changes the determinant. *)
Theorem C167_refuted :
  let i : Z -> f64 := f64_of_Z in let t := ndiv (i 1%Z) (i 3%Z) in
  (exists u w : vec f64 3, m3det (v3 u u w) = i 16%Z /\ m3det (v3 u u w) <> nneg (m3det (v3 u u w)) /\ exists x, m3try_inverse (v3 u u w) = Some x /\ is_finite (mget x 0 0) = true) /\
  (exists u w x : vec f64 4, m4det (v4 u u w x) = i 128%Z /\ exists y, m4try_inverse (v4 u u w x) = Some y /\ is_finite (mget y 0 0) = true) /\
  (exists m : mat f64 3 3, m3det (mtranspose m) <> m3det m /\ is_finite (m3det m) = true) /\
  (exists m : mat f64 4 4, m4det (mtranspose m) <> m4det m /\ is_finite (m4det m) = true).
Proof. exact c167_refuted. Qed.
Print Assumptions C167_refuted.

(** A 3x3 determinant in f64 whose sign changes, and 2x2 matrices with equal and different columns. *)
Example C167_example :
  let i : Z -> f64 := f64_of_Z in let t := ndiv (i 1%Z) (i 3%Z) in
  let b : mat f64 3 3 := m3new t (i 2%Z) (i 3%Z) (i 4%Z) (i 5%Z) (i 6%Z) (i 7%Z) (i 8%Z) t in
  is_finite (m3det b) = true /\ m3det b <> m3det (mneg b) /\ m3det (mneg b) = nneg (m3det b) /\
  m2try_inverse (v2 (v2 t (i 7%Z)) (v2 t (i 7%Z))) = None /\ m2try_inverse (v2 (v2 t (i 7%Z)) (v2 (i 7%Z) t)) <> None.
Proof. exact c167_example. Qed.
