(** Property theorems about diagonal, scale and translation matrices in floats (C164). *)

From Coq Require Import List Arith ZArith Reals.
From Flocq Require Import Core.Core IEEE754.BinarySingleNaN.
From Verif Require Import Base Scalar SpecArc SpecLibm MReal MVector MMatrix MPoint MTransform MFloat LDiagFP.
Local Open Scope R_scope.

(** ** C164 *)

(** A diagonal or scale matrix times a finite vector multiplies each component once: the zero entries leave no trace but the sign of a zero. *)
Theorem C164_apply :
  forall (prec emax : Z) (Hp : Prec_gt_0 prec) (He : Prec_lt_emax prec emax) (n : nat) (d : vec (binary_float prec emax) n) (a : binary_float prec emax) (v : vec (binary_float prec emax) n) (i : nat),
  all_finite v -> (i < n)%nat ->
  feqv (vat (mmulv (mfrom_diagonal d) v) i) (nmul (vat d i) (vat v i)) /\ feqv (vat (mmulv (mfrom_nonuniform_scale d) v) i) (nmul (vat d i) (vat v i)) /\
  feqv (vat (mmulv (mfrom_diagonal_value n a) v) i) (nmul a (vat v i)) /\ feqv (vat (mmulv (mfrom_scale n a) v) i) (nmul a (vat v i)).
Proof. exact c164_apply. Qed.
Print Assumptions C164_apply.

(** A diagonal factor on the left multiplies the rows of a finite matrix, on the right its columns, with one rounding each. *)
Theorem C164_products :
  forall (prec emax : Z) (Hp : Prec_gt_0 prec) (He : Prec_lt_emax prec emax) (r c : nat) (d : vec (binary_float prec emax) r) (e : vec (binary_float prec emax) c) (m : mat (binary_float prec emax) r c) (i j : nat),
  (forall j i, (j < c)%nat -> (i < r)%nat -> is_finite (mget m j i) = true) -> (i < r)%nat -> (j < c)%nat ->
  feqv (mget (mmul (mfrom_diagonal d) m) j i) (nmul (vat d i) (mget m j i)) /\ feqv (mget (mmul m (mfrom_diagonal e)) j i) (nmul (mget m j i) (vat e j)).
Proof. exact c164_products. Qed.
Print Assumptions C164_products.

(** Products of affine translation and scale matrices: translations add, a translation after a scale is exact, and a scale after a translation scales the translation with one rounding. *)
Theorem C164_affine :
  forall (prec emax : Z) (Hp : Prec_gt_0 prec) (He : Prec_lt_emax prec emax) (n : nat) (s t : vec (binary_float prec emax) n) (i j : nat),
  all_finite s -> all_finite t -> (i <= n)%nat -> (j <= n)%nat ->
  let T := mfrom_affine_translation t in let S := mfrom_affine_nonuniform_scale s in
  feqv (mget (mmul (mfrom_affine_translation s) T) j i) (mget (mfrom_affine_translation (vadd t s)) j i) /\
  feqv (mget (mmul T S) j i) (if Nat.eqb j n then mget T j i else mget S j i) /\
  feqv (mget (mmul S T) j i) (if Nat.eqb j n then (if Nat.ltb i n then nmul (vat s i) (vat t i) else n1) else mget S j i).
Proof. exact c164_affine. Qed.
Print Assumptions C164_affine.

(** A scale and two translations of the plane in f64. *)
Example C164_example :
  let z := f64_of_Z in let t : vec f64 2 := v2 (z 3%Z) (z (-4)%Z) in let s : vec f64 2 := v2 (z 2%Z) (ndiv (z 1%Z) (z 3%Z)) in
  all_finite s /\ all_finite t /\
  mget (mmul (mfrom_affine_nonuniform_scale s) (mfrom_affine_translation t)) 2 0 = z 6%Z /\
  mget (mmul (mfrom_affine_translation t) (mfrom_affine_nonuniform_scale s)) 2 0 = z 3%Z /\
  mget (mmul (mfrom_affine_translation s) (mfrom_affine_translation t)) 2 1 = nadd (z (-4)%Z) (ndiv (z 1%Z) (z 3%Z)).
Proof. exact c164_example. Qed.
