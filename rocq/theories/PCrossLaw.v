(** Property theorems about parallel arguments of cross and triple products in floats (C168). *)

From Coq Require Import List Arith ZArith Reals.
From Flocq Require Import Core.Core IEEE754.BinarySingleNaN.
From Verif Require Import Base Scalar SpecLibm MReal MVector MFloat LCrossLawP.
Local Open Scope R_scope.

(** ** C168 *)

(** A component of u x u is zero exactly when the product it subtracts from itself is finite; then the triple product of u, u and any finite vector is zero. *)
Theorem C168_self :
  forall (prec emax : Z) (Hp : Prec_gt_0 prec) (He : Prec_lt_emax prec emax) (u w : vec (binary_float prec emax) 3),
  (feqv (vat (vcross u u) 0) n0 <-> is_finite (nmul (vat u 1) (vat u 2)) = true) /\
  (feqv (vat (vcross u u) 1) n0 <-> is_finite (nmul (vat u 2) (vat u 0)) = true) /\
  (feqv (vat (vcross u u) 2) n0 <-> is_finite (nmul (vat u 0) (vat u 1)) = true) /\
  ((forall i j, (i < j < 3)%nat -> is_finite (nmul (vat u i) (vat u j)) = true) -> (forall i, (i < 3)%nat -> is_finite (vat w i) = true) ->
   feqv (vtriple u u w) n0).
Proof. exact c168_self. Qed.
Print Assumptions C168_self.

(** The cross product of s u and u need not be zero in f64, and the cross product of u and w need not be orthogonal to u. *)
Theorem C168_refuted :
  let i : Z -> f64 := f64_of_Z in
  (exists (u : vec f64 3) (s : f64), is_finite (vat (vcross (vmul_s u s) u) 2) = true /\ ~ feqv (vat (vcross (vmul_s u s) u) 2) n0) /\
  (exists u w : vec f64 3, is_finite (vtriple u w u) = true /\ ~ feqv (vtriple u w u) n0 /\ ~ feqv (vtriple w u u) n0).
Proof. exact c168_refuted. Qed.
Print Assumptions C168_refuted.

(** A vector in f64 with a rounded component whose cross product with itself is zero. *)
Example C168_example :
  let i : Z -> f64 := f64_of_Z in let t := ndiv (i 1%Z) (i 3%Z) in
  let u : vec f64 3 := v3 t (i 2%Z) (i 7%Z) in let w : vec f64 3 := v3 (i 5%Z) t (i 1%Z) in
  vat (vcross u u) 0 = n0 /\ vtriple u u w = n0 /\ ~ feqv (vat (vcross u w) 0) n0.
Proof. exact c168_example. Qed.
