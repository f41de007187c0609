(** Specification of a float quaternion close to a rotation given by its matrix; independent of the models. *)

From Coq Require Import ZArith Reals.
From Flocq Require Import Core.Core IEEE754.BinarySingleNaN.
From Verif Require Import Base Scalar Spec SpecF SpecDrift SpecRotF MVector MFloat.
Local Open Scope R_scope.

(** The components of [q] are within [b] of those of a real unit quaternion that takes each coordinate axis [j] to column [j] of the
    matrix with rows [f 0], [f 1], [f 2]. *)
Definition turns_near {prec emax} (q : vec (binary_float prec emax) 4) (f : nat -> nat -> R) (b : R) : Prop :=
  exists w x y z, qlength (w, x, y, z) = 1 /\
    (forall i j, (i < 3)%nat -> (j < 3)%nat -> vat (qsandwich (w, x, y, z) (axis3 j)) i = f i j) /\
    (forall k, (k < 4)%nat -> fnear (vget (B754_zero false) q k) (vat (v4 w x y z) k) b).
