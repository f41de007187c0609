(** Specification of shears of real space, on families of coordinates; independent of the models. *)

From Coq Require Import Arith ZArith Reals.
From Flocq Require Import Core.Core IEEE754.BinarySingleNaN.
From Verif Require Import Base Scalar Spec MVector MFloat.
Local Open Scope R_scope.

(** x |-> x + s ((x - o) . m) d: every point is moved along d by s times its distance from the plane through o with normal m. *)
Definition rshear (n : nat) (s : R) (o d m x : nat -> R) : nat -> R :=
  fun i => x i + s * sum n (fun j => (x j - o j) * m j) * d i.

(** The float vector is the unit vector of the axis [i]. *)
Definition axis_of {prec emax} {Hp : Prec_gt_0 prec} {He : Prec_lt_emax prec emax} {n} (v : vec (binary_float prec emax) n) (i : nat) : Prop :=
  forall k, (k < n)%nat -> is_finite (vat v k) = true /\ B2R (vat v k) = if Nat.eqb k i then 1 else 0.
