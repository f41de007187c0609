(** Specification of rigid motions and similarities of real space, on families of coordinates; independent of the models. *)

From Coq Require Import ZArith Reals.
From Flocq Require Import Core.Core IEEE754.BinarySingleNaN.
From Verif Require Import Base Scalar Spec SpecRot MVector MMatrix MFloat.
Local Open Scope R_scope.

(** Euclidean length of a family of [n] numbers. *)
Definition rlength (n : nat) (x : nat -> R) : R := sqrt (sum n (fun i => x i * x i)).

(** x |-> Q x + t and its inverse x |-> Q^T (x - t); [mget Q j i] is column [j], row [i]. *)
Definition rigid {n} (Q : mat R n n) (t x : nat -> R) : nat -> R :=
  fun i => sum n (fun j => mget Q j i * x j) + t i.

(** The values of the components of a float vector. *)
Definition fval {prec emax} {Hp : Prec_gt_0 prec} {He : Prec_lt_emax prec emax} {n} (v : vec (binary_float prec emax) n) : nat -> R :=
  fun i => B2R (vat v i).

(** All components of the float vector are finite and it is within [e] of [x] (Euclidean distance). *)
Definition vfnear {prec emax} {Hp : Prec_gt_0 prec} {He : Prec_lt_emax prec emax} {n} (v : vec (binary_float prec emax) n) (x : nat -> R) (e : R) : Prop :=
  (forall i, (i < n)%nat -> is_finite (vat v i) = true) /\ rlength n (fun i => fval v i - x i) <= e.
