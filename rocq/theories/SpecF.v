(** Specification vocabulary for theorems about IEEE floats; independent of the models. *)

From Coq Require Import ZArith Reals.
From Flocq Require Import Core.Core IEEE754.BinarySingleNaN.
From Verif Require Import Base Scalar MFloat.
Local Open Scope R_scope.

(** The float is finite and its value is the integer [z]. *)
Definition fint {prec emax} (x : binary_float prec emax) (z : Z) : Prop :=
  is_finite x = true /\ B2R x = IZR z.

(** The float is finite and within [e] of the real number [r]. *)
Definition fnear {prec emax} (x : binary_float prec emax) (r e : R) : Prop :=
  is_finite x = true /\ Rabs (B2R x - r) <= e.

(** The float is finite and its value has magnitude at most [M]. *)
Definition fbnd {prec emax} (M : R) (x : binary_float prec emax) : Prop :=
  is_finite x = true /\ Rabs (B2R x) <= M.

(** Unit roundoff of [f64]: half the distance of 1 and the next float. *)
Definition u64 : R := bpow radix2 (-53).
