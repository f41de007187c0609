(** Accuracy of a library of real functions at one argument; independent of the models. *)

From Coq Require Import ZArith Reals.
From Flocq Require Import Core.Core IEEE754.BinarySingleNaN.
From Verif Require Import SpecF.
Local Open Scope R_scope.

(** [fn x] is finite and has relative error at most [d] as a value of the real function [g]. *)
Definition lib_at {prec emax : Z} (d : R) (g : R -> R) (fn : binary_float prec emax -> binary_float prec emax) (x : binary_float prec emax) : Prop :=
  fnear (fn x) (g (B2R x)) (d * Rabs (g (B2R x))).

(** [x] is within the relative error [c] of [v], apart from underflow (half the least positive float). *)
Definition near_rel {prec emax : Z} (c : R) (x : binary_float prec emax) (v : R) : Prop :=
  fnear x v (c * Rabs v + bpow radix2 (2 - emax - prec)).
