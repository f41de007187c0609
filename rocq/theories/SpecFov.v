(** What is asked of the tangent and the arctangent of the library by the field of view: a relative error of at most [d]. *)

From Coq Require Import ZArith Reals.
From Flocq Require Import Core.Core IEEE754.BinarySingleNaN.
From Verif Require Import MFloat SpecF SpecUnp SpecCR.
Local Open Scope R_scope.

(** The tangent of an angle between 0 and a right angle. *)
Definition tan_within {prec emax} (d : R) (q : Z) (t : binary_float prec emax -> binary_float prec emax) : Prop :=
  forall x, is_finite x = true -> 0 < B2R x < PI / 2 -> sized q (tan (B2R x)) ->
    fnear (t x) (tan (B2R x)) (d * tan (B2R x)).

(** The arctangent of a number of size between [2^-q] and [2^q], of any sign, and of plus infinity. *)
Definition atan_within {prec emax} (d : R) (q : Z) (t : binary_float prec emax -> binary_float prec emax) : Prop :=
  (forall x, is_finite x = true -> sized q (Rabs (B2R x)) ->
    fnear (t x) (atan (B2R x)) (d * Rabs (atan (B2R x)))) /\
  fnear (t (B754_infinity false)) (PI / 2) (d * (PI / 2)).

(** Functions of this kind: every result the nearest [f64]. *)
Definition nearest_tan (x : f64) : f64 := if is_finite x then cr (tan (B2R x)) (Bsign x) else B754_nan.
Definition nearest_atan (x : f64) : f64 :=
  match x with
  | B754_nan => B754_nan
  | B754_infinity s => cr (if s then - (PI / 2) else PI / 2) s
  | _ => cr (atan (B2R x)) (Bsign x)
  end.
