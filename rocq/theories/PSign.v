(** C107: classification of complex numbers of floats; C112: sign functions of the scalar traits. *)

From Coq Require Import List Arith ZArith Bool Lia Reals Lra.
From Flocq Require Import Core.Core IEEE754.BinarySingleNaN.
From Verif Require Import Base Scalar MComplex MInt MFloat MSign LSignP.
Import ListNotations.

(** ** C107 Classification of complex floats *)

(** Every complex float is in exactly one of the three classes; in particular the class "infinite" of the code is the
    complement of the other two. *)
Theorem C107_exactly_one :
  forall (prec emax : Z) (z : complex (binary_float prec emax)),
    (cis_finite z = true /\ cis_nan z = false /\ cis_infinite z = false) \/
    (cis_finite z = false /\ cis_nan z = true /\ cis_infinite z = false) \/
    (cis_finite z = false /\ cis_nan z = false /\ cis_infinite z = true).
Proof. exact c107_exactly_one. Qed.
Print Assumptions C107_exactly_one.

(** A NaN component is never lost: sums and differences keep it, products spoil both components. *)
Theorem C107_nan_propagates :
  forall (prec emax : Z) (Hp : Prec_gt_0 prec) (He : Prec_lt_emax prec emax) (z w : complex (binary_float prec emax)),
    cis_nan z = true \/ cis_nan w = true ->
    cis_nan (cadd z w) = true /\ cis_nan (csub z w) = true /\ cis_nan (cneg z) = cis_nan z /\ cis_nan (cconj z) = cis_nan z /\
    is_nan (re (cmul z w)) = true /\ is_nan (im (cmul z w)) = true.
Proof. exact c107_nan_propagates. Qed.
Print Assumptions C107_nan_propagates.

(** The documented meaning ("at least one of the elements is infinite") holds without NaNs. *)
Theorem C107_is_infinite_partial :
  forall (prec emax : Z) (z : complex (binary_float prec emax)),
    (cis_infinite z = true -> (exists s, re z = B754_infinity s) \/ (exists s, im z = B754_infinity s)) /\
    (is_nan (re z) = false -> is_nan (im z) = false ->
     (exists s, re z = B754_infinity s) \/ (exists s, im z = B754_infinity s) -> cis_infinite z = true).
Proof. exact c107_is_infinite_partial. Qed.
Print Assumptions C107_is_infinite_partial.

(** An infinite real part next to a NaN imaginary part is not reported as infinite. *)
Theorem C107_is_infinite_refuted :
  exists z : complex f64, re z = B754_infinity false /\ cis_infinite z = false.
Proof. exact c107_is_infinite_refuted. Qed.
Print Assumptions C107_is_infinite_refuted.

Example C107_example :
  cis_infinite (mkC (f64_of_Z 1) (B754_infinity true : f64)) = true /\ cis_finite (mkC (f64_of_Z 1) (f64_of_Z 2)) = true /\
  cis_nan (cmul (mkC (f64_of_Z 1) (B754_nan : f64)) (mkC (f64_of_Z 1) (f64_of_Z 2))) = true.
Proof. exact c107_example. Qed.

(** ** C112 Sign functions *)

(** Documented laws of [signum] and [abs], for every float: both zeros, infinities and NaN included. *)
Theorem C112_float_signum :
  forall (prec emax : Z) (Hp : Prec_gt_0 prec) (He : Prec_lt_emax prec emax) (x : binary_float prec emax),
    nmul (fsignum x) (fabs x) = x /\ fabs x = nmul (fsignum x) x /\
    (is_nan x = false -> Bsign (fabs x) = false /\ (B2R (fabs x) = Rabs (B2R x))%R).
Proof. exact c112_float_signum. Qed.
Print Assumptions C112_float_signum.

(** The documented definition of [copysign], for every sign argument except NaN. *)
Theorem C112_float_copysign_partial :
  forall (prec emax : Z) (Hp : Prec_gt_0 prec) (He : Prec_lt_emax prec emax) (nb : bool) (x s : binary_float prec emax),
    (is_nan s = false -> fcopysign nb x s = nmul (fsignum s) (fabs x)) /\
    fabs (fcopysign nb x s) = fabs x /\ (is_nan x = false -> fsignbit nb (fcopysign nb x s) = fsignbit nb s) /\
    fcopysign nb (fcopysign nb x s) x = (if is_nan x then B754_nan else x) /\
    fis_sign_positive nb x = negb (fis_sign_negative nb x).
Proof. exact c112_float_copysign_partial. Qed.
Print Assumptions C112_float_copysign_partial.

(** With a NaN as sign the documented formula gives NaN, the code a number. *)
Theorem C112_float_copysign_refuted :
  exists (nb : bool) (x s : f64), fcopysign nb x s = x /\ is_finite x = true /\ is_nan (nmul (fsignum s) (fabs x)) = true.
Proof. exact c112_float_copysign_refuted. Qed.
Print Assumptions C112_float_copysign_refuted.

(** Integers, every width, wrap-around arithmetic: the documented laws of [signum] and [abs] hold for every value;
    [abs] is the absolute value except for the least value, which it keeps; the two predicates and zero
    partition the values. *)
Theorem C112_integer_signum :
  forall (w : positive) (x : wint true w),
    nmul (isignum x) (iabs x) = x /\ iabs x = nmul (isignum x) x /\
    (wval x <> wmin true w -> wval (iabs x) = Z.abs (wval x)) /\ (wval x = wmin true w -> iabs x = x) /\
    ((iis_sign_positive x = true /\ iis_sign_negative x = false /\ wval x <> 0%Z) \/
     (iis_sign_positive x = false /\ iis_sign_negative x = true /\ wval x <> 0%Z) \/
     (iis_sign_positive x = false /\ iis_sign_negative x = false /\ wval x = 0%Z)).
Proof. exact c112_integer_signum. Qed.
Print Assumptions C112_integer_signum.

(** The documented definition of [copysign] for integers with a non-zero sign argument. *)
Theorem C112_integer_copysign_partial :
  forall (w : positive) (x s : wint true w), wval s <> 0%Z -> icopysign x s = nmul (isignum s) (iabs x).
Proof. exact c112_integer_copysign_partial. Qed.
Print Assumptions C112_integer_copysign_partial.

(** With sign 0 the documented formula signum(0) * |x| gives 0, the code gives |x|. *)
Theorem C112_integer_copysign_refuted :
  exists x s : wint true 32, wval s = 0%Z /\ wval (icopysign x s) = 3%Z /\ wval (nmul (isignum s) (iabs x)) = 0%Z.
Proof. exact c112_integer_copysign_refuted. Qed.
Print Assumptions C112_integer_copysign_refuted.

(** [i8]: copysign(5, -2) = -5, abs(-128) = -128; [f64]: signum(-0.0) = -1. *)
Example C112_example :
  wval (icopysign (wof true 8 5) (wof true 8 (-2))) = (-5)%Z /\ wval (iabs (wof true 8 (-128))) = (-128)%Z /\
  B2SF (fsignum (nneg (f64_of_Z 0))) = B2SF (f64_of_Z (-1)).
Proof. exact c112_example. Qed.
