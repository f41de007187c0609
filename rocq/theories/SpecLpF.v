(** Specification vocabulary: what is required of the powers of the standard library, and the exact Lp norm. *)

From Coq Require Import List Arith ZArith Reals.
From Flocq Require Import Core.Core IEEE754.BinarySingleNaN.
From Verif Require Import Base Scalar Spec MFloat.
Local Open Scope R_scope.

Section SpecLpF.
Context {prec emax : Z} {Hprec : Prec_gt_0 prec} {Hemax : Prec_lt_emax prec emax}.
Notation fl := (binary_float prec emax).
Notation u := (bpow radix2 (- prec)).

(** The integer power with exponent [n]: a relative error of [k] units of roundoff in the normal range (Rust promises no
    particular [k]), infinity above the largest number, zero far below the smallest one, and the values at 0 and NaN. *)
Record powi_ok (powi : fl -> Z -> fl) (n : Z) (k : R) : Prop := {
  pi_near : forall x, is_finite x = true -> 0 < B2R x -> bpow radix2 (2 - emax) <= powerRZ (B2R x) n <= bpow radix2 (emax - 1) ->
    is_finite (powi x n) = true /\ Bsign (powi x n) = false /\ Rabs (B2R (powi x n) - powerRZ (B2R x) n) <= k * u * powerRZ (B2R x) n;
  pi_over : forall x, is_finite x = true -> 0 < B2R x -> bpow radix2 emax <= powerRZ (B2R x) n -> powi x n = B754_infinity false;
  pi_under : forall x, is_finite x = true -> 0 < B2R x -> powerRZ (B2R x) n <= bpow radix2 (- emax - prec) -> powi x n = B754_zero false;
  pi_sign : forall x, is_nan x = false -> Bsign x = false -> is_nan (powi x n) = false /\ Bsign (powi x n) = false;
  pi_zero : forall s, (0 < n)%Z -> powi (B754_zero s) n = B754_zero (andb s (Z.odd n));
  pi_unit : forall x, n = 0%Z -> powi x n = Bone;
  pi_nan : n <> 0%Z -> powi B754_nan n = B754_nan
}.

(** The power with a float exponent. *)
Record powf_ok (powf : fl -> fl -> fl) (k : R) : Prop := {
  pf_near : forall x y, is_finite x = true -> is_finite y = true -> 0 < B2R x ->
    bpow radix2 (2 - emax) <= Rpower (B2R x) (B2R y) <= bpow radix2 (emax - 1) ->
    is_finite (powf x y) = true /\ Rabs (B2R (powf x y) - Rpower (B2R x) (B2R y)) <= k * u * Rpower (B2R x) (B2R y);
  pf_zero : forall y, is_finite y = true -> 0 < B2R y -> powf (B754_zero false) y = B754_zero false;
  pf_inf : forall y, is_finite y = true -> 0 < B2R y -> powf (B754_infinity false) y = B754_infinity false;
  pf_nan : forall y, is_finite y = true -> 0 < B2R y -> powf B754_nan y = B754_nan;
  pf_top : forall x, x = B754_infinity false \/ 1 < B2R x -> powf x (B754_infinity false) = B754_infinity false
}.

(** The sum of the [p]-th powers of the moduli of the components; the norm is its [p]-th root. *)
Definition lp_sum {n} (v : vec fl n) (p : Z) : R := sum n (fun i => powerRZ (Rabs (B2R (vget (B754_zero false) v i))) p).
End SpecLpF.
