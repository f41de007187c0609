(** Specification vocabulary: what is required of the sine, cosine and arc functions of the standard library by the
    functions that recover angles. *)

From Coq Require Import ZArith Bool Reals.
From Flocq Require Import Core.Core IEEE754.BinarySingleNaN.
From Verif Require Import Base Scalar MFloat MComplexF SpecCR.
Local Open Scope R_scope.

Section SpecArc.
Context {prec emax : Z} {Hprec : Prec_gt_0 prec} {Hemax : Prec_lt_emax prec emax}.
Notation fl := (binary_float prec emax).

(** The arc functions are defined on [-1, 1] and give NaN elsewhere; sine and cosine of NaN are NaN, and they are not both
    small. *)
Record libm_arc (L : libm fl) (arccos arcsin : fl -> fl) : Prop := {
  arc_acos : forall x, is_finite x = true -> Rabs (B2R x) <= 1 -> is_finite (arccos x) = true /\ 0 <= B2R (arccos x) <= 4;
  arc_acos_nan : forall x, is_finite x = true -> 1 < Rabs (B2R x) -> arccos x = B754_nan;
  arc_asin : forall x, is_finite x = true -> Rabs (B2R x) <= 1 -> is_finite (arcsin x) = true /\ Rabs (B2R (arcsin x)) <= 2;
  arc_asin_nan : forall x, is_finite x = true -> 1 < Rabs (B2R x) -> arcsin x = B754_nan;
  arc_sin_nan : m_sin L B754_nan = B754_nan;
  arc_cos_nan : m_cos L B754_nan = B754_nan;
  arc_pythagoras : forall x, is_finite x = true ->
    / 2 <= B2R (m_sin L x) * B2R (m_sin L x) + B2R (m_cos L x) * B2R (m_cos L x)
}.

(** Every component is a finite number. *)
Definition all_finite {n} (v : vec fl n) : Prop := forall i, (i < n)%nat -> is_finite (vget (B754_zero false) v i) = true.

(** The correctly rounded arc functions (see SpecCR.v). *)
Definition cr_acos (x : fl) : fl :=
  if is_finite x then if Rle_dec (Rabs (B2R x)) 1 then cr (acos (B2R x)) false else B754_nan else B754_nan.
Definition cr_asin (x : fl) : fl :=
  if is_finite x then if Rle_dec (Rabs (B2R x)) 1 then cr (asin (B2R x)) (Bsign x) else B754_nan else B754_nan.
End SpecArc.
