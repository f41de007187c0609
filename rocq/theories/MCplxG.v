(** Model of the remaining elementary functions of complex numbers over floats: core/complex.rs.

    Functions of the platform that [libm] does not contain are parameters: [exp2] and the
    logarithm [log x base] of the scalar type, and the constants [ln_2] and [ln_10]. *)

From Coq Require Import ZArith Bool.
From Flocq Require Import IEEE754.BinarySingleNaN.
From Verif Require Import Base Scalar MFloat MComplex MComplexF.
Local Open Scope num_scope.

Section CplxG.
Context {prec emax : Z} {Hp : FLX.Prec_gt_0 prec} {He : Prec_lt_emax prec emax}.
Notation fl := (binary_float prec emax).
Variable L : libm fl.

(** 870-875 [from_angle], 892-894 [polar_decomposition]. *)
Definition fc_from_angle (angle : fl) : complex fl := fc_from_polar L 1 angle.
Definition fc_polar (z : complex fl) : fl * fl := (fc_norm z, fc_arg L z).

(** 989-991 [exp2]. *)
Definition fc_exp2 (exp2 : fl -> fl) (ln_2 : fl) (z : complex fl) : complex fl := fc_from_polar L (exp2 (re z)) (im z * ln_2).

(** 1013-1017 [log]. *)
Definition fc_log (log : fl -> fl -> fl) (z : complex fl) (base : fl) : complex fl :=
  let '(norm_self, arg_self) := fc_polar z in
  mkC (log norm_self base) (arg_self / m_ln L base).

(** 1038-1040 [log2], 1061-1063 [log10]. *)
Definition fc_log2 (ln_2 : fl) (z : complex fl) : complex fl := cdiv_s (fc_ln L z) ln_2.
Definition fc_log10 (ln_10 : fl) (z : complex fl) : complex fl := cdiv_s (fc_ln L z) ln_10.

(** 1416-1422 [powc]. *)
Definition fc_powc (z exponent : complex fl) : complex fl :=
  if cis_zero exponent then cunit_re else fc_exp L (cmul exponent (fc_ln L z)).
End CplxG.
