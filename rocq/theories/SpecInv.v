(** Accuracy of a library at the points where the square root and the logarithm of a complex number use it. *)

From Coq Require Import ZArith Reals.
From Flocq Require Import Core.Core IEEE754.BinarySingleNaN.
From Verif Require Import Base Scalar SpecF SpecCplx MFloat MComplex MComplexF.
Local Open Scope R_scope.

(** The length of a complex number of reals. *)
Definition nm (x y : R) : R := sqrt (x * x + y * y).

Section S.
Context {prec emax : Z} {Hp : Prec_gt_0 prec} {He : Prec_lt_emax prec emax}.
Notation fl := (binary_float prec emax).

(** [atan2] returns the principal argument of [z] up to the relative error [d]. *)
Definition arg_at (d : R) (L : libm fl) (z : complex fl) : Prop :=
  exists r phi : R, 0 < r /\ - PI < phi <= PI /\ B2R (re z) = r * cos phi /\ B2R (im z) = r * sin phi /\
    fnear (m_atan2 L (im z) (re z)) phi (d * Rabs phi).

(** Besides, cosine and sine are accurate at half the computed argument. *)
Definition root_at (d : R) (L : libm fl) (z : complex fl) : Prop :=
  arg_at d L z /\ (let t := ndiv (m_atan2 L (im z) (re z)) (nadd n1 n1) in lib_at d cos (m_cos L) t /\ lib_at d sin (m_sin L) t).

(** Besides, the real logarithm is accurate at the computed length. *)
Definition log_at (d : R) (L : libm fl) (z : complex fl) : Prop :=
  arg_at d L z /\ lib_at d ln (m_ln L) (fc_norm z).
End S.
