(** Specification vocabulary: accuracy of the functions of the standard library that recover angles. *)

From Coq Require Import ZArith Reals.
From Flocq Require Import Core.Core IEEE754.BinarySingleNaN.
From Verif Require Import Base Scalar SpecF SpecRigid MVector MFloat MComplexF.
Local Open Scope R_scope.

(** [phi] is an angle of the point ([x], [y]), which is not the origin. *)
Definition polar_angle (y x phi : R) : Prop := exists rho, 0 < rho /\ x = rho * cos phi /\ y = rho * sin phi.

(** The arc functions on [-1, 1], the angle of a point of the plane, and sine and cosine on [-5, 5] have absolute error at
    most [d].  The angle of a point of the negative axis may be [PI] or [-PI], depending on the sign of the zero. *)
Definition ang_lib {prec emax : Z} {Hp : Prec_gt_0 prec} {He : Prec_lt_emax prec emax} (L : libm (binary_float prec emax))
    (arccos arcsin : binary_float prec emax -> binary_float prec emax) (d : R) : Prop :=
  (forall x, is_finite x = true -> Rabs (B2R x) <= 1 -> fnear (arccos x) (acos (B2R x)) d /\ fnear (arcsin x) (asin (B2R x)) d) /\
  (forall y x, is_finite y = true -> is_finite x = true -> (B2R y <> 0 \/ B2R x <> 0) ->
     exists phi, - PI <= phi <= PI /\ polar_angle (B2R y) (B2R x) phi /\ fnear (m_atan2 L y x) phi d) /\
  (forall x, is_finite x = true -> Rabs (B2R x) <= 5 -> fnear (m_sin L x) (sin (B2R x)) d /\ fnear (m_cos L x) (cos (B2R x)) d).

(** The float is an angle between [-PI] and [PI], up to [e], and within [e] of the angle [t] up to full turns; it is within
    [e] of [t] itself if [t] is further than [e] from the cut. *)
Definition fnear_turn {prec emax : Z} (x : binary_float prec emax) (t e : R) : Prop :=
  Rabs (B2R x) <= PI + e /\ exists k : Z, fnear x (t + IZR k * (2 * PI)) e /\ (Rabs t + e < PI -> k = 0%Z).

(** The direction of a vector of the plane. *)
Definition dir2 (v : nat -> R) : vec R 2 := v2 (v 0%nat / rlength 2 v) (v 1%nat / rlength 2 v).
