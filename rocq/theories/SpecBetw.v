(** Specification of the rotation that takes the direction of one vector to that of another; independent of the models. *)

From Coq Require Import ZArith Reals.
From Flocq Require Import Core.Core IEEE754.BinarySingleNaN.
From Verif Require Import Base Scalar Spec SpecF SpecRigid SpecLook MVector MFloat MComplexF.
Local Open Scope R_scope.

(** The direction of a vector, as a vector. *)
Definition vdir (v : nat -> R) : vec R 3 := v3 (rdir v 0%nat) (rdir v 1%nat) (rdir v 2%nat).

(** The axis at right angles to [v] and [w] and the angle from [v] to [w]. *)
Definition turn_axis (v w : nat -> R) : vec R 3 := vdir (rcross v w).
Definition rcosine (v w : nat -> R) : R := rdot v w / (rlength 3 v * rlength 3 w).
Definition turn_angle (v w : nat -> R) : R := acos (rcosine v w).

(** The arc cosine on [-1, 1], the sine and the cosine on [-5, 5] have absolute error at most [d]. *)
Definition turn_lib {prec emax : Z} {Hp : Prec_gt_0 prec} {He : Prec_lt_emax prec emax} (L : libm (binary_float prec emax))
    (arccos : binary_float prec emax -> binary_float prec emax) (d : R) : Prop :=
  (forall x, is_finite x = true -> Rabs (B2R x) <= 1 -> fnear (arccos x) (acos (B2R x)) d) /\
  (forall x, is_finite x = true -> Rabs (B2R x) <= 5 -> fnear (m_sin L x) (sin (B2R x)) d /\ fnear (m_cos L x) (cos (B2R x)) d).
