(** Statements about functions of quaternions: closeness of a computed quaternion, and square roots; independent of the models. *)

From Coq Require Import ZArith Reals.
From Flocq Require Import Core.Core IEEE754.BinarySingleNaN.
From Verif Require Import Base Spec SpecF SpecRigid SpecLook.
Local Open Scope R_scope.

(** The scalar part (component 0) of [w] is within [e] of [x], and its vector part (components 1 to 3) is within [e] of [y] times
    the direction of [v]. *)
Definition qclose {prec emax : Z} (w : vec (binary_float prec emax) 4) (x y : R) (v : nat -> R) (e : R) : Prop :=
  fnear (vget (B754_zero false) w 0) x e /\ forall i, (i < 3)%nat -> fnear (vget (B754_zero false) w (S i)) (y * rdir v i) e.

(** [p] is the square root with positive scalar part of the quaternion [q]: p p = q. *)
Definition principal_root (q p : nat -> R) : Prop :=
  0 < p 0%nat /\ p 0%nat * p 0%nat - (p 1%nat * p 1%nat + p 2%nat * p 2%nat + p 3%nat * p 3%nat) = q 0%nat /\
  forall i, (1 <= i < 4)%nat -> 2 * (p 0%nat * p i) = q i.
