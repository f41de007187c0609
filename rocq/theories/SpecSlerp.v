(** Specification of interpolation along a great circle between two unit vectors with four components; independent of the models. *)

From Coq Require Import ZArith Reals.
From Flocq Require Import Core.Core IEEE754.BinarySingleNaN.
From Verif Require Import Base Scalar Spec SpecF SpecRigid MVector MFloat MComplexF.
Local Open Scope R_scope.

(** Scalar product of two families of four numbers. *)
Definition dot4 (p q : nat -> R) : R := sum 4 (fun i => p i * q i).

(** The point at the fraction [t] of the way from [p] to [q] on the great circle through them; for [p] and [q] that enclose no angle, [p]. *)
Definition great_circle (p q : nat -> R) (t : R) : nat -> R :=
  let a := acos (dot4 p q) in
  if Req_EM_T (sin a) 0 then p else fun i => (sin ((1 - t) * a) * p i + sin (t * a) * q i) / sin a.

(** The point at the fraction [t] of the segment from [p] to [q]. *)
Definition chord (p q : nat -> R) (t : R) : nat -> R := fun i => (1 - t) * p i + t * q i.

(** The arc cosine on [-1, 1] and the sine on [-3, 3] have relative error at most [d], up to half the smallest positive float. *)
Definition accurate_arc {prec emax : Z} {Hp : Prec_gt_0 prec} {He : Prec_lt_emax prec emax} (L : libm (binary_float prec emax))
    (arccos : binary_float prec emax -> binary_float prec emax) (d : R) : Prop :=
  (forall x, is_finite x = true -> Rabs (B2R x) <= 1 ->
     fnear (arccos x) (acos (B2R x)) (d * acos (B2R x) + bpow radix2 (2 - emax - prec))) /\
  (forall x, is_finite x = true -> Rabs (B2R x) <= 3 ->
     fnear (m_sin L x) (sin (B2R x)) (d * Rabs (sin (B2R x)) + bpow radix2 (2 - emax - prec))).
