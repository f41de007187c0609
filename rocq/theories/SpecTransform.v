(** What it means for a homogeneous matrix to represent an affine map. *)

From Verif Require Import Base Scalar Spec MVector MMatrix.

(** [m] sends the homogeneous coordinates [(p, 1)] of every point to those of [fp p], and those
    [(v, 0)] of every vector to those of [fv v]. *)
Definition represents {K : Type} {NK : Num K} {n : nat} (m : mat K (S n) (S n))
    (fp fv : vec K n -> vec K n) : Prop :=
  (forall p : vec K n, mmulv m (vextend p n1) = vextend (fp p) n1) /\
  (forall v : vec K n, mmulv m (vextend v n0) = vextend (fv v) n0).
