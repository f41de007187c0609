(** Specification of rotations of space by axes, angles and quaternions, on real numbers; independent of the models. *)

From Coq Require Import Reals.
From Verif Require Import Base Scalar Spec SpecDrift SpecRot MVector.
Local Open Scope R_scope.

(** The unit vector of the [j]-th coordinate axis. *)
Definition axis3 (j : nat) : vec R 3 := v3 (delta 0 j) (delta 1 j) (delta 2 j).

(** q v q^-1 for a quaternion [q] <> 0 and a vector [v]. *)
Definition rqconj (q : rquat) : rquat := match q with (((w, x), y), z) => (w, - x, - y, - z) end.
Definition qsandwich (q : rquat) (v : vec R 3) : vec R 3 :=
  match hamilton (hamilton q (0, vat v 0, vat v 1, vat v 2)) (rqconj q) with
  | (((_, x), y), z) =>
      v3 (x / (qlength q * qlength q)) (y / (qlength q * qlength q)) (z / (qlength q * qlength q))
  end.

(** Turning about the z axis by [c], then about the y axis by [b], then about the x axis by [a]. *)
Definition euler_turn (a b c : R) (v : vec R 3) : vec R 3 :=
  rodrigues (axis3 0) a (rodrigues (axis3 1) b (rodrigues (axis3 2) c v)).

(** The unit vector of the [j]-th axis of the plane, and turning the plane by [t]. *)
Definition axis2 (j : nat) : vec R 2 := v2 (delta 0 j) (delta 1 j).
Definition turn2 (t : R) (v : vec R 2) : vec R 2 :=
  v2 (cos t * vat v 0 - sin t * vat v 1) (sin t * vat v 0 + cos t * vat v 1).
