(** Specification of rotation matrices, stated on entries only ([mget m j i] = column j, row i). *)

From Coq Require Import Reals.
From Verif Require Import Base Scalar Spec MVector MMatrix.
Local Open Scope R_scope.

(** The columns are orthonormal and the determinant (Laplace expansion) is one. *)
Definition orthonormal_columns {n} (m : mat R n n) : Prop :=
  forall j k, (j < n)%nat -> (k < n)%nat ->
    sum n (fun i => mget m j i * mget m k i) = delta j k.
Definition is_rotation {n} (m : mat R n n) : Prop :=
  orthonormal_columns m /\ laplace n (fun i j => mget m j i) = 1.

(** Rodrigues' formula: rotation of [v] about the unit vector [a] by the angle [t]. *)
Definition rodrigues (a : vec R 3) (t : R) (v : vec R 3) : vec R 3 :=
  v3 (vat v 0 * cos t + (vat a 1 * vat v 2 - vat a 2 * vat v 1) * sin t
        + vat a 0 * (sum 3 (fun i => vat a i * vat v i)) * (1 - cos t))
     (vat v 1 * cos t + (vat a 2 * vat v 0 - vat a 0 * vat v 2) * sin t
        + vat a 1 * (sum 3 (fun i => vat a i * vat v i)) * (1 - cos t))
     (vat v 2 * cos t + (vat a 0 * vat v 1 - vat a 1 * vat v 0) * sin t
        + vat a 2 * (sum 3 (fun i => vat a i * vat v i)) * (1 - cos t)).
