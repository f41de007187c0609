(** Property theorems about affine matrices in floats: exact agreement (C154). *)

From Coq Require Import List Arith ZArith Reals.
From Flocq Require Import Core.Core IEEE754.BinarySingleNaN.
From Verif Require Import Base Scalar SpecArc SpecLibm MVector MMatrix MPoint MTransform MProjection MFloat LSameP.
Local Open Scope R_scope.

(** ** C154 *)

(** Isometries: identical floats for points, the same up to the sign of zero for vectors. *)
Theorem C154_isometry :
  forall (prec emax : Z) (Hp : Prec_gt_0 prec) (He : Prec_lt_emax prec emax) (n : nat) (f : isometry (binary_float prec emax) n),
  (forall p : point (binary_float prec emax) n, all_finite (p : vec _ n) -> tf_apply_point (iso_to_transform f) p = Some (iso_apply_point f p)) /\
  (forall (v : vec (binary_float prec emax) n) (i : nat), (i < n)%nat -> is_finite (vat (iso_translation f) i) = true ->
    feqv (vat (tf_apply_vector (iso_to_transform f) v) i) (vat (iso_apply_vector f v) i)).
Proof. exact c154_isometry. Qed.
Print Assumptions C154_isometry.

(** Rotations. *)
Theorem C154_rotation :
  forall (prec emax : Z) (Hp : Prec_gt_0 prec) (He : Prec_lt_emax prec emax) (n : nat) (r : rotation (binary_float prec emax) n),
  (forall p : point (binary_float prec emax) n, all_finite (p : vec _ n) -> exists q, tf_apply_point (rot_to_transform r) p = Some q /\
    forall i, (i < n)%nat -> feqv (vat q i) (vat (rot_apply_point r p) i)) /\
  (forall (v : vec (binary_float prec emax) n) (i : nat), (i < n)%nat -> feqv (vat (tf_apply_vector (rot_to_transform r) v) i) (vat (rot_apply_vector r v) i)).
Proof. exact c154_rotation. Qed.
Print Assumptions C154_rotation.

(** Translations. *)
Theorem C154_translation :
  forall (prec emax : Z) (Hp : Prec_gt_0 prec) (He : Prec_lt_emax prec emax) (n : nat) (t : translation (binary_float prec emax) n),
  (forall p : point (binary_float prec emax) n, all_finite (p : vec _ n) -> exists q, tf_apply_point (tr_to_transform t) p = Some q /\
    forall i, (i < n)%nat -> feqv (vat q i) (vat (tr_apply_point t p) i)) /\
  (forall v : vec (binary_float prec emax) n, all_finite v -> all_finite (t : vec _ n) -> forall i, (i < n)%nat -> feqv (vat (tf_apply_vector (tr_to_transform t) v) i) (vat v i)).
Proof. exact c154_translation. Qed.
Print Assumptions C154_translation.

(** Scales, also with infinite or NaN factors. *)
Theorem C154_scale :
  forall (prec emax : Z) (Hp : Prec_gt_0 prec) (He : Prec_lt_emax prec emax) (n : nat) (s : scale (binary_float prec emax) n),
  (forall p : point (binary_float prec emax) n, all_finite (p : vec _ n) -> exists q, tf_apply_point (sc_to_transform s) p = Some q /\
    forall i, (i < n)%nat -> feqv (vat q i) (vat (sc_apply_point s p) i)) /\
  (forall v : vec (binary_float prec emax) n, all_finite v -> forall i, (i < n)%nat -> feqv (vat (tf_apply_vector (sc_to_transform s) v) i) (vat (sc_apply_vector s v) i)).
Proof. exact c154_scale. Qed.
Print Assumptions C154_scale.

(** Orthographic projections, whatever the six bounds. *)
Theorem C154_orthographic :
  forall (prec emax : Z) (Hp : Prec_gt_0 prec) (He : Prec_lt_emax prec emax) (left right bottom top near far : binary_float prec emax) (p : point (binary_float prec emax) 3),
  let m := m4from_orthographic left right bottom top near far in all_finite (p : vec _ 3) ->
  exists q, tf_apply_point (ortho_to_transform m) p = Some q /\ forall i, (i < 3)%nat -> feqv (vat q i) (vat (ortho_project_point m p) i).
Proof. exact c154_orthographic. Qed.
Print Assumptions C154_orthographic.

(** The cross-product matrix. *)
Theorem C154_cross_matrix :
  forall (prec emax : Z) (Hp : Prec_gt_0 prec) (He : Prec_lt_emax prec emax) (v w : vec (binary_float prec emax) 3) (i : nat),
  all_finite w -> (i < 3)%nat -> feqv (vat (mmulv (m3cross_matrix v) w) i) (vat (vcross v w) i).
Proof. exact c154_cross_matrix. Qed.
Print Assumptions C154_cross_matrix.

(** Similarities are not among them: scaling the matrix and scaling the point round differently. *)
Theorem C154_similarity_differs :
  exists (f : similarity f64 2) (p : point f64 2), all_finite (p : vec f64 2) /\ exists q, tf_apply_point (sim_to_transform f) p = Some q /\ Beqb (vat q 0) (vat (sim_apply_point f p) 0) = false.
Proof. exact c154_similarity_differs. Qed.
Print Assumptions C154_similarity_differs.

(** A rotation by the 3-4-5 angle and a translation in f64. *)
Example C154_example :
  let c : f64 := ndiv (f64_of_Z 3) (f64_of_Z 5) in let s : f64 := ndiv (f64_of_Z 4) (f64_of_Z 5) in
  let f := mkIsometry (v2 (f64_of_Z 10) (f64_of_Z (-7)) : vec f64 2) (m2new c s (nneg s) c : mat f64 2 2) in let p := (v2 (f64_of_Z 7) (f64_of_Z 3)) : vec f64 2 in
  all_finite p /\ tf_apply_point (iso_to_transform f) p = Some (iso_apply_point f p) /\ is_finite (vat (iso_apply_point f p) 0) = true /\ Beqb (vat (iso_apply_point f p) 0) (vat p 0) = false.
Proof. exact c154_example. Qed.
