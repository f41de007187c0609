(** Property theorems about reflection, shear and similarity matrices in floats (C155). *)

From Coq Require Import List Arith ZArith Reals.
From Flocq Require Import Core.Core IEEE754.BinarySingleNaN.
From Verif Require Import Base Scalar Spec SpecF MReal MVector MMatrix MPoint MTransform MFloat LAffMP.
Local Open Scope R_scope.

(** ** C155 *)

(** Reflections in a plane: within 92 units of roundoff for points, 49 for vectors. *)
Theorem C155_reflection3 :
  forall (prec emax : Z) (Hp : Prec_gt_0 prec) (He : Prec_lt_emax prec emax) (f : reflection (binary_float prec emax) 3) (P : R),
  (24 <= prec)%Z -> (31 <= emax)%Z -> bpow radix2 (31 - emax) <= P <= bpow radix2 (emax - 31) -> (forall i, (i < 3)%nat -> fbnd 1 (vat (re_normal f) i)) ->
  (forall p : point (binary_float prec emax) 3, (forall i, (i < 3)%nat -> fbnd P (vat (re_bias f) i)) -> (forall i, (i < 3)%nat -> fbnd P (vat p i)) ->
    exists q, tf_apply_point (re3to_transform f) p = Some q /\ forall i, (i < 3)%nat ->
      fnear (vat q i) (B2R (vat p i) - 2 * sum 3 (fun k => (B2R (vat p k) - B2R (vat (re_bias f) k)) * B2R (vat (re_normal f) k)) * B2R (vat (re_normal f) i)) (92 * bpow radix2 (- prec) * P)) /\
  (forall v : vec (binary_float prec emax) 3, (forall i, (i < 3)%nat -> fbnd P (vat v i)) -> (forall i, (i < 3)%nat -> fbnd P (vat (re_bias f) i)) -> forall i, (i < 3)%nat ->
    fnear (vat (tf_apply_vector (re3to_transform f) v) i) (B2R (vat v i) - 2 * sum 3 (fun k => B2R (vat v k) * B2R (vat (re_normal f) k)) * B2R (vat (re_normal f) i)) (49 * bpow radix2 (- prec) * P)).
Proof. exact c155_reflection3. Qed.
Print Assumptions C155_reflection3.

(** Reflections in a line. *)
Theorem C155_reflection2 :
  forall (prec emax : Z) (Hp : Prec_gt_0 prec) (He : Prec_lt_emax prec emax) (f : reflection (binary_float prec emax) 2) (P : R),
  (24 <= prec)%Z -> (31 <= emax)%Z -> bpow radix2 (31 - emax) <= P <= bpow radix2 (emax - 31) -> (forall i, (i < 2)%nat -> fbnd 1 (vat (re_normal f) i)) ->
  (forall p : point (binary_float prec emax) 2, (forall i, (i < 2)%nat -> fbnd P (vat (re_bias f) i)) -> (forall i, (i < 2)%nat -> fbnd P (vat p i)) ->
    exists q, tf_apply_point (re2to_transform f) p = Some q /\ forall i, (i < 2)%nat ->
      fnear (vat q i) (B2R (vat p i) - 2 * sum 2 (fun k => (B2R (vat p k) - B2R (vat (re_bias f) k)) * B2R (vat (re_normal f) k)) * B2R (vat (re_normal f) i)) (92 * bpow radix2 (- prec) * P)) /\
  (forall v : vec (binary_float prec emax) 2, (forall i, (i < 2)%nat -> fbnd P (vat v i)) -> (forall i, (i < 2)%nat -> fbnd P (vat (re_bias f) i)) -> forall i, (i < 2)%nat ->
    fnear (vat (tf_apply_vector (re2to_transform f) v) i) (B2R (vat v i) - 2 * sum 2 (fun k => B2R (vat v k) * B2R (vat (re_normal f) k)) * B2R (vat (re_normal f) i)) (49 * bpow radix2 (- prec) * P)).
Proof. exact c155_reflection2. Qed.
Print Assumptions C155_reflection2.

(** Shears along a plane. *)
Theorem C155_shear3 :
  forall (prec emax : Z) (Hp : Prec_gt_0 prec) (He : Prec_lt_emax prec emax) (s : binary_float prec emax) (origin direction normal : vec (binary_float prec emax) 3) (p : point (binary_float prec emax) 3) (S P : R),
  let inr x := bpow radix2 (31 - emax) <= x <= bpow radix2 (emax - 31) in
  (24 <= prec)%Z -> inr S -> inr P -> inr (S * P) -> 1 <= S -> fbnd S s ->
  (forall i, (i < 3)%nat -> fbnd 1 (vat direction i) /\ fbnd 1 (vat normal i) /\ fbnd P (vat origin i) /\ fbnd P (vat p i)) ->
  exists q, tf_apply_point (tf_from_matrix (m4from_affine_shear s origin direction normal) : transform _ 3) p = Some q /\ forall i, (i < 3)%nat ->
    fnear (vat q i) (B2R (vat p i) + B2R s * sum 3 (fun k => (B2R (vat p k) - B2R (vat origin k)) * B2R (vat normal k)) * B2R (vat direction i)) (55 * bpow radix2 (- prec) * (S * P)).
Proof. exact c155_shear3. Qed.
Print Assumptions C155_shear3.

(** Shears along a line. *)
Theorem C155_shear2 :
  forall (prec emax : Z) (Hp : Prec_gt_0 prec) (He : Prec_lt_emax prec emax) (s : binary_float prec emax) (origin direction normal : vec (binary_float prec emax) 2) (p : point (binary_float prec emax) 2) (S P : R),
  let inr x := bpow radix2 (31 - emax) <= x <= bpow radix2 (emax - 31) in
  (24 <= prec)%Z -> inr S -> inr P -> inr (S * P) -> 1 <= S -> fbnd S s ->
  (forall i, (i < 2)%nat -> fbnd 1 (vat direction i) /\ fbnd 1 (vat normal i) /\ fbnd P (vat origin i) /\ fbnd P (vat p i)) ->
  exists q, tf_apply_point (tf_from_matrix (m3from_affine_shear s origin direction normal) : transform _ 2) p = Some q /\ forall i, (i < 2)%nat ->
    fnear (vat q i) (B2R (vat p i) + B2R s * sum 2 (fun k => (B2R (vat p k) - B2R (vat origin k)) * B2R (vat normal k)) * B2R (vat direction i)) (55 * bpow radix2 (- prec) * (S * P)).
Proof. exact c155_shear2. Qed.
Print Assumptions C155_shear2.

(** Similarities. *)
Theorem C155_similarity :
  forall (prec emax : Z) (Hp : Prec_gt_0 prec) (He : Prec_lt_emax prec emax) (n : nat) (f : similarity (binary_float prec emax) n) (p : point (binary_float prec emax) n) (S P : R),
  let inr x := bpow radix2 (31 - emax) <= x <= bpow radix2 (emax - 31) in
  (24 <= prec)%Z -> n = 2%nat \/ n = 3%nat -> inr S -> inr (S * P) -> 0 < P -> fbnd S (sim_scale f) ->
  (forall k i, (k < n)%nat -> (i < n)%nat -> fbnd 1 (mget (iso_rotation (sim_isometry f)) k i)) ->
  (forall i, (i < n)%nat -> fbnd (S * P) (vat (iso_translation (sim_isometry f)) i) /\ fbnd P (vat p i)) ->
  exists q, tf_apply_point (sim_to_transform f) p = Some q /\ forall i, (i < n)%nat ->
    fnear (vat q i) (B2R (sim_scale f) * sum n (fun k => B2R (mget (iso_rotation (sim_isometry f)) k i) * B2R (vat p k)) + B2R (vat (iso_translation (sim_isometry f)) i)) (17 * bpow radix2 (- prec) * (S * P)).
Proof. exact c155_similarity. Qed.
Print Assumptions C155_similarity.

(** A reflection in the line with normal (3/5, 4/5) in f64. *)
Example C155_example :
  let n : vec f64 2 := v2 (ndiv (f64_of_Z 3) (f64_of_Z 5)) (ndiv (f64_of_Z 4) (f64_of_Z 5)) in
  let f := mkReflection n (v2 (f64_of_Z 1) (f64_of_Z 2) : point f64 2) in let p : point f64 2 := v2 (f64_of_Z 4) (f64_of_Z (-3)) in
  (forall i, (i < 2)%nat -> fbnd 1 (vat (re_normal f) i) /\ fbnd 4 (vat (re_bias f) i) /\ fbnd 4 (vat p i)) /\ bpow radix2 (31 - 1024) <= 4 <= bpow radix2 (1024 - 31) /\
  exists q, tf_apply_point (re2to_transform f) p = Some q /\ is_finite (vat q 0) = true /\ is_finite (vat q 1) = true.
Proof. exact c155_example. Qed.
