(** Property theorems about products of isometries with rotations and translations in floats (C160). *)

From Coq Require Import List Arith ZArith Reals.
From Flocq Require Import Core.Core IEEE754.BinarySingleNaN.
From Verif Require Import Base Scalar Spec SpecF SpecRot SpecRigid MReal MVector MMatrix MPoint MTransform MFloat LMixFP.
Local Open Scope R_scope.

(** ** C160 *)

(** Each product of a rotation, a translation and an isometry moves a point to within a small multiple of (d + u) V of the exact composite motion; [zero] is the translation of a rotation. *)
Theorem C160_mixed :
  forall (prec emax : Z) (Hp : Prec_gt_0 prec) (He : Prec_lt_emax prec emax) (n : nat)
    (f : isometry (binary_float prec emax) n) (r : rotation (binary_float prec emax) n) (t p : vec (binary_float prec emax) n) (P Q : mat R n n) (V d : R),
    let u := bpow radix2 (- prec) in let s := fval (iso_translation f) in let zero := fun _ : nat => 0 in
    (24 <= prec)%Z -> (34 <= emax)%Z -> (n <= 4)%nat -> bpow radix2 (31 - emax) <= V <= bpow radix2 (emax - 31) -> 0 <= d <= / 64 ->
    orthonormal_columns P -> orthonormal_columns Q ->
    (forall j i, (j < n)%nat -> (i < n)%nat -> fnear (mget (iso_rotation f) j i) (mget P j i) d /\ fnear (mget r j i) (mget Q j i) d) ->
    (forall i, (i < n)%nat -> is_finite (vat (iso_translation f) i) = true /\ is_finite (vat t i) = true /\ is_finite (vat p i) = true) ->
    rlength n s <= V -> rlength n (fval t) <= V -> rlength n (fval p) <= V ->
    vfnear (iso_apply_point (rot_mul_tr r t) p) (rigid Q zero (fun k => fval p k + fval t k)) ((8 * d + 39 * u) * V) /\
    vfnear (iso_apply_point (iso_mul_tr f t) p) (rigid P s (fun k => fval p k + fval t k)) ((8 * d + 43 * u) * V) /\
    vfnear (iso_apply_point (tr_mul_iso t f) p) (fun i => rigid P s (fval p) i + fval t i) ((4 * d + 24 * u) * V) /\
    vfnear (iso_apply_point (iso_mul_rot f r) p) (rigid P s (rigid Q zero (fval p))) ((28 * d + 97 * u) * V) /\
    vfnear (iso_apply_point (rot_mul_iso r f) p) (rigid Q zero (rigid P s (fval p))) ((32 * d + 115 * u) * V).
Proof. exact c160_mixed. Qed.
Print Assumptions C160_mixed.

(** The 3-4-5 rotation and the translation (3, -4) in f64. *)
Example C160_example :
  let c : f64 := ndiv (f64_of_Z 3) (f64_of_Z 5) in let s : f64 := ndiv (f64_of_Z 4) (f64_of_Z 5) in
  let a : mat f64 2 2 := v2 (v2 c s) (v2 (nneg s) c) in let t : vec f64 2 := v2 (f64_of_Z 3) (f64_of_Z (-4)) in
  let q : mat R 2 2 := v2 (v2 (3 / 5) (4 / 5)) (v2 (- (4 / 5)) (3 / 5)) in
  vfnear (iso_apply_point (rot_mul_iso a (mkIsometry t a)) t) (rigid q (fun _ => 0) (rigid q (fval t) (fval t))) (147 * bpow radix2 (- 53) * 8) /\
  vfnear (iso_apply_point (iso_mul_tr (mkIsometry t a) t) t) (rigid q (fval t) (fun k => fval t k + fval t k)) (51 * bpow radix2 (- 53) * 8).
Proof. exact c160_example. Qed.
