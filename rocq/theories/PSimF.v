(** Property theorems about composing and inverting similarities in floats (C157). *)

From Coq Require Import List Arith ZArith Reals.
From Flocq Require Import Core.Core IEEE754.BinarySingleNaN.
From Verif Require Import Base Scalar Spec SpecF SpecRot SpecRigid MReal MVector MMatrix MPoint MTransform MFloat LSimFP.
Local Open Scope R_scope.

(** ** C157 *)

(** The product of two similarities moves a point to within (32 d + 125 u) V of the exact composite, for translations and scaled points of length at most [V]. *)
Theorem C157_composition :
  forall (prec emax : Z) (Hp : Prec_gt_0 prec) (He : Prec_lt_emax prec emax) (n : nat)
    (f g : similarity (binary_float prec emax) n) (P Q : mat R n n) (p : vec (binary_float prec emax) n) (V W X d : R),
    let u := bpow radix2 (- prec) in let inr x := bpow radix2 (31 - emax) <= x <= bpow radix2 (emax - 31) in
    let t := fval (iso_translation (sim_isometry f)) in let t' := fval (iso_translation (sim_isometry g)) in let s := B2R (sim_scale f) in let s' := B2R (sim_scale g) in
    (24 <= prec)%Z -> (34 <= emax)%Z -> (n <= 4)%nat -> inr V -> inr W -> 0 < X -> inr (Rabs (s * s')) -> 0 <= d <= / 64 ->
    orthonormal_columns P -> orthonormal_columns Q ->
    (forall j i, (j < n)%nat -> (i < n)%nat -> fnear (mget (iso_rotation (sim_isometry f)) j i) (mget P j i) d /\ fnear (mget (iso_rotation (sim_isometry g)) j i) (mget Q j i) d) ->
    is_finite (sim_scale f) = true -> is_finite (sim_scale g) = true ->
    (forall i, (i < n)%nat -> is_finite (vat (iso_translation (sim_isometry f)) i) = true /\ is_finite (vat (iso_translation (sim_isometry g)) i) = true /\ is_finite (vat p i) = true) ->
    rlength n t <= V -> rlength n t' <= W -> W * Rabs s <= V -> rlength n (fval p) <= X -> X * Rabs (s * s') <= V ->
    vfnear (sim_apply_point (sim_mul f g) p) (rigid P t (fun i => s * rigid Q t' (fun k => s' * fval p k) i)) ((32 * d + 125 * u) * V).
Proof. exact c157_composition. Qed.
Print Assumptions C157_composition.

(** [inverse] never fails, and takes the image of a point back to within (17 d + 93 u) V / |scale|. *)
Theorem C157_inverse :
  forall (prec emax : Z) (Hp : Prec_gt_0 prec) (He : Prec_lt_emax prec emax) (n : nat)
    (f : similarity (binary_float prec emax) n) (Q : mat R n n) (p : vec (binary_float prec emax) n) (V d : R),
    let u := bpow radix2 (- prec) in let inr x := bpow radix2 (31 - emax) <= x <= bpow radix2 (emax - 31) in
    let t := fval (iso_translation (sim_isometry f)) in let s := B2R (sim_scale f) in
    (24 <= prec)%Z -> (n <= 4)%nat -> inr V -> inr (Rabs s) -> inr (V / Rabs s) -> 0 <= d <= / 64 ->
    orthonormal_columns Q ->
    (forall j i, (j < n)%nat -> (i < n)%nat -> fnear (mget (iso_rotation (sim_isometry f)) j i) (mget Q j i) d) ->
    (forall i, (i < n)%nat -> is_finite (vat (iso_translation (sim_isometry f)) i) = true /\ is_finite (vat p i) = true) -> is_finite (sim_scale f) = true ->
    rlength n t <= V -> rlength n (fun i => fval p i * s) <= V ->
    exists g, sim_inverse f = Some g /\ vfnear (sim_apply_point g (sim_apply_point f p)) (fval p) ((17 * d + 93 * u) * (V / Rabs s)).
Proof. exact c157_inverse. Qed.
Print Assumptions C157_inverse.

(** Special cases without any rounding difference. *)
Theorem C157_exact :
  forall (prec emax : Z) (Hp : Prec_gt_0 prec) (He : Prec_lt_emax prec emax) (n : nat)
    (f : similarity (binary_float prec emax) n) (g : isometry (binary_float prec emax) n) (t : translation (binary_float prec emax) n) (r : rotation (binary_float prec emax) n) (p : vec (binary_float prec emax) n),
  sim_apply_point (sim_from_isometry g) p = iso_apply_point g p /\ sim_apply_vector (sim_from_isometry g) p = iso_apply_vector g p /\
  sim_mul f (sim_from_isometry g) = sim_mul_iso f g /\ iso_apply_point (tr_mul_rot t r) p = tr_apply_point t (rot_apply_point r p).
Proof. exact c157_exact. Qed.
Print Assumptions C157_exact.

(** A similarity with scale 2, the 3-4-5 rotation and the translation (3, -4) in f64. *)
Example C157_example :
  let c : f64 := ndiv (f64_of_Z 3) (f64_of_Z 5) in let s : f64 := ndiv (f64_of_Z 4) (f64_of_Z 5) in
  let a : mat f64 2 2 := v2 (v2 c s) (v2 (nneg s) c) in let t : vec f64 2 := v2 (f64_of_Z 3) (f64_of_Z (-4)) in
  let f : similarity f64 2 := mkSimilarity (mkIsometry t a) (f64_of_Z 2) in let p : vec f64 2 := v2 (f64_of_Z 1) (f64_of_Z 2) in
  exists g, sim_inverse f = Some g /\ vfnear (sim_apply_point g (sim_apply_point f p)) (fval p) (440 * bpow radix2 (- 53)).
Proof. exact c157_example. Qed.
