(** Property theorems about convenience forms of operations (C141). *)

From Coq Require Import Arith ZArith Bool Reals.
From Flocq Require Import Core.Core IEEE754.BinarySingleNaN.
From Verif Require Import Base Scalar Spec SpecF SpecRigid MVector MPoint MMatrix MComplex MRot MQuat MMisc MTransform MProjection MFloat MFloatVec
  LBase LConv.

(** ** C141 *)

Local Open Scope num_scope.
(** The panicking [inverse] of square matrices returns [w] exactly if [w] is the inverse; otherwise ([None]) it panics. *)
Theorem C141_inverse :
  forall (K : Type) (NK : Num K) (DK : NumDiv K) (FK : FieldLaws K),
  (forall m w : mat K 1 1, m1inverse m = Some w <-> mmul m w = midentity 1) /\
  (forall m w : mat K 2 2, m2inverse m = Some w <-> mmul m w = midentity 2) /\
  (forall m w : mat K 3 3, m3inverse m = Some w <-> mmul m w = midentity 3) /\
  (forall m w : mat K 4 4, m4inverse m = Some w <-> mmul m w = midentity 4).
Proof. exact c141_inverse. Qed.
Print Assumptions C141_inverse.

(** [from_shear] is the shear that fixes the origin. *)
Theorem C141_shear :
  forall (K : Type) (NK : Num K) (RK : RingLaws K) (n : nat) (factor : K) (direction normal : vec K n) (p : point K n) (i : nat), (i < n)%nat ->
  vat (sh_apply_point (sh_from_shear factor direction normal) p) i = vat p i + vat direction i * (factor * sum n (fun j => vat p j * vat normal j)) /\
  vat (sh_apply_vector (sh_from_shear factor direction normal) (p : vec K n)) i = vat p i + vat direction i * (factor * sum n (fun j => vat p j * vat normal j)).
Proof. exact c141_shear. Qed.
Print Assumptions C141_shear.

(** The orthographic projection as a transform maps points and vectors as [project_point] and [project_vector] do, for all parameters. *)
Theorem C141_orthographic :
  forall (K : Type) (NK : Num K) (DK : NumDiv K) (FK : FieldLaws K) (left right bottom top near far : K) (p : point K 3) (v : vec K 3),
  let m := ortho_new left right bottom top near far in
  tf_apply_point (ortho_to_transform m) p = Some (ortho_project_point m p) /\ tf_apply_vector (ortho_to_transform m) v = ortho_project_vector m v.
Proof. exact c141_orthographic. Qed.
Print Assumptions C141_orthographic.

Local Open Scope R_scope.
(** [scale] and [unscale] of vectors. *)
Theorem C141_scale :
  forall (n : nat) (u : vec R n) (s : R),
  (forall i, (i < n)%nat -> vat (vscale u s) i = vat u i * s /\ (s <> 0 -> vat (vunscale u s) i = vat u i / s)) /\
  (s <> 0 -> vunscale (vscale u s) s = u /\ vscale (vunscale u s) s = u) /\ vnorm (vscale u s) = Rabs s * vnorm u.
Proof. exact c141_scale. Qed.
Print Assumptions C141_scale.

(** [Complex::from_angle] is on the unit circle, turns sums of angles into products, and [arg] gives the angle back. *)
Theorem C141_from_angle :
  forall a b : R,
  cfrom_angle a = mkC (cos a) (sin a) /\ cnorm (cfrom_angle a) = 1 /\ cfrom_angle (a + b) = cmul (cfrom_angle a) (cfrom_angle b) /\ (- PI < a <= PI -> carg (cfrom_angle a) = a).
Proof. exact c141_from_angle. Qed.
Print Assumptions C141_from_angle.

(** [abs_diff_eq] of quaternions with a tolerance for each component. *)
Theorem C141_comparison :
  forall p q t : quat R, qabs_diff_eq p q t = true <-> forall i, (i < 4)%nat -> Rabs (vat (p : vec R 4) i - vat (q : vec R 4) i) <= vat (t : vec R 4) i.
Proof. exact c141_comparison. Qed.
Print Assumptions C141_comparison.

(** [metric_distance] of vectors of floats. *)
Theorem C141_distance :
  forall (prec emax : Z) (Hp : Prec_gt_0 prec) (He : Prec_lt_emax prec emax) (n : nat) (k : Z) (a b : vec (binary_float prec emax) n),
  let u := bpow radix2 (- prec) in let r := rlength n (fun i => fval a i - fval b i) in
  (24 <= prec)%Z -> (n <= 4)%nat -> (0 <= k)%Z -> (2 * k + 33 <= emax)%Z ->
  (forall i, (i < n)%nat -> is_finite (vat a i) = true /\ is_finite (vat b i) = true) -> bpow radix2 (- k) <= r <= bpow radix2 k ->
  fnear (fvdist a b) r (10 * u * r).
Proof. exact c141_distance. Qed.
Print Assumptions C141_distance.

(** Concrete cases. *)
Example C141_example :
  let a : vec f64 3 := v3 (f64_of_Z 4) (f64_of_Z 4) n0 in let b : vec f64 3 := v3 (f64_of_Z 1) n0 n0 in
  (forall i, (i < 3)%nat -> is_finite (vat a i) = true /\ is_finite (vat b i) = true) /\ rlength 3 (fun i => fval a i - fval b i) = 5 /\
  fvdist a b = f64_of_Z 5 /\
  m2inverse (m2new 2 1 1 1 : mat R 2 2) = Some (m2new 1 (-1) (-1) 2) /\
  sh_apply_point (sh_from_shear 2 (v2 1 0) (v2 0 1)) (v2 3 4 : point R 2) = v2 11 4.
Proof. exact c141_example. Qed.
