(** Property theorems about reflections and projections in floats (C128). *)

From Coq Require Import Arith ZArith Reals.
From Flocq Require Import Core.Core IEEE754.BinarySingleNaN.
From Verif Require Import Base Scalar Spec SpecF SpecRigid SpecMirror MVector MMatrix MPoint MQuat MTransform MFloat MFloatVec MRefF LLookGP LRefFP.
Local Open Scope R_scope.

(** ** C128 *)

(** The mirror image of the specification is the geometric one: the middle of a point and its image lies on the hyperplane, the two
    differ by a multiple of the normal, mirroring twice does nothing and distances are kept. *)
Theorem C128_mirror :
  forall (n : nat) (a b x y : nat -> R), rlength n a = 1 ->
  sum n (fun i => ((x i + mirror n a b x i) / 2 - b i) * a i) = 0 /\
  (exists t, forall i, x i - mirror n a b x i = t * a i) /\
  (forall i, mirror n a b (mirror n a b x) i = x i) /\
  rlength n (fun i => mirror n a b x i - mirror n a b y i) = rlength n (fun i => x i - y i).
Proof. exact c128_mirror. Qed.
Print Assumptions C128_mirror.

(** The projection of the specification is the orthogonal one: what is left is at right angles to the line, the projection lies on
    the line and is not longer than the vector. *)
Theorem C128_shadow :
  forall (n : nat) (o x : nat -> R), 0 < rlength n o ->
  sum n (fun i => (x i - shadow n o x i) * o i) = 0 /\ (exists t, forall i, shadow n o x i = t * o i) /\
  rlength n (shadow n o x) <= rlength n x.
Proof. exact c128_shadow. Qed.
Print Assumptions C128_shadow.

(** [Reflection::apply_vector] and [apply_point] in a format of at least the precision of [f32], in up to four dimensions, when the
    stored normal is within d of a unit vector a: the result is finite and close to the exact mirror image, and applying the
    reflection twice (its inverse is itself) gives back the vector or point. *)
Theorem C128_reflect :
  forall (prec emax : Z) (Hp : Prec_gt_0 prec) (He : Prec_lt_emax prec emax) (n : nat)
    (normal v p bias : vec (binary_float prec emax) n) (a : nat -> R) (d V : R),
    let u := bpow radix2 (- prec) in let f := re_from_normal_bias normal bias in
    (24 <= prec)%Z -> (n <= 4)%nat -> bpow radix2 (31 - emax) <= V <= bpow radix2 (emax - 31) ->
    rlength n a = 1 -> 0 <= d <= / 8 -> vfnear normal a d ->
    (forall i, (i < n)%nat -> is_finite (vat v i) = true) -> rlength n (fval v) <= V ->
    (forall i, (i < n)%nat -> is_finite (vat p i) = true) -> rlength n (fval p) <= V ->
    (forall i, (i < n)%nat -> is_finite (vat bias i) = true) -> rlength n (fval bias) <= V ->
    vfnear (re_apply_vector f v) (mirror n a (fun _ => 0) (fval v)) ((17 / 4 * d + 34 * u) * V) /\
    vfnear (re_apply_point f p) (mirror n a (fval bias) (fval p)) ((17 / 2 * d + 76 * u) * V) /\
    (d <= / 256 ->
     vfnear (re_inverse_apply_vector f (re_apply_vector f v)) (fval v) ((20 * d + 158 * u) * V) /\
     vfnear (re_inverse_apply_point f (re_apply_point f p)) (fval p) ((40 * d + 360 * u) * V)).
Proof. exact c128_reflect. Qed.
Print Assumptions C128_reflect.

(** Reflections keep the distance of two points up to the same error. *)
Theorem C128_distances :
  forall (prec emax : Z) (Hp : Prec_gt_0 prec) (He : Prec_lt_emax prec emax) (n : nat)
    (normal p q bias : vec (binary_float prec emax) n) (a : nat -> R) (d V : R),
    let u := bpow radix2 (- prec) in let f := re_from_normal_bias normal bias in
    (24 <= prec)%Z -> (n <= 4)%nat -> bpow radix2 (31 - emax) <= V <= bpow radix2 (emax - 31) ->
    rlength n a = 1 -> 0 <= d <= / 8 -> vfnear normal a d ->
    (forall i, (i < n)%nat -> is_finite (vat p i) = true) -> rlength n (fval p) <= V ->
    (forall i, (i < n)%nat -> is_finite (vat q i) = true) -> rlength n (fval q) <= V ->
    (forall i, (i < n)%nat -> is_finite (vat bias i) = true) -> rlength n (fval bias) <= V ->
    Rabs (rlength n (fun i => fval (re_apply_point f p) i - fval (re_apply_point f q) i) - rlength n (fun i => fval p i - fval q i)) <= (17 * d + 152 * u) * V.
Proof. exact c128_distance. Qed.
Print Assumptions C128_distances.

(** [Vector::reflect] normalises the vector it is given: it is within 136 units of roundoff of the mirror image for a normal of any
    length whose square neither overflows nor underflows. *)
Theorem C128_reflect_any_normal :
  forall (prec emax : Z) (Hp : Prec_gt_0 prec) (He : Prec_lt_emax prec emax) (n : nat) (k : Z)
    (v normal : vec (binary_float prec emax) n) (V : R),
    let u := bpow radix2 (- prec) in let r := rlength n (fval normal) in
    (24 <= prec)%Z -> (n <= 4)%nat -> (0 <= k)%Z -> (2 * k + 31 <= emax)%Z -> bpow radix2 (31 - emax) <= V <= bpow radix2 (emax - 31) ->
    (forall i, (i < n)%nat -> is_finite (vat normal i) = true) -> bpow radix2 (- k) <= r <= bpow radix2 k ->
    (forall i, (i < n)%nat -> is_finite (vat v i) = true) -> rlength n (fval v) <= V ->
    vfnear (fvreflect v normal) (mirror n (fun i => fval normal i / r) (fun _ => 0) (fval v)) (136 * u * V).
Proof. exact c128_reflect_any. Qed.
Print Assumptions C128_reflect_any_normal.

(** [Vector::project] is within 20 units of roundoff of the orthogonal projection, and what is left of the vector is at right angles
    to the line up to that error. *)
Theorem C128_project :
  forall (prec emax : Z) (Hp : Prec_gt_0 prec) (He : Prec_lt_emax prec emax) (n : nat) (k : Z)
    (v o : vec (binary_float prec emax) n) (V : R),
    let u := bpow radix2 (- prec) in
    (24 <= prec)%Z -> (n <= 4)%nat -> (0 <= k)%Z -> (2 * k + 31 <= emax)%Z ->
    (forall i, (i < n)%nat -> is_finite (vat v i) = true) -> (forall i, (i < n)%nat -> is_finite (vat o i) = true) ->
    bpow radix2 (- k) <= V <= bpow radix2 k -> rlength n (fval v) <= V -> bpow radix2 (- k) <= rlength n (fval o) <= bpow radix2 k ->
    vfnear (vproject v o) (shadow n (fval o) (fval v)) (20 * u * V) /\
    Rabs (sum n (fun i => (fval v i - fval (vproject v o) i) * fval o i)) <= 20 * u * V * rlength n (fval o).
Proof. exact c128_project. Qed.
Print Assumptions C128_project.

(** [Quaternion::project] and [Quaternion::reject]: the same in four dimensions, with 23 units for the rejection. *)
Theorem C128_quaternion_project_reject :
  forall (prec emax : Z) (Hp : Prec_gt_0 prec) (He : Prec_lt_emax prec emax) (k : Z)
    (p q : quat (binary_float prec emax)) (V : R),
    let u := bpow radix2 (- prec) in let P := fval (p : vec _ 4) in let Q := fval (q : vec _ 4) in
    (24 <= prec)%Z -> (0 <= k)%Z -> (2 * k + 31 <= emax)%Z ->
    (forall i, (i < 4)%nat -> is_finite (vat (p : vec _ 4) i) = true) -> (forall i, (i < 4)%nat -> is_finite (vat (q : vec _ 4) i) = true) ->
    bpow radix2 (- k) <= V <= bpow radix2 k -> rlength 4 P <= V -> bpow radix2 (- k) <= rlength 4 Q <= bpow radix2 k ->
    vfnear (qproject p q : vec _ 4) (shadow 4 Q P) (20 * u * V) /\
    vfnear (qreject p q : vec _ 4) (fun i => P i - shadow 4 Q P i) (23 * u * V) /\
    Rabs (sum 4 (fun i => fval (qreject p q : vec _ 4) i * Q i)) <= 23 * u * V * rlength 4 Q.
Proof. exact c128_quaternion. Qed.
Print Assumptions C128_quaternion_project_reject.

(** The hypotheses hold for the normal (3,4,0), normalised in [f64], and the vector (1,2,2) with V = 4. *)
Example C128_example :
  let nd := vz 3 4 0 in let x := vz 1 2 2 in let a := fun i => fval nd i / rlength 3 (fval nd) in
  (forall i, (i < 3)%nat -> is_finite (vat nd i) = true) /\ (forall i, (i < 3)%nat -> is_finite (vat x i) = true) /\
  (2 * 10 + 31 <= 1024)%Z /\ bpow radix2 (31 - 1024) <= 4 <= bpow radix2 (1024 - 31) /\ bpow radix2 (- 10) <= 4 <= bpow radix2 10 /\
  rlength 3 (fval x) <= 4 /\ bpow radix2 (- 10) <= rlength 3 (fval nd) <= bpow radix2 10 /\
  rlength 3 a = 1 /\ vfnear (fvnormalize nd) a (24 * bpow radix2 (- 53)) /\ 24 * bpow radix2 (- 53) <= / 256 /\
  mirror 3 a (fun _ => 0) (fval x) 0 = -41 / 25 /\ mirror 3 a (fun _ => 0) (fval x) 2 = 2 /\
  shadow 3 (fval nd) (fval x) 0 = 33 / 25 /\ shadow 3 (fval nd) (fval x) 1 = 44 / 25.
Proof. exact c128_example. Qed.
