(** Property theorems about rigid motions, similarities and turned points in floats (C125). *)

From Coq Require Import Arith ZArith Reals.
From Flocq Require Import Core.Core IEEE754.BinarySingleNaN.
From Verif Require Import Base Scalar Spec SpecF SpecRot SpecRotF SpecRigid MVector MMatrix MQuat MPoint MFloat MTransform MRotF
  LFloatNormP LRigidGP.
Local Open Scope R_scope.

(** ** C125 *)

(** A float isometry whose rotation matrix is within [d] (entrywise) of an orthonormal real matrix [Q], in up to four dimensions.
    For points and translations of length at most [V] the image of a point is within (4 d + 21 u) V of the exact rigid
    motion, in Euclidean distance; the image of a vector is within (4 d + 18 u) V. *)
Theorem C125_apply :
  forall (prec emax : Z) (Hp : Prec_gt_0 prec) (He : Prec_lt_emax prec emax) (n : nat)
    (f : isometry (binary_float prec emax) n) (Q : mat R n n) (V d : R),
    let u := bpow radix2 (- prec) in let t := fval (iso_translation f) in
    (24 <= prec)%Z -> (n <= 4)%nat -> bpow radix2 (31 - emax) <= V <= bpow radix2 (emax - 31) -> 0 <= d <= / 64 ->
    orthonormal_columns Q ->
    (forall j i, (j < n)%nat -> (i < n)%nat -> fnear (mget (iso_rotation f) j i) (mget Q j i) d) ->
    (forall i, (i < n)%nat -> is_finite (vat (iso_translation f) i) = true) -> rlength n t <= V ->
    forall p : vec (binary_float prec emax) n,
      (forall i, (i < n)%nat -> is_finite (vat p i) = true) -> rlength n (fval p) <= V ->
      vfnear (iso_apply_point f p) (rigid Q t (fval p)) ((4 * d + 21 * u) * V) /\
      vfnear (iso_apply_vector f p) (rigid Q (fun _ => 0) (fval p)) ((4 * d + 18 * u) * V).
Proof. exact c125_apply. Qed.
Print Assumptions C125_apply.

(** Applying the isometry and then its inverse returns to the point, up to (9 d + 46 u) V with [inverse_apply_point] and
    (17 d + 82 u) V through [inverse]. *)
Theorem C125_round_trip :
  forall (prec emax : Z) (Hp : Prec_gt_0 prec) (He : Prec_lt_emax prec emax) (n : nat)
    (f : isometry (binary_float prec emax) n) (Q : mat R n n) (V d : R),
    let u := bpow radix2 (- prec) in let t := fval (iso_translation f) in
    (24 <= prec)%Z -> (n <= 4)%nat -> bpow radix2 (31 - emax) <= V <= bpow radix2 (emax - 31) -> 0 <= d <= / 64 ->
    orthonormal_columns Q ->
    (forall j i, (j < n)%nat -> (i < n)%nat -> fnear (mget (iso_rotation f) j i) (mget Q j i) d) ->
    (forall i, (i < n)%nat -> is_finite (vat (iso_translation f) i) = true) -> rlength n t <= V ->
    forall p : vec (binary_float prec emax) n,
      (forall i, (i < n)%nat -> is_finite (vat p i) = true) -> rlength n (fval p) <= V ->
      vfnear (iso_inverse_apply_point f (iso_apply_point f p)) (fval p) ((9 * d + 46 * u) * V) /\
      vfnear (iso_apply_point (iso_inverse f) (iso_apply_point f p)) (fval p) ((17 * d + 82 * u) * V).
Proof. exact c125_round_trip. Qed.
Print Assumptions C125_round_trip.

(** The distance of two image points is that of the points up to (8 d + 42 u) V. *)
Theorem C125_distances :
  forall (prec emax : Z) (Hp : Prec_gt_0 prec) (He : Prec_lt_emax prec emax) (n : nat)
    (f : isometry (binary_float prec emax) n) (Q : mat R n n) (V d : R),
    let u := bpow radix2 (- prec) in let t := fval (iso_translation f) in
    (24 <= prec)%Z -> (n <= 4)%nat -> bpow radix2 (31 - emax) <= V <= bpow radix2 (emax - 31) -> 0 <= d <= / 64 ->
    orthonormal_columns Q ->
    (forall j i, (j < n)%nat -> (i < n)%nat -> fnear (mget (iso_rotation f) j i) (mget Q j i) d) ->
    (forall i, (i < n)%nat -> is_finite (vat (iso_translation f) i) = true) -> rlength n t <= V ->
    forall p q : vec (binary_float prec emax) n,
      (forall i, (i < n)%nat -> is_finite (vat p i) = true) -> rlength n (fval p) <= V ->
      (forall i, (i < n)%nat -> is_finite (vat q i) = true) -> rlength n (fval q) <= V ->
      Rabs (rlength n (fun i => fval (iso_apply_point f p) i - fval (iso_apply_point f q) i) - rlength n (fun i => fval p i - fval q i))
        <= (8 * d + 42 * u) * V.
Proof. exact c125_distances. Qed.
Print Assumptions C125_distances.

(** Applying the product of two isometries and applying them one after the other both give the exact composite motion, up to
    (33 d + 122 u) V and (13 d + 65 u) V. *)
Theorem C125_composition :
  forall (prec emax : Z) (Hp : Prec_gt_0 prec) (He : Prec_lt_emax prec emax) (n : nat)
    (f g : isometry (binary_float prec emax) n) (P Q : mat R n n) (V d : R),
    let u := bpow radix2 (- prec) in let s := fval (iso_translation f) in let t := fval (iso_translation g) in
    (24 <= prec)%Z -> (34 <= emax)%Z -> (n <= 4)%nat -> bpow radix2 (31 - emax) <= V <= bpow radix2 (emax - 31) -> 0 <= d <= / 64 ->
    orthonormal_columns P -> orthonormal_columns Q ->
    (forall j i, (j < n)%nat -> (i < n)%nat ->
       fnear (mget (iso_rotation f) j i) (mget P j i) d /\ fnear (mget (iso_rotation g) j i) (mget Q j i) d) ->
    (forall i, (i < n)%nat -> is_finite (vat (iso_translation f) i) = true /\ is_finite (vat (iso_translation g) i) = true) ->
    rlength n s <= V -> rlength n t <= V ->
    forall p : vec (binary_float prec emax) n,
      (forall i, (i < n)%nat -> is_finite (vat p i) = true) -> rlength n (fval p) <= V ->
      vfnear (iso_apply_point (iso_mul f g) p) (rigid P s (rigid Q t (fval p))) ((33 * d + 122 * u) * V) /\
      vfnear (iso_apply_point f (iso_apply_point g p)) (rigid P s (rigid Q t (fval p))) ((13 * d + 65 * u) * V).
Proof. exact c125_composition. Qed.
Print Assumptions C125_composition.

(** Similarities: scaling first.  The image of a point whose scaled length is at most [V] is within (4 d + 23 u) V of the exact
    one, and going back gives the point up to (9 d + 51 u) V / |scale|. *)
Theorem C125_similarity :
  forall (prec emax : Z) (Hp : Prec_gt_0 prec) (He : Prec_lt_emax prec emax) (n : nat)
    (f : similarity (binary_float prec emax) n) (Q : mat R n n) (p : vec (binary_float prec emax) n) (V d : R),
    let u := bpow radix2 (- prec) in let t := fval (iso_translation (sim_isometry f)) in let s := B2R (sim_scale f) in
    (24 <= prec)%Z -> (n <= 4)%nat -> bpow radix2 (31 - emax) <= V <= bpow radix2 (emax - 31) -> 0 <= d <= / 64 ->
    orthonormal_columns Q ->
    (forall j i, (j < n)%nat -> (i < n)%nat -> fnear (mget (iso_rotation (sim_isometry f)) j i) (mget Q j i) d) ->
    (forall i, (i < n)%nat -> is_finite (vat (iso_translation (sim_isometry f)) i) = true) -> rlength n t <= V ->
    is_finite (sim_scale f) = true ->
    (forall i, (i < n)%nat -> is_finite (vat p i) = true) -> rlength n (fun i => fval p i * s) <= V ->
    vfnear (sim_apply_point f p) (rigid Q t (fun i => fval p i * s)) ((4 * d + 23 * u) * V) /\
    (s <> 0 -> bpow radix2 (31 - emax) <= V / Rabs s <= bpow radix2 (emax - 31) ->
      vfnear (sim_inverse_apply_point f (sim_apply_point f p)) (fval p) ((9 * d + 51 * u) * (V / Rabs s))).
Proof. exact c125_similarity. Qed.
Print Assumptions C125_similarity.

(** A point turned about an axis: with the accuracy of the constructor (C124), the matrix of [from_axis_angle] moves a point
    to within (32 d + 78 u) V of the exact rotation. *)
Theorem C125_turn_about_axis :
  forall (prec emax : Z) (Hp : Prec_gt_0 prec) (He : Prec_lt_emax prec emax)
    (sine cosine : binary_float prec emax -> binary_float prec emax)
    (axis : vec (binary_float prec emax) 3) (angle : binary_float prec emax) (a : vec R 3) (t d V : R),
    let u := bpow radix2 (- prec) in
    (24 <= prec)%Z -> (34 <= emax)%Z -> bpow radix2 (31 - emax) <= V <= bpow radix2 (emax - 31) -> 0 <= d <= / 512 ->
    sum 3 (fun i => vat a i * vat a i) = 1 ->
    (forall i, (i < 3)%nat -> fnear (vat axis i) (vat a i) d) ->
    fnear (sine angle) (sin t) d -> fnear (cosine angle) (cos t) d ->
    forall p : vec (binary_float prec emax) 3,
      (forall i, (i < 3)%nat -> is_finite (vat p i) = true) -> rlength 3 (fval p) <= V ->
      vfnear (rot_apply_point (gm3from_axis_angle sine cosine axis angle) p)
        (fun i => vat (rodrigues a t (v3 (fval p 0) (fval p 1) (fval p 2))) i) ((32 * d + 78 * u) * V).
Proof. exact c125_turn_about_axis. Qed.
Print Assumptions C125_turn_about_axis.

(** The same through the quaternion of the axis and the angle: within (144 d + 434 u) V. *)
Theorem C125_turn_by_quaternion :
  forall (prec emax : Z) (Hp : Prec_gt_0 prec) (He : Prec_lt_emax prec emax)
    (sine cosine : binary_float prec emax -> binary_float prec emax)
    (axis : vec (binary_float prec emax) 3) (angle : binary_float prec emax) (a : vec R 3) (t d V : R),
    let u := bpow radix2 (- prec) in
    (24 <= prec)%Z -> (34 <= emax)%Z -> bpow radix2 (31 - emax) <= V <= bpow radix2 (emax - 31) -> 0 <= d <= / 512 ->
    sum 3 (fun i => vat a i * vat a i) = 1 ->
    (forall i, (i < 3)%nat -> fnear (vat axis i) (vat a i) d) ->
    let half : binary_float prec emax := nmul angle (ndiv n1 (nadd n1 n1)) in
    fnear (sine half) (sin (t / 2)) d -> fnear (cosine half) (cos (t / 2)) d ->
    forall p : vec (binary_float prec emax) 3,
      (forall i, (i < 3)%nat -> is_finite (vat p i) = true) -> rlength 3 (fval p) <= V ->
      vfnear (rot_apply_point (qto_matrix (gqfrom_axis_angle sine cosine axis angle)) p)
        (fun i => vat (rodrigues a t (v3 (fval p 0) (fval p 1) (fval p 2))) i) ((144 * d + 434 * u) * V).
Proof. exact c125_turn_by_quaternion. Qed.
Print Assumptions C125_turn_by_quaternion.

(** The rotation with cosine 3/5 and sine 4/5 rounded to [f64] and the translation (3, -4) meet the hypotheses with [d] the unit
    roundoff and any [V >= 5]. *)
Example C125_example :
  let c : f64 := ndiv (f64_of_Z 3) (f64_of_Z 5) in let s : f64 := ndiv (f64_of_Z 4) (f64_of_Z 5) in
  let a : mat f64 2 2 := v2 (v2 c s) (v2 (nneg s) c) in
  let q : mat R 2 2 := v2 (v2 (3 / 5)%R (4 / 5)%R) (v2 (- (4 / 5))%R (3 / 5)%R) in
  let t : vec f64 2 := v2 (f64_of_Z 3) (f64_of_Z (-4)) in
  let f : isometry f64 2 := mkIsometry t a in
  orthonormal_columns q /\
  (forall j i, (j < 2)%nat -> (i < 2)%nat -> fnear (mget (iso_rotation f) j i) (mget q j i) (bpow radix2 (- 53))) /\
  (forall i, (i < 2)%nat -> is_finite (vat (iso_translation f) i) = true) /\ rlength 2 (fval (iso_translation f)) = 5%R.
Proof. exact c125_example. Qed.
