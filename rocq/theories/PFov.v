(** Property theorems about the field of view of a perspective projection in floats (C145). *)

From Coq Require Import List Arith ZArith Reals.
From Flocq Require Import Core.Core IEEE754.BinarySingleNaN.
From Verif Require Import Base Scalar Spec SpecF SpecUnp SpecFov MVector MMatrix MFloat MProjection MFov LFovD LFovE.
Local Open Scope R_scope.

(** ** C145 *)

(** A field of view of 2 radians in [f64] is read back as about -1.14, whatever the library. *)
Theorem C145_wide_refuted :
  exists vfov aspect near far : f64,
    is_finite vfov = true /\ B2R vfov = 2 /\ is_finite aspect = true /\ B2R aspect = 1 /\
    is_finite near = true /\ B2R near = 1 /\ is_finite far = true /\ B2R far = 2 /\
    forall tangent arctangent : f64 -> f64, tan_within (/ 1000) 10 tangent -> atan_within (/ 1000) 93 arctangent ->
      let angle := fpersp_vfov arctangent (fpersp_from_vfov tangent vfov aspect near far) in
      is_finite angle = true /\ - (115 / 100) <= B2R angle <= - (113 / 100).
Proof. exact c145_wide_refuted. Qed.
Print Assumptions C145_wide_refuted.

(** The entries of the matrix, and the aspect ratio and the planes read back from it.  The aspect ratio does not suffer from the error of the tangent. *)
Theorem C145_matrix :
  forall (prec emax : Z) (Hp : Prec_gt_0 prec) (He : Prec_lt_emax prec emax) (q : Z) (d : R)
    (tangent : binary_float prec emax -> binary_float prec emax) (vfov aspect near far : binary_float prec emax),
    (24 <= prec)%Z -> (1 <= q)%Z -> (6 * q + 33 <= emax)%Z -> (3 * q + prec + 16 <= emax)%Z ->
    0 <= d <= / 1000 -> tan_within d q tangent ->
    is_finite vfov = true -> is_finite aspect = true -> is_finite near = true -> is_finite far = true ->
    let u := bpow radix2 (- prec) in
    let V := B2R vfov in let A := B2R aspect in let N := B2R near in let F := B2R far in
    let t := tan (V / 2) in
    sized q V -> V < PI -> sized q t -> sized q A -> depth_range prec q N F ->
    let m := fpersp_from_vfov tangent vfov aspect near far in
    fnear (mget m 0 0) (1 / (A * t)) ((11 / 10 * d + 6 * u) * (1 / (A * t))) /\
    fnear (mget m 1 1) (1 / t) ((11 / 10 * d + 3 * u) * (1 / t)) /\
    fnear (mget m 2 2) (- ((F + N) / (F - N))) (4 * u * ((F + N) / (F - N))) /\
    fnear (mget m 3 2) (- (2 * F * N / (F - N))) (5 * u * (2 * F * N / (F - N))) /\
    B2R (mget m 2 3) = - 1 /\
    (forall j i, (j < 4)%nat -> (i < 4)%nat -> i <> j -> (j, i) <> (3, 2)%nat -> (j, i) <> (2, 3)%nat -> mget m j i = n0) /\
    mget m 3 3 = n0 /\
    fnear (persp_aspect_ratio m) A (9 * u * A) /\
    fnear (persp_near m) N (24 * u * N) /\
    fnear (persp_far m) F ((7 * (F / N) + 24) * u * F).
Proof. exact c145_matrix. Qed.
Print Assumptions C145_matrix.

(** The field of view is read back exactly when the computed tangent of its half is at most 1, with the accuracy of the library; otherwise it comes back less PI.  The tangent is on the expected side of 1 unless the field of view is within 2 d of a right angle.  Missing: fields of view above a right angle, which come back wrong. *)
Theorem C145_vfov_partial :
  forall (prec emax : Z) (Hp : Prec_gt_0 prec) (He : Prec_lt_emax prec emax) (q : Z) (d : R)
    (tangent arctangent : binary_float prec emax -> binary_float prec emax) (vfov aspect near far : binary_float prec emax),
    (24 <= prec)%Z -> (1 <= q)%Z -> (6 * q + 33 <= emax)%Z -> (3 * q + prec + 16 <= emax)%Z ->
    0 <= d <= / 1000 -> tan_within d q tangent -> atan_within d (3 * q + prec + 10) arctangent ->
    is_finite vfov = true -> is_finite near = true ->
    let u := bpow radix2 (- prec) in
    let V := B2R vfov in
    sized q V -> V < PI -> sized q (tan (V / 2)) -> sized q (B2R near) ->
    let t := B2R (tangent (ndiv vfov (nadd n1 n1))) in
    let m := fpersp_from_vfov tangent vfov aspect near far in
    (V + 2 * d <= PI / 2 -> t <= 1) /\ (PI / 2 + 2 * d < V -> 1 < t) /\
    (t <= 1 -> fnear (fpersp_vfov arctangent m) V ((11 / 5 * d + 8 * u) * V)) /\
    (1 < t -> fnear (fpersp_vfov arctangent m) (V - PI) ((11 / 5 * d + 8 * u) * (PI - V))).
Proof. exact c145_vfov. Qed.
Print Assumptions C145_vfov_partial.

(** The hypotheses hold in [f64] with nearest tangents and arctangents: one radian, aspect ratio 2, planes at 1 and 4. *)
Example C145_example :
  let vfov := f64_of_Z 1 in let aspect := f64_of_Z 2 in let near := f64_of_Z 1 in let far := f64_of_Z 4 in
  let m := fpersp_from_vfov nearest_tan vfov aspect near far in
  fnear (fpersp_vfov nearest_atan m) 1 (bpow radix2 (-49)) /\ fnear (persp_aspect_ratio m) 2 (bpow radix2 (-48)) /\
  fnear (persp_near m) 1 (bpow radix2 (-48)) /\ fnear (persp_far m) 4 (bpow radix2 (-45)).
Proof. exact c145_example. Qed.
