(** Property theorems about the functions of quaternions in floats (C139, C140). *)

From Coq Require Import Arith ZArith Reals.
From Flocq Require Import Core.Core IEEE754.BinarySingleNaN.
From Verif Require Import Base Scalar Spec SpecF SpecRigid SpecLook SpecCplx SpecLibm SpecCR SpecArc SpecAng SpecQFun MVector MMatrix MQuat MFloat MFloatVec MComplexF MRotF MArcF MQFunF
  LQFunR.
Local Open Scope R_scope.

(** ** C139 *)

(** [exp]: the scalar part and the vector part, along the direction of the vector part of [q]; also when the code takes the branch for short vector parts. *)
Theorem C139_exponential :
  forall (prec emax : Z) (Hp : Prec_gt_0 prec) (He : Prec_lt_emax prec emax) (L : libm (binary_float prec emax)) (d : R) (q : quat (binary_float prec emax)),
    let u := bpow radix2 (- prec) in let s := B2R (qscalar q) in let v := fval (qvector q) in let n := rlength 3 v in
    (24 <= prec)%Z -> (2 * prec + 33 <= emax)%Z -> 0 <= d <= / 16 -> all_finite (q : vec _ 4) -> 128 * u * n <= 1 -> exp s <= bpow radix2 (emax - 7) ->
    lib_at d exp (m_exp L) (qscalar q) -> lib_at d cos (m_cos L) (fvnorm (qvector q)) -> lib_at d sin (m_sin L) (fvnorm (qvector q)) ->
    qclose (fqexp L q) (exp s * cos n) (exp s * sin n) v ((5 / 2 * d + 12 * u * n + 19 * u) * exp s + bpow radix2 (3 - emax)).
Proof. exact c139_exponential. Qed.
Print Assumptions C139_exponential.

(** [cosh] and [sinh]. *)
Theorem C139_hyperbolic :
  forall (prec emax : Z) (Hp : Prec_gt_0 prec) (He : Prec_lt_emax prec emax) (L : libm (binary_float prec emax)) (d : R) (k : Z) (q : quat (binary_float prec emax)),
    let u := bpow radix2 (- prec) in let s := B2R (qscalar q) in let v := fval (qvector q) in let n := rlength 3 v in
    (24 <= prec <= k)%Z -> (2 * k + 31 <= emax)%Z -> 0 <= d <= / 16 -> all_finite (q : vec _ 4) -> 128 * u * n <= 1 -> n = 0 \/ bpow radix2 (- k) <= n -> cosh s <= bpow radix2 (emax - 7) ->
    lib_at d cosh (m_cosh L) (qscalar q) -> lib_at d sinh (m_sinh L) (qscalar q) -> lib_at d cos (m_cos L) (fvnorm (qvector q)) -> lib_at d sin (m_sin L) (fvnorm (qvector q)) ->
    let e := (5 / 2 * d + 12 * u * n + 19 * u) * cosh s + bpow radix2 (3 - emax) in
    qclose (fqcosh L q) (cosh s * cos n) (sinh s * sin n) v e /\ qclose (fqsinh L q) (sinh s * cos n) (cosh s * sin n) v e.
Proof. exact c139_hyperbolic. Qed.
Print Assumptions C139_hyperbolic.

(** [cos] and [sin]. *)
Theorem C139_trigonometric :
  forall (prec emax : Z) (Hp : Prec_gt_0 prec) (He : Prec_lt_emax prec emax) (L : libm (binary_float prec emax)) (d : R) (k : Z) (q : quat (binary_float prec emax)),
    let u := bpow radix2 (- prec) in let s := B2R (qscalar q) in let v := fval (qvector q) in let n := rlength 3 v in
    (24 <= prec <= k)%Z -> (2 * k + 31 <= emax)%Z -> 0 <= d <= / 18 -> all_finite (q : vec _ 4) -> 1024 * u * n <= 1 -> n = 0 \/ bpow radix2 (- k) <= n -> cosh n <= bpow radix2 (emax - 7) ->
    lib_at d cos (m_cos L) (qscalar q) -> lib_at d sin (m_sin L) (qscalar q) -> lib_at d cosh (m_cosh L) (fvnorm (qvector q)) -> lib_at d sinh (m_sinh L) (fvnorm (qvector q)) ->
    let e := (11 / 4 * d + 24 * u * n + 19 * u) * cosh n + bpow radix2 (3 - emax) in
    qclose (fqcos L q) (cos s * cosh n) (- sin s * sinh n) v e /\ qclose (fqsin L q) (sin s * cosh n) (cos s * sinh n) v e.
Proof. exact c139_trigonometric. Qed.
Print Assumptions C139_trigonometric.

(** The hypotheses hold for the correctly rounded library in [f64] and 1/2 + i/2. *)
Example C139_example :
  let L := cr_libm true : libm f64 in let q := q_half in
  let u := bpow radix2 (- (53)) in let s := B2R (qscalar q) in let v := fval (qvector q) in let n := rlength 3 v in
  0 <= dd <= / 18 /\ all_finite (q : vec f64 4) /\ s = / 2 /\ n = / 2 /\ 1024 * u * n <= 1 /\ exp s <= bpow radix2 (1024 - 7) /\ cosh s <= bpow radix2 (1024 - 7) /\ cosh n <= bpow radix2 (1024 - 7) /\ bpow radix2 (- (60)) <= n /\
  (lib_at dd exp (m_exp L) (qscalar q) /\ lib_at dd cos (m_cos L) (qscalar q) /\ lib_at dd sin (m_sin L) (qscalar q) /\ lib_at dd cosh (m_cosh L) (qscalar q) /\ lib_at dd sinh (m_sinh L) (qscalar q)) /\
  (lib_at dd cos (m_cos L) (fvnorm (qvector q)) /\ lib_at dd sin (m_sin L) (fvnorm (qvector q)) /\ lib_at dd cosh (m_cosh L) (fvnorm (qvector q)) /\ lib_at dd sinh (m_sinh L) (fvnorm (qvector q))).
Proof. exact c139_example. Qed.

(** ** C140 *)

(** [sqrt]: the root with positive scalar part, with a relative error that grows with the closeness to the negative real axis; and away from zero on the side of the positive scalar parts.  What is missing are vector parts of length up to [3 * u] beside a scalar part below 1, and quaternions close to the negative real axis. *)
Theorem C140_square_root_partial :
  forall (prec emax : Z) (Hp : Prec_gt_0 prec) (He : Prec_lt_emax prec emax) (k : Z) (q : quat (binary_float prec emax)),
    let u := bpow radix2 (- prec) in let Q := fval (q : vec _ 4) in let s := B2R (qscalar q) in let n := rlength 3 (fval (qvector q)) in let r := rlength 4 Q in
    (24 <= prec < k)%Z -> (2 * k + 31 <= emax)%Z -> all_finite (q : vec _ 4) -> r <= bpow radix2 k ->
    (forall kappa, 3 * u < n -> 1 <= kappa -> 256 * u * kappa <= 1 -> r <= kappa * (r + s) ->
       exists p, principal_root Q p /\ forall i, (i < 4)%nat -> near_rel (24 * u * kappa) (vat (fqsqrt q : vec _ 4) i) (p i)) /\
    (1 <= s -> exists p, principal_root Q p /\ forall i, (i < 4)%nat -> fnear (vat (fqsqrt q : vec _ 4) i) (p i) (25 * u * sqrt r)).
Proof. exact c140_square_root_partial. Qed.
Print Assumptions C140_square_root_partial.

(** Close to the negative real axis there is a root, and the code returns a NaN and an infinity. *)
Theorem C140_square_root_refuted :
exists q : quat f64, all_finite (q : vec f64 4) /\ (exists p, principal_root (fval (q : vec f64 4)) p) /\
  vat (fqsqrt q : vec f64 4) 0 = B754_nan /\ vat (fqsqrt q : vec f64 4) 1 = B754_infinity false.
Proof. exact c140_square_root_refuted. Qed.
Print Assumptions C140_square_root_refuted.

(** Closer still, the code returns [i] though the root is along [j]. *)
Theorem C140_square_root_axis_refuted :
exists q : quat f64, all_finite (q : vec f64 4) /\ vat (fqsqrt q : vec f64 4) 1 = n1 /\ vat (fqsqrt q : vec f64 4) 2 = n0 /\
  exists p, principal_root (fval (q : vec f64 4)) p /\ p 1%nat = 0 /\ 1 <= p 2%nat.
Proof. exact c140_square_root_axis_refuted. Qed.
Print Assumptions C140_square_root_axis_refuted.

(** [ln]: the logarithm of the norm and the angle along the direction of the vector part.  What is missing are the quaternions close to the real axis. *)
Theorem C140_logarithm_partial :
  forall (prec emax : Z) (Hp : Prec_gt_0 prec) (He : Prec_lt_emax prec emax) (L : libm (binary_float prec emax)) (arccos arcsin : binary_float prec emax -> binary_float prec emax)
         (d theta : R) (q : quat (binary_float prec emax)),
    let u := bpow radix2 (- prec) in let v := fval (qvector q) in let n := rlength 3 v in let r := rlength 4 (fval (q : vec _ 4)) in
    (24 <= prec)%Z -> (2 * prec + 33 <= emax)%Z -> 0 <= d <= / 64 -> ang_lib L arccos arcsin d -> all_finite (q : vec _ 4) -> 4 * u * r <= 1 ->
    0 <= theta <= PI -> r * cos theta = B2R (qscalar q) -> r * sin theta = n -> 3 * u < n -> 64 * u * (r * r) <= n * n -> lib_at d ln (m_ln L) (fqnorm q) ->
    fnear (qscalar (fqln L arccos q)) (ln r) (d * Rabs (ln r) + 10 * u) /\
    forall i, (i < 3)%nat -> fnear (vat (qvector (fqln L arccos q)) i) (theta * rdir v i) (5 / 4 * d + 14 * u / sin theta + 48 * u).
Proof. exact c140_logarithm_partial. Qed.
Print Assumptions C140_logarithm_partial.

(** Close to the real axis the angle is lost: it is returned as [2^-40] at most where it is at least [2^-28]. *)
Theorem C140_logarithm_refuted :
forall (L : libm f64) (arccos : f64 -> f64), fnear (arccos n1) 0 (bpow radix2 (-40)) ->
  exists q : quat f64, all_finite (q : vec f64 4) /\ Rabs (B2R (vat (qvector (fqln L arccos q)) 0)) <= bpow radix2 (-40) /\
    forall theta, 0 <= theta -> rlength 4 (fval (q : vec f64 4)) * sin theta = B2R (vat (qvector q) 0) -> bpow radix2 (-28) <= theta.
Proof. exact c140_logarithm_refuted. Qed.
Print Assumptions C140_logarithm_refuted.

(** [arg]: the angle between the quaternion and the positive real axis.  What is missing are the quaternions whose scalar part is below [4 * u]. *)
Theorem C140_angle_partial :
  forall (prec emax : Z) (Hp : Prec_gt_0 prec) (He : Prec_lt_emax prec emax) (L : libm (binary_float prec emax)) (arccos arcsin : binary_float prec emax -> binary_float prec emax)
         (d theta : R) (q : quat (binary_float prec emax)),
    let u := bpow radix2 (- prec) in let s := B2R (qscalar q) in let n := rlength 3 (fval (qvector q)) in let r := rlength 4 (fval (q : vec _ 4)) in
    (24 <= prec)%Z -> (2 * prec + 33 <= emax)%Z -> 0 <= d <= / 64 -> ang_lib L arccos arcsin d -> all_finite (q : vec _ 4) -> 4 * u * r <= 1 ->
    0 <= theta <= PI -> r * cos theta = s -> r * sin theta = n -> 4 * u <= Rabs s -> n = 0 \/ bpow radix2 (- (prec + 1)) <= n ->
    fnear_turn (fqarg L q) theta (d + 16 * u).
Proof. exact c140_angle_partial. Qed.
Print Assumptions C140_angle_partial.

(** For small quaternions [arg] is a right angle, whatever the direction. *)
Theorem C140_angle_refuted :
forall (L : libm f64), fnear (m_frac_pi_2 L) (PI / 2) (/ 10) ->
  exists q : quat f64, all_finite (q : vec f64 4) /\ 14 / 10 <= B2R (fqarg L q) /\
    let r := rlength 4 (fval (q : vec f64 4)) in r * cos (PI / 4) = B2R (qscalar q) /\ r * sin (PI / 4) = rlength 3 (fval (qvector q)).
Proof. exact c140_angle_refuted. Qed.
Print Assumptions C140_angle_refuted.

(** [tan] of [600 i] has a NaN for its first vector component though the exact value is below 2. *)
Theorem C140_tangent_refuted :
forall (L : libm f64) (tangent : f64 -> f64) (d : R), 0 <= d <= / 2 ->
  lib_at d cosh (m_cosh L) (f64_of_Z 600) -> lib_at d sinh (m_sinh L) (f64_of_Z 600) -> is_finite (m_cos L n0) = true -> is_finite (m_sin L n0) = true -> Rabs (B2R (m_cos L n0)) <= 2 ->
  exists q : quat f64, all_finite (q : vec f64 4) /\ rlength 3 (fval (qvector q)) = 600 /\ qscalar q = n0 /\ 0 < cosh 600 * sinh 600 / (cos 0 * cos 0 + sinh 600 * sinh 600) < 2 /\
    vat (fqtan L tangent q : vec f64 4) 1 = B754_nan.
Proof. exact c140_tangent_refuted. Qed.
Print Assumptions C140_tangent_refuted.

(** The hypotheses of the partial theorems hold for the correctly rounded library in [f64], for i/2 and for 1/2 + i/2. *)
Example C140_example :
  let L := cr_libm true : libm f64 in let d := bpow radix2 (-50) in let u := bpow radix2 (- (53)) in
  ang_lib L cr_acos cr_asin d /\ 0 <= d <= / 64 /\
  (let q := q_pure in let n := rlength 3 (fval (qvector q)) in let r := rlength 4 (fval (q : vec f64 4)) in
   all_finite (q : vec f64 4) /\ 4 * u * r <= 1 /\ r * cos (PI / 2) = B2R (qscalar q) /\ r * sin (PI / 2) = n /\ 3 * u < n /\ 64 * u * (r * r) <= n * n /\ lib_at d ln (m_ln L) (fqnorm q)) /\
  (let q := q_half in let s := B2R (qscalar q) in let n := rlength 3 (fval (qvector q)) in let r := rlength 4 (fval (q : vec f64 4)) in
   all_finite (q : vec f64 4) /\ 4 * u * r <= 1 /\ r * cos (PI / 4) = s /\ r * sin (PI / 4) = n /\ 4 * u <= Rabs s /\ bpow radix2 (- (53 + 1)) <= n /\
   r <= bpow radix2 60 /\ 3 * u < n /\ 256 * u * 1 <= 1 /\ r <= 1 * (r + s)).
Proof. exact c140_example. Qed.
