(** Property theorems about powers and tangents of quaternions in floats (C142, and one for C140). *)

From Coq Require Import Arith ZArith Reals.
From Flocq Require Import Core.Core IEEE754.BinarySingleNaN.
From Verif Require Import Base Scalar Spec SpecF SpecRigid SpecLook SpecCplx SpecLibm SpecCR SpecArc SpecAng SpecQFun MVector MMatrix MQuat MFloat MFloatVec MComplexF MRotF MArcF MQFunF
  LQFunR LQFunS.
Local Open Scope R_scope.

(** ** C142 *)

(** [powf]: for [q = r (cos theta + sin theta w)] the power is close to [r^t (cos (t theta) + sin (t theta) w)]. *)
Theorem C142_power :
  forall (prec emax : Z) (Hp : Prec_gt_0 prec) (He : Prec_lt_emax prec emax) (L : libm (binary_float prec emax)) (arccos arcsin : binary_float prec emax -> binary_float prec emax)
         (d theta : R) (q : quat (binary_float prec emax)) (t : binary_float prec emax),
    let u := bpow radix2 (- prec) in let v := fval (qvector q) in let n := rlength 3 v in let r := rlength 4 (fval (q : vec _ 4)) in let w := qscale (fqln L arccos q) t in
    let T := B2R t in let E := Rabs T * (d * (2 + Rabs (ln r)) + 14 * u / sin theta + 64 * u * (1 + Rabs (ln r))) + u in
    (24 <= prec)%Z -> (2 * prec + 33 <= emax)%Z -> 0 <= d <= / 64 -> ang_lib L arccos arcsin d -> all_finite (q : vec _ 4) -> is_finite t = true -> 4 * u * r <= 1 ->
    0 <= theta <= PI -> r * cos theta = B2R (qscalar q) -> r * sin theta = n -> 3 * u < n -> 64 * u * (r * r) <= n * n -> E <= / 16 -> Rpower r T <= bpow radix2 (emax - 8) ->
    lib_at d ln (m_ln L) (fqnorm q) -> lib_at d exp (m_exp L) (qscalar w) -> lib_at d cos (m_cos L) (fvnorm (qvector w)) -> lib_at d sin (m_sin L) (fvnorm (qvector w)) ->
    qclose (fqpowf L arccos q t) (Rpower r T * cos (T * theta)) (Rpower r T * sin (T * theta)) v ((9 * E + 3 * d + 40 * u) * Rpower r T + bpow radix2 (3 - emax)).
Proof. exact c142_power. Qed.
Print Assumptions C142_power.

(** [tan]: [x] and [y] are the scalar part and the length of the vector part of the exact tangent, given by [tan q * cos q = sin q]. *)
Theorem C142_tangent :
  forall (prec emax : Z) (Hp : Prec_gt_0 prec) (He : Prec_lt_emax prec emax) (L : libm (binary_float prec emax)) (tangent : binary_float prec emax -> binary_float prec emax) (d x y : R) (k : Z)
         (q : quat (binary_float prec emax)),
    let u := bpow radix2 (- prec) in let s := B2R (qscalar q) in let v := fval (qvector q) in let n := rlength 3 v in let e := 5 / 4 * d + 16 * u * (1 + n) in
    (24 <= prec <= k)%Z -> (3 * k + 31 <= emax)%Z -> 0 <= d -> e <= / 64 -> all_finite (q : vec _ 4) -> bpow radix2 (- k) <= n -> cosh n * cosh n * (1 + n) <= bpow radix2 (emax - 3) ->
    lib_at d cos (m_cos L) (qscalar q) -> lib_at d sin (m_sin L) (qscalar q) -> lib_at d cosh (m_cosh L) (fvnorm (qvector q)) -> lib_at d sinh (m_sinh L) (fvnorm (qvector q)) ->
    x * (cos s * cosh n) + y * (sin s * sinh n) = sin s * cosh n -> y * (cos s * cosh n) - x * (sin s * sinh n) = cos s * sinh n ->
    fnear (vget (B754_zero false) (fqtan L tangent q : vec _ 4) 0) x (6 * e * Rabs x + bpow radix2 (2 * k + 4 - emax - prec)) /\
    forall i, (i < 3)%nat -> near_rel (9 * e) (vget (B754_zero false) (fqtan L tangent q : vec _ 4) (S i)) (y * rdir v i).
Proof. exact c142_tangent. Qed.
Print Assumptions C142_tangent.

(** [tanh], in the same way; the error grows with the closeness to the poles, where [D] is zero. *)
Theorem C142_hyperbolic_tangent :
  forall (prec emax : Z) (Hp : Prec_gt_0 prec) (He : Prec_lt_emax prec emax) (L : libm (binary_float prec emax)) (tangenth : binary_float prec emax -> binary_float prec emax) (d x y : R) (k : Z)
         (q : quat (binary_float prec emax)),
    let u := bpow radix2 (- prec) in let s := B2R (qscalar q) in let v := fval (qvector q) in let n := rlength 3 v in
    let D := sinh s * sinh s + cos n * cos n in let m := Rmin 1 (sqrt D) in let e := d + 8 * u * (1 + n) in
    (24 <= prec <= k)%Z -> (3 * k + 31 <= emax)%Z -> 0 <= d -> 64 * e <= m -> all_finite (q : vec _ 4) -> bpow radix2 (- k) <= n -> cosh s * cosh s * (1 + n) <= bpow radix2 (emax - 3) ->
    lib_at d cosh (m_cosh L) (qscalar q) -> lib_at d sinh (m_sinh L) (qscalar q) -> lib_at d cos (m_cos L) (fvnorm (qvector q)) -> lib_at d sin (m_sin L) (fvnorm (qvector q)) ->
    x * (cosh s * cos n) - y * (sinh s * sin n) = sinh s * cos n -> y * (cosh s * cos n) + x * (sinh s * sin n) = cosh s * sin n ->
    fnear (vget (B754_zero false) (fqtanh L tangenth q : vec _ 4) 0) x (9 * (e / m) * Rabs x + bpow radix2 (prec - emax)) /\
    forall i, (i < 3)%nat -> fnear (vget (B754_zero false) (fqtanh L tangenth q : vec _ 4) (S i)) (y * rdir v i) (12 * (e / D) + bpow radix2 (2 - emax - prec)).
Proof. exact c142_hyperbolic_tangent. Qed.
Print Assumptions C142_hyperbolic_tangent.

(** On real quaternions both are the functions of the library. *)
Theorem C142_real :
  forall (prec emax : Z) (Hp : Prec_gt_0 prec) (He : Prec_lt_emax prec emax) (L : libm (binary_float prec emax)) (tangent tangenth : binary_float prec emax -> binary_float prec emax)
         (q : quat (binary_float prec emax)),
    all_finite (q : vec _ 4) -> rlength 3 (fval (qvector q)) = 0 -> let z := B754_zero false in
    (vget z (fqtan L tangent q : vec _ 4) 0 = tangent (qscalar q) /\ vget z (fqtanh L tangenth q : vec _ 4) 0 = tangenth (qscalar q)) /\
    forall i, (i < 3)%nat -> vget z (fqtan L tangent q : vec _ 4) (S i) = z /\ vget z (fqtanh L tangenth q : vec _ 4) (S i) = z.
Proof. exact c142_real. Qed.
Print Assumptions C142_real.

(** The hypotheses hold for the correctly rounded library in [f64]: the square root of [i / 2] as a power, and the tangents of [1/2 + i/2]. *)
Example C142_example :
  let L := cr_libm true : libm f64 in let d := bpow radix2 (-50) in let u := bpow radix2 (- (53)) in
  (let q := q_pure in let t := ndiv (f64_of_Z 1) (f64_of_Z 2) in let T := B2R t in let theta := PI / 2 in
   let n := rlength 3 (fval (qvector q)) in let r := rlength 4 (fval (q : vec f64 4)) in let w := qscale (fqln L cr_acos q) t in
   let E := Rabs T * (d * (2 + Rabs (ln r)) + 14 * u / sin theta + 64 * u * (1 + Rabs (ln r))) + u in
   ang_lib L cr_acos cr_asin d /\ all_finite (q : vec f64 4) /\ is_finite t = true /\ T = / 2 /\ r = / 2 /\ 4 * u * r <= 1 /\ r * cos theta = B2R (qscalar q) /\ r * sin theta = n /\ 3 * u < n /\ 64 * u * (r * r) <= n * n /\
   E <= / 16 /\ Rpower r T <= bpow radix2 (1024 - 8) /\
   lib_at d ln (m_ln L) (fqnorm q) /\ lib_at d exp (m_exp L) (qscalar w) /\ lib_at d cos (m_cos L) (fvnorm (qvector w)) /\ lib_at d sin (m_sin L) (fvnorm (qvector w))) /\
  (let q := q_half in let s := B2R (qscalar q) in let n := rlength 3 (fval (qvector q)) in let D := sinh s * sinh s + cos n * cos n in
   5 / 4 * d + 16 * u * (1 + n) <= / 64 /\ 64 * (d + 8 * u * (1 + n)) <= Rmin 1 (sqrt D) /\ all_finite (q : vec f64 4) /\ bpow radix2 (- (60)) <= n /\
   cosh n * cosh n * (1 + n) <= bpow radix2 (1024 - 3) /\ cosh s * cosh s * (1 + n) <= bpow radix2 (1024 - 3) /\
   exists x y, x * (cos s * cosh n) + y * (sin s * sinh n) = sin s * cosh n /\ y * (cos s * cosh n) - x * (sin s * sinh n) = cos s * sinh n).
Proof. exact c142_example. Qed.

(** ** C140 *)

(** [tanh] of [600 + i] has a NaN for its scalar part though the exact value is below 2. *)
Theorem C140_hyperbolic_tangent_refuted :
  forall (L : libm f64) (tangenth : f64 -> f64) (d : R), 0 <= d <= / 2 ->
  lib_at d cosh (m_cosh L) (f64_of_Z 600) -> lib_at d sinh (m_sinh L) (f64_of_Z 600) -> fnear (m_cos L (f64_of_Z 1)) (cos 1) d ->
  exists q : quat f64, all_finite (q : vec f64 4) /\ rlength 3 (fval (qvector q)) = 1 /\ B2R (qscalar q) = 600 /\ 0 < cosh 600 * sinh 600 / (sinh 600 * sinh 600 + cos 1 * cos 1) < 2 /\
    vat (fqtanh L tangenth q : vec f64 4) 0 = B754_nan.
Proof. exact c140_hyperbolic_tangent_refuted. Qed.
Print Assumptions C140_hyperbolic_tangent_refuted.
