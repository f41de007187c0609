(** Complex functions in floats: products, quotients, polar coordinates. *)

From Coq Require Import List Arith ZArith Bool Lia Reals Lra Psatz.
From Flocq Require Import Core.Core Relative IEEE754.BinarySingleNaN.
From Verif Require Import Base Scalar Spec SpecF SpecRigid SpecCplx LBase MVector LVector MFloat LFloat LFloatP MFloatVec LFloatVec MComplex MComplexF
  LTrScF LRigidF LNormF LSlerpS LSlerpW LDegF.
Local Open Scope R_scope.

Lemma abs_near x v d : Rabs (x - v) <= d * Rabs v -> Rabs x <= (1 + d) * Rabs v.
Proof. intros H. replace x with (v + (x - v)) by ring. eapply Rle_trans; [apply Rabs_triang|]. lra. Qed.
Lemma abs_near_low x v d : Rabs (x - v) <= d * Rabs v -> (1 - d) * Rabs v <= Rabs x.
Proof. intros H. assert (Rabs v <= Rabs x + Rabs (x - v)) by (rewrite (Rabs_minus_sym x); replace v with (x + (v - x)) at 1 by ring; apply Rabs_triang). lra. Qed.
Lemma prod_near x y v w d : 0 <= d <= / 64 -> Rabs (x - v) <= d * Rabs v -> Rabs (y - w) <= d * Rabs w ->
  Rabs (x * y - v * w) <= 129 / 64 * d * Rabs (v * w).
Proof.
  intros D X Y. replace (x * y - v * w) with ((x - v) * y + v * (y - w)) by ring. eapply Rle_trans; [apply Rabs_triang|].
  rewrite !Rabs_mult. pose proof (abs_near y w d Y) as B. pose proof (Rabs_pos v). pose proof (Rabs_pos w). pose proof (Rabs_pos y).
  assert (Rabs (x - v) * Rabs y <= (d * Rabs v) * ((1 + d) * Rabs w)) by (apply Rmult_le_compat; try assumption; apply Rabs_pos).
  assert (Rabs v * Rabs (y - w) <= Rabs v * (d * Rabs w)) by (apply Rmult_le_compat_l; assumption).
  assert (P : 0 <= d * (Rabs v * Rabs w)) by (apply Rmult_le_pos; [lra|apply Rmult_le_pos; assumption]).
  assert (d * (d * (Rabs v * Rabs w)) <= / 64 * (d * (Rabs v * Rabs w))) by (apply Rmult_le_compat_r; lra). nra.
Qed.

Section F.
Context {prec emax : Z} {Hp : Prec_gt_0 prec} {He : Prec_lt_emax prec emax}.
Notation fl := (binary_float prec emax).
Notation u := (bpow radix2 (- prec)).
Notation tiny := (bpow radix2 (2 - emax - prec)).
Notation fexp := (FLT_exp (3 - emax - prec) prec).
Notation rnd := (round radix2 fexp ZnearestE).

Lemma half_max : bpow radix2 (emax - 1) = 2 * bpow radix2 (emax - 2).
Proof. replace (emax - 1)%Z with (1 + (emax - 2))%Z by ring. apply bpow_plus. Qed.

(** Rounding a value known up to a relative error. *)
Lemma rnd_near z v c : u <= / 64 -> 0 <= c <= / 2 -> Rabs (z - v) <= c * Rabs v -> Rabs (rnd z - v) <= (c + 3 / 2 * u) * Rabs v + tiny.
Proof.
  intros U C H. pose proof (rnd_rel (prec := prec) (emax := emax) z) as R. pose proof (abs_near z v c H) as B. pose proof (Rabs_pos v) as V.
  pose proof (bpow_gt_0 radix2 (- prec)) as U0.
  replace (rnd z - v) with ((rnd z - z) + (z - v)) by ring. eapply Rle_trans; [apply Rabs_triang|].
  assert (u * Rabs z <= u * (3 / 2 * Rabs v)) by (apply Rmult_le_compat_l; [lra|nra]). lra.
Qed.

Lemma mul_rel (x y : fl) v w d : u <= d <= / 64 -> fnear x v (d * Rabs v) -> fnear y w (d * Rabs w) -> Rabs (v * w) <= bpow radix2 (emax - 2) ->
  fnear (nmul x y) (v * w) (4 * d * Rabs (v * w) + tiny).
Proof.
  intros D (Fx & X) (Fy & Y) B. pose proof (bpow_gt_0 radix2 (- prec)) as U0. pose proof half_max as HM. pose proof (bpow_gt_0 radix2 (emax - 2)) as M0.
  pose proof (prod_near _ _ v w d ltac:(lra) X Y) as P. pose proof (Rabs_pos (v * w)) as V.
  assert (P2 : Rabs (B2R x * B2R y) <= 2 * Rabs (v * w)) by (pose proof (abs_near _ _ _ P); nra).
  destruct (mul_val x y Fx Fy ltac:(lra)) as (F & E). split; [exact F|]. rewrite E.
  eapply Rle_trans; [apply (rnd_near _ (v * w) (129 / 64 * d)); [lra|lra|exact P]|].
  assert ((129 / 64 * d + 3 / 2 * u) * Rabs (v * w) <= 4 * d * Rabs (v * w)) by (apply Rmult_le_compat_r; lra). lra.
Qed.

(** Quotient: numerator with relative error [d], denominator with relative error [c]. *)
Lemma div_rel (x y : fl) v w d c : u <= d <= / 64 -> d <= c <= 3 / 10 -> fnear x v (d * Rabs v) -> fnear y w (c * Rabs w) -> w <> 0 -> Rabs (v / w) <= bpow radix2 (emax - 2) ->
  fnear (ndiv x y) (v / w) (5 * c * Rabs (v / w) + tiny).
Proof.
  intros D C (Fx & X) (Fy & Y) W B. pose proof (bpow_gt_0 radix2 (- prec)) as U0. pose proof half_max as HM.
  assert (W0 : 0 < Rabs w) by (apply Rabs_pos_lt, W).
  pose proof (abs_near_low _ _ _ Y) as L.
  assert (Y0 : B2R y <> 0) by (intros Z; rewrite Z, Rabs_R0 in L; nra).
  assert (Y1 : 0 < Rabs (B2R y)) by (apply Rabs_pos_lt, Y0).
  set (q := v / w) in *. assert (Q0 : 0 <= Rabs q) by apply Rabs_pos.
  assert (EV : v = q * w) by (unfold q; field; exact W).
  assert (P : Rabs (B2R x / B2R y - q) <= 20 / 7 * c * Rabs q).
  { replace (B2R x / B2R y - q) with (((B2R x - v) + q * (w - B2R y)) * / B2R y) by (rewrite EV; field; exact Y0).
    rewrite Rabs_mult, Rabs_inv. apply (Rmult_le_reg_r (Rabs (B2R y))); [exact Y1|]. rewrite Rmult_assoc, Rinv_l, Rmult_1_r by lra.
    eapply Rle_trans; [apply Rabs_triang|]. rewrite Rabs_mult, (Rabs_minus_sym w).
    assert (Rabs q * Rabs (B2R y - w) <= Rabs q * (c * Rabs w)) by (apply Rmult_le_compat_l; assumption).
    assert (X' : Rabs (B2R x - v) <= d * (Rabs q * Rabs w)) by (rewrite <- Rabs_mult, <- EV; exact X). assert (QW : 0 <= Rabs q * Rabs w) by (apply Rmult_le_pos; lra).
    assert (d * (Rabs q * Rabs w) <= c * (Rabs q * Rabs w)) by (apply Rmult_le_compat_r; lra).
    assert (C0 : 0 <= c * Rabs q) by (apply Rmult_le_pos; lra).
    assert (c * Rabs q * (7 / 10 * Rabs w) <= c * Rabs q * Rabs (B2R y)) by (apply Rmult_le_compat_l; [exact C0|nra]).
    lra. }
  destruct (div_val x y Fx Y0) as (F & E).
  { replace (B2R x / B2R y) with (q + (B2R x / B2R y - q)) by ring. eapply Rle_trans; [apply Rabs_triang|].
    assert (20 / 7 * c * Rabs q <= 1 * Rabs q) by (apply Rmult_le_compat_r; lra). lra. }
  split; [exact F|]. rewrite E. pose proof (rnd_rel (prec := prec) (emax := emax) (B2R x / B2R y)) as R. set (z := B2R x / B2R y) in *.
  assert (ZB : Rabs z <= 2 * Rabs q).
  { replace z with (q + (z - q)) by ring. eapply Rle_trans; [apply Rabs_triang|].
    assert (20 / 7 * c * Rabs q <= 1 * Rabs q) by (apply Rmult_le_compat_r; lra). lra. }
  replace (rnd z - q) with ((rnd z - z) + (z - q)) by ring. eapply Rle_trans; [apply Rabs_triang|].
  assert (u * Rabs z <= c * (2 * Rabs q)) by (apply Rmult_le_compat; [lra|apply Rabs_pos|lra|exact ZB]).
  assert (0 <= c * Rabs q) by (apply Rmult_le_pos; lra). lra.
Qed.

(** Polar coordinates with a relative error of the radius and an absolute error of the unit vector. *)
Lemma polar_near (x y : fl) (p c a b : R) : u <= / 64 -> fnear x p (a * p) -> 0 <= p <= bpow radix2 (emax - 3) -> -1 <= c <= 1 -> 0 <= a <= / 2 -> 0 <= b <= / 2 ->
  fnear y c b -> fnear (nmul x y) (p * c) ((a + 3 / 2 * b + 9 / 4 * u) * p + tiny).
Proof.
  intros U (Fx & X) P C A B (Fy & Y). pose proof (bpow_gt_0 radix2 (- prec)) as U0.
  assert (HM : bpow radix2 (emax - 1) = 4 * bpow radix2 (emax - 3)) by (replace (emax - 1)%Z with (2 + (emax - 3))%Z by ring; apply bpow_plus).
  assert (AP : 0 <= a * p <= / 2 * p) by (split; [apply Rmult_le_pos; lra|apply Rmult_le_compat_r; lra]).
  assert (BX : Rabs (B2R x) <= 3 / 2 * p).
  { apply Rabs_le. apply Rabs_le_inv in X. lra. }
  assert (BY : Rabs (B2R y) <= 3 / 2) by (apply Rabs_le; apply Rabs_le_inv in Y; lra).
  assert (BP : Rabs (B2R x * B2R y) <= 9 / 4 * p).
  { rewrite Rabs_mult. replace (9 / 4 * p) with (3 / 2 * p * (3 / 2)) by field. apply Rmult_le_compat; try apply Rabs_pos; assumption. }
  assert (E1 : Rabs (B2R x * B2R y - p * c) <= (a + 3 / 2 * b) * p).
  { replace (B2R x * B2R y - p * c) with (B2R x * (B2R y - c) + (B2R x - p) * c) by ring. eapply Rle_trans; [apply Rabs_triang|].
    rewrite !Rabs_mult. assert (Rabs (B2R x) * Rabs (B2R y - c) <= 3 / 2 * p * b) by (apply Rmult_le_compat; try apply Rabs_pos; assumption).
    assert (Rabs (B2R x - p) * Rabs c <= a * p * 1) by (apply Rmult_le_compat; try apply Rabs_pos; [exact X|apply Rabs_le; lra]). lra. }
  destruct (mul_val x y Fx Fy ltac:(lra)) as (F & E). split; [exact F|]. rewrite E.
  pose proof (rnd_rel (prec := prec) (emax := emax) (B2R x * B2R y)) as R. set (z := B2R x * B2R y) in *.
  replace (rnd z - p * c) with ((rnd z - z) + (z - p * c)) by ring. eapply Rle_trans; [apply Rabs_triang|].
  assert (u * Rabs z <= u * (9 / 4 * p)) by (apply Rmult_le_compat_l; lra). lra.
Qed.

(** A library function of a disturbed argument. *)
Lemma lib_shift (g : R -> R) (fn : fl -> fl) (x : fl) t d e : (forall a b, Rabs (g a - g b) <= Rabs (a - b)) -> (forall a, -1 <= g a <= 1) -> 0 <= d ->
  lib_at d g fn x -> Rabs (B2R x - t) <= e -> fnear (fn x) (g t) (d + e).
Proof.
  intros G B D (F & E) H. split; [exact F|]. replace (B2R (fn x) - g t) with ((B2R (fn x) - g (B2R x)) + (g (B2R x) - g t)) by ring.
  eapply Rle_trans; [apply Rabs_triang|]. specialize (G (B2R x) t).
  assert (d * Rabs (g (B2R x)) <= d * 1) by (apply Rmult_le_compat_l; [exact D|apply Rabs_le, B]). lra.
Qed.
End F.

Lemma sq_root_near n r c : 0 < r -> 0 <= n -> Rabs (n - r) <= c * r -> Rabs (sqrt n - sqrt r) <= c * sqrt r.
Proof.
  intros R N H. assert (S : 0 < sqrt r) by (apply sqrt_lt_R0, R). eapply Rle_trans; [apply sqrt_diff; assumption|].
  apply (Rmult_le_reg_r (sqrt r)); [exact S|]. unfold Rdiv. rewrite Rmult_assoc, Rinv_l, Rmult_1_r by lra.
  replace (c * sqrt r * sqrt r) with (c * (sqrt r * sqrt r)) by ring. rewrite sqrt_sqrt by lra. exact H.
Qed.
Lemma cube_root_near x y c : 0 <= x -> 0 < y -> Rabs (x ^ 3 - y ^ 3) <= c * y ^ 3 -> Rabs (x - y) <= c * y.
Proof.
  intros X Y H. apply (Rmult_le_reg_r (y * y)); [nra|]. eapply Rle_trans; [|eapply Rle_trans; [exact H|right; ring]].
  replace (x ^ 3 - y ^ 3) with ((x - y) * (x * x + x * y + y * y)) by ring. rewrite Rabs_mult, (Rabs_pos_eq (x * x + x * y + y * y)) by nra.
  apply Rmult_le_compat_l; [apply Rabs_pos|nra].
Qed.
