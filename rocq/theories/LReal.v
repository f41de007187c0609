(** Facts about the real functions of MReal. *)

From Coq Require Import Reals Lra Lia Psatz.
From Verif Require Import MReal.
Local Open Scope R_scope.

Lemma sin2_cos2R x : sin x * sin x + cos x * cos x = 1.
Proof. exact (sin2_cos2 x). Qed.

Lemma sqrt_sq_pos x : 0 <= x -> sqrt x * sqrt x = x.
Proof. intros; apply sqrt_sqrt; auto. Qed.

Lemma sqr_pos_ne x y : x <> 0 \/ y <> 0 -> 0 < x * x + y * y.
Proof. intros [H|H]; nra. Qed.

Lemma sumsq_zero x y : x * x + y * y = 0 -> x = 0 /\ y = 0.
Proof. intros H; split; nra. Qed.

Lemma cos_atan_sin_atan t :
  cos (atan t) = / sqrt (1 + t * t) /\ sin (atan t) = t * / sqrt (1 + t * t).
Proof.
  pose proof (atan_bound t) as [H1 H2].
  assert (Hc : 0 < cos (atan t)) by (apply cos_gt_0; lra).
  assert (Ht : tan (atan t) = t) by apply atan_right_inv.
  unfold tan in Ht.
  assert (Hs : sin (atan t) = t * cos (atan t)) by (rewrite <- Ht at 2; field; lra).
  pose proof (sin2_cos2R (atan t)) as E. rewrite Hs in E.
  assert (Q : 0 < 1 + t * t) by nra.
  assert (S : 0 < sqrt (1 + t * t)) by (apply sqrt_lt_R0; auto).
  assert (C : cos (atan t) = / sqrt (1 + t * t)).
  { apply Rsqr_inj; [lra|apply Rlt_le, Rinv_0_lt_compat; auto|]. unfold Rsqr.
    rewrite <- Rinv_mult, sqrt_sqrt by lra.
    apply (Rmult_eq_reg_r (1 + t * t)); [|lra]. rewrite Rinv_l by lra. nra. }
  split; [exact C|]. rewrite Hs, C. reflexivity.
Qed.

(** The point at distance [r] and angle [ratan2 y x] is (x, y). *)
Lemma ratan2_spec x y :
  sqrt (x * x + y * y) * cos (ratan2 y x) = x /\
  sqrt (x * x + y * y) * sin (ratan2 y x) = y.
Proof.
  unfold ratan2.
  assert (P : forall x y, 0 < x ->
     sqrt (x * x + y * y) * cos (atan (y / x)) = x /\
     sqrt (x * x + y * y) * sin (atan (y / x)) = y).
  { clear. intros x y Hx. destruct (cos_atan_sin_atan (y / x)) as [-> ->].
    assert (Q : 0 < 1 + y / x * (y / x)) by nra.
    assert (S : 0 < sqrt (1 + y / x * (y / x))) by (apply sqrt_lt_R0; auto).
    assert (E : sqrt (x * x + y * y) = x * sqrt (1 + y / x * (y / x))).
    { replace (x * x + y * y) with ((x * x) * (1 + y / x * (y / x))) by (field; lra).
      rewrite sqrt_mult by nra. rewrite sqrt_square by lra. reflexivity. }
    rewrite E. split; field; lra. }
  destruct (Rlt_dec 0 x) as [Hx|Hx]; [apply P; auto|].
  destruct (Rlt_dec x 0) as [Hx'|Hx'].
  - destruct (P (- x) (- y)) as [C S]; [lra|].
    replace (- y / - x) with (y / x) in * by (field; lra).
    replace (- x * - x + - y * - y) with (x * x + y * y) in * by ring.
    destruct (Rle_dec 0 y).
    + rewrite neg_cos, neg_sin. lra.
    + replace (atan (y / x) - PI) with (- (PI - atan (y / x))) by ring.
      rewrite cos_neg, sin_neg, sin_PI_x.
      replace (PI - atan (y / x)) with (- atan (y / x) + PI) by ring.
      rewrite neg_cos, cos_neg. lra.
  - assert (x = 0) by lra. subst x. replace (0 * 0 + y * y) with (y * y) by ring.
    destruct (Rlt_dec 0 y).
    + rewrite cos_PI2, sin_PI2, sqrt_square by lra. lra.
    + destruct (Rlt_dec y 0).
      * rewrite cos_neg, sin_neg, cos_PI2, sin_PI2.
        replace (y * y) with (- y * - y) by ring. rewrite sqrt_square by lra. lra.
      * assert (y = 0) by lra. subst y. rewrite Rmult_0_l, sqrt_0, sin_0, cos_0. lra.
Qed.

Lemma ratan2_range x y : - PI < ratan2 y x <= PI.
Proof.
  pose proof PI_RGT_0. unfold ratan2.
  pose proof (atan_bound (y / x)) as [H1 H2].
  destruct (Rlt_dec 0 x); [lra|]. destruct (Rlt_dec x 0).
  - destruct (Rle_dec 0 y) as [Hy|Hy].
    + split; [lra|]. destruct Hy as [Hy|<-].
      * assert (y / x < 0) by (unfold Rdiv; assert (/ x < 0) by (apply Rinv_lt_0_compat; auto); nra).
        assert (atan (y / x) < atan 0) by (apply atan_increasing; auto). rewrite atan_0 in *. lra.
      * unfold Rdiv. rewrite Rmult_0_l, atan_0. lra.
    + split; [|lra].
      assert (0 < y / x).
      { replace (y / x) with (- y / - x) by (field; lra). apply Rdiv_lt_0_compat; lra. }
      assert (atan 0 < atan (y / x)) by (apply atan_increasing; auto). rewrite atan_0 in *. lra.
  - destruct (Rlt_dec 0 y); [lra|]. destruct (Rlt_dec y 0); lra.
Qed.

(** Angles in (-pi, pi] with the same sine and cosine are equal. *)
Lemma sin_cos_inj a b :
  - PI < a <= PI -> - PI < b <= PI -> cos a = cos b -> sin a = sin b -> a = b.
Proof.
  intros Ha Hb Hc Hs.
  assert (S : sin (a - b) = 0) by (rewrite sin_minus, Hc, Hs; ring).
  assert (C : cos (a - b) = 1).
  { rewrite cos_minus, Hc, Hs. pose proof (sin2_cos2R b). lra. }
  pose proof PI_RGT_0.
  destruct (Rtotal_order (a - b) 0) as [L|[L|L]]; [|lra|].
  - (* a - b in (-2pi, 0) *)
    destruct (Rlt_dec (- PI) (a - b)) as [L1|L1].
    + assert (0 < sin (- (a - b))) by (apply sin_gt_0; lra). rewrite sin_neg in *. lra.
    + destruct (Req_dec (a - b) (- PI)) as [E|E].
      * rewrite E, cos_neg, cos_PI in C. lra.
      * assert (0 < sin (a - b + 2 * PI)) by (apply sin_gt_0; lra).
        rewrite sin_plus, sin_2PI, cos_2PI in *. lra.
  - destruct (Rlt_dec (a - b) PI) as [L1|L1].
    + assert (0 < sin (a - b)) by (apply sin_gt_0; lra). lra.
    + destruct (Req_dec (a - b) PI) as [E|E].
      * rewrite E, cos_PI in C. lra.
      * assert (sin (a - b) < 0) by (apply sin_lt_0; lra). lra.
Qed.

Lemma ratan2_polar r t : 0 < r -> - PI < t <= PI -> ratan2 (r * sin t) (r * cos t) = t.
Proof.
  intros Hr Ht. apply sin_cos_inj; auto; [apply ratan2_range| |];
  destruct (ratan2_spec (r * cos t) (r * sin t)) as [C S];
  replace (r * cos t * (r * cos t) + r * sin t * (r * sin t)) with (r * r) in * by
    (pose proof (sin2_cos2R t); nra);
  rewrite sqrt_square in * by lra; apply (Rmult_eq_reg_l r); lra.
Qed.

Lemma sqrt_polar r t : 0 <= r -> sqrt (r * cos t * (r * cos t) + r * sin t * (r * sin t)) = r.
Proof.
  intros. replace (r * cos t * (r * cos t) + r * sin t * (r * sin t)) with (r * r) by
    (pose proof (sin2_cos2R t); nra). apply sqrt_square; auto.
Qed.

Lemma rcbrt_cube x : 0 <= x -> rcbrt x * rcbrt x * rcbrt x = x.
Proof.
  intros Hx. unfold rcbrt. destruct (Req_EM_T x 0); [subst; ring|].
  rewrite <- !Rpower_plus. replace (1 / 3 + 1 / 3 + 1 / 3) with 1 by field.
  apply Rpower_1. lra.
Qed.
Lemma rcbrt_pos x : 0 <= x -> 0 <= rcbrt x.
Proof.
  intros Hx. unfold rcbrt. destruct (Req_EM_T x 0); [lra|]. apply Rlt_le, exp_pos.
Qed.

Lemma cosh_pos x : 0 < cosh x.
Proof. unfold cosh. pose proof (exp_pos x); pose proof (exp_pos (- x)). lra. Qed.
Lemma cosh2_sinh2 x : cosh x * cosh x - sinh x * sinh x = 1.
Proof.
  unfold cosh, sinh. replace 1 with (exp x * exp (- x)); [field|].
  rewrite <- exp_plus, Rplus_opp_r. apply exp_0.
Qed.
Lemma cosh_ge_1 x : 1 <= cosh x.
Proof. pose proof (cosh2_sinh2 x). pose proof (cosh_pos x). nra. Qed.
Lemma exp_neg_mul x : exp x * exp (- x) = 1.
Proof. rewrite <- exp_plus, Rplus_opp_r. apply exp_0. Qed.
