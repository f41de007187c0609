(** Rounding errors of polynomial expressions in floats: a calculus of error bounds. *)

From Coq Require Import List Arith ZArith Bool Lia Reals Lra Psatz.
From Flocq Require Import Core.Core Relative IEEE754.BinarySingleNaN.
From Verif Require Import Base Scalar Spec SpecF LBase MVector LVector LVectorR MFloat LFloat LFloatP LFloatVec.
Import ListNotations.

Section Acc.
Context {prec emax : Z} {Hprec : Prec_gt_0 prec} {Hemax : Prec_lt_emax prec emax}.
Notation fl := (binary_float prec emax).
Hypothesis Hp : (24 <= prec)%Z.
Local Open Scope R_scope.

(** [x] is a float for the real [r] at the scale [V]: |r| <= A V, and the error is at most e / 1024 units
    roundoff times V. *)
Definition fapp (V : R) (A e : Z) (x : fl) (r : R) : Prop :=
  is_finite x = true /\ Rabs r <= IZR A * V /\
  Rabs (B2R x - r) <= IZR e * (bpow radix2 (- prec) / 1024) * V.

(** Scales neither so large nor so small that overflow or underflow matter. *)
Definition wok (V : R) : Prop := bpow radix2 (31 - emax) <= V <= bpow radix2 (emax - 31).

Notation w := (bpow radix2 (- prec) / 1024).

Lemma wok_pos V : wok V -> 0 < V.
Proof. intros (H & _). pose proof (bpow_gt_0 radix2 (31 - emax)). lra. Qed.

Lemma w_pos : 0 < w.
Proof. pose proof (bpow_gt_0 radix2 (- prec)). lra. Qed.

Lemma w_inv : 1024 * w * IZR (2 ^ prec) = 1.
Proof.
  unfold Rdiv. rewrite bpow_opp. change 2%Z with (radix_val radix2). rewrite IZR_Zpower by lia.
  pose proof (bpow_gt_0 radix2 prec). field. lra.
Qed.

Lemma funit_w : @funit prec = 1024 * w.
Proof. rewrite funit_eq. lra. Qed.

(** The underflow term is at most a quarter of the smallest error unit. *)
Lemma ftiny_w V : wok V -> 4 * @ftiny prec emax <= w * V.
Proof.
  intros (L & _). rewrite ftiny_eq.
  apply Rle_trans with (w * bpow radix2 (31 - emax)); [|apply Rmult_le_compat_l; [apply Rlt_le, w_pos|exact L]].
  replace w with (bpow radix2 (- prec - 10)).
  2:{ unfold Zminus. rewrite bpow_plus. cbn. lra. }
  replace 4 with (bpow radix2 2) by (cbn; lra). rewrite <- !bpow_plus. apply bpow_le. lia.
Qed.

Lemma IZR_small A V : (A <= 2 ^ 30)%Z -> wok V -> IZR A * V <= bpow radix2 (emax - 1).
Proof.
  intros HA HV. pose proof (wok_pos V HV) as P. destruct HV as (_ & L).
  apply Rle_trans with (bpow radix2 30 * bpow radix2 (emax - 31)).
  - apply Rle_trans with (bpow radix2 30 * V).
    + apply Rmult_le_compat_r; [lra|]. rewrite <- IZR_Zpower by lia. apply IZR_le. exact HA.
    + apply Rmult_le_compat_l; [apply bpow_ge_0|exact L].
  - rewrite <- bpow_plus. apply bpow_le. lia.
Qed.

Lemma fapp_weak V A A' e e' (x : fl) r :
  0 < V -> fapp V A e x r -> (A <= A')%Z -> (e <= e')%Z -> fapp V A' e' x r.
Proof.
  intros P (F & HA & HE) LA LE. pose proof w_pos as W.
  apply IZR_le in LA, LE. split; [exact F|]. split.
  - eapply Rle_trans; [exact HA|]. apply Rmult_le_compat_r; lra.
  - eapply Rle_trans; [exact HE|]. apply Rmult_le_compat_r; [lra|]. apply Rmult_le_compat_r; lra.
Qed.

Lemma fapp_leaf V (x : fl) : fbnd V x -> fapp V 1 0 x (B2R x).
Proof.
  intros (F & H). split; [exact F|]. split; [lra|].
  replace (B2R x - B2R x) with 0 by ring. rewrite Rabs_R0. lra.
Qed.

Lemma fapp_1 : fapp 1 1 0 (n1 : fl) 1.
Proof.
  destruct (@fbone prec emax _ _) as (E & F & _). split; [exact F|]. split.
  - rewrite Rabs_R1. cbn. lra.
  - cbn [n1 num_float]. rewrite E. replace (1 - 1) with 0 by ring. rewrite Rabs_R0. cbn. lra.
Qed.

Lemma fapp_0 V : fapp V 0 0 (n0 : fl) 0.
Proof.
  split; [reflexivity|]. cbn [n0 num_float B2R]. rewrite Rminus_0_r, Rabs_R0. split; lra.
Qed.

Lemma fapp_neg V A e (x : fl) r : fapp V A e x r -> fapp V A e (nneg x) (- r).
Proof.
  intros (F & HA & HE). cbn [nneg num_float]. split; [rewrite is_finite_Bopp; exact F|]. split.
  - rewrite Rabs_Ropp. exact HA.
  - rewrite B2R_Bopp. replace (- B2R x - - r) with (- (B2R x - r)) by ring. rewrite Rabs_Ropp. exact HE.
Qed.

(** Bound of the value of the float itself. *)
Lemma fapp_abs V A e (x : fl) r : fapp V A e x r -> Rabs (B2R x) <= (IZR A + IZR e * w) * V.
Proof.
  intros (F & HA & HE). replace (B2R x) with (r + (B2R x - r)) by ring.
  eapply Rle_trans; [apply Rabs_triang|]. lra.
Qed.

Lemma w_small e : (e <= 2 ^ prec)%Z -> IZR e * w <= / 1024.
Proof.
  intros H. apply IZR_le in H. pose proof w_inv as I. pose proof w_pos as W.
  assert (IZR e * w <= IZR (2 ^ prec) * w) by (apply Rmult_le_compat_r; lra). lra.
Qed.

Lemma fapp_add V A B e f (x y : fl) r s :
  wok V -> fapp V A e x r -> fapp V B f y s ->
  (A + B + 1 <= 2 ^ 30)%Z -> (e + f <= 2 ^ prec)%Z ->
  fapp V (A + B) (e + f + 1024 * (A + B) + 1) (nadd x y) (r + s).
Proof.
  intros Hk HX HY HA HE. pose proof (wok_pos V Hk) as P. pose proof w_pos as W.
  pose proof (fapp_abs _ _ _ _ _ HX) as AX. pose proof (fapp_abs _ _ _ _ _ HY) as AY.
  destruct HX as (Fx & Ax & Ex). destruct HY as (Fy & Ay & Ey).
  pose proof (w_small _ HE) as WS. rewrite plus_IZR in WS.
  assert (AS : Rabs (B2R x + B2R y) <= (IZR A + IZR B + (IZR e + IZR f) * w) * V).
  { eapply Rle_trans; [apply Rabs_triang|]. lra. }
  assert (FIN : is_finite (nadd x y) = true).
  { apply fadd_fin; auto. eapply Rle_trans; [|apply (IZR_small _ V HA Hk)].
    eapply Rle_trans; [exact AS|]. apply Rmult_le_compat_r; [lra|]. rewrite !plus_IZR. lra. }
  split; [exact FIN|]. split.
  - rewrite plus_IZR. eapply Rle_trans; [apply Rabs_triang|]. lra.
  - destruct (fadd_err x y FIN) as (d & Hd & E). rewrite E.
    replace ((B2R x + B2R y) * (1 + d) - (r + s)) with ((B2R x - r) + (B2R y - s) + (B2R x + B2R y) * d) by ring.
    eapply Rle_trans; [apply Rabs_triang|].
    assert (T1 : Rabs ((B2R x - r) + (B2R y - s)) <= (IZR e + IZR f) * w * V).
    { eapply Rle_trans; [apply Rabs_triang|]. lra. }
    assert (T2 : Rabs ((B2R x + B2R y) * d) <= (IZR A + IZR B + / 1024) * V * (1024 * w)).
    { rewrite Rabs_mult. rewrite <- funit_w. apply Rmult_le_compat; auto using Rabs_pos.
      eapply Rle_trans; [exact AS|]. apply Rmult_le_compat_r; lra. }
    rewrite !plus_IZR, mult_IZR, plus_IZR.
    replace ((IZR e + IZR f + 1024 * (IZR A + IZR B) + 1) * w * V)
      with ((IZR e + IZR f) * w * V + (IZR A + IZR B + / 1024) * V * (1024 * w)) by field.
    lra.
Qed.

Lemma fapp_sub V A B e f (x y : fl) r s :
  wok V -> fapp V A e x r -> fapp V B f y s ->
  (A + B + 1 <= 2 ^ 30)%Z -> (e + f <= 2 ^ prec)%Z ->
  fapp V (A + B) (e + f + 1024 * (A + B) + 1) (nsub x y) (r - s).
Proof.
  intros Hk HX HY HA HE. rewrite (fsub_add_neg x y).
  apply fapp_add; auto. apply fapp_neg. exact HY.
Qed.

Lemma fapp_mul V W A B e f (x y : fl) r s :
  0 < V -> 0 < W -> wok (V * W) -> fapp V A e x r -> fapp W B f y s ->
  (0 <= A)%Z -> (0 <= B)%Z -> (0 <= e)%Z -> (0 <= f)%Z ->
  (A * B + 1 <= 2 ^ 30)%Z -> (4 * (e * f) <= 2 ^ prec)%Z -> (4 * (A * f + e * B) <= 2 ^ prec)%Z ->
  fapp (V * W) (A * B) (e * B + A * f + 1024 * (A * B) + 1) (nmul x y) (r * s).
Proof.
  intros Pk Pl Hk HX HY A0 B0 e0 f0 HAB HE1 HE2.
  pose proof w_pos as W0.
  pose proof (fapp_abs _ _ _ _ _ HX) as AX. pose proof (fapp_abs _ _ _ _ _ HY) as AY.
  destruct HX as (Fx & Ax & Ex). destruct HY as (Fy & Ay & Ey).
  apply IZR_le in A0, B0, e0, f0.
  set (a := IZR A) in *. set (b := IZR B) in *. set (c := IZR e) in *. set (d := IZR f) in *.
  pose proof w_inv as WI. pose proof (w_small _ HE1) as W1. pose proof (w_small _ HE2) as W2.
  rewrite !mult_IZR in W1. rewrite !mult_IZR, plus_IZR, !mult_IZR in W2. fold a b c d in W1, W2.
  assert (W24 : w * IZR (2 ^ 24) <= / 1024).
  { rewrite Rmult_comm. apply w_small. apply Z.pow_le_mono_r; lia. }
  change (IZR (2 ^ 24)) with 16777216 in W24.
  assert (C0 : 0 <= c * d * w) by (apply Rmult_le_pos; [apply Rmult_le_pos; assumption|lra]).
  assert (D0 : 0 <= (a * d + c * b) * w).
  { apply Rmult_le_pos; [|lra]. apply Rplus_le_le_0_compat; apply Rmult_le_pos; assumption. }
  (* the magnitude of the exact product of the floats *)
  assert (AS : Rabs (B2R x * B2R y) <= (a * b + / 4096 + / 4096) * (V * W)).
  { rewrite Rabs_mult.
    apply Rle_trans with (((a + c * w) * V) * ((b + d * w) * W));
      [apply Rmult_le_compat; auto using Rabs_pos|].
    replace ((a + c * w) * V * ((b + d * w) * W))
      with ((a * b + ((a * d + c * b) * w + c * d * w * w)) * (V * W)) by ring.
    apply Rmult_le_compat_r; [apply Rmult_le_pos; lra|].
    assert (c * d * w * w <= c * d * w) by (rewrite <- (Rmult_1_r (c * d * w)) at 2; apply Rmult_le_compat_l; lra).
    lra. }
  assert (FIN : is_finite (nmul x y) = true).
  { apply fmul_fin; auto. eapply Rle_trans; [exact AS|].
    eapply Rle_trans; [|apply (IZR_small _ _ HAB Hk)].
    apply Rmult_le_compat_r; [apply Rlt_le, wok_pos; exact Hk|]. rewrite plus_IZR, mult_IZR. fold a b. lra. }
  split; [exact FIN|]. split.
  - rewrite mult_IZR, Rabs_mult. fold a b.
    replace (a * b * (V * W)) with ((a * V) * (b * W)) by ring.
    apply Rmult_le_compat; auto using Rabs_pos.
  - destruct (fmul_err x y FIN) as (h & g & Hh & Hg & E). rewrite E.
    replace (B2R x * B2R y * (1 + h) + g - r * s)
      with ((B2R x - r) * B2R y + r * (B2R y - s) + B2R x * B2R y * h + g) by ring.
    assert (T1 : Rabs ((B2R x - r) * B2R y) <= c * w * (b + d * w) * (V * W)).
    { rewrite Rabs_mult.
      replace (c * w * (b + d * w) * (V * W)) with ((c * w * V) * ((b + d * w) * W)) by ring.
      apply Rmult_le_compat; auto using Rabs_pos. }
    assert (T2 : Rabs (r * (B2R y - s)) <= a * (d * w) * (V * W)).
    { rewrite Rabs_mult.
      replace (a * (d * w) * (V * W)) with ((a * V) * (d * w * W)) by ring.
      apply Rmult_le_compat; auto using Rabs_pos. }
    assert (T3 : Rabs (B2R x * B2R y * h) <= (a * b + / 4096 + / 4096) * (V * W) * (1024 * w)).
    { rewrite Rabs_mult. rewrite <- funit_w. apply Rmult_le_compat; auto using Rabs_pos. }
    pose proof (ftiny_w _ Hk) as T4.
    eapply Rle_trans; [apply Rabs_triang|].
    eapply Rle_trans; [apply Rplus_le_compat_r, Rabs_triang|].
    eapply Rle_trans; [apply Rplus_le_compat_r, Rplus_le_compat_r, Rabs_triang|].
    rewrite !plus_IZR, !mult_IZR. fold a b c d.
    set (m := (V * W)) in *. assert (m0 : 0 < m) by (apply wok_pos; exact Hk).
    apply Rle_trans with ((c * b + a * d + c * d * w + 1024 * (a * b) + / 2 + / 4) * w * m).
    + replace ((c * b + a * d + c * d * w + 1024 * (a * b) + / 2 + / 4) * w * m)
        with (c * w * (b + d * w) * m + a * (d * w) * m + (a * b + / 4096 + / 4096) * m * (1024 * w) + / 4 * (w * m)) by field.
      lra.
    + apply Rmult_le_compat_r; [lra|]. apply Rmult_le_compat_r; lra.
Qed.
(** Quotient of floats for [r] and [s], where |s| >= W / D. *)
Lemma fapp_div V W A B D e f (x y : fl) r s :
  0 < V -> 0 < W -> wok (V / W) -> fapp V A e x r -> fapp W B f y s -> W <= IZR D * Rabs s ->
  (0 <= A)%Z -> (1 <= D)%Z -> (0 <= e)%Z -> (0 <= f)%Z ->
  (A * D + 1 <= 2 ^ 30)%Z ->
  (8 * (D * f) * (e * D + A * f * D * D) <= 2 ^ prec)%Z -> (8 * (e * D + A * f * D * D) <= 2 ^ prec)%Z ->
  (2 * (D * f) <= 2 ^ prec)%Z ->
  fapp (V / W) (A * D) (e * D + A * f * D * D + 1024 * (A * D) + 1) (ndiv x y) (r / s).
Proof.
  intros Pk Pl Hk HX HY HS A0 D0 e0 f0 HAD HE1 HE2 HE3.
  pose proof (wok_pos _ Hk) as Pd. pose proof w_pos as W0. pose proof (w_small _ HE1) as W1. pose proof (w_small _ HE2) as W2. pose proof (w_small _ HE3) as W3.
  assert (W24 : IZR (2 ^ 24) * w <= / 1024) by (apply w_small, Z.pow_le_mono_r; lia).
  change (IZR (2 ^ 24)) with 16777216 in W24.
  destruct HX as (Fx & Ax & Ex). destruct HY as (Fy & Ay & Ey).
  assert (EM : V = V / W * W) by (field; lra).
  rewrite EM in Ax, Ex. clear EM.
  set (n := V / W) in *. set (m := W) in *.
  apply IZR_le in A0, D0, e0, f0.
  repeat first [rewrite mult_IZR in W1|rewrite plus_IZR in W1].
  repeat first [rewrite mult_IZR in W2|rewrite plus_IZR in W2]. repeat rewrite mult_IZR in W3.
  set (a := IZR A) in *. set (b := IZR D) in *. set (c := IZR e) in *. set (d := IZR f) in *.
  set (t := c * b + a * d * b * b) in *.
  assert (t0 : 0 <= t).
  { unfold t. assert (0 <= c * b) by (apply Rmult_le_pos; lra).
    assert (0 <= a * d * b * b) by (repeat apply Rmult_le_pos; lra). lra. }
  assert (db0 : 0 <= b * d) by (apply Rmult_le_pos; lra).
  set (h := b * d * w) in *.
  assert (h0 : 0 <= h) by (unfold h; apply Rmult_le_pos; lra).
  assert (h1 : h <= / 2048) by (unfold h; lra).
  assert (ht : h * t <= / 8192) by (unfold h; lra).
  assert (tw : t * w <= / 8192) by lra.
  assert (tw0 : 0 <= t * w) by (apply Rmult_le_pos; lra).
  (* |y| from below *)
  assert (Sb : m / b <= Rabs s).
  { apply (Rmult_le_reg_l b); [lra|]. unfold Rdiv.
    replace (b * (m * / b)) with m by (field; lra). exact HS. }
  assert (Yb : m * (1 - h) <= b * Rabs (B2R y)).
  { assert (Rabs s <= Rabs (B2R y) + d * w * m).
    { replace s with (B2R y - (B2R y - s)) by ring. eapply Rle_trans; [apply Rabs_triang|]. rewrite Rabs_Ropp. lra. }
    assert (b * Rabs s <= b * (Rabs (B2R y) + d * w * m)) by (apply Rmult_le_compat_l; lra).
    unfold h. replace (m * (1 - b * d * w)) with (m - b * (d * w * m)) by ring. lra. }
  assert (s0 : 0 < Rabs s).
  { apply Rlt_le_trans with (m / b); [|exact Sb]. apply Rdiv_lt_0_compat; lra. }
  assert (y0 : 0 < Rabs (B2R y)).
  { apply (Rmult_lt_reg_l b); [lra|]. rewrite Rmult_0_r. eapply Rlt_le_trans; [|exact Yb]. apply Rmult_lt_0_compat; lra. }
  assert (yn : B2R y <> 0) by (intros E; rewrite E, Rabs_R0 in y0; lra).
  assert (sn : s <> 0) by (intros E; rewrite E, Rabs_R0 in s0; lra).
  assert (Yi : / Rabs (B2R y) <= b * (1 + 2 * h) / m).
  { apply (Rmult_le_reg_l (Rabs (B2R y) * m)); [apply Rmult_lt_0_compat; lra|].
    replace (Rabs (B2R y) * m * / Rabs (B2R y)) with m by (field; lra).
    replace (Rabs (B2R y) * m * (b * (1 + 2 * h) / m)) with (b * Rabs (B2R y) * (1 + 2 * h)) by (field; lra).
    assert (m * (1 - h) * (1 + 2 * h) <= b * Rabs (B2R y) * (1 + 2 * h)) by (apply Rmult_le_compat_r; lra).
    assert (m <= m * ((1 - h) * (1 + 2 * h))); [|lra].
    rewrite <- (Rmult_1_r m) at 1. apply Rmult_le_compat_l; [lra|]. nra. }
  assert (Si : / Rabs s <= b / m).
  { apply (Rmult_le_reg_l (Rabs s * m)); [apply Rmult_lt_0_compat; lra|].
    replace (Rabs s * m * / Rabs s) with m by (field; lra).
    replace (Rabs s * m * (b / m)) with (b * Rabs s) by (field; lra). exact HS. }
  assert (Yi0 : 0 < / Rabs (B2R y)) by (apply Rinv_0_lt_compat; exact y0).
  assert (Si0 : 0 < / Rabs s) by (apply Rinv_0_lt_compat; exact s0).
  assert (Q : Rabs (B2R x / B2R y - r / s) <= (1 + 2 * h) * t * w * n).
  { replace (B2R x / B2R y - r / s) with ((B2R x - r) * / B2R y + r * (s - B2R y) * (/ B2R y * / s)) by (field; split; assumption).
    eapply Rle_trans; [apply Rabs_triang|]. rewrite !Rabs_mult, !Rabs_inv.
    assert (U1 : Rabs (B2R x - r) * / Rabs (B2R y) <= (c * w * (n * m)) * (b * (1 + 2 * h) / m))
      by (apply Rmult_le_compat; auto using Rabs_pos; lra).
    assert (U2 : Rabs r * Rabs (s - B2R y) * (/ Rabs (B2R y) * / Rabs s)
                 <= (a * (n * m)) * (d * w * m) * ((b * (1 + 2 * h) / m) * (b / m))).
    { apply Rmult_le_compat; auto using Rabs_pos.
      - apply Rmult_le_pos; apply Rabs_pos.
      - apply Rmult_le_pos; lra.
      - apply Rmult_le_compat; auto using Rabs_pos. rewrite Rabs_minus_sym. exact Ey.
      - apply Rmult_le_compat; lra. }
    replace ((1 + 2 * h) * t * w * n) with ((c * w * (n * m)) * (b * (1 + 2 * h) / m) +
      (a * (n * m)) * (d * w * m) * ((b * (1 + 2 * h) / m) * (b / m))) by (unfold t; field; lra).
    lra. }
  assert (RS : Rabs (r / s) <= a * b * n).
  { unfold Rdiv. rewrite Rabs_mult, Rabs_inv.
    replace (a * b * n) with ((a * (n * m)) * (b / m)) by (field; lra).
    apply Rmult_le_compat; auto using Rabs_pos. lra. }
  assert (Q2 : (1 + 2 * h) * t * w <= / 4096).
  { replace ((1 + 2 * h) * t * w) with (t * w + 2 * (h * t) * w) by ring.
    assert (h * t * w <= / 8192 * w) by (apply Rmult_le_compat_r; lra). lra. }
  assert (XY : Rabs (B2R x / B2R y) <= (a * b + / 4096) * n).
  { replace (B2R x / B2R y) with (r / s + (B2R x / B2R y - r / s)) by ring.
    eapply Rle_trans; [apply Rabs_triang|].
    assert ((1 + 2 * h) * t * w * n <= / 4096 * n) by (apply Rmult_le_compat_r; lra). lra. }
  destruct (fdiv_fin x y Fx yn) as (FIN & g & o & Hg & Ho & E).
  { eapply Rle_trans; [exact XY|]. eapply Rle_trans; [|apply (IZR_small _ _ HAD Hk)].
    fold n. apply Rmult_le_compat_r; [lra|]. rewrite plus_IZR, mult_IZR. fold a b. lra. }
  split; [exact FIN|]. split.
  - rewrite mult_IZR. fold a b n. exact RS.
  - rewrite E. replace (B2R x / B2R y * (1 + g) + o - r / s)
      with ((B2R x / B2R y - r / s) + B2R x / B2R y * g + o) by ring.
    assert (T3 : Rabs (B2R x / B2R y * g) <= (a * b + / 4096) * n * (1024 * w)).
    { rewrite Rabs_mult. rewrite <- funit_w. apply Rmult_le_compat; auto using Rabs_pos. }
    pose proof (ftiny_w _ Hk) as T4. fold n in T4.
    eapply Rle_trans; [apply Rabs_triang|].
    eapply Rle_trans; [apply Rplus_le_compat_r, Rabs_triang|].
    rewrite !plus_IZR, !mult_IZR. fold a b c d n t.
    apply Rle_trans with (((1 + 2 * h) * t + (1024 * (a * b) + / 4) + / 4) * w * n).
    + replace (((1 + 2 * h) * t + (1024 * (a * b) + / 4) + / 4) * w * n)
        with ((1 + 2 * h) * t * w * n + (a * b + / 4096) * n * (1024 * w) + / 4 * (w * n)) by field.
      lra.
    + apply Rmult_le_compat_r; [lra|]. apply Rmult_le_compat_r; lra.
Qed.
(** The same with a coarser error bound under weaker conditions. *)
Lemma fapp_div2 V W A B D e f (x y : fl) r s :
  0 < V -> 0 < W -> wok (V / W) -> fapp V A e x r -> fapp W B f y s -> W <= IZR D * Rabs s ->
  (0 <= A)%Z -> (1 <= D)%Z -> (0 <= e)%Z -> (0 <= f)%Z ->
  (A * D + 1 <= 2 ^ 30)%Z ->
  (8 * (e * D + A * f * D * D) <= 2 ^ prec)%Z ->
  (2 * (D * f) <= 2 ^ prec)%Z ->
  fapp (V / W) (A * D) (2 * (e * D + A * f * D * D) + 1024 * (A * D) + 1) (ndiv x y) (r / s).
Proof.
  intros Pk Pl Hk HX HY HS A0 D0 e0 f0 HAD HE2 HE3.
  pose proof (wok_pos _ Hk) as Pd. pose proof w_pos as W0. pose proof (w_small _ HE2) as W2. pose proof (w_small _ HE3) as W3.
  assert (W24 : IZR (2 ^ 24) * w <= / 1024) by (apply w_small, Z.pow_le_mono_r; lia).
  change (IZR (2 ^ 24)) with 16777216 in W24.
  destruct HX as (Fx & Ax & Ex). destruct HY as (Fy & Ay & Ey).
  assert (EM : V = V / W * W) by (field; lra).
  rewrite EM in Ax, Ex. clear EM.
  set (n := V / W) in *. set (m := W) in *.
  apply IZR_le in A0, D0, e0, f0.
  repeat first [rewrite mult_IZR in W2|rewrite plus_IZR in W2]. repeat rewrite mult_IZR in W3.
  set (a := IZR A) in *. set (b := IZR D) in *. set (c := IZR e) in *. set (d := IZR f) in *.
  set (t := c * b + a * d * b * b) in *.
  assert (t0 : 0 <= t).
  { unfold t. assert (0 <= c * b) by (apply Rmult_le_pos; lra).
    assert (0 <= a * d * b * b) by (repeat apply Rmult_le_pos; lra). lra. }
  assert (db0 : 0 <= b * d) by (apply Rmult_le_pos; lra).
  set (h := b * d * w) in *.
  assert (h0 : 0 <= h) by (unfold h; apply Rmult_le_pos; lra).
  assert (h1 : h <= / 2048) by (unfold h; lra).
  assert (tw : t * w <= / 8192) by lra.
  assert (tw0 : 0 <= t * w) by (apply Rmult_le_pos; lra).
  (* |y| from below *)
  assert (Sb : m / b <= Rabs s).
  { apply (Rmult_le_reg_l b); [lra|]. unfold Rdiv.
    replace (b * (m * / b)) with m by (field; lra). exact HS. }
  assert (Yb : m * (1 - h) <= b * Rabs (B2R y)).
  { assert (Rabs s <= Rabs (B2R y) + d * w * m).
    { replace s with (B2R y - (B2R y - s)) by ring. eapply Rle_trans; [apply Rabs_triang|]. rewrite Rabs_Ropp. lra. }
    assert (b * Rabs s <= b * (Rabs (B2R y) + d * w * m)) by (apply Rmult_le_compat_l; lra).
    unfold h. replace (m * (1 - b * d * w)) with (m - b * (d * w * m)) by ring. lra. }
  assert (s0 : 0 < Rabs s).
  { apply Rlt_le_trans with (m / b); [|exact Sb]. apply Rdiv_lt_0_compat; lra. }
  assert (y0 : 0 < Rabs (B2R y)).
  { apply (Rmult_lt_reg_l b); [lra|]. rewrite Rmult_0_r. eapply Rlt_le_trans; [|exact Yb]. apply Rmult_lt_0_compat; lra. }
  assert (yn : B2R y <> 0) by (intros E; rewrite E, Rabs_R0 in y0; lra).
  assert (sn : s <> 0) by (intros E; rewrite E, Rabs_R0 in s0; lra).
  assert (Yi : / Rabs (B2R y) <= b * (1 + 2 * h) / m).
  { apply (Rmult_le_reg_l (Rabs (B2R y) * m)); [apply Rmult_lt_0_compat; lra|].
    replace (Rabs (B2R y) * m * / Rabs (B2R y)) with m by (field; lra).
    replace (Rabs (B2R y) * m * (b * (1 + 2 * h) / m)) with (b * Rabs (B2R y) * (1 + 2 * h)) by (field; lra).
    assert (m * (1 - h) * (1 + 2 * h) <= b * Rabs (B2R y) * (1 + 2 * h)) by (apply Rmult_le_compat_r; lra).
    assert (m <= m * ((1 - h) * (1 + 2 * h))); [|lra].
    rewrite <- (Rmult_1_r m) at 1. apply Rmult_le_compat_l; [lra|]. nra. }
  assert (Si : / Rabs s <= b / m).
  { apply (Rmult_le_reg_l (Rabs s * m)); [apply Rmult_lt_0_compat; lra|].
    replace (Rabs s * m * / Rabs s) with m by (field; lra).
    replace (Rabs s * m * (b / m)) with (b * Rabs s) by (field; lra). exact HS. }
  assert (Yi0 : 0 < / Rabs (B2R y)) by (apply Rinv_0_lt_compat; exact y0).
  assert (Si0 : 0 < / Rabs s) by (apply Rinv_0_lt_compat; exact s0).
  assert (Q : Rabs (B2R x / B2R y - r / s) <= (1 + 2 * h) * t * w * n).
  { replace (B2R x / B2R y - r / s) with ((B2R x - r) * / B2R y + r * (s - B2R y) * (/ B2R y * / s)) by (field; split; assumption).
    eapply Rle_trans; [apply Rabs_triang|]. rewrite !Rabs_mult, !Rabs_inv.
    assert (U1 : Rabs (B2R x - r) * / Rabs (B2R y) <= (c * w * (n * m)) * (b * (1 + 2 * h) / m))
      by (apply Rmult_le_compat; auto using Rabs_pos; lra).
    assert (U2 : Rabs r * Rabs (s - B2R y) * (/ Rabs (B2R y) * / Rabs s)
                 <= (a * (n * m)) * (d * w * m) * ((b * (1 + 2 * h) / m) * (b / m))).
    { apply Rmult_le_compat; auto using Rabs_pos.
      - apply Rmult_le_pos; apply Rabs_pos.
      - apply Rmult_le_pos; lra.
      - apply Rmult_le_compat; auto using Rabs_pos. rewrite Rabs_minus_sym. exact Ey.
      - apply Rmult_le_compat; lra. }
    replace ((1 + 2 * h) * t * w * n) with ((c * w * (n * m)) * (b * (1 + 2 * h) / m) +
      (a * (n * m)) * (d * w * m) * ((b * (1 + 2 * h) / m) * (b / m))) by (unfold t; field; lra).
    lra. }
  assert (RS : Rabs (r / s) <= a * b * n).
  { unfold Rdiv. rewrite Rabs_mult, Rabs_inv.
    replace (a * b * n) with ((a * (n * m)) * (b / m)) by (field; lra).
    apply Rmult_le_compat; auto using Rabs_pos. lra. }
  assert (Q2 : (1 + 2 * h) * t * w <= / 4096).
  { replace ((1 + 2 * h) * t * w) with (t * w + 2 * (h * t) * w) by ring.
    assert (h * (t * w) <= / 2048 * (t * w)) by (apply Rmult_le_compat_r; lra). lra. }
  assert (XY : Rabs (B2R x / B2R y) <= (a * b + / 4096) * n).
  { replace (B2R x / B2R y) with (r / s + (B2R x / B2R y - r / s)) by ring.
    eapply Rle_trans; [apply Rabs_triang|].
    assert ((1 + 2 * h) * t * w * n <= / 4096 * n) by (apply Rmult_le_compat_r; lra). lra. }
  destruct (fdiv_fin x y Fx yn) as (FIN & g & o & Hg & Ho & E).
  { eapply Rle_trans; [exact XY|]. eapply Rle_trans; [|apply (IZR_small _ _ HAD Hk)].
    fold n. apply Rmult_le_compat_r; [lra|]. rewrite plus_IZR, mult_IZR. fold a b. lra. }
  split; [exact FIN|]. split.
  - rewrite mult_IZR. fold a b n. exact RS.
  - rewrite E. replace (B2R x / B2R y * (1 + g) + o - r / s)
      with ((B2R x / B2R y - r / s) + B2R x / B2R y * g + o) by ring.
    assert (T3 : Rabs (B2R x / B2R y * g) <= (a * b + / 4096) * n * (1024 * w)).
    { rewrite Rabs_mult. rewrite <- funit_w. apply Rmult_le_compat; auto using Rabs_pos. }
    pose proof (ftiny_w _ Hk) as T4. fold n in T4.
    eapply Rle_trans; [apply Rabs_triang|].
    eapply Rle_trans; [apply Rplus_le_compat_r, Rabs_triang|].
    repeat first [rewrite plus_IZR|rewrite mult_IZR]. fold a b c d n t.
    apply Rle_trans with (((1 + 2 * h) * t + (1024 * (a * b) + / 4) + / 4) * w * n).
    + replace (((1 + 2 * h) * t + (1024 * (a * b) + / 4) + / 4) * w * n)
        with ((1 + 2 * h) * t * w * n + (a * b + / 4096) * n * (1024 * w) + / 4 * (w * n)) by field.
      lra.
    + apply Rmult_le_compat_r; [lra|]. apply Rmult_le_compat_r; [lra|].
      assert (h * t <= / 2048 * t) by (apply Rmult_le_compat_r; lra). lra.
Qed.
End Acc.
