(** Rounding in the projections: error bounds at the natural scales, and monotonicity. *)

From Coq Require Import List Arith ZArith Bool Lia Reals Lra Psatz.
From Flocq Require Import Core.Core IEEE754.BinarySingleNaN.
From Verif Require Import Base Scalar Spec SpecF SpecProjection MVector MMatrix MPoint MReal MFloat MTransform MProjection
  LBase LVector LMatrix LFloat LFloatP LFloatVec LFloatAcc LFloatEx LFloatExP.

Local Open Scope R_scope.

Section S.
Context {prec emax : Z} {Hprec : Prec_gt_0 prec} {Hemax : Prec_lt_emax prec emax}.
Notation fl := (binary_float prec emax).

(** ** Signs and monotonicity *)
Notation fexp := (FLT_exp (3 - emax - prec) prec).
Lemma rnd_ge0 z : 0 <= z -> 0 <= round radix2 fexp ZnearestE z.
Proof.
  intros H. rewrite <- (round_0 radix2 fexp ZnearestE). apply round_le; auto with typeclass_instances.
Qed.
Lemma fadd_ge0 (x y : fl) : 0 <= B2R x + B2R y -> 0 <= B2R (nadd x y).
Proof.
  intros H. destruct (is_finite (nadd x y)) eqn:F.
  - rewrite (fadd_R x y F). apply rnd_ge0. exact H.
  - destruct (nadd x y); cbn in *; try lra; discriminate.
Qed.
Lemma fdiv_sign (x y : fl) : is_finite (ndiv x y) = true -> 0 <= B2R x -> 0 <= B2R y -> 0 <= B2R (ndiv x y).
Proof.
  intros F X Y. destruct (Req_dec (B2R y) 0) as [E|N].
  - destruct y as [sy|sy| |sy my ey Hy].
    + destruct x as [sx|sx| |sx mx ex Hx]; cbn in F; discriminate.
    + destruct x as [sx|sx| |sx mx ex Hx]; cbn in F |- *; try discriminate; lra.
    + destruct x as [sx|sx| |sx mx ex Hx]; cbn in F; discriminate.
    + exfalso. cbn in E. apply eq_0_F2R in E. destruct sy; cbn in E; discriminate.
  - cbn [ndiv numdiv_float] in *. pose proof (Bdiv_correct prec emax _ _ mode_NE x y N) as C.
    destruct (Rlt_bool _ _).
    + destruct C as (-> & _). apply rnd_ge0. apply Rmult_le_pos; [exact X|]. apply Rlt_le, Rinv_0_lt_compat. lra.
    + destruct (ovf_not_finite _ _ C F).
Qed.
Lemma fsub_ge0 (x y : fl) : B2R y <= B2R x -> 0 <= B2R (nsub x y).
Proof. intros H. rewrite fsub_add_neg. apply fadd_ge0. cbn [nneg num_float]. rewrite B2R_Bopp. lra. Qed.
Lemma fdiv_sign_neg (x y : fl) : is_finite (ndiv (nneg x) y) = true -> 0 <= B2R x -> 0 <= B2R y -> B2R (ndiv (nneg x) y) <= 0.
Proof.
  intros F X Y. destruct (Req_dec (B2R y) 0) as [E|N].
  - destruct y as [sy|sy| |sy my ey Hy].
    + destruct x as [sx|sx| |sx mx ex Hx]; cbn in F; discriminate.
    + destruct x as [sx|sx| |sx mx ex Hx]; cbn in F |- *; try discriminate; lra.
    + destruct x as [sx|sx| |sx mx ex Hx]; cbn in F; discriminate.
    + exfalso. cbn in E. apply eq_0_F2R in E. destruct sy; cbn in E; discriminate.
  - cbn [ndiv numdiv_float] in *. pose proof (Bdiv_correct prec emax _ _ mode_NE (nneg x) y N) as C.
    destruct (Rlt_bool _ _).
    + destruct C as (-> & _). rewrite <- (round_0 radix2 fexp ZnearestE). apply round_le; auto with typeclass_instances.
      cbn [nneg num_float]. rewrite B2R_Bopp. assert (0 <= / B2R y) by (apply Rlt_le, Rinv_0_lt_compat; lra). unfold Rdiv.
      assert (0 <= B2R x * / B2R y) by (apply Rmult_le_pos; assumption). lra.
    + destruct (ovf_not_finite _ _ C F).
Qed.
Lemma two_ge0 : 0 <= B2R (nadd n1 n1 : fl).
Proof. apply fadd_ge0. cbn [n1 num_float]. rewrite (proj1 fbone). lra. Qed.

(** [a x + b] with [a >= 0] (or [a <= 0]) is monotone in [x]. *)
Lemma affine_mono (a b x y : fl) :
  is_finite (nadd (nmul a x) b) = true -> is_finite (nadd (nmul a y) b) = true ->
  B2R a * B2R x <= B2R a * B2R y -> B2R (nadd (nmul a x) b) <= B2R (nadd (nmul a y) b).
Proof.
  intros F1 F2 H. destruct (ffin_add _ _ F1) as (G1 & _), (ffin_add _ _ F2) as (G2 & _).
  rewrite (fadd_R _ _ F1), (fadd_R _ _ F2), (fmul_R _ _ G1), (fmul_R _ _ G2).
  apply round_le; auto with typeclass_instances. apply Rplus_le_compat_r.
  apply round_le; auto with typeclass_instances.
Qed.

(** ** Scales *)
Definition rb (q : Z) (v : R) : Prop := bpow radix2 (- q) <= v <= bpow radix2 q.
Lemma rb_pos q v : rb q v -> 0 < v.
Proof. intros (H & _). pose proof (bpow_gt_0 radix2 (- q)). lra. Qed.
Lemma rb_mul a b v w : rb a v -> rb b w -> rb (a + b) (v * w).
Proof.
  intros (H1 & H2) (H3 & H4). pose proof (bpow_gt_0 radix2 (- a)). pose proof (bpow_gt_0 radix2 (- b)). unfold rb.
  replace (- (a + b))%Z with (- a + - b)%Z by ring. rewrite !bpow_plus. split; apply Rmult_le_compat; lra.
Qed.
Lemma rb_inv a v : rb a v -> rb a (/ v).
Proof.
  intros H. pose proof (rb_pos a v H) as P. destruct H as (H1 & H2). unfold rb. split.
  - rewrite bpow_opp. apply Rinv_le; lra.
  - rewrite <- (Z.opp_involutive a), bpow_opp. apply Rinv_le; [apply bpow_gt_0|exact H1].
Qed.
Lemma rb_div a b v w : rb a v -> rb b w -> rb (a + b) (v / w).
Proof. intros H1 H2. apply rb_mul; [exact H1|apply rb_inv; exact H2]. Qed.
Lemma rb_1 : rb 0 1.
Proof. split; cbn; lra. Qed.
Lemma rb_wok a v : (a + 31 <= emax)%Z -> rb a v -> @wok emax v.
Proof.
  intros H (H1 & H2). split.
  - eapply Rle_trans; [|exact H1]. apply bpow_le. lia.
  - eapply Rle_trans; [exact H2|]. apply bpow_le. lia.
Qed.
Lemma rb_weak a b v : (a <= b)%Z -> rb a v -> rb b v.
Proof.
  intros H (H1 & H2). split; (eapply Rle_trans; [|eassumption] || (eapply Rle_trans; [eassumption|])); apply bpow_le; lia.
Qed.

Hypothesis H24 : (24 <= prec)%Z.

(** Addition with a sharper bound of the exact sum. *)
Lemma fapp_addC V A B C e f (x y : fl) r s :
  @wok emax V -> fapp V A e x r -> fapp V B f y s -> Rabs (r + s) <= IZR C * V ->
  (C + 1 <= 2 ^ 30)%Z -> (e + f <= 2 ^ prec)%Z ->
  fapp V C (e + f + 1024 * C + 1) (nadd x y) (r + s).
Proof.
  intros Hk HX HY HR HA HE. pose proof (wok_pos V Hk) as P. pose proof (@w_pos prec) as W.
  destruct HX as (Fx & Ax & Ex). destruct HY as (Fy & Ay & Ey).
  pose proof (w_small H24 _ HE) as WS. rewrite plus_IZR in WS.
  assert (T1 : Rabs ((B2R x - r) + (B2R y - s)) <= (IZR e + IZR f) * (bpow radix2 (- prec) / 1024) * V).
  { eapply Rle_trans; [apply Rabs_triang|]. lra. }
  assert (AS : Rabs (B2R x + B2R y) <= (IZR C + (IZR e + IZR f) * (bpow radix2 (- prec) / 1024)) * V).
  { replace (B2R x + B2R y) with ((r + s) + ((B2R x - r) + (B2R y - s))) by ring.
    eapply Rle_trans; [apply Rabs_triang|]. lra. }
  assert (FIN : is_finite (nadd x y) = true).
  { apply fadd_fin; auto. eapply Rle_trans; [|apply (IZR_small _ V HA Hk)].
    eapply Rle_trans; [exact AS|]. apply Rmult_le_compat_r; [lra|]. rewrite !plus_IZR. lra. }
  split; [exact FIN|]. split; [exact HR|].
  destruct (fadd_err x y FIN) as (d & Hd & E). rewrite E.
  replace ((B2R x + B2R y) * (1 + d) - (r + s)) with ((B2R x - r) + (B2R y - s) + (B2R x + B2R y) * d) by ring.
  eapply Rle_trans; [apply Rabs_triang|].
  assert (T2 : Rabs ((B2R x + B2R y) * d) <= (IZR C + / 1024) * V * (1024 * (bpow radix2 (- prec) / 1024))).
  { rewrite Rabs_mult. rewrite <- funit_w. apply Rmult_le_compat; auto using Rabs_pos.
    eapply Rle_trans; [exact AS|]. apply Rmult_le_compat_r; lra. }
  rewrite !plus_IZR, mult_IZR.
  replace ((IZR e + IZR f + 1024 * IZR C + 1) * (bpow radix2 (- prec) / 1024) * V)
    with ((IZR e + IZR f) * (bpow radix2 (- prec) / 1024) * V + (IZR C + / 1024) * V * (1024 * (bpow radix2 (- prec) / 1024))) by field.
  lra.
Qed.
Lemma fapp_subC V A B C e f (x y : fl) r s :
  @wok emax V -> fapp V A e x r -> fapp V B f y s -> Rabs (r - s) <= IZR C * V ->
  (C + 1 <= 2 ^ 30)%Z -> (e + f <= 2 ^ prec)%Z ->
  fapp V C (e + f + 1024 * C + 1) (nsub x y) (r - s).
Proof.
  intros Hk HX HY HR HA HE. rewrite (fsub_add_neg x y).
  apply (fapp_addC V A B); auto. apply fapp_neg. exact HY.
Qed.
Local Notation w := (bpow radix2 (- prec) / 1024).
(** The product under a weaker condition on the errors. *)
Lemma fapp_mul2 V W A B e f (x y : fl) r s :
  0 < V -> 0 < W -> @wok emax (V * W) -> fapp V A e x r -> fapp W B f y s ->
  (0 <= A)%Z -> (0 <= B)%Z -> (0 <= e)%Z -> (0 <= f)%Z ->
  (A * B + 1 <= 2 ^ 30)%Z -> (e * f <= 128 * 2 ^ prec)%Z -> (4 * (A * f + e * B) <= 2 ^ prec)%Z ->
  fapp (V * W) (A * B) (e * B + A * f + 1024 * (A * B) + 1) (nmul x y) (r * s).
Proof.
  intros Pk Pl Hk HX HY A0 B0 e0 f0 HAB HE1 HE2.
  pose proof (@w_pos prec) as W0.
  pose proof (fapp_abs _ _ _ _ _ HX) as AX. pose proof (fapp_abs _ _ _ _ _ HY) as AY.
  destruct HX as (Fx & Ax & Ex). destruct HY as (Fy & Ay & Ey).
  apply IZR_le in A0, B0, e0, f0.
  set (a := IZR A) in *. set (b := IZR B) in *. set (c := IZR e) in *. set (d := IZR f) in *.
  pose proof (@w_inv prec H24) as WI. pose proof (w_small H24 _ HE2) as W2.
  rewrite !mult_IZR, plus_IZR, !mult_IZR in W2. fold a b c d in W2.
  assert (W1 : c * d * w <= / 8).
  { apply IZR_le in HE1. rewrite !mult_IZR in HE1. fold c d in HE1.
    apply Rle_trans with (128 * IZR (2 ^ prec) * w); [apply Rmult_le_compat_r; lra|]. lra. }
  assert (W24 : w * IZR (2 ^ 24) <= / 1024).
  { rewrite Rmult_comm. apply (w_small H24). apply Z.pow_le_mono_r; lia. }
  change (IZR (2 ^ 24)) with 16777216 in W24.
  assert (C0 : 0 <= c * d * w) by (apply Rmult_le_pos; [apply Rmult_le_pos; assumption|lra]).
  assert (D0 : 0 <= (a * d + c * b) * w).
  { apply Rmult_le_pos; [|lra]. apply Rplus_le_le_0_compat; apply Rmult_le_pos; assumption. }
  (* the magnitude of the exact product of the floats *)
  assert (AS : Rabs (B2R x * B2R y) <= (a * b + / 4096 + / 4096) * (V * W)).
  { rewrite Rabs_mult.
    apply Rle_trans with (((a + c * w) * V) * ((b + d * w) * W));
      [apply Rmult_le_compat; auto using Rabs_pos|].
    replace ((a + c * w) * V * ((b + d * w) * W))
      with ((a * b + ((a * d + c * b) * w + c * d * w * w)) * (V * W)) by ring.
    apply Rmult_le_compat_r; [apply Rmult_le_pos; lra|].
    assert (c * d * w * w <= / 8 * w) by (apply Rmult_le_compat_r; lra).
    lra. }
  assert (FIN : is_finite (nmul x y) = true).
  { apply fmul_fin; auto. eapply Rle_trans; [exact AS|].
    eapply Rle_trans; [|apply (IZR_small _ _ HAB Hk)].
    apply Rmult_le_compat_r; [apply Rlt_le; exact (wok_pos _ Hk)|]. rewrite plus_IZR, mult_IZR. fold a b. lra. }
  split; [exact FIN|]. split.
  - rewrite mult_IZR, Rabs_mult. fold a b.
    replace (a * b * (V * W)) with ((a * V) * (b * W)) by ring.
    apply Rmult_le_compat; auto using Rabs_pos.
  - destruct (fmul_err x y FIN) as (h & g & Hh & Hg & E). rewrite E.
    replace (B2R x * B2R y * (1 + h) + g - r * s)
      with ((B2R x - r) * B2R y + r * (B2R y - s) + B2R x * B2R y * h + g) by ring.
    assert (T1 : Rabs ((B2R x - r) * B2R y) <= c * w * (b + d * w) * (V * W)).
    { rewrite Rabs_mult.
      replace (c * w * (b + d * w) * (V * W)) with ((c * w * V) * ((b + d * w) * W)) by ring.
      apply Rmult_le_compat; auto using Rabs_pos. }
    assert (T2 : Rabs (r * (B2R y - s)) <= a * (d * w) * (V * W)).
    { rewrite Rabs_mult.
      replace (a * (d * w) * (V * W)) with ((a * V) * (d * w * W)) by ring.
      apply Rmult_le_compat; auto using Rabs_pos. }
    assert (T3 : Rabs (B2R x * B2R y * h) <= (a * b + / 4096 + / 4096) * (V * W) * (1024 * w)).
    { rewrite Rabs_mult. rewrite <- funit_w. apply Rmult_le_compat; auto using Rabs_pos. }
    pose proof (@ftiny_w prec emax _ Hk) as T4.
    eapply Rle_trans; [apply Rabs_triang|].
    eapply Rle_trans; [apply Rplus_le_compat_r, Rabs_triang|].
    eapply Rle_trans; [apply Rplus_le_compat_r, Rplus_le_compat_r, Rabs_triang|].
    rewrite !plus_IZR, !mult_IZR. fold a b c d.
    set (m := (V * W)) in *. assert (m0 : 0 < m) by (exact (wok_pos _ Hk)).
    apply Rle_trans with ((c * b + a * d + c * d * w + 1024 * (a * b) + / 2 + / 4) * w * m).
    + replace ((c * b + a * d + c * d * w + 1024 * (a * b) + / 2 + / 4) * w * m)
        with (c * w * (b + d * w) * m + a * (d * w) * m + (a * b + / 4096 + / 4096) * m * (1024 * w) + / 4 * (w * m)) by field.
      lra.
    + apply Rmult_le_compat_r; [lra|]. apply Rmult_le_compat_r; lra.
Qed.
Lemma fapp_leafV V (x : fl) : is_finite x = true -> Rabs (B2R x) <= V -> fapp V 1 0 x (B2R x).
Proof. intros F H. apply fapp_leaf. split; assumption. Qed.
Lemma fapp_2 : fapp 1 2 0 (nadd n1 n1 : fl) 2.
Proof.
  destruct (fint_add n1 n1 1 1 fint_1 fint_1) as (F & E).
  { assert (2 ^ 24 <= 2 ^ prec)%Z by (apply Z.pow_le_mono_r; lia). lia. }
  split; [exact F|]. rewrite E. change (IZR (1 + 1)) with 2. rewrite Rabs_pos_eq by lra.
  split; [lra|]. replace (2 - 2) with 0 by ring. rewrite Rabs_R0. lra.
Qed.
Lemma fapp_up V V' A e (x : fl) r : fapp V A e x r -> V <= V' -> (0 <= A)%Z -> (0 <= e)%Z -> fapp V' A e x r.
Proof.
  intros (F & H1 & H2) H HA He. apply IZR_le in HA, He. pose proof (@w_pos prec) as W. split; [exact F|]. split.
  - eapply Rle_trans; [exact H1|]. apply Rmult_le_compat_l; assumption.
  - eapply Rle_trans; [exact H2|]. apply Rmult_le_compat_l; [apply Rmult_le_pos; lra|assumption].
Qed.
Lemma fapp_eq V V' A e (x : fl) r r' : fapp V A e x r -> V = V' -> r = r' -> fapp V' A e x r'.
Proof. intros H <- <-. exact H. Qed.

Ltac rbs := repeat first [assumption | apply rb_1 | eapply rb_mul | eapply rb_div | eapply rb_inv].
Ltac posr := repeat first [assumption | lra | apply Rmult_lt_0_compat | apply Rdiv_lt_0_compat | apply Rinv_0_lt_compat].

Variables (q : Z).
Hypothesis Hq : (2 * q + 31 <= emax)%Z.
Hypothesis q0 : (0 <= q)%Z.

(** c2r2 of both matrices and the difference of the planes. *)
Section Depth.
Variables near far : fl.
Notation N := (B2R near).
Notation F := (B2R far).
Hypothesis Fn : is_finite near = true.
Hypothesis Ff : is_finite far = true.
Hypothesis Bn : rb q N.
Hypothesis Bf : rb q F.
Hypothesis NF : 2 * N <= F.

Lemma fapp_diff : fapp F 1 1025 (nsub far near) (F - N).
Proof.
  pose proof (pow24 H24) as P24. pose proof (rb_pos _ _ Bn) as N0. pose proof (rb_pos _ _ Bf) as F0.
  apply (fapp_weak F 1 1 (0 + 0 + 1024 * 1 + 1)); try lia; try exact F0.
  apply (fapp_subC F 1 1).
  - apply (rb_wok q); [lia|exact Bf].
  - apply fapp_leafV; [exact Ff|]. rewrite Rabs_pos_eq; lra.
  - apply fapp_leafV; [exact Fn|]. rewrite Rabs_pos_eq; lra.
  - rewrite Rabs_pos_eq; lra.
  - lia.
  - lia.
Qed.
Lemma fapp_quot : fapp 1 4 28693 (ndiv (nneg (nadd far near)) (nsub far near)) (- (F + N) / (F - N)).
Proof.
  pose proof (pow24 H24) as P24. pose proof (rb_pos _ _ Bn) as N0. pose proof (rb_pos _ _ Bf) as F0.
  apply (fapp_eq (F / F) _ _ _ _ (- (F + N) / (F - N)) ); [|field; lra|reflexivity].
  apply (fapp_weak (F / F) (2 * 2) _ (2 * (2049 * 2 + 2 * 1025 * 2 * 2) + 1024 * (2 * 2) + 1)); try lia; [posr|].
  apply (fapp_div2 H24 F F 2 1 2 2049 1025); try lia; try exact F0.
  - apply (rb_wok (q + q)); [lia|rbs].
  - apply fapp_neg. apply (fapp_weak F (1 + 1) _ (0 + 0 + 1024 * (1 + 1) + 1)); try lia; try exact F0.
    apply fapp_add; try lia; try assumption.
    + apply (rb_wok q); [lia|exact Bf].
    + apply fapp_leafV; [exact Ff|]. rewrite Rabs_pos_eq; lra.
    + apply fapp_leafV; [exact Fn|]. rewrite Rabs_pos_eq; lra.
  - exact fapp_diff.
  - rewrite Rabs_pos_eq; lra.
Qed.
Lemma fapp_c3 : fapp N 4 36889 (ndiv (nneg (nmul (nmul (nadd n1 n1) far) near)) (nsub far near)) (- (2 * F * N) / (F - N)).
Proof.
  pose proof (pow24 H24) as P24. pose proof (rb_pos _ _ Bn) as N0. pose proof (rb_pos _ _ Bf) as F0.
  apply (fapp_eq (1 * F * N / F) _ _ _ _ (- (2 * F * N) / (F - N)) ); [|field; lra|reflexivity].
  apply (fapp_weak (1 * F * N / F) (2 * 2) _ (2 * (4098 * 2 + 2 * 1025 * 2 * 2) + 1024 * (2 * 2) + 1)); try lia; [posr|].
  apply (fapp_div2 H24 (1 * F * N) F 2 1 2 4098 1025); try lia; try exact F0.
  - posr.
  - replace (1 * F * N / F) with N by (field; lra). apply (rb_wok q); [lia|exact Bn].
  - apply fapp_neg. apply (fapp_weak (1 * F * N) (2 * 1) _ (2049 * 1 + 2 * 0 + 1024 * (2 * 1) + 1)); try lia; [posr|].
    apply (fapp_mul H24 (1 * F) N 2 1 2049 0); try lia; [posr|posr| | |].
    + apply (rb_wok (0 + q + q)); [lia|rbs].
    + apply (fapp_weak (1 * F) (2 * 1) _ (0 * 1 + 2 * 0 + 1024 * (2 * 1) + 1)); try lia; [posr|].
      apply (fapp_mul H24 1 F 2 1 0 0); try lia; [posr|posr| |exact fapp_2|].
      * apply (rb_wok (0 + q)); [lia|rbs].
      * apply fapp_leafV; [exact Ff|]. rewrite Rabs_pos_eq; lra.
    + apply fapp_leafV; [exact Fn|]. rewrite Rabs_pos_eq; lra.
  - exact fapp_diff.
  - rewrite Rabs_pos_eq; lra.
Qed.
Lemma fapp_c2 : fapp (1 / F) 4 20497 (ndiv (nneg (nadd n1 n1)) (nsub far near)) (- (2) / (F - N)).
Proof.
  pose proof (pow24 H24) as P24. pose proof (rb_pos _ _ Bn) as N0. pose proof (rb_pos _ _ Bf) as F0.
  apply (fapp_weak (1 / F) (2 * 2) _ (2 * (0 * 2 + 2 * 1025 * 2 * 2) + 1024 * (2 * 2) + 1)); try lia; [posr|].
  apply (fapp_div2 H24 1 F 2 1 2 0 1025); try lia; try exact F0; [lra| | |exact fapp_diff|].
  - apply (rb_wok (0 + q)); [lia|rbs].
  - apply fapp_neg. exact fapp_2.
  - rewrite Rabs_pos_eq; lra.
Qed.

Variable z : fl.
Notation Z_ := (- B2R z).
Hypothesis Fz : is_finite z = true.
Hypothesis Bz : N <= Z_ <= F.

Lemma rb_z : rb q Z_.
Proof. destruct Bn, Bf. split; lra. Qed.
Lemma z_pos : 0 < Z_.
Proof. exact (rb_pos _ _ rb_z). Qed.
Lemma fapp_z : fapp Z_ 1 0 z (B2R z).
Proof. apply fapp_leafV; [exact Fz|]. pose proof z_pos. rewrite Rabs_left; lra. Qed.
Lemma fapp_inv : fapp (1 / Z_) 1 1025 (ndiv (nneg n1) z) (- (1) / B2R z).
Proof.
  pose proof (pow24 H24) as P24. pose proof z_pos as Z0.
  apply (fapp_weak (1 / Z_) (1 * 1) _ (2 * (0 * 1 + 1 * 0 * 1 * 1) + 1024 * (1 * 1) + 1)); try lia; [posr|].
  apply (fapp_div2 H24 1 Z_ 1 1 1 0 0); try lia; [lra|exact Z0| |apply fapp_neg; apply fapp_1|exact fapp_z|].
  - apply (rb_wok (0 + q)); [lia|]. apply rb_div; [apply rb_1|apply rb_z].
  - rewrite Rabs_left; lra.
Qed.
(** A sum at the scale of the distance, divided by it. *)
Lemma fapp_persp e (x : fl) r : (0 <= e <= 2 ^ 20)%Z ->
  fapp Z_ 1 e x r -> fapp 1 1 (e + 2050) (nmul x (ndiv (nneg n1) z)) (r * (- (1) / B2R z)).
Proof.
  intros e0 Hx. pose proof (pow24 H24) as P24. pose proof z_pos as Z0.
  apply (fapp_eq (Z_ * (1 / Z_)) _ _ _ _ (r * (- (1) / B2R z))); [|field; lra|reflexivity].
  apply (fapp_weak (Z_ * (1 / Z_)) (1 * 1) _ (e * 1 + 1 * 1025 + 1024 * (1 * 1) + 1)); try lia; [posr|].
  apply (fapp_mul2 Z_ (1 / Z_) 1 1 e 1025); try lia; [posr|posr| |exact Hx|exact fapp_inv].
  apply (rb_wok (q + (0 + q))); [lia|]. apply rb_mul; [apply rb_z|apply rb_div; [apply rb_1|apply rb_z]].
Qed.

Lemma persp_depth_bound : Rabs (- (F + N) / (F - N) * B2R z + - (2 * F * N) / (F - N)) <= 1 * Z_.
Proof.
  pose proof (rb_pos _ _ Bn) as N0. pose proof (rb_pos _ _ Bf) as F0.
  replace (- (F + N) / (F - N) * B2R z + - (2 * F * N) / (F - N)) with (((F + N) * Z_ - 2 * F * N) * / (F - N)) by (field; lra).
  rewrite Rabs_mult, (Rabs_pos_eq (/ (F - N))) by (apply Rlt_le, Rinv_0_lt_compat; lra).
  apply (Rmult_le_reg_r (F - N)); [lra|]. rewrite Rmult_assoc, Rinv_l, Rmult_1_r by lra.
  apply Rabs_le. split; nra.
Qed.
Lemma fapp_persp_depth :
  fapp 1 1 72754 (nmul (nadd (nmul (ndiv (nneg (nadd far near)) (nsub far near)) z)
      (ndiv (nneg (nmul (nmul (nadd n1 n1) far) near)) (nsub far near))) (ndiv (nneg n1) z))
    (persp_depth N F Z_).
Proof.
  pose proof (pow24 H24) as P24. pose proof (rb_pos _ _ Bn) as N0. pose proof (rb_pos _ _ Bf) as F0. pose proof z_pos as Z0.
  apply (fapp_eq 1 _ _ _ _ ((- (F + N) / (F - N) * B2R z + - (2 * F * N) / (F - N)) * (- (1) / B2R z)));
    [|reflexivity|unfold persp_depth; field; lra].
  apply (fapp_persp 70704); [lia|].
  apply (fapp_addC Z_ 4 4 1 32790 36889); try lia.
  - apply (rb_wok q); [lia|apply rb_z].
  - apply (fapp_eq (1 * Z_) _ _ _ _ (- (F + N) / (F - N) * B2R z)); [|ring|reflexivity].
    apply (fapp_weak (1 * Z_) (4 * 1) _ (28693 * 1 + 4 * 0 + 1024 * (4 * 1) + 1)); try lia; [posr|].
    apply fapp_mul2; try lia; [posr|posr| |exact fapp_quot|exact fapp_z].
    apply (rb_wok (0 + q)); [lia|]. apply rb_mul; [apply rb_1|apply rb_z].
  - apply (fapp_up N); [exact fapp_c3|lra|lia|lia].
  - exact persp_depth_bound.
Qed.
Lemma ortho_depth_bound : Rabs (- (2) / (F - N) * B2R z + - (F + N) / (F - N)) <= 1 * 1.
Proof.
  pose proof (rb_pos _ _ Bn) as N0. pose proof (rb_pos _ _ Bf) as F0.
  replace (- (2) / (F - N) * B2R z + - (F + N) / (F - N)) with ((2 * Z_ - (F + N)) * / (F - N)) by (field; lra).
  rewrite Rabs_mult, (Rabs_pos_eq (/ (F - N))) by (apply Rlt_le, Rinv_0_lt_compat; lra).
  apply (Rmult_le_reg_r (F - N)); [lra|]. rewrite Rmult_assoc, Rinv_l, Rmult_1_r by lra.
  apply Rabs_le. split; lra.
Qed.
Lemma fapp_ortho_depth :
  fapp 1 1 54312 (nadd (nmul (ndiv (nneg (nadd n1 n1)) (nsub far near)) z) (ndiv (nneg (nadd far near)) (nsub far near)))
    (ortho_depth N F Z_).
Proof.
  pose proof (pow24 H24) as P24. pose proof (rb_pos _ _ Bn) as N0. pose proof (rb_pos _ _ Bf) as F0.
  apply (fapp_eq 1 _ _ _ _ (- (2) / (F - N) * B2R z + - (F + N) / (F - N)));
    [|reflexivity|unfold ortho_depth; field; lra].
  apply (fapp_addC 1 4 4 1 24594 28693); try lia.
  - apply (rb_wok 0); [lia|apply rb_1].
  - apply (fapp_eq (1 / F * F) _ _ _ _ (- (2) / (F - N) * B2R z)); [|field; lra|reflexivity].
    apply (fapp_weak (1 / F * F) (4 * 1) _ (20497 * 1 + 4 * 0 + 1024 * (4 * 1) + 1)); try lia; [posr|].
    apply fapp_mul2; try lia; [posr|posr| |exact fapp_c2|].
    + apply (rb_wok (0 + q + q)); [lia|rbs].
    + apply (fapp_up Z_); [exact fapp_z|lra|lia|lia].
  - exact fapp_quot.
  - exact ortho_depth_bound.
Qed.

(** ** The sides *)
Variables lo hi x : fl.
Notation L := (B2R lo).
Notation H := (B2R hi).
Notation X := (B2R x).
Hypothesis Fl : is_finite lo = true.
Hypothesis Fh : is_finite hi = true.
Hypothesis Fx : is_finite x = true.
Hypothesis L0 : 0 <= L.
Hypothesis H0 : 0 <= H.
Hypothesis Bw : rb q (H + L).

Lemma fapp_lo : fapp (H + L) 1 0 (nneg lo) (- L).
Proof. apply fapp_neg, fapp_leafV; [exact Fl|]. rewrite Rabs_pos_eq; lra. Qed.
Lemma fapp_hi : fapp (H + L) 1 0 hi H.
Proof. apply fapp_leafV; [exact Fh|]. rewrite Rabs_pos_eq; lra. Qed.
Lemma fapp_width : fapp (H + L) 1 1025 (nsub hi (nneg lo)) (H - - L).
Proof.
  pose proof (pow24 H24) as P24. apply (fapp_subC (H + L) 1 1 1 0 0); try lia; [|exact fapp_hi|exact fapp_lo|].
  - apply (rb_wok q); [lia|exact Bw].
  - rewrite Rabs_pos_eq; lra.
Qed.
Lemma fapp_skew : fapp (H + L) 1 1025 (nadd hi (nneg lo)) (H + - L).
Proof.
  pose proof (pow24 H24) as P24. apply (fapp_addC (H + L) 1 1 1 0 0); try lia; [|exact fapp_hi|exact fapp_lo|].
  - apply (rb_wok q); [lia|exact Bw].
  - apply Rabs_le. lra.
Qed.
Lemma fapp_skew_quot (y : fl) r : fapp (H + L) 1 1025 y r -> fapp 1 1 5125 (ndiv y (nsub hi (nneg lo))) (r / (H - - L)).
Proof.
  intros Hy. pose proof (pow24 H24) as P24. pose proof (rb_pos _ _ Bw) as W0.
  apply (fapp_eq ((H + L) / (H + L)) _ _ _ _ (r / (H - - L))); [|field; lra|reflexivity].
  apply (fapp_weak ((H + L) / (H + L)) (1 * 1) _ (2 * (1025 * 1 + 1 * 1025 * 1 * 1) + 1024 * (1 * 1) + 1)); try lia; [posr|].
  apply (fapp_div2 H24 (H + L) (H + L) 1 1 1 1025 1025); try lia; try exact W0; [|exact Hy|exact fapp_width|].
  - apply (rb_wok (q + q)); [lia|rbs].
  - rewrite Rabs_pos_eq; lra.
Qed.
Lemma fapp_pc0 : fapp (1 * N / (H + L)) 2 10247 (ndiv (nmul (nadd n1 n1) near) (nsub hi (nneg lo))) (2 * N / (H - - L)).
Proof.
  pose proof (pow24 H24) as P24. pose proof (rb_pos _ _ Bw) as W0. pose proof (rb_pos _ _ Bn) as N0.
  apply (fapp_weak (1 * N / (H + L)) (2 * 1) _ (2 * (2049 * 1 + 2 * 1025 * 1 * 1) + 1024 * (2 * 1) + 1)); try lia; [posr|].
  apply (fapp_div2 H24 (1 * N) (H + L) 2 1 1 2049 1025); try lia; try exact W0; [posr| | |exact fapp_width|].
  - apply (rb_wok (0 + q + q)); [lia|rbs].
  - apply (fapp_weak (1 * N) (2 * 1) _ (0 * 1 + 2 * 0 + 1024 * (2 * 1) + 1)); try lia; [posr|].
    apply (fapp_mul H24 1 N 2 1 0 0); try lia; [posr|posr| |exact fapp_2|].
    + apply (rb_wok (0 + q)); [lia|rbs].
    + apply fapp_leafV; [exact Fn|]. rewrite Rabs_pos_eq; lra.
  - rewrite Rabs_pos_eq; lra.
Qed.
Lemma fapp_oc0 : fapp (1 / (H + L)) 2 6149 (ndiv (nadd n1 n1) (nsub hi (nneg lo))) (2 / (H - - L)).
Proof.
  pose proof (pow24 H24) as P24. pose proof (rb_pos _ _ Bw) as W0.
  apply (fapp_weak (1 / (H + L)) (2 * 1) _ (2 * (0 * 1 + 2 * 1025 * 1 * 1) + 1024 * (2 * 1) + 1)); try lia; [posr|].
  apply (fapp_div2 H24 1 (H + L) 2 1 1 0 1025); try lia; try exact W0; [lra| |exact fapp_2|exact fapp_width|].
  - apply (rb_wok (0 + q)); [lia|rbs].
  - rewrite Rabs_pos_eq; lra.
Qed.
Lemma fapp_ortho_side : - L <= X <= H ->
  fapp 1 1 14348 (nadd (nmul (ndiv (nadd n1 n1) (nsub hi (nneg lo))) x) (ndiv (nneg (nadd hi (nneg lo))) (nsub hi (nneg lo))))
    (ortho_side L H X).
Proof.
  intros Bx. pose proof (pow24 H24) as P24. pose proof (rb_pos _ _ Bw) as W0.
  apply (fapp_eq 1 _ _ _ _ (2 / (H - - L) * X + - (H + - L) / (H - - L)));
    [|reflexivity|unfold ortho_side; field; lra].
  apply (fapp_addC 1 2 1 1 8198 5125); try lia.
  - apply (rb_wok 0); [lia|apply rb_1].
  - apply (fapp_eq (1 / (H + L) * (H + L)) _ _ _ _ (2 / (H - - L) * X)); [|field; lra|reflexivity].
    apply (fapp_weak (1 / (H + L) * (H + L)) (2 * 1) _ (6149 * 1 + 2 * 0 + 1024 * (2 * 1) + 1)); try lia; [posr|].
    apply fapp_mul2; try lia; [posr|posr| |exact fapp_oc0|].
    + apply (rb_wok (0 + q + q)); [lia|rbs].
    + apply fapp_leafV; [exact Fx|]. apply Rabs_le. lra.
  - apply fapp_skew_quot, fapp_neg, fapp_skew.
  - replace (2 / (H - - L) * X + - (H + - L) / (H - - L)) with ((2 * X - (H - L)) * / (H + L)) by (field; lra).
    rewrite Rabs_mult, (Rabs_pos_eq (/ (H + L))) by (apply Rlt_le, Rinv_0_lt_compat; lra).
    apply (Rmult_le_reg_r (H + L)); [lra|]. rewrite Rmult_assoc, Rinv_l, Rmult_1_r by lra. apply Rabs_le. lra.
Qed.

Hypothesis Bx : - L * Z_ <= X * N <= H * Z_.
Lemma fapp_px : fapp Z_ 2 12296 (nmul (ndiv (nmul (nadd n1 n1) near) (nsub hi (nneg lo))) x) (2 * N / (H - - L) * X).
Proof.
  pose proof (pow24 H24) as P24. pose proof (rb_pos _ _ Bw) as W0. pose proof (rb_pos _ _ Bn) as N0. pose proof z_pos as Z0.
  apply (fapp_eq (1 * N / (H + L) * ((H + L) * Z_ / N)) _ _ _ _ (2 * N / (H - - L) * X)); [|field; lra|reflexivity].
  apply (fapp_weak (1 * N / (H + L) * ((H + L) * Z_ / N)) (2 * 1) _ (10247 * 1 + 2 * 0 + 1024 * (2 * 1) + 1)); try lia; [posr|].
  apply fapp_mul2; try lia; [posr|posr| |exact fapp_pc0|].
  - replace (1 * N / (H + L) * ((H + L) * Z_ / N)) with Z_ by (field; lra). apply (rb_wok q); [lia|apply rb_z].
  - apply fapp_leafV; [exact Fx|]. apply (Rmult_le_reg_r N); [exact N0|].
    replace ((H + L) * Z_ / N * N) with ((H + L) * Z_) by (field; lra).
    rewrite <- (Rabs_pos_eq N) at 1 by lra. rewrite <- Rabs_mult.
    assert (LZ : 0 <= L * Z_) by (apply Rmult_le_pos; lra). assert (HZ : 0 <= H * Z_) by (apply Rmult_le_pos; lra).
    apply Rabs_le. lra.
Qed.
Lemma persp_side_bound : Rabs (2 * N / (H - - L) * X + (H + - L) / (H - - L) * B2R z) <= 1 * Z_.
Proof.
  pose proof (rb_pos _ _ Bw) as W0. pose proof z_pos as Z0.
  replace (2 * N / (H - - L) * X + (H + - L) / (H - - L) * B2R z) with ((2 * (X * N) - (H - L) * Z_) * / (H + L)) by (field; lra).
  rewrite Rabs_mult, (Rabs_pos_eq (/ (H + L))) by (apply Rlt_le, Rinv_0_lt_compat; lra).
  apply (Rmult_le_reg_r (H + L)); [lra|]. rewrite Rmult_assoc, Rinv_l, Rmult_1_r by lra. apply Rabs_le. lra.
Qed.
Lemma fapp_persp_side :
  fapp 1 1 21521 (nmul (nadd (nmul (ndiv (nmul (nadd n1 n1) near) (nsub hi (nneg lo))) x)
      (nmul (ndiv (nadd hi (nneg lo)) (nsub hi (nneg lo))) z)) (ndiv (nneg n1) z))
    (persp_side N L H Z_ X).
Proof.
  pose proof (pow24 H24) as P24. pose proof (rb_pos _ _ Bw) as W0. pose proof z_pos as Z0.
  apply (fapp_eq 1 _ _ _ _ ((2 * N / (H - - L) * X + (H + - L) / (H - - L) * B2R z) * (- (1) / B2R z)));
    [|reflexivity|unfold persp_side; field; lra].
  apply (fapp_persp 19471); [lia|].
  apply (fapp_addC Z_ 2 1 1 12296 6150); try lia; [|exact fapp_px| |exact persp_side_bound].
  - apply (rb_wok q); [lia|apply rb_z].
  - apply (fapp_eq (1 * Z_) _ _ _ _ ((H + - L) / (H - - L) * B2R z)); [|ring|reflexivity].
    apply (fapp_weak (1 * Z_) (1 * 1) _ (5125 * 1 + 1 * 0 + 1024 * (1 * 1) + 1)); try lia; [posr|].
    apply fapp_mul2; try lia; [posr|posr| |apply fapp_skew_quot, fapp_skew|exact fapp_z].
    apply (rb_wok (0 + q)); [lia|]. apply rb_mul; [apply rb_1|apply rb_z].
Qed.
Lemma fapp_persp_side0 : L = H ->
  fapp 1 1 15372 (nmul (nadd (nmul (ndiv (nmul (nadd n1 n1) near) (nsub hi (nneg lo))) x) (nmul n0 z)) (ndiv (nneg n1) z))
    (persp_side N L H Z_ X).
Proof.
  intros LH. pose proof (pow24 H24) as P24. pose proof (rb_pos _ _ Bw) as W0. pose proof z_pos as Z0.
  apply (fapp_eq 1 _ _ _ _ ((2 * N / (H - - L) * X + 0 * B2R z) * (- (1) / B2R z)));
    [|reflexivity|unfold persp_side; rewrite LH; field; lra].
  apply (fapp_persp 13322); [lia|].
  apply (fapp_addC Z_ 2 0 1 12296 1); try lia; [|exact fapp_px| |].
  - apply (rb_wok q); [lia|apply rb_z].
  - apply (fapp_eq (1 * Z_) _ _ _ _ (0 * B2R z)); [|ring|reflexivity].
    apply (fapp_weak (1 * Z_) (0 * 1) _ (0 * 1 + 0 * 0 + 1024 * (0 * 1) + 1)); try lia; [posr|].
    apply fapp_mul2; try lia; [posr|posr| |apply fapp_0|exact fapp_z].
    apply (rb_wok (0 + q)); [lia|]. apply rb_mul; [apply rb_1|apply rb_z].
  - pose proof persp_side_bound as T. rewrite LH in *. replace ((H + - H) / (H - - H)) with 0 in T by (field; lra). exact T.
Qed.
End Depth.
End S.
