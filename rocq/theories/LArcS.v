(** Spherical interpolation between unit quaternions has finite components. *)

From Coq Require Import Arith ZArith Bool Lia Reals Lra.
From Flocq Require Import Core.Core IEEE754.BinarySingleNaN.
From Verif Require Import Base Scalar Spec SpecF SpecDrift LBase MVector LVector MFloat MFloatVec MSign LFloat LFloatVec LComplexHP LComplexLP LLibmP SpecLibm
  MQuat MComplexF MRotF MArcF SpecArc LArc LArcN LArcP LArcQ.
Local Open Scope R_scope.

Section ArcS.
Context {prec emax : Z} {Hp : Prec_gt_0 prec} {He : Prec_lt_emax prec emax}.
Notation fl := (binary_float prec emax).
Notation fexp := (FLT_exp (3 - emax - prec) prec).
Notation rnd := (round radix2 fexp ZnearestE).
Notation u := (bpow radix2 (- prec)).
Hypothesis H1 : (24 <= prec)%Z.
Hypothesis H2 : (2 * prec <= emax)%Z.
Let h1 : (1 < prec)%Z. Proof. lia. Qed.

Lemma rnd_err r k : (3 - emax <= k)%Z -> Rabs r <= bpow radix2 k -> Rabs (rnd r - r) <= bpow radix2 k * u.
Proof.
  pose proof Hp as P0. unfold Prec_gt_0 in P0. intros K [B|B].
  - apply Rle_trans with (/ 2 * ulp radix2 fexp r); [apply error_le_half_ulp; auto with typeclass_instances|].
    rewrite <- bpow_plus.
    apply Rle_trans with (ulp radix2 fexp r); [pose proof (ulp_ge_0 radix2 fexp r); lra|].
    destruct (Req_dec r 0) as [Z|Z].
    + subst r. apply Rle_trans with (bpow radix2 (3 - emax - prec)); [|apply bpow_le; lia]. right; apply (ulp_FLT_small radix2 (3 - emax - prec) prec). rewrite Rabs_R0. apply bpow_gt_0.
    + rewrite ulp_neq_0 by exact Z. apply bpow_le. unfold cexp, FLT_exp.
      assert (M : (mag radix2 r <= k)%Z) by (apply mag_le_bpow; assumption). lia.
  - assert (G : generic_format radix2 fexp r).
    { apply generic_format_abs_inv. rewrite B. apply generic_format_bpow. unfold FLT_exp. lia. }
    rewrite round_generic by auto with typeclass_instances. replace (r - r) with 0 by ring. rewrite Rabs_R0.
    apply Rmult_le_pos; apply bpow_ge_0.
Qed.

(** A float of magnitude at most 2^k within [e] roundings of the number [r]. *)
Definition fbe k (x : fl) (r e : R) : Prop := fb k x /\ Rabs (B2R x - r) <= e * u.
Lemma fbe_leaf k (x : fl) : fb k x -> fbe k x (B2R x) 0.
Proof. intros F. split; [exact F|]. replace (B2R x - B2R x) with 0 by ring. rewrite Rabs_R0. lra. Qed.
Lemma fbe_add k (x y : fl) r s e f : fbe k x r e -> fbe k y s f -> (3 - emax <= k < emax - 1)%Z ->
  fbe (k + 1) (x + y)%N_ (r + s) (e + f + bpow radix2 (k + 1)).
Proof.
  pose proof Hp as P0. unfold Prec_gt_0 in P0.
  intros (Fx & Ex) (Fy & Ey) K. destruct (fb_add k x y Fx Fy ltac:(lia)) as (A & E). split; [exact A|]. rewrite E.
  assert (B : Rabs (B2R x + B2R y) <= bpow radix2 (k + 1)).
  { apply Rle_trans with (1 := Rabs_triang _ _). rewrite bpow_plus. change (bpow radix2 1) with 2. destruct Fx, Fy. lra. }
  pose proof (rnd_err (B2R x + B2R y) (k + 1) ltac:(lia) B) as X.
  replace (rnd (B2R x + B2R y) - (r + s)) with ((rnd (B2R x + B2R y) - (B2R x + B2R y)) + ((B2R x - r) + (B2R y - s))) by ring.
  apply Rle_trans with (1 := Rabs_triang _ _). pose proof (Rabs_triang (B2R x - r) (B2R y - s)). lra.
Qed.
Lemma fbe_weak k k' (x : fl) r e : fbe k x r e -> (k <= k')%Z -> fbe k' x r e.
Proof. intros (F & E) K. split; [exact (fb_weak k k' x F K)|exact E]. Qed.
Lemma fbe_mul j k (x y : fl) r e : fb j x -> fbe k y r e -> 0 <= e -> (3 - emax <= j + k < emax)%Z ->
  fbe (j + k) (x * y)%N_ (B2R x * r) (bpow radix2 j * e + bpow radix2 (j + k)).
Proof.
  pose proof Hp as P0. unfold Prec_gt_0 in P0.
  intros Fx (Fy & Ey) e0 K. destruct (fb_mul j k x y Fx Fy ltac:(lia)) as (A & E). split; [exact A|]. rewrite E.
  assert (B : Rabs (B2R x * B2R y) <= bpow radix2 (j + k)).
  { rewrite Rabs_mult, bpow_plus. destruct Fx, Fy. apply Rmult_le_compat; auto using Rabs_pos. }
  pose proof (rnd_err (B2R x * B2R y) (j + k) ltac:(lia) B) as X.
  replace (rnd (B2R x * B2R y) - B2R x * r) with ((rnd (B2R x * B2R y) - B2R x * B2R y) + B2R x * (B2R y - r)) by ring.
  apply Rle_trans with (1 := Rabs_triang _ _). rewrite (Rabs_mult (B2R x)). destruct Fx as (_ & Bx).
  assert (Rabs (B2R x) * Rabs (B2R y - r) <= bpow radix2 j * (e * u)) by (apply Rmult_le_compat; auto using Rabs_pos). lra.
Qed.

Notation val q := (B2R (vat (q : vec fl 4) 0), B2R (vat (q : vec fl 4) 1), B2R (vat (q : vec fl 4) 2), B2R (vat (q : vec fl 4) 3)).

Lemma bp1 : bpow radix2 1 = 2. Proof. reflexivity. Qed.
Lemma u_small : u <= / 16777216.
Proof. change (/ 16777216) with (bpow radix2 (-24)). apply bpow_le. lia. Qed.

Lemma dot_err (p q : quat fl) : (forall i, (i < 4)%nat -> fb 1 (vat (p : vec fl 4) i)) -> (forall i, (i < 4)%nat -> fb 1 (vat (q : vec fl 4) i)) ->
  fbe 6 (qdot p q) (B2R (vat (p : vec fl 4) 0) * B2R (vat (q : vec fl 4) 0) + B2R (vat (p : vec fl 4) 1) * B2R (vat (q : vec fl 4) 1)
    + B2R (vat (p : vec fl 4) 2) * B2R (vat (q : vec fl 4) 2) + B2R (vat (p : vec fl 4) 3) * B2R (vat (q : vec fl 4) 3)) 136.
Proof.
  intros A B. pose proof Hp as P0. unfold Prec_gt_0 in P0.
  change (qdot p q) with (n0 + vat (p : vec fl 4) 0 * vat (q : vec fl 4) 0 + vat (p : vec fl 4) 1 * vat (q : vec fl 4) 1
    + vat (p : vec fl 4) 2 * vat (q : vec fl 4) 2 + vat (p : vec fl 4) 3 * vat (q : vec fl 4) 3)%N_.
  assert (M : forall i, (i < 4)%nat -> fbe 2 (vat (p : vec fl 4) i * vat (q : vec fl 4) i)%N_ (B2R (vat (p : vec fl 4) i) * B2R (vat (q : vec fl 4) i)) 4).
  { intros i Hi. pose proof (fbe_mul 1 1 _ _ _ 0 (A i Hi) (fbe_leaf 1 _ (B i Hi)) ltac:(lra) ltac:(lia)) as X.
    destruct X as (X1 & X2). split; [exact X1|]. change (bpow radix2 (1 + 1)) with 4 in X2. lra. }
  pose proof (fbe_leaf 2 _ (fb_0 2)) as Z. cbn [n0 num_float B2R] in Z. change (@B754_zero prec emax false) with (n0 : fl) in Z.
  pose proof (fbe_add 2 _ _ _ _ _ _ Z (M 0%nat ltac:(lia)) ltac:(lia)) as A0.
  pose proof (fbe_add 3 _ _ _ _ _ _ A0 (fbe_weak 2 3 _ _ _ (M 1%nat ltac:(lia)) ltac:(lia)) ltac:(lia)) as A1.
  pose proof (fbe_add 4 _ _ _ _ _ _ A1 (fbe_weak 2 4 _ _ _ (M 2%nat ltac:(lia)) ltac:(lia)) ltac:(lia)) as A2.
  pose proof (fbe_add 5 _ _ _ _ _ _ A2 (fbe_weak 2 5 _ _ _ (M 3%nat ltac:(lia)) ltac:(lia)) ltac:(lia)) as (F & E).
  split; [exact F|]. rewrite Rplus_0_l in E. apply Rle_trans with (1 := E). right. f_equal.
  change (bpow radix2 (2 + 1)) with 8. change (bpow radix2 (2 + 1 + 1)) with 16. change (bpow radix2 (3 + 1)) with 16.
  change (bpow radix2 (4 + 1)) with 32. change (bpow radix2 (5 + 1)) with 64. lra.
Qed.

Variable L : libm fl.
Variables arccos arcsin : fl -> fl.
Hypothesis LS : libm_special L.
Hypothesis LA : libm_arc L arccos arcsin.

Lemma near_unit_fb (q : quat fl) : all_finite (q : vec fl 4) -> qlength (val q) <= 2 -> forall i, (i < 4)%nat -> fb 1 (vat (q : vec fl 4) i).
Proof.
  intros A. unfold qlength. set (a := B2R (vat (q : vec fl 4) 0)). set (b := B2R (vat (q : vec fl 4) 1)). set (c := B2R (vat (q : vec fl 4) 2)). set (d := B2R (vat (q : vec fl 4) 3)).
  intros Q. assert (S : a * a + b * b + c * c + d * d <= 2 * 2).
  { apply sqrt_le_0; [nra|lra|]. rewrite sqrt_square by lra. exact Q. }
  assert (G : forall x, x * x <= 4 -> Rabs x <= bpow radix2 1) by (intros x Hx; rewrite bp1; apply Rabs_le; nra).
  intros i Hi. split; [exact (A i Hi)|].
  destruct i as [|[|[|[|i]]]]; [apply (G a)|apply (G b)|apply (G c)|apply (G d)|lia]; nra.
Qed.

Lemma nlerp_fin (r q : quat fl) (a : fl) : all_finite (r : vec fl 4) -> all_finite (q : vec fl 4) -> is_finite a = true -> 0 <= B2R a <= 1 ->
  / 2 <= qlength (val r) <= 2 -> / 2 <= qlength (val q) <= 2 ->
  - / 1024 <= B2R (vat (r : vec fl 4) 0) * B2R (vat (q : vec fl 4) 0) + B2R (vat (r : vec fl 4) 1) * B2R (vat (q : vec fl 4) 1)
    + B2R (vat (r : vec fl 4) 2) * B2R (vat (q : vec fl 4) 2) + B2R (vat (r : vec fl 4) 3) * B2R (vat (q : vec fl 4) 3) ->
  all_finite (fqnlerp r q a : vec fl 4).
Proof.
  intros Ar Aq Fa Ba Lr Lq D. pose proof Hp as P0. unfold Prec_gt_0 in P0. pose proof u_small as US. pose proof (bpow_gt_0 radix2 (- prec)) as U0.
  pose proof (near_unit_fb r Ar (proj2 Lr)) as Br. pose proof (near_unit_fb q Aq (proj2 Lq)) as Bq.
  destruct (@one_facts prec emax _ _) as (Fo & Vo & _).
  assert (Wa : fb 0 a) by (split; [exact Fa|rewrite Rabs_pos_eq; cbn; lra]).
  assert (W1 : fbe 0 (1 - a)%N_ (1 - B2R a) 1).
  { destruct (fb_sub 0 (1%N_ : fl) a (fb_1 0 ltac:(lia)) Wa ltac:(lia)) as ((F & _) & E). rewrite Vo in E.
    assert (B : Rabs (1 - B2R a) <= bpow radix2 0) by (rewrite Rabs_pos_eq; cbn; lra).
    split; [split; [exact F|]|].
    - rewrite E. apply rnd_le_bpow; [lia|exact B].
    - rewrite E. pose proof (rnd_err (1 - B2R a) 0 ltac:(lia) B) as X. change (bpow radix2 0) with 1 in X. exact X. }
  set (w := (qadd (qscale r (1 - a)%N_) (qscale q a)) : vec fl 4).
  assert (C : forall i, (i < 4)%nat -> fbe 2 (vat w i) (B2R (vat (r : vec fl 4) i) * (1 - B2R a) + B2R (vat (q : vec fl 4) i) * B2R a) 10).
  { intros i Hi. replace (vat w i) with (vat (r : vec fl 4) i * (1 - a) + vat (q : vec fl 4) i * a)%N_.
    - pose proof (fbe_mul 1 0 _ _ _ _ (Br i Hi) W1 ltac:(lra) ltac:(lia)) as X.
      pose proof (fbe_mul 1 0 _ _ _ _ (Bq i Hi) (fbe_leaf 0 a Wa) ltac:(lra) ltac:(lia)) as Y.
      pose proof (fbe_add 1 _ _ _ _ _ _ X Y ltac:(lia)) as (F & E). split; [exact F|]. apply Rle_trans with (1 := E). right. f_equal.
      change (bpow radix2 (1 + 0)) with 2. change (bpow radix2 (1 + 1)) with 4. rewrite bp1. lra.
    - destruct i as [|[|[|[|i]]]]; [reflexivity..|lia]. }
  assert (Aw : all_finite w) by (intros i Hi; exact (fb_fin _ _ (proj1 (C i Hi)))).
  change (all_finite (fvnormalize w)).
  assert (Big : exists i, (i < 4)%nat /\ / 8 <= Rabs (B2R (vat w i))).
  { revert Lr Lq D. unfold qlength. pose proof (proj2 (C 0%nat ltac:(lia))) as C0. pose proof (proj2 (C 1%nat ltac:(lia))) as C1.
    pose proof (proj2 (C 2%nat ltac:(lia))) as C2. pose proof (proj2 (C 3%nat ltac:(lia))) as C3. revert C0 C1 C2 C3.
    set (r0 := B2R (vat (r : vec fl 4) 0)). set (r1 := B2R (vat (r : vec fl 4) 1)). set (r2 := B2R (vat (r : vec fl 4) 2)). set (r3 := B2R (vat (r : vec fl 4) 3)).
    set (q0 := B2R (vat (q : vec fl 4) 0)). set (q1 := B2R (vat (q : vec fl 4) 1)). set (q2 := B2R (vat (q : vec fl 4) 2)). set (q3 := B2R (vat (q : vec fl 4) 3)).
    set (t := B2R a) in *. intros C0 C1 C2 C3 (Lr & _) (Lq & _) D.
    assert (Sr : / 4 <= r0 * r0 + r1 * r1 + r2 * r2 + r3 * r3).
    { rewrite <- (sqrt_square (/ 2)) in Lr by lra. apply sqrt_le_0 in Lr; nra. }
    assert (Sq : / 4 <= q0 * q0 + q1 * q1 + q2 * q2 + q3 * q3).
    { rewrite <- (sqrt_square (/ 2)) in Lq by lra. apply sqrt_le_0 in Lq; nra. }
    set (x0 := r0 * (1 - t) + q0 * t) in *. set (x1 := r1 * (1 - t) + q1 * t) in *.
    set (x2 := r2 * (1 - t) + q2 * t) in *. set (x3 := r3 * (1 - t) + q3 * t) in *.
    assert (N : / 9 <= x0 * x0 + x1 * x1 + x2 * x2 + x3 * x3).
    { assert (E : x0 * x0 + x1 * x1 + x2 * x2 + x3 * x3 = (1 - t) * (1 - t) * (r0 * r0 + r1 * r1 + r2 * r2 + r3 * r3) + t * t * (q0 * q0 + q1 * q1 + q2 * q2 + q3 * q3) + 2 * (t * (1 - t)) * (r0 * q0 + r1 * q1 + r2 * q2 + r3 * q3)) by (unfold x0, x1, x2, x3; ring).
      rewrite E. clear E.
      set (sr := r0 * r0 + r1 * r1 + r2 * r2 + r3 * r3) in *. set (sq := q0 * q0 + q1 * q1 + q2 * q2 + q3 * q3) in *. set (dd := r0 * q0 + r1 * q1 + r2 * q2 + r3 * q3) in *.
      assert (X1 : (1 - t) * (1 - t) * / 4 <= (1 - t) * (1 - t) * sr) by (apply Rmult_le_compat_l; nra).
      assert (X2 : t * t * / 4 <= t * t * sq) by (apply Rmult_le_compat_l; nra).
      assert (T : 0 <= t * (1 - t) <= / 4) by (clear - Ba; pose proof (Rle_0_sqr (1 - 2 * t)) as Sq0; unfold Rsqr in Sq0; split; [apply Rmult_le_pos; lra|lra]).
      assert (X3 : - / 1024 * (2 * (t * (1 - t))) <= 2 * (t * (1 - t)) * dd) by (rewrite (Rmult_comm _ dd); apply Rmult_le_compat_r; lra).
      replace ((1 - t) * (1 - t)) with (1 - 2 * t + t * t) in * by ring. nra. }
    assert (G : forall x i, Rabs (B2R (vat w i) - x) <= 10 * u -> Rabs (B2R (vat w i)) < / 8 -> x * x < / 36).
    { intros x i X Y. apply Rabs_le_inv in X. apply Rabs_lt_inv in Y. assert (- / 6 < x < / 6) by lra. nra. }
    destruct (Rle_lt_dec (/ 8) (Rabs (B2R (vat w 0)))) as [D0|D0]; [exists 0%nat; auto with arith|].
    destruct (Rle_lt_dec (/ 8) (Rabs (B2R (vat w 1)))) as [D1|D1]; [exists 1%nat; auto with arith|].
    destruct (Rle_lt_dec (/ 8) (Rabs (B2R (vat w 2)))) as [D2|D2]; [exists 2%nat; auto with arith|].
    destruct (Rle_lt_dec (/ 8) (Rabs (B2R (vat w 3)))) as [D3|D3]; [exists 3%nat; auto with arith|].
    pose proof (G x0 0%nat C0 D0). pose proof (G x1 1%nat C1 D1). pose proof (G x2 2%nat C2 D2). pose proof (G x3 3%nat C3 D3). exfalso. lra. }
  destruct Big as (i0 & Hi0 & Bi0).
  assert (Nv : forall i, (i < 4)%nat -> is_nan (vat w i) = false) by (intros i Hi; exact (fin_nn_nan _ (Aw i Hi))).
  pose proof (nn_norm2 4 w Aw) as N. pose proof (sq_le_sum 4 (vat w) i0 Hi0 Nv) as Q. rewrite <- vnorm2_sum in Q.
  intros i Hi. apply (fb_fin 1). apply (normalize_fb h1 H2 4 w Aw); [|exact Hi].
  destruct Q as [Q|(F1 & F2 & Q)]; [left; exact Q|right]. split; [exact F2|].
  rewrite fmul_R in Q by exact F1.
  assert (bpow radix2 (- 6) <= rnd (B2R (vat w i0) * B2R (vat w i0))).
  { apply rnd_ge_bpow; [lia|]. change (bpow radix2 (- 6)) with (/ 64).
    replace (B2R (vat w i0) * B2R (vat w i0)) with (Rabs (B2R (vat w i0)) * Rabs (B2R (vat w i0))) by (rewrite <- Rabs_mult; apply Rabs_pos_eq; nra). nra. }
  pose proof (bpow_gt_0 radix2 (- 6)). lra.
Qed.

(** If the cosine is below 1 in magnitude, its square rounds below 1. *)
Lemma sin_pos (c : fl) : is_finite c = true -> Rabs (B2R c) < 1 ->
  is_finite (fsqrt (1 - c * c)%N_) = true /\ bpow radix2 (- prec) <= Rabs (B2R (fsqrt (1 - c * c)%N_)).
Proof.
  intros F B. pose proof Hp as P0. unfold Prec_gt_0 in P0. pose proof u_small as US. pose proof (bpow_gt_0 radix2 (- prec)) as U0.
  destruct (@one_facts prec emax _ _) as (Fo & Vo & _).
  assert (F0 : fb 0 c) by (split; [exact F|cbn; lra]).
  assert (G1 : generic_format radix2 fexp (1 - u)).
  { replace (1 - u) with (F2R (Float radix2 (2 ^ prec - 1) (- prec))).
    - apply generic_format_FLT. exists (Float radix2 (2 ^ prec - 1) (- prec)); [reflexivity| |cbn [Fexp]; lia].
      cbn [Fnum]. change (radix_val radix2) with 2%Z. pose proof (Z.pow_pos_nonneg 2 prec ltac:(lia) ltac:(lia)). rewrite Z.abs_eq; lia.
    - unfold F2R. cbn [Fnum Fexp]. rewrite minus_IZR. change 2%Z with (radix_val radix2). rewrite IZR_Zpower by lia.
      rewrite Rmult_minus_distr_r, <- bpow_plus. replace (prec + - prec)%Z with 0%Z by lia. cbn. lra. }
  assert (C1 : Rabs (B2R c) <= 1 - u).
  { assert (P : pred radix2 fexp 1 = 1 - u).
    { change 1 with (bpow radix2 0). rewrite pred_bpow by auto with typeclass_instances. f_equal. unfold FLT_exp. f_equal. lia. }
    rewrite <- P. apply pred_ge_gt; auto with typeclass_instances.
    - apply generic_format_abs, generic_format_B2R.
    - change 1 with (bpow radix2 0). apply generic_format_bpow. unfold FLT_exp. lia. }
  destruct (fb_mul 0 0 c c F0 F0 ltac:(lia)) as (Fm & Em).
  assert (M : 0 <= B2R (c * c)%N_ <= 1 - u).
  { rewrite Em. split; [apply round_ge_generic; auto with typeclass_instances; [apply generic_format_0|nra]|].
    apply round_le_generic; auto with typeclass_instances.
    replace (B2R c * B2R c) with (Rabs (B2R c) * Rabs (B2R c)) by (rewrite <- Rabs_mult; apply Rabs_pos_eq; nra).
    pose proof (Rabs_pos (B2R c)). nra. }
  destruct (fb_sub 0 (1%N_ : fl) (c * c)%N_ (fb_1 0 ltac:(lia)) Fm ltac:(lia)) as ((Fs & _) & Es). rewrite Vo in Es.
  assert (S : u <= B2R (1 - c * c)%N_) by (rewrite Es; apply rnd_ge_bpow; [lia|lra]).
  assert (S1 : B2R (1 - c * c)%N_ <= 1).
  { rewrite Es. apply round_le_generic; auto with typeclass_instances; [change 1 with (bpow radix2 0); apply generic_format_bpow; unfold FLT_exp; lia|lra]. }
  assert (N : nn (1 - c * c)%N_).
  { split; [apply pos_sg; [exact Fs|lra]|apply fin_nn_nan, Fs]. }
  destruct (sqrt_R _ N Fs) as (Fq & Eq). split; [exact Fq|]. rewrite Eq. apply Rle_trans with (2 := Rle_abs _).
  apply rnd_ge_bpow; [lia|]. apply Rle_trans with (1 := S).
  set (s := B2R (1 - c * c)%N_) in *. rewrite <- (sqrt_square s) at 1 by lra. apply sqrt_le_1_alt. nra.
Qed.

Lemma c126_slerp (p q : quat fl) (a t : fl) : all_finite (p : vec fl 4) -> all_finite (q : vec fl 4) -> is_finite a = true -> 0 <= B2R a <= 1 ->
  / 2 <= qlength (val p) <= 2 -> / 2 <= qlength (val q) <= 2 ->
  all_finite (fqslerp_eps L arccos p q a t : vec fl 4).
Proof.
  intros Ap Aq Fa Ba Lp Lq. pose proof Hp as P0. unfold Prec_gt_0 in P0. pose proof u_small as US. pose proof (bpow_gt_0 radix2 (- prec)) as U0.
  destruct (@one_facts prec emax _ _) as (Fo & Vo & _).
  pose proof (near_unit_fb p Ap (proj2 Lp)) as Bp. pose proof (near_unit_fb q Aq (proj2 Lq)) as Bq.
  unfold fqslerp_eps. cbv zeta.
  assert (R : exists r, (if Bltb (qdot p q) n0 then qneg p else p) = r /\ all_finite (r : vec fl 4) /\ (/ 2 <= qlength (val r) <= 2) /\
    - / 1024 <= B2R (vat (r : vec fl 4) 0) * B2R (vat (q : vec fl 4) 0) + B2R (vat (r : vec fl 4) 1) * B2R (vat (q : vec fl 4) 1)
    + B2R (vat (r : vec fl 4) 2) * B2R (vat (q : vec fl 4) 2) + B2R (vat (r : vec fl 4) 3) * B2R (vat (q : vec fl 4) 3)).
  { destruct (dot_err p q Bp Bq) as ((Fd & _) & Ed).
    assert (Z0 : is_finite (n0 : fl) = true) by reflexivity. rewrite (Bltb_correct _ _ _ _ Fd Z0). change (B2R (n0 : fl)) with 0. apply Rabs_le_inv in Ed.
    case Rlt_bool_spec; intros S.
    - exists (qneg p). split; [reflexivity|].
      assert (V : forall i, (i < 4)%nat -> vat (qneg p : vec fl 4) i = (- vat (p : vec fl 4) i)%N_) by (intros [|[|[|[|i]]]] Hi; [reflexivity..|lia]).
      assert (V' : forall i, (i < 4)%nat -> B2R (vat (qneg p : vec fl 4) i) = - B2R (vat (p : vec fl 4) i)) by (intros i Hi; rewrite V by exact Hi; apply B2R_Bopp).
      split; [|rewrite !V' by lia; split].
      + intros i Hi. change (is_finite (vat (qneg p : vec fl 4) i) = true). rewrite V by exact Hi. cbn [nneg num_float]. rewrite is_finite_Bopp. exact (Ap i Hi).
      + unfold qlength in *. rewrite !Rmult_opp_opp. exact Lp.
      + lra.
    - exists p. split; [reflexivity|]. split; [exact Ap|]. split; [exact Lp|]. lra. }
  destruct R as (r & -> & Ar & Lr & D). clear Ap Lp Bp. pose proof (near_unit_fb r Ar (proj2 Lr)) as Br.
  destruct (dot_err r q Br Bq) as ((Fd & _) & _). set (c := qdot r q) in *.
  destruct (Bleb n1 (fabs c)) eqn:C; [exact Ar|].
  assert (Fc : is_finite (fabs c) = true) by (rewrite (proj2 (fabs_R c)); exact Fd).
  rewrite Bleb_correct in C by (assumption || exact Fo). revert C. case Rle_bool_spec; [discriminate|intros C _].
  change (B2R (n1 : fl)) with (B2R (1%N_ : fl)) in C. rewrite Vo in C. rewrite (proj1 (fabs_R c)) in C.
  destruct (sin_pos c Fd C) as (Fs & Ls). set (s := fsqrt (1 - c * c)%N_) in *.
  destruct (Bltb _ t); [apply nlerp_fin; auto|].
  destruct (arc_acos _ _ _ LA c Fd ltac:(lra)) as (Fh & Bh). set (h := arccos c) in *.
  assert (Wa : fb 0 a) by (split; [exact Fa|rewrite Rabs_pos_eq; cbn; lra]).
  assert (Wh : fb 2 h) by (split; [exact Fh|rewrite Rabs_pos_eq by lra; change (bpow radix2 2) with 4; lra]).
  pose proof (proj1 (fb_sub 0 (1%N_ : fl) a (fb_1 0 ltac:(lia)) Wa ltac:(lia))) as W1.
  pose proof (proj1 (fb_mul (0 + 1) 2 _ h W1 Wh ltac:(lia))) as X1.
  pose proof (proj1 (fb_mul 0 2 _ h Wa Wh ltac:(lia))) as X2.
  assert (S1 : fb 0 (m_sin L ((1 - a) * h)%N_)) by (exact (sp_sin L LS _ (fb_fin _ _ X1))).
  assert (S2 : fb 0 (m_sin L (a * h)%N_)) by (exact (sp_sin L LS _ (fb_fin _ _ X2))).
  pose proof (proj1 (fb_div 0 (- prec) _ s S1 Ls ltac:(lia))) as Q1.
  pose proof (proj1 (fb_div 0 (- prec) _ s S2 Ls ltac:(lia))) as Q2.
  set (A := (m_sin L ((1 - a) * h) / s)%N_) in *. set (B := (m_sin L (a * h) / s)%N_) in *.
  assert (G : forall i, (i < 4)%nat -> is_finite (vat (r : vec fl 4) i * A + vat (q : vec fl 4) i * B)%N_ = true).
  { intros i Hi. refine (fb_fin _ _ (proj1 (fb_add (1 + (0 - - prec)) _ _ _ _ _))).
    - apply (fb_mul 1 (0 - - prec)); auto; lia.
    - apply (fb_mul 1 (0 - - prec)); auto; lia.
    - lia. }
  intros [|[|[|[|i]]]] Hi; [apply (G 0%nat)|apply (G 1%nat)|apply (G 2%nat)|apply (G 3%nat)|]; lia.
Qed.
End ArcS.
