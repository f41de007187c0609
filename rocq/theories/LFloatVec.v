(** Rounding errors of norms and of normalisation. *)

From Coq Require Import List Arith ZArith Bool Lia Reals Lra.
From Flocq Require Import Core.Core Relative IEEE754.BinarySingleNaN.
From Verif Require Import Base Scalar Spec LBase MVector LVector LVectorR MFloat LFloat LFloatP MFloatVec.
Import ListNotations.

Section Float.
Context {prec emax : Z} {Hprec : Prec_gt_0 prec} {Hemax : Prec_lt_emax prec emax}.
Notation fl := (binary_float prec emax).
Notation rnd := (round radix2 (FLT_exp (3 - emax - prec) prec) ZnearestE).

Lemma round_lt_max z : (Rabs z <= bpow radix2 (emax - 1))%R -> (Rabs (rnd z) < bpow radix2 emax)%R.
Proof.
  intros H. apply Rle_lt_trans with (bpow radix2 (emax - 1)); [|apply bpow_lt; lia].
  pose proof Hprec as P1. pose proof Hemax as P2. unfold Prec_gt_0, Prec_lt_emax in *.
  apply abs_round_le_generic; [apply FLT_exp_valid; exact Hprec|apply valid_rnd_N| |exact H].
  apply generic_format_bpow. unfold FLT_exp. lia.
Qed.

Lemma fadd_fin (x y : fl) :
  is_finite x = true -> is_finite y = true ->
  (Rabs (B2R x + B2R y) <= bpow radix2 (emax - 1))%R -> is_finite (nadd x y) = true.
Proof.
  intros Fx Fy H. cbn [nadd num_float].
  pose proof (Bplus_correct prec emax _ _ mode_NE x y Fx Fy) as C.
  rewrite Rlt_bool_true in C by (apply (round_lt_max _ H)). apply C.
Qed.

Lemma fmul_fin (x y : fl) :
  is_finite x = true -> is_finite y = true ->
  (Rabs (B2R x * B2R y) <= bpow radix2 (emax - 1))%R -> is_finite (nmul x y) = true.
Proof.
  intros Fx Fy H. cbn [nmul num_float].
  pose proof (Bmult_correct prec emax _ _ mode_NE x y) as C.
  rewrite Rlt_bool_true in C by (apply (round_lt_max _ H)). destruct C as (_ & C & _).
  rewrite Fx, Fy in C. exact C.
Qed.

Lemma round_err z :
  exists d e, (Rabs d <= @funit prec)%R /\ (Rabs e <= @ftiny prec emax)%R /\ rnd z = (z * (1 + d) + e)%R.
Proof.
  destruct (error_N_FLT radix2 (3 - emax - prec) prec Hprec (fun t => negb (Z.even t)) z)
    as (d & e & Hd & He & _ & E).
  exists d, e. auto.
Qed.

Lemma fdiv_fin (x y : fl) :
  is_finite x = true -> B2R y <> 0%R ->
  (Rabs (B2R x / B2R y) <= bpow radix2 (emax - 1))%R ->
  is_finite (ndiv x y) = true /\
  exists d e, (Rabs d <= @funit prec)%R /\ (Rabs e <= @ftiny prec emax)%R /\
    B2R (ndiv x y) = (B2R x / B2R y * (1 + d) + e)%R.
Proof.
  intros Fx Y H. cbn [ndiv numdiv_float].
  pose proof (Bdiv_correct prec emax _ _ mode_NE x y Y) as C.
  rewrite Rlt_bool_true in C by (apply (round_lt_max _ H)). destruct C as (E & C & _).
  split; [congruence|]. destruct (round_err (B2R x / B2R y)) as (d & e & Hd & He & G).
  exists d, e. conjs; auto. rewrite E. exact G.
Qed.

Lemma fsqrt_err (x : fl) :
  exists d e, (Rabs d <= @funit prec)%R /\ (Rabs e <= @ftiny prec emax)%R /\
    B2R (fsqrt x) = (sqrt (B2R x) * (1 + d) + e)%R.
Proof.
  destruct (Bsqrt_correct prec emax _ _ mode_NE x) as (E & _).
  destruct (round_err (sqrt (B2R x))) as (d & e & Hd & He & G).
  exists d, e. conjs; auto. unfold fsqrt. rewrite E. exact G.
Qed.

Lemma fsqrt_finite (x : fl) : is_finite (fsqrt x) = true -> is_finite x = true.
Proof.
  unfold fsqrt. destruct (Bsqrt_correct prec emax _ _ mode_NE x) as (_ & E & _). rewrite E.
  destruct x as [s|[|]| |[|] m e H]; cbn; congruence.
Qed.

(** A dot product whose exact terms are small enough does not overflow. *)
Lemma dot_fin n (x y : nat -> fl) :
  (forall i, (i < n)%nat -> is_finite (x i) = true) -> (forall i, (i < n)%nat -> is_finite (y i) = true) ->
  (rsum n (fun i => Rabs (B2R (x i) * B2R (y i))) * (1 + @funit prec) ^ (S n)
   + INR n * @ftiny prec emax * (1 + @funit prec) ^ n <= bpow radix2 (emax - 1))%R ->
  is_finite (sum n (fun i => nmul (x i) (y i))) = true.
Proof.
  pose proof (@funit_pos prec) as U. pose proof (@ftiny_pos prec emax) as T.
  set (u := @funit prec) in *. set (t := @ftiny prec emax) in *.
  intros Fx Fy. induction n as [|n IH]; intros B; [reflexivity|].
  set (A := rsum n (fun i => Rabs (B2R (x i) * B2R (y i)))) in *.
  assert (A0 : (0 <= A)%R) by (apply rsum_nonneg; intros; apply Rabs_pos).
  rewrite rsum_S in B. fold A in B. set (p := (B2R (x n) * B2R (y n))%R) in *.
  pose proof (Rabs_pos p) as Pp. rewrite S_INR in B.
  assert (P1 : (1 <= (1 + u) ^ n)%R) by (apply pow_R1_Rle; lra).
  replace ((1 + u) ^ S (S n))%R with ((1 + u) ^ n * (1 + u) * (1 + u))%R in B by (cbn; ring).
  replace ((1 + u) ^ S n)%R with ((1 + u) ^ n * (1 + u))%R in * by (cbn; ring).
  set (P := ((1 + u) ^ n)%R) in *.
  pose proof (pos_INR n) as N0.
  assert (Q1 : (1 <= P * (1 + u))%R) by (assert (1 * (1 + u) <= P * (1 + u))%R by (apply Rmult_le_compat_r; lra); lra).
  assert (Q2 : (P * (1 + u) <= P * (1 + u) * (1 + u))%R).
  { rewrite <- (Rmult_1_r (P * (1 + u))) at 1. apply Rmult_le_compat_l; lra. }
  assert (T1 : (0 <= INR n * t)%R) by (apply Rmult_le_pos; lra).
  assert (M1 : (INR n * t * P <= INR n * t * (P * (1 + u)))%R)
    by (apply Rmult_le_compat_l; [exact T1|rewrite <- (Rmult_1_r P) at 1; apply Rmult_le_compat_l; lra]).
  assert (M2 : (A * (P * (1 + u)) <= A * (P * (1 + u) * (1 + u)))%R) by (apply Rmult_le_compat_l; lra).
  assert (M3 : (Rabs p * (1 + u) <= Rabs p * (P * (1 + u) * (1 + u)))%R).
  { apply Rmult_le_compat_l; [lra|]. eapply Rle_trans; [|exact Q2].
    rewrite <- (Rmult_1_l (1 + u)) at 1. apply Rmult_le_compat_r; lra. }
  assert (M4 : (t <= t * (P * (1 + u)))%R) by (rewrite <- (Rmult_1_r t) at 1; apply Rmult_le_compat_l; lra).
  assert (F1 : is_finite (sum n (fun i => nmul (x i) (y i))) = true).
  { apply IH; intros; try (apply Fx; lia); try (apply Fy; lia).
    pose proof (Rmult_le_pos (Rabs p) (P * (1 + u) * (1 + u)) Pp ltac:(lra)). lra. }
  pose proof (Fx n (Nat.lt_succ_diag_r n)) as Fxn. pose proof (Fy n (Nat.lt_succ_diag_r n)) as Fyn.
  assert (Ap : (0 <= A * (P * (1 + u) * (1 + u)))%R) by (apply Rmult_le_pos; lra).
  assert (Tp : (0 <= INR n * t * (P * (1 + u)))%R) by (apply Rmult_le_pos; lra).
  assert (F2 : is_finite (nmul (x n) (y n)) = true).
  { apply fmul_fin; auto. fold p.
    assert (Rabs p <= Rabs p * (1 + u))%R by (rewrite <- (Rmult_1_r (Rabs p)) at 1; apply Rmult_le_compat_l; lra).
    lra. }
  cbn [sum]. apply fadd_fin; auto.
  pose proof (dot_err_bound n x y F1) as E. fold u t in E.
  replace ((1 + u) ^ S n)%R with (P * (1 + u))%R in E by (unfold P; cbn; ring). fold P A in E.
  pose proof (rsum_abs n (fun i => B2R (x i) * B2R (y i))%R) as HA. cbv beta in HA. fold A in HA.
  set (s' := B2R (sum n _)) in *. set (s := rsum n (fun i => (B2R (x i) * B2R (y i))%R)) in *.
  destruct (fmul_err _ _ F2) as (d & e & Hd & He & V). fold u in Hd. fold t in He. fold p in V. rewrite V.
  assert (S1 : (Rabs s' <= A * (P * (1 + u)) + INR n * t * P)%R).
  { replace s' with ((s' - s) + s)%R by ring. eapply Rle_trans; [apply Rabs_triang|]. lra. }
  assert (S2 : (Rabs (p * (1 + d) + e) <= Rabs p * (1 + u) + t)%R).
  { eapply Rle_trans; [apply Rabs_triang|]. rewrite Rabs_mult.
    assert (Rabs (1 + d) <= 1 + u)%R by (eapply Rle_trans; [apply Rabs_triang|]; rewrite Rabs_R1; lra).
    assert (Rabs p * Rabs (1 + d) <= Rabs p * (1 + u))%R by (apply Rmult_le_compat_l; lra). lra. }
  eapply Rle_trans; [apply Rabs_triang|]. lra.
Qed.

Lemma sqrt_diff a b : (0 <= a)%R -> (0 < b)%R -> (Rabs (sqrt a - sqrt b) <= Rabs (a - b) / sqrt b)%R.
Proof.
  intros Ha Hb. pose proof (sqrt_lt_R0 b Hb) as Sb. pose proof (sqrt_pos a) as Sa.
  apply (Rmult_le_reg_r (sqrt b)); [exact Sb|]. unfold Rdiv. rewrite Rmult_assoc, Rinv_l, Rmult_1_r by lra.
  replace (a - b)%R with ((sqrt a - sqrt b) * (sqrt a + sqrt b))%R
    by (rewrite <- (sqrt_sqrt a Ha) at 3; rewrite <- (sqrt_sqrt b) at 3 by lra; ring).
  rewrite Rabs_mult. apply Rmult_le_compat_l; [apply Rabs_pos|].
  rewrite Rabs_pos_eq by lra. lra.
Qed.

Lemma fnonneg_R (x : fl) : fnonneg x -> (0 <= B2R x)%R.
Proof.
  intros [N|S]; destruct x; cbn in *; try lra; try discriminate.
  rewrite S. apply F2R_ge_0. cbn. lia.
Qed.

Lemma recip_fin (y : fl) :
  (0 < B2R y)%R -> (/ B2R y <= bpow radix2 (emax - 1))%R ->
  is_finite (ndiv n1 y) = true /\
  exists d e, (Rabs d <= @funit prec)%R /\ (Rabs e <= @ftiny prec emax)%R /\
    B2R (ndiv n1 y) = (1 / B2R y * (1 + d) + e)%R.
Proof.
  intros P H. destruct (fdiv_fin (Bone : fl) y) as (F & d & e & Hd & He & V).
  - apply is_finite_Bone.
  - lra.
  - rewrite Bone_correct. unfold Rdiv. rewrite Rmult_1_l.
    rewrite Rabs_pos_eq; [exact H|left; apply Rinv_0_lt_compat; exact P].
  - rewrite Bone_correct in V. split; [exact F|]. exists d, e. auto.
Qed.

Lemma fvnorm_fin n (v : vec fl n) : is_finite (vnorm_squared v) = true -> is_finite (fvnorm v) = true.
Proof.
  intros Fq. unfold fvnorm, fsqrt. destruct (Bsqrt_correct prec emax _ _ mode_NE (vnorm_squared v)) as (_ & E & _).
  rewrite E. assert (SG : fnonneg (vnorm_squared v)).
  { unfold vnorm_squared. rewrite vdot_sum. apply fsum_squares_sign. }
  destruct (vnorm_squared v) as [s|s| |s m e H]; try discriminate Fq; [reflexivity|].
  destruct SG as [SG|SG]; cbn in SG; [discriminate|subst; reflexivity].
Qed.

Lemma norm_err n (v : vec fl n) :
  is_finite (fvnorm v) = true ->
  let S := rsum n (fun i => (B2R (vat v i) * B2R (vat v i))%R) in
  (0 < S)%R ->
  (Rabs (B2R (fvnorm v) - sqrt S)
   <= ((1 + @funit prec) ^ (n + 2) - 1) * sqrt S
      + INR n * @ftiny prec emax * (1 + @funit prec) ^ (n + 1) / sqrt S + @ftiny prec emax)%R.
Proof.
  pose proof (@funit_pos prec) as U. pose proof (@ftiny_pos prec emax) as T.
  intros F S Sp. unfold fvnorm in F. pose proof (fsqrt_finite _ F) as Fq.
  unfold fvnorm. destruct (fsqrt_err (vnorm_squared v)) as (d & e & Hd & He & V). rewrite V. clear V.
  unfold vnorm_squared in *. rewrite vdot_sum in *.
  pose proof (fnonneg_R _ (fsum_squares_sign n (vat v))) as Q0.
  pose proof (dot_err_bound n (vat v) (vat v) Fq) as E. fold S in E.
  assert (EA : rsum n (fun i => Rabs (B2R (vat v i) * B2R (vat v i))) = S).
  { unfold S, rsum. apply sum_ext. intros i Hi. apply Rabs_pos_eq. apply Rle_0_sqr. }
  rewrite EA in E. clear EA.
  set (q := B2R (sum n _)) in *. set (u := @funit prec) in *. set (t := @ftiny prec emax) in *.
  pose proof (sqrt_lt_R0 S Sp) as R0. set (r := sqrt S) in *.
  assert (RR : (r * r = S)%R) by (apply sqrt_sqrt; lra).
  pose proof (sqrt_diff q S Q0 Sp) as D. fold r in D.
  assert (D' : (Rabs (sqrt q - r) <= ((1 + u) ^ (Datatypes.S n) - 1) * r + INR n * t * (1 + u) ^ n / r)%R).
  { eapply Rle_trans; [exact D|]. unfold Rdiv.
    eapply Rle_trans; [apply Rmult_le_compat_r; [left; apply Rinv_0_lt_compat; exact R0|exact E]|].
    rewrite Rmult_plus_distr_r. apply Req_le. f_equal. rewrite <- RR. field. lra. }
  replace (sqrt q * (1 + d) + e - r)%R with ((sqrt q - r) * (1 + d) + r * d + e)%R by ring.
  assert (D1 : (Rabs (1 + d) <= 1 + u)%R).
  { eapply Rle_trans; [apply Rabs_triang|]. rewrite Rabs_R1. lra. }
  eapply Rle_trans; [apply Rabs_triang|].
  eapply Rle_trans; [apply Rplus_le_compat_r, Rabs_triang|]. rewrite !Rabs_mult, (Rabs_pos_eq r) by lra.
  replace (n + 2)%nat with (Datatypes.S (Datatypes.S n)) by lia. rewrite Nat.add_1_r.
  replace ((1 + u) ^ Datatypes.S (Datatypes.S n))%R with ((1 + u) ^ Datatypes.S n * (1 + u))%R by (cbn; ring).
  replace (INR n * t * (1 + u) ^ Datatypes.S n / r)%R with (INR n * t * (1 + u) ^ n / r * (1 + u))%R
    by (cbn; field; lra).
  assert (Rabs (sqrt q - r) * Rabs (1 + d) <=
    (((1 + u) ^ Datatypes.S n - 1) * r + INR n * t * (1 + u) ^ n / r) * (1 + u))%R
    by (apply Rmult_le_compat; auto using Rabs_pos).
  assert (r * Rabs d <= r * u)%R by (apply Rmult_le_compat_l; lra).
  lra.
Qed.
End Float.

Lemma normalize_core (u t r rh d d' e e' x : R) :
  (0 < u <= / 1024 -> 0 < t -> 0 < r -> Rabs (rh - r) <= 8 * u * r -> Rabs x <= r ->
   Rabs d <= u -> Rabs d' <= u -> Rabs e <= t -> Rabs e' <= t -> r * t <= u / 4 -> t <= u / 4 ->
   Rabs (x * (1 / rh * (1 + d) + e)) <= 2 /\
   Rabs (x * (1 / rh * (1 + d) + e) * (1 + d') + e' - x / r) <= 12 * u)%R.
Proof.
  intros U T R0 HR HX Hd Hd' He He' RT TU.
  set (th := ((rh - r) / r)%R). set (a := (x / r)%R).
  assert (Hth : (Rabs th <= 8 * u)%R).
  { unfold th, Rdiv. rewrite Rabs_mult, (Rabs_pos_eq (/ r)) by (left; apply Rinv_0_lt_compat; exact R0).
    apply (Rmult_le_reg_r r); [exact R0|]. rewrite Rmult_assoc, Rinv_l, Rmult_1_r by lra. exact HR. }
  assert (Ha : (Rabs a <= 1)%R).
  { unfold a, Rdiv. rewrite Rabs_mult, (Rabs_pos_eq (/ r)) by (left; apply Rinv_0_lt_compat; exact R0).
    apply (Rmult_le_reg_r r); [exact R0|]. rewrite Rmult_assoc, Rinv_l, Rmult_1_r by lra. lra. }
  assert (Eh : rh = (r * (1 + th))%R) by (unfold th; field; lra).
  assert (Ex : x = (a * r)%R) by (unfold a; field; lra).
  apply Rabs_le_inv in Hth, Hd, Hd', He, He'.
  assert (P1 : (0 < 1 + th)%R) by lra.
  set (k := (/ (1 + th))%R).
  assert (Kp : (0 < k)%R) by (apply Rinv_0_lt_compat; exact P1).
  assert (K1 : (k * (1 + th) = 1)%R) by (apply Rinv_l; lra).
  assert (K2 : (k <= 1 + 9 * u)%R).
  { apply (Rmult_le_reg_r (1 + th)); [exact P1|]. rewrite K1. nra. }
  assert (M : (x * (1 / rh * (1 + d) + e) = a * k * (1 + d) + x * e)%R).
  { unfold k. rewrite Eh, Ex. clearbody th a. field. repeat split; lra. }
  assert (XE : (Rabs (x * e) <= u / 4)%R).
  { rewrite Rabs_mult. eapply Rle_trans; [|exact RT]. apply Rmult_le_compat; auto using Rabs_pos.
    apply Rabs_le; exact He. }
  rewrite M. split.
  - eapply Rle_trans; [apply Rabs_triang|].
    assert (Rabs (a * k * (1 + d)) <= 1 * (1 + 9 * u) * (1 + u))%R.
    { rewrite !Rabs_mult. rewrite (Rabs_pos_eq k), (Rabs_pos_eq (1 + d)) by lra.
      apply Rmult_le_compat; try lra; [apply Rmult_le_pos; [apply Rabs_pos|lra]|].
      apply Rmult_le_compat; try lra. apply Rabs_pos. }
    nra.
  - replace ((a * k * (1 + d) + x * e) * (1 + d') + e' - a)%R
      with (a * (k * ((1 + d) * (1 + d')) - 1) + x * e * (1 + d') + e')%R by ring.
    eapply Rle_trans; [apply Rabs_triang|].
    eapply Rle_trans; [apply Rplus_le_compat_r, Rabs_triang|].
    assert (B1 : (Rabs (k * ((1 + d) * (1 + d')) - 1) <= 11 * u)%R).
    { replace (k * ((1 + d) * (1 + d')) - 1)%R with (k * ((1 + d) * (1 + d') - (1 + th)))%R
        by (rewrite Rmult_minus_distr_l, K1; ring).
      rewrite Rabs_mult, (Rabs_pos_eq k) by lra.
      assert (Rabs ((1 + d) * (1 + d') - (1 + th)) <= 10 * u + u * u)%R.
      { replace ((1 + d) * (1 + d') - (1 + th))%R with (d + d' - th + d * d')%R by ring.
        apply Rabs_le. assert (- (u * u) <= d * d' <= u * u)%R by nra. lra. }
      eapply Rle_trans; [apply Rmult_le_compat; [lra|apply Rabs_pos|exact K2|exact H]|]. nra. }
    assert (B2 : (Rabs (a * (k * ((1 + d) * (1 + d')) - 1)) <= 1 * (11 * u))%R).
    { rewrite Rabs_mult. apply Rmult_le_compat; auto using Rabs_pos. }
    assert (B3 : (Rabs (x * e * (1 + d')) <= u / 4 * 2)%R).
    { rewrite Rabs_mult. apply Rmult_le_compat; auto using Rabs_pos. rewrite Rabs_pos_eq; lra. }
    assert (Rabs e' <= t)%R by (apply Rabs_le; exact He'). lra.
Qed.

Lemma vat_val64 n (v : vec f64 n) i : (i < n)%nat -> vat (val64 v) i = B2R (vat v i).
Proof. intros Hi. unfold val64. unfold vat. apply (vget_vmap (fun x : f64 => B2R x)). exact Hi. Qed.

Lemma vnorm_val64 n (v : vec f64 n) :
  vnorm (val64 v) = sqrt (rsum n (fun i => (B2R (vat v i) * B2R (vat v i))%R)).
Proof.
  unfold vnorm, vnorm_squared. rewrite vdot_sum. f_equal. apply sum_ext. intros i Hi.
  rewrite vat_val64 by exact Hi. reflexivity.
Qed.

Lemma u64_small : (0 < bpow radix2 (-53) <= / 1024)%R.
Proof.
  split; [apply bpow_gt_0|]. replace (/ 1024)%R with (bpow radix2 (-10)) by (cbn; lra). apply bpow_le. lia.
Qed.

Lemma pow_u_bound (u : R) n : (0 < u <= / 1024)%R -> (n <= 6)%nat -> (1 <= (1 + u) ^ n <= 1 + 7 * u)%R.
Proof.
  intros U Hn. split; [apply pow_R1_Rle; lra|].
  apply Rle_trans with ((1 + u) ^ 6)%R; [apply Rle_pow; [lra|exact Hn]|].
  assert (u * u <= u * / 1024)%R by (apply Rmult_le_compat_l; lra).
  assert ((1 + u) * (1 + u) <= 1 + u * (2 + / 1024))%R by nra.
  set (s := ((1 + u) * (1 + u))%R) in *.
  replace ((1 + u) ^ 6)%R with (s * s * s)%R by (unfold s; ring).
  assert (1 <= s)%R by (unfold s; nra).
  set (b := (2 + / 1024)%R) in *. assert (B : (b = 2 + / 1024)%R) by reflexivity. clearbody b s.
  assert (s * s <= (1 + u * b) * (1 + u * b))%R by (apply Rmult_le_compat; lra).
  assert ((1 + u * b) * (1 + u * b) <= 1 + u * (2 * b + / 200))%R by nra.
  assert (s * s * s <= (1 + u * (2 * b + / 200)) * (1 + u * b))%R by (apply Rmult_le_compat; nra).
  nra.
Qed.

Lemma comp_le_norm n (v : vec R n) i : (i < n)%nat -> (Rabs (vat v i) <= vnorm v)%R.
Proof.
  intros Hi. eapply Rle_trans; [apply vlinf_ge; exact Hi|apply linf_le_l2].
Qed.

(** A [f64] vector of at most four components whose length is neither tiny nor huge. *)
Lemma norm64 n (v : vec f64 n) :
  (n <= 4)%nat -> (forall i, (i < n)%nat -> is_finite (vat v i) = true) ->
  (bpow radix2 (-400) <= vnorm (val64 v) <= bpow radix2 500)%R ->
  is_finite (fvnorm v) = true /\
  (Rabs (B2R (fvnorm v) - vnorm (val64 v)) <= 8 * bpow radix2 (-53) * vnorm (val64 v))%R.
Proof.
  intros Hn Fv HR. pose proof u64_small as U.
  pose proof (funit_eq 53) as EU. change (- (53))%Z with (-53)%Z in EU.
  pose proof (ftiny_eq 53 1024) as ET. change (2 - 1024 - 53)%Z with (-1075)%Z in ET.
  rewrite vnorm_val64 in *.
  set (S := rsum n (fun i => (B2R (vat v i) * B2R (vat v i))%R)) in *.
  set (r := sqrt S) in *.
  assert (R0 : (0 < r)%R) by (pose proof (bpow_gt_0 radix2 (-400)); lra).
  assert (S0 : (0 < S)%R).
  { destruct (Rlt_or_le 0 S) as [H|H]; [exact H|]. unfold r in R0. rewrite sqrt_neg_0 in R0 by exact H. lra. }
  assert (RR : (r * r = S)%R) by (apply sqrt_sqrt; lra).
  set (u := bpow radix2 (-53)) in *. set (t := bpow radix2 (-1075)) in *.
  assert (T0 : (0 < t)%R) by apply bpow_gt_0.
  assert (TU : (t <= u * bpow radix2 (-900))%R).
  { unfold t, u. rewrite <- bpow_plus. apply bpow_le. lia. }
  assert (B9 : (bpow radix2 (-900) <= r * r * / 1024)%R).
  { apply Rle_trans with (bpow radix2 (-400) * bpow radix2 (-400) * / 1024)%R.
    - replace (/ 1024)%R with (bpow radix2 (-10)) by (cbn; lra). rewrite <- !bpow_plus. apply bpow_le. lia.
    - apply Rmult_le_compat_r; [lra|]. apply Rmult_le_compat; try lra; apply bpow_ge_0. }
  assert (B8 : (bpow radix2 (-900) <= r * / 1024)%R).
  { apply Rle_trans with (bpow radix2 (-400) * / 1024)%R.
    - replace (/ 1024)%R with (bpow radix2 (-10)) by (cbn; lra). rewrite <- !bpow_plus. apply bpow_le. lia.
    - apply Rmult_le_compat_r; lra. }
  assert (B7 : (bpow radix2 (-900) <= / 1024)%R).
  { replace (/ 1024)%R with (bpow radix2 (-10)) by (cbn; lra). apply bpow_le. lia. }
  assert (N4 : (0 <= INR n <= 4)%R).
  { split; [apply pos_INR|]. replace 4%R with (INR 4) by (cbn; lra). apply le_INR; exact Hn. }
  assert (T1 : (t <= u * (r * r * / 1024))%R) by (eapply Rle_trans; [exact TU|apply Rmult_le_compat_l; lra]).
  assert (T2 : (t <= u * (r * / 1024))%R) by (eapply Rle_trans; [exact TU|apply Rmult_le_compat_l; lra]).
  assert (T3 : (t <= / 1024)%R).
  { eapply Rle_trans; [exact TU|]. assert (u * bpow radix2 (-900) <= 1 * / 1024)%R; [|lra].
    apply Rmult_le_compat; try lra. apply bpow_ge_0. }
  assert (Fq : is_finite (vnorm_squared v) = true).
  { unfold vnorm_squared. rewrite vdot_sum. apply dot_fin; [exact Fv|exact Fv|].
    assert (EA : rsum n (fun i => Rabs (B2R (vat v i) * B2R (vat v i))) = S).
    { unfold S, rsum. apply sum_ext. intros i Hi. apply Rabs_pos_eq. apply Rle_0_sqr. }
    rewrite EA, EU, ET. fold u t. clear EA.
    pose proof (pow_u_bound u (Datatypes.S n) U ltac:(lia)) as P1. pose proof (pow_u_bound u n U ltac:(lia)) as P2.
    assert (S <= bpow radix2 1000)%R.
    { rewrite <- RR. change 1000%Z with (500 + 500)%Z. rewrite bpow_plus. apply Rmult_le_compat; lra. }
    assert (1 <= bpow radix2 1000)%R by (change 1%R with (bpow radix2 0); apply bpow_le; lia).
    assert (4 * bpow radix2 1000 <= bpow radix2 (1024 - 1))%R.
    { replace 4%R with (bpow radix2 2) by (cbn; lra). rewrite <- bpow_plus. apply bpow_le. lia. }
    assert (S * (1 + u) ^ Datatypes.S n <= bpow radix2 1000 * 2)%R by (apply Rmult_le_compat; lra).
    assert (INR n * t * (1 + u) ^ n <= (4 * / 1024) * 2)%R.
    { apply Rmult_le_compat; [apply Rmult_le_pos; lra|lra|apply Rmult_le_compat; lra|lra]. }
    lra. }
  assert (Fn : is_finite (fvnorm v) = true).
  { apply fvnorm_fin. exact Fq. }
  split; [exact Fn|].
  pose proof (norm_err n v Fn) as E. fold S in E. specialize (E S0). fold r in E.
  rewrite EU, ET in E. fold u t in E.
  pose proof (pow_u_bound u (n + 2) U ltac:(lia)) as P1. pose proof (pow_u_bound u (n + 1) U ltac:(lia)) as P2.
  eapply Rle_trans; [exact E|].
  assert (((1 + u) ^ (n + 2) - 1) * r <= 7 * u * r)%R by (apply Rmult_le_compat_r; lra).
  assert (INR n * t * (1 + u) ^ (n + 1) / r <= u * r * / 64)%R.
  { apply (Rmult_le_reg_r r); [exact R0|]. unfold Rdiv. rewrite Rmult_assoc, Rinv_l, Rmult_1_r by lra.
    assert (INR n * t * (1 + u) ^ (n + 1) <= (4 * (u * (r * r * / 1024))) * 2)%R.
    { apply Rmult_le_compat; [apply Rmult_le_pos; lra|lra|apply Rmult_le_compat; lra|lra]. }
    nra. }
  assert (0 < u * r)%R by (apply Rmult_lt_0_compat; lra).
  eapply Rle_trans; [apply Rplus_le_compat; [apply Rplus_le_compat; eassumption|exact T2]|].
  lra.
Qed.

Lemma normalize64 n (v : vec f64 n) :
  (n <= 4)%nat -> (forall i, (i < n)%nat -> is_finite (vat v i) = true) ->
  (bpow radix2 (-400) <= vnorm (val64 v) <= bpow radix2 500)%R ->
  forall i, (i < n)%nat ->
    is_finite (vat (fvnormalize v) i) = true /\
    (Rabs (B2R (vat (fvnormalize v) i) - B2R (vat v i) / vnorm (val64 v)) <= 12 * bpow radix2 (-53))%R.
Proof.
  intros Hn Fv HR i Hi. destruct (norm64 n v Hn Fv HR) as (Fn & E).
  pose proof u64_small as U.
  pose proof (funit_eq 53) as EU. change (- (53))%Z with (-53)%Z in EU.
  pose proof (ftiny_eq 53 1024) as ET. change (2 - 1024 - 53)%Z with (-1075)%Z in ET.
  pose proof (comp_le_norm n (val64 v) i Hi) as HX. rewrite vat_val64 in HX by exact Hi.
  set (r := vnorm (val64 v)) in *. set (x := B2R (vat v i)) in *.
  assert (R0 : (0 < r)%R) by (pose proof (bpow_gt_0 radix2 (-400)); lra).
  set (u := bpow radix2 (-53)) in *. set (t := bpow radix2 (-1075)) in *.
  assert (T0 : (0 < t)%R) by apply bpow_gt_0.
  assert (RT : (r * t <= u / 4)%R).
  { apply Rle_trans with (bpow radix2 500 * t)%R; [apply Rmult_le_compat_r; lra|].
    replace (u / 4)%R with (bpow radix2 (-55)).
    - unfold t. rewrite <- bpow_plus. apply bpow_le. lia.
    - unfold u. change (-55)%Z with (-53 + -2)%Z. rewrite bpow_plus. cbn [bpow]. cbn. lra. }
  assert (TU : (t <= u / 4)%R).
  { replace (u / 4)%R with (bpow radix2 (-55)).
    - unfold t. apply bpow_le. lia.
    - unfold u. change (-55)%Z with (-53 + -2)%Z. rewrite bpow_plus. cbn. lra. }
  set (rh := B2R (fvnorm v)) in *.
  assert (RH : (r / 2 <= rh)%R).
  { apply Rabs_le_inv in E. assert (8 * u * r <= / 2 * r)%R by (apply Rmult_le_compat_r; lra). lra. }
  assert (RH0 : (0 < rh)%R) by lra.
  destruct (recip_fin (fvnorm v)) as (Fd & d & e & Hd & He & Vd).
  { fold rh. exact RH0. }
  { fold rh. apply Rle_trans with (/ bpow radix2 (-401))%R.
    - apply Rinv_le; [apply bpow_gt_0|]. change (-401)%Z with (-400 + -1)%Z. rewrite bpow_plus.
      change (bpow radix2 (-1)) with (/ 2)%R. lra.
    - rewrite <- bpow_opp. apply bpow_le. lia. }
  fold rh in Vd. rewrite EU in Hd. rewrite ET in He. fold u in Hd. fold t in He.
  unfold fvnormalize. rewrite vat_vmul_s by exact Hi.
  pose proof (normalize_core u t r rh d) as C.
  set (y := ndiv n1 (fvnorm v)) in *.
  assert (Fy : is_finite (nmul (vat v i : binary_float 53 1024) y) = true).
  { apply fmul_fin; [apply Fv; exact Hi|exact Fd|]. rewrite Vd. fold x.
    destruct (C 0%R e 0%R x) as (C1 & _); auto; try (rewrite Rabs_R0; lra).
    eapply Rle_trans; [exact C1|]. change 2%R with (bpow radix2 1). apply bpow_le. lia. }
  split; [exact Fy|].
  destruct (fmul_err _ _ Fy) as (d' & e' & Hd' & He' & Vy). rewrite EU in Hd'. rewrite ET in He'. fold u in Hd'. fold t in He'.
  destruct (C d' e e' x) as (_ & C2); auto.
  rewrite Vd in Vy. eapply Rle_trans; [|exact C2]. apply Req_le. f_equal. f_equal. exact Vy.
Qed.
