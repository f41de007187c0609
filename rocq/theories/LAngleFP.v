(** Proofs of the theorems of PAngleF.v. *)

From Coq Require Import List Arith ZArith Bool Lia Reals Lra.
From Flocq Require Import Core.Core Relative Plus_error Sterbenz IEEE754.BinarySingleNaN.
From Verif Require Import Base Scalar Spec LBase SpecF MFloat MFloatVec LFloat LFloatNormP LFloatEx MRem LRemP MAngleF.
Local Open Scope R_scope.

Section A.
Context {prec emax : Z} {Hprec : Prec_gt_0 prec} {Hemax : Prec_lt_emax prec emax}.
Notation fl := (binary_float prec emax).
Notation fexp := (FLT_exp (3 - emax - prec) prec).
Notation rnd := (round radix2 fexp ZnearestE).

Lemma fval_eq (x y : fl) : is_finite x = true -> is_finite y = true -> B2R x = B2R y -> Bsign x = Bsign y -> x = y.
Proof. intros. apply B2R_Bsign_inj; assumption. Qed.

Lemma pos_sign (x : fl) : 0 < B2R x -> Bsign x = false.
Proof.
  destruct x as [s|s| |s m e H]; intros P; try (cbn in P; lra). destruct s; [exfalso|reflexivity].
  change (0 < F2R (Float radix2 (Zneg m) e)) in P.
  pose proof (F2R_lt_0 radix2 (Float radix2 (Zneg m) e) ltac:(reflexivity)). lra.
Qed.
Lemma neg_sign (x : fl) : B2R x < 0 -> Bsign x = true.
Proof.
  destruct x as [s|s| |s m e H]; intros P; try (cbn in P; lra). destruct s; [reflexivity|exfalso].
  change (F2R (Float radix2 (Zpos m) e) < 0) in P.
  pose proof (F2R_gt_0 radix2 (Float radix2 (Zpos m) e) ltac:(reflexivity)). lra.
Qed.

Lemma frem_small (r T : fl) : is_finite r = true -> is_finite T = true -> Rabs (B2R r) < B2R T -> frem r T = r.
Proof.
  intros Fr FT H. assert (T0 : 0 < B2R T) by (pose proof (Rabs_pos (B2R r)); lra).
  destruct (frem_finite r T Fr FT ltac:(lra)) as (F & V & S & _).
  apply fval_eq; [exact F|exact Fr| |exact S]. rewrite V.
  assert (Z0 : Ztrunc (B2R r / B2R T) = 0%Z).
  { assert (B : Rabs (B2R r / B2R T) < 1).
    { unfold Rdiv. rewrite Rabs_mult, (Rabs_pos_eq (/ B2R T)) by (left; apply Rinv_0_lt_compat; exact T0).
      apply (Rmult_lt_reg_r (B2R T)); [exact T0|]. rewrite Rmult_assoc, Rinv_l by lra. lra. }
    apply Rabs_def2 in B. destruct (Rle_or_lt 0 (B2R r / B2R T)) as [P|P].
    - rewrite Ztrunc_floor by exact P. apply Zfloor_imp. cbn. lra.
    - rewrite Ztrunc_ceil by lra. apply Zceil_imp. cbn. lra. }
  rewrite Z0. ring.
Qed.

(** The sum of a float in (-T, 0) and T is finite, in [0, T], and accurate. *)
Lemma add_turn (r T : fl) : is_finite r = true -> is_finite T = true -> - B2R T < B2R r < 0 ->
  is_finite (r + T)%N_ = true /\ 0 <= B2R (r + T)%N_ <= B2R T /\ B2R (r + T)%N_ = rnd (B2R r + B2R T) /\
  Rabs (B2R (r + T)%N_ - (B2R r + B2R T)) <= bpow radix2 (- prec) * (B2R r + B2R T).
Proof.
  intros Fr FT H.
  assert (U : rnd (B2R r + B2R T) <= B2R T).
  { apply round_le_generic; [apply FLT_exp_valid; exact Hprec|apply valid_rnd_N|apply generic_format_B2R|lra]. }
  assert (L : 0 <= rnd (B2R r + B2R T)).
  { apply round_ge_generic; [apply FLT_exp_valid; exact Hprec|apply valid_rnd_N|apply generic_format_0|lra]. }
  pose proof (Bplus_correct prec emax _ _ mode_NE r T Fr FT) as C.
  change (round radix2 (SpecFloat.fexp prec emax) (round_mode mode_NE) (B2R r + B2R T)) with (rnd (B2R r + B2R T)) in C.
  rewrite Rlt_bool_true in C.
  - destruct C as (C1 & C2 & _). cbn [nadd num_float]. conjs; try assumption.
    + rewrite C1. exact L.
    + rewrite C1. exact U.
    + destruct (fadd_err r T C2) as (d & D1 & D2). cbn [nadd num_float] in D2. rewrite D2.
      replace ((B2R r + B2R T) * (1 + d) - (B2R r + B2R T)) with (d * (B2R r + B2R T)) by ring.
      rewrite Rabs_mult, (Rabs_pos_eq (B2R r + B2R T)) by lra. apply Rmult_le_compat_r; [lra|].
      eapply Rle_trans; [exact D1|]. unfold funit. replace (- prec + 1)%Z with (1 + - prec)%Z by lia. rewrite bpow_plus. cbn. lra.
  - rewrite Rabs_pos_eq by exact L. eapply Rle_lt_trans; [exact U|]. eapply Rle_lt_trans; [apply Rle_abs|apply abs_B2R_lt_emax].
Qed.

Lemma ltb0 (r : fl) : is_finite r = true -> Bltb r (B754_zero false) = true <-> B2R r < 0.
Proof.
  intros F. rewrite Bltb_correct; [|exact F|reflexivity]. cbn [B2R]. destruct (Rlt_bool_spec (B2R r) 0); split; intros; try lra; discriminate.
Qed.
Lemma ltbR (x y : fl) : is_finite x = true -> is_finite y = true -> Bltb x y = true <-> B2R x < B2R y.
Proof.
  intros F G. rewrite Bltb_correct; [|exact F|exact G]. destruct (Rlt_bool_spec (B2R x) (B2R y)); split; intros; try lra; discriminate.
Qed.

Section T.
Context (T : fl) (FT : is_finite T = true) (PT : 0 < B2R T).

(** The cases of [fa_normalize]. *)
Lemma norm_cases (a : fl) : is_finite a = true ->
  exists (k : Z) (q : fl), frem a T = q /\ is_finite q = true /\ B2R q = B2R a + IZR k * B2R T /\ Rabs (B2R q) < B2R T /\
    ((0 <= B2R q /\ fa_normalize T a = q) \/ (B2R q < 0 /\ fa_normalize T a = (q + T)%N_)).
Proof.
  intros Fa. destruct (frem_finite a T Fa FT ltac:(lra)) as (F & V & S & B). rewrite (Rabs_pos_eq (B2R T)) in B by lra.
  exists (- Ztrunc (B2R a / B2R T))%Z, (frem a T). conjs; try assumption; [reflexivity| |].
  - rewrite opp_IZR. lra.
  - unfold fa_normalize. cbn [n0 num_float]. destruct (Bltb (frem a T) (B754_zero false)) eqn:E.
    + right. apply (ltb0 _ F) in E. auto.
    + left. split; [|reflexivity]. apply Rnot_lt_le. intros N. apply (ltb0 _ F) in N. congruence.
Qed.

Lemma fa_normalize_spec (a : fl) : is_finite a = true ->
  is_finite (fa_normalize T a) = true /\ 0 <= B2R (fa_normalize T a) <= B2R T /\
  exists (k : Z), 0 <= B2R a + IZR k * B2R T < B2R T /\
    Rabs (B2R (fa_normalize T a) - (B2R a + IZR k * B2R T)) <= bpow radix2 (- prec) * (B2R a + IZR k * B2R T) /\
    (0 <= B2R a -> B2R (fa_normalize T a) = B2R a + IZR k * B2R T).
Proof.
  intros Fa. destruct (norm_cases a Fa) as (k & q & Eq & Fq & Vq & Bq & C). apply Rabs_def2 in Bq.
  destruct C as [(C & ->)|(C & ->)].
  - conjs; try assumption; try lra. exists k. conjs; try lra. rewrite <- Vq. replace (B2R q - B2R q) with 0 by ring.
    rewrite Rabs_R0. apply Rmult_le_pos; [apply bpow_ge_0|exact C].
  - destruct (add_turn q T Fq FT ltac:(lra)) as (A1 & A2 & A3 & A4). conjs; try assumption; try lra.
    exists (k + 1)%Z. rewrite plus_IZR. replace (B2R a + (IZR k + 1) * B2R T) with (B2R q + B2R T) by (rewrite Vq; ring).
    conjs; try lra; try assumption. intros Pa. exfalso.
    destruct (frem_finite a T Fa FT ltac:(lra)) as (F & V & S & B). rewrite Eq in S.
    destruct (Rle_lt_or_eq_dec 0 (B2R a) Pa) as [P|P].
    + rewrite (pos_sign a P), (neg_sign q C) in S. discriminate.
    + rewrite <- Eq, V, <- P in C. unfold Rdiv in C. rewrite Rmult_0_l in C. change 0 with (IZR 0) in C at 2. rewrite Ztrunc_IZR in C. lra.
Qed.

Lemma fa_normalize_idem (a : fl) : is_finite a = true -> B2R (fa_normalize T a) <> B2R T ->
  fa_normalize T (fa_normalize T a) = fa_normalize T a.
Proof.
  intros Fa N. destruct (fa_normalize_spec a Fa) as (F & B & _). set (r := fa_normalize T a) in *.
  unfold fa_normalize. rewrite frem_small; [|exact F|exact FT|rewrite Rabs_pos_eq by lra; lra].
  cbv zeta. cbn [n0 num_float]. destruct (Bltb r (B754_zero false)) eqn:E; [|reflexivity]. apply (ltb0 _ F) in E. lra.
Qed.

Lemma fa_special (a : fl) : is_finite a = false -> is_nan (fa_normalize T a) = true /\ is_nan (fa_normalize_signed T a) = true.
Proof.
  intros Fa. assert (E : frem a T = B754_nan) by (destruct a; cbn in Fa; try discriminate; destruct T; reflexivity).
  assert (N : fa_normalize T a = B754_nan) by (unfold fa_normalize; rewrite E; reflexivity).
  split; [rewrite N; reflexivity|]. unfold fa_normalize_signed. rewrite N. cbv zeta.
  destruct (Bltb (fa_half_turn T) B754_nan) eqn:H; [|reflexivity]. cbn [nsub num_float]. destruct T; reflexivity.
Qed.

Hypothesis P2 : (2 <= prec)%Z.
Hypothesis BT : bpow radix2 (3 - emax) <= B2R T.

Lemma half_turn : is_finite (fa_half_turn T) = true /\ B2R (fa_half_turn T) = B2R T / 2.
Proof.
  assert (W : fint (fa_two : fl) 2).
  { unfold fa_two. pose proof (fint_add (n1 : fl) n1 1 1 fint_1 fint_1) as H. apply H. change (Z.abs (1 + 1)) with (2 ^ 1)%Z. apply Z.pow_lt_mono_r; lia. }
  destruct W as (W1 & W2). unfold fa_half_turn. cbn [ndiv numdiv_float].
  pose proof (Bdiv_correct prec emax _ _ mode_NE T fa_two) as C. rewrite W2 in C. specialize (C ltac:(lra)).
  assert (G : generic_format radix2 fexp (B2R T / 2)).
  { assert (GT : generic_format radix2 fexp (B2R T)) by apply generic_format_B2R.
    apply FLT_format_generic in GT; [|exact Hprec]. destruct GT as [f E1 E2 E3].
    assert (NZ : f.(Fnum) <> 0%Z). { intros Z0. destruct f as [m e]. cbn in Z0. subst m. rewrite E1, F2R_0 in PT. lra. }
    replace (B2R T / 2) with (B2R T * bpow radix2 (-1)) by (cbn; lra).
    assert (GX : generic_format radix2 (FLX_exp prec) (B2R T)) by (apply generic_format_FLX; exists f; assumption).
    assert (GX' : generic_format radix2 (FLX_exp prec) (B2R T * bpow radix2 (-1))).
    { apply FLX_format_generic in GX; [|exact Hprec]. destruct GX as [g G1 G2]. apply generic_format_FLX.
      exists (Float radix2 (Fnum g) (Fexp g - 1)); [|exact G2]. rewrite G1. unfold F2R. cbn [Fnum Fexp].
      rewrite Rmult_assoc, <- bpow_plus. reflexivity. }
    apply generic_format_FLT_FLX; [|exact GX'].
    rewrite Rabs_pos_eq by (apply Rmult_le_pos; [lra|apply bpow_ge_0]).
    apply (Rle_trans _ (bpow radix2 (3 - emax) * bpow radix2 (-1))).
    - rewrite <- bpow_plus. apply bpow_le. lia.
    - apply Rmult_le_compat_r; [apply bpow_ge_0|exact BT]. }
  change (round radix2 (SpecFloat.fexp prec emax) (round_mode mode_NE) (B2R T / 2)) with (rnd (B2R T / 2)) in C.
  rewrite (round_generic radix2 fexp ZnearestE (B2R T / 2) G) in C.
  rewrite Rlt_bool_true in C.
  - destruct C as (C1 & C2 & _). split; [rewrite C2; exact FT|exact C1].
  - rewrite Rabs_pos_eq by lra. apply (Rlt_trans _ (B2R T)); [lra|]. eapply Rle_lt_trans; [apply Rle_abs|apply abs_B2R_lt_emax].
Qed.

(** Subtracting the turn from a float in (T/2, T] is exact. *)
Lemma sub_turn (r : fl) : is_finite r = true -> B2R T / 2 < B2R r <= B2R T ->
  is_finite (r - T)%N_ = true /\ B2R (r - T)%N_ = B2R r - B2R T.
Proof.
  intros Fr H.
  assert (G : generic_format radix2 fexp (B2R r - B2R T)).
  { apply sterbenz; [apply FLT_exp_valid; exact Hprec|apply FLT_exp_monotone|apply generic_format_B2R|apply generic_format_B2R|lra]. }
  pose proof (Bminus_correct prec emax _ _ mode_NE r T Fr FT) as C.
  change (round radix2 (SpecFloat.fexp prec emax) (round_mode mode_NE) (B2R r - B2R T)) with (rnd (B2R r - B2R T)) in C.
  rewrite (round_generic radix2 fexp ZnearestE _ G) in C. rewrite Rlt_bool_true in C.
  - destruct C as (C1 & C2 & _). cbn [nsub num_float]. auto.
  - rewrite Rabs_left1 by lra. apply (Rlt_trans _ (B2R T)); [lra|]. eapply Rle_lt_trans; [apply Rle_abs|apply abs_B2R_lt_emax].
Qed.

Lemma signed_cases (a : fl) : is_finite a = true ->
  let n := fa_normalize T a in
  (B2R n <= B2R T / 2 /\ fa_normalize_signed T a = n) \/
  (B2R T / 2 < B2R n /\ fa_normalize_signed T a = (n - T)%N_ /\ is_finite (n - T)%N_ = true /\ B2R (n - T)%N_ = B2R n - B2R T).
Proof.
  intros Fa n. destruct (fa_normalize_spec a Fa) as (F & B & _). fold n in F, B. destruct half_turn as (H1 & H2).
  unfold fa_normalize_signed. fold n. cbv zeta. destruct (Bltb (fa_half_turn T) n) eqn:E.
  - apply (ltbR _ _ H1 F) in E. rewrite H2 in E. right. destruct (sub_turn n F ltac:(lra)) as (S1 & S2). auto.
  - left. split; [|reflexivity]. apply Rnot_lt_le. intros N. rewrite <- H2 in N. apply (ltbR _ _ H1 F) in N. congruence.
Qed.

Lemma fa_signed_spec (a : fl) : is_finite a = true ->
  is_finite (fa_normalize_signed T a) = true /\ - (B2R T / 2) < B2R (fa_normalize_signed T a) <= B2R T / 2 /\
  exists k : Z, Rabs (B2R (fa_normalize_signed T a) - (B2R a + IZR k * B2R T)) <= bpow radix2 (- prec) * B2R T.
Proof.
  intros Fa. destruct (fa_normalize_spec a Fa) as (F & B & k & K1 & K2 & _).
  assert (U : bpow radix2 (- prec) * (B2R a + IZR k * B2R T) <= bpow radix2 (- prec) * B2R T)
    by (apply Rmult_le_compat_l; [apply bpow_ge_0|lra]).
  destruct (signed_cases a Fa) as [(C1 & ->)|(C1 & -> & C3 & C4)].
  - conjs; try assumption; try lra. exists k. lra.
  - conjs; try assumption; try lra. exists (k - 1)%Z. rewrite C4, minus_IZR.
    replace (B2R (fa_normalize T a) - B2R T - (B2R a + (IZR k - 1) * B2R T)) with (B2R (fa_normalize T a) - (B2R a + IZR k * B2R T)) by ring. lra.
Qed.

Lemma fa_signed_idem (a : fl) : is_finite a = true ->
  fa_normalize_signed T (fa_normalize_signed T a) = fa_normalize_signed T a.
Proof.
  intros Fa. destruct (fa_signed_spec a Fa) as (F & B & _). destruct (fa_normalize_spec a Fa) as (Fn & Bn & _).
  set (n := fa_normalize T a) in *. destruct half_turn as (H1 & H2).
  destruct (signed_cases a Fa) as [(C1 & E)|(C1 & E & C3 & C4)]; fold n in C1, E.
  - rewrite E in *. assert (I : fa_normalize T n = n).
    { unfold n. apply fa_normalize_idem; [exact Fa|]. fold n. lra. }
    unfold fa_normalize_signed. rewrite I. cbv zeta. destruct (Bltb (fa_half_turn T) n) eqn:L; [|reflexivity].
    apply (ltbR _ _ H1 Fn) in L. lra.
  - fold n in C3, C4. rewrite E in *. set (s := (n - T)%N_) in *.
    destruct (Rle_lt_or_eq_dec _ _ (proj2 Bn)) as [N|N].
    + assert (I : B2R (fa_normalize T s) = B2R n /\ is_finite (fa_normalize T s) = true).
      { unfold fa_normalize. rewrite frem_small; [|exact C3|exact FT|rewrite C4, Rabs_left; lra]. cbv zeta. cbn [n0 num_float].
        replace (Bltb s (B754_zero false)) with true by (symmetry; apply (ltb0 _ C3); lra).
        destruct (add_turn s T C3 FT ltac:(lra)) as (A1 & A2 & A3 & A4). split; [|exact A1]. rewrite A3, C4.
        replace (B2R n - B2R T + B2R T) with (B2R n) by ring. apply round_generic; [apply valid_rnd_N|apply generic_format_B2R]. }
      destruct I as (I1 & I2). unfold fa_normalize_signed. cbv zeta.
      replace (Bltb (fa_half_turn T) (fa_normalize T s)) with true by (symmetry; apply (ltbR _ _ H1 I2); lra).
      assert (I3 : fa_normalize T s = n).
      { apply fval_eq; [exact I2|exact Fn|exact I1|].
        rewrite !pos_sign by lra. reflexivity. }
      rewrite I3. reflexivity.
    + assert (Z0 : B2R s = 0) by (rewrite C4; lra).
      assert (I : fa_normalize T s = s).
      { unfold fa_normalize. rewrite frem_small; [|exact C3|exact FT|rewrite Z0, Rabs_R0; lra]. cbv zeta. cbn [n0 num_float].
        destruct (Bltb s (B754_zero false)) eqn:L; [|reflexivity]. apply (ltb0 _ C3) in L. lra. }
      unfold fa_normalize_signed. rewrite I. cbv zeta. destruct (Bltb (fa_half_turn T) s) eqn:L; [|reflexivity].
      apply (ltbR _ _ H1 C3) in L. lra.
Qed.
End T.
End A.

Lemma c116_normalize_partial :
  forall (prec emax : Z) (Hp : Prec_gt_0 prec) (He : Prec_lt_emax prec emax) (T a : binary_float prec emax),
    is_finite T = true -> 0 < B2R T -> is_finite a = true ->
    is_finite (fa_normalize T a) = true /\ 0 <= B2R (fa_normalize T a) <= B2R T /\
    (exists k : Z, 0 <= B2R a + IZR k * B2R T < B2R T /\
       Rabs (B2R (fa_normalize T a) - (B2R a + IZR k * B2R T)) <= bpow radix2 (- prec) * (B2R a + IZR k * B2R T) /\
       (0 <= B2R a -> B2R (fa_normalize T a) = B2R a + IZR k * B2R T)) /\
    (B2R (fa_normalize T a) <> B2R T -> fa_normalize T (fa_normalize T a) = fa_normalize T a).
Proof.
  intros prec emax Hp He T a FT PT Fa. destruct (fa_normalize_spec T FT PT a Fa) as (A & B & C).
  exact (conj A (conj B (conj C (fa_normalize_idem T FT PT a Fa)))).
Qed.

Lemma c116_normalize_refuted :
  (exists a : f64, is_finite a = true /\ fa_normalize f64_full_degrees a = f64_full_degrees /\
     B2R (fa_normalize f64_full_degrees (fa_normalize f64_full_degrees a)) = 0) /\
  (exists a : f64, is_finite a = true /\ fa_normalize f64_full_radians a = f64_full_radians /\
     B2R (fa_normalize f64_full_radians (fa_normalize f64_full_radians a)) = 0).
Proof.
  split; exists (binary_normalize 53 1024 prec64 emax64 mode_NE (-1) (-60) false); conjs.
  all: first [reflexivity | apply B2SF_inj; vm_compute; reflexivity].
Qed.

Lemma c116_normalize_signed :
  forall (prec emax : Z) (Hp : Prec_gt_0 prec) (He : Prec_lt_emax prec emax) (T a : binary_float prec emax),
    is_finite T = true -> 0 < B2R T -> (2 <= prec)%Z -> bpow radix2 (3 - emax) <= B2R T -> is_finite a = true ->
    is_finite (fa_normalize_signed T a) = true /\ - (B2R T / 2) < B2R (fa_normalize_signed T a) <= B2R T / 2 /\
    (exists k : Z, Rabs (B2R (fa_normalize_signed T a) - (B2R a + IZR k * B2R T)) <= bpow radix2 (- prec) * B2R T) /\
    fa_normalize_signed T (fa_normalize_signed T a) = fa_normalize_signed T a.
Proof.
  intros prec emax Hp He T a FT PT P2 BT Fa. destruct (fa_signed_spec T FT PT P2 BT a Fa) as (A & B & C).
  exact (conj A (conj B (conj C (fa_signed_idem T FT PT P2 BT a Fa)))).
Qed.

Lemma c116_signed_range_refuted :
  exists a : f64, is_finite a = true /\ B2R (fa_normalize_signed f64_full_degrees a) = B2R f64_full_degrees / 2.
Proof.
  exists (f64_of_Z 180). split; [reflexivity|].
  assert (E : fa_normalize_signed f64_full_degrees (f64_of_Z 180) = f64_of_Z 180) by (apply B2SF_inj; vm_compute; reflexivity).
  rewrite E. unfold f64_full_degrees. rewrite (proj1 (f64_of_Z_exact 180 ltac:(reflexivity))), (proj1 (f64_of_Z_exact 360 ltac:(reflexivity))). lra.
Qed.

Lemma c116_special :
  forall (prec emax : Z) (Hp : Prec_gt_0 prec) (He : Prec_lt_emax prec emax) (T a : binary_float prec emax),
    is_finite T = true -> 0 < B2R T -> is_finite a = false ->
    is_nan (fa_normalize T a) = true /\ is_nan (fa_normalize_signed T a) = true.
Proof.
  intros prec emax Hp He T a FT PT Fa. exact (fa_special T FT PT a Fa).
Qed.

Lemma bisect_err {prec emax : Z} {Hp : Prec_gt_0 prec} {He : Prec_lt_emax prec emax} (T a b : binary_float prec emax) (k : Z) :
  is_finite T = true -> 0 < B2R T -> (2 <= prec)%Z -> bpow radix2 (3 - emax) <= B2R T ->
  is_finite ((b - a) * ndiv 1 fa_two + a)%N_ = true ->
  let t := B2R ((b - a) * ndiv 1 fa_two + a)%N_ in
  0 <= t + IZR k * B2R T < B2R T ->
  Rabs (B2R (fa_bisect T a b) - (t + IZR k * B2R T)) <= bpow radix2 (- prec) * (t + IZR k * B2R T) ->
  Rabs (B2R (fa_bisect T a b) - ((B2R a + B2R b) / 2 + IZR k * B2R T)) <=
    3 * bpow radix2 (- prec) * (Rabs ((B2R a + B2R b) / 2) + Rabs (B2R b - B2R a) + B2R T).
Proof.
  intros FT PT P2 BT F t K1 K2. subst t.
  assert (U : @funit prec = bpow radix2 (- prec)).
  { unfold funit. replace (- prec + 1)%Z with (1 + - prec)%Z by lia. rewrite bpow_plus. cbn. lra. }
  assert (H1 : B2R (ndiv n1 fa_two : binary_float prec emax) = / 2).
  { destruct (@fbone prec emax _ _) as (E & Fo & _). destruct (half_turn (n1 : binary_float prec emax)) as (_ & H); auto.
    - cbn [n1 num_float]. rewrite E. lra.
    - cbn [n1 num_float]. rewrite E. apply (bpow_le radix2 (3 - emax) 0). unfold Prec_lt_emax, Prec_gt_0 in *. lia.
    - unfold fa_half_turn in H. rewrite H. cbn [n1 num_float]. rewrite E. lra. }
  destruct (fadd_err _ _ F) as (d3 & D3 & E3). destruct (ffin_add _ _ F) as (F2 & _).
  destruct (fmul_err _ _ F2) as (d2 & e & D2 & De & E2). destruct (ffin_mul _ _ F2) as (F1 & _).
  rewrite (fsub_add_neg b a) in *.
  destruct (fadd_err _ _ F1) as (d1 & D1 & E1). rewrite H1, E1 in E2.
  assert (N : B2R (- a)%N_ = - B2R a) by (cbn [nneg num_float]; apply B2R_Bopp). rewrite N in E2. clear E1 N. rewrite U in *.
  assert (Ee : Rabs e <= bpow radix2 (- prec) * B2R T).
  { eapply Rle_trans; [exact De|]. apply (Rle_trans _ (bpow radix2 (- prec) * bpow radix2 (3 - emax))).
    - unfold ftiny. rewrite <- bpow_plus. replace (- prec + (3 - emax))%Z with (3 - emax - prec)%Z by lia.
      pose proof (bpow_gt_0 radix2 (3 - emax - prec)). lra.
    - apply Rmult_le_compat_l; [apply bpow_ge_0|exact BT]. }
  assert (U4 : bpow radix2 (- prec) <= / 4) by (apply (bpow_le radix2 (- prec) (-2)); lia).
  assert (U0 := bpow_gt_0 radix2 (- prec)). set (u := bpow radix2 (- prec)) in *.
  set (h := B2R ((b + - a) * ndiv 1 fa_two)%N_) in *. set (t := B2R ((b + - a) * ndiv 1 fa_two + a)%N_) in *.
  set (D := B2R b - B2R a) in *. change (B2R b + - B2R a) with D in E2. set (m := (B2R a + B2R b) / 2). set (r := B2R (fa_bisect T a b)) in *.
  assert (Hh : Rabs (h - D / 2) <= 3 / 2 * u * Rabs D + u * B2R T).
  { replace (h - D / 2) with (D / 2 * (d1 + d2 + d1 * d2) + e) by (rewrite E2; field).
    eapply Rle_trans; [apply Rabs_triang|]. apply Rplus_le_compat; [|exact Ee].
    rewrite Rabs_mult. replace (Rabs (D / 2)) with (Rabs D / 2) by (unfold Rdiv; rewrite Rabs_mult, (Rabs_pos_eq (/ 2)); lra).
    assert (Rabs (d1 + d2 + d1 * d2) <= 3 * u).
    { eapply Rle_trans; [apply Rabs_triang|]. rewrite Rabs_mult. pose proof (Rabs_triang d1 d2).
      pose proof (Rabs_pos d1). pose proof (Rabs_pos d2). nra. }
    pose proof (Rabs_pos D). nra. }
  assert (Ht : Rabs (t - (h + B2R a)) <= u * Rabs (h + B2R a)).
  { rewrite E3. replace ((h + B2R a) * (1 + d3) - (h + B2R a)) with (d3 * (h + B2R a)) by ring.
    rewrite Rabs_mult. apply Rmult_le_compat_r; [apply Rabs_pos|exact D3]. }
  assert (Hm : Rabs (h + B2R a) <= Rabs m + Rabs (h - D / 2)).
  { replace (h + B2R a) with (m + (h - D / 2)) by (unfold m, D; field). apply Rabs_triang. }
  replace (r - (m + IZR k * B2R T)) with ((r - (t + IZR k * B2R T)) + ((t - (h + B2R a)) + (h - D / 2))) by (unfold m, D; field).
  eapply Rle_trans; [apply Rabs_triang|]. eapply Rle_trans; [apply Rplus_le_compat_l, Rabs_triang|].
  pose proof (Rabs_pos (h - D / 2)). pose proof (Rabs_pos D). pose proof (Rabs_pos m). nra.
Qed.

Lemma c116_opposite_bisect :
  forall (prec emax : Z) (Hp : Prec_gt_0 prec) (He : Prec_lt_emax prec emax) (T a b : binary_float prec emax),
    is_finite T = true -> 0 < B2R T -> (2 <= prec)%Z -> bpow radix2 (3 - emax) <= B2R T ->
    (is_finite (a + fa_half_turn T)%N_ = true -> 0 <= B2R (fa_opposite T a) <= B2R T /\
       exists k : Z, Rabs (B2R (fa_opposite T a) - (B2R a + B2R T / 2 + IZR k * B2R T)) <=
         bpow radix2 (- prec) * (Rabs (B2R a + B2R T / 2) + B2R T)) /\
    (is_finite ((b - a) * ndiv 1 fa_two + a)%N_ = true -> 0 <= B2R (fa_bisect T a b) <= B2R T /\
       exists k : Z, Rabs (B2R (fa_bisect T a b) - ((B2R a + B2R b) / 2 + IZR k * B2R T)) <=
         3 * bpow radix2 (- prec) * (Rabs ((B2R a + B2R b) / 2) + Rabs (B2R b - B2R a) + B2R T)).
Proof.
  intros prec emax Hp He T a b FT PT P2 BT. split.
  - intros F. destruct (half_turn T FT PT P2 BT) as (H1 & H2). destruct (fa_normalize_spec T FT PT _ F) as (A & B & k & K1 & K2 & _).
    split; [exact B|]. exists k. destruct (fadd_err _ _ F) as (d & D1 & D2). rewrite H2 in D2.
    set (x := (B2R a + B2R T / 2)) in *. unfold fa_opposite. set (y := B2R (a + fa_half_turn T)%N_) in *. set (r := B2R (fa_normalize T _)) in *.
    assert (U : @funit prec = bpow radix2 (- prec)).
    { unfold funit. replace (- prec + 1)%Z with (1 + - prec)%Z by lia. rewrite bpow_plus. cbn. lra. }
    rewrite U in D1. assert (Y : Rabs (y - x) <= bpow radix2 (- prec) * Rabs x).
    { rewrite D2. replace (x * (1 + d) - x) with (d * x) by ring. rewrite Rabs_mult. apply Rmult_le_compat_r; [apply Rabs_pos|exact D1]. }
    assert (V : bpow radix2 (- prec) * (y + IZR k * B2R T) <= bpow radix2 (- prec) * B2R T) by (apply Rmult_le_compat_l; [apply bpow_ge_0|lra]).
    replace (r - (x + IZR k * B2R T)) with ((r - (y + IZR k * B2R T)) + (y - x)) by ring.
    eapply Rle_trans; [apply Rabs_triang|]. lra.
  - intros F. destruct (fa_normalize_spec T FT PT _ F) as (A & B & k & K1 & K2 & _).
    split; [exact B|]. exists k. exact (bisect_err T a b k FT PT P2 BT F K1 K2).
Qed.

Lemma c116_example :
  B2SF (fa_normalize f64_full_degrees (f64_of_Z 450)) = B2SF (f64_of_Z 90) /\
  B2SF (fa_normalize f64_full_degrees (f64_of_Z (-90))) = B2SF (f64_of_Z 270) /\
  B2SF (fa_normalize_signed f64_full_degrees (f64_of_Z 270)) = B2SF (f64_of_Z (-90)) /\
  is_finite f64_full_degrees = true /\ bpow radix2 (3 - 1024) <= B2R f64_full_degrees.
Proof.
  conjs; try (vm_compute; reflexivity). unfold f64_full_degrees. rewrite (proj1 (f64_of_Z_exact 360 ltac:(reflexivity))).
  apply (Rle_trans _ (bpow radix2 0)); [apply bpow_le; lia|cbn; lra].
Qed.
