(** Proofs of the theorems of PInv.v: statements and examples. *)

From Coq Require Import List Arith ZArith Bool Lia Reals Lra Psatz.
From Flocq Require Import Core.Core Relative IEEE754.BinarySingleNaN.
From Verif Require Import Base Scalar Spec SpecF SpecCplx SpecInv SpecLibm SpecCR MReal MVector MFloat MFloatVec MSign MComplex MComplexF
  LBase LVector LReal LFloat LFloatP LFloatVec LFloatNormP LComplexHP LComplexIP LComplexJP LComplexKP LComplexLP LLibmP LTrScF LSlerpS LDegF LDegFP LAngleFP LCplxF LCplxFP LCplxFQ
  LInvA LInvB LInvC LInvD LInvE LInvF LInvG LInvH LInvI.
Local Open Scope R_scope.

Lemma c144_acosh :
  forall (prec emax : Z) (Hp : Prec_gt_0 prec) (He : Prec_lt_emax prec emax) (L : libm (binary_float prec emax)) (d : R) (z : complex (binary_float prec emax)) (k : Z),
    (24 <= prec)%Z -> bpow radix2 (- prec) <= d <= / 65536 -> cis_finite z = true -> (2 * k + 40 <= emax)%Z ->
    let a := B2R (re z) in let b := B2R (im z) in
    bpow radix2 (1 - k) <= nm (a + 1) b <= bpow radix2 k -> bpow radix2 (1 - k) <= nm (a - 1) b <= bpow radix2 k -> b = 0 \/ bpow radix2 (3 - emax) <= Rabs b ->
    let s := cdiv (cadd z cone) (cadd cone cone) in let t := cdiv (csub z cone) (cadd cone cone) in
    root_at d L s -> root_at d L t -> log_at d L (cadd (fc_sqrt L s) (fc_sqrt L t)) ->
    exists X Y : R, 0 <= X /\ - PI <= Y <= PI /\ cosh X * cos Y = a /\ sinh X * sin Y = b /\
      fnear (re (fc_acosh L z)) X (d * X + 150 * d) /\ fnear (im (fc_acosh L z)) Y (150 * d).
Proof. intros prec emax Hp He L d z k H24 Hd F K. exact (acosh_near H24 L d Hd z k F K). Qed.

Lemma c144_asinh :
  forall (prec emax : Z) (Hp : Prec_gt_0 prec) (He : Prec_lt_emax prec emax) (L : libm (binary_float prec emax)) (d : R) (z : complex (binary_float prec emax)) (kappa : R) (k : Z),
    (24 <= prec)%Z -> bpow radix2 (- prec) <= d <= / 65536 -> cis_finite z = true -> (prec <= k)%Z -> (2 * k + 40 <= emax)%Z ->
    let a := B2R (re z) in let b := B2R (im z) in
    1 + a * a + b * b <= bpow radix2 k -> a * b = 0 \/ bpow radix2 (3 - emax) <= Rabs (a * b) -> 0 <= a -> (a = 0 -> -1 <= b) ->
    1 + a * a + b * b <= kappa * nm (1 + (a * a - b * b)) (2 * a * b) -> d * kappa <= / 65536 ->
    let s := cadd cone (cmul z z) in root_at d L s -> log_at d L (cadd z (fc_sqrt L s)) ->
    exists X Y : R, 0 <= X /\ - (PI / 2) <= Y <= PI / 2 /\ sinh X * cos Y = a /\ cosh X * sin Y = b /\
      fnear (re (fc_asinh L z)) X (d * X + 60 * (d * kappa)) /\ fnear (im (fc_asinh L z)) Y (60 * (d * kappa)).
Proof. intros prec emax Hp He L d z kappa k H24 Hd F K1 K2. exact (asinh_near H24 L d Hd z kappa k F K1 K2). Qed.

Lemma c144_atanh :
  forall (prec emax : Z) (Hp : Prec_gt_0 prec) (He : Prec_lt_emax prec emax) (L : libm (binary_float prec emax)) (d : R) (z : complex (binary_float prec emax)) (k : Z),
    (24 <= prec)%Z -> bpow radix2 (- prec) <= d <= / 65536 -> cis_finite z = true -> (0 <= k)%Z -> (2 * k + 40 <= emax)%Z ->
    let a := B2R (re z) in let b := B2R (im z) in let r := nm (1 + a) b in let t := nm (1 - a) b in
    bpow radix2 (- k) <= r <= bpow radix2 k -> bpow radix2 (- k) <= t <= bpow radix2 k ->
    log_at d L (cadd cone z) -> log_at d L (csub cone z) ->
    exists X Y : R, X = (ln r - ln t) / 2 /\ - (PI / 2) <= Y <= PI / 2 /\
      sinh X * cos Y = a * (cosh X * cos Y) - b * (sinh X * sin Y) /\ cosh X * sin Y = a * (sinh X * sin Y) + b * (cosh X * cos Y) /\
      fnear (re (fc_atanh L z)) X (3 * d * (Rabs (ln r) + Rabs (ln t)) + 13 * d) /\ fnear (im (fc_atanh L z)) Y (25 * d).
Proof. intros prec emax Hp He L d z k H24 Hd F K1 K2. exact (atanh_near H24 L d Hd z k F K1 K2). Qed.

Lemma c144_acos :
  forall (prec emax : Z) (Hp : Prec_gt_0 prec) (He : Prec_lt_emax prec emax) (L : libm (binary_float prec emax)) (d : R) (z : complex (binary_float prec emax)) (kappa : R) (k : Z),
    (24 <= prec)%Z -> bpow radix2 (- prec) <= d <= / 65536 -> cis_finite z = true -> (prec <= k)%Z -> (2 * k + 40 <= emax)%Z ->
    let a := B2R (re z) in let b := B2R (im z) in
    (a <> 0 \/ b <> 0) -> 1 + a * a + b * b <= bpow radix2 k -> a * b = 0 \/ bpow radix2 (3 - emax) <= Rabs (a * b) -> 0 <= b -> (b = 0 -> a <= 1) ->
    1 + a * a + b * b <= kappa * nm (1 - (a * a - b * b)) (2 * a * b) -> d * kappa <= / 65536 ->
    let s := csub cone (cmul z z) in let w := cadd (cmul cunit_im (fc_sqrt L s)) z in root_at d L s -> log_at d L w -> (0 <= a \/ 0 <= B2R (im w)) ->
    exists X Y : R, 0 <= X <= PI /\ Y <= 0 /\ cos X * cosh Y = a /\ - (sin X * sinh Y) = b /\
      fnear (re (fc_acos L z)) X (60 * (d * kappa)) /\ fnear (im (fc_acos L z)) Y (d * Rabs Y + 60 * (d * kappa)).
Proof. intros prec emax Hp He L d z kappa k H24 Hd F K1 K2. exact (acos_near H24 L d Hd z kappa k F K1 K2). Qed.

Lemma c144_asin :
  forall (prec emax : Z) (Hp : Prec_gt_0 prec) (He : Prec_lt_emax prec emax) (L : libm (binary_float prec emax)) (d : R) (z : complex (binary_float prec emax)) (kappa : R) (k : Z),
    (24 <= prec)%Z -> bpow radix2 (- prec) <= d <= / 65536 -> cis_finite z = true -> (prec <= k)%Z -> (2 * k + 40 <= emax)%Z ->
    let a := B2R (re z) in let b := B2R (im z) in
    1 + a * a + b * b <= bpow radix2 k -> a * b = 0 \/ bpow radix2 (3 - emax) <= Rabs (a * b) -> b <= 0 -> (b = 0 -> -1 <= a) ->
    1 + a * a + b * b <= kappa * nm (1 - (a * a - b * b)) (2 * a * b) -> d * kappa <= / 65536 ->
    let z' := mkC (nneg (im z)) (re z) in let s := cadd cone (cmul z' z') in root_at d L s -> log_at d L (cadd z' (fc_sqrt L s)) ->
    exists X Y : R, - (PI / 2) <= X <= PI / 2 /\ Y <= 0 /\ sin X * cosh Y = a /\ cos X * sinh Y = b /\
      fnear (re (fc_asin L z)) X (60 * (d * kappa)) /\ fnear (im (fc_asin L z)) Y (d * Rabs Y + 60 * (d * kappa)).
Proof. intros prec emax Hp He L d z kappa k H24 Hd F K1 K2. exact (asin_near H24 L d Hd z kappa k F K1 K2). Qed.

Lemma c144_atan :
  forall (prec emax : Z) (Hp : Prec_gt_0 prec) (He : Prec_lt_emax prec emax) (L : libm (binary_float prec emax)) (d : R) (z : complex (binary_float prec emax)) (k : Z),
    (24 <= prec)%Z -> bpow radix2 (- prec) <= d <= / 65536 -> cis_finite z = true -> (0 <= k)%Z -> (2 * k + 40 <= emax)%Z ->
    let a := B2R (re z) in let b := B2R (im z) in let r := nm a (1 - b) in let t := nm a (1 + b) in
    bpow radix2 (- k) <= r <= bpow radix2 k -> bpow radix2 (- k) <= t <= bpow radix2 k ->
    let z' := mkC (nneg (im z)) (re z) in log_at d L (cadd cone z') -> log_at d L (csub cone z') ->
    exists X Y : R, - (PI / 2) <= X <= PI / 2 /\ Y = (ln t - ln r) / 2 /\
      sin X * cosh Y = a * (cos X * cosh Y) + b * (sin X * sinh Y) /\ cos X * sinh Y = b * (cos X * cosh Y) - a * (sin X * sinh Y) /\
      fnear (re (fc_atan L z)) X (25 * d) /\ fnear (im (fc_atan L z)) Y (3 * d * (Rabs (ln r) + Rabs (ln t)) + 13 * d).
Proof. intros prec emax Hp He L d z k H24 Hd F K1 K2. exact (atan_near H24 L d Hd z k F K1 K2). Qed.

(** *** Where the formulas fail *)
Lemma ln_mono x y : 0 < x -> x <= y -> ln x <= ln y.
Proof. intros X [H|H]; [left; apply ln_increasing; assumption|rewrite H; apply Rle_refl]. Qed.
Lemma arsinh_pow k : (0 <= k)%Z -> exists Y, 0 <= Y <= IZR k + 2 /\ sinh Y = bpow radix2 k.
Proof.
  intros K. set (q := bpow radix2 k). assert (Q1 : 1 <= q) by (apply (bpow_le radix2 0); exact K). exists (arcsinh q). split; [|apply sinh_arcsinh].
  unfold arcsinh. set (w := q + sqrt (q ^ 2 + 1)).
  assert (S : 0 <= sqrt (q ^ 2 + 1) <= 2 * q).
  { split; [apply sqrt_pos|]. apply Rsqr_incr_0_var; [|lra]. unfold Rsqr. rewrite sqrt_sqrt by nra. nra. }
  assert (W : 1 <= w <= 4 * q) by (unfold w; lra). split.
  - rewrite <- ln_1. apply ln_mono; lra.
  - apply Rle_trans with (ln (4 * q)); [apply ln_mono; lra|].
    replace (4 * q) with (bpow radix2 (k + 2)) by (unfold q; rewrite bpow_plus; change (bpow radix2 2) with 4; ring).
    rewrite bpow_exp, ln_exp, plus_IZR. change (IZR radix2) with 2. pose proof ln_lt_2 as L2. assert (ln 2 <= 1) by (pose proof (exp_ineq1_le 1) as E; rewrite <- (ln_exp 1); apply ln_mono; lra).
    apply IZR_le in K. apply Rle_trans with ((IZR k + 2) * 1); [apply Rmult_le_compat_l; lra|lra].
Qed.

Lemma c144_cancellation_refuted :
  (forall L : libm f64, libm_special L -> exists (z w : complex f64) (Y : R),
     cis_finite z = true /\ B2R (re z) = - sinh Y /\ B2R (im z) = 0 /\ 0 <= Y <= 29 /\ fc_asinh L z = mkC (B754_infinity true) (B754_zero false) /\
     cis_finite w = true /\ B2R (re w) = cos (PI / 2) * cosh Y /\ B2R (im w) = - (sin (PI / 2) * sinh Y) /\ fc_acos L w = mkC B754_nan (B754_infinity false)) /\
  (forall L : libm f32, libm_special L -> exists (z w : complex f32) (Y : R),
     cis_finite z = true /\ B2R (re z) = - sinh Y /\ B2R (im z) = 0 /\ 0 <= Y <= 14 /\ fc_asinh L z = mkC (B754_infinity true) (B754_zero false) /\
     cis_finite w = true /\ B2R (re w) = cos (PI / 2) * cosh Y /\ B2R (im w) = - (sin (PI / 2) * sinh Y) /\ fc_acos L w = mkC B754_nan (B754_infinity false)).
Proof.
  split; intros L P.
  - destruct (arsinh_pow 27 ltac:(lia)) as (Y & Y0 & SY). assert (V : B2R (f64_of_Z (- 2 ^ 27)) = - bpow radix2 27).
    { destruct (lit_val (Bopp (f64_of_Z (- 2 ^ 27))) (2 ^ 52) (-25) ltac:(vm_compute; reflexivity)) as (_ & E). rewrite B2R_Bopp in E. change (IZR (Z.pos (2 ^ 52))) with (bpow radix2 52) in E. rewrite <- bpow_plus in E. change (52 + -25)%Z with 27%Z in E. lra. }
    exists (mkC (f64_of_Z (- 2 ^ 27)) (B754_zero false)), (mkC (B754_zero false) (f64_of_Z (- 2 ^ 27))), Y. cbn [re im]. rewrite cos_PI2, sin_PI2, SY.
    split; [reflexivity|]. split; [exact V|]. split; [reflexivity|]. split; [lra|]. split; [exact (asinh64 L P)|]. split; [reflexivity|]. split; [cbn; ring|]. split; [rewrite Rmult_1_l; exact V|exact (acos64 L P)].
  - destruct (arsinh_pow 12 ltac:(lia)) as (Y & Y0 & SY). assert (V : B2R (f32_of_Z (- 2 ^ 12)) = - bpow radix2 12).
    { destruct (lit_val (Bopp (f32_of_Z (- 2 ^ 12))) (2 ^ 23) (-11) ltac:(vm_compute; reflexivity)) as (_ & E). rewrite B2R_Bopp in E. change (IZR (Z.pos (2 ^ 23))) with (bpow radix2 23) in E. rewrite <- bpow_plus in E. change (23 + -11)%Z with 12%Z in E. lra. }
    exists (mkC (f32_of_Z (- 2 ^ 12)) (B754_zero false)), (mkC (B754_zero false) (f32_of_Z (- 2 ^ 12))), Y. cbn [re im]. rewrite cos_PI2, sin_PI2, SY.
    split; [reflexivity|]. split; [exact V|]. split; [reflexivity|]. split; [lra|]. split; [exact (asinh32 L P)|]. split; [reflexivity|]. split; [cbn; ring|]. split; [rewrite Rmult_1_l; exact V|exact (acos32 L P)].
Qed.

Lemma c144_branch_refuted :
  forall nb : bool, exists z : complex f32, cis_finite z = true /\ B2R (re z) = -2 /\ B2R (im z) = 0 /\ (exists Y, Y <= 0 /\ cos PI * cosh Y = -2 /\ - (sin PI * sinh Y) = 0) /\
    is_finite (re (fc_acos (cr_libm nb) z)) = true /\ B2R (re (fc_acos (cr_libm nb) z)) <= -3.
Proof.
  intros nb. exists (mkC (f32_of_Z (-2)) (B754_zero false)). destruct lit32 as ((F & V) & _). split; [reflexivity|]. split; [exact V|]. split; [reflexivity|]. split; [|exact (acos_2 nb)].
  pose proof (sqrt_sqrt 3 ltac:(lra)) as S3. pose proof (sqrt_pos 3) as P3. set (q := 2 + sqrt 3). assert (Q : 1 <= q) by (unfold q; lra). exists (- ln q).
  rewrite cos_PI, sin_PI, cosh_opp. split; [assert (ln 1 <= ln q) by (apply ln_mono; lra); rewrite ln_1 in H; lra|]. split; [|ring].
  unfold cosh. rewrite exp_Ropp, exp_ln by lra. assert (I : / q = 2 - sqrt 3) by (apply (Rmult_eq_reg_l q); [rewrite Rinv_r by lra; unfold q; lra|lra]). rewrite I. unfold q. lra.
Qed.

Section Small.
Variable L : libm f64.
Hypothesis P : libm_special L.
Hypothesis L1 : m_ln L (f64_of_Z 1) = B754_zero false.
Notation p x := (mkC x (B754_zero false) : complex f64).
Definition tiny60 : f64 := ndiv (f64_of_Z 1) (f64_of_Z (2 ^ 60)).
Definition huge600 : f64 := f64_of_Z (2 ^ 600).
Lemma tiny60_val : is_finite tiny60 = true /\ B2R tiny60 = bpow radix2 (-60).
Proof.
  assert (E : B2SF tiny60 = SpecFloat.S754_finite false (2 ^ 52) (-112)) by (vm_compute; reflexivity). destruct (lit_val _ _ _ E) as (F & V). split; [exact F|]. rewrite V.
  change (IZR (Z.pos (2 ^ 52))) with (bpow radix2 52). rewrite <- bpow_plus. reflexivity.
Qed.
Lemma one64 : is_finite (f64_of_Z 1) = true /\ 0 < B2R (f64_of_Z 1).
Proof. destruct (f64_of_Z_exact 1) as (A & B); [cbn; lia|]. split; [exact B|]. rewrite A. lra. Qed.
Lemma ln_1c : fc_ln L (p (f64_of_Z 1)) = p (B754_zero false).
Proof. unfold fc_ln, fc_arg. cbn [re im]. destruct one64 as (F & Q). rewrite (sp_atan2_pos L P _ F Q). replace (fc_norm (p (f64_of_Z 1))) with (f64_of_Z 1) by (unfold fc_norm; lit). exact (f_equal (fun x : f64 => p x) L1). Qed.
Lemma root_1c : fc_sqrt L (p (f64_of_Z 1)) = p (f64_of_Z 1).
Proof.
  unfold fc_sqrt, fc_arg. cbv zeta. cbn [re im]. destruct one64 as (F & Q). rewrite (sp_atan2_pos L P _ F Q).
  change ((B754_zero false / (n1 + n1))%N_ : f64) with (B754_zero false : f64). rewrite (sp_cos_0 L P), (sp_sin_0 L P). unfold fc_norm. f_equal; lit.
Qed.
Lemma asinh_tiny : fc_asinh L (p tiny60) = p (B754_zero false).
Proof.
  unfold fc_asinh. cbn [re im]. change (fis_infinite tiny60) with false. change (is_nan tiny60) with false. change (fis_infinite (B754_zero false : f64)) with false. cbv iota.
  replace (cadd cone (cmul (p tiny60) (p tiny60))) with (p (f64_of_Z 1)) by (unfold cadd, cmul; f_equal; lit). rewrite root_1c.
  replace (cadd _ _) with (p (f64_of_Z 1)) by (unfold cadd; f_equal; lit). exact ln_1c.
Qed.
Lemma atanh_tiny : fc_atanh L (p tiny60) = p (B754_zero false).
Proof.
  rewrite atanh_finite by reflexivity. replace (fc_eqb (p tiny60) cone) with false by (vm_compute; reflexivity). replace (fc_eqb (p tiny60) (cneg cone)) with false by (vm_compute; reflexivity). cbv iota.
  unfold atanh_body. replace (cadd cone (p tiny60)) with (p (f64_of_Z 1)) by (unfold cadd; f_equal; lit). replace (csub cone (p tiny60)) with (p (f64_of_Z 1)) by (unfold csub; f_equal; lit). rewrite ln_1c. unfold cdiv, csub. cbv zeta. f_equal; lit.
Qed.
Lemma atanh_huge (s : bool) : fc_atanh L (mkC huge600 (B754_zero false)) = mkC B754_nan (im (fc_atanh L (mkC huge600 (B754_zero false)))).
Proof.
  rewrite atanh_finite by reflexivity. replace (fc_eqb (p huge600) cone) with false by (vm_compute; reflexivity). replace (fc_eqb (p huge600) (cneg cone)) with false by (vm_compute; reflexivity). cbv iota.
  unfold atanh_body, fc_ln, csub at 1. cbn [re im]. replace (fc_norm (cadd cone (p huge600))) with (B754_infinity false : f64) by (symmetry; unfold fc_norm; lit).
  replace (fc_norm (csub cone (p huge600))) with (B754_infinity false : f64) by (symmetry; unfold fc_norm; lit). rewrite (sp_ln_inf L P). reflexivity.
Qed.
End Small.

Lemma c144_small_refuted :
  forall L : libm f64, libm_special L -> m_ln L (f64_of_Z 1) = B754_zero false ->
    (exists (z : complex f64) (X Y : R), cis_finite z = true /\ B2R (re z) = sinh X /\ B2R (re z) * cosh Y = sinh Y /\ B2R (im z) = 0 /\ 0 < X /\ 0 < Y /\
      fc_asinh L z = mkC (B754_zero false) (B754_zero false) /\ fc_atanh L z = mkC (B754_zero false) (B754_zero false)) /\
    (exists z : complex f64, cis_finite z = true /\ B2R (re z) = bpow radix2 600 /\ B2R (im z) = 0 /\ re (fc_atanh L z) = B754_nan).
Proof.
  intros L P L1. split.
  - destruct tiny60_val as (F & V). set (q := bpow radix2 (-60)) in *. assert (Q : 0 < q <= / 2) by (split; [apply bpow_gt_0|apply (bpow_le radix2 (-60) (-1)); lia]).
    exists (mkC tiny60 (B754_zero false)), (arcsinh q), (ln ((1 + q) / (1 - q)) / 2). cbn [re im]. rewrite V, sinh_arcsinh. split; [reflexivity|]. split; [reflexivity|].
    assert (G : 1 < (1 + q) / (1 - q)) by (apply (Rmult_lt_reg_r (1 - q)); [lra|]; unfold Rdiv; rewrite Rmult_assoc, Rinv_l by lra; lra).
    split; [|split; [reflexivity|split; [|split; [|split; [exact (asinh_tiny L P L1)|exact (atanh_tiny L P L1)]]]]].
    + set (h := ln ((1 + q) / (1 - q)) / 2). assert (E : exp h * exp h = (1 + q) / (1 - q)) by (rewrite <- exp_plus; unfold h; replace (ln ((1 + q) / (1 - q)) / 2 + ln ((1 + q) / (1 - q)) / 2) with (ln ((1 + q) / (1 - q))) by field; apply exp_ln; lra).
      unfold cosh, sinh. pose proof (exp_pos h) as EP. rewrite exp_Ropp. set (x := exp h) in *. apply (Rmult_eq_reg_r (2 * x)); [|lra].
      transitivity (q * (x * x + 1)); [field; lra|]. transitivity (x * x - 1); [|field; lra]. rewrite E. field. lra.
    + unfold arcsinh. rewrite <- ln_1. apply ln_increasing; [lra|]. assert (1 <= sqrt (q ^ 2 + 1)) by (rewrite <- sqrt_1 at 1; apply sqrt_le_1; nra). lra.
    + assert (0 < ln ((1 + q) / (1 - q))) by (rewrite <- ln_1; apply ln_increasing; lra). lra.
  - exists (mkC huge600 (B754_zero false)). split; [reflexivity|]. split; [|split; [reflexivity|rewrite (atanh_huge L P false); reflexivity]].
    destruct (lit_val huge600 (2 ^ 52) 548 ltac:(vm_compute; reflexivity)) as (_ & E). cbn [re]. rewrite E. change (IZR (Z.pos (2 ^ 52))) with (bpow radix2 52). rewrite <- bpow_plus. reflexivity.
Qed.
