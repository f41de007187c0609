(** The correctly rounded library meets the requirements of SpecLibm.v. *)

From Coq Require Import ZArith Bool Reals Lia Lra.
From Flocq Require Import Core.Core IEEE754.BinarySingleNaN.
From Verif Require Import Base Scalar MReal MComplex MFloat MSign MComplexF SpecLibm SpecCR LFloat LReal LAngleFP LComplexFP.
Local Open Scope R_scope.

Section CRL.
Context {prec emax : Z} {Hprec : Prec_gt_0 prec} {Hemax : Prec_lt_emax prec emax}.
Notation fl := (binary_float prec emax).
Notation fexp := (FLT_exp (3 - emax - prec) prec).
Notation rnd := (round radix2 fexp ZnearestE).

Local Instance vexp : Valid_exp fexp := FLT_exp_valid _ _.

Lemma set_sign_R b (x : fl) : B2R (fset_sign b x) = if b then - Rabs (B2R x) else Rabs (B2R x).
Proof.
  destruct x as [s|s| |s m e H]; cbn [fset_sign B2R]; try (destruct b; rewrite Rabs_R0; lra).
  rewrite <- F2R_Zabs, abs_cond_Zopp. destruct b; cbn [cond_Zopp Z.abs]; [rewrite <- F2R_Zopp|]; reflexivity.
Qed.
Lemma set_sign_fin b (x : fl) : is_finite (fset_sign b x) = is_finite x.
Proof. destruct x; reflexivity. Qed.
Lemma set_sign_sign b (x : fl) : is_nan x = false -> Bsign (fset_sign b x) = b.
Proof. destruct x; try discriminate; reflexivity. Qed.
Lemma set_sign_neg b (x : fl) : fset_sign b (- x)%N_ = fset_sign b x.
Proof. destruct x; reflexivity. Qed.
Lemma set_sign_negb b (x : fl) : fset_sign (negb b) x = (- fset_sign b x)%N_.
Proof. destruct x; reflexivity. Qed.
Lemma set_sign_id (x : fl) : fset_sign (Bsign x) x = x.
Proof. destruct x; reflexivity. Qed.
Lemma fin_nan (x : fl) : is_finite x = true -> is_nan x = false.
Proof. destruct x; try discriminate; reflexivity. Qed.

Lemma nearestE_opp x : ZnearestE (- x) = (- ZnearestE x)%Z.
Proof.
  rewrite Znearest_opp. f_equal. unfold Znearest. destruct (Rcompare _ _); try reflexivity.
  rewrite Z.even_opp, Z.add_1_r, Z.even_succ, <- Z.negb_even, !negb_involutive. reflexivity.
Qed.

Lemma cr_sign_opp r s : cr_sign (- r) (negb s) = negb (cr_sign r s).
Proof. unfold cr_sign. repeat destruct Rlt_dec; try reflexivity; exfalso; lra. Qed.

Lemma cr_opp r s : cr (- r) (negb s) = (- (cr r s : fl))%N_.
Proof.
  unfold cr. rewrite round_NE_opp, Rabs_Ropp, cr_sign_opp by auto. destruct Rlt_dec as [Hlt|Hge]; [|reflexivity].
  rewrite set_sign_negb. f_equal. rewrite scaled_mantissa_opp, cexp_opp, nearestE_opp.
  set (m := ZnearestE _). destruct (Z.eq_dec m 0) as [->|N]; [reflexivity|].
  rewrite (binary_normalize_neg m _ false N). apply set_sign_neg.
Qed.

(** Without overflow the value is the rounded one. *)
Lemma cr_R r s : Rabs (rnd r) < bpow radix2 emax ->
  is_finite (cr r s : fl) = true /\ B2R (cr r s : fl) = rnd r /\ Bsign (cr r s : fl) = cr_sign r s.
Proof.
  intros H. unfold cr. destruct Rlt_dec as [_|N]; [|contradiction].
  set (m := ZnearestE _). set (e := Generic_fmt.cexp _ _ _).
  pose proof (binary_normalize_correct prec emax Hprec Hemax mode_NE m e false) as C. cbv zeta in C.
  assert (E : F2R (Float radix2 m e) = rnd r) by reflexivity.
  change (round radix2 (SpecFloat.fexp prec emax) (round_mode mode_NE) (F2R (Float radix2 m e)))
    with (rnd (F2R (Float radix2 m e))) in C.
  rewrite E in C.
  rewrite (round_generic radix2 fexp ZnearestE (rnd r)) in C by (apply generic_format_round; auto with typeclass_instances).
  rewrite Rlt_bool_true in C by exact H. destruct C as (C1 & C2 & _).
  repeat split.
  - rewrite set_sign_fin. exact C2.
  - rewrite set_sign_R, C1. unfold cr_sign. destruct Rlt_dec as [L|L]; [|destruct Rlt_dec as [G|G]].
    + rewrite Rabs_left1; [ring|]. rewrite <- (round_0 radix2 fexp ZnearestE). apply round_le; auto with typeclass_instances; lra.
    + apply Rabs_pos_eq. rewrite <- (round_0 radix2 fexp ZnearestE). apply round_le; auto with typeclass_instances; lra.
    + assert (r = 0) as -> by lra. rewrite round_0, Rabs_R0 by auto with typeclass_instances. destruct s; ring.
  - apply set_sign_sign, fin_nan, C2.
Qed.

Lemma fmt_bpow k : (3 - emax - prec <= k - 1)%Z -> generic_format radix2 fexp (bpow radix2 k).
Proof.
  intros H. apply generic_format_bpow. unfold FLT_exp. unfold Prec_gt_0 in Hprec. lia.
Qed.

Lemma rnd_le_bpow r k : (4 - emax - prec <= k)%Z -> Rabs r <= bpow radix2 k -> Rabs (rnd r) <= bpow radix2 k.
Proof.
  intros K H. apply Rabs_le. apply Rabs_le_inv in H. split.
  - rewrite <- (round_generic radix2 fexp ZnearestE (- bpow radix2 k)); [apply round_le; auto with typeclass_instances; lra|].
    apply generic_format_opp, fmt_bpow. lia.
  - rewrite <- (round_generic radix2 fexp ZnearestE (bpow radix2 k)); [apply round_le; auto with typeclass_instances; lra|].
    apply fmt_bpow. lia.
Qed.

Lemma cr_bounded r s k : (4 - emax - prec <= k < emax)%Z -> Rabs r <= bpow radix2 k ->
  is_finite (cr r s : fl) = true /\ Rabs (B2R (cr r s : fl)) <= bpow radix2 k /\ B2R (cr r s : fl) = rnd r /\ Bsign (cr r s : fl) = cr_sign r s.
Proof.
  intros K H. pose proof (rnd_le_bpow r k ltac:(lia) H) as B.
  destruct (cr_R r s) as (F & V & G).
  - eapply Rle_lt_trans; [exact B|]. apply bpow_lt. lia.
  - rewrite V. auto.
Qed.

Lemma cr_over r s : bpow radix2 emax <= r -> cr r s = B754_infinity false.
Proof.
  intros H. unfold cr. destruct Rlt_dec as [L|_].
  - exfalso. apply (Rlt_not_le _ _ L). pose proof (bpow_gt_0 radix2 emax).
    assert (bpow radix2 emax <= rnd r).
    { rewrite <- (round_generic radix2 fexp ZnearestE (bpow radix2 emax)); [apply round_le; auto with typeclass_instances|].
      apply fmt_bpow. unfold Prec_gt_0, Prec_lt_emax in *. lia. }
    rewrite Rabs_pos_eq; lra.
  - f_equal. unfold cr_sign. pose proof (bpow_gt_0 radix2 emax). destruct Rlt_dec; [lra|]. destruct Rlt_dec; [reflexivity|lra].
Qed.

Lemma cr_0 s : cr 0 s = B754_zero s.
Proof.
  unfold cr. rewrite round_0 by auto with typeclass_instances. rewrite Rabs_R0.
  destruct Rlt_dec as [_|N]; [|exfalso; apply N, bpow_gt_0].
  rewrite scaled_mantissa_0. replace (ZnearestE 0) with 0%Z by (symmetry; apply (Znearest_imp _ 0 0); rewrite Rminus_0_r, Rabs_R0; lra).
  change (fset_sign (cr_sign 0 s) (B754_zero false) = (B754_zero s : fl)). unfold cr_sign. destruct (Rlt_dec 0 0); [lra|]. reflexivity.
Qed.

Variable nb : bool.
Notation L := (cr_libm nb : libm fl).

Lemma cr_symmetric : libm_symmetric L.
Proof.
  split.
  - intros x. cbn [m_sin cr_libm]. rewrite fin_neg. destruct (is_finite x) eqn:F; [|reflexivity].
    cbn [nneg num_float]. rewrite B2R_Bopp, sin_neg, Bsign_Bopp by (apply fin_nan, F). apply cr_opp.
  - intros x. cbn [m_cos cr_libm]. rewrite fin_neg. destruct (is_finite x); [|reflexivity].
    cbn [nneg num_float]. rewrite B2R_Bopp, cos_neg. reflexivity.
  - intros x. cbn [m_sinh cr_libm]. rewrite fin_neg. destruct (is_finite x) eqn:F; [|reflexivity].
    cbn [nneg num_float]. rewrite B2R_Bopp, Bsign_Bopp by (apply fin_nan, F).
    replace (sinh (- B2R x)) with (- sinh (B2R x)) by (unfold sinh; rewrite Ropp_involutive; field). apply cr_opp.
  - intros x. cbn [m_cosh cr_libm]. rewrite fin_neg. destruct (is_finite x); [|apply abs_neg].
    cbn [nneg num_float]. rewrite B2R_Bopp.
    replace (cosh (- B2R x)) with (cosh (B2R x)) by (unfold cosh; rewrite Ropp_involutive; field). reflexivity.
  - intros y x. cbn [m_atan2 cr_libm]. unfold cr_atan2. rewrite nan_neg. destruct (is_nan y) eqn:Ny; [reflexivity|].
    cbn [orb]. destruct (is_nan x); [reflexivity|]. rewrite <- set_sign_negb. cbn [nneg num_float].
    rewrite Bsign_Bopp by exact Ny. rewrite B2R_Bopp, Rabs_Ropp. destruct y, x; reflexivity.
  - reflexivity.
Qed.

Hypothesis He5 : (6 <= emax)%Z.

Lemma PI_bounds : 2 <= PI <= 4.
Proof. split; [pose proof PI2_1; lra|pose proof PI_4; lra]. Qed.
Lemma ratan2_abs4 y x : Rabs (ratan2 y x) <= 4.
Proof. pose proof (ratan2_range x y). pose proof PI_bounds. apply Rabs_le. lra. Qed.

Lemma ln_bound (x : fl) : is_finite x = true -> 0 < B2R x -> Rabs (ln (B2R x)) <= bpow radix2 (emax - 2).
Proof.
  intros F P. assert (PE : (0 < prec < emax)%Z) by (unfold Prec_gt_0, Prec_lt_emax in *; lia).
  assert (Lo : bpow radix2 (3 - emax - prec) <= B2R x).
  { apply (generic_format_ge_bpow radix2 fexp); [intros; unfold FLT_exp; lia|exact P|apply generic_format_B2R]. }
  assert (Hi : B2R x < bpow radix2 emax).
  { pose proof (abs_B2R_lt_emax prec emax x) as H. rewrite Rabs_pos_eq in H by lra. exact H. }
  assert (LB : forall k, ln (bpow radix2 k) = IZR k * ln 2) by (intros k; rewrite bpow_exp; apply ln_exp).
  assert (L2 : 0 < ln 2 < 1).
  { split; [rewrite <- ln_1; apply ln_increasing; lra|]. rewrite <- (ln_exp 1). apply ln_increasing; [lra|].
    pose proof (exp_ineq1 1 ltac:(lra)). lra. }
  assert (L1 : IZR (3 - emax - prec) * ln 2 <= ln (B2R x)).
  { rewrite <- LB. destruct Lo as [Lo|Lo]; [left; apply ln_increasing; [apply bpow_gt_0|exact Lo]|rewrite Lo; lra]. }
  assert (L3 : ln (B2R x) <= IZR emax * ln 2) by (rewrite <- LB; left; apply ln_increasing; assumption).
  assert (B : IZR (2 * emax) <= bpow radix2 (emax - 2)).
  { rewrite <- IZR_Zpower by lia. apply IZR_le.
    assert (forall n : nat, 2 * (6 + Z.of_nat n) <= 2 ^ (4 + Z.of_nat n))%Z.
    { induction n as [|n IH]; [cbn; lia|]. rewrite Nat2Z.inj_succ. replace (4 + Z.succ (Z.of_nat n))%Z with (Z.succ (4 + Z.of_nat n)) by lia.
      rewrite Z.pow_succ_r by lia. lia. }
    specialize (H (Z.to_nat (emax - 6))). rewrite Z2Nat.id in H by lia.
    replace (6 + (emax - 6))%Z with emax in H by lia. replace (4 + (emax - 6))%Z with (emax - 2)%Z in H by lia. exact H. }
  assert (IZR (3 - emax - prec) >= - IZR (2 * emax)) by (rewrite <- opp_IZR; apply Rle_ge, IZR_le; lia).
  assert (0 < IZR emax) by (apply IZR_lt; lia). rewrite mult_IZR in *.
  apply Rabs_le. split; nra.
Qed.

Lemma cr_one : cr 1 false = (Bone : fl).
Proof.
  destruct (@fbone prec emax _ _) as (B & F & G).
  destruct (cr_bounded 1 false 0) as (F1 & _ & V & Sg); [unfold Prec_gt_0, Prec_lt_emax in *; lia|rewrite Rabs_R1; cbn; lra|].
  apply fval_eq; auto.
  - rewrite V, B. apply round_generic; [auto with typeclass_instances|]. apply (fmt_bpow 0). unfold Prec_gt_0, Prec_lt_emax in *; lia.
  - rewrite Sg, G. unfold cr_sign. destruct Rlt_dec; [lra|]. destruct Rlt_dec; [reflexivity|lra].
Qed.

Lemma cr_special : libm_special L.
Proof.
  assert (PE : (0 < prec < emax)%Z) by (unfold Prec_gt_0, Prec_lt_emax in *; lia).
  split.
  - intros x F. cbn [m_sin cr_libm]. rewrite F. destruct (cr_bounded (sin (B2R x)) (Bsign x) 0) as (A & B & _); auto; [lia|].
    apply Rabs_le. pose proof (SIN_bound (B2R x)). cbn. lra.
  - intros x F. cbn [m_cos cr_libm]. rewrite F. destruct (cr_bounded (cos (B2R x)) false 0) as (A & B & _); auto; [lia|].
    apply Rabs_le. pose proof (COS_bound (B2R x)). cbn. lra.
  - intros s. cbn [m_sin cr_libm is_finite B2R Bsign]. rewrite sin_0. apply cr_0.
  - intros s. cbn [m_cos cr_libm is_finite B2R Bsign]. rewrite cos_0. exact cr_one.
  - intros x F P. cbn [m_ln cr_libm]. destruct x as [s|s| |s m e H]; try discriminate F; [cbn in P; lra|].
    rewrite (pos_sign _ P). destruct (cr_bounded (ln (B2R (B754_finite s m e H))) false (emax - 2)) as (A & B & _); auto; [lia|].
    apply (ln_bound _ F P).
  - reflexivity.
  - reflexivity.
  - intros y x Fy Fx. cbn [m_atan2 cr_libm]. unfold cr_atan2. rewrite (fin_nan y Fy), (fin_nan x Fx). cbn [orb].
    assert (Q : forall u : fl, is_finite u = true /\ Rabs (B2R u) <= 4 ->
      is_finite (fset_sign (Bsign y) u) = true /\ Rabs (B2R (fset_sign (Bsign y) u)) <= 4).
    { intros u (U1 & U2). rewrite set_sign_fin, set_sign_R. split; [exact U1|]. destruct (Bsign y); rewrite ?Rabs_Ropp, Rabs_Rabsolu; exact U2. }
    apply Q.
    assert (P4 : is_finite (cr PI false : fl) = true /\ Rabs (B2R (cr PI false : fl)) <= 4).
    { destruct (cr_bounded PI false 2) as (A & B & _); [lia| |split; [exact A|exact B]]. pose proof PI_bounds. rewrite Rabs_pos_eq; cbn; lra. }
    assert (A4 : forall u v, is_finite (cr (ratan2 u v) false : fl) = true /\ Rabs (B2R (cr (ratan2 u v) false : fl)) <= 4).
    { intros u v. destruct (cr_bounded (ratan2 u v) false 2) as (A & B & _); [lia| |split; [exact A|exact B]]. pose proof (ratan2_abs4 u v). cbn; lra. }
    destruct y, x; try discriminate Fy; try discriminate Fx; try apply A4. destruct s0; [exact P4|split; [reflexivity|cbn; rewrite Rabs_R0; lra]].
  - intros x F P. cbn [m_atan2 cr_libm]. unfold cr_atan2. rewrite (fin_nan x F).
    destruct x as [s|s| |s m e H]; try discriminate F; [cbn in P; lra|]. cbn [is_nan orb Bsign B2R]. rewrite Rabs_R0.
    unfold ratan2. destruct Rlt_dec as [_|N]; [|contradiction]. unfold Rdiv. rewrite Rmult_0_l, atan_0, cr_0. reflexivity.
  - intros x F P. cbn [m_atan2 m_pi cr_libm]. unfold cr_atan2. rewrite (fin_nan x F).
    destruct x as [s|s| |s m e H]; try discriminate F; [cbn in P; lra|]. cbn [is_nan orb Bsign]. change (B2R (B754_zero false : fl)) with 0. rewrite Rabs_R0.
    unfold ratan2. destruct Rlt_dec as [N|_]; [lra|]. destruct Rlt_dec as [_|N]; [|contradiction]. destruct Rle_dec as [_|N]; [|lra].
    unfold Rdiv. rewrite Rmult_0_l, atan_0, Rplus_0_l.
    destruct (cr_bounded PI false 2) as (A & _ & _ & G); [lia|pose proof PI_bounds; rewrite Rabs_pos_eq; cbn; lra|].
    assert (G' : Bsign (cr PI false : fl) = false).
    { rewrite G. unfold cr_sign. pose proof PI_bounds. destruct Rlt_dec; [lra|]. destruct Rlt_dec; [reflexivity|lra]. }
    transitivity (fset_sign (Bsign (cr PI false : fl)) (cr PI false)); [now rewrite G'|apply set_sign_id].
  - reflexivity.
  - cbn [m_pi cr_libm]. pose proof PI_bounds as PB. destruct (cr_bounded PI false 2) as (A & B & C & _); [lia|rewrite Rabs_pos_eq; cbn; lra|].
    split; [exact A|]. split.
    + rewrite C. rewrite <- (round_generic radix2 fexp ZnearestE 2); [apply round_le; auto with typeclass_instances; lra|apply (fmt_bpow 1); lia].
    + apply Rabs_le_inv in B. cbn in B. lra.
  - reflexivity.
  - intros x F H. cbn [m_exp cr_libm]. destruct x; try discriminate F; apply cr_over, H.
  - intros x F H. cbn [m_sinh cr_libm]. rewrite F. apply cr_over, H.
  - intros x F H. cbn [m_cosh cr_libm]. rewrite F. apply cr_over, H.
  - intros s. cbn [m_sinh cr_libm is_finite B2R Bsign]. rewrite sinh_0. apply cr_0.
  - intros s. cbn [m_cosh cr_libm is_finite B2R]. rewrite cosh_0. exact cr_one.
Qed.
End CRL.
