(** Proofs of the theorems of PCplxG.v: statements and the example. *)

From Coq Require Import List Arith ZArith Bool Lia Reals Lra Psatz.
From Flocq Require Import Core.Core Relative IEEE754.BinarySingleNaN.
From Verif Require Import Base Scalar Spec SpecF SpecCplx SpecLibm SpecCR LBase MFloat LFloat LFloatP MFloatVec LFloatVec LFloatNormP MComplex MSign MComplexF MCplxG
  LTrScF LNormF LLibmP LSlerpS LSlerpW LDegF LDegFP LCplxF LCplxFP LCplxFQ LCplxG.
Local Open Scope R_scope.

Theorem c149_polar (prec emax : Z) {Hp : Prec_gt_0 prec} {He : Prec_lt_emax prec emax} (L : libm (binary_float prec emax)) (d : R) :
  bpow radix2 (- prec) <= d <= / 64 ->
  (forall a : binary_float prec emax, lib_at d cos (m_cos L) a -> lib_at d sin (m_sin L) a -> let t := B2R a in
     fnear (re (fc_from_angle L a)) (cos t) (d * Rabs (cos t)) /\ fnear (im (fc_from_angle L a)) (sin t) (d * Rabs (sin t))) /\
  (forall (z : complex (binary_float prec emax)) (r phi : R) (k : Z), (24 <= prec)%Z -> (0 <= k)%Z -> (2 * k + 31 <= emax)%Z -> cis_finite z = true ->
     B2R (re z) = r * cos phi -> B2R (im z) = r * sin phi -> - PI <= phi <= PI -> bpow radix2 (- k) <= r <= bpow radix2 k ->
     fnear (m_atan2 L (im z) (re z)) phi (d * Rabs phi) ->
     lib_at d cos (m_cos L) (m_atan2 L (im z) (re z)) -> lib_at d sin (m_sin L) (m_atan2 L (im z) (re z)) ->
     let w := fc_from_polar L (fst (fc_polar L z)) (snd (fc_polar L z)) in let c := 17 * d * r + bpow radix2 (2 - emax - prec) in
     fnear (fst (fc_polar L z)) r (8 * bpow radix2 (- prec) * r) /\ fnear (snd (fc_polar L z)) phi (d * Rabs phi) /\
     fnear (re w) (B2R (re z)) c /\ fnear (im w) (B2R (im z)) c).
Proof.
  intros D. split; [exact (from_angle_near L d)|]. intros z r phi k H24 K0 K Fz Ea Eb P R1 A C S w c.
  split; [exact (norm_polar H24 z r phi k Fz Ea Eb K0 K R1)|]. split; [exact A|].
  exact (round_trip L d D H24 z r phi k Fz Ea Eb P K0 K R1 A C S).
Qed.

Theorem c149_exp2 (prec emax : Z) {Hp : Prec_gt_0 prec} {He : Prec_lt_emax prec emax} (L : libm (binary_float prec emax)) (d : R) :
  bpow radix2 (- prec) <= d <= / 64 ->
  forall (exp2 : binary_float prec emax -> binary_float prec emax) (ln_2 : binary_float prec emax) (z : complex (binary_float prec emax)), is_finite (im z) = true ->
    let x := B2R (re z) in let y := B2R (im z) in let t := nmul (im z) ln_2 in
    let tiny := bpow radix2 (2 - emax - prec) in let h := 4 * d * Rabs y + tiny in let p := Rpower 2 x in
    fnear ln_2 (ln 2) (d * ln 2) -> lib_at d (Rpower 2) exp2 (re z) -> lib_at d cos (m_cos L) t -> lib_at d sin (m_sin L) t ->
    h <= / 4 -> p <= bpow radix2 (emax - 3) ->
    fnear (re (fc_exp2 L exp2 ln_2 z)) (p * cos (y * ln 2)) ((5 * d + 2 * h) * p + tiny) /\
    fnear (im (fc_exp2 L exp2 ln_2 z)) (p * sin (y * ln 2)) ((5 * d + 2 * h) * p + tiny).
Proof. intros D. exact (exp2_near L d D). Qed.

Theorem c149_log (prec emax : Z) {Hp : Prec_gt_0 prec} {He : Prec_lt_emax prec emax} (L : libm (binary_float prec emax)) (d : R) :
  bpow radix2 (- prec) <= d <= / 64 -> (24 <= prec)%Z ->
  forall (log : binary_float prec emax -> binary_float prec emax -> binary_float prec emax) (z : complex (binary_float prec emax)) (b : binary_float prec emax) (r phi : R) (k : Z),
    (0 <= k)%Z -> (2 * k + 31 <= emax)%Z -> cis_finite z = true ->
    B2R (re z) = r * cos phi -> B2R (im z) = r * sin phi -> - PI <= phi <= PI -> bpow radix2 (- k) <= r <= bpow radix2 k ->
    fnear (m_atan2 L (im z) (re z)) phi (d * Rabs phi) ->
    let q := ln (B2R b) in let l := ln (B2R (fc_norm z)) / q in q <> 0 -> Rabs (phi / q) <= bpow radix2 (emax - 2) ->
    fnear (log (fc_norm z) b) l (d * Rabs l) -> lib_at d ln (m_ln L) b ->
    fnear (re (fc_log L log z b)) (ln r / q) ((d * Rabs (ln r) + 10 * bpow radix2 (- prec)) / Rabs q) /\ near_rel (5 * d) (im (fc_log L log z b)) (phi / q).
Proof.
  intros D H24 log z b r phi k K0 K Fz Ea Eb P R1 A q l Q B Hl Hb. exact (log_near L d D H24 z r phi k Fz Ea Eb K0 K R1 A log b Q Hl Hb B).
Qed.

Theorem c149_log2_log10 (prec emax : Z) {Hp : Prec_gt_0 prec} {He : Prec_lt_emax prec emax} (L : libm (binary_float prec emax)) (d : R) :
  bpow radix2 (- prec) <= d <= / 64 -> (24 <= prec)%Z ->
  forall (ln_2 ln_10 : binary_float prec emax) (z : complex (binary_float prec emax)) (r phi : R) (k : Z),
    fnear ln_2 (ln 2) (d * ln 2) -> fnear ln_10 (ln 10) (d * ln 10) ->
    (0 <= k)%Z -> (2 * k + 31 <= emax)%Z -> cis_finite z = true ->
    B2R (re z) = r * cos phi -> B2R (im z) = r * sin phi -> - PI <= phi <= PI -> bpow radix2 (- k) <= r <= bpow radix2 k ->
    fnear (m_atan2 L (im z) (re z)) phi (d * Rabs phi) -> lib_at d ln (m_ln L) (fc_norm z) ->
    let e q := (4 * d * Rabs (ln r) + 11 * bpow radix2 (- prec)) / q + bpow radix2 (2 - emax - prec) in
    (fnear (re (fc_log2 L ln_2 z)) (ln r / ln 2) (e (ln 2)) /\ near_rel (5 * d) (im (fc_log2 L ln_2 z)) (phi / ln 2)) /\
    (fnear (re (fc_log10 L ln_10 z)) (ln r / ln 10) (e (ln 10)) /\ near_rel (5 * d) (im (fc_log10 L ln_10 z)) (phi / ln 10)).
Proof.
  intros D H24 l2 l10 z r phi k C2 C10 K0 K Fz Ea Eb P R1 A Hl e. pose proof ln2_bounds as LB.
  split; [exact (ln_div L d D H24 z r phi k Fz Ea Eb P K0 K R1 A Hl l2 (ln 2) ltac:(lra) C2)|].
  refine (ln_div L d D H24 z r phi k Fz Ea Eb P K0 K R1 A Hl l10 (ln 10) _ C10). assert (ln 2 <= ln 10) by (left; apply ln_increasing; lra). lra.
Qed.

Theorem c149_exp_of_ln (prec emax : Z) {Hp : Prec_gt_0 prec} {He : Prec_lt_emax prec emax} (L : libm (binary_float prec emax)) (d : R) :
  bpow radix2 (- prec) <= d <= / 64 -> (24 <= prec)%Z ->
  forall (z : complex (binary_float prec emax)) (r phi : R) (k : Z), (0 <= k)%Z -> (2 * k + 31 <= emax)%Z -> cis_finite z = true ->
    B2R (re z) = r * cos phi -> B2R (im z) = r * sin phi -> - PI <= phi <= PI -> bpow radix2 (- k) <= r <= bpow radix2 k ->
    fnear (m_atan2 L (im z) (re z)) phi (d * Rabs phi) -> lib_at d ln (m_ln L) (fc_norm z) ->
    let w := fc_ln L z in let h := 10 * d * (1 + Rabs (ln r)) in h <= / 5 ->
    lib_at d exp (m_exp L) (re w) -> lib_at d cos (m_cos L) (im w) -> lib_at d sin (m_sin L) (im w) ->
    let c := (6 * d + 3 * h) * r + bpow radix2 (2 - emax - prec) in
    fnear (re (fc_exp L w)) (B2R (re z)) c /\ fnear (im (fc_exp L w)) (B2R (im z)) c.
Proof.
  intros D H24 z r phi k K0 K Fz Ea Eb P R1 A Hl w h H E C S c. exact (exp_ln_near L d D H24 z r phi k Fz Ea Eb P K0 K R1 A Hl H E C S).
Qed.

Theorem c149_powc (prec emax : Z) {Hp : Prec_gt_0 prec} {He : Prec_lt_emax prec emax} (L : libm (binary_float prec emax)) (d : R) :
  bpow radix2 (- prec) <= d <= / 64 -> (24 <= prec)%Z ->
  forall (z e : complex (binary_float prec emax)) (r phi : R) (k : Z), (0 <= k)%Z -> (2 * k + 31 <= emax)%Z -> cis_finite z = true ->
    B2R (re z) = r * cos phi -> B2R (im z) = r * sin phi -> - PI <= phi <= PI -> bpow radix2 (- k) <= r <= bpow radix2 k ->
    fnear (m_atan2 L (im z) (re z)) phi (d * Rabs phi) -> lib_at d ln (m_ln L) (fc_norm z) ->
    cis_finite e = true -> let a := B2R (re e) in let b := B2R (im e) in a <> 0 \/ b <> 0 ->
    let w := cmul e (fc_ln L z) in let tiny := bpow radix2 (2 - emax - prec) in let h := 18 * d * ((Rabs a + Rabs b) * (1 + Rabs (ln r))) + 3 * tiny in
    lib_at d exp (m_exp L) (re w) -> lib_at d cos (m_cos L) (im w) -> lib_at d sin (m_sin L) (im w) ->
    let p := exp (a * ln r - b * phi) in let t := a * phi + b * ln r in h <= / 5 -> p <= bpow radix2 (emax - 3) ->
    fnear (re (fc_powc L z e)) (p * cos t) ((6 * d + 3 * h) * p + tiny) /\ fnear (im (fc_powc L z e)) (p * sin t) ((6 * d + 3 * h) * p + tiny).
Proof.
  intros D H24 z e r phi k K0 K Fz Ea Eb P R1 A Hl Fe a b NZ w tiny h E C S p t H B.
  exact (powc_near L d D H24 z r phi k Fz Ea Eb P K0 K R1 A Hl e Fe NZ E C S H B).
Qed.

Theorem c149_powc_zero_exponent (prec emax : Z) {Hp : Prec_gt_0 prec} {He : Prec_lt_emax prec emax} (L : libm (binary_float prec emax)) (z e : complex (binary_float prec emax)) :
  is_finite (re e) = true -> is_finite (im e) = true -> B2R (re e) = 0 -> B2R (im e) = 0 ->
  is_finite (re (fc_powc L z e)) = true /\ B2R (re (fc_powc L z e)) = 1 /\ im (fc_powc L z e) = B754_zero false.
Proof.
  intros F1 F2 V1 V2.
  assert (G : forall x : binary_float prec emax, is_finite x = true -> B2R x = 0 -> nis0 x = true).
  { intros [s|s| |[] m x H] F V; try discriminate F; [destruct s; reflexivity| |]; exfalso.
    - pose proof (F2R_lt_0 radix2 (Float radix2 (Z.neg m) x) ltac:(reflexivity)) as Q. cbn in V. unfold F2R in Q. cbn in Q. unfold F2R in V. cbn in V. lra.
    - pose proof (F2R_gt_0 radix2 (Float radix2 (Z.pos m) x) ltac:(reflexivity)) as Q. cbn in V. unfold F2R in Q. cbn in Q. unfold F2R in V. cbn in V. lra. }
  unfold fc_powc, cis_zero. rewrite (G _ F1 V1), (G _ F2 V2). cbn [andb]. split; [apply is_finite_Bone|]. split; [apply Bone_correct|reflexivity].
Qed.

Theorem c149_powc_zero_base_refuted :
  exists z e : complex f64, (cis_finite z = true /\ B2R (re z) = 0 /\ B2R (im z) = 0) /\ (cis_finite e = true /\ B2R (re e) = 2 /\ B2R (im e) = 0) /\
    forall L : libm f64, libm_special L -> m_cos L B754_nan = B754_nan -> m_sin L B754_nan = B754_nan ->
      re (fc_powc L z e) = B754_nan /\ im (fc_powc L z e) = B754_nan.
Proof.
  exists (mkC (B754_zero false) (B754_zero false)), (mkC (f64_of_Z 2) (B754_zero false)). destruct (f64_of_Z_exact 2 ltac:(reflexivity)) as (V2 & F2).
  split; [repeat split; reflexivity|]. split; [split; [reflexivity|]; split; [exact V2|reflexivity]|].
  intros L S C N. set (z := mkC (B754_zero false : f64) (B754_zero false)). set (e := mkC (f64_of_Z 2) (B754_zero false : f64)).
  assert (W : fc_ln L z = mkC (B754_infinity true) (B754_zero false)).
  { unfold fc_ln, z, fc_arg. cbn [re im]. f_equal; [|exact (sp_atan2_0 L S)]. etransitivity; [|exact (sp_ln_0 L S)]. reflexivity. }
  assert (M : exists x, cmul e (mkC (B754_infinity true) (B754_zero false)) = mkC x B754_nan).
  { eexists. unfold cmul, e. cbn [re im]. f_equal. }
  destruct M as (x & M). assert (PW : fc_powc L z e = fc_exp L (mkC x B754_nan)) by (rewrite <- M, <- W; reflexivity).
  change (re (fc_powc L z e) = B754_nan /\ im (fc_powc L z e) = B754_nan). rewrite PW. unfold fc_exp. cbn [re im].
  assert (NN : forall v : f64, nmul v (B754_nan : f64) = B754_nan) by (intros []; reflexivity).
  split; [transitivity (nmul (m_exp L x) (B754_nan : f64)); [f_equal; exact C|apply NN]|transitivity (nmul (m_exp L x) (B754_nan : f64)); [f_equal; exact N|apply NN]].
Qed.

(** A correctly rounded library for the remaining functions. *)
Definition exp2_64 (x : f64) : f64 := cr (Rpower 2 (B2R x)) false.
Definition log_64 (x b : f64) : f64 := cr (ln (B2R x) / ln (B2R b)) false.
Definition ln2_64 : f64 := cr (ln 2) false.
Definition ln10_64 : f64 := cr (ln 10) false.
Notation L := (cr_libm true : libm f64).

Lemma cr_at (v : R) : / 1000000 <= v <= 4 -> fnear (cr v false : f64) v (dd * v).
Proof.
  intros V. destruct (cr_rel v false) as (F & _ & E); [rewrite Rabs_pos_eq by lra; exact V|]. rewrite (Rabs_pos_eq v) in E by lra. split; assumption.
Qed.

Lemma zz_norm' : is_finite (fc_norm zz) = true /\ 69 / 100 <= B2R (fc_norm zz) <= 72 / 100.
Proof. exact zz_norm. Qed.

Theorem c149_example :
  let LL : libm f64 := cr_libm true in let z := zz in let e : complex f64 := mkC (f64_of_Z 1) (f64_of_Z 1) in let b := f64_of_Z 2 in let d := bpow radix2 (-50) in let r := 1 / sqrt 2 in let phi := PI / 4 in
  let t := m_atan2 LL (im z) (re z) in let w := cmul e (fc_ln LL z) in
  (cis_finite z = true /\ B2R (re z) = r * cos phi /\ B2R (im z) = r * sin phi /\ - PI <= phi <= PI /\ bpow radix2 (-1) <= r <= bpow radix2 1) /\
  (fnear t phi (d * Rabs phi) /\ lib_at d cos (m_cos LL) t /\ lib_at d sin (m_sin LL) t /\ lib_at d ln (m_ln LL) (fc_norm z)) /\
  (fnear ln2_64 (ln 2) (d * ln 2) /\ fnear ln10_64 (ln 10) (d * ln 10)) /\
  (lib_at d (Rpower 2) exp2_64 (re z) /\ lib_at d cos (m_cos LL) (nmul (im z) ln2_64) /\ lib_at d sin (m_sin LL) (nmul (im z) ln2_64) /\
   4 * d * Rabs (B2R (im z)) + bpow radix2 (-1075) <= / 4 /\ Rpower 2 (B2R (re z)) <= bpow radix2 1021) /\
  (ln (B2R b) <> 0 /\ Rabs (phi / ln (B2R b)) <= bpow radix2 1022 /\ lib_at d ln (m_ln LL) b /\
   let l := ln (B2R (fc_norm z)) / ln (B2R b) in fnear (log_64 (fc_norm z) b) l (d * Rabs l)) /\
  (10 * d * (1 + Rabs (ln r)) <= / 5 /\ lib_at d exp (m_exp LL) (re (fc_ln LL z))) /\
  (cis_finite e = true /\ B2R (re e) = 1 /\ B2R (im e) = 1 /\ lib_at d exp (m_exp LL) (re w) /\ lib_at d cos (m_cos LL) (im w) /\ lib_at d sin (m_sin LL) (im w) /\
   18 * d * ((Rabs 1 + Rabs 1) * (1 + Rabs (ln r))) + 3 * bpow radix2 (-1075) <= / 5 /\ exp (1 * ln r - 1 * phi) <= bpow radix2 1021).
Proof.
  intros LL z e b d r phi t w. subst LL. change d with dd. change r with rr. destruct zz_polar as (Fz & A & B & P & R1). pose proof lib_arg as LA. destruct zz_norm' as (Nf & Nb).
  destruct half_val as (Fh & Vh). destruct (f64_of_Z_exact 2 ltac:(reflexivity)) as (V2 & F2). destruct (f64_of_Z_exact 1 ltac:(reflexivity)) as (V1 & F1).
  pose proof dd_ok as DO. pose proof dd_val as DV. assert (D64 : bpow radix2 (- (53)) <= dd <= / 64) by (change (- (53))%Z with (-53)%Z; lra).
  destruct rr_val as (RB & RQ). pose proof PI_digits as PD. pose proof ln2_bounds as L2.
  destruct (ln_low rr ltac:(lra)) as (Q1 & Q2). assert (IR : / rr <= / (7 / 10)) by (apply Rinv_le; lra).
  assert (LR : Rabs (ln rr) <= 1 / 2) by (apply Rabs_le; lra).
  assert (N0 : 0 < B2R (fc_norm zz)) by lra. destruct (ln_low (B2R (fc_norm zz)) N0) as (M1 & M2). assert (IN : / B2R (fc_norm zz) <= / (69 / 100)) by (apply Rinv_le; lra).
  assert (LN : lib_at dd ln (m_ln L) (fc_norm zz)) by (apply lib_ln; [exact Nf|lra|rewrite Rabs_left by lra; lra]).
  assert (BIG : 8 <= bpow radix2 1021) by (apply (bpow_le radix2 3); lia). assert (BIG2 : 8 <= bpow radix2 1022) by (apply (bpow_le radix2 3); lia).
  assert (T0 : 0 < bpow radix2 (-1075) <= / 1000) by (split; [apply bpow_gt_0|apply Rle_trans with (bpow radix2 (-10)); [apply bpow_le; lia|change (bpow radix2 (-10)) with (/ 1024); lra]]).
  assert (D0 : 0 < dd <= / 1000000) by (rewrite dd_val; lra).
  assert (C2 : fnear ln2_64 (ln 2) (dd * ln 2)) by (apply cr_at; lra).
  assert (PT : lib_at dd cos (m_cos L) t /\ lib_at dd sin (m_sin L) t).
  { destruct LA as (Ft & Et). apply (pair_bd _ (PI / 4) Ft); [|lra]. rewrite (Rabs_pos_eq (PI / 4)) in Et by lra. eapply Rle_trans; [exact Et|]. assert (dd * (PI / 4) <= dd * 1) by (apply Rmult_le_compat_l; lra). lra. }
  destruct (ln_val (prec := 53) (emax := 1024) L dd D64 ltac:(lia) zz rr (PI / 4) 1 Fz A B ltac:(lia) ltac:(lia) R1 LN) as (Fl & El).
  assert (El' : Rabs (B2R (m_ln L (fc_norm zz)) - ln rr) <= / 1000).
  { eapply Rle_trans; [exact El|]. assert (dd * Rabs (ln rr) <= / 1000000 * 1) by (apply Rmult_le_compat; try lra; apply Rabs_pos).
    change (bpow radix2 (- (53))) with (/ 9007199254740992). lra. }
  clear El. apply Rabs_le_inv in El'.
  assert (GC : forall x : f64, is_finite x = true -> / 4 <= B2R x <= 1 -> lib_at dd cos (m_cos L) x /\ lib_at dd sin (m_sin L) x).
  { intros x Fx X. split; [apply lib_cos; [exact Fx|apply cos_bd, Rabs_le; lra]|apply lib_sin; [exact Fx|apply sin_bd; lra]]. }
  assert (LOG : / 4 <= Rabs (ln (B2R (fc_norm zz)) / ln 2) <= 1).
  { assert (I2 : 1 <= / ln 2 <= 2) by (split; [rewrite <- Rinv_1; apply Rinv_le; lra|apply Rle_trans with (/ (1 / 2)); [apply Rinv_le; lra|lra]]).
    unfold Rdiv. rewrite Rabs_mult, (Rabs_pos_eq (/ ln 2)), Rabs_left by lra. set (x := - ln (B2R (fc_norm zz))) in *. assert (28 / 100 <= x <= 45 / 100) by (unfold x; lra).
    split; [apply Rle_trans with (28 / 100 * 1); [lra|apply Rmult_le_compat; lra]|apply Rle_trans with (45 / 100 * 2); [apply Rmult_le_compat; lra|lra]]. }
  split; [exact (conj Fz (conj A (conj B (conj P R1))))|]. split; [exact (conj LA (conj (proj1 PT) (conj (proj2 PT) LN)))|].
  split; [split; [exact C2|]|].
  { apply cr_at. assert (ln 2 < ln 10) by (apply ln_increasing; lra). split; [lra|].
    apply Rle_trans with (ln (2 * (2 * (2 * 2)))); [left; apply ln_increasing; lra|]. rewrite !ln_mult by lra. lra. }
  split; [|split; [|split]].
  - assert (RP : 1 <= Rpower 2 (B2R (re zz)) <= 2).
    { change (re zz) with half64. rewrite Vh. unfold Rpower. split; [apply Rle_trans with (exp 0); [rewrite exp_0; lra|left; apply exp_increasing; lra]|].
      apply Rle_trans with (exp (ln 2)); [left; apply exp_increasing; lra|rewrite exp_ln; lra]. }
    assert (TT : fnear (nmul half64 ln2_64 : f64) (/ 2 * ln 2) (4 * dd * Rabs (/ 2 * ln 2) + bpow radix2 (-1075))).
    { refine (mul_rel (prec := 53) (emax := 1024) half64 ln2_64 (/ 2) (ln 2) dd D64 _ _ _).
      - split; [exact Fh|]. rewrite Vh, Rminus_diag_eq, Rabs_R0 by reflexivity. apply Rmult_le_pos; [lra|apply Rabs_pos].
      - rewrite (Rabs_pos_eq (ln 2)) by lra. exact C2.
      - rewrite Rabs_pos_eq by lra. change (1024 - 2)%Z with 1022%Z. lra. }
    destruct TT as (Ft & Et). rewrite (Rabs_pos_eq (/ 2 * ln 2)) in Et by lra. 
    assert (Et' : Rabs (B2R (nmul half64 ln2_64 : f64) - / 2 * ln 2) <= / 500).
    { eapply Rle_trans; [exact Et|]. assert (dd * ln 2 <= / 1000000 * 1) by (apply Rmult_le_compat; lra). lra. }
    apply Rabs_le_inv in Et'. assert (L2b : 6 / 10 <= ln 2).
    { pose proof (ln_low (sqrt 2) (sqrt_lt_R0 2 ltac:(lra))) as (S1 & _). assert (SS : ln (sqrt 2) + ln (sqrt 2) = ln 2) by (rewrite <- ln_mult by (apply sqrt_lt_R0; lra); rewrite sqrt_sqrt by lra; reflexivity).
      assert (SI : / sqrt 2 <= 71 / 100) by (unfold rr in RB; lra). 
      assert (L4 : ln rr <= rr - 1) by lra.
      pose proof (ln_low (sqrt (sqrt 2)) (sqrt_lt_R0 _ (sqrt_lt_R0 2 ltac:(lra)))) as (S2 & _).
      assert (S0 : 0 < sqrt 2) by (apply sqrt_lt_R0; lra).
      assert (S4 : ln (sqrt (sqrt 2)) + ln (sqrt (sqrt 2)) = ln (sqrt 2)) by (rewrite <- ln_mult by (apply sqrt_lt_R0; lra); rewrite sqrt_sqrt by lra; reflexivity).
      assert (S5 : 0 < sqrt (sqrt 2)) by (apply sqrt_lt_R0; lra). pose proof (sqrt_sqrt (sqrt 2) ltac:(lra)) as S6. pose proof (sqrt_sqrt 2 ltac:(lra)) as S7.
      assert (S8 : 14 / 10 <= sqrt 2) by nra. assert (S9 : 118 / 100 <= sqrt (sqrt 2)) by nra.
      assert (/ sqrt (sqrt 2) <= / (118 / 100)) by (apply Rinv_le; lra). lra. }
    destruct (GC _ Ft ltac:(lra)) as (G1 & G2).
    split; [|split; [exact G1|split; [exact G2|]]].
    + unfold lib_at. rewrite (Rabs_pos_eq (Rpower 2 (B2R (re z)))) by (change z with zz; lra). apply cr_at. change z with zz. lra.
    + change (im z) with half64. change (re z) with (re zz). rewrite Vh, (Rabs_pos_eq (/ 2)) by lra. split; lra.
  - change (B2R b) with (B2R (f64_of_Z 2)). rewrite V2. split; [lra|]. split; [|split].
    + assert (I2 : 0 < / ln 2 <= 2) by (split; [apply Rinv_0_lt_compat; lra|apply Rle_trans with (/ (1 / 2)); [apply Rinv_le; lra|lra]]).
      unfold Rdiv. rewrite Rabs_mult, (Rabs_pos_eq (/ ln 2)) by lra. unfold phi. rewrite (Rabs_pos_eq (PI / 4)) by lra.
      apply Rle_trans with (1 * 2); [apply Rmult_le_compat; lra|lra].
    + apply lib_ln; [exact F2|change (B2R b) with (B2R (f64_of_Z 2)); rewrite V2; lra|]. change (B2R b) with (B2R (f64_of_Z 2)). rewrite V2, Rabs_pos_eq by lra. lra.
    + intros l. unfold log_64. change (B2R b) with (B2R (f64_of_Z 2)). rewrite V2.
      assert (LG : / 1000000 <= Rabs (ln (B2R (fc_norm zz)) / ln 2) <= 4) by lra. destruct (cr_rel _ false LG) as (G1 & _ & G2). split; assumption.
  - split.
    + assert (dd * (1 + Rabs (ln rr)) <= / 1000000 * 2) by (apply Rmult_le_compat; try lra; pose proof (Rabs_pos (ln rr)); lra). lra.
    + apply lib_exp; [exact Fl|]. assert (X : Rabs (B2R (m_ln L (fc_norm zz))) <= 1) by (apply Rabs_le; lra).
      destruct (exp_bd (B2R (m_ln L (fc_norm zz)))) as (U1 & U2); [lra|]. specialize (U2 X).
      rewrite (Rabs_pos_eq (exp _)) by (left; apply exp_pos). split; [exact U1|]. eapply Rle_trans; [exact U2|lra].
  - assert (HH : 18 * dd * ((Rabs 1 + Rabs 1) * (1 + Rabs (ln rr))) + 3 * bpow radix2 (-1075) <= / 100).
    { rewrite Rabs_R1. assert (dd * (1 + Rabs (ln rr)) <= / 1000000 * 2) by (apply Rmult_le_compat; try lra; pose proof (Rabs_pos (ln rr)); lra). lra. }
    assert (Fe : cis_finite e = true) by reflexivity.
    destruct (powc_args (prec := 53) (emax := 1024) L dd D64 ltac:(lia) zz rr (PI / 4) 1 Fz A B P ltac:(lia) ltac:(lia) R1 LA LN e Fe) as ((Fx & Ex) & (Fy & Ey)).
    { change (re e) with (f64_of_Z 1). change (im e) with (f64_of_Z 1). rewrite V1. eapply Rle_trans; [exact HH|lra]. }
    change (re e) with (f64_of_Z 1) in Ex, Ey. change (im e) with (f64_of_Z 1) in Ex, Ey. rewrite V1 in Ex, Ey.
    pose proof (Rle_trans _ _ _ Ex HH) as Ex'. pose proof (Rle_trans _ _ _ Ey HH) as Ey'. clear Ex Ey. apply Rabs_le_inv in Ex', Ey'.
    destruct (GC _ Fy) as (G1 & G2); [lra|].
    split; [exact Fe|]. split; [exact V1|]. split; [exact V1|]. split; [|split; [exact G1|split; [exact G2|split; [lra|]]]].
    + pose proof (fun H => lib_exp _ Fx H) as GE. apply GE. clear GE.
      match type of Ex' with _ <= ?x - _ <= _ => destruct (exp_bd x) as (U1 & U2); [apply Rabs_le; lra|]; set (y := x) in * end.
      rewrite (Rabs_pos_eq (exp y)) by (left; apply exp_pos). split; [exact U1|]. apply Rle_trans with (exp 0); [left; apply exp_increasing; lra|rewrite exp_0; lra].
    + apply Rle_trans with (exp 0); [left; apply exp_increasing; unfold phi; lra|rewrite exp_0; lra].
Qed.
