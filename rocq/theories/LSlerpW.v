(** Spherical interpolation in floats: the two weights. *)

From Coq Require Import List Arith ZArith Bool Lia Reals Lra Psatz.
From Flocq Require Import Core.Core IEEE754.BinarySingleNaN.
From Verif Require Import Base Scalar Spec SpecF SpecRigid SpecSlerp LBase MVector MQuat LVector MFloat LFloat LFloatP MFloatVec LFloatVec LTrScF LAngleFP
  MSign MComplexF MRotF MArcF LDriftM LRigidF LQMatF LSlerp LSlerpG LSlerpF LSlerpS.
Local Open Scope R_scope.

Lemma sin_lip x y : Rabs (sin x - sin y) <= Rabs (x - y).
Proof.
  assert (K : forall a b, a < b -> Rabs (sin b - sin a) <= Rabs (b - a)).
  { intros a b H. destruct (MVT_cor2 sin cos a b H) as (z & E & _); [intros; apply derivable_pt_lim_sin|]. rewrite E, Rabs_mult.
    pose proof (COS_bound z) as B. assert (Rabs (cos z) <= 1) by (apply Rabs_le; lra). pose proof (Rabs_pos (b - a)).
    assert (Rabs (cos z) * Rabs (b - a) <= 1 * Rabs (b - a)) by (apply Rmult_le_compat_r; assumption). lra. }
  destruct (Rtotal_order x y) as [H|[->|H]].
  - rewrite (Rabs_minus_sym (sin x)), (Rabs_minus_sym x). apply K, H.
  - rewrite !Rminus_diag_eq, Rabs_R0 by reflexivity. lra.
  - apply K, H.
Qed.
Lemma sin_abs x : Rabs (sin x) <= Rabs x.
Proof. pose proof (sin_lip x 0) as H. rewrite sin_0, !Rminus_0_r in H. exact H. Qed.

Section Weights.
Context {prec emax : Z} {Hp : Prec_gt_0 prec} {He : Prec_lt_emax prec emax}.
Notation fl := (binary_float prec emax).
Notation u := (bpow radix2 (- prec)).
Notation tiny := (bpow radix2 (2 - emax - prec)).
Hypothesis H24 : (24 <= prec)%Z.
Hypothesis Hrange : (2 * prec + 31 <= emax)%Z.
Variables (L : libm fl) (arccos : fl -> fl) (d : R).
Hypothesis Hd : u <= d <= / 65536.
Hypothesis HL : accurate_arc L arccos d.

Variable c : fl.
Hypothesis Fc : is_finite c = true.
Hypothesis Bc : - / 8 <= B2R c < 1.
Notation C := (B2R c).
Notation Th := (acos (B2R c)).
Notation S0 := (S0 c).

Lemma sin_theta : sin Th = S0.
Proof.
  destruct (acos_range C Bc) as (A & E). pose proof (sin_gt_0 _ (proj1 A) (proj2 A)) as P. unfold LSlerpS.S0.
  rewrite <- (sqrt_square (sin Th)) by lra. f_equal. pose proof (sin2_cos2 Th) as Q. unfold Rsqr in Q. rewrite E in Q. lra.
Qed.
Lemma theta_S0 : S0 <= Th <= 16 / 7 * S0.
Proof.
  destruct (acos_range C Bc) as (A & E). rewrite <- sin_theta. split; [apply sin_le; lra|].
  pose proof (sin_lower Th ltac:(lra)) as P. rewrite E in P.
  assert (Th * (7 / 8) <= Th * (1 + C)) by (apply Rmult_le_compat_l; lra). lra.
Qed.
Lemma tiny_S0 : 0 <= tiny <= d * S0 / 1000.
Proof.
  pose proof (tiny_uu H24 Hrange) as T. destruct (S0_pos H24 Hrange c Bc) as (_ & _ & P). pose proof (u_small H24) as Hu.
  assert (u * (3 / 4 * u) <= d * S0) by (apply Rmult_le_compat; lra). lra.
Qed.

Variable tau : R.
Hypothesis Htau : 0 <= tau <= 1.
Variable v : fl.
Hypothesis Hv : fnear v tau u.

Lemma angle_near : fnear (nmul v (arccos c)) (tau * Th) (31 / 10 * d * Th).
Proof.
  pose proof (u_small H24) as Hu. pose proof theta_S0 as T. destruct (S0_pos H24 Hrange c Bc) as (SP & _ & _). pose proof tiny_S0 as TS. destruct HL as (HA & _).
  destruct (HA c Fc) as (F & E); [apply Rabs_le; lra|]. destruct Hv as (Fv & Ev). set (h := B2R (arccos c)) in *.
  assert (T0 : 0 < Th) by lra. assert (DT : 0 < d * Th) by (apply Rmult_lt_0_compat; lra).
  assert (DS : d * S0 <= d * Th) by (apply Rmult_le_compat_l; lra).
  assert (DT2 : d * Th <= / 65536 * Th) by (apply Rmult_le_compat_r; lra).
  assert (E' : Rabs (h - Th) <= 1001 / 1000 * (d * Th)) by lra. pose proof (Rabs_le_inv _ _ E') as E1. pose proof (Rabs_le_inv _ _ Ev) as E2.
  assert (X : Rabs (B2R v * h - tau * Th) <= 2003 / 1000 * (d * Th)).
  { replace (B2R v * h - tau * Th) with ((B2R v - tau) * h + tau * (h - Th)) by ring. eapply Rle_trans; [apply Rabs_triang|]. rewrite !Rabs_mult.
    assert (Rabs (B2R v - tau) * Rabs h <= d * (1001 / 1000 * Th)).
    { apply Rmult_le_compat; [apply Rabs_pos|apply Rabs_pos|lra|apply Rabs_le; lra]. }
    assert (Rabs tau * Rabs (h - Th) <= 1 * (1001 / 1000 * (d * Th))).
    { apply Rmult_le_compat; [apply Rabs_pos|apply Rabs_pos|rewrite Rabs_pos_eq; lra|exact E']. }
    lra. }
  pose proof (tx_le tau Htau Th ltac:(lra)) as TT. pose proof (Rabs_le_inv _ _ X) as X1.
  assert (Y : Rabs (B2R v * h) <= 1001 / 1000 * Th) by (apply Rabs_le; lra).
  destruct (mul_val v (arccos c) Fv F) as (Fm & Em); [apply (big16 H24); fold h; lra|]. split; [exact Fm|]. rewrite Em. fold h.
  pose proof (rnd_rel (prec := prec) (emax := emax) (B2R v * h)) as Z.
  assert (u * Rabs (B2R v * h) <= d * (1001 / 1000 * Th)) by (apply Rmult_le_compat; [lra|apply Rabs_pos|lra|exact Y]).
  match goal with |- Rabs (?r - _) <= _ => replace (r - tau * Th) with ((r - B2R v * h) + (B2R v * h - tau * Th)) by ring end.
  eapply Rle_trans; [apply Rabs_triang|]. lra.
Qed.
Lemma num_near : fnear (m_sin L (nmul v (arccos c))) (sin (tau * Th)) (97 / 10 * d * S0).
Proof.
  pose proof (u_small H24) as Hu. pose proof theta_S0 as T. destruct (S0_pos H24 Hrange c Bc) as (SP & _ & _). pose proof tiny_S0 as TS. destruct HL as (_ & HS).
  destruct angle_near as (F & E). set (x := B2R (nmul v (arccos c))) in *.
  assert (T0 : 0 < Th) by lra. assert (DT : 0 < d * Th) by (apply Rmult_lt_0_compat; lra).
  assert (DS : d * S0 <= d * Th) by (apply Rmult_le_compat_l; lra). assert (DS' : d * Th <= d * (16 / 7 * S0)) by (apply Rmult_le_compat_l; lra).
  assert (DT2 : d * Th <= / 65536 * Th) by (apply Rmult_le_compat_r; lra).
  pose proof (tx_le tau Htau Th ltac:(lra)) as TT. pose proof (Rabs_le_inv _ _ E) as E1.
  assert (Y : Rabs x <= 1001 / 1000 * Th) by (apply Rabs_le; lra).
  destruct (HS _ F ltac:(fold x; lra)) as (Fs & Es). fold x in Es. split; [exact Fs|].
  assert (Z : d * Rabs (sin x) <= d * (1001 / 1000 * Th)) by (apply Rmult_le_compat_l; [lra|]; pose proof (sin_abs x); lra).
  pose proof (sin_lip x (tau * Th)) as Lp.
  match goal with |- Rabs (?r - _) <= _ => replace (r - sin (tau * Th)) with ((r - sin x) + (sin x - sin (tau * Th))) by ring end.
  eapply Rle_trans; [apply Rabs_triang|]. lra.
Qed.

Variable rho : R.
Hypothesis Hrho : u <= 9 / 8 * rho.
Hypothesis Hrho2 : rho <= / 16.
Hypothesis Heta : u <= rho * (1 - C) \/ 1 - C <= rho.

Lemma weight_quo : fnear (ndiv (m_sin L (nmul v (arccos c))) (fsqrt (nsub n1 (nmul c c))) : fl) (weight tau C) (15 * d + 55 / 10 * rho).
Proof.
  pose proof (u_small H24) as Hu. destruct (S0_pos H24 Hrange c Bc) as (SP & _ & _). pose proof tiny_S0 as TS.
  destruct num_near as (Fn & En). destruct (sin_near H24 Hrange c Fc Bc rho Hrho Hrho2 Heta) as (Fs & Es).
  set (N := B2R (m_sin L (nmul v (arccos c)))) in *. set (S := B2R (fsqrt (nsub n1 (nmul c c) : fl))) in *.
  assert (R0 : 0 < rho) by lra.
  assert (EW : weight tau C = sin (tau * Th) * / S0).
  { unfold weight. destruct (Req_EM_T C 1) as [X|_]; [lra|]. unfold quo. rewrite sin_theta. reflexivity. }
  pose proof (weight_range tau Htau C ltac:(lra)) as WR. rewrite EW in WR |- *. set (om := sin (tau * Th) * / S0) in *.
  assert (Eo : sin (tau * Th) = om * S0) by (unfold om; field; lra). rewrite Eo in En. clear EW.
  assert (DS : d * S0 <= / 65536 * S0) by (apply Rmult_le_compat_r; lra). assert (DS0 : 0 < d * S0) by (apply Rmult_lt_0_compat; lra).
  assert (RS : rho * S0 <= / 16 * S0) by (apply Rmult_le_compat_r; lra). assert (RS0 : 0 < rho * S0) by (apply Rmult_lt_0_compat; lra).
  pose proof (Rabs_le_inv _ _ Es) as Es'. assert (SL : 768 / 1000 * S0 <= S) by lra.
  assert (S1 : 0 < S) by lra.
  assert (K : Rabs (N * / S - om) <= 127 / 10 * d + 545 / 100 * rho).
  { apply (Rmult_le_reg_r S); [exact S1|]. rewrite <- (Rabs_pos_eq S) at 2 by lra. rewrite <- Rabs_mult.
    replace ((N * / S - om) * S) with ((N - om * S0) - om * (S - S0)) by (field; lra).
    assert (A1 : Rabs (om * (S - S0)) <= 9 / 8 * (37 / 10 * rho * S0)).
    { rewrite Rabs_mult, (Rabs_pos_eq om) by lra. apply Rmult_le_compat; [lra|apply Rabs_pos|lra|exact Es]. }
    assert (A2 : Rabs ((N - om * S0) - om * (S - S0)) <= 97 / 10 * d * S0 + 9 / 8 * (37 / 10 * rho * S0)).
    { unfold Rminus at 1. eapply Rle_trans; [apply Rabs_triang|]. rewrite Rabs_Ropp. lra. }
    apply Rle_trans with (1 := A2). apply Rle_trans with ((127 / 10 * d + 545 / 100 * rho) * (768 / 1000 * S0)); [|apply Rmult_le_compat_l; lra]. lra. }
  assert (Kb : Rabs (N * / S) <= 147 / 100).
  { replace (N * / S) with (om + (N * / S - om)) by ring. eapply Rle_trans; [apply Rabs_triang|]. rewrite (Rabs_pos_eq om) by lra. lra. }
  destruct (div_val _ _ Fn (Rgt_not_eq _ _ S1)) as (Fq & Eq); [fold N S; apply (big16 H24); unfold Rdiv; lra|].
  split; [exact Fq|]. rewrite Eq. fold N S. unfold Rdiv. pose proof (rnd_rel (prec := prec) (emax := emax) (N * / S)) as Z.
  assert (u * Rabs (N * / S) <= d * (147 / 100)) by (apply Rmult_le_compat; [lra|apply Rabs_pos|lra|exact Kb]).
  assert (d * S0 <= d * 1) by (apply Rmult_le_compat_l; lra).
  match goal with |- Rabs (?r - _) <= _ => replace (r - om) with ((r - N * / S) + (N * / S - om)) by ring end.
  eapply Rle_trans; [apply Rabs_triang|]. lra.
Qed.
End Weights.
