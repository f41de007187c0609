(** Spherical interpolation in floats: the sine of the half angle. *)

From Coq Require Import List Arith ZArith Bool Lia Reals Lra Psatz.
From Flocq Require Import Core.Core Sterbenz Mult_error IEEE754.BinarySingleNaN.
From Verif Require Import Base Scalar Spec SpecF SpecRigid SpecSlerp LBase MVector MQuat LVector MFloat LFloat LFloatP MFloatVec LFloatVec LTrScF LAngleFP
  MSign MComplexF MRotF MArcF LArc LArcN LArcP LArcS LComplexLP LDriftM LRigidF LNormF LQMatF LSlerp LSlerpG LSlerpF.
Local Open Scope R_scope.

Section SinF.
Context {prec emax : Z} {Hp : Prec_gt_0 prec} {He : Prec_lt_emax prec emax}.
Notation fl := (binary_float prec emax).
Notation u := (bpow radix2 (- prec)).
Notation fexp := (FLT_exp (3 - emax - prec) prec).
Notation rnd := (round radix2 fexp ZnearestE).
Notation tiny := (bpow radix2 (2 - emax - prec)).
Hypothesis H24 : (24 <= prec)%Z.
Hypothesis Hrange : (2 * prec + 31 <= emax)%Z.

Lemma rnd_rel z : Rabs (rnd z - z) <= u * Rabs z + tiny.
Proof.
  destruct (round_err (prec := prec) (emax := emax) z) as (e & f & E & F & G). rewrite funit_eq in E. rewrite ftiny_eq in F. rewrite G.
  replace (z * (1 + e) + f - z) with (e * z + f) by ring. eapply Rle_trans; [apply Rabs_triang|]. rewrite Rabs_mult.
  apply Rplus_le_compat; [|exact F]. apply Rmult_le_compat_r; [apply Rabs_pos|exact E].
Qed.
Lemma tiny_uu : 0 <= tiny <= u * u / 4096.
Proof.
  split; [apply bpow_ge_0|]. replace (u * u / 4096) with (bpow radix2 (- prec + - prec + -12)) by (rewrite !bpow_plus; cbn; lra).
  apply bpow_le. lia.
Qed.

Variable c : fl.
Hypothesis Fc : is_finite c = true.
Hypothesis Bc : - / 8 <= B2R c < 1.
Notation C := (B2R c).
Notation eta := (1 - B2R c).

Lemma eta_u : u <= eta.
Proof.
  assert (P : pred radix2 fexp 1 = 1 - u).
  { change 1 with (bpow radix2 0). rewrite pred_bpow by auto with typeclass_instances. f_equal. unfold FLT_exp. f_equal. lia. }
  assert (C <= pred radix2 fexp 1); [|lra].
  apply pred_ge_gt; auto with typeclass_instances; [apply generic_format_B2R|change 1 with (bpow radix2 0); apply generic_format_bpow; unfold FLT_exp; lia|lra].
Qed.

Lemma on_grid : / 2 <= C -> exists k : Z, C = IZR k * u.
Proof.
  intros H. pose proof Hp as P0. unfold Prec_gt_0 in P0. pose proof (generic_format_B2R prec emax c) as G.
  unfold generic_format in G. set (m := Ztrunc _) in G. set (e := cexp radix2 _ C) in *.
  assert (E : e = (- prec)%Z).
  { unfold e, cexp. rewrite (mag_unique_pos radix2 C 0). 2:{ change (bpow radix2 (0 - 1)) with (/ 2). change (bpow radix2 0) with 1. lra. }
    unfold SpecFloat.fexp, SpecFloat.emin. lia. }
  exists m. rewrite G at 1. unfold F2R. cbn [Fnum Fexp]. rewrite E. reflexivity.
Qed.
(** Near one, [2 c - 1] is a float. *)
Lemma double_less_one : / 2 <= C -> generic_format radix2 fexp (2 * C - 1).
Proof.
  intros H. pose proof Hp as P0. unfold Prec_gt_0 in P0. destruct (on_grid H) as (k & E).
  assert (U1 : IZR (2 ^ prec) * u = 1).
  { change 2%Z with (radix_val radix2). rewrite IZR_Zpower by lia. rewrite <- bpow_plus. replace (prec + - prec)%Z with 0%Z by lia. reflexivity. }
  pose proof (bpow_gt_0 radix2 (- prec)) as U0.
  replace (2 * C - 1) with (F2R (Float radix2 (2 * k - 2 ^ prec) (- prec))).
  2:{ unfold F2R. cbn [Fnum Fexp]. rewrite minus_IZR, mult_IZR, Rmult_minus_distr_r, U1, E. ring. }
  apply generic_format_FLT. exists (Float radix2 (2 * k - 2 ^ prec) (- prec)); [reflexivity| |cbn [Fexp]; lia].
  cbn [Fnum]. change (radix_val radix2) with 2%Z.
  assert (K1 : (2 ^ prec <= 2 * k)%Z).
  { apply le_IZR. apply (Rmult_le_reg_r u); [exact U0|]. rewrite U1, mult_IZR. replace (2 * IZR k * u) with (2 * (IZR k * u)) by ring. rewrite <- E. lra. }
  assert (K2 : (k < 2 ^ prec)%Z).
  { apply lt_IZR. apply (Rmult_lt_reg_r u); [exact U0|]. rewrite U1, <- E. lra. }
  lia.
Qed.

Variable rho : R.
Hypothesis Hrho : u <= 9 / 8 * rho.
Hypothesis Hrho2 : rho <= / 16.
Hypothesis Heta : u <= rho * eta \/ eta <= rho.

Lemma sq_near : is_finite (nmul c c : fl) = true /\ Rabs (B2R (nmul c c : fl) - C * C) <= rho * eta + u * eta / 4096.
Proof.
  pose proof (u_small H24) as Hu. pose proof eta_u as HE. pose proof tiny_uu as HT.
  assert (CC : C * C <= 1).
  { replace (C * C) with (Rabs C * Rabs C) by (rewrite <- Rabs_mult; apply Rabs_pos_eq; apply Rle_0_sqr).
    assert (Rabs C <= 1) by (apply Rabs_le; lra). rewrite <- (Rmult_1_l 1). apply Rmult_le_compat; try apply Rabs_pos; assumption. }
  assert (CC0 : 0 <= C * C) by apply Rle_0_sqr.
  destruct (mul_val c c Fc Fc) as (F & E); [apply (big16 H24); rewrite Rabs_pos_eq; lra|]. split; [exact F|]. rewrite E.
  assert (T : tiny <= u * eta / 4096) by (assert (u * u <= u * eta) by (apply Rmult_le_compat_l; lra); lra).
  destruct Heta as [R|R].
  - pose proof (rnd_rel (C * C)) as X. rewrite (Rabs_pos_eq (C * C)) in X by exact CC0.
    assert (u * (C * C) <= u * 1) by (apply Rmult_le_compat_l; lra). lra.
  - pose proof (round_N_pt radix2 fexp (fun t => negb (Z.even t)) (C * C)) as (_ & X).
    specialize (X _ (double_less_one ltac:(lra))).
    replace (2 * C - 1 - C * C) with (- (eta * eta)) in X by ring. rewrite Rabs_Ropp, (Rabs_pos_eq (eta * eta)) in X by apply Rle_0_sqr.
    assert (eta * eta <= rho * eta) by (apply Rmult_le_compat_r; lra).
    assert (0 <= u * eta) by (apply Rmult_le_pos; lra). eapply Rle_trans; [exact X|]. lra.
Qed.

Definition S0 : R := sqrt (1 - C * C).
Lemma W_pos : 7 / 8 * eta <= 1 - C * C <= 1.
Proof.
  split; [|pose proof (Rle_0_sqr C) as Q; unfold Rsqr in Q; lra].
  replace (1 - C * C) with ((1 + C) * eta) by ring. apply Rmult_le_compat_r; lra.
Qed.
Lemma S0_sq : S0 * S0 = 1 - C * C.
Proof. pose proof W_pos. pose proof eta_u. pose proof (bpow_gt_0 radix2 (- prec)). apply sqrt_sqrt. lra. Qed.
Lemma S0_pos : 0 < S0 <= 1 /\ 1 - C * C <= S0 /\ 3 / 4 * u <= S0.
Proof.
  pose proof W_pos as W. pose proof eta_u. pose proof (bpow_gt_0 radix2 (- prec)).
  assert (P : 0 < S0) by (apply sqrt_lt_R0; lra).
  assert (L : S0 <= 1) by (apply Rle_trans with (sqrt 1); [apply sqrt_le_1_alt; lra|rewrite sqrt_1; lra]).
  assert (K : 1 - C * C <= S0) by (rewrite <- S0_sq; assert (S0 * S0 <= S0 * 1) by (apply Rmult_le_compat_l; lra); lra).
  repeat split; lra.
Qed.

Notation S := (fsqrt (nsub n1 (nmul c c) : fl)).
Lemma sin_near : is_finite S = true /\ Rabs (B2R S - S0) <= 37 / 10 * rho * S0.
Proof.
  pose proof (u_small H24) as Hu. pose proof eta_u as HE. pose proof tiny_uu as HT. pose proof W_pos as HW. destruct S0_pos as (SP & SW & _).
  destruct sq_near as (Fm & Em). set (w := B2R (nmul c c : fl)) in *. set (W := 1 - C * C) in *.
  assert (R0 : 0 < rho) by lra.
  assert (E1 : eta <= 8 / 7 * W) by lra.
  assert (RW : 0 < rho * W) by (apply Rmult_lt_0_compat; lra).
  assert (A1 : rho * eta <= 8 / 7 * (rho * W)).
  { replace (8 / 7 * (rho * W)) with (rho * (8 / 7 * W)) by ring. apply Rmult_le_compat_l; lra. }
  assert (A2 : u * eta <= 9 / 7 * (rho * W)).
  { apply Rle_trans with ((9 / 8 * rho) * (8 / 7 * W)); [apply Rmult_le_compat; lra|]. lra. }
  assert (A3 : rho * W <= / 16 * W) by (apply Rmult_le_compat_r; lra).
  assert (E2 : Rabs (1 - w - W) <= 1144 / 1000 * (rho * W)).
  { replace (1 - w - W) with (- (w - C * C)) by (unfold W; ring). rewrite Rabs_Ropp. lra. }
  pose proof (Rabs_le_inv _ _ E2) as E2'.
  destruct one_val as (F1 & V1).
  destruct (sub_val (n1 : fl) (nmul c c) F1 Fm) as (Fs & Es & _); [rewrite V1; fold w; apply (big16 H24); apply Rabs_le; lra|].
  rewrite V1 in Es. fold w in Es. set (s := B2R (nsub n1 (nmul c c) : fl)) in *.
  pose proof (rnd_rel (1 - w)) as E3. rewrite <- Es in E3. rewrite (Rabs_pos_eq (1 - w)) in E3 by lra.
  assert (T : tiny <= 4 / 10000 * (rho * W)).
  { assert (u * u <= u * eta) by (apply Rmult_le_compat_l; lra). lra. }
  assert (A4 : u * (1 - w) <= 1206 / 1000 * (rho * W)).
  { apply Rle_trans with ((9 / 8 * rho) * (1072 / 1000 * W)); [apply Rmult_le_compat; lra|]. lra. }
  assert (E4 : Rabs (s - W) <= 2351 / 1000 * (rho * W)).
  { replace (s - W) with ((s - (1 - w)) + (1 - w - W)) by ring. eapply Rle_trans; [apply Rabs_triang|]. lra. }
  pose proof (Rabs_le_inv _ _ E4) as E4'. assert (s0 : 0 < s) by lra.
  assert (Q : Rabs (sqrt s - S0) <= 2351 / 1000 * rho * S0).
  { apply (Rmult_le_reg_r S0); [lra|]. replace (2351 / 1000 * rho * S0 * S0) with (2351 / 1000 * (rho * (S0 * S0))) by ring. rewrite S0_sq. fold W.
    apply Rle_trans with (2 := E4). rewrite <- (Rabs_pos_eq S0) at 2 by lra. rewrite <- Rabs_mult.
    assert (Z : 0 <= sqrt s) by apply sqrt_pos.
    assert (Y : s - W = (sqrt s - S0) * (sqrt s + S0)).
    { replace ((sqrt s - S0) * (sqrt s + S0)) with (sqrt s * sqrt s - S0 * S0) by ring. rewrite S0_sq, sqrt_sqrt by lra. reflexivity. }
    rewrite Y, !Rabs_mult. apply Rmult_le_compat_l; [apply Rabs_pos|]. rewrite !Rabs_pos_eq; lra. }
  assert (RS : rho * S0 <= / 16 * S0) by (apply Rmult_le_compat_r; lra).
  pose proof (Rabs_le_inv _ _ Q) as Q'.
  assert (N : nn (nsub n1 (nmul c c) : fl)) by (split; [apply pos_sg; [exact Fs|exact s0]|apply fin_nn_nan, Fs]).
  destruct (sqrt_R _ N Fs) as (Fq & Eq). split; [exact Fq|]. rewrite Eq. fold s. pose proof (rnd_rel (sqrt s)) as E5.
  rewrite (Rabs_pos_eq (sqrt s)) in E5 by apply sqrt_pos.
  assert (A5 : u * sqrt s <= 12905 / 10000 * (rho * S0)).
  { apply Rle_trans with ((9 / 8 * rho) * (1147 / 1000 * S0)); [apply Rmult_le_compat; [lra|apply sqrt_pos|lra|lra]|]. lra. }
  assert (rho * W <= rho * S0) by (apply Rmult_le_compat_l; lra).
  replace (rnd (sqrt s) - S0) with ((rnd (sqrt s) - sqrt s) + (sqrt s - S0)) by ring.
  eapply Rle_trans; [apply Rabs_triang|]. lra.
Qed.
End SinF.
