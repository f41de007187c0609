(** The square root of the rounded square of a float is its absolute value. *)

From Coq Require Import ZArith Bool Reals Lia Lra.
From Flocq Require Import Core.Core Relative IEEE754.BinarySingleNaN.
From Verif Require Import Base Scalar MFloat MFloatVec MSign LFloat LFloatVec LAngleFP.
Local Open Scope R_scope.

Section Sq.
Context {prec emax : Z} {Hprec : Prec_gt_0 prec} {Hemax : Prec_lt_emax prec emax}.
Notation fl := (binary_float prec emax).
Notation emin := (3 - emax - prec)%Z.
Notation fexp := (FLT_exp (3 - emax - prec) prec).
Notation rnd := (round radix2 fexp ZnearestE).
Hypothesis P2 : (2 <= prec)%Z.
Local Instance vexp2 : Valid_exp fexp := FLT_exp_valid _ _.

Lemma sqrt_sq_R x : generic_format radix2 fexp x -> 0 < x -> bpow radix2 (emin + prec - 1) <= x * x -> rnd (sqrt (rnd (x * x))) = x.
Proof.
  intros Fx Px N. assert (PE : (prec < emax)%Z) by (unfold Prec_lt_emax in *; lia).
  destruct (relative_error_N_FLT_ex radix2 emin prec Hprec (fun t => negb (Z.even t)) (x * x)) as (d & Hd & E).
  { rewrite Rabs_pos_eq by nra. exact N. }
  set (e := mag radix2 x : Z).
  assert (B : bpow radix2 (e - 1) <= x < bpow radix2 e).
  { pose proof (bpow_mag_le radix2 x ltac:(lra)) as A. pose proof (bpow_mag_gt radix2 x) as C. rewrite Rabs_pos_eq in A, C by lra.
    split; [exact A|exact C]. }
  assert (Ee : (emin + prec - 1 < e + e)%Z).
  { apply (lt_bpow radix2). rewrite bpow_plus. eapply Rle_lt_trans; [exact N|]. nra. }
  assert (Ue : ulp radix2 fexp x = bpow radix2 (e - prec)).
  { rewrite ulp_neq_0 by lra. unfold Generic_fmt.cexp, FLT_exp. f_equal. fold e. lia. }
  set (u := bpow radix2 (- prec)).
  assert (Ub : bpow radix2 (e - prec) = bpow radix2 e * u) by (unfold u, Z.sub; apply bpow_plus).
  assert (U1 : 0 < u <= / 4) by (split; [apply bpow_gt_0|apply (bpow_le radix2 (- prec) (-2)); lia]).
  assert (Hd' : Rabs d <= u).
  { eapply Rle_trans; [exact Hd|]. unfold u. replace (- prec + 1)%Z with (1 + - prec)%Z by lia. rewrite bpow_plus. cbn. lra. }
  apply Rabs_le_inv in Hd'.
  assert (Y : sqrt (rnd (x * x)) = x * sqrt (1 + d)).
  { rewrite E, sqrt_mult by nra. rewrite sqrt_square by lra. reflexivity. }
  destruct (Req_dec x (bpow radix2 (e - 1))) as [X|X].
  - assert (G : rnd (x * x) = x * x).
    { apply round_generic; [auto with typeclass_instances|]. rewrite X, <- bpow_plus. apply generic_format_bpow. unfold FLT_exp. lia. }
    rewrite G, sqrt_square by lra. apply round_generic; [auto with typeclass_instances|exact Fx].
  - pose proof (id_p_ulp_le_bpow radix2 fexp x e Px Fx (proj2 B)) as T. rewrite Ue, Ub in T.
    pose proof (bpow_gt_0 radix2 e) as Be. set (b := bpow radix2 e) in *.
    pose proof (sqrt_pos (1 + d)) as S0. pose proof (sqrt_sqrt (1 + d) ltac:(lra)) as S1. set (s := sqrt (1 + d)) in *.
    apply Rle_antisym.
    + apply round_N_le_midp; [auto with typeclass_instances|exact Fx|]. rewrite succ_eq_pos by lra. rewrite Ue, Ub, Y.
      assert (s <= 1 + u / 2) by nra. nra.
    + apply round_N_ge_midp; [auto with typeclass_instances|exact Fx|]. rewrite pred_eq_pos by lra. unfold pred_pos. fold e.
      rewrite Req_bool_false by exact X. rewrite Ue, Ub, Y.
      assert (s >= 1 - u / 2 - u * u / 2).
      { destruct (Rle_or_lt (1 - u / 2 - u * u / 2) s) as [H|H]; [lra|exfalso].
        assert (s * s < (1 - u / 2 - u * u / 2) * (1 - u / 2 - u * u / 2)) by (apply Rmult_le_0_lt_compat; lra).
        assert (u * u * u <= u * u / 4) by nra. assert (u * u * u * u <= u * u / 16) by nra. nra. }
      assert (x * (1 - s) <= x * (u / 2 * (1 + u))) by (apply Rmult_le_compat_l; lra).
      assert (x * (u / 2 * (1 + u)) <= (b - b * u) * (u / 2 * (1 + u))) by (apply Rmult_le_compat_r; nra).
      assert ((b - b * u) * (u / 2 * (1 + u)) = b * u / 2 - b * u * u * u / 2) by field.
      assert (0 < b * u * u * u) by (repeat apply Rmult_lt_0_compat; lra). lra.
Qed.

Lemma sqrt_square_float (x : fl) : is_finite x = true -> is_finite (x * x)%N_ = true -> bpow radix2 (2 - emax) <= B2R x * B2R x ->
  fsqrt (x * x)%N_ = fabs x.
Proof.
  intros Fx Fm N. set (a := Rabs (B2R x)). assert (Q : B2R x * B2R x = a * a) by (unfold a; rewrite <- Rabs_mult, Rabs_pos_eq; nra).
  assert (Pa : 0 < a).
  { unfold a. apply Rabs_pos_lt. intros Z. rewrite Z in N. pose proof (bpow_gt_0 radix2 (2 - emax)). lra. }
  assert (V : B2R (fsqrt (x * x)%N_) = a).
  { unfold fsqrt. destruct (Bsqrt_correct prec emax _ _ mode_NE (x * x)%N_) as (E & _ & _). rewrite E.
    rewrite (fmul_R x x Fm), Q. apply sqrt_sq_R; [apply generic_format_abs, generic_format_B2R|exact Pa|].
    rewrite <- Q. replace (emin + prec - 1)%Z with (2 - emax)%Z by lia. exact N. }
  assert (Fa : is_finite (fabs x) = true) by (destruct x; try discriminate Fx; reflexivity).
  assert (Va : B2R (fabs x) = a).
  { destruct x as [s|s| |s m e H]; try discriminate Fx; [unfold a; cbn; symmetry; apply Rabs_R0|].
    unfold a. cbn [fabs fset_sign B2R]. rewrite <- F2R_Zabs, abs_cond_Zopp. reflexivity. }
  apply B2R_inj; [|destruct x; try discriminate Fx; [unfold a in Pa; cbn in Pa; rewrite Rabs_R0 in Pa; lra|reflexivity]|congruence].
  destruct (fsqrt (x * x)%N_) as [s|s| |s m e H]; cbn in V; try lra; reflexivity.
Qed.
End Sq.
