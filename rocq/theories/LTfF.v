(** General transforms in floats (C153). *)

From Coq Require Import List Arith ZArith Bool Lia Reals Lra Psatz.
From Flocq Require Import Core.Core IEEE754.BinarySingleNaN.
From Verif Require Import Base Scalar Spec SpecF SpecRigid MVector MMatrix MPoint MTransform MFloat MFloatVec
  LBase LVector LDriftM LLookF LComplexLP LQFunG LMatrix LFloat LFloatVec LFloatP LFloatNormP LTrScF LSlerpS LComplexHP.
Local Open Scope R_scope.

Section F.
Context {prec emax : Z} {Hp : Prec_gt_0 prec} {He : Prec_lt_emax prec emax}.
Notation fl := (binary_float prec emax).
Notation u := (bpow radix2 (- prec)).
Notation tiny := (bpow radix2 (2 - emax - prec)).
Notation fexp := (FLT_exp (3 - emax - prec) prec).
Notation rnd := (round radix2 fexp ZnearestE).
Hypothesis H24 : (24 <= prec)%Z.

(** A dot product of at most four terms, relative to a bound of the sum of the magnitudes. *)
Lemma dot_sum_near c (x y : nat -> fl) T : (c <= 4)%nat -> (forall k, (k < c)%nat -> is_finite (x k) = true /\ is_finite (y k) = true) ->
  rsum c (fun k => Rabs (B2R (x k) * B2R (y k))) <= T -> bpow radix2 (31 - emax) <= T <= bpow radix2 (emax - 31) ->
  fnear (sum c (fun k => nmul (x k) (y k))) (rsum c (fun k => B2R (x k) * B2R (y k))) (8 * u * T).
Proof.
  intros Hc Fxy HT WT. assert (U : 0 < u <= / 1024) by (split; [apply bpow_gt_0|apply u_le, H24]).
  assert (T0 : 0 < T) by (pose proof (bpow_gt_0 radix2 (31 - emax)); lra). set (A := rsum c (fun k => Rabs (B2R (x k) * B2R (y k)))) in *.
  assert (A0 : 0 <= A) by (apply rsum_nonneg; intros; apply Rabs_pos).
  assert (N4 : 0 <= INR c <= 4). { split; [apply pos_INR|]. replace 4 with (INR 4) by (cbn; lra). apply le_INR; exact Hc. }
  assert (TT : tiny <= / 1024 * u * T).
  { apply Rle_trans with (/ 1024 * u * bpow radix2 (31 - emax)).
    - change (/ 1024) with (bpow radix2 (-10)). rewrite <- !bpow_plus. apply bpow_le. lia.
    - apply Rmult_le_compat_l; [lra|apply WT]. }
  assert (TP : 0 < tiny) by apply bpow_gt_0.
  assert (uT : 0 < u * T <= / 1024 * T) by (split; [apply Rmult_lt_0_compat; lra|apply Rmult_le_compat_r; lra]).
  pose proof (pow_u_bound u (c + 1) U ltac:(lia)) as P1. pose proof (pow_u_bound u c U ltac:(lia)) as P2.
  assert (NT : 0 <= INR c * tiny * (1 + u) ^ c <= / 100 * (u * T)).
  { split; [apply Rmult_le_pos; [apply Rmult_le_pos|]; lra|]. apply Rle_trans with (4 * (/ 1024 * u * T) * 2); [|lra].
    apply Rmult_le_compat; [apply Rmult_le_pos; lra|lra| |lra]. apply Rmult_le_compat; lra. }
  assert (F : is_finite (sum c (fun k => nmul (x k) (y k))) = true).
  { apply dot_fin; [apply Fxy|apply Fxy|]. rewrite funit_eq, ftiny_eq. fold A. replace (S c) with (c + 1)%nat by lia.
    assert (A * (1 + u) ^ (c + 1) <= T * 2) by (apply Rmult_le_compat; lra).
    assert (4 * T <= bpow radix2 (emax - 1)).
    { apply Rle_trans with (bpow radix2 (2 + (emax - 31))); [rewrite bpow_plus; change (bpow radix2 2) with 4; lra|apply bpow_le; lia]. }
    lra. }
  split; [exact F|]. eapply Rle_trans; [exact (dot_err_bound c x y F)|]. rewrite funit_eq, ftiny_eq, <- (Nat.add_1_r c). change (rsum c (fun k => Rabs (B2R (x k) * B2R (y k)))) with A.
  assert (((1 + u) ^ (c + 1) - 1) * A <= 7 * u * T) by (apply Rmult_le_compat; lra). lra.
Qed.
Lemma mulv_near r c (m : mat fl r c) (v : vec fl c) i T : (i < r)%nat -> (c <= 4)%nat -> (forall k, (k < c)%nat -> is_finite (mget m k i) = true /\ is_finite (vat v k) = true) ->
  rsum c (fun k => Rabs (B2R (mget m k i) * B2R (vat v k))) <= T -> bpow radix2 (31 - emax) <= T <= bpow radix2 (emax - 31) ->
  fnear (vat (mmulv m v) i) (rsum c (fun k => B2R (mget m k i) * B2R (vat v k))) (8 * u * T).
Proof.
  intros Hi Hc Fm HT WT. rewrite vat_mmulv by exact Hi. exact (dot_sum_near c (fun k => mget m k i) (vat v) T Hc Fm HT WT).
Qed.

(** The quotient of two approximate values. *)
Lemma quot_near (x w : fl) X W T kappa : fnear x X (8 * u * T) -> fnear w W (8 * u * T) -> Rabs X <= T -> Rabs W <= T -> 0 < T -> W <> 0 -> T <= kappa * Rabs W -> 64 * u * kappa <= 1 ->
  B2R w <> 0 /\ fnear (ndiv x w) (X / W) (12 * u * kappa * (1 + Rabs (X / W))).
Proof.
  intros (Fx & Ex) (Fw & Ew) HX HW T0 W0 K1 K2. pose proof (bpow_gt_0 radix2 (- prec)) as U0. assert (U : u <= / 1024) by (apply u_le, H24).
  assert (AW : 0 < Rabs W) by (apply Rabs_pos_lt, W0). set (a := Rabs W) in *.
  assert (KP : 1 <= kappa) by (apply (Rmult_le_reg_r a); [exact AW|]; lra).
  assert (UK : u <= u * kappa) by (rewrite <- (Rmult_1_r u) at 1; apply Rmult_le_compat_l; lra).
  assert (UT : 8 * u * T <= 8 * (u * kappa) * a). { replace (8 * (u * kappa) * a) with (8 * u * (kappa * a)) by ring. apply Rmult_le_compat_l; lra. }
  assert (E8 : 8 * (u * kappa) * a <= / 8 * a) by (apply Rmult_le_compat_r; lra).
  assert (AB : 7 / 8 * a <= Rabs (B2R w)).
  { pose proof (Rabs_triang_inv W (W - B2R w)) as Q. replace (W - (W - B2R w)) with (B2R w) in Q by ring. rewrite (Rabs_minus_sym W) in Q. fold a in Q. lra. }
  assert (WN : B2R w <> 0). { intros Z. rewrite Z, Rabs_R0 in AB. lra. }
  split; [exact WN|]. set (b := Rabs (B2R w)) in *. set (Q := Rabs (X / W)). assert (Q0 : 0 <= Q) by apply Rabs_pos.
  assert (IB : 0 < / b) by (apply Rinv_0_lt_compat; lra). assert (AI : a * / b <= 8 / 7) by (apply (Rmult_le_reg_r b); [lra|]; rewrite Rmult_assoc, Rinv_l by lra; lra).
  assert (D : Rabs (B2R x / B2R w - X / W) <= 64 / 7 * (u * kappa) * (1 + Q)).
  { replace (B2R x / B2R w - X / W) with (((B2R x - X) - X / W * (B2R w - W)) * / B2R w) by (field; split; assumption).
    rewrite Rabs_mult, Rabs_inv. fold b. apply Rle_trans with ((8 * (u * kappa) * a * (1 + Q)) * / b).
    - apply Rmult_le_compat_r; [lra|]. unfold Rminus at 1. eapply Rle_trans; [apply Rabs_triang|]. rewrite Rabs_Ropp, Rabs_mult. fold Q.
      assert (Q * Rabs (B2R w - W) <= Q * (8 * (u * kappa) * a)) by (apply Rmult_le_compat_l; lra). lra.
    - replace (8 * (u * kappa) * a * (1 + Q) * / b) with (8 * (u * kappa) * (1 + Q) * (a * / b)) by ring. replace (64 / 7 * (u * kappa) * (1 + Q)) with (8 * (u * kappa) * (1 + Q) * (8 / 7)) by field.
      apply Rmult_le_compat_l; [apply Rmult_le_pos; lra|exact AI]. }
  assert (QK : Q <= kappa).
  { unfold Q, Rdiv. rewrite Rabs_mult, Rabs_inv. fold a. apply (Rmult_le_reg_r a); [exact AW|]. rewrite Rmult_assoc, Rinv_l by lra. lra. }
  assert (UKQ : u * kappa * (1 + Q) <= / 64 * (1 + Q)) by (apply Rmult_le_compat_r; lra).
  assert (ZB : Rabs (B2R x / B2R w) <= 2 * (1 + Q)).
  { replace (B2R x / B2R w) with (X / W + (B2R x / B2R w - X / W)) by ring. eapply Rle_trans; [apply Rabs_triang|]. fold Q. lra. }
  assert (KB : kappa <= bpow radix2 (emax - 6)).
  { apply (Rmult_le_reg_l u); [exact U0|]. rewrite <- bpow_plus. apply Rle_trans with (bpow radix2 (-6)); [change (bpow radix2 (-6)) with (/ 64); lra|]. apply bpow_le. pose proof He as P. unfold Prec_lt_emax in P. lia. }
  assert (BB : Rabs (B2R x / B2R w) <= bpow radix2 (emax - 1)).
  { apply Rle_trans with (bpow radix2 (2 + (emax - 6))); [rewrite bpow_plus; change (bpow radix2 2) with 4; lra|apply bpow_le; lia]. }
  destruct (div_val x w Fx WN BB) as (F & V). split; [exact F|]. pose proof (rnd_rel (prec := prec) (emax := emax) (B2R x / B2R w)) as R.
  assert (TT : tiny <= u * (1 + Q) * / 1024).
  { apply Rle_trans with (u * / 1024); [change (/ 1024) with (bpow radix2 (-10)); rewrite <- bpow_plus; apply bpow_le; pose proof He as P; unfold Prec_lt_emax in P; lia|].
    apply Rmult_le_compat_r; [lra|]. rewrite <- (Rmult_1_r u) at 1. apply Rmult_le_compat_l; lra. }
  assert (U2 : u * Rabs (B2R x / B2R w) <= u * (2 * (1 + Q))) by (apply Rmult_le_compat_l; lra).
  assert (U3 : u * (1 + Q) <= u * kappa * (1 + Q)) by (apply Rmult_le_compat_r; lra).
  assert (R' : Rabs (B2R (ndiv x w) - B2R x / B2R w) <= u * Rabs (B2R x / B2R w) + tiny) by (rewrite V; exact R). clear R V.
  replace (B2R (ndiv x w) - X / W) with ((B2R (ndiv x w) - B2R x / B2R w) + (B2R x / B2R w - X / W)) by ring.
  assert (12 * u * kappa * (1 + Q) = 12 * (u * kappa * (1 + Q))) by ring. set (k1 := u * kappa * (1 + Q)) in *. set (k2 := u * (1 + Q)) in *.
  assert (u * (2 * (1 + Q)) = 2 * k2) by (unfold k2; ring). assert (64 / 7 * (u * kappa) * (1 + Q) = 64 / 7 * k1) by (unfold k1; ring).
  assert (0 <= k2) by (apply Rmult_le_pos; lra).
  eapply Rle_trans; [apply Rabs_triang|]. lra.
Qed.
End F.
