(** Composition and inverse of similarities in floats (C157). *)

From Coq Require Import List Arith ZArith Lia Reals Lra Psatz.
From Flocq Require Import Core.Core IEEE754.BinarySingleNaN.
From Verif Require Import Base Scalar Spec SpecF SpecRot SpecDrift SpecRigid MVector MMatrix MPoint MReal MFloat MTransform
  LBase LVector LMatrix LTransform LReal LVectorR LRot LTransformR LFloat LFloatVec LFloatAcc LFloatNormP LFloatP LDrift LDriftM LTrScF LRigidF LRigidFP LRigidGP.
Local Open Scope R_scope.

Section S.
Context {prec emax : Z} {Hp : Prec_gt_0 prec} {He : Prec_lt_emax prec emax}.
Notation fl := (binary_float prec emax).
Notation u := (bpow radix2 (- prec)).
Hypothesis H24 : (24 <= prec)%Z.
Variable n : nat.
Hypothesis Hn : (n <= 4)%nat.

(** Multiplying an approximate family by an approximate factor. *)
Lemma mul_step V W e B (x : nat -> fl) r (s : fl) sg : @wok emax W -> 0 < V -> V * Rabs sg <= W -> is_finite s = true -> Rabs (B2R s - sg) <= 9 / 8 * u * Rabs sg ->
  vne n V e x r -> fnrm n r <= B * V -> 0 <= e -> 0 <= B -> B + e <= 1024 ->
  vne n W (e + (5 / 2 * (B + e) + / 512) * u) (fun i => nmul (x i) s) (fun i => r i * sg).
Proof.
  intros HW V0 HS Fs Hs (Fx & Ex) HB e0 B0 BE. pose proof (wok_pos _ HW) as W0. pose proof (u_small H24) as U.
  assert (G0 : 0 <= Rabs sg) by apply Rabs_pos. set (g := Rabs sg) in *.
  assert (SC : forall f b, 0 <= b -> fnrm n f <= b * V -> fnrm n (fun i => f i * sg) <= b * W).
  { intros f b b0 H. rewrite (fnrm_ext n _ (fun i => sg * f i)) by (intros; ring). rewrite fnrm_scale. fold g.
    apply Rle_trans with (g * (b * V)); [apply Rmult_le_compat_l; assumption|]. replace (g * (b * V)) with (b * (V * g)) by ring. apply Rmult_le_compat_l; assumption. }
  assert (NX : fnrm n (fun i => B2R (x i)) <= (B + e) * V) by (pose proof (fnrm_near _ _ _ _ Ex); lra).
  set (c := B + e) in *. assert (c0 : 0 <= c) by (unfold c; lra).
  assert (SB : Rabs (B2R s) <= (1 + 9 / 8 * u) * g).
  { replace (B2R s) with (sg + (B2R s - sg)) by ring. eapply Rle_trans; [apply Rabs_triang|]. fold g. lra. }
  assert (X1 : fnrm n (fun i => B2R (x i) * B2R s) <= (c * (1 + 9 / 8 * u)) * W).
  { rewrite (fnrm_ext n _ (fun i => B2R s * B2R (x i))) by (intros; ring). rewrite fnrm_scale.
    apply Rle_trans with ((1 + 9 / 8 * u) * g * (c * V)); [apply Rmult_le_compat; [apply Rabs_pos|apply fnrm_pos|exact SB|exact NX]|].
    replace ((1 + 9 / 8 * u) * g * (c * V)) with (c * (1 + 9 / 8 * u) * (V * g)) by ring. apply Rmult_le_compat_l; [apply Rmult_le_pos; lra|exact HS]. }
  assert (CU : 0 <= c * u <= 1024 * u) by (split; [apply Rmult_le_pos; lra|apply Rmult_le_compat_r; lra]).
  destruct (scale_step n Hn W (c * (1 + 9 / 8 * u)) x s HW Fx Fs X1 ltac:(lra)) as (F & E).
  split; [exact F|]. apply Rle_trans with ((c * (1 + 9 / 8 * u) + / 1024) * u * W + (9 / 8 * u * c * W + e * W)).
  - apply fnrm_tri3 with (fun i => B2R (x i) * B2R s); [exact E|]. apply fnrm_tri3 with (fun i => B2R (x i) * sg).
    + rewrite (fnrm_ext n _ (fun i => (B2R s - sg) * B2R (x i))) by (intros; ring). rewrite fnrm_scale.
      apply Rle_trans with (9 / 8 * u * g * (c * V)); [apply Rmult_le_compat; [apply Rabs_pos|apply fnrm_pos|exact Hs|exact NX]|].
      replace (9 / 8 * u * g * (c * V)) with (9 / 8 * u * c * (V * g)) by ring. apply Rmult_le_compat_l; [|exact HS]. lra.
    + rewrite (fnrm_ext n _ (fun i => (B2R (x i) - r i) * sg)) by (intros; ring). apply SC; assumption.
  - replace ((c * (1 + 9 / 8 * u) + / 1024) * u * W + (9 / 8 * u * c * W + e * W)) with ((e + (c * (1 + 9 / 8 * u) + / 1024 + 9 / 8 * c) * u) * W) by ring.
    apply Rmult_le_compat_r; [lra|]. apply Rplus_le_compat_l. apply Rmult_le_compat_r; lra.
Qed.

(** A rounded quantity of ordinary magnitude. *)
Lemma rel_of z (x : fl) : @wok emax (Rabs z) -> is_finite x = true -> B2R x = round radix2 (FLT_exp (3 - emax - prec) prec) ZnearestE z -> is_finite x = true /\ Rabs (B2R x - z) <= 9 / 8 * u * Rabs z.
Proof.
  intros W F E. split; [exact F|]. rewrite E. destruct (round_err (prec := prec) (emax := emax) z) as (d & t & Hd & Ht & ->). rewrite funit_eq in Hd.
  pose proof (@ftiny_w prec emax _ W) as T. replace (z * (1 + d) + t - z) with (d * z + t) by ring. eapply Rle_trans; [apply Rabs_triang|]. rewrite Rabs_mult.
  assert (Rabs d * Rabs z <= u * Rabs z) by (apply Rmult_le_compat_r; [apply Rabs_pos|exact Hd]). pose proof (wok_pos _ W). pose proof (bpow_gt_0 radix2 (- prec)).
  assert (0 <= u * Rabs z) by (apply Rmult_le_pos; lra). pose proof (@ftiny_pos prec emax). lra.
Qed.
Lemma rel_mul (x y : fl) : is_finite x = true -> is_finite y = true -> @wok emax (Rabs (B2R x * B2R y)) -> is_finite (nmul x y) = true /\ Rabs (B2R (nmul x y) - B2R x * B2R y) <= 9 / 8 * u * Rabs (B2R x * B2R y).
Proof.
  intros Fx Fy W. destruct (mul_val x y Fx Fy) as (F & E); [eapply Rle_trans; [apply W|apply bpow_le; lia]|]. apply rel_of; assumption.
Qed.
Lemma rel_inv (y : fl) : is_finite y = true -> @wok emax (Rabs (B2R y)) -> is_finite (ndiv n1 y) = true /\ Rabs (B2R (ndiv n1 y) - / B2R y) <= 9 / 8 * u * Rabs (/ B2R y).
Proof.
  intros Fy W. pose proof (wok_pos _ W) as P. assert (Y : B2R y <> 0) by (intros Z; rewrite Z, Rabs_R0 in P; lra).
  assert (O : B2R (n1 : fl) = 1) by apply Bone_correct. assert (FO : is_finite (n1 : fl) = true) by apply is_finite_Bone.
  assert (D : B2R (n1 : fl) / B2R y = / B2R y) by (rewrite O; unfold Rdiv; apply Rmult_1_l).
  assert (WI : @wok emax (Rabs (/ B2R y))).
  { rewrite Rabs_inv. destruct W as (W1 & W2). split.
    - replace (31 - emax)%Z with (- (emax - 31))%Z by lia. rewrite bpow_opp. apply Rinv_le; assumption.
    - replace (emax - 31)%Z with (- (31 - emax))%Z by lia. rewrite bpow_opp. apply Rinv_le; [apply bpow_gt_0|assumption]. }
  destruct (div_val n1 y FO Y) as (F & E); [rewrite D; eapply Rle_trans; [apply WI|apply bpow_le; lia]|]. rewrite D in E. apply rel_of; assumption.
Qed.
End S.
