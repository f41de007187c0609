(** The field of view in floats: when it is read back, and examples. *)

From Coq Require Import List Arith ZArith Bool Lia Reals Lra Psatz.
From Flocq Require Import Core.Core Relative IEEE754.BinarySingleNaN.
From Verif Require Import Base Scalar Spec SpecF SpecUnp SpecCR SpecFov MVector MMatrix MFloat MProjection MFov
  LBase LFloat LFloatP LDegF LFloatNormP LLibmP LProjF LInvA LUnpF LFovA LFovD.
Local Open Scope R_scope.

(** ** On which side of one the tangent is *)
Lemma tan_ge a : 0 <= a -> a < PI / 2 -> a <= tan a.
Proof.
  intros [A|<-] B; [|rewrite tan_0; lra]. assert (T : 0 < tan a) by (apply tan_gt_0; lra).
  pose proof (LInvA.atan_le (tan a) ltac:(lra)) as H. rewrite atan_tan in H by lra. exact H.
Qed.
Lemma tan_below a : 0 <= a <= PI / 4 -> tan (PI / 4 - a) <= 1 - a.
Proof.
  intros (A & B). pose proof PI_digits as PD. pose proof (tan_ge a A ltac:(lra)) as T. assert (U : tan a <= 1).
  { destruct B as [B| ->]; [left; rewrite <- tan_PI4; apply tan_increasing; lra|rewrite tan_PI4; lra]. }
  assert (C1 : 0 < cos (PI / 4)) by (apply cos_gt_0; lra). assert (C2 : 0 < cos a) by (apply cos_gt_0; lra).
  destruct B as [B|B]; [|rewrite B, Rminus_diag_eq by reflexivity; rewrite tan_0; lra].
  rewrite tan_minus; [|lra|lra|apply Rgt_not_eq, cos_gt_0; lra|rewrite tan_PI4; lra]. rewrite tan_PI4.
  apply (Rmult_le_reg_r (1 + 1 * tan a)); [lra|]. unfold Rdiv. rewrite Rmult_assoc, Rinv_l by lra. nra.
Qed.
Lemma tan_above a : 0 <= a < PI / 4 -> 1 + 2 * a <= tan (PI / 4 + a).
Proof.
  intros (A & B). pose proof PI_digits as PD. pose proof (tan_ge a A ltac:(lra)) as T. assert (U : tan a < 1) by (rewrite <- tan_PI4; apply tan_increasing; lra).
  assert (C1 : 0 < cos (PI / 4)) by (apply cos_gt_0; lra). assert (C2 : 0 < cos a) by (apply cos_gt_0; lra).
  rewrite tan_plus; [|lra|lra|apply Rgt_not_eq, cos_gt_0; lra|rewrite tan_PI4; lra]. rewrite tan_PI4.
  apply (Rmult_le_reg_r (1 - 1 * tan a)); [lra|]. unfold Rdiv. rewrite Rmult_assoc, Rinv_l by lra. nra.
Qed.

Theorem c145_vfov (prec emax : Z) (Hp : Prec_gt_0 prec) (He : Prec_lt_emax prec emax) (q : Z) (d : R)
    (tangent arctangent : binary_float prec emax -> binary_float prec emax) (vfov aspect near far : binary_float prec emax) :
    (24 <= prec)%Z -> (1 <= q)%Z -> (6 * q + 33 <= emax)%Z -> (3 * q + prec + 16 <= emax)%Z ->
    0 <= d <= / 1000 -> tan_within d q tangent -> atan_within d (3 * q + prec + 10) arctangent ->
    is_finite vfov = true -> is_finite near = true ->
    let u := bpow radix2 (- prec) in
    let V := B2R vfov in
    sized q V -> V < PI -> sized q (tan (V / 2)) -> sized q (B2R near) ->
    let t := B2R (tangent (ndiv vfov (nadd n1 n1))) in
    let m := fpersp_from_vfov tangent vfov aspect near far in
    (V + 2 * d <= PI / 2 -> t <= 1) /\ (PI / 2 + 2 * d < V -> 1 < t) /\
    (t <= 1 -> fnear (fpersp_vfov arctangent m) V ((11 / 5 * d + 8 * u) * V)) /\
    (1 < t -> fnear (fpersp_vfov arctangent m) (V - PI) ((11 / 5 * d + 8 * u) * (PI - V))).
Proof.
  intros H24 q1 Hq Hq3 D0 Ht Hat Fv Fn u V SV VP St SN t m. subst u. pose proof (u_small H24) as U. assert (P : 0 < V) by exact (rb_pos q V SV).
  assert (TN : Rabs (t - tan (V / 2)) <= d * tan (V / 2)) by (eapply (T_near H24 q); eassumption). apply Rabs_le_inv in TN.
  assert (T0 : 0 < tan (V / 2)) by exact (rb_pos q _ St).
  split; [|split; [|split]].
  - intros L. pose proof (tan_below (PI / 4 - V / 2) ltac:(pose proof PI_RGT_0; lra)) as B. replace (PI / 4 - (PI / 4 - V / 2)) with (V / 2) in B by ring. nra.
  - intros L. pose proof (tan_above (V / 2 - PI / 4) ltac:(lra)) as B. replace (PI / 4 + (V / 2 - PI / 4)) with (V / 2) in B by ring. nra.
  - intros L. assert (M : ml (32 / 15 * d + 118 / 15 * bpow radix2 (- prec)) (fpersp_vfov arctangent m) V) by (eapply (read_narrow H24 q); eassumption).
    destruct (ml_near' _ _ _ M ltac:(lra)) as (F1 & F2). split; [exact F1|]. eapply Rle_trans; [exact F2|]. rewrite Rabs_pos_eq by lra. apply Rmult_le_compat_r; lra.
  - intros L. assert (M : ml (32 / 15 * d + 118 / 15 * bpow radix2 (- prec)) (fpersp_vfov arctangent m) (V - PI)) by (eapply (read_wide H24 q); eassumption).
    destruct (ml_near' _ _ _ M ltac:(lra)) as (F1 & F2). split; [exact F1|]. eapply Rle_trans; [exact F2|]. rewrite Rabs_left by lra. rewrite Ropp_minus_distr. apply Rmult_le_compat_r; lra.
Qed.

(** ** A wide field of view *)
Lemma tan_1 : 1 + 2 * (1 - PI / 4) <= tan 1 <= 2.
Proof.
  pose proof PI_digits as PD. pose proof (tan_above (1 - PI / 4) ltac:(lra)) as B. replace (PI / 4 + (1 - PI / 4)) with 1 in B by ring. split; [exact B|].
  assert (C : 1 / 2 <= cos 1) by (rewrite <- cos_PI3; apply cos_decr_1; lra). pose proof (SIN_bound 1). unfold tan. apply (Rmult_le_reg_r (cos 1)); [lra|]. unfold Rdiv. rewrite Rmult_assoc, Rinv_l by lra. lra.
Qed.
Theorem c145_wide_refuted :
  exists vfov aspect near far : f64,
    is_finite vfov = true /\ B2R vfov = 2 /\ is_finite aspect = true /\ B2R aspect = 1 /\
    is_finite near = true /\ B2R near = 1 /\ is_finite far = true /\ B2R far = 2 /\
    forall tangent arctangent : f64 -> f64, tan_within (/ 1000) 10 tangent -> atan_within (/ 1000) 93 arctangent ->
      let angle := fpersp_vfov arctangent (fpersp_from_vfov tangent vfov aspect near far) in
      is_finite angle = true /\ - (115 / 100) <= B2R angle <= - (113 / 100).
Proof.
  destruct (f64_of_Z_exact 2 ltac:(reflexivity)) as (V2 & F2). destruct (f64_of_Z_exact 1 ltac:(reflexivity)) as (V1 & F1).
  exists (f64_of_Z 2), (f64_of_Z 1), (f64_of_Z 1), (f64_of_Z 2).
  split; [exact F2|]. split; [exact V2|]. split; [exact F1|]. split; [exact V1|]. split; [exact F1|]. split; [exact V1|]. split; [exact F2|]. split; [exact V2|].
  intros tg at_ Ht Hat angle. pose proof PI_digits as PD. pose proof tan_1 as T1.
  assert (S : forall r, / 2 <= r <= 2 -> sized 10 r) by (intros r R; split; cbn; lra).
  destruct (c145_vfov 53 1024 prec64 emax64 10 (/ 1000) tg at_ (f64_of_Z 2) (f64_of_Z 1) (f64_of_Z 1) (f64_of_Z 2)) as (_ & B & _ & W); try assumption; try lia; try lra.
  - rewrite V2. apply S. lra.
  - rewrite V2. replace (2 / 2) with 1 by field. apply S. lra.
  - rewrite V1. apply S. lra.
  - rewrite V2 in B, W. destruct (W (B ltac:(lra))) as (G1 & G2). split; [exact G1|]. fold angle in G2. apply Rabs_le_inv in G2.
    assert (bpow radix2 (-53) <= / 1000000) by (apply (Rle_trans _ (bpow radix2 (-20))); [apply bpow_le; lia|cbn; lra]). cbn [Z.opp] in G2. nra.
Qed.

(** ** The nearest floats *)
Lemma cr_close r s : bpow radix2 (-1000) <= Rabs r <= bpow radix2 1000 -> fnear (cr r s : f64) r (bpow radix2 (-53) * Rabs r).
Proof.
  intros (A & B). destruct (cr_bounded (prec := 53) (emax := 1024) r s 1000) as (F & _ & V & _); [lia|exact B|]. split; [exact F|].
  rewrite V. replace (bpow radix2 (-53)) with (/ 2 * bpow radix2 (- 53 + 1)) by (change (/ 2) with (bpow radix2 (-1)); rewrite <- bpow_plus; reflexivity).
  apply relative_error_N_FLT; [reflexivity|]. eapply Rle_trans; [|exact A]. apply bpow_le. lia.
Qed.
Lemma nearest_tan_ok : tan_within (bpow radix2 (-53)) 10 nearest_tan.
Proof.
  intros x F X (S1 & S2). unfold nearest_tan. rewrite F. assert (P : 0 < tan (B2R x)) by (pose proof (bpow_gt_0 radix2 (- (10))); lra).
  pose proof (cr_close (tan (B2R x)) (Bsign x)) as H. rewrite Rabs_pos_eq in H by lra. apply H. split; [eapply Rle_trans; [|exact S1]|eapply Rle_trans; [exact S2|]]; apply bpow_le; lia.
Qed.
Lemma atan_size r : sized 93 (Rabs r) -> bpow radix2 (-1000) <= Rabs (atan r) <= bpow radix2 1000.
Proof.
  intros (S1 & S2). pose proof (bpow_gt_0 radix2 (- (93))) as G. pose proof (atan_bound r) as B. pose proof PI_digits as PD. split.
  - assert (E : Rabs (atan r) = atan (Rabs r)).
    { destruct (Rle_dec 0 r) as [R|R].
      - rewrite (Rabs_pos_eq r R). apply Rabs_pos_eq. destruct R as [R|<-]; [left; apply atan_pos; exact R|rewrite atan_0; lra].
      - rewrite (Rabs_left r), atan_opp by lra. apply Rabs_left. rewrite <- atan_0. apply atan_increasing. lra. }
    rewrite E. apply (Rle_trans _ (atan (bpow radix2 (- (93))))).
    + eapply Rle_trans; [|apply atan_low; exact G]. apply (Rmult_le_reg_r (1 + bpow radix2 (- (93)) * bpow radix2 (- (93)))); [nra|]. unfold Rdiv. rewrite Rmult_assoc, Rinv_l by nra.
      assert (bpow radix2 (- (93)) <= 1) by (apply (bpow_le radix2 _ 0); lia). assert (bpow radix2 (-1000) <= / 2 * bpow radix2 (- (93))).
      { change (/ 2) with (bpow radix2 (-1)). rewrite <- bpow_plus. apply bpow_le. lia. }
      pose proof (bpow_gt_0 radix2 (-1000)). nra.
    + destruct S1 as [S1|S1]; [left; apply atan_increasing; exact S1|right; f_equal; exact S1].
  - apply (Rle_trans _ (bpow radix2 1)); [cbn; apply Rabs_le; lra|apply bpow_le; lia].
Qed.
Lemma nearest_atan_ok : atan_within (bpow radix2 (-53)) 93 nearest_atan.
Proof.
  pose proof PI_digits as PD. split.
  - intros x F S. pose proof (cr_close (atan (B2R x)) (Bsign x) (atan_size _ S)) as H. destruct x; try discriminate F; exact H.
  - unfold nearest_atan. pose proof (cr_close (PI / 2) false) as H. rewrite Rabs_pos_eq in H by lra. apply H.
    split; [apply (Rle_trans _ (bpow radix2 0)); [apply bpow_le; lia|cbn; lra]|apply (Rle_trans _ (bpow radix2 1)); [cbn; lra|apply bpow_le; lia]].
Qed.

Theorem c145_example :
  let vfov := f64_of_Z 1 in let aspect := f64_of_Z 2 in let near := f64_of_Z 1 in let far := f64_of_Z 4 in
  let m := fpersp_from_vfov nearest_tan vfov aspect near far in
  fnear (fpersp_vfov nearest_atan m) 1 (bpow radix2 (-49)) /\ fnear (persp_aspect_ratio m) 2 (bpow radix2 (-48)) /\
  fnear (persp_near m) 1 (bpow radix2 (-48)) /\ fnear (persp_far m) 4 (bpow radix2 (-45)).
Proof.
  destruct (f64_of_Z_exact 2 ltac:(reflexivity)) as (V2 & F2). destruct (f64_of_Z_exact 1 ltac:(reflexivity)) as (V1 & F1). destruct (f64_of_Z_exact 4 ltac:(reflexivity)) as (V4 & F4).
  intros vfov aspect near far m. pose proof PI_digits as PD. assert (U0 : 0 < bpow radix2 (-53)) by apply bpow_gt_0.
  assert (U : bpow radix2 (-53) <= / 1000000) by (apply (Rle_trans _ (bpow radix2 (-20))); [apply bpow_le; lia|cbn; lra]).
  assert (S : forall r, / 4 <= r <= 4 -> sized 10 r) by (intros r R; split; cbn; lra).
  assert (T : / 4 <= tan (1 / 2) <= 1).
  { pose proof (tan_ge (1 / 2) ltac:(lra) ltac:(lra)). pose proof (tan_below (PI / 4 - 1 / 2) ltac:(lra)) as B. replace (PI / 4 - (PI / 4 - 1 / 2)) with (1 / 2) in B by ring. lra. }
  assert (K : forall (x : f64) r e g, fnear x r e -> e <= g -> fnear x r g) by (intros x r e g (G1 & G2) L; split; [exact G1|eapply Rle_trans; [exact G2|exact L]]).
  assert (E4 : bpow radix2 (-49) = bpow radix2 (-53) * 16) by exact (bpow_plus radix2 (-53) 4).
  assert (E5 : bpow radix2 (-48) = bpow radix2 (-53) * 32) by exact (bpow_plus radix2 (-53) 5).
  assert (E8 : bpow radix2 (-45) = bpow radix2 (-53) * 256) by exact (bpow_plus radix2 (-53) 8).
  assert (D : depth_range 53 10 (B2R near) (B2R far)).
  { unfold near, far. rewrite V1, V4. split; [apply S; lra|]. split; [apply S; lra|]. split; [lra|]. change (- (53))%Z with (-53)%Z. lra. }
  destruct (c145_vfov 53 1024 prec64 emax64 10 (bpow radix2 (-53)) nearest_tan nearest_atan vfov aspect near far) as (L & _ & N & _); try assumption; try lia; try lra.
  { apply nearest_tan_ok. } { apply nearest_atan_ok. }
  { unfold vfov. rewrite V1. apply S. lra. } { unfold vfov. rewrite V1. lra. } { unfold vfov. rewrite V1. apply S. lra. } { unfold near. rewrite V1. apply S. lra. }
  destruct (c145_matrix 53 1024 prec64 emax64 10 (bpow radix2 (-53)) nearest_tan vfov aspect near far) as (_ & _ & _ & _ & _ & _ & _ & MA & MN & MF); try assumption; try lia; try lra.
  { apply nearest_tan_ok. } 
  { unfold vfov. rewrite V1. apply S. lra. } { unfold vfov. rewrite V1. lra. } { unfold vfov. rewrite V1. apply S. lra. } { unfold aspect. rewrite V2. apply S. lra. }
  unfold vfov in L, N. rewrite V1 in L, N. unfold aspect in MA. rewrite V2 in MA. unfold near in MN. rewrite V1 in MN. unfold near, far in MF. rewrite V1, V4 in MF.
  change (- (53))%Z with (-53)%Z in *.
  split; [apply (K _ _ _ _ (N (L ltac:(lra)))); lra|]. split; [apply (K _ _ _ _ MA); lra|]. split; [apply (K _ _ _ _ MN); lra|apply (K _ _ _ _ MF); lra].
Qed.
