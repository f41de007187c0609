(** Inverse viewing matrices and viewing isometries in floats (C158). *)

From Coq Require Import List Arith ZArith Lia Reals Lra Psatz.
From Flocq Require Import Core.Core IEEE754.BinarySingleNaN.
From Verif Require Import Base Scalar Spec SpecF SpecRot SpecRigid SpecLook MVector MMatrix MPoint MReal MFloat MFloatVec MTransform MLookF MViewF
  LBase LVector LMatrix LTransform LReal LVectorR LRot LTransformR LFloat LFloatVec LFloatAcc LFloatNormP LFloatP LDrift LDriftM LFloatExP LNormF LRigidF LRigidFP
  LLookF LLookFP LLookGP.
Local Open Scope R_scope.

(** A matrix whose rows are given. *)
Definition rows_of (f : nat -> nat -> R) : mat R 3 3 :=
  m3new (f 0%nat 0%nat) (f 1%nat 0%nat) (f 2%nat 0%nat) (f 0%nat 1%nat) (f 1%nat 1%nat) (f 2%nat 1%nat) (f 0%nat 2%nat) (f 1%nat 2%nat) (f 2%nat 2%nat).
Lemma rows_get f i j : (i < 3)%nat -> (j < 3)%nat -> mget (rows_of f) j i = f i j.
Proof. intros Hi Hj. destruct i as [|[|[|i]]]; [| | |lia]; (destruct j as [|[|[|j]]]; [| | |lia]); reflexivity. Qed.
Definition orthoframe (f : nat -> nat -> R) : Prop := forall i j, (i < 3)%nat -> (j < 3)%nat -> rdot (f i) (f j) = if Nat.eqb i j then 1 else 0.
Lemma rows_orth f : orthoframe f -> orthonormal_columns (rows_of f).
Proof.
  intros H. rewrite <- (mtranspose_invol _ _ (rows_of f)). apply orth_inverse. intros j k Hj Hk.
  transitivity (rdot (f j) (f k)).
  - apply sum_ext. intros i Hi. rewrite !mget_mtranspose, !rows_get by assumption. reflexivity.
  - rewrite H by assumption. reflexivity.
Qed.

Section W.
Context {prec emax : Z} {Hp : Prec_gt_0 prec} {He : Prec_lt_emax prec emax}.
Notation fl := (binary_float prec emax).
Notation u := (bpow radix2 (- prec)).
Hypothesis H24 : (24 <= prec)%Z.
Variables (V : R).
Hypothesis HV : @wok emax V.

Lemma mv_step (a : mat fl 3 3) (Q : mat R 3 3) d e (p : vec fl 3) r : orthonormal_columns Q -> 0 <= d <= / 60 ->
  (forall j i, (j < 3)%nat -> (i < 3)%nat -> fnear (mget a j i) (mget Q j i) d) -> vne 3 V e (fun i => vat p i) r -> fnrm 3 r <= 1 * V -> 0 <= e <= 1 ->
  vne 3 V (e + (4 * d + 18 * u) * (1 + e)) (fun i => vat (mmulv a p) i) (fun i => rsum 3 (fun j => mget Q j i * r j)).
Proof.
  intros HQ Hd HM Hp' HB He'.
  eapply vne_ext; [apply (mat_step H24 3 ltac:(lia) V HV (fun j i => mget a j i) Q d (proj1 Hd) ltac:(lra) HQ HM e 1 _ r Hp' HB); lra| |reflexivity].
  intros i Hi. rewrite vat_mmulv by exact Hi. reflexivity.
Qed.

Lemma round_trip (a : mat fl 3 3) (Q : mat R 3 3) d (p : vec fl 3) : orthonormal_columns Q -> 0 <= d <= / 60 ->
  (forall j i, (j < 3)%nat -> (i < 3)%nat -> fnear (mget a j i) (mget Q j i) d) -> (forall i, (i < 3)%nat -> is_finite (vat p i) = true) -> fnrm 3 (fval p) <= V ->
  vfnear (mmulv (mtranspose a) (mmulv a p)) (fval p) ((9 * d + 38 * u) * V).
Proof.
  intros HQ Hd HM Fp Np. pose proof (u_small H24) as U.
  assert (du : 0 <= 4 * d + 18 * u <= 1 / 10) by lra.
  assert (B : fnrm 3 (fval p) <= 1 * V) by lra.
  pose proof (mv_step a Q d 0 p (fval p) HQ Hd HM (vne_exact 3 V _ Fp) B ltac:(lra)) as S1.
  assert (S2 := mv_step (mtranspose a) (mtranspose Q) d _ (mmulv a p) _ (orth_inverse 3 Q HQ) Hd
    (fun j i Hj Hi => ltac:(rewrite !mget_mtranspose by assumption; apply HM; assumption)) S1).
  rewrite (fnrm_orth_mul 3 Q _ HQ) in S2. specialize (S2 B ltac:(lra)).
  assert (S3 : vne 3 V (9 * d + 38 * u) (fun i => vat (mmulv (mtranspose a) (mmulv a p)) i) (fval p)).
  { eapply vne_ext; [eapply (vne_weak 3 V HV); [exact S2|]|reflexivity|].
    - set (w := 4 * d + 18 * u) in *. assert (w * w <= 1 / 10 * w) by (apply Rmult_le_compat_r; lra).
      replace (0 + w * (1 + 0) + w * (1 + (0 + w * (1 + 0)))) with (2 * w + w * w) by ring. unfold w in *. lra.
    - intros i Hi. apply orth_undo; assumption. }
  exact S3.
Qed.

(** The viewing isometry built from a float matrix near an orthonormal one. *)
Lemma view_near (a : mat fl 3 3) (Q : mat R 3 3) d (eye : vec fl 3) : orthonormal_columns Q -> 0 <= d <= / 60 ->
  (forall j i, (j < 3)%nat -> (i < 3)%nat -> fnear (mget a j i) (mget Q j i) d) -> (forall i, (i < 3)%nat -> is_finite (vat eye i) = true) -> fnrm 3 (fval eye) <= V ->
  near_iso 3 V (fiso3view eye a) Q (fun i => rsum 3 (fun j => mget Q j i * - fval eye j)) d (4 * d + 18 * u).
Proof.
  intros HQ Hd HM Fe Ne. pose proof (u_small H24) as U. split; [exact HQ|]. split; [exact HM|].
  assert (Nn : vne 3 V 0 (fun i => vat (pneg eye) i) (fun i => - fval eye i)).
  { eapply vne_ext; [apply neg_step; apply (vne_exact 3 V _ Fe)| |reflexivity]. intros i Hi. unfold pneg. rewrite vat_vneg by exact Hi. reflexivity. }
  assert (B : fnrm 3 (fun i => - fval eye i) <= 1 * V) by (rewrite fnrm_neg; lra).
  destruct (mv_step a Q d 0 (pneg eye) _ HQ Hd HM Nn B ltac:(lra)) as (F & E).
  assert (X : forall i, (i < 3)%nat -> is_finite (vat (iso_translation (fiso3view eye a)) i) = true /\
    B2R (vat (iso_translation (fiso3view eye a)) i) = B2R (vat (mmulv a (pneg eye)) i)).
  { intros i Hi. unfold fiso3view, iso_from_parts, tr_from_vector. cbv zeta. cbn [iso_translation]. unfold pdiff. rewrite vat_vsub by exact Hi.
    replace (vat (porigin 3) i) with (n0 : fl) by (destruct i as [|[|[|i]]]; [| | |lia]; reflexivity). apply sub0. apply F, Hi. }
  split; [intros i Hi; apply X, Hi|].
  rewrite (fnrm_ext 3 _ (fun i => B2R (vat (mmulv a (pneg eye)) i) - rsum 3 (fun j => mget Q j i * - fval eye j))).
  - eapply Rle_trans; [exact E|]. right. ring.
  - intros i Hi. destruct (X i Hi) as (_ & ->). reflexivity.
Qed.
Lemma view_apply (a : mat fl 3 3) (Q : mat R 3 3) d (eye p : vec fl 3) : orthonormal_columns Q -> 0 <= d <= / 60 ->
  (forall j i, (j < 3)%nat -> (i < 3)%nat -> fnear (mget a j i) (mget Q j i) d) -> (forall i, (i < 3)%nat -> is_finite (vat eye i) = true) -> fnrm 3 (fval eye) <= V ->
  (forall i, (i < 3)%nat -> is_finite (vat p i) = true) -> fnrm 3 (fval p) <= V ->
  vfnear (iso_apply_point (fiso3view eye a) p) (fun i => rsum 3 (fun j => mget Q j i * (fval p j - fval eye j))) ((8 * d + 39 * u) * V).
Proof.
  intros HQ Hd HM Fe Ne Fp Np. pose proof (u_small H24) as U. pose proof (view_near a Q d eye HQ Hd HM Fe Ne) as N.
  assert (du : d * u <= / 60 * u) by (apply Rmult_le_compat_r; lra). assert (uu : u * u <= / 16777216 * u) by (apply Rmult_le_compat_r; lra).
  assert (T : fnrm 3 (fun i => rsum 3 (fun j => mget Q j i * - fval eye j)) <= 1 * V) by (rewrite (fnrm_orth_mul 3 Q _ HQ), fnrm_neg; lra).
  assert (S : vne 3 V (8 * d + 39 * u) (fun i => vat (iso_apply_point (fiso3view eye a) p) i) (fun i => rsum 3 (fun j => mget Q j i * (fval p j - fval eye j)))); [|exact S].
  eapply vne_ext; [eapply (vne_weak 3 V HV); [apply (apply_point_step H24 3 ltac:(lia) V HV _ Q _ d (4 * d + 18 * u) 0 1 1 p (fval p) N)|]|reflexivity|]; try lra.
  - exact (vne_exact 3 V _ Fp).
  - intros i Hi. exact (eq_sym (rsum_lin 3 (fun j => mget Q j i) (fval p) (fun j => - fval eye j))).
Qed.
End W.
