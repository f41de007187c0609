(** The field of view in floats: the entries of the matrix, and what is read back. *)

From Coq Require Import List Arith ZArith Bool Lia Reals Lra Psatz.
From Flocq Require Import Core.Core Relative IEEE754.BinarySingleNaN.
From Verif Require Import Base Scalar Spec SpecF SpecUnp SpecFov MVector MMatrix MFloat MProjection MAngleF MFov
  LBase LVector LFloat LFloatP LFloatVec LTrScF LSlerpS LComplexHP LAngleFP LProjF LUnpF LUnpG LFovA LFovB LFovC.
Local Open Scope R_scope.

Section D.
Context {prec emax : Z} {Hp : Prec_gt_0 prec} {He : Prec_lt_emax prec emax}.
Notation fl := (binary_float prec emax).
Notation u := (bpow radix2 (- prec)).
Notation h := (16 / 15 * u).
Notation two := (nadd n1 n1 : fl).
Hypothesis H24 : (24 <= prec)%Z.
Variable q : Z.
Hypothesis q1 : (1 <= q)%Z.
Hypothesis Hq : (6 * q + 33 <= emax)%Z.
Hypothesis Hq3 : (3 * q + prec + 16 <= emax)%Z.
Variable d : R.
Hypothesis d0 : 0 <= d <= / 1000.
Variable tangent : fl -> fl.
Variables vfov asp near far : fl.
Hypothesis Fv : is_finite vfov = true.
Hypothesis Fa : is_finite asp = true.
Hypothesis Fn : is_finite near = true.
Hypothesis Ff : is_finite far = true.
Notation V := (B2R vfov).
Hypothesis Ht : tan_within d q tangent.
Hypothesis SV : sized q V.
Hypothesis VPI : V < PI.
Hypothesis Stn : sized q (tan (V / 2)).
Hypothesis SA : sized q (B2R asp).
Hypothesis SN : sized q (B2R near).
Notation T := (tangent (ndiv vfov two)).
Notation tn := (tan (V / 2)).
Notation m := (fpersp_from_vfov tangent vfov asp near far).
Notation N := (B2R near).
Notation F := (B2R far).

Lemma V_pos : 0 < V.
Proof. destruct SV as (S & _). pose proof (bpow_gt_0 radix2 (- q)). lra. Qed.
Lemma tn_pos : 0 < tn.
Proof. destruct Stn as (S & _). pose proof (bpow_gt_0 radix2 (- q)). lra. Qed.
Lemma half_exact : is_finite (ndiv vfov two) = true /\ B2R (ndiv vfov two) = V / 2.
Proof.
  pose proof V_pos as P. apply (half_turn vfov Fv P); [lia|]. destruct SV as (S & _). eapply Rle_trans; [|exact S]. apply bpow_le. lia.
Qed.
Lemma T_near : is_finite T = true /\ Rabs (B2R T - tn) <= d * tn.
Proof.
  pose proof V_pos as P. destruct half_exact as (F1 & V1). pose proof (Ht (ndiv vfov two) F1) as H. rewrite V1 in H. apply H; [split; lra|exact Stn].
Qed.
Lemma T_ml : ml (16 / 15 * d) T tn.
Proof.
  destruct T_near as (F1 & E). split; [exact F1|]. apply by_near; [|lra]. rewrite (Rabs_pos_eq tn) by (pose proof tn_pos; lra). exact E.
Qed.
Lemma T_rb : rb (q + 1) (B2R T).
Proof.
  destruct T_near as (_ & E). apply Rabs_le_inv in E. pose proof tn_pos as P. destruct Stn as (S1 & S2). assert (d * tn <= / 2 * tn) by (apply Rmult_le_compat_r; lra). split.
  - replace (- (q + 1))%Z with (-1 + - q)%Z by ring. rewrite bpow_plus. change (bpow radix2 (-1)) with (/ 2). lra.
  - replace (q + 1)%Z with (1 + q)%Z by ring. rewrite bpow_plus. change (bpow radix2 1) with 2. lra.
Qed.
Lemma rb_q1 v : sized q v -> rb q v.
Proof. intros H. exact H. Qed.

Lemma e11_ml : ml (2 * h + 16 / 15 * d) (mget m 1 1) (/ tn).
Proof.
  change (mget m 1 1) with (ndiv near (nmul T near)). apply (ml_to _ _ _ (/ B2R T)); [|apply by_inv; exact (proj2 T_ml)].
  apply (c_ml H24 (q + 1) q); try assumption; try lia; [exact (proj1 T_near)|exact T_rb].
Qed.
Lemma e00_ml : ml (5 * h + 16 / 15 * d) (mget m 0 0) (/ (tn * B2R asp)).
Proof.
  change (mget m 0 0) with (ndiv (nmul two near) (nadd (nmul (nmul T near) asp) (nmul (nmul T near) asp))).
  apply (ml_to _ _ _ (/ (B2R T * B2R asp))).
  - apply (c0_ml H24 (q + 1) q); try assumption; try lia; [exact (proj1 T_near)|exact T_rb].
  - apply by_inv. replace (16 / 15 * d) with (16 / 15 * d + 0) by ring. apply by_mul; [exact (proj2 T_ml)|apply by_refl].
Qed.
Lemma asp_ml : ml (8 * h) (persp_aspect_ratio m) (B2R asp).
Proof.
  change (persp_aspect_ratio m) with (ndiv (ndiv near (nmul T near)) (ndiv (nmul two near) (nadd (nmul (nmul T near) asp) (nmul (nmul T near) asp)))).
  apply (aspect_ml H24 (q + 1) q); try assumption; try lia; [exact (proj1 T_near)|exact T_rb].
Qed.

(** ** Read back *)
Variable at_ : fl -> fl.
Hypothesis Hat : atan_within d (3 * q + prec + 10) at_.
Notation c := (ndiv near (nmul T near)).
Lemma c_fin : is_finite c = true /\ rb (q + 2) (B2R c).
Proof.
  split; [apply (c_ml H24 (q + 1) q)|replace (q + 2)%Z with (q + 1 + 1)%Z by ring; apply (c_rb H24 (q + 1) q)]; try assumption; try lia; (exact (proj1 T_near) || exact T_rb).
Qed.
Lemma vfov_eq : fpersp_vfov at_ m = at_ (ndiv (nmul two c) (nsub (nmul c c) n1)).
Proof.
  destruct c_fin as (F1 & R). change (fpersp_vfov at_ m) with (at_ (ndiv (nmul two c) (nsub (nadd (nmul n0 n0) (nmul c c)) n1))).
  rewrite (zero_den H24 (q + 2)); [reflexivity|lia|lia|exact F1|exact R].
Qed.
Lemma by_c : by_exp (2 * h + 16 / 15 * d) (B2R c) (/ tn).
Proof. exact (proj2 e11_ml). Qed.
Lemma atan_tn : 2 * atan tn = V.
Proof. rewrite atan_tan; [lra|]. pose proof V_pos. lra. Qed.
Lemma atan_ctn : 2 * atan (/ tn) = PI - V.
Proof. rewrite atan_inv by exact tn_pos. pose proof atan_tn. lra. Qed.

Lemma at_q : atan_within d (3 * (q + 2) + prec + 4) at_.
Proof. replace (3 * (q + 2) + prec + 4)%Z with (3 * q + prec + 10)%Z by ring. exact Hat. Qed.
Lemma read_narrow : B2R T <= 1 -> ml (32 / 15 * d + 118 / 15 * u) (fpersp_vfov at_ m) V.
Proof.
  intros L. destruct c_fin as (F1 & R). rewrite vfov_eq. pose proof (u_small H24) as U.
  assert (G : 1 <= B2R c) by (apply (c_above H24 (q + 1) q); try assumption; try lia; [exact (proj1 T_near)|exact T_rb]).
  pose proof (fov_hi (emax := emax) H24 (q + 2) ltac:(lia) ltac:(lia) c F1 R at_ d ltac:(lra) at_q G) as M.
  rewrite <- atan_tn. apply (ml_weak (16 / 15 * d + 40 / 7 * u + (2 * h + 16 / 15 * d))); [lra|]. apply (ml_to _ _ _ _ _ M).
  apply by_2. rewrite <- (Rinv_inv tn). apply by_atan; [rewrite Rinv_inv; exact tn_pos|]. apply by_inv. exact by_c.
Qed.
Lemma read_wide : 1 < B2R T -> ml (32 / 15 * d + 118 / 15 * u) (fpersp_vfov at_ m) (V - PI).
Proof.
  intros L. destruct c_fin as (F1 & R). rewrite vfov_eq. pose proof (u_small H24) as U.
  assert (G : B2R c < 1) by (apply (c_below H24 (q + 1) q); try assumption; try lia; [exact (proj1 T_near)|exact T_rb]).
  pose proof (fov_lo (emax := emax) H24 (q + 2) ltac:(lia) ltac:(lia) c F1 R at_ d ltac:(lra) at_q G) as M.
  replace (V - PI) with (- (2 * atan (/ tn))) by (rewrite atan_ctn; ring). apply (ml_weak (16 / 15 * d + 40 / 7 * u + (2 * h + 16 / 15 * d))); [lra|]. apply (ml_to _ _ _ _ _ M).
  apply by_opp, by_2, by_atan; [apply Rinv_0_lt_compat; exact tn_pos|exact by_c].
Qed.
End D.

Theorem c145_matrix (prec emax : Z) (Hp : Prec_gt_0 prec) (He : Prec_lt_emax prec emax) (q : Z) (d : R)
    (tangent : binary_float prec emax -> binary_float prec emax) (vfov aspect near far : binary_float prec emax) :
    (24 <= prec)%Z -> (1 <= q)%Z -> (6 * q + 33 <= emax)%Z -> (3 * q + prec + 16 <= emax)%Z ->
    0 <= d <= / 1000 -> tan_within d q tangent ->
    is_finite vfov = true -> is_finite aspect = true -> is_finite near = true -> is_finite far = true ->
    let u := bpow radix2 (- prec) in
    let V := B2R vfov in let A := B2R aspect in let N := B2R near in let F := B2R far in
    let t := tan (V / 2) in
    sized q V -> V < PI -> sized q t -> sized q A -> depth_range prec q N F ->
    let m := fpersp_from_vfov tangent vfov aspect near far in
    fnear (mget m 0 0) (1 / (A * t)) ((11 / 10 * d + 6 * u) * (1 / (A * t))) /\
    fnear (mget m 1 1) (1 / t) ((11 / 10 * d + 3 * u) * (1 / t)) /\
    fnear (mget m 2 2) (- ((F + N) / (F - N))) (4 * u * ((F + N) / (F - N))) /\
    fnear (mget m 3 2) (- (2 * F * N / (F - N))) (5 * u * (2 * F * N / (F - N))) /\
    B2R (mget m 2 3) = - 1 /\
    (forall j i, (j < 4)%nat -> (i < 4)%nat -> i <> j -> (j, i) <> (3, 2)%nat -> (j, i) <> (2, 3)%nat -> mget m j i = n0) /\
    mget m 3 3 = n0 /\
    fnear (persp_aspect_ratio m) A (9 * u * A) /\
    fnear (persp_near m) N (24 * u * N) /\
    fnear (persp_far m) F ((7 * (F / N) + 24) * u * F).
Proof.
  intros H24 q1 Hq Hq3 D0 Ht Fv Fa Fn Ff u V A N F t SV VP St SA (SN & SF & NF & KU) m. subst u.
  pose proof (u_small H24) as U. assert (P : 0 < t) by (destruct St as (S & _); pose proof (bpow_gt_0 radix2 (- q)); lra).
  assert (A0 : 0 < A) by exact (rb_pos q A SA). assert (N0 : 0 < N) by exact (rb_pos q N SN). assert (D : 0 < F - N) by lra.
  assert (I1 : 0 < 1 / t) by (apply Rdiv_lt_0_compat; lra). assert (I2 : 0 < 1 / (A * t)) by (apply Rdiv_lt_0_compat; nra).
  assert (Q1 : 0 < (F + N) / (F - N)) by (apply Rdiv_lt_0_compat; lra). assert (Q2 : 0 < 2 * F * N / (F - N)) by (apply Rdiv_lt_0_compat; [nra|lra]).
  assert (K : forall e (x : binary_float prec emax) v w g, ml e x v -> 0 <= e <= / 64 -> v = w -> 64 / 63 * e * Rabs w <= g -> fnear x w g).
  { intros e x v w g M E -> G. destruct (ml_near' e x w M E) as (F1 & F2). split; [exact F1|]. eapply Rle_trans; [exact F2|exact G]. }
  assert (k0 : 0 < F / N) by (apply Rdiv_lt_0_compat; lra). assert (ku : F / N * (16 / 15 * bpow radix2 (- prec)) <= / 1000).
  { assert (F / N * (2048 * bpow radix2 (- prec)) <= 1); [|lra]. apply (Rmult_le_reg_r N); [exact N0|]. replace (F / N * (2048 * bpow radix2 (- prec)) * N) with (2048 * bpow radix2 (- prec) * F) by (field; lra). rewrite Rmult_1_l. exact KU. }
  split; [|split; [|split; [|split; [|split; [|split; [|split; [|split; [|split]]]]]]]].
  - eapply K; [eapply (e00_ml H24 q); eassumption|lra|fold V t A; field; lra|]. rewrite Rabs_pos_eq by lra. apply Rmult_le_compat_r; lra.
  - eapply K; [eapply (e11_ml H24 q); eassumption|lra|fold V t; field; lra|]. rewrite Rabs_pos_eq by lra. apply Rmult_le_compat_r; lra.
  - eapply K; [apply (LUnpG.quo_ml H24 q); try eassumption; lia|lra|reflexivity|]. rewrite Rabs_Ropp, Rabs_pos_eq by lra. apply Rmult_le_compat_r; lra.
  - eapply K; [apply (c3_ml H24 q); try eassumption; lia|lra|reflexivity|]. rewrite Rabs_Ropp, Rabs_pos_eq by lra. apply Rmult_le_compat_r; lra.
  - change (mget m 2 3) with (nneg (n1 : binary_float prec emax)). cbn [nneg num_float]. rewrite B2R_Bopp. destruct (one_R (prec := prec) (emax := emax)) as (_ & E). exact (f_equal Ropp E).
  - intros j i Hj Hi Hd N1 N2. do 4 (destruct j as [|j]; [do 4 (destruct i as [|i]; [first [reflexivity|exfalso; congruence]|]); lia|]). lia.
  - reflexivity.
  - eapply K; [eapply (asp_ml H24 q); eassumption|lra|reflexivity|]. fold A. rewrite Rabs_pos_eq by lra. apply Rmult_le_compat_r; lra.
  - eapply K; [apply (pnear_ml H24 q); try eassumption; lia|lra|reflexivity|]. fold N. rewrite Rabs_pos_eq by lra. apply Rmult_le_compat_r; lra.
  - eapply K; [apply (pfar_ml H24 q); try eassumption; lia|fold F N; split; [nra|lra]|reflexivity|]. fold F N. rewrite Rabs_pos_eq by lra. apply Rmult_le_compat_r; [lra|]. assert (0 < F / N * bpow radix2 (- prec)) by (apply Rmult_lt_0_compat; lra). lra.
Qed.
