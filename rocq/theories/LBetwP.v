(** Lemmas for C135: the rotation between two vectors in floats. *)

From Coq Require Import List Arith ZArith Bool Lia Reals Lra Psatz.
From Flocq Require Import Core.Core IEEE754.BinarySingleNaN.
From Verif Require Import Base Scalar Spec SpecF SpecDrift SpecRot SpecRotF SpecRigid SpecLook SpecBetw MVector MMatrix MQuat MFloat MFloatVec MSign MComplexF MRotF MTransform MArcF
  LBase LVector LVectorR LFloat LFloatVec LFloatP LFloatAcc LFloatExP LDriftM LDriftP LRigidF LNormF LLookF LBetw LComplexHP LArc LArcN LArcP LArcQ LRotFP LTrScF LSlerpS LSlerpW LDegF
  LComplexLP LBetwF.
Local Open Scope R_scope.

(** * Directions *)
Section Dir.
Variables v w : nat -> R.
Hypothesis V : 0 < fnrm 3 v.
Hypothesis W : 0 < fnrm 3 w.
Notation A := (rdir v).
Notation B := (rdir w).
Lemma dir_cross i : rcross A B i = / (fnrm 3 v * fnrm 3 w) * rcross v w i.
Proof.
  unfold rdir. change (rlength 3 v) with (fnrm 3 v). change (rlength 3 w) with (fnrm 3 w). unfold rcross. destruct i as [|[|i]]; field; lra.
Qed.
Lemma VW : 0 < / (fnrm 3 v * fnrm 3 w).
Proof. apply Rinv_0_lt_compat, Rmult_lt_0_compat; assumption. Qed.
Lemma dir_sine : fnrm 3 (rcross A B) = rsine v w.
Proof.
  rewrite (fnrm_ext 3 _ (fun i => / (fnrm 3 v * fnrm 3 w) * rcross v w i)) by (intros; apply dir_cross).
  rewrite fnrm_scale, Rabs_pos_eq by (left; exact VW). unfold rsine, Rdiv. rewrite Rmult_comm. reflexivity.
Qed.
Lemma dir_cosine : rdot A B = rcosine v w.
Proof.
  unfold rcosine. rewrite !rdot3. unfold rdir. change (rlength 3 v) with (fnrm 3 v). change (rlength 3 w) with (fnrm 3 w). field. lra.
Qed.
Lemma dir_axis i : (i < 3)%nat -> 0 < rsine v w -> rdir (rcross A B) i = rdir (rcross v w) i.
Proof.
  intros Hi S. rewrite (dir_ext (rcross A B) (fun j => / (fnrm 3 v * fnrm 3 w) * rcross v w j) i) by (auto using dir_cross).
  apply dir_scale; [exact VW|]. rewrite <- dir_sine in S.
  rewrite (fnrm_ext 3 _ (fun i => / (fnrm 3 v * fnrm 3 w) * rcross v w i)) in S by (intros; apply dir_cross).
  rewrite fnrm_scale, Rabs_pos_eq in S by (left; exact VW). pose proof VW as Q. pose proof (fnrm_pos 3 (rcross v w)) as P.
  destruct P as [P|P]; [exact P|]. rewrite <- P in S. lra.
Qed.
Lemma turn_axis_eq : 0 < rsine v w -> turn_axis v w = v3 (rdir (rcross A B) 0%nat) (rdir (rcross A B) 1%nat) (rdir (rcross A B) 2%nat).
Proof. intros S. unfold turn_axis, vdir. rewrite !dir_axis by (lia || exact S). reflexivity. Qed.
End Dir.

Lemma vat_vdir v i : (i < 3)%nat -> vat (vdir v) i = rdir v i.
Proof. intros Hi. destruct i as [|[|[|i]]]; [| | |lia]; reflexivity. Qed.

Lemma c135_exact : forall v w : nat -> R, 0 < rsine v w -> 0 < rlength 3 v -> 0 < rlength 3 w ->
  rodrigues (turn_axis v w) (turn_angle v w) (vdir v) = vdir w.
Proof.
  intros v w S V W. apply vat_ext. intros i Hi. rewrite (turn_axis_eq v w V W S), (vat_vdir w) by exact Hi.
  unfold turn_angle. rewrite <- (dir_cosine v w V W).
  apply (turns_to (rdir v) (rdir w) (dir_len v V) (dir_len w W)); [|exact Hi]. rewrite (dir_sine v w V W). exact S.
Qed.

(** * The functions *)
Section Fun.
Variables (prec emax : Z) (Hp : Prec_gt_0 prec) (He : Prec_lt_emax prec emax).
Notation fl := (binary_float prec emax).
Notation u := (bpow radix2 (- prec)).
Variable k : Z.
Variable L : libm fl.
Variable arccos : fl -> fl.
Variables v w : vec fl 3.
Variable d : R.
Hypothesis H24 : (24 <= prec)%Z.
Hypothesis Hr2 : (2 * prec + 31 <= emax)%Z.
Hypothesis Hk : (0 <= k)%Z.
Hypothesis Hr : (2 * k + 31 <= emax)%Z.
Hypothesis Fv : forall i, (i < 3)%nat -> is_finite (vat v i) = true.
Hypothesis Fw : forall i, (i < 3)%nat -> is_finite (vat w i) = true.
Hypothesis HV : bpow radix2 (- k) <= rlength 3 (fval v) <= bpow radix2 k.
Hypothesis HW : bpow radix2 (- k) <= rlength 3 (fval w) <= bpow radix2 k.
Hypothesis Hd : 0 <= d <= / 256.
Hypothesis HL : turn_lib L arccos d.
Notation V := (fval v).
Notation W := (fval w).
Notation A := (rdir V).
Notation B := (rdir W).
Notation a := (fvnormalize v).
Notation b := (fvnormalize w).
Notation th := (arccos (vdot a b)).
Notation half := (nmul th (ndiv n1 (nadd n1 n1)) : fl).
Let V0 := len_pos k v HV.
Let W0 := len_pos k w HW.
Let HA : fnrm 3 A = 1 := dir_len V V0.
Let HB : fnrm 3 B = 1 := dir_len W W0.
Let Na := unit_near H24 k Hk Hr v Fv HV.
Let Nb := unit_near H24 k Hk Hr w Fw HW.
Let SE := dir_sine V W V0 W0.
Let CE := dir_cosine V W V0 W0.
Lemma q_unfold : fqrotation_between L arccos v w = fqrotation_between_axis L arccos a b.
Proof. unfold fqrotation_between. rewrite (try_unit_some H24 k Hk Hr v Fv HV), (try_unit_some H24 k Hk Hr w Fw HW). reflexivity. Qed.

Section Apart.
Notation s := (rsine V W).
Hypothesis Hs : 512 * u <= s * s.
Notation t := (turn_angle V W).
Notation D := (2 * d + 116 * (u / s)).
Lemma Hs' : 512 * u <= fnrm 3 (rcross A B) * fnrm 3 (rcross A B).
Proof. rewrite SE. exact Hs. Qed.
Lemma Hsp : 0 < s.
Proof. rewrite <- SE. apply (s_pos H24 A B Hs'). Qed.
Lemma HD : 0 <= D <= / 64.
Proof. rewrite <- SE. exact (D_small H24 A B Hs' d Hd). Qed.
Lemma in1 : is_finite (vdot a b) = true /\ Rabs (B2R (vdot a b)) <= 1.
Proof. destruct (dot_inside H24 Hr2 a b A B HA HB Na Nb Hs') as (F & X & _). split; [exact F|lra]. Qed.
Lemma Hth : fnear th (acos (B2R (vdot a b))) d.
Proof. destruct in1 as (F & X). exact (proj1 HL _ F X). Qed.
Lemma t_eq : acos (rdot A B) = t.
Proof. unfold turn_angle. rewrite <- CE. reflexivity. Qed.
Lemma h_near : fnear half (t / 2) (d / 2 + 54 * (u / s)).
Proof. rewrite <- SE, <- t_eq. exact (half_near H24 Hr2 a b A B HA HB Na Nb Hs' arccos d Hd Hth). Qed.
Lemma tn : fnear th t (d + 100 * (u / s)).
Proof. rewrite <- SE, <- t_eq. exact (th_near H24 Hr2 a b A B HA HB Na Nb Hs' arccos d Hth). Qed.
Lemma t_bound : 0 <= t <= 4.
Proof. rewrite <- t_eq. pose proof (acos_bound (rdot A B)). pose proof PI_4. lra. Qed.
Lemma near_bound (x : fl) r e : fnear x r e -> Rabs r <= 4 -> e <= / 64 -> is_finite x = true /\ Rabs (B2R x) <= 5.
Proof.
  intros (F & E) Hr4 He64. split; [exact F|]. replace (B2R x) with ((B2R x - r) + r) by ring. eapply Rle_trans; [apply Rabs_triang|]. lra.
Qed.
Lemma usp : 0 < u / s.
Proof. pose proof Hsp. pose proof (u_small H24). apply Rdiv_lt_0_compat; lra. Qed.
Lemma half_in : is_finite half = true /\ Rabs (B2R half) <= 5.
Proof.
  pose proof HD as Q. pose proof t_bound as T. pose proof usp as P. apply (near_bound half (t / 2) _ h_near); [rewrite Rabs_pos_eq by lra; lra|lra].
Qed.
Lemma th_in : is_finite th = true /\ Rabs (B2R th) <= 5.
Proof.
  pose proof HD as Q. pose proof t_bound as T. pose proof usp as P. apply (near_bound th t _ tn); [rewrite Rabs_pos_eq by lra; lra|lra].
Qed.
Lemma hS : fnear (m_sin L half) (sin (t / 2)) D.
Proof.
  destruct half_in as (F & X). rewrite <- SE, <- t_eq.
  exact (sin_half H24 Hr2 a b A B HA HB Na Nb Hs' L arccos d Hd Hth (proj1 (proj2 HL _ F X))).
Qed.
Lemma hC : fnear (m_cos L half) (cos (t / 2)) D.
Proof.
  destruct half_in as (F & X). rewrite <- SE, <- t_eq.
  exact (cos_half H24 Hr2 a b A B HA HB Na Nb Hs' L arccos d Hd Hth (proj2 (proj2 HL _ F X))).
Qed.
Lemma tS : fnear (m_sin L th) (sin t) D.
Proof.
  destruct th_in as (F & X). rewrite <- SE, <- t_eq.
  exact (sin_th H24 Hr2 a b A B HA HB Na Nb Hs' L arccos d Hth (proj1 (proj2 HL _ F X))).
Qed.
Lemma tC : fnear (m_cos L th) (cos t) D.
Proof.
  destruct th_in as (F & X). rewrite <- SE, <- t_eq.
  exact (cos_th H24 Hr2 a b A B HA HB Na Nb Hs' L arccos d Hth (proj2 (proj2 HL _ F X))).
Qed.
Lemma Xu : sum 3 (fun i => (vat (turn_axis V W) i * vat (turn_axis V W) i)%R) = 1.
Proof. rewrite (turn_axis_eq V W V0 W0 Hsp). exact (Xv_unit H24 A B Hs'). Qed.
Lemma Xn i : (i < 3)%nat -> fnear (vat (fvnormalize (vcross a b)) i) (vat (turn_axis V W) i) D.
Proof.
  rewrite (turn_axis_eq V W V0 W0 Hsp), <- SE. exact (Xv_near H24 Hr2 a b A B HA HB Na Nb Hs' d Hd i).
Qed.
Lemma u_us : u <= u / s.
Proof. rewrite <- SE. pose proof (u_le_s H24 A B HA HB Hs' 1 ltac:(lra)). lra. Qed.
Lemma fnear_weak (x : fl) r e f : fnear x r e -> e <= f -> fnear x r f.
Proof. intros (F & E) H. split; [exact F|lra]. Qed.

Lemma apart_q : exists q : quat fl, fqrotation_between L arccos v w = Some q /\
  fnear (vat (q : vec fl 4) 0) (cos (t / 2)) (6 * d + 350 * u / s) /\
  forall i, (i < 3)%nat -> fnear (vat (q : vec fl 4) (S i)) (sin (t / 2) * vat (turn_axis V W) i) (6 * d + 350 * u / s).
Proof.
  exists (gqfrom_axis_angle (m_sin L) (m_cos L) (fvnormalize (vcross a b)) th). split.
  - rewrite q_unfold. exact (between_eq H24 Hr2 a b A B HA HB Na Nb Hs' L arccos).
  - pose proof HD as HD0. assert (HD8 : 0 <= D <= / 8) by lra.
    destruct (c124_axis_angle_quaternion prec emax Hp He (m_sin L) (m_cos L) (fvnormalize (vcross a b)) th (turn_axis V W) t D H24 ltac:(lia) HD8 Xu Xn hS hC) as (Q0 & Q1).
    pose proof u_us as UU.
    assert (E : 3 * D + 2 * u <= 6 * d + 350 * u / s) by (replace (350 * u / s) with (350 * (u / s)) by (field; pose proof Hsp; lra); lra).
    split; [exact (fnear_weak _ _ _ _ Q0 E)|]. intros i Hi. exact (fnear_weak _ _ _ _ (Q1 i Hi) E).
Qed.
Lemma apart_r : exists r, frot3rotation_between L arccos v w = Some r /\
  forall j i, (j < 3)%nat -> (i < 3)%nat -> fnear (mget r j i) (vat (rodrigues (turn_axis V W) t (axis3 j)) i) (72 * d + 4280 * u / s).
Proof.
  exists (qto_matrix (gqfrom_axis_angle (m_sin L) (m_cos L) (fvnormalize (vcross a b)) th)). split.
  - unfold frot3rotation_between. rewrite q_unfold, (between_eq H24 Hr2 a b A B HA HB Na Nb Hs' L arccos). reflexivity.
  - intros j i Hj Hi. pose proof u_us as UU.
    assert (E : 36 * D + 104 * u <= 72 * d + 4280 * u / s) by (replace (4280 * u / s) with (4280 * (u / s)) by (field; pose proof Hsp; lra); lra).
    apply (fnear_weak _ _ (36 * D + 104 * u)); [|exact E].
    exact (c124_axis_angle_quaternion_matrix prec emax Hp He (m_sin L) (m_cos L) (fvnormalize (vcross a b)) th (turn_axis V W) t D H24 ltac:(lia) HD Xu Xn hS hC j i Hj Hi).
Qed.
Lemma apart_m : exists m, fm3rotation_between L arccos v w = Some m /\
  forall j i, (j < 3)%nat -> (i < 3)%nat -> fnear (mget m j i) (vat (rodrigues (turn_axis V W) t (axis3 j)) i) (16 * d + 943 * u / s).
Proof.
  exists (gm3from_axis_angle (m_sin L) (m_cos L) (fvnormalize (vcross a b)) th). split.
  - unfold fm3rotation_between. rewrite (try_normalize_some H24 k Hk Hr v Fv HV), (try_normalize_some H24 k Hk Hr w Fw HW). cbv zeta.
    rewrite (axis_some H24 Hr2 a b A B HA HB Na Nb Hs'). reflexivity.
  - intros j i Hj Hi. pose proof u_us as UU. pose proof HD as HD0. assert (HD8 : 0 <= D <= / 8) by lra.
    assert (E : 8 * D + 15 * u <= 16 * d + 943 * u / s) by (replace (943 * u / s) with (943 * (u / s)) by (field; pose proof Hsp; lra); lra).
    apply (fnear_weak _ _ (8 * D + 15 * u)); [|exact E].
    exact (c124_axis_angle_matrix prec emax Hp He (m_sin L) (m_cos L) (fvnormalize (vcross a b)) th (turn_axis V W) t D H24 ltac:(lia) HD8 Xu Xn tS tC j i Hj Hi).
Qed.
End Apart.

Section Parallel.
Hypothesis Hc : 0 < rcosine V W.
Hypothesis Hs : rsine V W * rsine V W <= 512 * u.
Lemma Hc' : 0 < rdot A B.
Proof. rewrite CE. exact Hc. Qed.
Lemma Hs2 : fnrm 3 (rcross A B) * fnrm 3 (rcross A B) <= 512 * u.
Proof. rewrite SE. exact Hs. Qed.
Lemma par_th : Rabs (B2R (vdot a b)) < 1 -> fnear th (acos (B2R (vdot a b))) d.
Proof. intros X. destruct (dot_near H24 Hr2 a b A B HA HB Na Nb) as (F & _). apply (proj1 HL _ F). lra. Qed.
Lemma par_half : Rabs (B2R (vdot a b)) < 1 -> is_finite half = true /\ Rabs (B2R half) <= 5.
Proof.
  intros X. destruct (half_small H24 Hr2 a b A B HA HB Na Nb Hc' Hs2 arccos d Hd par_th X) as (F & E). split; [exact F|].
  destruct (r_facts H24) as (R0 & _). lra.
Qed.
Lemma par_q : exists q : quat fl, fqrotation_between L arccos v w = Some q /\
  (forall i, (i < 4)%nat -> fnear (vat (q : vec fl 4) i) (delta i 0) (30 * sqrt u + 4 * d)) /\
  rlength 3 (fun i => B i - A i) <= 23 * sqrt u.
Proof.
  destruct (parallel_near H24 Hr2 a b A B HA HB Na Nb Hc' Hs2 L arccos d Hd par_th) as (q & E & N).
  - intros X. destruct (par_half X) as (F & X5). exact (proj1 (proj2 HL _ F X5)).
  - intros X. destruct (par_half X) as (F & X5). exact (proj2 (proj2 HL _ F X5)).
  - exists q. rewrite q_unfold. split; [exact E|]. split; [exact N|]. exact (parallel_len H24 A B HA HB Hc' Hs2).
Qed.
End Parallel.
End Fun.
