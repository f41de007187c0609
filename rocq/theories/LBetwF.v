(** Rounding errors of the rotation between two vectors. *)

From Coq Require Import List Arith ZArith Bool Lia Reals Lra Psatz.
From Flocq Require Import Core.Core IEEE754.BinarySingleNaN.
From Verif Require Import Base Scalar Spec SpecF SpecDrift SpecRot SpecRotF SpecRigid SpecLook MVector MMatrix MQuat MFloat MFloatVec MSign MComplexF MRotF MTransform MArcF
  LBase LVector LVectorR LFloat LFloatVec LFloatP LFloatAcc LFloatExP LDriftM LDriftP LRigidF LNormF LLookF LBetw LComplexHP LArc LArcN LArcP LArcQ LRotFP LTrScF LSlerpS LSlerpW LDegF LComplexLP.
Local Open Scope R_scope.

Section Betw.
Context {prec emax : Z} {Hp : Prec_gt_0 prec} {He : Prec_lt_emax prec emax}.
Notation fl := (binary_float prec emax).
Notation u := (bpow radix2 (- prec)).
Hypothesis H24 : (24 <= prec)%Z.
Hypothesis Hr2 : (2 * prec + 31 <= emax)%Z.
Variable k : Z.
Hypothesis Hk : (0 <= k)%Z.
Hypothesis Hr : (2 * k + 31 <= emax)%Z.

(** * Normalising the arguments *)
Section One.
Variable v : vec fl 3.
Hypothesis Fv : forall i, (i < 3)%nat -> is_finite (vat v i) = true.
Hypothesis HV : bpow radix2 (- k) <= rlength 3 (fval v) <= bpow radix2 k.
Lemma len_pos : 0 < fnrm 3 (fval v).
Proof. change (rlength 3 (fval v)) with (fnrm 3 (fval v)) in HV. pose proof (bpow_gt_0 radix2 (- k)). lra. Qed.
Lemma norm_pos : is_finite (fvnorm v) = true /\ 0 < B2R (fvnorm v).
Proof.
  destruct (c97_any prec emax Hp He 3 k v H24 ltac:(lia) Hk Hr Fv HV) as ((F & E) & _).
  split; [exact F|]. pose proof len_pos as P. change (rlength 3 (fval v)) with (fnrm 3 (fval v)) in E.
  pose proof (u_small H24) as U. apply Rabs_le_inv in E. assert (8 * u * fnrm 3 (fval v) <= / 2 * fnrm 3 (fval v)) by (apply Rmult_le_compat_r; lra). lra.
Qed.
Lemma norm_squared_pos : is_nan (vnorm_squared v) = false /\ Bltb (n0 * n0)%N_ (vnorm_squared v) = true.
Proof.
  destruct norm_pos as (F & P). unfold fvnorm in F, P.
  assert (Z : (n0 * n0)%N_ = B754_zero false :> fl) by reflexivity. rewrite Z.
  destruct (vnorm_squared v) as [b|[|]| |[|] m e B] eqn:E; try discriminate F; try (cbn in P; lra).
  split; reflexivity.
Qed.
Lemma try_unit_some : fvtry_unit v n0 = Some (fvnormalize v).
Proof. unfold fvtry_unit. cbv zeta. rewrite (proj2 norm_squared_pos). reflexivity. Qed.
Lemma try_normalize_some : fvtry_normalize v n0 = Some (fvnormalize v).
Proof.
  destruct norm_pos as (F & P). unfold fvtry_normalize. cbv zeta.
  rewrite (Bleb_correct prec emax _ _ F) by reflexivity. change (B2R (n0 : fl)) with 0. rewrite Rle_bool_false by exact P. reflexivity.
Qed.
Lemma unit_near i : (i < 3)%nat -> fnear (vat (fvnormalize v) i) (rdir (fval v) i) (12 * u).
Proof. exact (proj2 (c97_any prec emax Hp He 3 k v H24 ltac:(lia) Hk Hr Fv HV) i). Qed.
Lemma dir_unit : fnrm 3 (rdir (fval v)) = 1.
Proof. apply dir_len, len_pos. Qed.
End One.
End Betw.

(** * Two approximate unit vectors *)
Section Two.
Context {prec emax : Z} {Hp : Prec_gt_0 prec} {He : Prec_lt_emax prec emax}.
Notation fl := (binary_float prec emax).
Notation u := (bpow radix2 (- prec)).
Hypothesis H24 : (24 <= prec)%Z.
Hypothesis Hr2 : (2 * prec + 31 <= emax)%Z.
Variables (a b : vec fl 3) (A B : nat -> R).
Hypothesis HA : fnrm 3 A = 1.
Hypothesis HB : fnrm 3 B = 1.
Hypothesis Na : forall i, (i < 3)%nat -> fnear (vat a i) (A i) (12 * u).
Hypothesis Nb : forall i, (i < 3)%nat -> fnear (vat b i) (B i) (12 * u).
Notation s := (fnrm 3 (rcross A B)).
Notation c := (rdot A B).

Lemma a_err : fnrm 3 (fun i => fval a i - A i) <= 21 * u.
Proof. pose proof (u_small H24) as U. eapply Rle_trans; [apply (len3_bound _ (12 * u)); [lra|intros i Hi; apply (Na i Hi)]|]. lra. Qed.
Lemma b_err : fnrm 3 (fun i => fval b i - B i) <= 21 * u.
Proof. pose proof (u_small H24) as U. eapply Rle_trans; [apply (len3_bound _ (12 * u)); [lra|intros i Hi; apply (Nb i Hi)]|]. lra. Qed.
Lemma a_len : fnrm 3 (fval a) <= 1 + 21 * u.
Proof. rewrite <- HA. apply fnrm_near, a_err. Qed.
Lemma b_len : fnrm 3 (fval b) <= 1 + 21 * u.
Proof. rewrite <- HB. apply fnrm_near, b_err. Qed.
Lemma a_bnd i : (i < 3)%nat -> fbnd (1 + / 1024) (vat a i).
Proof.
  intros Hi. split; [apply (Na i Hi)|]. pose proof (u_small H24) as U. pose proof a_len as L.
  pose proof (fnrm_comp 3 (fval a) i Hi) as C. change (fval a i) with (B2R (vat a i)) in C. lra.
Qed.
Lemma b_bnd i : (i < 3)%nat -> fbnd (1 + / 1024) (vat b i).
Proof.
  intros Hi. split; [apply (Nb i Hi)|]. pose proof (u_small H24) as U. pose proof b_len as L.
  pose proof (fnrm_comp 3 (fval b) i Hi) as C. change (fval b i) with (B2R (vat b i)) in C. lra.
Qed.

Lemma cross_near : (forall i, (i < 3)%nat -> is_finite (vat (vcross a b) i) = true) /\
  fnrm 3 (fun i => fval (vcross a b) i - rcross A B i) <= 52 * u.
Proof.
  pose proof (u_small H24) as U.
  destruct (cross_step (Hp:=Hp) (He:=He) H24 (1 + / 1024) (1 + / 1024) a b) as (F & E); try lra.
  - unfold wok; apply wok12; [lia|lra].
  - apply a_bnd.
  - apply b_bnd.
  - split; [exact F|].
    rewrite (fnrm_ext 3 _ (fun i => (fval (vcross a b) i - rcross (fval a) (fval b) i) + (rcross (fval a) (fval b) i - rcross A B i))) by (intros; ring).
    eapply Rle_trans; [apply fnrm_tri|].
    pose proof (cross_diff_len (fval a) A (fval b) B) as D. rewrite HA in D. pose proof a_err as EA. pose proof b_err as EB. pose proof b_len as LB.
    pose proof (fnrm_pos 3 (fun i => fval a i - A i)) as PA. pose proof (fnrm_pos 3 (fval b)) as PB.
    assert (M : fnrm 3 (fun i => fval a i - A i) * fnrm 3 (fval b) <= 21 * u * (1 + 21 * u)) by (apply Rmult_le_compat; assumption).
    assert (UU : u * u <= / 1024 * u) by (apply Rmult_le_compat_r; lra). lra.
Qed.

Lemma dot_near : fnear (vdot a b) c (80 * u).
Proof.
  pose proof (u_small H24) as U.
  destruct (dot_step (Hp:=Hp) (He:=He) H24 ltac:(lia) 3 (vat a) (vat b)) as (F & E); [lia| | |].
  - intros l Hl. destruct (a_bnd l Hl) as (F & E). split; [exact F|lra].
  - intros l Hl. destruct (b_bnd l Hl) as (F & E). split; [exact F|lra].
  - split; [exact F|]. change (vdot a b) with (sum 3 (fun l => nmul (vat a l) (vat b l))).
    change (rsum 3 (fun l => B2R (vat a l) * B2R (vat b l))) with (rdot (fval a) (fval b)) in E.
    assert (D : Rabs (rdot (fval a) (fval b) - c) <= 43 * u).
    { replace (rdot (fval a) (fval b) - c) with (rdot (fun i => fval a i - A i) (fval b) + rdot (fun i => fval b i - B i) A) by (rewrite !rdot3; ring).
      eapply Rle_trans; [apply Rabs_triang|]. pose proof (rdot_cs (fun i => fval a i - A i) (fval b)) as D1. pose proof (rdot_cs (fun i => fval b i - B i) A) as D2.
      rewrite HA in D2. pose proof a_err as EA. pose proof b_err as EB. pose proof b_len as LB.
      pose proof (fnrm_pos 3 (fun i => fval a i - A i)) as PA. pose proof (fnrm_pos 3 (fval b)) as PB.
      assert (M : fnrm 3 (fun i => fval a i - A i) * fnrm 3 (fval b) <= 21 * u * (1 + 21 * u)) by (apply Rmult_le_compat; assumption).
      assert (UU : u * u <= / 1024 * u) by (apply Rmult_le_compat_r; lra). lra. }
    replace (INR 3) with 3 in E by (cbn; lra). apply Rabs_le_inv in E. apply Rabs_le_inv in D. apply Rabs_le. lra.
Qed.

(** ** Vectors that are neither nearly parallel nor nearly opposite *)
Section Apart.
Hypothesis Hs : 512 * u <= s * s.
Lemma s_pos : 0 < s.
Proof. pose proof (u_small H24) as U. pose proof (fnrm_pos 3 (rcross A B)) as P. destruct P as [P|P]; [exact P|]. rewrite <- P in Hs. lra. Qed.
Lemma s_le1 : s <= 1.
Proof. pose proof (cross_len A B) as L. rewrite HA, HB in L. lra. Qed.
Lemma u_le_s a' : 0 <= a' -> a' * u <= a' * (u / s).
Proof.
  intros A0. pose proof s_pos as P. pose proof s_le1 as L. pose proof (u_small H24) as U. apply Rmult_le_compat_l; [exact A0|].
  apply (Rmult_le_reg_r s); [exact P|]. replace (u / s * s) with u by (field; lra). nra.
Qed.
Lemma u_s_small : 512 * (u / s) <= s.
Proof.
  pose proof s_pos as P. apply (Rmult_le_reg_r s); [exact P|]. replace (512 * (u / s) * s) with (512 * u) by (field; lra). exact Hs.
Qed.
Lemma u_s_pos : 0 < u / s.
Proof. pose proof s_pos. pose proof (u_small H24). apply Rdiv_lt_0_compat; lra. Qed.
Lemma u_s_tiny : u / s <= / 65536.
Proof.
  pose proof s_pos as P. pose proof (u_small H24) as U. pose proof u_s_small as SB. pose proof u_s_pos as Q.
  assert (E : u / s * s = u) by (field; lra).
  assert (X : u / s * (512 * (u / s)) <= u) by (rewrite <- E at 3; apply Rmult_le_compat_l; lra).
  apply Rsqr_incr_0; [|lra|lra]. unfold Rsqr. lra.
Qed.

Notation cr := (vcross a b).
Notation axis := (fvnormalize cr).
Lemma cr_len : 7 / 8 * s <= fnrm 3 (fval cr) <= 1 + / 1024.
Proof.
  destruct cross_near as (_ & E). pose proof (u_small H24) as U. pose proof s_le1 as L. pose proof s_pos as P.
  assert (D1 : fnrm 3 (fval cr) <= s + 52 * u) by (apply fnrm_near; exact E).
  assert (D2 : s <= fnrm 3 (fval cr) + 52 * u).
  { apply fnrm_near. rewrite (fnrm_ext 3 _ (fun i => - (fval cr i - rcross A B i))) by (intros; ring). rewrite fnrm_neg. exact E. }
  assert (S2 : s * s <= s) by nra. lra.
Qed.
Lemma axis_near i : (i < 3)%nat -> fnear (vat axis i) (rdir (rcross A B) i) (116 * (u / s)).
Proof.
  intros Hi. destruct cross_near as (F & E). pose proof (u_small H24) as U. pose proof s_le1 as L. pose proof s_pos as P. pose proof cr_len as C.
  assert (S2 : s * s <= s) by nra.
  destruct (c97_any prec emax Hp He 3 prec cr H24 ltac:(lia) ltac:(lia) Hr2 F) as (_ & N).
  { change (rlength 3 (fval cr)) with (fnrm 3 (fval cr)). split; [lra|]. apply Rle_trans with (bpow radix2 1); [change (bpow radix2 1) with 2; lra|apply bpow_le; lia]. }
  destruct (N i Hi) as (FN & EN). split; [exact FN|].
  assert (D : fnrm 3 (fun i => rdir (fval cr) i - rdir (rcross A B) i) <= 104 * (u / s)).
  { eapply Rle_trans; [apply dir_pert; lra|]. replace (104 * (u / s)) with (2 * (52 * u) / s) by (field; lra).
    apply Rmult_le_compat_r; [left; apply Rinv_0_lt_compat; exact P|]. lra. }
  pose proof (fnrm_comp 3 (fun i => rdir (fval cr) i - rdir (rcross A B) i) i Hi) as D2. cbv beta in D2.
  change (fval cr i / rlength 3 (fval cr)) with (rdir (fval cr) i) in EN.
  pose proof (u_le_s 12 ltac:(lra)) as US. 
  replace (B2R (vat axis i) - rdir (rcross A B) i) with ((B2R (vat axis i) - rdir (fval cr) i) + (rdir (fval cr) i - rdir (rcross A B) i)) by ring.
  eapply Rle_trans; [apply Rabs_triang|]. lra.
Qed.
Lemma axis_some : fvtry_unit cr feps = Some axis.
Proof.
  unfold fvtry_unit. cbv zeta. destruct eps2_facts as (_ & F2 & V2); try lia. pose proof cr_len as C. destruct cross_near as (F & _). pose proof (u_small H24) as U.
  destruct (dot_step (Hp:=Hp) (He:=He) H24 ltac:(lia) 3 (vat cr) (vat cr)) as (Fd & E); [lia| | |].
  1,2: intros l Hl; split; [apply F; exact Hl|]; pose proof (fnrm_comp 3 (fval cr) l Hl) as Q; change (fval cr l) with (B2R (vat cr l)) in Q; lra.
  change (sum 3 (fun l => nmul (vat cr l) (vat cr l))) with (vnorm_squared cr) in Fd, E.
  change (rsum 3 (fun l => B2R (vat cr l) * B2R (vat cr l))) with (rdot (fval cr) (fval cr)) in E.
  rewrite <- len_sq in E. replace (INR 3) with 3 in E by (cbn; lra). apply Rabs_le_inv in E.
  rewrite (Bltb_correct prec emax _ _ F2 Fd), V2, Rlt_bool_true; [reflexivity|].
  assert (Q : bpow radix2 (2 - 2 * prec) <= u).
  { apply bpow_le. lia. }
  pose proof s_pos as P. assert (M : 7 / 8 * s * (7 / 8 * s) <= fnrm 3 (fval cr) * fnrm 3 (fval cr)) by (apply Rmult_le_compat; lra). lra.
Qed.
Lemma dot_inside : is_finite (vdot a b) = true /\ Rabs (B2R (vdot a b)) < 1 /\ Rabs (acos (B2R (vdot a b)) - acos c) <= 100 * (u / s).
Proof.
  destruct dot_near as (F & E). split; [exact F|]. pose proof (u_small H24) as U.
  destruct (acos_pert (B2R (vdot a b)) c s (80 * u) s_pos (dot_unit A B HA HB) ltac:(lra) E) as (D & X); [lra|].
  split; [exact X|]. eapply Rle_trans; [exact D|]. right. field. pose proof s_pos; lra.
Qed.

Variable L : libm fl.
Variable arccos : fl -> fl.
Notation th := (arccos (vdot a b)).
Notation half := (nmul th (ndiv n1 (nadd n1 n1)) : fl).
Notation t := (acos c).
Lemma between_eq : fqrotation_between_axis L arccos a b = Some (gqfrom_axis_angle (m_sin L) (m_cos L) axis th).
Proof.
  unfold fqrotation_between_axis. cbv zeta. rewrite axis_some. destruct dot_inside as (F & X & _). apply Rabs_def2 in X.
  destruct (@one_facts prec emax _ _) as (Fo & Vo & _).
  assert (Fm : is_finite (nneg n1 : fl) = true) by exact (eq_trans (is_finite_Bopp _ _ (n1 : fl)) Fo).
  assert (Vm : B2R (nneg n1 : fl) = -1) by (transitivity (- B2R (n1 : fl)); [exact (B2R_Bopp _ _ (n1 : fl))|rewrite Vo; lra]).
  rewrite (Bleb_correct prec emax _ _ F Fm), Vm, Rle_bool_false by lra.
  rewrite (Bleb_correct prec emax _ _ Fo F). rewrite Rle_bool_false by (rewrite Vo; lra). reflexivity.
Qed.

Variable d : R.
Hypothesis Hd : 0 <= d <= / 256.
Hypothesis Hth : fnear th (acos (B2R (vdot a b))) d.
Lemma th_near : fnear th t (d + 100 * (u / s)).
Proof.
  destruct Hth as (F & E). destruct dot_inside as (_ & _ & D). split; [exact F|].
  replace (B2R th - t) with ((B2R th - acos (B2R (vdot a b))) + (acos (B2R (vdot a b)) - t)) by ring. eapply Rle_trans; [apply Rabs_triang|]. lra.
Qed.
Lemma half_const : is_finite (ndiv n1 (nadd n1 n1) : fl) = true /\ B2R (ndiv n1 (nadd n1 n1) : fl) = / 2.
Proof.
  destruct (@one_facts prec emax _ _) as (Fo & Vo & _). destruct (@two_val prec emax _ _) as (F2 & V2).
  destruct (div_val (n1 : fl) (nadd n1 n1 : fl) Fo) as (F & V).
  - change (B2R (nadd n1 n1 : fl)) with (B2R (1 + 1 : fl)%N_). rewrite V2. lra.
  - change (B2R (nadd n1 n1 : fl)) with (B2R (1 + 1 : fl)%N_). change (B2R (n1 : fl)) with (B2R (1%N_ : fl)). rewrite V2, Vo, Rabs_pos_eq by lra.
    apply Rle_trans with (bpow radix2 0); [change (bpow radix2 0) with 1; lra|apply bpow_le; lia].
  - split; [exact F|]. rewrite V. change (B2R (nadd n1 n1 : fl)) with (B2R (1 + 1 : fl)%N_). change (B2R (n1 : fl)) with (B2R (1%N_ : fl)). rewrite V2, Vo.
    replace (1 / 2) with (bpow radix2 (-1)) by (change (bpow radix2 (-1)) with (/ 2); lra).
    rewrite round_generic; [reflexivity|auto with typeclass_instances|]. apply generic_format_bpow. unfold FLT_exp. unfold Prec_gt_0 in Hp. lia.
Qed.
Lemma half_near : fnear half (t / 2) (d / 2 + 54 * (u / s)).
Proof.
  destruct th_near as (F & E). destruct half_const as (Fh & Vh). pose proof (u_small H24) as U. pose proof u_s_tiny as US. pose proof u_s_pos as UP.
  pose proof (acos_bound c) as AB. pose proof PI_4 as P4. 
  assert (T5 : Rabs (B2R th) <= 5).
  { replace (B2R th) with ((B2R th - t) + t) by ring. eapply Rle_trans; [apply Rabs_triang|]. rewrite (Rabs_pos_eq t) by lra. lra. }
  assert (T6 : Rabs (B2R th * B2R (ndiv n1 (nadd n1 n1) : fl)) <= 5 / 2) by (rewrite Vh, Rabs_mult, (Rabs_pos_eq (/ 2)) by lra; lra).
  destruct (mul_val th (ndiv n1 (nadd n1 n1) : fl) F Fh) as (FH & VH).
  { eapply Rle_trans; [exact T6|]. apply Rle_trans with (bpow radix2 2); [change (bpow radix2 2) with 4; lra|apply bpow_le; lia]. }
  split; [exact FH|]. rewrite VH. pose proof (rnd_rel (prec:=prec) (emax:=emax) (B2R th * B2R (ndiv n1 (nadd n1 n1) : fl))) as RR.
  assert (TT : bpow radix2 (2 - emax - prec) <= u) by (apply bpow_le; lia).
  set (w := B2R th * B2R (ndiv n1 (nadd n1 n1) : fl)) in *.
  assert (EW : Rabs (w - t / 2) <= d / 2 + 50 * (u / s)).
  { unfold w. rewrite Vh. replace (B2R th * / 2 - t / 2) with ((B2R th - t) * / 2) by field. rewrite Rabs_mult, (Rabs_pos_eq (/ 2)) by lra. lra. }
  pose proof (u_le_s 4 ltac:(lra)) as U4.
  assert (UW : u * Rabs w <= u * (5 / 2)) by (apply Rmult_le_compat_l; lra).
  replace (round radix2 (FLT_exp (3 - emax - prec) prec) ZnearestE w - t / 2)
    with ((round radix2 (FLT_exp (3 - emax - prec) prec) ZnearestE w - w) + (w - t / 2)) by ring.
  eapply Rle_trans; [apply Rabs_triang|]. lra.
Qed.

Notation D := (2 * d + 116 * (u / s)).
Lemma D_small : 0 <= D <= / 64.
Proof. pose proof u_s_tiny. pose proof u_s_pos. lra. Qed.
Notation X := (rdir (rcross A B)).
Notation Xv := (v3 (X 0%nat) (X 1%nat) (X 2%nat) : vec R 3).
Lemma Xv_unit : sum 3 (fun i => (vat Xv i * vat Xv i)%R) = 1.
Proof.
  change (sum 3 (fun i => (vat Xv i * vat Xv i)%R)) with (rdot X X). rewrite <- len_sq, dir_len by exact s_pos. ring.
Qed.
Lemma Xv_near i : (i < 3)%nat -> fnear (vat axis i) (vat Xv i) D.
Proof.
  intros Hi. destruct (axis_near i Hi) as (F & E). split; [exact F|].
  replace (vat Xv i) with (X i) by (destruct i as [|[|[|i]]]; [reflexivity| | |lia]; reflexivity). lra.
Qed.
Lemma sin_half : fnear (m_sin L half) (sin (B2R half)) d -> fnear (m_sin L half) (sin (t / 2)) D.
Proof.
  intros (F & E). destruct half_near as (_ & H). split; [exact F|]. pose proof u_s_pos as P.
  replace (B2R (m_sin L half) - sin (t / 2)) with ((B2R (m_sin L half) - sin (B2R half)) + (sin (B2R half) - sin (t / 2))) by ring.
  eapply Rle_trans; [apply Rabs_triang|]. pose proof (sin_lip (B2R half) (t / 2)). lra.
Qed.
Lemma cos_half : fnear (m_cos L half) (cos (B2R half)) d -> fnear (m_cos L half) (cos (t / 2)) D.
Proof.
  intros (F & E). destruct half_near as (_ & H). split; [exact F|]. pose proof u_s_pos as P.
  replace (B2R (m_cos L half) - cos (t / 2)) with ((B2R (m_cos L half) - cos (B2R half)) + (cos (B2R half) - cos (t / 2))) by ring.
  eapply Rle_trans; [apply Rabs_triang|]. pose proof (cos_lip (B2R half) (t / 2)). lra.
Qed.
Lemma sin_th : fnear (m_sin L th) (sin (B2R th)) d -> fnear (m_sin L th) (sin t) D.
Proof.
  intros (F & E). destruct th_near as (_ & H). split; [exact F|]. pose proof u_s_pos as P.
  replace (B2R (m_sin L th) - sin t) with ((B2R (m_sin L th) - sin (B2R th)) + (sin (B2R th) - sin t)) by ring.
  eapply Rle_trans; [apply Rabs_triang|]. pose proof (sin_lip (B2R th) t). lra.
Qed.
Lemma cos_th : fnear (m_cos L th) (cos (B2R th)) d -> fnear (m_cos L th) (cos t) D.
Proof.
  intros (F & E). destruct th_near as (_ & H). split; [exact F|]. pose proof u_s_pos as P.
  replace (B2R (m_cos L th) - cos t) with ((B2R (m_cos L th) - cos (B2R th)) + (cos (B2R th) - cos t)) by ring.
  eapply Rle_trans; [apply Rabs_triang|]. pose proof (cos_lip (B2R th) t). lra.
Qed.
End Apart.

(** ** Nearly parallel vectors *)
Section Parallel.
Hypothesis Hc : 0 < c.
Hypothesis Hs : s * s <= 512 * u.
Notation r := (sqrt u).
Lemma r_facts : 0 < r <= / 4096 /\ r * r = u.
Proof.
  pose proof (u_small H24) as U. split; [|apply sqrt_sqrt; lra]. split; [apply sqrt_lt_R0; lra|].
  rewrite <- (sqrt_square (/ 4096)) by lra. apply sqrt_le_1_alt. lra.
Qed.
Lemma c_large : 1 - c <= 261 * u /\ c <= 1.
Proof.
  pose proof (dot_unit A B HA HB) as E. pose proof (dot_le A B HA HB) as Q. pose proof (u_small H24) as U. split; [|lra].
  assert (C1 : 1 - c <= 512 * u) by nra. assert (C2 : (1 - c) * (1 + c) <= 512 * u) by lra.
  assert (C3 : (1 - c) * (2 - 512 * u) <= (1 - c) * (1 + c)) by (apply Rmult_le_compat_l; lra).
  assert (C4 : (1 - c) * (512 * u) <= 512 * u * / 1024) by nra. lra.
Qed.
Lemma parallel_len : fnrm 3 (fun i => B i - A i) <= 23 * r.
Proof.
  pose proof (diff_len A B HA HB) as E. destruct c_large as (C & _). destruct r_facts as (R0 & R2).
  apply Rsqr_incr_0; [|apply fnrm_pos|lra]. unfold Rsqr. rewrite E. nra.
Qed.
Notation cr := (vcross a b).
Variable L : libm fl.
Variable arccos : fl -> fl.
Notation th := (arccos (vdot a b)).
Notation half := (nmul th (ndiv n1 (nadd n1 n1)) : fl).
Variable d : R.
Hypothesis Hd : 0 <= d <= / 256.
Hypothesis Hth : Rabs (B2R (vdot a b)) < 1 -> fnear th (acos (B2R (vdot a b))) d.
Hypothesis Hsin : Rabs (B2R (vdot a b)) < 1 -> fnear (m_sin L half) (sin (B2R half)) d.
Hypothesis Hcos : Rabs (B2R (vdot a b)) < 1 -> fnear (m_cos L half) (cos (B2R half)) d.
Notation near_id q := (forall i, (i < 4)%nat -> fnear (vat (q : vec fl 4) i) (delta i 0) (30 * r + 4 * d)).
Lemma id_near : near_id (qidentity : quat fl).
Proof.
  destruct r_facts as (R0 & R2). destruct (@one_facts prec emax _ _) as (Fo & Vo & _).
  intros i Hi. destruct i as [|[|[|[|i]]]]; [| | | |lia].
  - split; [exact Fo|]. change (Rabs (B2R (1%N_ : fl) - 1) <= 30 * r + 4 * d). rewrite Vo, Rminus_diag_eq, Rabs_R0 by reflexivity. lra.
  - split; [reflexivity|]. change (Rabs (0 - 0) <= 30 * r + 4 * d). rewrite Rminus_diag_eq, Rabs_R0 by reflexivity. lra.
  - split; [reflexivity|]. change (Rabs (0 - 0) <= 30 * r + 4 * d). rewrite Rminus_diag_eq, Rabs_R0 by reflexivity. lra.
  - split; [reflexivity|]. change (Rabs (0 - 0) <= 30 * r + 4 * d). rewrite Rminus_diag_eq, Rabs_R0 by reflexivity. lra.
Qed.
Lemma half_small : Rabs (B2R (vdot a b)) < 1 -> is_finite half = true /\ Rabs (B2R half) <= 14 * r + 51 / 100 * d.
Proof.
  intros X. destruct r_facts as (R0 & R2). destruct (Hth X) as (F & E). destruct half_const as (Fh & Vh). pose proof (u_small H24) as U.
  destruct dot_near as (_ & ED). destruct c_large as (CL & _). apply Rabs_le_inv in ED. apply Rabs_def2 in X.
  assert (AS : acos (B2R (vdot a b)) <= 27 * r) by (apply acos_small; lra).
  pose proof (acos_bound (B2R (vdot a b))) as AB.
  assert (T5 : Rabs (B2R th) <= 27 * r + d).
  { replace (B2R th) with ((B2R th - acos (B2R (vdot a b))) + acos (B2R (vdot a b))) by ring. eapply Rle_trans; [apply Rabs_triang|].
    rewrite (Rabs_pos_eq (acos _)) by lra. lra. }
  set (w := B2R th * B2R (ndiv n1 (nadd n1 n1) : fl)).
  assert (T6 : Rabs w <= 27 / 2 * r + d / 2) by (unfold w; rewrite Vh, Rabs_mult, (Rabs_pos_eq (/ 2)) by lra; lra).
  destruct (mul_val th (ndiv n1 (nadd n1 n1) : fl) F Fh) as (FH & VH).
  { fold w. apply Rle_trans with (bpow radix2 2); [change (bpow radix2 2) with 4; lra|apply bpow_le; lia]. }
  split; [exact FH|]. rewrite VH. fold w. pose proof (rnd_rel (prec:=prec) (emax:=emax) w) as RR.
  assert (TT : bpow radix2 (2 - emax - prec) <= u) by (apply bpow_le; lia).
  assert (UW : u * Rabs w <= u * 1) by (apply Rmult_le_compat_l; lra).
  replace (round radix2 (FLT_exp (3 - emax - prec) prec) ZnearestE w)
    with ((round radix2 (FLT_exp (3 - emax - prec) prec) ZnearestE w - w) + w) by ring.
  eapply Rle_trans; [apply Rabs_triang|]. nra.
Qed.
Lemma parallel_near : exists q, fqrotation_between_axis L arccos a b = Some q /\ near_id q.
Proof.
  destruct r_facts as (R0 & R2). pose proof (u_small H24) as U. destruct dot_near as (FD & ED). destruct c_large as (CL & C1).
  apply Rabs_le_inv in ED. destruct (@one_facts prec emax _ _) as (Fo & Vo & _).
  assert (Fm : is_finite (nneg n1 : fl) = true) by exact (eq_trans (is_finite_Bopp _ _ (n1 : fl)) Fo).
  assert (Vm : B2R (nneg n1 : fl) = -1) by (transitivity (- B2R (n1 : fl)); [exact (B2R_Bopp _ _ (n1 : fl))|rewrite Vo; lra]).
  unfold fqrotation_between_axis. cbv zeta. destruct (fvtry_unit cr feps) as [axis|] eqn:EU.
  - rewrite (Bleb_correct prec emax _ _ FD Fm), Vm, Rle_bool_false by lra.
    destruct (Bleb n1 (vdot a b)) eqn:EB; [eexists; split; [reflexivity|exact id_near]|].
    rewrite (Bleb_correct prec emax _ _ Fo FD) in EB. revert EB. case Rle_bool_spec; [discriminate|]. intros LT _.
    assert (LT1 : B2R (vdot a b) < B2R (1%N_ : fl)) by exact LT. rewrite Vo in LT1.
    assert (X : Rabs (B2R (vdot a b)) < 1) by (apply Rabs_def1; lra).
    destruct (half_small X) as (FH & EH). destruct (Hsin X) as (FS & ES). destruct (Hcos X) as (FC & EC).
    assert (AX : forall i, (i < 3)%nat -> is_finite (vat axis i) = true /\ Rabs (B2R (vat axis i)) <= 2).
    { intros i Hi. destruct (feps_facts (Hp:=Hp) (He:=He)) as (Fe & _); try lia.
      pose proof (try_unit_fb (prec:=prec) (emax:=emax)) as TU.
      assert (FB : fb 1 (vat axis i)) by (eapply TU; try lia; [exact (proj1 cross_near)|exact Fe|exact EU]).
      destruct FB as (Q1 & Q2). split; [exact Q1|exact Q2]. }
    eexists. split; [reflexivity|]. intros i Hi. destruct i as [|i].
    + split; [exact FC|]. change (Rabs (B2R (m_cos L half) - 1) <= 30 * r + 4 * d).
      pose proof (cos_lip (B2R half) 0) as CL0. rewrite cos_0, Rminus_0_r in CL0.
      replace (B2R (m_cos L half) - 1) with ((B2R (m_cos L half) - cos (B2R half)) + (cos (B2R half) - 1)) by ring.
      eapply Rle_trans; [apply Rabs_triang|]. lra.
    + assert (Hi3 : (i < 3)%nat) by lia. destruct (AX i Hi3) as (FX & BX).
      assert (EQ : vat (gqfrom_axis_angle (m_sin L) (m_cos L) axis th : vec fl 4) (S i) = nmul (vat axis i) (m_sin L half)).
      { unfold gqfrom_axis_angle. cbv zeta. clear - Hi3. destruct axis as [x [y [z []]]]. destruct i as [|[|[|i]]]; try reflexivity; lia. }
      rewrite EQ. pose proof (sin_abs (B2R half)) as SA.
      assert (BS : Rabs (B2R (m_sin L half)) <= 14 * r + 151 / 100 * d).
      { replace (B2R (m_sin L half)) with ((B2R (m_sin L half) - sin (B2R half)) + sin (B2R half)) by ring. eapply Rle_trans; [apply Rabs_triang|]. lra. }
      set (w := B2R (vat axis i) * B2R (m_sin L half)).
      assert (BW : Rabs w <= 2 * (14 * r + 151 / 100 * d)) by (unfold w; rewrite Rabs_mult; apply Rmult_le_compat; try apply Rabs_pos; assumption).
      destruct (mul_val (vat axis i) (m_sin L half) FX FS) as (FM & VM).
      { fold w. apply Rle_trans with (bpow radix2 2); [change (bpow radix2 2) with 4; lra|apply bpow_le; lia]. }
      split; [exact FM|]. rewrite VM. fold w. change (delta (S i) 0) with 0. rewrite Rminus_0_r.
      pose proof (rnd_rel (prec:=prec) (emax:=emax) w) as RR.
      assert (TT : bpow radix2 (2 - emax - prec) <= u) by (apply bpow_le; lia).
      assert (UW : u * Rabs w <= u * 1) by (apply Rmult_le_compat_l; lra).
      replace (round radix2 (FLT_exp (3 - emax - prec) prec) ZnearestE w)
        with ((round radix2 (FLT_exp (3 - emax - prec) prec) ZnearestE w - w) + w) by ring.
      eapply Rle_trans; [apply Rabs_triang|]. nra.
  - rewrite (Bltb_correct prec emax _ _ FD) by reflexivity. change (B2R (n0 : fl)) with 0. rewrite Rlt_bool_false by lra.
    eexists. split; [reflexivity|exact id_near].
Qed.
End Parallel.
End Two.
