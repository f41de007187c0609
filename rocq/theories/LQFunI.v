(** The logarithm and the angle of a quaternion in floats; inputs at which functions of quaternions lose all accuracy. *)

From Coq Require Import List Arith ZArith Bool Lia Reals Lra Psatz.
From Flocq Require Import Core.Core Relative IEEE754.BinarySingleNaN.
From Verif Require Import Base Scalar Spec SpecF SpecRigid SpecLook SpecCplx SpecArc SpecAng SpecQFun MReal MVector MMatrix MQuat MFloat MFloatVec MSign MComplexF MRotF MTransform MArcF MQFunF
  LBase LVector LFloat LFloatP LFloatVec LTrScF LRigidF LDriftM LNormF LLookF LSlerpS LSlerpW LDegF LArc LArcP LArcQ LComplexHP LComplexLP LCplxF LCplxFP LBetw LAngF LQFunF LQFunG LQFunH.
Local Open Scope R_scope.

Section F.
Context {prec emax : Z} {Hp : Prec_gt_0 prec} {He : Prec_lt_emax prec emax}.
Notation fl := (binary_float prec emax).
Notation u := (bpow radix2 (- prec)).
Notation tiny := (bpow radix2 (2 - emax - prec)).
Notation fexp := (FLT_exp (3 - emax - prec) prec).
Notation rnd := (round radix2 fexp ZnearestE).
Hypothesis H24 : (24 <= prec)%Z.
Variable L : libm fl.
Variables arccos arcsin : fl -> fl.
Variable d : R.
Hypothesis D : 0 <= d <= / 64.
Hypothesis HL : ang_lib L arccos arcsin d.
Hypothesis Hr : (2 * prec + 33 <= emax)%Z.
Variable q : quat fl.
Hypothesis Fq : all_finite (q : vec fl 4).
Notation r := (rlength 4 (fval (q : vec fl 4))).
Notation n := (rlength 3 (fval (qvector q))).
Notation s := (B2R (qscalar q)).
Hypothesis Ru : 4 * u * r <= 1.
Variable theta : R.
Hypothesis TH : 0 <= theta <= PI.
Hypothesis TC : r * cos theta = s.
Hypothesis TS : r * sin theta = n.

Lemma r_big : r <= bpow radix2 (prec + 1).
Proof.
  pose proof (bpow_gt_0 radix2 (- prec)) as U0.
  assert (P : bpow radix2 (prec + 1) * u = 2) by (rewrite <- bpow_plus; replace (prec + 1 + - prec)%Z with 1%Z by ring; reflexivity). apply (Rmult_le_reg_r u); [exact U0|]. lra.
Qed.

Lemma ln_close : 3 * u < n -> 64 * u * (r * r) <= n * n -> lib_at d ln (m_ln L) (fqnorm q) ->
  fnear (qscalar (fqln L arccos q)) (ln r) (d * Rabs (ln r) + 10 * u) /\
  forall i, (i < 3)%nat -> fnear (vat (qvector (fqln L arccos q)) i) (theta * rdir (fval (qvector q)) i) (5 / 4 * d + 14 * u / sin theta + 48 * u).
Proof.
  intros NL NQ LN. pose proof (bpow_gt_0 radix2 (- prec)) as U0. assert (U : u <= / 16777216) by (apply (bpow_le radix2 (- prec) (-24)); lia). pose proof (n_le_r q) as NR. pose proof r_big as RB. pose proof PI_digits as PD.
  assert (R0 : 0 < r) by lra. set (sg := sin theta) in *.
  assert (SG : 0 < sg) by (apply (Rmult_lt_reg_l r); [exact R0|]; rewrite TS, Rmult_0_r; lra).
  assert (S2 : 64 * u <= sg * sg).
  { apply (Rmult_le_reg_l (r * r)); [apply Rmult_lt_0_compat; assumption|]. replace (r * r * (sg * sg)) with (r * sg * (r * sg)) by ring. rewrite TS. lra. }
  pose proof (sin2_cos2 theta) as SC. unfold Rsqr in SC. fold sg in SC.
  pose proof (@size_any prec emax Hp He H24 (prec + 1) ltac:(lia) ltac:(lia) 4 (q : vec fl 4) ltac:(lia) Fq ltac:(lra) RB) as HN. change (fsqrt (vnorm_squared (q : vec fl 4))) with (fqnorm q) in HN.
  assert (B2 : Bleb (vnorm_squared (qvector q)) (nmul feps feps) = false).
  { destruct (Bleb (vnorm_squared (qvector q)) (nmul feps feps)) eqn:B; [|reflexivity]. pose proof (@small_branch prec emax Hp He H24 (prec + 1) ltac:(lia) ltac:(lia) 3 (qvector q) ltac:(lia) (Fqv q Fq) ltac:(lra) B). lra. }
  pose proof (@size_any prec emax Hp He H24 (prec + 1) ltac:(lia) ltac:(lia) 3 (qvector q) ltac:(lia) (Fqv q Fq) ltac:(lra) ltac:(lra)) as HV.
  unfold fqln, fqln_eps. cbv zeta. rewrite B2. set (N := fqnorm q) in *. destruct HN as (FN & EN).
  assert (UR : u * r <= / 16777216 * r) by (apply Rmult_le_compat_r; lra).
  assert (NP : 127 / 128 * r <= B2R N <= 129 / 128 * r) by (apply Rabs_le_inv in EN; lra).
  split.
  - destruct LN as (F & E). destruct (ln_near (B2R N) r (8 * u) R0 ltac:(lra) EN) as (_ & LNR).
    change (qscalar (qfrom_parts (m_ln L N) (vmul_s (qvector q) (ndiv (arccos (ndiv (qscalar q) N)) (fsqrt (vnorm_squared (qvector q))))))) with (m_ln L N). split; [exact F|].
    replace (B2R (m_ln L N) - ln r) with ((B2R (m_ln L N) - ln (B2R N)) + (ln (B2R N) - ln r)) by ring. eapply Rle_trans; [apply Rabs_triang|].
    assert (Rabs (ln (B2R N)) <= Rabs (ln r) + 9 * u) by (replace (ln (B2R N)) with (ln r + (ln (B2R N) - ln r)) by ring; eapply Rle_trans; [apply Rabs_triang|]; lra).
    assert (d * Rabs (ln (B2R N)) <= d * (Rabs (ln r) + 9 * u)) by (apply Rmult_le_compat_l; lra). assert (d * (9 * u) <= / 16 * (9 * u)) by (apply Rmult_le_compat_r; lra). lra.
  - (* the quotient s / N *)
    assert (T1 : tiny <= / 16 * u).
    { replace (/ 16 * u) with (bpow radix2 (-4 + - prec)) by (rewrite bpow_plus; reflexivity). apply bpow_le. lia. }
    assert (ZE : Rabs (s / B2R N - cos theta) <= 17 / 2 * u).
    { replace (s / B2R N - cos theta) with (cos theta * (r - B2R N) * / B2R N) by (rewrite <- TC; field; lra).
      rewrite !Rabs_mult, (Rabs_pos_eq (/ B2R N)) by (left; apply Rinv_0_lt_compat; lra). apply (Rmult_le_reg_r (B2R N)); [lra|]. rewrite Rmult_assoc, Rinv_l, Rmult_1_r by lra.
      assert (Rabs (cos theta) * Rabs (r - B2R N) <= 1 * (8 * u * r)) by (apply Rmult_le_compat; try apply Rabs_pos; [apply Rabs_le, COS_bound|rewrite Rabs_minus_sym; exact EN]).
      assert (u * (127 / 128 * r) <= u * B2R N) by (apply Rmult_le_compat_l; lra). assert (0 <= u * r) by (apply Rmult_le_pos; lra). lra. }
    assert (ZB : Rabs (s / B2R N) <= 17 / 16).
    { replace (s / B2R N) with (cos theta + (s / B2R N - cos theta)) by ring. eapply Rle_trans; [apply Rabs_triang|]. assert (Rabs (cos theta) <= 1) by (apply Rabs_le, COS_bound). lra. }
    assert (E4 : 8 <= bpow radix2 (emax - 1)) by (apply (bpow_le radix2 3 (emax - 1)); lia).
    destruct (div_val (qscalar q) N (Fq 0%nat ltac:(lia)) ltac:(lra) ltac:(lra)) as (FZ & EZ).
    pose proof (rnd_rel (prec := prec) (emax := emax) (s / B2R N)) as RZ. rewrite <- EZ in RZ. set (Z0 := ndiv (qscalar q) N) in *.
    assert (XE : Rabs (B2R Z0 - cos theta) <= 10 * u).
    { replace (B2R Z0 - cos theta) with ((B2R Z0 - s / B2R N) + (s / B2R N - cos theta)) by ring. eapply Rle_trans; [apply Rabs_triang|].
      assert (u * Rabs (s / B2R N) <= u * (17 / 16)) by (apply Rmult_le_compat_l; lra). lra. }
    destruct (acos_pert (B2R Z0) (cos theta) sg (10 * u) SG ltac:(lra) ltac:(lra) XE ltac:(lra)) as (AE & AX). rewrite acos_cos in AE by exact TH.
    destruct (proj1 (proj1 HL Z0 FZ ltac:(lra))) as (FA & EA). set (A := arccos Z0) in *.
    set (ea := d + 25 / 2 * u / sg). assert (IS : 0 < / sg) by (apply Rinv_0_lt_compat, SG).
    assert (EA2 : fnear A theta ea).
    { split; [exact FA|]. replace (B2R A - theta) with ((B2R A - acos (B2R Z0)) + (acos (B2R Z0) - theta)) by ring. eapply Rle_trans; [apply Rabs_triang|].
      unfold ea. replace (25 / 2 * u / sg) with (5 / 4 * (10 * u) / sg) by (field; lra). lra. }
    assert (S1 : sg <= 1) by apply SIN_bound.
    assert (US : 64 * u / sg <= 1).
    { apply (Rmult_le_reg_r sg); [exact SG|]. unfold Rdiv. rewrite Rmult_assoc, Rinv_l by lra. nra. }
    assert (US0 : 0 <= u / sg) by (apply Rmult_le_pos; lra).
    assert (EAB : 0 <= ea <= / 2) by (unfold ea; lra).
    assert (AB : Rabs (B2R A) <= 4). { destruct EA2 as (_ & E). replace (B2R A) with (theta + (B2R A - theta)) by ring. eapply Rle_trans; [apply Rabs_triang|]. rewrite (Rabs_pos_eq theta) by lra. lra. }
    assert (N0 : 0 < n) by lra.
    assert (MB : 4 / n <= bpow radix2 (emax - 4)).
    { apply Rle_trans with (4 / (3 * u)); [apply Rmult_le_compat_l; [lra|apply Rinv_le_contravar; lra]|].
      assert (P : bpow radix2 prec * u = 1) by (rewrite <- bpow_plus; replace (prec + - prec)%Z with 0%Z by ring; reflexivity).
      assert (PU : / u = bpow radix2 prec) by (rewrite <- bpow_opp; f_equal; ring).
      apply Rle_trans with (bpow radix2 (1 + prec)); [|apply bpow_le; lia]. rewrite bpow_plus, <- PU. change (bpow radix2 1) with 2.
      replace (4 / (3 * u)) with (4 / 3 * / u) by (field; lra). apply Rmult_le_compat_r; [left; apply Rinv_0_lt_compat; exact U0|lra]. }
    intros i Hi.
    assert (Q : vat (qvector (qfrom_parts (m_ln L N) (vmul_s (qvector q) (ndiv A (fsqrt (vnorm_squared (qvector q))))))) i = nmul (vat (qvector q) i) (ndiv A (fsqrt (vnorm_squared (qvector q))))).
    { rewrite <- vat_vmul_s by exact Hi. destruct i as [|[|[|i]]]; try lia; reflexivity. }
    rewrite Q. assert (E8 : 8 <= bpow radix2 (emax - 4)) by (apply (bpow_le radix2 3 (emax - 4)); lia).
    assert (UNN : u * n <= u * r) by (apply Rmult_le_compat_l; lra).
    destruct (dir_scale (qvector q) _ A theta ea (4 / n) i ltac:(lra) Hi (Fqv q Fq i Hi) N0 ltac:(lra) HV EA2 ltac:(replace (4 / n * n) with 4 by (field; lra); exact AB) MB ltac:(rewrite Rabs_pos_eq; lra) ltac:(lra)) as (F & E).
    split; [exact F|]. eapply Rle_trans; [exact E|]. rewrite (Rabs_pos_eq theta) by lra.
    assert (W : bpow radix2 (2 - emax) <= / 16 * u).
    { replace (/ 16 * u) with (bpow radix2 (-4 + - prec)) by (rewrite bpow_plus; reflexivity). apply bpow_le. lia. }
    assert (u * (theta + ea) <= u * (15 / 4)) by (apply Rmult_le_compat_l; lra). 
    assert (ea <= 5 / 4 * d + 14 * u / sg) by (unfold ea; lra). lra.
Qed.

Lemma arg_close : 4 * u <= Rabs s -> n = 0 \/ bpow radix2 (- (prec + 1)) <= n -> fnear_turn (fqarg L q) theta (d + 16 * u).
Proof.
  intros SL Hn. pose proof (bpow_gt_0 radix2 (- prec)) as U0. assert (U : u <= / 16777216) by (apply (bpow_le radix2 (- prec) (-24)); lia). pose proof (n_le_r q) as NR. pose proof r_big as RB. pose proof PI_digits as PD.
  assert (SR : Rabs s <= r) by exact (fnrm_comp 4 (fval (q : vec fl 4)) 0 ltac:(lia)). assert (R0 : 0 < r) by lra. assert (N0 : 0 <= n) by apply fnrm_pos.
  assert (Fs : is_finite (qscalar q) = true) by exact (Fq 0%nat ltac:(lia)).
  assert (B : Bleb (nmul (qscalar q) (qscalar q)) (nmul feps feps) = false).
  { destruct (@eps2_facts prec emax _ _ ltac:(lia) ltac:(lia)) as (Ne & Fe & Ve).
    assert (SU : Rabs (s * s) <= bpow radix2 (emax - 1)).
    { rewrite Rabs_mult. apply Rle_trans with (bpow radix2 (prec + 1) * bpow radix2 (prec + 1)); [apply Rmult_le_compat; try apply Rabs_pos; lra|]. rewrite <- bpow_plus. apply bpow_le. lia. }
    destruct (mul_val (qscalar q) (qscalar q) Fs Fs SU) as (FM & EM). rewrite Bleb_correct by assumption. apply Rle_bool_false. rewrite Ve, EM.
    apply Rlt_le_trans with (bpow radix2 (4 - 2 * prec)); [apply bpow_lt; lia|].
    assert (GB : generic_format radix2 fexp (bpow radix2 (4 - 2 * prec))) by (apply generic_format_bpow; unfold FLT_exp; lia).
    apply round_ge_generic; auto with typeclass_instances. rewrite <- (Rabs_pos_eq (s * s)) by nra. rewrite Rabs_mult.
    replace (bpow radix2 (4 - 2 * prec)) with (4 * u * (4 * u)); [apply Rmult_le_compat; lra|].
    replace (4 - 2 * prec)%Z with (2 + - prec + (2 + - prec))%Z by ring. rewrite !bpow_plus. reflexivity. }
  assert (HV : fnear (fvnorm (qvector q)) n (8 * u * r)).
  { destruct Hn as [Z0|NK].
    - destruct (norm_zero (qvector q) (Fqv q Fq) Z0) as (F & E). split; [exact F|]. rewrite E, Z0, Rminus_0_r, Rabs_R0. repeat apply Rmult_le_pos; lra.
    - destruct (@size_any prec emax Hp He H24 (prec + 1) ltac:(lia) ltac:(lia) 3 (qvector q) ltac:(lia) (Fqv q Fq)) as (F & E).
      + replace (u / 2) with (bpow radix2 (- (prec + 1))); [exact NK|]. replace (- (prec + 1))%Z with (-1 + - prec)%Z by ring. rewrite bpow_plus. change (bpow radix2 (-1)) with (/ 2). lra.
      + lra.
      + split; [exact F|]. eapply Rle_trans; [exact E|]. apply Rmult_le_compat_l; lra. }
  unfold fqarg, fqarg_eps. rewrite B.
  replace (d + 16 * u) with (d + 2 * (8 * u * r) / r) by (field; lra).
  apply (atan2_near L arccos arcsin d D HL).
  - exact R0.
  - repeat apply Rmult_le_pos; lra.
  - assert (u * r <= / 16777216 * r) by (apply Rmult_le_compat_r; lra). lra.
  - lra.
  - rewrite TC. split; [exact Fs|]. rewrite Rminus_diag_eq, Rabs_R0 by reflexivity. repeat apply Rmult_le_pos; lra.
  - rewrite TS. exact HV.
Qed.
End F.
