(** Rounding errors of the polar form of quaternions (C152). *)

From Coq Require Import List Arith ZArith Bool Lia Reals Lra Psatz.
From Flocq Require Import Core.Core Relative IEEE754.BinarySingleNaN.
From Verif Require Import Base Scalar Spec SpecF SpecRigid SpecLook SpecAng SpecArc SpecQFun MReal MVector MMatrix MQuat MFloat MFloatVec MSign MComplexF MRotF MTransform MArcF MQPolF
  LBase LVector LFloat LFloatP LFloatVec LTrScF LRigidF LDriftM LNormF LLookF LSlerpS LSlerpW LDegF LArc LArcP LArcQ LComplexHP LComplexLP LCplxF LCplxFP LAng LAngF LQFunF LQFunG LQFunH.
Local Open Scope R_scope.

Section F.
Context {prec emax : Z} {Hp : Prec_gt_0 prec} {He : Prec_lt_emax prec emax}.
Notation fl := (binary_float prec emax).
Notation u := (bpow radix2 (- prec)).
Notation tiny := (bpow radix2 (2 - emax - prec)).
Notation fexp := (FLT_exp (3 - emax - prec) prec).
Notation rnd := (round radix2 fexp ZnearestE).
Hypothesis H24 : (24 <= prec)%Z.
Hypothesis Hrange : (2 * prec + 33 <= emax)%Z.

(** * Lengths of vectors that may be tiny *)
Lemma rnd_ub z e : (3 - emax - prec <= e)%Z -> 0 <= z <= bpow radix2 e -> 0 <= rnd z <= bpow radix2 e.
Proof.
  intros E (A & B). split.
  - apply round_ge_generic; [apply (FLT_exp_valid (3 - emax - prec) prec)|apply valid_rnd_N|apply generic_format_0|exact A].
  - apply round_le_generic; [apply (FLT_exp_valid (3 - emax - prec) prec)|apply valid_rnd_N| |exact B]. apply generic_format_FLT_bpow; [exact Hp|lia].
Qed.
Lemma add_ub (x y : fl) X Y e : is_finite x = true -> is_finite y = true -> 0 <= B2R x <= X -> 0 <= B2R y <= Y -> X + Y <= bpow radix2 e -> (3 - emax - prec <= e <= emax - 1)%Z ->
  is_finite (nadd x y) = true /\ 0 <= B2R (nadd x y) <= bpow radix2 e.
Proof.
  intros Fx Fy Hx Hy H E. assert (B : bpow radix2 e <= bpow radix2 (emax - 1)) by (apply bpow_le; lia).
  destruct (add_val x y Fx Fy) as (F & V & _); [rewrite Rabs_pos_eq; lra|]. split; [exact F|]. rewrite V. apply rnd_ub; [lia|lra].
Qed.
Lemma sq_ub (x : fl) e : is_finite x = true -> Rabs (B2R x) <= bpow radix2 e -> (3 - emax - prec <= 2 * e <= emax - 1)%Z ->
  is_finite (nmul x x) = true /\ 0 <= B2R (nmul x x) <= bpow radix2 (2 * e).
Proof.
  intros Fx H E. assert (B : bpow radix2 (2 * e) <= bpow radix2 (emax - 1)) by (apply bpow_le; lia).
  assert (S : 0 <= B2R x * B2R x <= bpow radix2 (2 * e)).
  { split; [nra|]. replace (2 * e)%Z with (e + e)%Z by ring. rewrite bpow_plus, <- (Rabs_pos_eq (B2R x * B2R x)) by nra. rewrite Rabs_mult. apply Rmult_le_compat; try apply Rabs_pos; exact H. }
  destruct (mul_val x x Fx Fx) as (F & V); [rewrite Rabs_pos_eq; lra|]. split; [exact F|]. rewrite V. apply rnd_ub; [lia|exact S].
Qed.
Lemma norm_tiny (v : vec fl 3) : (forall i, (i < 3)%nat -> is_finite (vat v i) = true) -> rlength 3 (fval v) <= bpow radix2 (- prec - 1) -> is_finite (fvnorm v) = true /\ 0 <= B2R (fvnorm v) <= u.
Proof.
  intros Fv H. pose proof Hp as P. unfold Prec_gt_0 in P.
  assert (S : forall i, (i < 3)%nat -> is_finite (nmul (vat v i) (vat v i)) = true /\ 0 <= B2R (nmul (vat v i) (vat v i)) <= bpow radix2 (2 * (- prec - 1))).
  { intros i Hi. apply sq_ub; [apply Fv, Hi| |lia]. eapply Rle_trans; [apply (fnrm_comp 3 (fval v) i Hi)|exact H]. }
  destruct (S 0%nat ltac:(lia)) as (F0 & B0). destruct (S 1%nat ltac:(lia)) as (F1 & B1). destruct (S 2%nat ltac:(lia)) as (F2 & B2).
  set (e := (2 * (- prec - 1))%Z) in *. assert (X0 : 0 < bpow radix2 e) by apply bpow_gt_0.
  assert (D1 : bpow radix2 (e + 1) = 2 * bpow radix2 e) by (rewrite bpow_plus; change (bpow radix2 1) with 2; ring).
  assert (D2 : bpow radix2 (e + 2) = 4 * bpow radix2 e) by (rewrite bpow_plus; change (bpow radix2 2) with 4; ring).
  assert (Z0 : is_finite (n0 : fl) = true) by reflexivity. assert (Z1 : B2R (n0 : fl) = 0) by reflexivity.
  destruct (add_ub (n0 : fl) (nmul (vat v 0) (vat v 0)) 0 (bpow radix2 e) e Z0 F0 ltac:(rewrite Z1; lra) B0 ltac:(lra) ltac:(unfold e; lia)) as (G0 & C0).
  destruct (add_ub _ (nmul (vat v 1) (vat v 1)) _ (bpow radix2 e) (e + 1) G0 F1 C0 B1 ltac:(lra) ltac:(unfold e; lia)) as (G1 & C1).
  destruct (add_ub _ (nmul (vat v 2) (vat v 2)) _ (bpow radix2 e) (e + 2) G1 F2 C1 B2 ltac:(lra) ltac:(unfold e; lia)) as (G2 & C2).
  match type of G2 with is_finite ?x = true => change x with (vnorm_squared v) in G2, C2 end.
  destruct (sqrt_R _ (nn_norm2 3 v Fv) G2) as (FS & VS). split; [exact FS|]. unfold fvnorm. rewrite VS. apply rnd_ub; [lia|]. split; [apply sqrt_pos|].
  rewrite <- (sqrt_square u) by apply bpow_ge_0. apply sqrt_le_1_alt. rewrite <- bpow_plus. replace (- prec + - prec)%Z with (e + 2)%Z by (unfold e; ring). lra.
Qed.
Lemma norm_abs (v : vec fl 3) : (forall i, (i < 3)%nat -> is_finite (vat v i) = true) -> rlength 3 (fval v) <= 9 / 8 -> fnear (fvnorm v) (rlength 3 (fval v)) (9 * u).
Proof.
  intros Fv H. pose proof (bpow_gt_0 radix2 (- prec)) as U0. assert (N0 : 0 <= rlength 3 (fval v)) by apply fnrm_pos.
  assert (E : bpow radix2 (- prec - 1) = u / 2) by (unfold Z.sub; rewrite bpow_plus; change (bpow radix2 (-(1))) with (/ 2); reflexivity).
  destruct (Rle_or_lt (u / 2) (rlength 3 (fval v))) as [C|C].
  - apply (fnear_wk _ _ (8 * u * rlength 3 (fval v))); [|nra].
    apply (@size_any prec emax Hp He H24 (prec + 1) ltac:(lia) ltac:(lia) 3 v ltac:(lia) Fv C). eapply Rle_trans; [exact H|]. apply Rle_trans with (bpow radix2 1); [change (bpow radix2 1) with 2; lra|apply bpow_le; lia].
  - destruct (norm_tiny v Fv ltac:(rewrite E; lra)) as (F & B). split; [exact F|]. apply Rabs_le. lra.
Qed.

(** * The decomposition *)
Variable L : libm fl.
Variables arccos arcsin : fl -> fl.
Variable d : R.
Hypothesis Hd : 0 <= d <= / 64.
Hypothesis HL : ang_lib L arccos arcsin d.
Variable q : quat fl.
Variable k : Z.
Hypothesis Hk : (0 <= k)%Z.
Hypothesis Hr : (2 * k + 31 <= emax)%Z.
Hypothesis Fq : all_finite (q : vec fl 4).
Notation r := (rlength 4 (fval (q : vec fl 4))).
Notation n := (rlength 3 (fval (qvector q))).
Notation s := (B2R (qscalar q)).
Hypothesis HR : bpow radix2 (- k) <= r <= bpow radix2 k.
Notation uq := (fqnormalize q).

Lemma q_unit_norm : fqtry_unit_norm q n0 = Some (uq, fvnorm (q : vec fl 4)) /\ fnear (fvnorm (q : vec fl 4)) r (8 * u * r) /\
  forall i, (i < 4)%nat -> fnear (vat (uq : vec fl 4) i) (fval (q : vec fl 4) i / r) (12 * u).
Proof.
  destruct (c97_any prec emax Hp He 4 k (q : vec fl 4) H24 ltac:(lia) Hk Hr Fq HR) as (N & C). split; [|split; [exact N|exact C]].
  destruct N as (F & E). assert (U : u <= / 1024) by (apply u_le, H24).
  unfold fqtry_unit_norm. cbv zeta.
  assert (P : 0 < r) by (pose proof (bpow_gt_0 radix2 (- k)); lra).
  assert (G : 0 < B2R (fvnorm (q : vec fl 4))) by (apply Rabs_le_inv in E; assert (8 * u * r <= 8 * / 1024 * r) by (apply Rmult_le_compat_r; lra); lra).
  pose proof (nn_norm2 4 (q : vec fl 4) Fq) as NN. assert (Z0 : (n0 * n0 : fl)%N_ = B754_zero false) by reflexivity. rewrite Z0.
  change (vnorm_squared (q : vec fl 4)) with (qnorm_squared q) in NN. change (fvnorm (q : vec fl 4)) with (fsqrt (qnorm_squared q)) in *.
  destruct (nn_cases _ NN) as [I|(FF & Q)]; [rewrite I; reflexivity|].
  rewrite (Bltb_correct prec emax (B754_zero false) (qnorm_squared q) eq_refl FF), Rlt_bool_true; [reflexivity|]. cbn [B2R].
  destruct (Rle_lt_or_eq_dec _ _ Q) as [H|H]; [exact H|exfalso].
  destruct (sqrt_R _ NN FF) as (_ & VS). rewrite VS, <- H, sqrt_0, round_0 in G by auto with typeclass_instances. lra.
Qed.

Definition theta := acos (Rabs s / r).
Lemma r_pos : 0 < r.
Proof. pose proof (bpow_gt_0 radix2 (- k)); lra. Qed.
Lemma theta_facts : 0 <= theta <= PI / 2 /\ r * cos theta = Rabs s /\ r * sin theta = n.
Proof.
  pose proof r_pos as R0. pose proof (len_split q) as LS. assert (N0 : 0 <= n) by apply fnrm_pos. pose proof (Rabs_pos s) as S0.
  assert (SS : Rabs s * Rabs s = s * s) by (rewrite <- Rabs_mult; apply Rabs_pos_eq; nra).
  assert (SR : Rabs s <= r) by (apply Rsqr_incr_0_var; unfold Rsqr; nra).
  assert (B : 0 <= Rabs s / r <= 1).
  { split; [apply Rmult_le_pos; [exact S0|left; apply Rinv_0_lt_compat, R0]|]. apply (Rmult_le_reg_r r); [exact R0|]. unfold Rdiv. rewrite Rmult_assoc, Rinv_l by lra. lra. }
  assert (C : cos theta = Rabs s / r) by (apply cos_acos; lra). pose proof (acos_bound (Rabs s / r)) as AB. fold theta in AB.
  assert (T : theta <= PI / 2).
  { apply Rnot_lt_le. intros X. assert (cos theta < 0) by (apply cos_lt_0; pose proof PI_RGT_0; lra). lra. }
  split; [lra|]. assert (C' : r * cos theta = Rabs s) by (rewrite C; field; lra). split; [exact C'|].
  assert (S1 : 0 <= sin theta) by (apply sin_ge_0; pose proof PI_RGT_0; lra). pose proof (sin2_cos2 theta) as SC. unfold Rsqr in SC.
  apply Rsqr_inj; [apply Rmult_le_pos; lra|exact N0|]. unfold Rsqr. replace (r * sin theta * (r * sin theta)) with (r * r * (sin theta * sin theta + cos theta * cos theta) - (r * cos theta) * (r * cos theta)) by ring.
  rewrite SC, C', SS. lra.
Qed.

Lemma sin_part : fnear (fvnorm (qvector uq)) (sin theta) (30 * u).
Proof.
  destruct q_unit_norm as (_ & _ & C). destruct theta_facts as (_ & _ & TS). pose proof r_pos as R0. pose proof (bpow_gt_0 radix2 (- prec)) as U0. assert (U : u <= / 1024) by (apply u_le, H24).
  assert (FV : forall i, (i < 3)%nat -> fnear (vat (qvector uq) i) (fval (qvector q) i / r) (12 * u)).
  { intros [|[|[|i]]] Hi; try lia; [exact (C 1%nat ltac:(lia))|exact (C 2%nat ltac:(lia))|exact (C 3%nat ltac:(lia))]. }
  assert (E : fnrm 3 (fun i => / r * fval (qvector q) i) = sin theta).
  { rewrite fnrm_scale, Rabs_pos_eq by (left; apply Rinv_0_lt_compat, R0). change (fnrm 3 (fval (qvector q))) with n. rewrite <- TS. field. lra. }
  assert (D : fnrm 3 (fun i => fval (qvector uq) i - / r * fval (qvector q) i) <= 21 * u).
  { eapply Rle_trans; [apply (fnrm_bound 3 _ (12 * u)); [lra|]|].
    - intros i Hi. destruct (FV i Hi) as (_ & X). rewrite (Rmult_comm (/ r)). exact X.
    - replace (21 * u) with (7 / 4 * (12 * u)) by field. apply Rmult_le_compat_r; [lra|]. rewrite <- (sqrt_square (7 / 4)) by lra. apply sqrt_le_1_alt. cbn [INR]. lra. }
  assert (A1 : fnrm 3 (fval (qvector uq)) <= sin theta + 21 * u) by (rewrite <- E; apply fnrm_near; exact D).
  assert (A2 : sin theta <= fnrm 3 (fval (qvector uq)) + 21 * u).
  { rewrite <- E. apply fnrm_near. rewrite (fnrm_ext 3 _ (fun i => (-1) * (fval (qvector uq) i - / r * fval (qvector q) i))) by (intros; ring). rewrite fnrm_scale, Rabs_left by lra. lra. }
  pose proof (SIN_bound theta) as SB.
  destruct (norm_abs (qvector uq) (fun i Hi => proj1 (FV i Hi))) as (F & X); [change (rlength 3 (fval (qvector uq))) with (fnrm 3 (fval (qvector uq))); lra|]. split; [exact F|].
  change (rlength 3 (fval (qvector uq))) with (fnrm 3 (fval (qvector uq))) in X. apply Rabs_le_inv in X. apply Rabs_le. lra.
Qed.
Lemma cos_part : fnear (fabs (qscalar uq)) (cos theta) (30 * u).
Proof.
  destruct q_unit_norm as (_ & _ & C). destruct theta_facts as (_ & TC & _). pose proof r_pos as R0. pose proof (bpow_gt_0 radix2 (- prec)) as U0.
  destruct (C 0%nat ltac:(lia)) as (F & X). destruct (fabs_R (qscalar uq)) as (V & FF). split; [rewrite FF; exact F|]. rewrite V.
  assert (E : cos theta = Rabs (s / r)) by (unfold Rdiv; rewrite Rabs_mult, (Rabs_pos_eq (/ r)) by (left; apply Rinv_0_lt_compat, R0); rewrite <- TC; field; lra). rewrite E.
  eapply Rle_trans; [apply Rabs_triang_inv2|]. eapply Rle_trans; [exact X|]. lra.
Qed.
Lemma angle_near : fnear (m_atan2 L (fvnorm (qvector uq)) (fabs (qscalar uq))) theta (d + 60 * u).
Proof.
  pose proof (bpow_gt_0 radix2 (- prec)) as U0. assert (U : u <= / 16384) by (apply (bpow_le radix2 (- prec) (-14)); lia). destruct theta_facts as (T & _). pose proof PI2_3_2 as P3.
  pose proof cos_part as C. pose proof sin_part as S. rewrite <- (Rmult_1_l (cos theta)) in C. rewrite <- (Rmult_1_l (sin theta)) in S.
  destruct (atan2_near L arccos arcsin d Hd HL _ _ theta 1 (30 * u) ltac:(lra) ltac:(lra) ltac:(lra) ltac:(lra) C S) as (_ & j & N & J).
  rewrite J in N. 2: rewrite Rabs_pos_eq by lra; lra.
  replace (theta + 0 * (2 * PI)) with theta in N by ring. eapply fnear_wk; [exact N|]. lra.
Qed.
Lemma polar_axis : bpow radix2 (- k) <= n -> exists axis, fqpolar L q = (fvnorm (q : vec fl 4), m_atan2 L (fvnorm (qvector uq)) (fabs (qscalar uq)), Some axis) /\
  forall i, (i < 3)%nat -> fnear (vat axis i) (fval (qvector q) i / n) (12 * u).
Proof.
  intros HN. assert (NK : n <= bpow radix2 k) by (pose proof (n_le_r q); lra).
  destruct (c97_any prec emax Hp He 3 k (qvector q) H24 ltac:(lia) Hk Hr (Fqv q Fq) (conj HN NK)) as ((F & E) & C). exists (fvnormalize (qvector q)). split; [|exact C].
  unfold fqpolar. rewrite (proj1 q_unit_norm). assert (T : fvtry_unit (qvector q) n0 = Some (fvnormalize (qvector q))); [|rewrite T; reflexivity].
  unfold fvtry_unit. cbv zeta. assert (U : u <= / 1024) by (apply u_le, H24).
  assert (P : 0 < n) by (pose proof (bpow_gt_0 radix2 (- k)); lra).
  assert (G : 0 < B2R (fvnorm (qvector q))) by (apply Rabs_le_inv in E; assert (8 * u * n <= 8 * / 1024 * n) by (apply Rmult_le_compat_r; lra); lra).
  pose proof (nn_norm2 3 (qvector q) (Fqv q Fq)) as NN. assert (Z0 : (n0 * n0 : fl)%N_ = B754_zero false) by reflexivity. rewrite Z0.
  destruct (nn_cases _ NN) as [I|(FF & Q)]; [rewrite I; reflexivity|].
  rewrite (Bltb_correct prec emax (B754_zero false) (vnorm_squared (qvector q)) eq_refl FF), Rlt_bool_true; [reflexivity|]. cbn [B2R].
  destruct (Rle_lt_or_eq_dec _ _ Q) as [H|H]; [exact H|exfalso]. unfold fvnorm in G.
  destruct (sqrt_R _ NN FF) as (_ & VS). rewrite VS, <- H, sqrt_0, round_0 in G by auto with typeclass_instances. lra.
Qed.
Lemma polar_real : n = 0 -> fqpolar L q = (fvnorm (q : vec fl 4), n0, None).
Proof.
  intros HN. unfold fqpolar. rewrite (proj1 q_unit_norm). assert (T : fvtry_unit (qvector q) n0 = None); [|rewrite T; reflexivity].
  unfold fvtry_unit. cbv zeta. assert (Z : vnorm_squared (qvector q) = n0); [|rewrite Z; reflexivity].
  assert (Z0 : forall i, (i < 3)%nat -> (vat (qvector q) i * vat (qvector q) i)%N_ = (n0 : fl)).
  { intros i Hi. pose proof (fnrm_comp 3 (fval (qvector q)) i Hi) as K. change (fnrm 3 (fval (qvector q))) with n in K. rewrite HN in K. change (fval (qvector q) i) with (B2R (vat (qvector q) i)) in K.
    pose proof (Fqv q Fq i Hi) as FI. destruct (vat (qvector q) i) as [z|z| |z m e H]; try discriminate FI; [destruct z; reflexivity|].
    exfalso. assert (Q : B2R (B754_finite z m e H : fl) <> 0) by (apply (F2R_neq_0 radix2); destruct z; discriminate). apply Rabs_pos_lt in Q. lra. }
  change (nadd (nadd (nadd n0 (vat (qvector q) 0 * vat (qvector q) 0)) (vat (qvector q) 1 * vat (qvector q) 1)) (vat (qvector q) 2 * vat (qvector q) 2) = n0)%N_.
  rewrite !Z0 by lia. reflexivity.
Qed.

(** * The inverse *)
Section From.
Variables (scale angle : fl) (axis : vec fl 3) (S : R).
Hypothesis Fs : is_finite scale = true.
Hypothesis Fa : is_finite angle = true.
Hypothesis Bs : Rabs (B2R scale) <= S.
Hypothesis Ba : Rabs (B2R angle) <= 9.
Hypothesis Ax : forall i, (i < 3)%nat -> is_finite (vat axis i) = true /\ Rabs (B2R (vat axis i)) <= 2.
Hypothesis S1 : bpow radix2 (12 - emax) <= S <= bpow radix2 (emax - 6).

Lemma half_angle : fnear (ndiv angle (nadd n1 n1)) (B2R angle / 2) (5 * u) /\ Rabs (B2R (ndiv angle (nadd n1 n1))) <= 5.
Proof.
  pose proof (bpow_gt_0 radix2 (- prec)) as U0. assert (U : u <= / 1024) by (apply u_le, H24). destruct (@two_val prec emax _ _) as (F2 & V2).
  apply Rabs_le_inv in Ba. assert (BM : 9 <= bpow radix2 (emax - 1)) by (apply Rle_trans with (bpow radix2 4); [change (bpow radix2 4) with 16; lra|apply bpow_le; lia]).
  assert (E : Rabs (B2R angle / 2) <= 9 / 2) by (apply Rabs_le; lra).
  destruct (div_val angle (nadd n1 n1) Fa) as (F & V); [rewrite V2; lra|rewrite V2; lra|]. rewrite V2 in V.
  pose proof (rnd_rel (prec := prec) (emax := emax) (B2R angle / 2)) as R. rewrite <- V in R.
  assert (T : tiny <= / 2 * u) by (change (/ 2) with (bpow radix2 (-1)); rewrite <- bpow_plus; apply bpow_le; lia).
  assert (X : u * Rabs (B2R angle / 2) <= u * (9 / 2)) by (apply Rmult_le_compat_l; lra).
  assert (N : Rabs (B2R (ndiv angle (nadd n1 n1)) - B2R angle / 2) <= 5 * u) by lra.
  split; [split; [exact F|exact N]|]. apply Rabs_le_inv in N, E. apply Rabs_le. lra.
Qed.
Lemma trig_half : fnear (m_sin L (ndiv angle (nadd n1 n1))) (sin (B2R angle / 2)) (d + 5 * u) /\ fnear (m_cos L (ndiv angle (nadd n1 n1))) (cos (B2R angle / 2)) (d + 5 * u).
Proof.
  destruct half_angle as ((F & E) & B). destruct HL as (_ & _ & T). destruct (T _ F B) as ((FS & ES) & (FC & EC)).
  pose proof (sin_lip (B2R (ndiv angle (nadd n1 n1))) (B2R angle / 2)) as LS. pose proof (LDegF.cos_lip (B2R (ndiv angle (nadd n1 n1))) (B2R angle / 2)) as LC.
  split; (split; [assumption|]).
  - replace (B2R (m_sin L (ndiv angle (nadd n1 n1))) - sin (B2R angle / 2)) with ((B2R (m_sin L (ndiv angle (nadd n1 n1))) - sin (B2R (ndiv angle (nadd n1 n1)))) + (sin (B2R (ndiv angle (nadd n1 n1))) - sin (B2R angle / 2))) by ring.
    eapply Rle_trans; [apply Rabs_triang|]. lra.
  - replace (B2R (m_cos L (ndiv angle (nadd n1 n1))) - cos (B2R angle / 2)) with ((B2R (m_cos L (ndiv angle (nadd n1 n1))) - cos (B2R (ndiv angle (nadd n1 n1)))) + (cos (B2R (ndiv angle (nadd n1 n1))) - cos (B2R angle / 2))) by ring.
    eapply Rle_trans; [apply Rabs_triang|]. lra.
Qed.
Lemma tiny_S : tiny <= / 512 * u * S.
Proof.
  apply Rle_trans with (/ 512 * u * bpow radix2 (12 - emax)).
  - change (/ 512) with (bpow radix2 (-9)). rewrite <- !bpow_plus. apply bpow_le. lia.
  - apply Rmult_le_compat_l; [pose proof (bpow_gt_0 radix2 (- prec)); lra|apply S1].
Qed.
Lemma from_scalar : fnear (qscalar (fqfrom_polar L scale angle axis)) (B2R scale * cos (B2R angle / 2)) ((d + 8 * u) * S).
Proof.
  pose proof (bpow_gt_0 radix2 (- prec)) as U0. assert (U : u <= / 1024) by (apply u_le, H24). pose proof tiny_S as T. assert (S0 : 0 < S) by (pose proof (bpow_gt_0 radix2 (12 - emax)); lra).
  assert (US : 0 < u * S) by (apply Rmult_lt_0_compat; assumption).
  destruct trig_half as (_ & C). change (qscalar (fqfrom_polar L scale angle axis)) with (nmul (m_cos L (ndiv angle (nadd n1 n1))) scale).
  assert (CB : Rabs (cos (B2R angle / 2)) <= 1) by (apply Rabs_le; apply COS_bound).
  assert (M : 1 * S <= bpow radix2 (emax - 4)) by (rewrite Rmult_1_l; eapply Rle_trans; [apply S1|apply bpow_le; lia]).
  rewrite Rmult_comm. eapply fnear_wk.
  - apply (prod_abs (m_cos L (ndiv angle (nadd n1 n1))) scale (cos (B2R angle / 2)) (B2R scale) 1 S (d + 5 * u) 0); try lra; try assumption.
    + rewrite Rmult_1_r. exact C.
    + split; [exact Fs|]. rewrite Rminus_diag_eq, Rabs_R0 by reflexivity. lra.
  - lra.
Qed.
Lemma from_vector i : (i < 3)%nat -> fnear (vat (qvector (fqfrom_polar L scale angle axis)) i) (B2R scale * sin (B2R angle / 2) * B2R (vat axis i)) ((3 * d + 25 * u) * S).
Proof.
  intros Hi. pose proof (bpow_gt_0 radix2 (- prec)) as U0. assert (U : u <= / 1024) by (apply u_le, H24). pose proof tiny_S as T. assert (S0 : 0 < S) by (pose proof (bpow_gt_0 radix2 (12 - emax)); lra).
  assert (US : 0 < u * S) by (apply Rmult_lt_0_compat; assumption).
  destruct trig_half as (C & _). destruct (Ax i Hi) as (FA & BA). set (h := m_sin L (ndiv angle (nadd n1 n1))) in *.
  assert (EV : vat (qvector (fqfrom_polar L scale angle axis)) i = nmul (nmul (vat axis i) h) scale) by (destruct i as [|[|[|i]]]; [reflexivity..|lia]). rewrite EV.
  assert (SB : Rabs (sin (B2R angle / 2)) <= 1) by (apply Rabs_le; apply SIN_bound).
  assert (B4 : 2 <= bpow radix2 (emax - 4)) by (apply (bpow_le radix2 1); lia).
  assert (T1 : tiny <= / 2 * u) by (change (/ 2) with (bpow radix2 (-1)); rewrite <- bpow_plus; apply bpow_le; lia).
  assert (M : 2 * S <= bpow radix2 (emax - 4)). { replace (emax - 4)%Z with (2 + (emax - 6))%Z by ring. rewrite bpow_plus. change (bpow radix2 2) with 4. destruct S1. pose proof (bpow_gt_0 radix2 (emax - 6)). lra. }
  assert (N1 : fnear (nmul (vat axis i) h) (B2R (vat axis i) * sin (B2R angle / 2)) (3 * d + 20 * u)).
  { eapply fnear_wk.
    - apply (prod_abs (vat axis i) h (B2R (vat axis i)) (sin (B2R angle / 2)) 2 1 0 (d + 5 * u)); try lra; try assumption.
      + split; [exact FA|]. rewrite Rminus_diag_eq, Rabs_R0 by reflexivity. lra.
      + rewrite Rmult_1_r. exact C.
    - lra. }
  replace (B2R scale * sin (B2R angle / 2) * B2R (vat axis i)) with (B2R (vat axis i) * sin (B2R angle / 2) * B2R scale) by ring. eapply fnear_wk.
  - apply (prod_abs (nmul (vat axis i) h) scale (B2R (vat axis i) * sin (B2R angle / 2)) (B2R scale) 2 S ((3 * d + 20 * u) / 2) 0); try lra; try assumption.
    + rewrite Rabs_mult. apply Rle_trans with (2 * 1); [|lra]. apply Rmult_le_compat; try apply Rabs_pos; assumption.
    + replace ((3 * d + 20 * u) / 2 * 2) with (3 * d + 20 * u) by field. exact N1.
    + split; [exact Fs|]. rewrite Rminus_diag_eq, Rabs_R0 by reflexivity. lra.
  - lra.
Qed.
End From.

(** * There and back *)
Lemma round_trip : bpow radix2 (- k) <= n -> exists norm angle axis, fqpolar L q = (norm, angle, Some axis) /\
  fnear (qscalar (fqfrom_polar L norm (nadd angle angle) axis)) (Rabs s) ((5 * d + 120 * u) * r) /\
  forall i, (i < 3)%nat -> fnear (vat (qvector (fqfrom_polar L norm (nadd angle angle) axis)) i) (fval (qvector q) i) ((5 * d + 120 * u) * r).
Proof.
  intros HN. destruct (polar_axis HN) as (axis & EP & AX). do 3 eexists. split; [exact EP|].
  destruct q_unit_norm as (_ & (FN & EN) & _). destruct angle_near as (FA & EA). set (N := fvnorm (q : vec fl 4)) in *. set (A := m_atan2 L (fvnorm (qvector uq)) (fabs (qscalar uq))) in *.
  pose proof (bpow_gt_0 radix2 (- prec)) as U0. assert (U : u <= / 16384) by (apply (bpow_le radix2 (- prec) (-14)); lia). pose proof r_pos as R0. destruct theta_facts as (T & TC & TS). pose proof PI2_3_2 as P3. pose proof PI_4 as P4.
  assert (N0 : 0 < n) by (pose proof (bpow_gt_0 radix2 (- k)); lra).
  assert (ur : 0 < u * r) by (apply Rmult_lt_0_compat; assumption). assert (ur1 : u * r <= / 16384 * r) by (apply Rmult_le_compat_r; lra). assert (dr : 0 <= d * r <= / 64 * r) by (split; [apply Rmult_le_pos; lra|apply Rmult_le_compat_r; lra]).
  assert (BM : 9 <= bpow radix2 (emax - 1)) by (apply Rle_trans with (bpow radix2 4); [change (bpow radix2 4) with 16; lra|apply bpow_le; lia]).
  assert (EA' := Rabs_le_inv _ _ EA). assert (EN' := Rabs_le_inv _ _ EN).
  destruct (add_val A A FA FA) as (FD & _ & ED); [apply Rabs_le; lra|].
  assert (HD : Rabs (B2R (nadd A A) / 2 - theta) <= d + 63 * u).
  { assert (X : u * Rabs (B2R A + B2R A) <= u * 5) by (apply Rmult_le_compat_l; [lra|apply Rabs_le; lra]). apply Rabs_le_inv in ED. apply Rabs_le. lra. }
  set (D := nadd A A) in *. assert (HD' := Rabs_le_inv _ _ HD).
  assert (BD : Rabs (B2R D) <= 9) by (apply Rabs_le; lra). set (S := 9 / 8 * r).
  assert (BS : Rabs (B2R N) <= S) by (unfold S; apply Rabs_le; lra).
  assert (BA : forall i, (i < 3)%nat -> is_finite (vat axis i) = true /\ Rabs (B2R (vat axis i)) <= 2).
  { intros i Hi. destruct (AX i Hi) as (F & X). split; [exact F|]. pose proof (fnrm_comp 3 (fval (qvector q)) i Hi) as K. change (fnrm 3 (fval (qvector q))) with n in K.
    assert (Rabs (fval (qvector q) i / n) <= 1). { unfold Rdiv. rewrite Rabs_mult, (Rabs_pos_eq (/ n)) by (left; apply Rinv_0_lt_compat; exact N0). apply (Rmult_le_reg_r n); [exact N0|]. rewrite Rmult_assoc, Rinv_l by lra. lra. }
    apply Rabs_le_inv in X, H. apply Rabs_le. lra. }
  assert (S1 : bpow radix2 (12 - emax) <= S <= bpow radix2 (emax - 6)).
  { unfold S. split.
    - apply Rle_trans with (bpow radix2 (- k)); [apply bpow_le; lia|]. lra.
    - apply Rle_trans with (bpow radix2 (1 + k)); [rewrite bpow_plus; change (bpow radix2 1) with 2; lra|apply bpow_le; lia]. }
  pose proof (LDegF.cos_lip (B2R D / 2) theta) as LC. pose proof (sin_lip (B2R D / 2) theta) as LS.
  split.
  - destruct (from_scalar N D axis S FN FD BS BD S1) as (F & E). split; [exact F|]. rewrite <- TC.
    assert (X : Rabs (B2R N * cos (B2R D / 2) - r * cos theta) <= 8 * u * r + r * (d + 63 * u)).
    { replace (B2R N * cos (B2R D / 2) - r * cos theta) with ((B2R N - r) * cos (B2R D / 2) + r * (cos (B2R D / 2) - cos theta)) by ring. eapply Rle_trans; [apply Rabs_triang|]. rewrite !Rabs_mult, (Rabs_pos_eq r) by lra.
      apply Rplus_le_compat; [|apply Rmult_le_compat_l; lra]. rewrite <- (Rmult_1_r (8 * u * r)). apply Rmult_le_compat; try apply Rabs_pos; [exact EN|apply Rabs_le, COS_bound]. }
    unfold S in E. match goal with |- Rabs (?x - _) <= _ => replace (x - r * cos theta) with ((x - B2R N * cos (B2R D / 2)) + (B2R N * cos (B2R D / 2) - r * cos theta)) by ring end.
    eapply Rle_trans; [apply Rabs_triang|]. lra.
  - intros i Hi. destruct (from_vector N D axis S FN FD BS BD BA S1 i Hi) as (F & E). split; [exact F|]. destruct (AX i Hi) as (_ & XA). destruct (BA i Hi) as (_ & XB).
    replace (fval (qvector q) i) with (r * sin theta * (fval (qvector q) i / n)) by (rewrite TS; field; lra). set (a := fval (qvector q) i / n) in *.
    assert (X : Rabs (B2R N * sin (B2R D / 2) - r * sin theta) <= 8 * u * r + r * (d + 63 * u)).
    { replace (B2R N * sin (B2R D / 2) - r * sin theta) with ((B2R N - r) * sin (B2R D / 2) + r * (sin (B2R D / 2) - sin theta)) by ring. eapply Rle_trans; [apply Rabs_triang|]. rewrite !Rabs_mult, (Rabs_pos_eq r) by lra.
      apply Rplus_le_compat; [|apply Rmult_le_compat_l; lra]. rewrite <- (Rmult_1_r (8 * u * r)). apply Rmult_le_compat; try apply Rabs_pos; [exact EN|apply Rabs_le, SIN_bound]. }
    assert (A1 : Rabs (B2R (vat axis i)) <= 9 / 8).
    { pose proof (fnrm_comp 3 (fval (qvector q)) i Hi) as K. change (fnrm 3 (fval (qvector q))) with n in K.
      assert (Q : Rabs a <= 1). { unfold a, Rdiv. rewrite Rabs_mult, (Rabs_pos_eq (/ n)) by (left; apply Rinv_0_lt_compat; exact N0). apply (Rmult_le_reg_r n); [exact N0|]. rewrite Rmult_assoc, Rinv_l by lra. lra. }
      apply Rabs_le_inv in XA, Q. apply Rabs_le. lra. }
    assert (Y : Rabs (B2R N * sin (B2R D / 2) * B2R (vat axis i) - r * sin theta * a) <= (8 * u * r + r * (d + 63 * u)) * (9 / 8) + r * (12 * u)).
    { replace (B2R N * sin (B2R D / 2) * B2R (vat axis i) - r * sin theta * a) with ((B2R N * sin (B2R D / 2) - r * sin theta) * B2R (vat axis i) + r * sin theta * (B2R (vat axis i) - a)) by ring.
      eapply Rle_trans; [apply Rabs_triang|]. rewrite !Rabs_mult, (Rabs_pos_eq r) by lra. apply Rplus_le_compat; [apply Rmult_le_compat; try apply Rabs_pos; assumption|].
      rewrite Rmult_assoc. apply Rmult_le_compat_l; [lra|]. rewrite <- (Rmult_1_l (12 * u)). apply Rmult_le_compat; try apply Rabs_pos; [apply Rabs_le, SIN_bound|exact XA]. }
    unfold S in E. match goal with |- Rabs (?x - ?z) <= _ => replace (x - z) with ((x - B2R N * sin (B2R D / 2) * B2R (vat axis i)) + (B2R N * sin (B2R D / 2) * B2R (vat axis i) - z)) by ring end.
    eapply Rle_trans; [apply Rabs_triang|]. lra.
Qed.
End F.
