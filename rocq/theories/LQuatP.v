(** Proofs of the composite statements of PQuat.v. *)

From Coq Require Import List Arith Lia ZArith Reals Lra Bool.
From Verif Require Import Base Scalar Spec SpecRot LBase MVector LVector LVectorR MMatrix LMatrix LMatrixDet
  LMatrixR LMatrixM MPoint MReal LReal MAngle MMisc LMisc MComplex LComplex LComplexR
  MRot LRot LRotBetween LLook LRotP MQuat LQuat LQuatR LQuatFn LQuatInv.
Import ListNotations.
Local Open Scope R_scope.

Section Ring.
Context {K : Type} {NK : Num K} {LK : RingLaws K}.
Local Open Scope num_scope.
Add Ring KringQP : (@ring_laws K NK LK).
Lemma qmul_hamilton (a b c d a' b' c' d' : K) :
  qmul (qnew a b c d) (qnew a' b' c' d') =
     qnew (a * a' - b * b' - c * c' - d * d')
          (a * b' + b * a' + c * d' - d * c')
          (a * c' - b * d' + c * a' + d * b')
          (a * d' + b * c' - c * b' + d * a').
Proof. qcompute. pairs ltac:(ring). Qed.
Lemma c39_algebra (p q r : quat K) (a b : K) :
    (qadd p q = qadd q p /\ qadd p (qadd q r) = qadd (qadd p q) r /\ qadd p qzero = p /\
     qadd p (qneg p) = qzero /\ qsub p q = qadd p (qneg q)) /\
    (qmul p (qmul q r) = qmul (qmul p q) r /\ qmul qidentity p = p /\ qmul p qidentity = p /\
     qmul (qadd p q) r = qadd (qmul p r) (qmul q r) /\
     qmul p (qadd q r) = qadd (qmul p q) (qmul p r) /\
     qmul qzero p = qzero /\ qmul p qzero = qzero) /\
    (qscale (qmul p q) a = qmul (qscale p a) q /\ qscale (qmul p q) a = qmul p (qscale q a) /\
     qscale p a = qmul p (qfrom_real a) /\ s_mul_q a p = qscale p a /\
     qscale p (a + b) = qadd (qscale p a) (qscale p b) /\
     qscale (qscale p a) b = qscale p (a * b) /\ qscale p n1 = p) /\
    qsquared p = qmul p p.
Proof.
  split; [|split; [|split]].
  - exact (conj (qadd_comm p q) (conj (qadd_assoc p q r) (conj (qadd_0_r p) (conj (qadd_neg_r p) (qsub_def p q))))).
  - exact (conj (qmul_assoc p q r) (conj (qmul_1_l p) (conj (qmul_1_r p) (conj (qmul_add_l p q r)
      (conj (qmul_add_r p q r) (conj (qmul_0_l p) (qmul_0_r p))))))).
  - exact (conj (eq_sym (qmul_scale_l p q a)) (conj (eq_sym (qmul_scale_r p q a)) (conj (qscale_mul p a)
      (conj (s_mul_q_eq p a) (conj (qscale_add_s p a b) (conj (qscale_scale p a b) (qscale_1 p))))))).
  - reflexivity.
Qed.
Lemma c39_conj (p q : quat K) :
    qconj (qconj q) = q /\ qconj (qmul p q) = qmul (qconj q) (qconj p) /\
    qconj (qadd p q) = qadd (qconj p) (qconj q) /\ qconj_mut q = qconj q /\
    qnorm_squared (qmul p q) = qnorm_squared p * qnorm_squared q /\
    qmul q (qconj q) = qfrom_real (qnorm_squared q) /\
    qmul (qconj q) q = qfrom_real (qnorm_squared q) /\
    qnorm_squared q = sum 4 (fun i => vat (q : vec K 4) i * vat (q : vec K 4) i).
Proof.
  exact (conj (qconj_conj q) (conj (qconj_mul p q) (conj (qconj_add p q) (conj (qconj_mut_eq q)
    (conj (qnorm_squared_mul p q) (conj (qmul_conj_r q) (conj (qmul_conj_l q) (vdot_sum 4 q q)))))))).
Qed.
End Ring.

Section Field.
Context {K : Type} {NK : Num K} {ND : NumDiv K} {FK : FieldLaws K}.
Local Open Scope num_scope.
#[local] Instance rl_of_fieldQP : RingLaws K := field_ring.
Lemma c42_action (p q qi : quat K) (v : vec K 3) :
    qnorm_squared q <> n0 -> qmul q qi = qidentity -> qmul qi q = qidentity ->
    qfrom_pure (mmulv (qto_matrix q) v) = qmul (qmul q (qfrom_pure v)) qi /\
    mmul (mtranspose (qto_matrix q)) (qto_matrix q) = midentity 3 /\
    mmul (qto_matrix q) (mtranspose (qto_matrix q)) = midentity 3 /\
    m3det (qto_matrix q) = n1 /\
    (qnorm_squared p <> n0 -> qto_matrix (qmul p q) = mmul (qto_matrix p) (qto_matrix q)) /\
    qto_matrix (qneg q) = qto_matrix q /\
    qto_matrix (qconj q) = mtranspose (qto_matrix q) /\
    (forall a, a <> n0 -> qto_matrix (qscale q a) = qto_matrix q) /\
    qto_matrix (qidentity : quat K) = midentity 3.
Proof.
  intros H Q1 Q2.
  assert (E : qi = qdiv_s (qconj q) (qnorm_squared q)) by exact (qinverse_unique q _ _ Q1 (qinv_l q H)).
  rewrite E.
  exact (conj (eq_sym (qto_matrix_act q v H)) (conj (qto_matrix_orth q H) (conj (qto_matrix_orth' q H)
    (conj (qto_matrix_det q H) (conj (fun Hp => qto_matrix_mul p q Hp H) (conj (qto_matrix_neg q)
    (conj (qto_matrix_conj q) (conj (fun a => qto_matrix_scale q a H) qto_matrix_identity)))))))).
Qed.
Lemma c42_variants (q : quat K) (m : mat K 3 3) (m' : mat K 4 4) :
    qto_matrix_mut q m = qto_matrix q /\ qto_affine_matrix q = membed (qto_matrix q) /\
    qto_affine_matrix_mut q m' = membed (qto_matrix q).
Proof.
  exact (conj (qto_matrix_mut_eq q m) (conj (qto_affine_matrix_eq q)
    (eq_trans (qto_affine_matrix_mut_eq q m') (qto_affine_matrix_eq q)))).
Qed.
Lemma c49_project (p q : quat K) :
    qadd (qproject p q) (qreject p q) = p /\
    (exists a, qproject p q = qscale q a) /\
    (qnorm_squared q <> n0 -> qdot (qreject p q) q = n0 /\ qproject q q = q).
Proof.
  exact (conj (qproject_reject p q) (conj (ex_intro _ _ (qproject_parallel p q))
    (fun H => conj (qreject_orth p q H) (qproject_self q H)))).
Qed.
End Field.

Lemma c40_inverse (q : quat R) (eps : R) : 0 <= eps ->
    (qtry_inverse_eps q eps = None <-> qnorm q <= eps) /\
    (forall r, qtry_inverse_eps q eps = Some r ->
       qmul q r = qidentity /\ qmul r q = qidentity /\ qnorm r * qnorm q = 1) /\
    (eps < 1 -> qnorm q = 1 -> qtry_inverse_eps q eps = Some (qconj q)) /\
    qinverse_eps q eps = qtry_inverse_eps q eps.
Proof.
  intros H. split; [exact (qtry_inverse_none q eps H)|]. split; [|split; [|reflexivity]].
  - intros r E. destruct (qtry_inverse_some q r eps H E) as [A B].
    exact (conj A (conj B (qinverse_norm q r eps H E))).
  - intros H1. exact (qinverse_unit q eps (conj H H1)).
Qed.
Lemma qnew_nz (s x y z : R) : s <> 0 \/ x <> 0 \/ y <> 0 \/ z <> 0 -> qnew s x y z <> qzero.
Proof.
  intros H E. pose proof (f_equal (fun v => vat (v : vec R 4) 0) E) as A.
  pose proof (f_equal (fun v => vat (v : vec R 4) 1) E) as B.
  pose proof (f_equal (fun v => vat (v : vec R 4) 2) E) as C.
  pose proof (f_equal (fun v => vat (v : vec R 4) 3) E) as D. cbn in A, B, C, D. tauto.
Qed.
Lemma qvec_nz (s x y z : R) : x <> 0 \/ y <> 0 \/ z <> 0 -> qvector (qnew s x y z) <> vzero 3.
Proof.
  intros H E. pose proof (f_equal (fun v => vat (v : vec R 3) 0) E) as A.
  pose proof (f_equal (fun v => vat (v : vec R 3) 1) E) as B.
  pose proof (f_equal (fun v => vat (v : vec R 3) 2) E) as C. cbn in A, B, C. tauto.
Qed.
Lemma qnorm_new (s x y z r : R) : 0 <= r -> s * s + x * x + y * y + z * z = r * r -> qnorm (qnew s x y z) = r.
Proof. intros H E. apply qnorm_by_sq; [exact H|]. rewrite <- E. qrcompute. ring. Qed.
Lemma qnorm_1111 : qnorm (qnew 1 1 1 1) = 2.
Proof. apply qnorm_new; lra. Qed.
Lemma c40_example : qnorm (qnew 1 1 1 1) = 2 /\ qnew 1 1 1 1 <> (qzero : quat R) /\
  exists r, qtry_inverse_eps (qnew 1 1 1 1) (1/2) = Some r.
Proof.
  split; [exact qnorm_1111|]. split; [apply qnew_nz; lra|].
  eexists. apply qtry_inverse_val; [lra|]. rewrite qnorm_1111. lra.
Qed.
Lemma c41_example : qis_invertible_eps (qnew 1 1 1 1) (1/2) = true /\ qnorm (qnew 1 1 1 1) <> 1/2.
Proof. rewrite qis_invertible_iff by lra. rewrite qnorm_1111. lra. Qed.
Lemma c42_example : qto_matrix (qnew 1 1 1 1 : quat R) = m3new 0 1 0  0 0 1  1 0 0 /\
  qmul (qnew 1 1 1 1) (qnew (1/4) (-1/4) (-1/4) (-1/4)) = qidentity.
Proof.
  split.
  - unfold qto_matrix, m3new. cbv zeta. rewrite <- qnorm_sq, qnorm_1111. cbn. rnum. unfold v3. pairs ltac:(field).
  - qrcompute. pairs ltac:(field).
Qed.
Lemma rot_check (m : mat R 3 3) : mmul (mtranspose m) m = midentity 3 -> m3det m = 1 -> is_rotation m.
Proof. intros A B. apply is_rotation3. exact (conj A B). Qed.
Lemma c43_example : is_rotation (midentity 3 : mat R 3 3) /\
  is_rotation (m3new 1 0 0  0 (-1) 0  0 0 (-1)) /\ is_rotation (m3new (-1) 0 0  0 1 0  0 0 (-1)) /\
  is_rotation (m3new (-1) 0 0  0 (-1) 0  0 0 1).
Proof.
  split; [exact is_rotation_identity|].
  split; [|split]; (apply rot_check; [mcompute; rnum; pairs ltac:(ring)|mcompute; rnum; ring]).
Qed.
Lemma c44_axis_angle (a : vec R 3) (s t : R) : vnorm a = 1 ->
    qnorm (qfrom_axis_angle a t) = 1 /\
    qto_matrix (qfrom_axis_angle a t) = m3from_axis_angle a t /\
    (forall v, mmulv (qto_matrix (qfrom_axis_angle a t)) v = rodrigues a t v) /\
    qmul (qfrom_axis_angle a s) (qfrom_axis_angle a t) = qfrom_axis_angle a (s + t) /\
    mmul (m3from_axis_angle a s) (m3from_axis_angle a t) = m3from_axis_angle a (s + t) /\
    qfrom_axis_angle a (- t) = qconj (qfrom_axis_angle a t) /\
    qfrom_axis_angle a (t + 2 * PI) = qneg (qfrom_axis_angle a t) /\
    qfrom_axis_angle a 0 = qidentity.
Proof.
  intros H. assert (M := qfrom_axis_angle_matrix a t H).
  assert (A : forall v, mmulv (qto_matrix (qfrom_axis_angle a t)) v = rodrigues a t v)
    by (intros v; rewrite M; apply m3from_axis_angle_rodrigues).
  exact (conj (qfrom_axis_angle_unit a t H) (conj M (conj A (conj (qfrom_axis_angle_add a s t H)
    (conj (m3from_axis_angle_add a s t H) (conj (qfrom_axis_angle_neg a t)
    (conj (qfrom_axis_angle_2pi a t) (qfrom_axis_angle_0 a)))))))).
Qed.
Lemma c44_elementary (t : R) :
    m3from_angle_x t = qto_matrix (qfrom_axis_angle (v3 1 0 0) t) /\
    m3from_angle_y t = qto_matrix (qfrom_axis_angle (v3 0 1 0) t) /\
    m3from_angle_z t = qto_matrix (qfrom_axis_angle (v3 0 0 1) t).
Proof.
  destruct v3_unit_norms as (A & B & C).
  exact (conj (eq_trans (m3from_angle_x_axis t) (eq_sym (qfrom_axis_angle_matrix _ t A)))
        (conj (eq_trans (m3from_angle_y_axis t) (eq_sym (qfrom_axis_angle_matrix _ t B)))
              (eq_trans (m3from_angle_z_axis t) (eq_sym (qfrom_axis_angle_matrix _ t C))))).
Qed.
Definition c44_example := c58_example.
Lemma c45_exp_ln (q : quat R) (eps : R) :
    (qvector q <> vzero 3 \/ 0 < qscalar q ->
       qexp_eps (qln_eps q 0) 0 = q /\ qpowf_eps q 1 0 = q) /\
    (0 <= eps -> eps < vnorm (qvector q) -> eps < acos (qscalar q / qnorm q) ->
       qexp_eps (qln_eps q eps) eps = q /\ qpowf_eps q 1 eps = q) /\
    (forall x, 0 < x -> qexp_eps (qln_eps (qfrom_real x) eps) eps = qfrom_real x) /\
    (forall x, x < 0 -> qexp_eps (qln_eps (qfrom_real x) eps) eps = qfrom_real (- x)).
Proof.
  exact (conj (fun H => conj (qexp_ln0 q H) (qpowf_1 q H))
    (conj (fun A B C => conj (qexp_ln q eps A B C) (qpowf_1_eps q eps A B C))
    (conj (fun x => qexp_ln_real x eps) (fun x => qexp_ln_neg x eps)))).
Qed.
Lemma qreal_inj (a b : R) : qfrom_real a = qfrom_real b -> a = b.
Proof. intros E. apply (f_equal qscalar) in E. exact E. Qed.
Lemma c45_refuted (eps : R) : exists q : quat R, q <> qzero /\ qexp_eps (qln_eps q eps) eps <> q.
Proof.
  exists (qfrom_real (-1)). split.
  - change (qnew (-1) 0 0 0 <> qzero). apply qnew_nz. lra.
  - rewrite qexp_ln_neg by lra. intros E. apply qreal_inj in E. lra.
Qed.
Lemma c45_example : qvector (qnew (-1) 0 0 1) <> (vzero 3 : vec R 3) /\
  vnorm (qvector (qnew 1 0 0 1)) < PI.
Proof.
  split; [apply qvec_nz; lra|]. rewrite (norm_of 3 _ 1); [pose proof PI2_3_2; lra|lra|].
  qrcompute. ring.
Qed.
Lemma c46_sqrt (q : quat R) : qmul (qsqrt_eps q 0) (qsqrt_eps q 0) = q /\ 0 <= qscalar (qsqrt_eps q 0).
Proof.
  apply qsqrt_sq; [lra| |].
  - destruct (Req_dec (qnorm q) 0) as [E|E]; [left; apply qnorm_zero, E|right; pose proof (qnorm_nonneg q); lra].
  - destruct (Req_dec (vnorm (qvector q)) 0) as [E|E]; [left; apply vnorm_zero, E|right].
    pose proof (vnorm_nonneg _ (qvector q)); lra.
Qed.
Lemma c46_example : qsqrt_eps (qfrom_real (-4)) (1/10) = qnew 0 2 0 0.
Proof.
  rewrite qsqrt_real by (rewrite ?Rabs_left; lra). destruct (Rgt_dec (-4) 0); [lra|].
  replace (- -4) with (2 * 2) by ring. rewrite sqrt_square by lra. reflexivity.
Qed.
Lemma c47_slerp (p q : quat R) (thr : R) : qnorm p = 1 -> qnorm q = 1 ->
    (forall t, qnorm (qslerp_eps p q t thr) = 1) /\
    qslerp_eps p q 1 thr = q /\
    (0 <= qdot p q -> qslerp_eps p q 0 thr = p) /\
    (qdot p q < 0 -> qslerp_eps p q 0 thr = qneg p) /\
    (qslerp_eps p q 0 thr = p \/ qslerp_eps p q 0 thr = qneg p) /\
    qto_matrix (qslerp_eps p q 0 thr) = qto_matrix p.
Proof.
  intros H1 H2. destruct (qslerp_spec p q thr H1 H2) as (A & B & C & D).
  assert (E : qslerp_eps p q 0 thr = p \/ qslerp_eps p q 0 thr = qneg p).
  { destruct (Rle_dec 0 (qdot p q)) as [L|L]; [left; exact (C L)|right; apply D; lra]. }
  assert (F : qto_matrix (qslerp_eps p q 0 thr) = qto_matrix p).
  { destruct E as [E|E]; rewrite E; [reflexivity|exact (qto_matrix_neg p)]. }
  exact (conj A (conj B (conj C (conj D (conj E F))))).
Qed.
Lemma acos_half_range x : 0 <= x <= 1 -> 0 <= acos x <= PI / 2.
Proof.
  intros H. pose proof (acos_bound x) as B. split; [lra|]. destruct (Rle_dec (acos x) (PI / 2)) as [L|L]; [exact L|].
  exfalso. assert (cos (acos x) < 0) by (apply cos_lt_0; lra). rewrite cos_acos in H0; lra.
Qed.
Lemma c47_speed (p q : quat R) (thr s t : R) : qnorm p = 1 -> qnorm q = 1 ->
    Rabs (qdot p q) < 1 -> thr <= sqrt (1 - Rabs (qdot p q) * Rabs (qdot p q)) ->
    let theta := acos (Rabs (qdot p q)) in
    0 <= theta <= PI / 2 /\
    qdot (qslerp_eps p q s thr) (qslerp_eps p q t thr) = cos ((s - t) * theta) /\
    qdot (qslerp_eps p q 0 thr) (qslerp_eps p q t thr) = cos (t * theta).
Proof.
  intros H1 H2 H3 H4 theta. split; [apply acos_half_range; pose proof (Rabs_pos (qdot p q)); lra|].
  split; [exact (qslerp_speed p q thr s t H1 H2 H3 H4)|].
  rewrite (qslerp_speed p q thr 0 t H1 H2 H3 H4). fold theta.
  replace ((0 - t) * theta) with (- (t * theta)) by ring. apply cos_neg.
Qed.
Lemma c47_refuted : exists p q : quat R, qnorm p = 1 /\ qnorm q = 1 /\ qslerp p q 0 <> p.
Proof.
  exists (qnew 1 0 0 0), (qnew (-3/5) (4/5) 0 0).
  assert (A : qnorm (qnew 1 0 0 0) = 1) by (apply qnorm_new; lra).
  assert (B : qnorm (qnew (-3/5) (4/5) 0 0) = 1) by (apply qnorm_new; lra).
  split; [exact A|]. split; [exact B|]. unfold qslerp.
  destruct (qslerp_spec _ _ (5 / 10000) A B) as (_ & _ & _ & D). rewrite D.
  - intros E. apply (f_equal qscalar) in E. cbn in E. lra.
  - qrcompute. lra.
Qed.
Lemma c47_example : qnorm (qnew 1 0 0 0) = 1 /\ qnorm (qnew (3/5) 0 (4/5) 0) = 1 /\
  Rabs (qdot (qnew 1 0 0 0) (qnew (3/5) 0 (4/5) 0)) < 1.
Proof.
  split; [apply qnorm_new; lra|]. split; [apply qnorm_new; lra|].
  assert (E : qdot (qnew 1 0 0 0) (qnew (3/5) 0 (4/5) 0) = 3/5) by (qrcompute; ring).
  rewrite E, Rabs_right; lra.
Qed.
Lemma c48_polar (q : quat R) : qvector q <> vzero 3 ->
    exists t, qpolar_decomposition q = (qnorm q, t, Some (vnormalize (qvector q))) /\
      0 < t <= PI / 2 /\ qnorm q * cos t = Rabs (qscalar q) /\
      qnorm q * sin t = vnorm (qvector q) /\
      qfrom_polar_decomposition (qnorm q) (2 * t) (vnormalize (qvector q)) =
        qfrom_parts (Rabs (qscalar q)) (qvector q).
Proof.
  intros N. destruct (qpolar_angle q N) as (t & A & B & C & D). exists t.
  exact (conj A (conj B (conj C (conj D (qpolar_double q _ _ _ N A))))).
Qed.
Lemma c48_example : qvector (qnew 1 1 0 0) <> (vzero 3 : vec R 3).
Proof. apply qvec_nz. lra. Qed.
Lemma c49_example : qouter (qnew 1 2 3 4) (qnew 5 6 7 8) = qnew 0 (-4) 8 (-4) :> quat R.
Proof. qrcompute. pairs ltac:(field). Qed.
Lemma c50_slice (q : quat R) :
    exists (u : vec R 3) (z : complex R), vnorm u = 1 /\
      q = qfrom_parts (re z) (vmul_s u (im z)) /\
      forall f, f = (qcos, ccos) \/ f = (qsin, csin) \/ f = (qcosh, ccosh) \/ f = (qsinh, csinh) ->
        fst f q = qfrom_parts (re (snd f z)) (vmul_s u (im (snd f z))).
Proof.
  destruct (slice_exists q) as (u & U & E & _). set (z := mkC _ _) in E. exists u, z.
  split; [exact U|]. split; [exact E|]. intros f [F|[F|[F|F]]]; subst f; cbn [fst snd]; rewrite E at 1.
  - apply qcos_slice, U.
  - apply qsin_slice, U.
  - apply qcosh_slice, U.
  - apply qsinh_slice, U.
Qed.
Lemma c50_slice_all (u : vec R 3) (z : complex R) : vnorm u = 1 ->
    let emb w := qfrom_parts (re w) (vmul_s u (im w)) in
    qcos (emb z) = emb (ccos z) /\ qsin (emb z) = emb (csin z) /\
    qcosh (emb z) = emb (ccosh z) /\ qsinh (emb z) = emb (csinh z) /\
    (ccos z <> mkC 0 0 -> qtan (emb z) = emb (ctan z)) /\
    (ccosh z <> mkC 0 0 -> qtanh (emb z) = emb (ctanh z)) /\
    qexp_eps (emb z) 0 = emb (cexp z).
Proof.
  intros U emb. exact (conj (qcos_slice u z U) (conj (qsin_slice u z U) (conj (qcosh_slice u z U)
    (conj (qsinh_slice u z U) (conj (qtan_slice u z U) (conj (qtanh_slice u z U) (qexp_slice0 u z U))))))).
Qed.
Lemma c50_example : qcos qzero <> qzero /\ qcosh qzero <> qzero.
Proof.
  assert (Z : (qzero : quat R) = qfrom_real 0) by reflexivity. rewrite Z at 1 3.
  destruct (qtrig_real 0) as (A & _ & _ & B & _). rewrite A, B, cos_0, cosh_0.
  split; intros E; apply (f_equal qscalar) in E; cbn in E; lra.
Qed.
Definition c51q_example := c51_example.
Lemma qscale_vec (q : quat R) a : qscale q a = vmul_s (q : vec R 4) a.
Proof. destruct4 q. reflexivity. Qed.
Lemma qnormalize_back q : q <> qzero -> qscale (qnormalize q) (qnorm q) = q.
Proof. intros H. rewrite qscale_vec. exact (vnormalize_back 4 q H). Qed.
Lemma c10_quat (q : quat R) (t : R) :
    (q <> qzero -> qnorm (qnormalize q) = 1 /\ qscale (qnormalize q) (qnorm q) = q) /\
    (qnorm q = 1 -> qnormalize q = q) /\
    (qtry_normalize q t = None <-> qnorm q <= t) /\
    (t < qnorm q -> qtry_normalize q t = Some (qnormalize q)).
Proof.
  split; [intros H; exact (conj (qnormalize_norm q H) (qnormalize_back q H))|].
  split; [exact (qnormalize_unit q)|]. unfold qtry_normalize.
  destruct (Rle_dec (qnorm q) t) as [L|L].
  - split; [split; auto|]. intros H. lra.
  - split; [split; [discriminate|contradiction]|reflexivity].
Qed.
Lemma c12_quat {A B} (conv : A -> option B) (da : A) (db : B) (s x y z : A) :
    (forall s' x' y' z', conv s = Some s' -> conv x = Some x' -> conv y = Some y' ->
       conv z = Some z' -> qtry_cast conv da db (qnew s x y z) = Some (qnew s' x' y' z')) /\
    (conv s = None \/ conv x = None \/ conv y = None \/ conv z = None <->
     qtry_cast conv da db (qnew s x y z) = None).
Proof.
  split.
  - intros. apply vtry_cast_spec. intros i Hi. destruct i as [|[|[|[|]]]]; cbn; auto; lia.
  - apply (iff_trans (B := exists i, (i < 4)%nat /\ conv (vget da (qnew s x y z : vec A 4) i) = None));
      [|symmetry; exact (vtry_cast_none conv da db 4 (qnew s x y z))]. split.
    + intros [H|[H|[H|H]]]; [exists 0%nat|exists 1%nat|exists 2%nat|exists 3%nat]; split; (lia || exact H).
    + intros (i & Hi & H). destruct i as [|[|[|[|]]]]; cbn in H; auto; lia.
Qed.
Lemma normed_quat_ok : normed_ok normed_quat qzero qscale.
Proof.
  split; [exact qnorm_nonneg|]. split; [exact qnorm_sq|]. split; [exact qnorm_zero|].
  intros x Hx. exact (conj (qnormalize_norm x Hx) (qnormalize_back x Hx)).
Qed.
Lemma unit_quat_all (x : quat R) t :
    (x <> qzero -> qnorm (unit_from_value normed_quat x) = 1 /\
       qscale (unit_from_value normed_quat x) (qnorm x) = x /\
       unit_from_value_with_norm normed_quat x = (unit_from_value normed_quat x, qnorm x)) /\
    (0 <= t ->
     (unit_try_from_value normed_quat x t = None <-> qnorm x <= t) /\
     (unit_try_from_value_with_norm normed_quat x t = None <-> qnorm x <= t) /\
     (forall u, unit_try_from_value normed_quat x t = Some u ->
        qnorm u = 1 /\ qscale u (qnorm x) = x) /\
     (forall u r, unit_try_from_value_with_norm normed_quat x t = Some (u, r) ->
        qnorm u = 1 /\ qscale u (qnorm x) = x /\ r = qnorm x)).
Proof.
  split; intros H.
  - exact (unit_from_value_spec _ _ _ x normed_quat_ok H).
  - exact (unit_try_from_value_spec _ _ _ x t normed_quat_ok H).
Qed.
Lemma c90_quat (p q : quat R) (t t' : R) :
    (0 <= t -> qabs_diff_all_eq p p t = true) /\
    qabs_diff_all_eq p q t = qabs_diff_all_eq q p t /\
    (t <= t' -> qabs_diff_all_eq p q t = true -> qabs_diff_all_eq p q t' = true) /\
    (qabs_diff_all_eq p q t = true <->
     forall i, (i < 4)%nat -> Rabs (vat (p : vec R 4) i - vat (q : vec R 4) i) <= t).
Proof.
  unfold qabs_diff_all_eq. split; [|split; [|split]].
  - intros H. apply vabs_diff_all_eq_spec. intros i Hi. rewrite Rminus_diag_eq, Rabs_R0 by reflexivity. exact H.
  - apply eq_true_iff_eq. rewrite !vabs_diff_all_eq_spec. split; intros H i Hi; rewrite Rabs_minus_sym; auto.
  - rewrite !vabs_diff_all_eq_spec. intros L H i Hi. specialize (H i Hi). lra.
  - apply vabs_diff_all_eq_spec.
Qed.
Lemma c86_quat_example :
  qnorm (qnew 1 1 1 1) = 2 /\ qnew 1 1 1 1 <> (qzero : quat R) /\
  qtry_cast (fun n : nat => Some (S n)) 0%nat 0%nat (qnew 1 2 3 4)%nat = Some (qnew 2 3 4 5)%nat /\
  qabs_diff_all_eq (qnew 1 1 1 1) (qnew 1 1 1 (3/2)) 1 = true.
Proof.
  split; [exact qnorm_1111|]. split; [apply qnew_nz; lra|]. split; [reflexivity|].
  apply vabs_diff_all_eq_spec. intros i Hi. destruct i as [|[|[|[|]]]]; cbn; try lia;
  apply Rabs_le; lra.
Qed.
Lemma c94_refuted : exists (q r : quat R), qvector q <> vzero 3 /\ qacos_eps q 0 = Some r /\ qcos r <> q.
Proof.
  destruct qacos_j_fails as (r & A & B). exists (qfrom_pure v3_unit_y), r.
  split; [|exact (conj A B)]. change (qvector (qnew 0 0 1 0) <> (vzero 3 : vec R 3)). apply qvec_nz. lra.
Qed.
Lemma c94_example : qvector (qnew 1 1 0 0) <> (vzero 3 : vec R 3) /\ qscalar (qnew 1 1 0 0) <> 0 /\
  1 < Rabs (-3).
Proof.
  split; [apply qvec_nz; lra|]. split; [change (1 <> 0); lra|]. rewrite Rabs_left; lra.
Qed.
Lemma ratan2_upper y x : 0 <= y -> x <> 0 -> 0 <= ratan2 y x <= PI.
Proof.
  intros Hy Hx. pose proof (ratan2_range x y) as B. split; [|lra].
  destruct (ratan2_spec x y) as [_ S]. assert (P : 0 < sqrt (x * x + y * y)) by (apply sqrt_lt_R0; nra).
  destruct (Rle_dec 0 (ratan2 y x)) as [L|L]; [exact L|exfalso].
  assert (N : sin (ratan2 y x) < 0) by (apply sin_lt_0_var; lra). nra.
Qed.
Lemma qnorm_parts q : qnorm q = sqrt (qscalar q * qscalar q + vnorm (qvector q) * vnorm (qvector q)).
Proof. rewrite <- qns_parts, <- qnorm_sq. symmetry. apply sqrt_square, qnorm_nonneg. Qed.
Lemma c95_arg (q : quat R) (eps : R) : 0 <= eps ->
    (eps < Rabs (qscalar q) ->
       0 <= qarg_eps q eps <= PI /\ qnorm q * cos (qarg_eps q eps) = qscalar q /\
       qnorm q * sin (qarg_eps q eps) = vnorm (qvector q)) /\
    (Rabs (qscalar q) <= eps -> qarg_eps q eps = PI / 2).
Proof.
  intros He. unfold qarg_eps.
  assert (A : qscalar q * qscalar q = Rabs (qscalar q) * Rabs (qscalar q))
    by (rewrite <- Rabs_mult; symmetry; apply Rabs_right, Rle_ge, Rle_0_sqr).
  pose proof (Rabs_pos (qscalar q)) as P. destruct (Rle_dec _ _) as [L|L].
  - split; [intros H; exfalso; nra|reflexivity].
  - split; [|intros H; exfalso; apply L; nra]. intros H.
    assert (N : qscalar q <> 0) by (intros Z; rewrite Z, Rabs_R0 in H; lra).
    split; [apply ratan2_upper; [apply vnorm_nonneg|exact N]|]. rewrite qnorm_parts. apply ratan2_spec.
Qed.
Lemma c95_example : 0 < Rabs (qscalar (qnew (-3) 0 4 0)) /\ qnorm (qnew (-3) 0 4 0) = 5.
Proof. split; [change (0 < Rabs (-3)); rewrite Rabs_left; lra|apply qnorm_new; lra]. Qed.
