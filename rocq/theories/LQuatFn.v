(** Exponential, logarithm, powers, square root and trigonometry of quaternions: every quaternion
    lies in a complex slice, and the functions act on the slice as the complex ones. *)

From Coq Require Import List Arith Lia Bool Reals Lra Psatz Ring.
From Verif Require Import Base Scalar Spec SpecRot LBase MVector LVector LVectorR MMatrix LMatrix
  LMatrixDet LMatrixR LMatrixM MPoint MReal LReal MAngle MMisc LMisc MComplex LComplex LComplexR
  MRot LRot LRotBetween LLook MQuat LQuat LQuatR.
Import ListNotations.
Local Open Scope R_scope.

Definition slice (u : vec R 3) (z : complex R) : quat R := qfrom_parts (re z) (vmul_s u (im z)).

Lemma slice_scalar u z : qscalar (slice u z) = re z.
Proof. reflexivity. Qed.
Lemma slice_vector u z : qvector (slice u z) = vmul_s u (im z).
Proof. unfold slice. apply qvector_parts. Qed.
Lemma slice_vnorm u z : vnorm u = 1 -> vnorm (qvector (slice u z)) = Rabs (im z).
Proof. intros H. rewrite slice_vector, vnorm_mul, H. ring. Qed.

Ltac slice_ring := unfold slice, cadd, csub, cneg, cconj, cmul_s, czero, cone, cidentity, cunit_im;
  cbn [re im]; qrcompute; pairs ltac:(ring).
Lemma slice_add u z w : qadd (slice u z) (slice u w) = slice u (cadd z w).
Proof. destruct3 u; destruct z as [za zb], w as [wa wb]. slice_ring. Qed.
Lemma slice_sub u z w : qsub (slice u z) (slice u w) = slice u (csub z w).
Proof. destruct3 u; destruct z as [za zb], w as [wa wb]. slice_ring. Qed.
Lemma slice_neg u z : qneg (slice u z) = slice u (cneg z).
Proof. destruct3 u; destruct z as [za zb]. slice_ring. Qed.
Lemma slice_conj u z : qconj (slice u z) = slice u (cconj z).
Proof. destruct3 u; destruct z as [za zb]. slice_ring. Qed.
Lemma slice_scale u z a : qscale (slice u z) a = slice u (cmul_s z a).
Proof. destruct3 u; destruct z as [za zb]. slice_ring. Qed.
Lemma slice_real u a : qfrom_real a = slice u (mkC a 0).
Proof. destruct3 u. slice_ring. Qed.
Lemma slice_zero u : (qzero : quat R) = slice u czero.
Proof. destruct3 u. slice_ring. Qed.
Lemma slice_one u : (qidentity : quat R) = slice u cone.
Proof. destruct3 u. slice_ring. Qed.
Lemma slice_unit u : (qfrom_pure u : quat R) = slice u cunit_im.
Proof. destruct3 u. slice_ring. Qed.
Lemma slice_negu u z : slice (vneg u) z = slice u (cconj z).
Proof. destruct z as [za zb]. slice_ring. Qed.
Lemma slice_mul u z w : vnorm u = 1 -> qmul (slice u z) (slice u w) = slice u (cmul z w).
Proof.
  intros H. apply unit_norm_iff in H. revert H. destruct z as [za zb], w as [wa wb]. destruct3 u. unfold slice, cmul.
  cbn [re im]. qrcompute. intros H. assert (X : x * x = 1 - y * y - z * z) by lra.
  pairs ltac:(ring [X]).
Qed.
Lemma slice_ns u z : vnorm u = 1 -> qnorm_squared (slice u z) = cmodulus_squared z.
Proof.
  intros H. unfold slice. rewrite qnorm_squared_parts, vdot_mul_l, vdot_mul_r.
  apply unit_norm_iff in H. rewrite H. unfold cmodulus_squared. rnum. ring.
Qed.
Lemma slice_norm u z : vnorm u = 1 -> qnorm (slice u z) = cnorm z.
Proof.
  intros H. apply qnorm_by_sq; [apply cnorm_nonneg|]. rewrite cnorm_sq. apply slice_ns, H.
Qed.
Lemma slice_inj u z w : vnorm u = 1 -> slice u z = slice u w -> z = w.
Proof.
  intros H E. apply complex_eq.
  - apply (f_equal qscalar) in E. exact E.
  - apply (f_equal qvector) in E. rewrite !slice_vector in E.
    apply (f_equal (vdot u)) in E. rewrite !vdot_mul_r in E. apply unit_norm_iff in H.
    rewrite H in E. rnum. lra.
Qed.
Lemma slice_nz u z : vnorm u = 1 -> z <> czero -> slice u z <> qzero.
Proof. intros H N E. apply N. apply (slice_inj u); [exact H|]. rewrite E. apply slice_zero. Qed.
(** Every quaternion is in a slice; the imaginary coordinate is the norm of the vector part. *)
Lemma slice_exists (q : quat R) : exists u,
  vnorm u = 1 /\ q = slice u (mkC (qscalar q) (vnorm (qvector q))) /\
  (qvector q <> vzero 3 -> u = vnormalize (qvector q)).
Proof.
  destruct (Req_dec (vnorm (qvector q)) 0) as [Z|Z].
  - exists v3_unit_x. split; [apply v3_unit_norms|]. rewrite Z. apply vnorm_zero in Z.
    split; [|intros; contradiction].
    rewrite (quat_parts q) at 1. rewrite Z. unfold slice. cbn [re im]. qrcompute. pairs ltac:(ring).
  - assert (N : qvector q <> vzero 3) by (intros E; apply Z, vnorm_zero, E).
    exists (vnormalize (qvector q)). split; [apply vnormalize_norm, N|]. split; [|auto].
    unfold slice. cbn [re im]. rewrite vnormalize_back by exact N. apply quat_parts.
Qed.

Lemma parts_odd (u : vec R 3) y k w : y * k = w -> vmul_s (vmul_s u y) k = vmul_s u w.
Proof. intros <-. destruct3 u. vcompute. rnum. pairs ltac:(ring). Qed.
Lemma odd_div (f : R -> R) a y : (forall x, f (- x) = - f x) -> y <> 0 ->
  y * (a * f (Rabs y) / Rabs y) = a * f y.
Proof.
  intros Hf Hy. unfold Rabs. destruct (Rcase_abs y).
  - rewrite Hf. field. lra.
  - field. lra.
Qed.
Lemma even_abs (f : R -> R) y : (forall x, f (- x) = f x) -> f (Rabs y) = f y.
Proof. intros Hf. unfold Rabs. destruct (Rcase_abs y); auto. Qed.
Lemma cosh_neg x : cosh (- x) = cosh x.
Proof. unfold cosh. rewrite Ropp_involutive. field. Qed.
Lemma sinh_neg x : sinh (- x) = - sinh x.
Proof. unfold sinh. rewrite Ropp_involutive. field. Qed.
Lemma sqrt_vns (u : vec R 3) y : vnorm u = 1 -> vnorm_squared (vmul_s u y) = y * y.
Proof.
  intros H. unfold vnorm_squared. rewrite vdot_mul_l, vdot_mul_r. apply unit_norm_iff in H. rewrite H.
  rnum. ring.
Qed.
Lemma sqrt_sq_abs y : sqrt (y * y) = Rabs y.
Proof. exact (sqrt_Rsqr_abs y). Qed.
Lemma Rabs_pos_nz y : 0 < Rabs y -> y <> 0.
Proof. intros H E. subst. rewrite Rabs_R0 in H. lra. Qed.

(** ** Trigonometry *)
Lemma ccos_val z : ccos z = mkC (cos (re z) * cosh (im z)) (- (sin (re z) * sinh (im z))).
Proof. unfold ccos. rewrite ccosh_eq. cbn [re im]. rewrite cosh_neg, sinh_neg. apply complex_eq; cbn; ring. Qed.
Lemma csin_val z : csin z = mkC (sin (re z) * cosh (im z)) (cos (re z) * sinh (im z)).
Proof. unfold csin, csinh. cbn [re im]. rewrite cosh_neg, sinh_neg. apply complex_eq; cbn; ring. Qed.

Lemma Rabs_eq_0 x : Rabs x = 0 -> x = 0.
Proof. unfold Rabs. destruct (Rcase_abs x); lra. Qed.

Ltac fn_slice H z :=
  rewrite !(slice_vnorm _ z H), slice_scalar, slice_vector;
  destruct (Req_EM_T (Rabs (im z)) 0) as [Z|Z];
  [apply Rabs_eq_0 in Z | assert (im z <> 0) by (intros E; apply Z; rewrite E; apply Rabs_R0)].
Lemma qcos_slice u z : vnorm u = 1 -> qcos (slice u z) = slice u (ccos z).
Proof.
  intros H. unfold qcos. cbv zeta. rewrite ccos_val. fn_slice H z.
  - rewrite Z, Rabs_R0, cosh_0, sinh_0. rewrite (slice_real u). f_equal. apply complex_eq; cbn; ring.
  - unfold slice. cbn [re im]. f_equal; [f_equal; apply (even_abs cosh), cosh_neg|].
    apply parts_odd. rewrite (odd_div sinh); [ring|apply sinh_neg|assumption].
Qed.
Lemma qsin_slice u z : vnorm u = 1 -> qsin (slice u z) = slice u (csin z).
Proof.
  intros H. unfold qsin. cbv zeta. rewrite csin_val. fn_slice H z.
  - rewrite Z, Rabs_R0, cosh_0, sinh_0. rewrite (slice_real u). f_equal. apply complex_eq; cbn; ring.
  - unfold slice. cbn [re im]. f_equal; [f_equal; apply (even_abs cosh), cosh_neg|].
    apply parts_odd. rewrite (odd_div sinh); [ring|apply sinh_neg|assumption].
Qed.
Lemma qcosh_slice u z : vnorm u = 1 -> qcosh (slice u z) = slice u (ccosh z).
Proof.
  intros H. unfold qcosh. cbv zeta. rewrite ccosh_eq. fn_slice H z.
  - rewrite Z, Rabs_R0, cos_0, sin_0. rewrite (slice_real u). f_equal. apply complex_eq; cbn; ring.
  - unfold slice. cbn [re im]. f_equal; [f_equal; apply (even_abs cos), cos_neg|].
    apply parts_odd. rewrite (odd_div sin); [ring|apply sin_neg|assumption].
Qed.
Lemma qsinh_slice u z : vnorm u = 1 -> qsinh (slice u z) = slice u (csinh z).
Proof.
  intros H. unfold qsinh, csinh. cbv zeta. fn_slice H z.
  - rewrite Z, Rabs_R0, cos_0, sin_0. rewrite (slice_real u). f_equal. apply complex_eq; cbn; ring.
  - unfold slice. cbn [re im]. f_equal; [f_equal; apply (even_abs cos), cos_neg|].
    apply parts_odd. rewrite (odd_div sin); [ring|apply sin_neg|assumption].
Qed.

Lemma ctan_den x y : cosh (- y + - y) + cos (x + x) = 2 * (cos x * cos x + sinh y * sinh y).
Proof.
  rewrite cosh_double, cos_plus, cosh_neg, sinh_neg. pose proof (cosh2_sinh2 y). pose proof (sin2_cos2R x). nra.
Qed.
Lemma qtan_slice u z : vnorm u = 1 -> ccos z <> czero -> qtan (slice u z) = slice u (ctan z).
Proof.
  intros H N. unfold qtan, ctan, ctanh. cbv zeta. cbn [re im]. rewrite ctan_den.
  assert (D : cos (re z) * cos (re z) + sinh (im z) * sinh (im z) <> 0).
  { intros E. apply sumsq_zero in E. destruct E as [E1 E2]. apply N. rewrite ccos_val, E1, E2.
    apply complex_eq; cbn; ring. }
  rewrite sinh_double, cosh_neg, sinh_neg, sin_plus. fn_slice H z.
  - rewrite Z, sinh_0 in *. rewrite (slice_real u). f_equal.
    assert (C : cos (re z) <> 0) by (intros E; apply D; rewrite E; ring).
    apply complex_eq; cbn [re im]; unfold tan; field; intuition lra.
  - assert (E : sinh (Rabs (im z)) * sinh (Rabs (im z)) = sinh (im z) * sinh (im z)).
    { unfold Rabs. destruct (Rcase_abs (im z)); [rewrite sinh_neg|]; ring. }
    rewrite E. unfold slice. cbn [re im]. f_equal; [field; exact D|].
    apply parts_odd. rewrite (even_abs cosh _ cosh_neg).
    assert (A : Rabs (im z) <> 0) by exact Z.
    transitivity (im z * (cosh (im z) / (cos (re z) * cos (re z) + sinh (im z) * sinh (im z)) *
       sinh (Rabs (im z)) / Rabs (im z))).
    + field. auto.
    + rewrite (odd_div sinh); [field; exact D|apply sinh_neg|assumption].
Qed.
Lemma ctanh_den x y : cosh (x + x) + cos (y + y) = 2 * (sinh x * sinh x + cos y * cos y).
Proof. rewrite cosh_double, cos_plus. pose proof (cosh2_sinh2 x). pose proof (sin2_cos2R y). nra. Qed.
Lemma qtanh_slice u z : vnorm u = 1 -> ccosh z <> czero -> qtanh (slice u z) = slice u (ctanh z).
Proof.
  intros H N. unfold qtanh, ctanh. cbv zeta. cbn [re im]. rewrite ctanh_den.
  assert (D : sinh (re z) * sinh (re z) + cos (im z) * cos (im z) <> 0).
  { intros E. apply sumsq_zero in E. destruct E as [E1 E2]. apply N. rewrite ccosh_eq, E1, E2.
    apply complex_eq; cbn; ring. }
  rewrite sinh_double, sin_plus. fn_slice H z.
  - rewrite Z, cos_0, sin_0 in *. rewrite (slice_real u). f_equal.
    pose proof (cosh2_sinh2 (re z)) as P. pose proof (cosh_pos (re z)) as Q.
    apply complex_eq; cbn [re im]; [|field; intuition lra].
    unfold rtanh. replace (sinh (re z) * sinh (re z) + 1 * 1) with (cosh (re z) * cosh (re z)) by lra.
    field. lra.
  - rewrite (even_abs cos _ cos_neg). unfold slice. cbn [re im]. f_equal; [field; exact D|].
    apply parts_odd. assert (A : Rabs (im z) <> 0) by exact Z.
    transitivity (im z * (cos (im z) / (sinh (re z) * sinh (re z) + cos (im z) * cos (im z)) *
       sin (Rabs (im z)) / Rabs (im z))).
    + field. auto.
    + rewrite (odd_div sin); [field; exact D|apply sin_neg|assumption].
Qed.

(** Identities for all quaternions *)
Lemma qcos2_qsin2 q : qadd (qmul (qcos q) (qcos q)) (qmul (qsin q) (qsin q)) = qidentity.
Proof.
  destruct (slice_exists q) as (u & H & -> & _).
  rewrite qcos_slice, qsin_slice, !slice_mul, slice_add, ccos2_csin2 by exact H.
  symmetry. apply slice_one.
Qed.
Lemma qcosh2_qsinh2 q : qsub (qmul (qcosh q) (qcosh q)) (qmul (qsinh q) (qsinh q)) = qidentity.
Proof.
  destruct (slice_exists q) as (u & H & -> & _).
  rewrite qcosh_slice, qsinh_slice, !slice_mul, slice_sub, ccosh2_csinh2 by exact H.
  symmetry. apply slice_one.
Qed.
Lemma slice_nz_inv u z : slice u z <> qzero -> z <> czero.
Proof. intros N E. apply N. rewrite E. symmetry. apply slice_zero. Qed.
Lemma qtan_qcos q : qcos q <> qzero -> qmul (qtan q) (qcos q) = qsin q /\ qmul (qcos q) (qtan q) = qsin q.
Proof.
  destruct (slice_exists q) as (u & H & -> & _). set (z := mkC _ _). clearbody z.
  rewrite qcos_slice by exact H. intros N. apply slice_nz_inv in N.
  rewrite qtan_slice, qsin_slice, !slice_mul by assumption.
  rewrite ctan_quotient by exact N. split; f_equal; [apply cdiv_mul, cms_nz, N|].
  transitivity (cmul (cdiv (csin z) (ccos z)) (ccos z)); [ring|apply cdiv_mul, cms_nz, N].
Qed.
Lemma qtanh_qcosh q : qcosh q <> qzero ->
  qmul (qtanh q) (qcosh q) = qsinh q /\ qmul (qcosh q) (qtanh q) = qsinh q.
Proof.
  destruct (slice_exists q) as (u & H & -> & _). set (z := mkC _ _). clearbody z.
  rewrite qcosh_slice by exact H. intros N. apply slice_nz_inv in N.
  rewrite qtanh_slice, qsinh_slice, !slice_mul by assumption.
  rewrite ctanh_quotient by exact N. split; f_equal; [apply cdiv_mul, cms_nz, N|].
  transitivity (cmul (cdiv (csinh z) (ccosh z)) (ccosh z)); [ring|apply cdiv_mul, cms_nz, N].
Qed.
Lemma qtrig_real x :
  qcos (qfrom_real x) = qfrom_real (cos x) /\ qsin (qfrom_real x) = qfrom_real (sin x) /\
  qtan (qfrom_real x) = qfrom_real (tan x) /\ qcosh (qfrom_real x) = qfrom_real (cosh x) /\
  qsinh (qfrom_real x) = qfrom_real (sinh x) /\ qtanh (qfrom_real x) = qfrom_real (rtanh x).
Proof.
  assert (Z : vnorm (qvector (qfrom_real x)) = 0).
  { apply vnorm_zero. unfold qfrom_real. rewrite qvector_parts. reflexivity. }
  unfold qcos, qsin, qtan, qcosh, qsinh, qtanh. cbv zeta. rewrite Z.
  destruct (Req_EM_T 0 0) as [_|N]; [|contradiction].
  change (qscalar (qfrom_real x)) with x. rewrite cosh_0, cos_0, !Rmult_1_r. conjs; reflexivity.
Qed.

(** ** exp, ln *)
Lemma qexp_slice u z eps : vnorm u = 1 -> 0 <= eps -> (im z = 0 \/ eps < Rabs (im z)) ->
  qexp_eps (slice u z) eps = slice u (cexp z).
Proof.
  intros H He D. unfold qexp_eps. cbv zeta. rewrite slice_vector, slice_scalar, sqrt_vns, sqrt_sq_abs by exact H.
  pose proof (Rabs_pos (im z)) as P.
  assert (SQ : Rabs (im z) * Rabs (im z) = im z * im z) by (rewrite <- Rabs_mult; apply Rabs_right; nra).
  destruct (Rle_dec (im z * im z) (eps * eps)) as [L|L].
  - destruct D as [D|D]; [|exfalso; nra]. unfold cexp. rewrite D, cos_0, sin_0.
    unfold slice. cbn [re im]. f_equal; [ring|]. destruct3 u. vcompute. rnum. pairs ltac:(ring).
  - assert (N : im z <> 0) by (intros E; apply L; rewrite E; nra).
    unfold cexp, slice. cbn [re im]. f_equal; [f_equal; apply (even_abs cos), cos_neg|].
    apply parts_odd. apply (odd_div sin); [apply sin_neg|exact N].
Qed.
Lemma qexp_slice0 u z : vnorm u = 1 -> qexp_eps (slice u z) 0 = slice u (cexp z).
Proof.
  intros H. apply qexp_slice; [exact H|lra|]. destruct (Req_dec (im z) 0); [auto|right].
  apply Rabs_pos_lt. assumption.
Qed.
Lemma qexp_norm q eps : qnorm (qexp_eps q eps) = exp (qscalar q).
Proof.
  pose proof (exp_pos (qscalar q)) as P.
  unfold qexp_eps. cbv zeta. destruct (Rle_dec _ _) as [L|L].
  - change (qfrom_parts (exp (qscalar q)) (vzero 3)) with (qfrom_real (exp (qscalar q))).
    rewrite qnorm_real. apply Rabs_right. lra.
  - assert (Z : qvector q <> vzero 3).
    { intros E. apply L. rewrite E. replace (vnorm_squared (vzero 3)) with 0 by (vcompute; rnum; ring).
      apply Rle_0_sqr. }
    apply vnorm_pos in Z. unfold vnorm_squared in *. rewrite <- vnorm_sq, sqrt_square by lra.
    set (n := vnorm (qvector q)) in *. apply qnorm_by_sq; [lra|].
    rewrite qnorm_squared_parts, vdot_mul_l, vdot_mul_r, <- vnorm_sq. fold n. rnum.
    pose proof (sin2_cos2R n) as SC. assert (C : cos n * cos n = 1 - sin n * sin n) by lra.
    transitivity (exp (qscalar q) * exp (qscalar q) * (cos n * cos n + sin n * sin n)); [field; lra|].
    rewrite C. ring.
Qed.
Lemma qexp_pure_unit v eps : qnorm (qexp_eps (qfrom_pure v) eps) = 1.
Proof. rewrite qexp_norm. apply exp_0. Qed.
Lemma qvns_real (x : R) : vnorm_squared (qvector (qfrom_real x)) = 0.
Proof. qrcompute. ring. Qed.
Lemma qexp_real x eps : qexp_eps (qfrom_real x) eps = qfrom_real (exp x).
Proof.
  unfold qexp_eps. cbv zeta. rewrite qvns_real.
  destruct (Rle_dec 0 (eps * eps)) as [L|L]; [reflexivity|]. exfalso. apply L, Rle_0_sqr.
Qed.

(** Parallel vector parts lie in one slice. *)
Lemma common_slice (p q : quat R) : vcross (qvector p) (qvector q) = vzero 3 ->
  exists u z w, vnorm u = 1 /\ p = slice u z /\ q = slice u w.
Proof.
  intros H. destruct (slice_exists p) as (u & U & E & V).
  destruct (Req_dec (vnorm (qvector p)) 0) as [Z|Z].
  - destruct (slice_exists q) as (u' & U' & E' & _).
    exists u', (mkC (qscalar p) 0), (mkC (qscalar q) (vnorm (qvector q))).
    split; [exact U'|]. split; [|exact E'].
    rewrite <- slice_real. rewrite E at 1. rewrite Z, <- slice_real. reflexivity.
  - set (n := vnorm (qvector p)) in *.
    exists u, (mkC (qscalar p) n), (mkC (qscalar q) (vdot u (qvector q))).
    split; [exact U|]. split; [exact E|].
    assert (X : vcross u (qvector q) = vzero 3).
    { rewrite E in H at 1. rewrite slice_vector in H. cbn [im] in H. rewrite vcross_mul_l in H.
      revert H. generalize (vcross u (qvector q)). intros w. destruct3 w. vcompute. rnum. intros H.
      injection H as H1 H2 H3. pairs ltac:(apply (Rmult_eq_reg_r n); [lra|exact Z]). }
    assert (Y : qvector q = vmul_s u (vdot u (qvector q))).
    { assert (T : vcross (vcross u (qvector q)) u = vzero 3).
      { rewrite X. destruct3 u. vcompute. rnum. pairs ltac:(ring). }
      apply unit_norm_iff in U. revert T U. generalize (qvector q). intros v. clear. destruct3 u; destruct3 v.
      vcompute. rnum. intros T U. injection T as T1 T2 T3.
      assert (G : forall r, r = r * (x * x + y * y + z * z)) by (intros r; replace (x * x + y * y + z * z) with 1 by lra; ring).
      pairs ltac:(idtac); [rewrite (G x0) at 1|rewrite (G y0) at 1|rewrite (G z0) at 1]; lra. }
    unfold slice. cbn [re im]. rewrite <- Y. apply quat_parts.
Qed.
Lemma qexp_add (p q : quat R) : vcross (qvector p) (qvector q) = vzero 3 ->
  qexp_eps (qadd p q) 0 = qmul (qexp_eps p 0) (qexp_eps q 0).
Proof.
  intros H. destruct (common_slice p q H) as (u & z & w & U & -> & ->).
  rewrite slice_add, !qexp_slice0, slice_mul, cexp_add by exact U. reflexivity.
Qed.

Lemma carg_acos z : im z <> 0 ->
  carg z = if Rlt_dec 0 (im z) then acos (re z / cnorm z) else - acos (re z / cnorm z).
Proof.
  intros N. destruct z as [x y]. cbn [re im] in *. unfold carg. cbn [re im].
  assert (P : 0 < cnorm (mkC x y)).
  { apply cnorm_pos. intros E. apply (f_equal im) in E. apply N. exact E. }
  destruct (ratan2_spec x y) as [C S]. destruct (ratan2_range x y) as [R1 R2].
  unfold cnorm, cmodulus_squared in *. cbn [re im] in *. rnum. set (n := sqrt (x * x + y * y)) in *.
  set (t := ratan2 y x) in *.
  assert (E : x / n = cos t) by (rewrite <- C; field; lra).
  rewrite E. destruct (Rlt_dec 0 y) as [L|L].
  - symmetry. apply acos_cos. split; [|exact R2].
    destruct (Rle_dec 0 t); [assumption|exfalso].
    assert (sin t < 0) by (apply sin_lt_0_var; lra). nra.
  - rewrite <- (cos_neg t). rewrite acos_cos; [ring|].
    split; [|lra]. destruct (Rle_dec t 0); [lra|exfalso].
    assert (0 <= sin t) by (apply sin_ge_0; lra). nra.
Qed.
Lemma qln_slice u z eps : vnorm u = 1 -> 0 <= eps -> eps < Rabs (im z) ->
  qln_eps (slice u z) eps = slice u (cln z).
Proof.
  intros H He D. pose proof (Rabs_pos (im z)) as P.
  assert (N : im z <> 0) by (apply Rabs_pos_nz; lra).
  assert (SQ : Rabs (im z) * Rabs (im z) = im z * im z) by (rewrite <- Rabs_mult; apply Rabs_right; nra).
  unfold qln_eps. cbv zeta. rewrite slice_vector, slice_scalar, sqrt_vns, sqrt_sq_abs, slice_norm by exact H.
  destruct (Rle_dec (im z * im z) (eps * eps)) as [L|L]; [exfalso; nra|].
  unfold cln, slice. cbn [re im]. f_equal. apply parts_odd. rewrite carg_acos by exact N.
  destruct (Rlt_dec 0 (im z)) as [Q|Q]; unfold Rabs; destruct (Rcase_abs (im z)); try lra; field; lra.
Qed.
Lemma qln_real x eps : qln_eps (qfrom_real x) eps = qfrom_real (ln (Rabs x)).
Proof.
  unfold qln_eps. cbv zeta. rewrite qvns_real.
  destruct (Rle_dec 0 (eps * eps)) as [L|L]; [reflexivity|]. exfalso. apply L, Rle_0_sqr.
Qed.
Lemma qreal_of_vec (q : quat R) : qvector q = vzero 3 -> q = qfrom_real (qscalar q).
Proof. intros H. rewrite (quat_parts q) at 1. rewrite H. reflexivity. Qed.

(** exp (ln q) = q away from the real axis, and on the positive half of it. *)
Lemma qexp_ln q eps : 0 <= eps -> eps < vnorm (qvector q) -> eps < acos (qscalar q / qnorm q) ->
  qexp_eps (qln_eps q eps) eps = q.
Proof.
  intros He Hv Ha. destruct (slice_exists q) as (u & U & E & _). 
  set (z := mkC (qscalar q) (vnorm (qvector q))) in *.
  assert (A : Rabs (im z) = im z) by (apply Rabs_right; cbn; lra).
  assert (N : im z <> 0) by (cbn; lra).
  assert (Q : qnorm q = cnorm z) by (rewrite E; apply slice_norm, U).
  assert (G : carg z = acos (qscalar q / qnorm q)).
  { rewrite carg_acos by exact N. destruct (Rlt_dec 0 (im z)) as [_|B]; [rewrite Q; reflexivity|].
    exfalso. apply B. cbn. lra. }
  rewrite E at 1. rewrite qln_slice by (try assumption; rewrite A; cbn; lra).
  rewrite qexp_slice; [|exact U|exact He|].
  - rewrite cexp_ln; [symmetry; exact E|]. intros Z. apply N. rewrite Z. reflexivity.
  - right. cbn [cln im]. rewrite G, Rabs_right; [exact Ha|]. pose proof (acos_bound (qscalar q / qnorm q)). lra.
Qed.
Lemma qexp_ln_real x eps : 0 < x -> qexp_eps (qln_eps (qfrom_real x) eps) eps = qfrom_real x.
Proof.
  intros H. rewrite qln_real, qexp_real, Rabs_right by lra. rewrite exp_ln by exact H. reflexivity.
Qed.
Lemma qexp_ln_neg x eps : x < 0 -> qexp_eps (qln_eps (qfrom_real x) eps) eps = qfrom_real (- x).
Proof.
  intros H. rewrite qln_real, qexp_real, Rabs_left by lra. rewrite exp_ln by lra. reflexivity.
Qed.
Lemma acos_pos_nonreal (q : quat R) : 0 < vnorm (qvector q) -> 0 < acos (qscalar q / qnorm q).
Proof.
  intros Hv.
  assert (P : 0 < qnorm q).
  { apply qnorm_pos. intros E. rewrite E in Hv. rewrite (proj2 (vnorm_zero 3 _)) in Hv; [lra|]. reflexivity. }
  destruct (acos_bound (qscalar q / qnorm q)) as [B _]. destruct B as [B|B]; [exact B|exfalso].
  pose proof (qns_parts q) as E. rewrite <- qnorm_sq in E.
  assert (R1 : -1 <= qscalar q / qnorm q <= 1).
  { split.
    - apply Rmult_le_reg_r with (qnorm q); [exact P|]. unfold Rdiv. rewrite Rmult_assoc, Rinv_l by lra. nra.
    - apply Rmult_le_reg_r with (qnorm q); [exact P|]. unfold Rdiv. rewrite Rmult_assoc, Rinv_l by lra. nra. }
  assert (C : cos (acos (qscalar q / qnorm q)) = qscalar q / qnorm q) by (apply cos_acos; exact R1).
  rewrite <- B, cos_0 in C.
  assert (S : qscalar q = qnorm q) by (apply (Rmult_eq_reg_r (/ qnorm q)); [rewrite Rinv_r by lra; symmetry; exact C|]; apply Rinv_neq_0_compat; lra).
  rewrite S in E. nra.
Qed.
(** With the ideal threshold zero: every quaternion except the non-positive reals. *)
Lemma qexp_ln0 q : qvector q <> vzero 3 \/ 0 < qscalar q -> qexp_eps (qln_eps q 0) 0 = q.
Proof.
  intros H. destruct (Req_dec (vnorm (qvector q)) 0) as [Z|Z].
  - apply vnorm_zero in Z. destruct H as [H|H]; [contradiction|].
    rewrite (qreal_of_vec q Z). apply qexp_ln_real. exact H.
  - pose proof (vnorm_nonneg _ (qvector q)). apply qexp_ln; [lra|lra|]. apply acos_pos_nonreal. lra.
Qed.
(** ln (exp q) = q for vector parts shorter than pi. *)
Lemma qln_exp0 q : vnorm (qvector q) < PI -> qln_eps (qexp_eps q 0) 0 = q.
Proof.
  intros Hv. destruct (slice_exists q) as (u & U & E & _).
  pose proof (vnorm_nonneg _ (qvector q)) as P.
  destruct (Req_dec (vnorm (qvector q)) 0) as [Z|Z].
  - apply vnorm_zero in Z. rewrite (qreal_of_vec q Z), qexp_real, qln_real.
    rewrite Rabs_right by (pose proof (exp_pos (qscalar q)); lra). rewrite ln_exp. reflexivity.
  - rewrite E at 1. rewrite qexp_slice0 by exact U. rewrite qln_slice; [|exact U|lra|].
    + rewrite cln_exp by (cbn [im]; lra). symmetry. exact E.
    + unfold cexp. cbn [re im]. apply Rabs_pos_lt. apply Rmult_integral_contrapositive.
      split; [apply Rgt_not_eq, exp_pos|]. apply Rgt_not_eq, sin_gt_0; lra.
Qed.

(** ** powf (ideal threshold zero unless stated) *)
Lemma qpowf_add q a b : qpowf_eps q (a + b) 0 = qmul (qpowf_eps q a 0) (qpowf_eps q b 0).
Proof.
  unfold qpowf_eps. destruct (slice_exists (qln_eps q 0)) as (u & U & E & _). rewrite E.
  set (w := mkC _ _). rewrite !slice_scale, !qexp_slice0, slice_mul, <- cexp_add by exact U.
  do 2 f_equal. unfold cmul_s, cadd. rnum. apply complex_eq; cbn [re im]; ring.
Qed.
Lemma qscale_1R (q : quat R) : qscale q 1 = q.
Proof. exact (qscale_1 q). Qed.
Lemma qpowf_1_eps q eps : 0 <= eps -> eps < vnorm (qvector q) -> eps < acos (qscalar q / qnorm q) ->
  qpowf_eps q 1 eps = q.
Proof. intros. unfold qpowf_eps. rewrite qscale_1R. apply qexp_ln; assumption. Qed.
Lemma qpowf_1 q : qvector q <> vzero 3 \/ 0 < qscalar q -> qpowf_eps q 1 0 = q.
Proof. intros. unfold qpowf_eps. rewrite qscale_1R. apply qexp_ln0; assumption. Qed.
Lemma qpowf_0 q : qpowf_eps q 0 0 = qidentity.
Proof.
  unfold qpowf_eps.
  assert (E : qscale (qln_eps q 0) 0 = qfrom_real 0).
  { generalize (qln_eps q 0). intros p. destruct4 p. qrcompute. pairs ltac:(ring). }
  rewrite E, qexp_real, exp_0. reflexivity.
Qed.
Lemma qln_scalar q : qscalar (qln_eps q 0) = ln (qnorm q).
Proof.
  destruct (Req_dec (vnorm (qvector q)) 0) as [Z|Z].
  - apply vnorm_zero in Z. rewrite (qreal_of_vec q Z), qln_real, qnorm_real. reflexivity.
  - destruct (slice_exists q) as (u & U & E & _). rewrite E.
    pose proof (vnorm_nonneg _ (qvector q)).
    rewrite qln_slice, slice_norm; [reflexivity|exact U|exact U|lra|].
    cbn [im]. rewrite Rabs_right; lra.
Qed.
Lemma qpowf_norm q a : qnorm (qpowf_eps q a 0) = Rpower (qnorm q) a.
Proof.
  unfold qpowf_eps. rewrite qexp_norm. unfold Rpower. f_equal.
  transitivity (qscalar (qln_eps q 0) * a); [reflexivity|]. rewrite qln_scalar. ring.
Qed.

(** ** sqrt *)
Lemma csqrt_closed z : im z <> 0 ->
  let n := cnorm z in let c := sqrt (1 / (1 + 1) / (n + re z)) in
  mkC ((n + re z) * c) (im z * c) = csqrt z.
Proof.
  intros N n c. pose proof (cnorm_sq z) as S. rewrite cms_R in S. fold n in S.
  pose proof (cnorm_nonneg z) as P. fold n in P.
  assert (A : 0 < n + re z) by nra.
  assert (Q : 0 < 1 / (1 + 1) / (n + re z)) by (apply Rdiv_lt_0_compat; lra).
  assert (Pc : 0 < c) by (apply sqrt_lt_R0, Q).
  assert (CC : c * c = 1 / (1 + 1) / (n + re z)) by (apply sqrt_sq_pos; lra).
  assert (W : cmul (mkC ((n + re z) * c) (im z * c)) (mkC ((n + re z) * c) (im z * c)) = z).
  { apply complex_eq; cbn [cmul re im]; rnum.
    - transitivity (((n + re z) * (n + re z) - im z * im z) * (c * c)); [ring|]. rewrite CC.
      replace ((n + re z) * (n + re z) - im z * im z) with (2 * re z * (n + re z)) by nra. field. lra.
    - transitivity (2 * (n + re z) * im z * (c * c)); [ring|]. rewrite CC. field. lra. }
  destruct (csqrt_unique _ _ W) as [E|E]; [exact E|exfalso].
  apply (f_equal re) in E. cbn [re cneg] in E. rnum.
  pose proof (csqrt_re_nonneg z). nra.
Qed.
Lemma qsqrt_slice u z eps : vnorm u = 1 -> 0 <= eps -> eps < Rabs (im z) ->
  qsqrt_eps (slice u z) eps = slice u (csqrt z).
Proof.
  intros H He D. pose proof (Rabs_pos (im z)) as P.
  assert (N : im z <> 0) by (apply Rabs_pos_nz; lra).
  assert (SQ : Rabs (im z) * Rabs (im z) = im z * im z) by (rewrite <- Rabs_mult; apply Rabs_right; nra).
  unfold qsqrt_eps. cbv zeta. rewrite slice_vector, slice_scalar, sqrt_vns, slice_ns by exact H.
  destruct (Rle_dec (cmodulus_squared z) (eps * eps)) as [L|L]; [exfalso; rewrite cms_R in L; nra|].
  destruct (Rle_dec (im z * im z) (eps * eps)) as [L'|L']; [exfalso; nra|].
  rewrite <- (csqrt_closed z N). unfold slice. cbn [re im]. fold (cnorm z). f_equal.
  apply parts_odd. reflexivity.
Qed.
Lemma qsqrt_zero eps : 0 <= eps -> qsqrt_eps qzero eps = qzero.
Proof.
  intros He. unfold qsqrt_eps. cbv zeta. destruct (Rle_dec _ _) as [L|L]; [reflexivity|].
  exfalso. apply L. rewrite (proj2 (qns_zero qzero) eq_refl). nra.
Qed.
Lemma qsqrt_real x eps : 0 <= eps -> eps < Rabs x ->
  qsqrt_eps (qfrom_real x) eps =
  if Rgt_dec x 0 then qfrom_real (sqrt x) else qfrom_pure (v3 (sqrt (- x)) 0 0).
Proof.
  intros He Hx. unfold qsqrt_eps. cbv zeta. rewrite <- qnorm_sq, qnorm_real.
  destruct (Rle_dec _ _) as [L|L]; [exfalso; nra|].
  rewrite qvns_real. destruct (Rle_dec 0 (eps * eps)) as [L'|L']; [|exfalso; apply L', Rle_0_sqr].
  rewrite sqrt_square by apply Rabs_pos. change (qscalar (qfrom_real x)) with x.
  unfold Rabs in *. destruct (Rgt_dec x 0), (Rcase_abs x); try lra; reflexivity.
Qed.
Lemma qsqrt_sq q eps : 0 <= eps -> (q = qzero \/ eps < qnorm q) ->
  (qvector q = vzero 3 \/ eps < vnorm (qvector q)) ->
  qmul (qsqrt_eps q eps) (qsqrt_eps q eps) = q /\ 0 <= qscalar (qsqrt_eps q eps).
Proof.
  intros He Hq Hv. destruct Hq as [-> |Hq].
  { rewrite qsqrt_zero by exact He. rewrite qmul_0_l. split; [reflexivity|]. cbn. lra. }
  destruct Hv as [Z|Hv].
  - rewrite (qreal_of_vec q Z) in *. set (x := qscalar q) in *. clearbody x.
    rewrite qnorm_real in Hq. rewrite qsqrt_real by assumption.
    unfold Rabs in Hq. destruct (Rgt_dec x 0) as [G|G], (Rcase_abs x); try lra.
    + assert (S : sqrt x * sqrt x = x) by (apply sqrt_sq_pos; lra).
      pose proof (sqrt_pos x). split; [|exact H].
      revert S. generalize (sqrt x). intros s S. qrcompute. pairs ltac:(lra).
    + assert (S : sqrt (- x) * sqrt (- x) = - x) by (apply sqrt_sq_pos; lra).
      revert S. generalize (sqrt (- x)). intros s S. split; [|cbn; lra]. qrcompute. pairs ltac:(lra).
  - destruct (slice_exists q) as (u & U & E & _). rewrite E.
    pose proof (vnorm_nonneg _ (qvector q)).
    rewrite qsqrt_slice; [|exact U|exact He|cbn [im]; rewrite Rabs_right; lra].
    rewrite slice_mul, csqrt_sq by exact U. split; [reflexivity|]. apply csqrt_re_nonneg.
Qed.

(** ** Polar decomposition *)
Lemma unit_try_q (q : quat R) t : 0 <= t -> t < qnorm q ->
  unit_try_from_value_with_norm normed_quat q t = Some (qnormalize q, qnorm q).
Proof.
  intros Ht H. unfold unit_try_from_value_with_norm. cbn [nm_norm_squared nm_normalize nm_norm normed_quat].
  destruct (Rgt_dec (qnorm_squared q) (t * t)) as [G|G].
  - rewrite <- (qnorm_sq q), sqrt_square by apply qnorm_nonneg. reflexivity.
  - exfalso. apply G. rewrite <- qnorm_sq. nra.
Qed.
Lemma qnormalize_parts q : qnormalize q = qfrom_parts (qscalar q * (1 / qnorm q)) (vmul_s (qvector q) (1 / qnorm q)).
Proof.
  unfold qnormalize, vnormalize. change (vnorm (q : vec R 4)) with (qnorm q). generalize (1 / qnorm q). intros i.
  destruct4 q. reflexivity.
Qed.
Lemma qnorm_ge_parts q : Rabs (qscalar q) <= qnorm q /\ vnorm (qvector q) <= qnorm q.
Proof.
  pose proof (qns_parts q) as E. rewrite <- qnorm_sq in E. pose proof (qnorm_nonneg q).
  pose proof (vnorm_nonneg _ (qvector q)). split; [|nra].
  apply Rsqr_incr_0_var; [|assumption]. unfold Rsqr. rewrite <- Rabs_mult, Rabs_right by nra. nra.
Qed.
Lemma qpolar_value q : qvector q <> vzero 3 ->
  qpolar_decomposition q =
  (qnorm q, ratan2 (vnorm (qvector q) / qnorm q) (Rabs (qscalar q) / qnorm q), Some (vnormalize (qvector q))).
Proof.
  intros N. pose proof (vnorm_pos _ _ N) as Pv. destruct (qnorm_ge_parts q) as [_ G].
  unfold qpolar_decomposition. rewrite unit_try_q by lra. rewrite unit_try_some by lra.
  rewrite qnormalize_parts. rewrite qvector_parts. change (qscalar (qfrom_parts ?a ?b)) with a.
  rewrite vnorm_mul. assert (I : 0 < 1 / qnorm q) by (apply Rdiv_lt_0_compat; lra).
  replace (Rabs (qscalar q * (1 / qnorm q))) with (Rabs (qscalar q) / qnorm q).
  2:{ rewrite Rabs_mult, (Rabs_right (1 / qnorm q)) by lra. field. lra. }
  replace (vnorm (qvector q) * Rabs (1 / qnorm q)) with (vnorm (qvector q) / qnorm q).
  2:{ rewrite (Rabs_right (1 / qnorm q)) by lra. field. lra. }
  reflexivity.
Qed.
(** The angle t of the decomposition satisfies cos t = |s|/|q|, sin t = |v|/|q|, 0 < t <= pi/2. *)
Lemma qpolar_angle q : qvector q <> vzero 3 ->
  exists t, qpolar_decomposition q = (qnorm q, t, Some (vnormalize (qvector q))) /\
    0 < t <= PI / 2 /\ qnorm q * cos t = Rabs (qscalar q) /\ qnorm q * sin t = vnorm (qvector q).
Proof.
  intros N. pose proof (vnorm_pos _ _ N) as Pv. destruct (qnorm_ge_parts q) as [G' G].
  eexists. split; [apply qpolar_value, N|].
  set (y := vnorm (qvector q) / qnorm q). set (x := Rabs (qscalar q) / qnorm q).
  assert (U : x * x + y * y = 1).
  { unfold x, y. pose proof (qns_parts q) as E. rewrite <- qnorm_sq in E.
    assert (A : Rabs (qscalar q) * Rabs (qscalar q) = qscalar q * qscalar q)
      by (rewrite <- Rabs_mult; apply Rabs_right; nra).
    transitivity ((Rabs (qscalar q) * Rabs (qscalar q) + vnorm (qvector q) * vnorm (qvector q)) / (qnorm q * qnorm q));
      [field; lra|]. rewrite A, <- E. field. lra. }
  destruct (ratan2_spec x y) as [C S]. rewrite U, sqrt_1 in C, S.
  destruct (ratan2_range x y) as [R1 R2]. pose proof PI_RGT_0.
  assert (Py : 0 < y) by (unfold y; apply Rdiv_lt_0_compat; lra).
  assert (Px : 0 <= x).
  { unfold x. apply Rmult_le_pos; [apply Rabs_pos|]. left. apply Rinv_0_lt_compat. lra. }
  split; [|split].
  - split.
    + destruct (Rlt_dec 0 (ratan2 y x)); [assumption|exfalso].
      destruct (Req_dec (ratan2 y x) 0) as [Z|Z]; [rewrite Z, sin_0 in S; lra|].
      assert (sin (ratan2 y x) < 0) by (apply sin_lt_0_var; lra). lra.
    + destruct (Rle_dec (ratan2 y x) (PI / 2)); [assumption|exfalso].
      assert (cos (ratan2 y x) < 0) by (apply cos_lt_0; lra). lra.
  - replace (cos (ratan2 y x)) with x by lra. unfold x. field. lra.
  - replace (sin (ratan2 y x)) with y by lra. unfold y. field. lra.
Qed.
Lemma qpolar_zero : qpolar_decomposition qzero = (0, 0, None).
Proof.
  unfold qpolar_decomposition, unit_try_from_value_with_norm. cbn [nm_norm_squared normed_quat].
  rewrite (proj2 (qns_zero qzero) eq_refl). destruct (Rgt_dec 0 (0 * 0)); [lra|reflexivity].
Qed.
Lemma qpolar_real x : x <> 0 -> qpolar_decomposition (qfrom_real x) = (Rabs x, 0, None).
Proof.
  intros H. unfold qpolar_decomposition. rewrite unit_try_q; [|lra|].
  - rewrite unit_try_none; [rewrite qnorm_real; reflexivity|lra|].
    right. apply vnorm_zero. unfold qfrom_real. apply qvector_parts.
  - rewrite qnorm_real. apply Rabs_pos_lt, H.
Qed.
(** The round trip through [from_polar_decomposition] never returns the quaternion. *)
Lemma qpolar_roundtrip_never q r t a : qvector q <> vzero 3 ->
  qpolar_decomposition q = (r, t, Some a) -> qfrom_polar_decomposition r t a <> q.
Proof.
  intros N E. destruct (qpolar_angle q N) as (t' & E' & R0 & C & S). rewrite E in E'.
  injection E' as -> -> ->. intros X.
  pose proof (vnorm_pos _ _ N) as Pv. destruct (qnorm_ge_parts q) as [_ G].
  assert (V : vnorm (qvector q) = qnorm q * Rabs (sin (t' / (1 + 1)))).
  { rewrite <- X at 1. unfold qfrom_polar_decomposition. cbv zeta. rewrite qvector_parts, !vnorm_mul.
    rewrite vnormalize_norm by exact N. rewrite (Rabs_right (qnorm q)) by lra. ring. }
  set (h := t' / (1 + 1)) in *. replace t' with (h + h) in * by (unfold h; field).
  pose proof PI_RGT_0.
  assert (Sh : 0 < sin h) by (apply sin_gt_0; lra).
  rewrite Rabs_right in V by lra. rewrite sin_plus in S. rewrite cos_plus in C.
  pose proof (Rabs_pos (qscalar q)) as A. pose proof (sin2_cos2R h) as SC.
  assert (Q : qnorm q * (sin h * (2 * cos h - 1)) = 0) by lra.
  apply Rmult_integral in Q. destruct Q as [Q|Q]; [lra|].
  apply Rmult_integral in Q. destruct Q as [Q|Q]; [lra|].
  assert (K : cos h = 1 / 2) by lra. rewrite K in *.
  assert (qnorm q * (1 / 2 * (1 / 2) - sin h * sin h) < 0); [|lra].
  assert (1 / 2 * (1 / 2) - sin h * sin h < 0) by lra. nra.
Qed.
(** Doubling the angle gives the quaternion with the absolute value of the scalar part. *)
Lemma qpolar_double q r t a : qvector q <> vzero 3 ->
  qpolar_decomposition q = (r, t, Some a) ->
  qfrom_polar_decomposition r (2 * t) a = qfrom_parts (Rabs (qscalar q)) (qvector q).
Proof.
  intros N E. destruct (qpolar_angle q N) as (t' & E' & R0 & C & S). rewrite E in E'.
  injection E' as -> -> ->. unfold qfrom_polar_decomposition. cbv zeta.
  replace (2 * t' / (1 + 1)) with t' by field. f_equal; [rewrite <- C; ring|].
  rewrite <- (vnormalize_back _ _ N) at 2. rewrite <- S. generalize (vnormalize (qvector q)). intros v.
  destruct3 v. vcompute. rnum. pairs ltac:(ring).
Qed.
Lemma qfrom_polar_norm r t a : 0 <= r -> vnorm a = 1 -> qnorm (qfrom_polar_decomposition r t a) = r.
Proof.
  intros Hr Ha. unfold qfrom_polar_decomposition. cbv zeta. apply qnorm_by_sq; [exact Hr|].
  apply unit_norm_iff in Ha. rewrite qnorm_squared_parts, !vdot_mul_l, !vdot_mul_r, Ha. rnum.
  pose proof (sin2_cos2R (t / (1 + 1))). set (s := sin _) in *. set (c := cos _) in *.
  assert (K : c * c = 1 - s * s) by lra. ring [K].
Qed.
Lemma qfrom_polar_axis_angle t a : qfrom_polar_decomposition 1 t a = qfrom_axis_angle a t.
Proof.
  unfold qfrom_polar_decomposition, qfrom_axis_angle. cbv zeta.
  replace (t / (1 + 1)) with (t * (1 / (1 + 1))) by field.
  f_equal; [ring|]. destruct3 a. vcompute. rnum. pairs ltac:(ring).
Qed.

(** ** nlerp and slerp *)
Lemma qnormalize_norm q : q <> qzero -> qnorm (qnormalize q) = 1.
Proof. exact (vnormalize_norm 4 q). Qed.
Lemma qnormalize_unit q : qnorm q = 1 -> qnormalize q = q.
Proof. exact (vnormalize_unit 4 q). Qed.
Lemma qdot_comm (p q : quat R) : qdot p q = qdot q p.
Proof. exact (vdot_comm 4 p q). Qed.
Lemma qdot_comb (p q : quat R) a b c d :
  qdot (qadd (qscale p a) (qscale q b)) (qadd (qscale p c) (qscale q d)) =
  qnorm_squared p * (a * c) + qdot p q * (a * d + b * c) + qnorm_squared q * (b * d).
Proof. destruct4 p; destruct4 q. qrcompute. ring. Qed.
Lemma qdot_unit_eq (p q : quat R) : qnorm p = 1 -> qnorm q = 1 -> qdot p q = 1 -> p = q.
Proof.
  intros Hp Hq D. apply qsub_zero, qns_zero. apply qnorm_unit_iff in Hp. apply qnorm_unit_iff in Hq.
  transitivity (qnorm_squared p + qnorm_squared q - 2 * qdot p q); [|rewrite Hp, Hq, D; ring].
  clear. destruct4 p; destruct4 q. qrcompute. ring.
Qed.
Lemma qdot_neg_l (p q : quat R) : qdot (qneg p) q = - qdot p q.
Proof. destruct4 p; destruct4 q. qrcompute. ring. Qed.
Lemma qdot_bound (p q : quat R) : qnorm p = 1 -> qnorm q = 1 -> -1 <= qdot p q <= 1.
Proof.
  intros Hp Hq. pose proof (cauchy_schwarz 4 p q) as C. change (vnorm (p : vec R 4)) with (qnorm p) in C.
  change (vnorm (q : vec R 4)) with (qnorm q) in C. rewrite Hp, Hq in C. change (vdot (p : vec R 4) q) with (qdot p q) in C.
  unfold Rabs in C. destruct (Rcase_abs (qdot p q)); lra.
Qed.
Lemma qlerp_nz (p q : quat R) t : qnorm p = 1 -> qnorm q = 1 -> (p <> qneg q \/ t <> 1 / 2) ->
  qadd (qscale p (1 - t)) (qscale q t) <> qzero.
Proof.
  intros Hp Hq N E. apply (f_equal qnorm_squared) in E. rewrite (proj2 (qns_zero qzero) eq_refl) in E.
  change (qdot (qadd (qscale p (1 - t)) (qscale q t)) (qadd (qscale p (1 - t)) (qscale q t)) = 0) in E.
  rewrite qdot_comb in E. pose proof (qdot_bound p q Hp Hq) as B.
  apply qnorm_unit_iff in Hp as Up. apply qnorm_unit_iff in Hq as Uq. rewrite Up, Uq in E.
  set (c := qdot p q) in *.
  assert (F : (1 - 2 * t) * (1 - 2 * t) + 2 * (t * (1 - t)) * (1 + c) = 0) by lra.
  assert (G : (1 - 2 * t) * (1 - 2 * t) = 1 - 4 * (t * (1 - t))) by ring.
  assert (T : t = 1 / 2).
  { destruct (Req_dec t (1 / 2)) as [T|T]; [exact T|exfalso].
    assert (0 < (1 - 2 * t) * (1 - 2 * t)) by nra.
    destruct (Rle_dec 0 (t * (1 - t))) as [L|L]; nra. }
  assert (C : c = -1) by (rewrite T in F; lra).
  destruct N as [N|N]; [|contradiction]. apply N. apply qdot_unit_eq; [exact Hp|rewrite qnorm_neg; exact Hq|].
  rewrite qdot_comm, qdot_neg_l, qdot_comm. fold c. lra.
Qed.
Lemma qnlerp_unit (p q : quat R) t : qnorm p = 1 -> qnorm q = 1 -> (p <> qneg q \/ t <> 1 / 2) ->
  qnorm (qnlerp p q t) = 1.
Proof. intros. apply qnormalize_norm, qlerp_nz; assumption. Qed.
Lemma qnlerp_dir (p q : quat R) t : qnorm p = 1 -> qnorm q = 1 -> (p <> qneg q \/ t <> 1 / 2) ->
  exists c, 0 < c /\ forall i, (i < 4)%nat ->
    vat (qnlerp p q t : vec R 4) i = c * ((1 - t) * vat (p : vec R 4) i + t * vat (q : vec R 4) i).
Proof.
  intros Hp Hq N. set (w := qadd (qscale p (1 - t)) (qscale q t)).
  assert (W : 0 < qnorm w) by (apply qnorm_pos, (qlerp_nz p q t Hp Hq N)).
  exists (1 / qnorm w). split; [apply Rdiv_lt_0_compat; lra|]. intros i Hi. unfold qnlerp. fold w. unfold qnormalize, vnormalize. change (vnorm (w : vec R 4)) with (qnorm w).
  set (k := 1 / qnorm w). unfold w. destruct4 p; destruct4 q. destruct i as [|[|[|[|i]]]]; [| | | |lia]; qrcompute; ring.
Qed.
Lemma qcomb_ends (p q : quat R) : qadd (qscale p 1) (qscale q 0) = p /\ qadd (qscale p 0) (qscale q 1) = q.
Proof. destruct4 p; destruct4 q. qrcompute. split; pairs ltac:(ring). Qed.
Lemma qnlerp_ends (p q : quat R) : qnorm p = 1 -> qnorm q = 1 -> qnlerp p q 0 = p /\ qnlerp p q 1 = q.
Proof.
  intros Hp Hq. unfold qnlerp. destruct (qcomb_ends p q) as [A B].
  replace (1 - 0) with 1 by ring. replace (1 - 1) with 0 by ring.
  rewrite A, B, !qnormalize_unit by assumption. auto.
Qed.

Definition slerp_start (p q : quat R) : quat R := if Rlt_dec (qdot p q) 0 then qneg p else p.
Lemma slerp_start_spec p q : qnorm p = 1 -> qnorm q = 1 ->
  qnorm (slerp_start p q) = 1 /\ qdot (slerp_start p q) q = Rabs (qdot p q) /\
  0 <= qdot (slerp_start p q) q <= 1.
Proof.
  intros Hp Hq. pose proof (qdot_bound p q Hp Hq) as B. unfold slerp_start.
  destruct (Rlt_dec (qdot p q) 0) as [L|L].
  - rewrite qnorm_neg, qdot_neg_l, Rabs_left by exact L. repeat split; lra.
  - rewrite Rabs_right by lra. repeat split; lra.
Qed.
Definition slerp_formula (p q : quat R) (t : R) : quat R :=
  let th := acos (qdot p q) in
  qadd (qscale p (sin ((1 - t) * th) / sin th)) (qscale q (sin (t * th) / sin th)).
Lemma qslerp_cases p q t thr : qnorm p = 1 -> qnorm q = 1 ->
  let p' := slerp_start p q in let c := Rabs (qdot p q) in
  (c = 1 -> qslerp_eps p q t thr = p' /\ p' = q) /\
  (c < 1 -> sqrt (1 - c * c) < thr -> qslerp_eps p q t thr = qnlerp p' q t) /\
  (c < 1 -> thr <= sqrt (1 - c * c) -> qslerp_eps p q t thr = slerp_formula p' q t).
Proof.
  intros Hp Hq p' c. destruct (slerp_start_spec p q Hp Hq) as (U & D & B). fold p' in U, D, B. fold c in D.
  unfold qslerp_eps. cbv zeta. fold (slerp_start p q). fold p'. rewrite D in *.
  rewrite (Rabs_right c) by lra. split; [|split].
  - intros E. destruct (Rge_dec c 1) as [G|G]; [|lra]. split; [reflexivity|].
    apply qdot_unit_eq; try assumption. lra.
  - intros L T. destruct (Rge_dec c 1) as [G|G]; [lra|].
    rewrite (Rabs_right (sqrt _)) by (apply Rle_ge, sqrt_pos).
    destruct (Rlt_dec _ thr); [reflexivity|contradiction].
  - intros L T. destruct (Rge_dec c 1) as [G|G]; [lra|].
    rewrite (Rabs_right (sqrt _)) by (apply Rle_ge, sqrt_pos).
    destruct (Rlt_dec _ thr); [lra|]. unfold slerp_formula. rewrite D. cbv zeta.
    rewrite sin_acos by lra. unfold Rsqr. reflexivity.
Qed.
Lemma slerp_formula_dot p q s t : qnorm p = 1 -> qnorm q = 1 -> 0 <= qdot p q < 1 ->
  qdot (slerp_formula p q s) (slerp_formula p q t) = cos ((s - t) * acos (qdot p q)).
Proof.
  intros Hp Hq B. apply qnorm_unit_iff in Hp. apply qnorm_unit_iff in Hq.
  unfold slerp_formula. cbv zeta. rewrite qdot_comb, Hp, Hq.
  set (th := acos (qdot p q)). assert (C : cos th = qdot p q) by (apply cos_acos; lra).
  assert (S : sin th <> 0).
  { intros E. pose proof (sin2_cos2R th) as SC. rewrite E, C in SC. nra. }
  replace ((1 - s) * th) with (th - s * th) by ring. replace ((1 - t) * th) with (th - t * th) by ring.
  replace ((s - t) * th) with (s * th - t * th) by ring.
  rewrite !sin_minus, cos_minus, <- C.
  pose proof (sin2_cos2R th) as SC.
  assert (CC : cos th * cos th = 1 - sin th * sin th) by lra.
  revert S SC CC. generalize (sin th) (cos th) (sin (s * th)) (cos (s * th)) (sin (t * th)) (cos (t * th)).
  clear. intros S C s1 c1 s2 c2 N _ CC.
  apply (Rmult_eq_reg_l (S * S)); [|nra].
  transitivity ((S * c1 - C * s1) * (S * c2 - C * s2) + C * ((S * c1 - C * s1) * s2 + s1 * (S * c2 - C * s2)) + s1 * s2);
    [field; exact N|ring [CC]].
Qed.
Lemma slerp_formula_ends p q : qnorm p = 1 -> qnorm q = 1 -> 0 <= qdot p q < 1 ->
  slerp_formula p q 0 = p /\ slerp_formula p q 1 = q.
Proof.
  intros Hp Hq B. unfold slerp_formula. cbv zeta. set (th := acos (qdot p q)).
  assert (C : cos th = qdot p q) by (apply cos_acos; lra).
  assert (S : sin th <> 0).
  { intros E. pose proof (sin2_cos2R th) as SC. rewrite E, C in SC. nra. }
  replace ((1 - 0) * th) with th by ring. replace (0 * th) with 0 by ring.
  replace ((1 - 1) * th) with 0 by ring. replace (1 * th) with th by ring. rewrite sin_0.
  replace (sin th / sin th) with 1 by (field; exact S). replace (0 / sin th) with 0 by (field; exact S).
  apply qcomb_ends.
Qed.
Lemma qslerp_spec p q thr : qnorm p = 1 -> qnorm q = 1 ->
  (forall t, qnorm (qslerp_eps p q t thr) = 1) /\
  qslerp_eps p q 1 thr = q /\
  (0 <= qdot p q -> qslerp_eps p q 0 thr = p) /\
  (qdot p q < 0 -> qslerp_eps p q 0 thr = qneg p).
Proof.
  intros Hp Hq. destruct (slerp_start_spec p q Hp Hq) as (U & D & B).
  assert (Z : slerp_start p q <> qneg q).
  { intros E. rewrite E in D. rewrite qdot_neg_l in D. apply qnorm_unit_iff in Hq.
    change (qdot q q) with (qnorm_squared q) in D. rewrite Hq in D. pose proof (Rabs_pos (qdot p q)). lra. }
  rewrite D in B.
  assert (T : Rabs (qdot p q) = 1 \/ Rabs (qdot p q) < 1) by lra.
  assert (K : (forall t, qnorm (qslerp_eps p q t thr) = 1) /\ qslerp_eps p q 1 thr = q /\
    qslerp_eps p q 0 thr = slerp_start p q).
  { pose proof (fun t => qslerp_cases p q t thr Hp Hq) as X. cbv zeta in X.
    destruct T as [T|T].
    - split; [intros t|split].
      + destruct (X t) as (A & _). destruct (A T) as [-> _]. exact U.
      + destruct (X 1) as (A & _). destruct (A T) as [-> E]. exact E.
      + destruct (X 0) as (A & _). destruct (A T) as [-> _]. reflexivity.
    - destruct (Rlt_dec (sqrt (1 - Rabs (qdot p q) * Rabs (qdot p q))) thr) as [L|L].
      + destruct (qnlerp_ends _ _ U Hq) as [E0 E1]. split; [intros t|split].
        * destruct (X t) as (_ & A & _). rewrite (A T L). apply qnlerp_unit; auto.
        * destruct (X 1) as (_ & A & _). rewrite (A T L). exact E1.
        * destruct (X 0) as (_ & A & _). rewrite (A T L). exact E0.
      + assert (L' : thr <= sqrt (1 - Rabs (qdot p q) * Rabs (qdot p q))) by lra.
        assert (B' : 0 <= qdot (slerp_start p q) q < 1) by (rewrite D; lra).
        destruct (slerp_formula_ends _ _ U Hq B') as [E0 E1]. split; [intros t|split].
        * destruct (X t) as (_ & _ & A). rewrite (A T L'). apply qnorm_unit_iff.
          change (qdot (slerp_formula (slerp_start p q) q t) (slerp_formula (slerp_start p q) q t) = 1).
          rewrite slerp_formula_dot by assumption. replace ((t - t) * _) with 0 by ring. apply cos_0.
        * destruct (X 1) as (_ & _ & A). rewrite (A T L'). exact E1.
        * destruct (X 0) as (_ & _ & A). rewrite (A T L'). exact E0. }
  destruct K as (K1 & K2 & K3). split; [exact K1|]. split; [exact K2|]. rewrite K3. unfold slerp_start.
  destruct (Rlt_dec (qdot p q) 0); split; intros; try reflexivity; lra.
Qed.
(** Constant angular speed outside the linear fallback. *)
Lemma qslerp_speed p q thr s t : qnorm p = 1 -> qnorm q = 1 ->
  Rabs (qdot p q) < 1 -> thr <= sqrt (1 - Rabs (qdot p q) * Rabs (qdot p q)) ->
  qdot (qslerp_eps p q s thr) (qslerp_eps p q t thr) = cos ((s - t) * acos (Rabs (qdot p q))).
Proof.
  intros Hp Hq B L. destruct (slerp_start_spec p q Hp Hq) as (U & D & _).
  destruct (qslerp_cases p q s thr Hp Hq) as (_ & _ & A). destruct (qslerp_cases p q t thr Hp Hq) as (_ & _ & A').
  rewrite (A B L), (A' B L), slerp_formula_dot; rewrite ?D; try assumption; [reflexivity|].
  pose proof (Rabs_pos (qdot p q)). lra.
Qed.
