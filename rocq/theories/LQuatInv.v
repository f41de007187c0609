(** Inverse trigonometric and hyperbolic functions of quaternions, with the ideal threshold zero. *)

From Coq Require Import List Arith Lia Bool Reals Lra Psatz Ring.
From Verif Require Import Base Scalar Spec SpecRot LBase MVector LVector LVectorR MMatrix LMatrix
  LMatrixDet LMatrixR LMatrixM MPoint MReal LReal MAngle MMisc LMisc MComplex LComplex LComplexR
  MRot LRot LRotBetween LLook MQuat LQuat LQuatR LQuatFn.
Import ListNotations.
Local Open Scope R_scope.

Lemma ratan2_0_pos x : 0 < x -> ratan2 0 x = 0.
Proof.
  intros H. pose proof PI_RGT_0. pose proof (ratan2_polar x 0 H ltac:(lra)) as E.
  rewrite sin_0, cos_0, Rmult_0_r, Rmult_1_r in E. exact E.
Qed.
Lemma cln_pos x : 0 < x -> cln (mkC x 0) = mkC (ln x) 0.
Proof.
  intros H. unfold cln, carg, cnorm, cmodulus_squared. cbn [re im]. rnum. rewrite ratan2_0_pos by exact H.
  replace (x * x + 0 * 0) with (x * x) by ring. rewrite sqrt_square by lra. reflexivity.
Qed.
Lemma csqrt_pos x : 0 <= x -> csqrt (mkC x 0) = mkC (sqrt x) 0.
Proof.
  intros H. unfold csqrt, carg, cnorm, cmodulus_squared. cbn [re im]. rnum.
  replace (x * x + 0 * 0) with (x * x) by ring. rewrite sqrt_square by exact H.
  destruct H as [H|H].
  - rewrite ratan2_0_pos by exact H. replace (0 / 2) with 0 by field. rewrite cos_0, sin_0.
    apply complex_eq; cbn; ring.
  - subst. rewrite sqrt_0. apply complex_eq; cbn; ring.
Qed.
Lemma csqrt_neg x : x < 0 -> csqrt (mkC x 0) = mkC 0 (sqrt (- x)).
Proof.
  intros H. pose proof PI_RGT_0.
  assert (A : ratan2 0 x = PI).
  { pose proof (ratan2_polar (- x) PI ltac:(lra) ltac:(lra)) as E. rewrite sin_PI, cos_PI in E.
    transitivity (ratan2 (- x * 0) (- x * -1)); [f_equal; ring|exact E]. }
  unfold csqrt, carg, cnorm, cmodulus_squared. cbn [re im]. rnum. rewrite A, cos_PI2, sin_PI2.
  replace (x * x + 0 * 0) with ((- x) * (- x)) by ring. rewrite sqrt_square by lra.
  apply complex_eq; cbn; ring.
Qed.

Definition off_neg (w : complex R) : Prop := im w <> 0 \/ 0 < re w.
Lemma off_neg_nz w : off_neg w -> w <> czero.
Proof. intros [H|H] E; rewrite E in H; cbn in H; lra. Qed.
Lemma qln_good u w : vnorm u = 1 -> off_neg w -> qln_eps (slice u w) 0 = slice u (cln w).
Proof.
  intros U G. destruct (Req_dec (im w) 0) as [Z|Z].
  - destruct G as [G|G]; [contradiction|]. destruct w as [x y]. cbn [re im] in *. subst y.
    rewrite <- slice_real, qln_real, Rabs_right by lra. rewrite cln_pos by exact G.
    apply slice_real.
  - apply qln_slice; [exact U|lra|apply Rabs_pos_lt, Z].
Qed.
Lemma qsqrt_good u z : vnorm u = 1 -> (im z <> 0 \/ 0 <= re z) -> qsqrt_eps (slice u z) 0 = slice u (csqrt z).
Proof.
  intros U G. destruct (Req_dec (im z) 0) as [Z|Z].
  - destruct G as [G|G]; [contradiction|]. destruct z as [x y]. cbn [re im] in *. subst y.
    rewrite csqrt_pos by exact G. destruct G as [G|G].
    + rewrite <- !slice_real. rewrite qsqrt_real by (rewrite ?Rabs_right; lra).
      destruct (Rgt_dec x 0); [reflexivity|contradiction].
    + subst x. rewrite sqrt_0. change (mkC 0 0) with (@czero R _). rewrite <- slice_zero.
      apply qsqrt_zero. lra.
  - apply qsqrt_slice; [exact U|lra|apply Rabs_pos_lt, Z].
Qed.
(** In the x slice the square root stays in the slice also on the negative reals. *)
Lemma qsqrt_x z : qsqrt_eps (slice v3_unit_x z) 0 = slice v3_unit_x (csqrt z).
Proof.
  destruct v3_unit_norms as (U & _).
  destruct (Req_dec (im z) 0) as [Z|Z]; [|apply qsqrt_good; auto].
  destruct (Rle_dec 0 (re z)) as [P|P]; [apply qsqrt_good; auto|].
  destruct z as [x y]. cbn [re im] in *. subst y. rewrite csqrt_neg by lra.
  rewrite <- slice_real, qsqrt_real by (rewrite ?Rabs_left; lra).
  destruct (Rgt_dec x 0); [lra|]. unfold slice. cbn [re im]. unfold qfrom_pure. f_equal.
  vcompute. rnum. pairs ltac:(ring).
Qed.

Lemma slice_normal (q : quat R) : qvector q <> vzero 3 ->
  let u := vnormalize (qvector q) in let z := mkC (qscalar q) (vnorm (qvector q)) in
  vnorm u = 1 /\ q = slice u z /\ 0 < im z /\ qsignum_vec q = Some (slice u cunit_im).
Proof.
  intros N u z. destruct (slice_exists q) as (u' & U & E & V). rewrite (V N) in U, E. fold u in U, E.
  pose proof (vnorm_pos _ _ N) as P. split; [exact U|]. split; [exact E|]. split; [exact P|].
  unfold qsignum_vec. destruct (Req_EM_T (vnorm (qvector q)) 0); [lra|].
  fold u. rewrite slice_unit. reflexivity.
Qed.
Lemma ctimes_neg_i (w : complex R) : cmul cunit_im (cneg (cmul cunit_im w)) = w.
Proof. apply complex_eq; cbn [cmul cneg cunit_im re im]; rnum; ring. Qed.
Lemma ccos_i w : ccos w = ccosh (cmul cunit_im w).
Proof. unfold ccos. fold (ctimes_i w). rewrite ctimes_i_eq. reflexivity. Qed.
Lemma csin_i w : csin w = cmul (cneg cunit_im) (csinh (cmul cunit_im w)).
Proof. unfold csin. cbv zeta. fold (ctimes_i w). rewrite ctimes_i_eq, cneg_i_eq. reflexivity. Qed.
Lemma chalf_sum (w v z : complex R) : cadd w v = cadd z z -> chalf (cadd w v) = z.
Proof. intros ->. unfold chalf, cadd. rnum. apply complex_eq; cbn [re im]; field. Qed.
(** A number and its inverse have a non-real sum or difference only if it is non-real. *)
Lemma cinv_im (w v : complex R) : cmul w v = cone -> im w = 0 -> im v = 0.
Proof.
  intros P Z. assert (A := f_equal re P). assert (B := f_equal im P). destruct w as [a b], v as [c d].
  cbn [cmul cone cidentity re im] in *. rnum. subst b.
  assert (a <> 0) by (intros E; subst a; lra).
  apply (Rmult_eq_reg_l a); [lra|assumption].
Qed.

(** acos *)
Lemma qcos_acos q : qvector q <> vzero 3 ->
  (qscalar q <> 0 \/ vnormalize (qvector q) = v3_unit_x) ->
  exists r, qacos_eps q 0 = Some r /\ qcos r = q.
Proof.
  intros N X. destruct (slice_normal q N) as (U & E & P & G).
  set (u := vnormalize (qvector q)) in *. set (z := mkC (qscalar q) (vnorm (qvector q))) in *.
  change (0 < vnorm (qvector q)) in P.
  assert (Iz : im z = vnorm (qvector q)) by reflexivity. assert (Rz : re z = qscalar q) by reflexivity.
  unfold qacos_eps. rewrite G. eexists. split; [reflexivity|].
  rewrite E at 1. unfold qsquared. rewrite E at 1. rewrite E at 1.
  rewrite (slice_one u), slice_mul, slice_sub by exact U.
  assert (S : qsqrt_eps (slice u (csub (cmul z z) cone)) 0 = slice u (csqrt (csub (cmul z z) cone))).
  { destruct X as [X|X].
    - apply qsqrt_good; [exact U|left]. cbn [csub cmul cone cidentity im re]. rnum.  unfold z.
      cbn [re im]. intros Z. assert (Y : qscalar q * vnorm (qvector q) = 0) by lra.
      apply Rmult_integral in Y. destruct Y; [auto|lra].
    - rewrite X. apply qsqrt_x. }
  rewrite S, slice_add. set (s := csqrt _). assert (SS : cmul s s = csub (cmul z z) cone) by apply csqrt_sq.
  assert (PP : cmul (cadd z s) (csub z s) = cone).
  { transitivity (csub (cmul z z) (cmul s s)); [ring|]. rewrite SS. ring. }
  assert (G2 : off_neg (cadd z s)).
  { left. intros Z. pose proof (cinv_im _ _ PP Z) as Z'. cbn [cadd csub im] in Z, Z'. rnum. lra. }
  rewrite qln_good, slice_mul, slice_neg, qcos_slice by assumption.
  rewrite ccos_i, ctimes_neg_i, ccosh_ln by (apply off_neg_nz, G2).
  rewrite (cinv_unique _ _ PP), chalf_sum with (z := z) by ring. symmetry. exact E.
Qed.
(** asin *)
Lemma casin_alt z : casin z = cneg (cmul cunit_im (cln (cadd (cmul cunit_im z) (csqrt (csub cone (cmul z z)))))).
Proof.
  unfold casin, casinh. cbv zeta. fold (ctimes_i z). rewrite ctimes_i_eq, cneg_i_eq.
  replace (cmul (cmul cunit_im z) (cmul cunit_im z)) with (cmul (cmul cunit_im cunit_im) (cmul z z)) by ring.
  rewrite cunit_im_sq. replace (cadd cone (cmul (cneg cone) (cmul z z))) with (csub cone (cmul z z)) by ring.
  ring.
Qed.
Lemma qsin_asin q : qvector q <> vzero 3 -> exists r, qasin_eps q 0 = Some r /\ qsin r = q.
Proof.
  intros N. destruct (slice_normal q N) as (U & E & P & G).
  set (u := vnormalize (qvector q)) in *. set (z := mkC (qscalar q) (vnorm (qvector q))) in *.
  change (0 < vnorm (qvector q)) in P.
  assert (Iz : im z = vnorm (qvector q)) by reflexivity. assert (Rz : re z = qscalar q) by reflexivity.
  unfold qasin_eps. rewrite G. eexists. split; [reflexivity|].
  rewrite E at 1. unfold qsquared. rewrite E at 1. rewrite E at 1.
  rewrite (slice_one u), !slice_mul, slice_sub by exact U.
  assert (I1 : im (cmul z z) = 2 * qscalar q * vnorm (qvector q)) by (cbn; ring).
  assert (I2 : re (cmul z z) = qscalar q * qscalar q - vnorm (qvector q) * vnorm (qvector q)) by (cbn; ring).
  assert (D : im (csub cone (cmul z z)) <> 0 \/ 0 <= re (csub cone (cmul z z))).
  { cbn [csub cone cidentity re im]. rewrite I1, I2. rnum. 
    destruct (Req_dec (qscalar q) 0) as [Z|Z]; [right; rewrite Z; nra|left].
    intros Y. assert (Y' : qscalar q * vnorm (qvector q) = 0) by lra.
    apply Rmult_integral in Y'. destruct Y'; [auto|lra]. }
  rewrite qsqrt_good, slice_add by assumption. set (s := csqrt _).
  assert (SS : cmul s s = csub cone (cmul z z)) by apply csqrt_sq.
  assert (PP : cmul (cadd (cmul cunit_im z) s) (csub s (cmul cunit_im z)) = cone).
  { transitivity (csub (cmul s s) (cmul (cmul cunit_im cunit_im) (cmul z z))); [ring|].
    rewrite SS, cunit_im_sq. ring. }
  assert (G2 : off_neg (cadd (cmul cunit_im z) s)).
  { destruct (Req_dec (qscalar q) 0) as [Z|Z].
    - right. 
      assert (Es : s = mkC (sqrt (1 + vnorm (qvector q) * vnorm (qvector q))) 0).
      { unfold s. rewrite <- csqrt_pos by nra. f_equal.
        apply complex_eq; cbn [csub cone cidentity re im]; rewrite ?I1, ?I2; rnum; rewrite Z; ring. }
      rewrite Es. cbn [cadd cmul cunit_im re im]. rnum. unfold z. cbn [re im].
       assert (Q : vnorm (qvector q) < sqrt (1 + vnorm (qvector q) * vnorm (qvector q))).
      { rewrite <- (sqrt_square (vnorm (qvector q))) at 1 by lra. apply sqrt_lt_1; nra. }
      lra.
    - left. intros Z0. pose proof (cinv_im _ _ PP Z0) as Z1. cbn [cadd csub cmul cunit_im im re] in Z0, Z1. rnum.
      lra. }
  rewrite qln_good, slice_mul, slice_neg, qsin_slice by assumption. unfold s.
  rewrite <- casin_alt, csin_asin. symmetry. exact E.
Qed.
(** atan *)
Lemma ctan_log (z r w : complex R) : cmul r (csub cunit_im z) = cadd cunit_im z -> r <> czero ->
  cadd w w = cmul cunit_im (cln r) -> ccos w <> czero /\ ctan w = z.
Proof.
  intros HR Nr W. pose proof ctwo_nz as T.
  destruct (exp_pair (cmul cunit_im w)) as (e & f & He & Hf & HF).
  assert (F2 : cmul f f = r).
  { rewrite <- Hf, <- cexp_add.
    replace (cadd (cneg (cmul cunit_im w)) (cneg (cmul cunit_im w))) with (cneg (cmul cunit_im (cadd w w))) by ring.
    rewrite W. replace (cneg (cmul cunit_im (cmul cunit_im (cln r)))) with (cneg (cmul (cmul cunit_im cunit_im) (cln r))) by ring.
    rewrite cunit_im_sq. replace (cneg (cmul (cneg cone) (cln r))) with (cln r) by ring. apply cexp_ln, Nr. }
  assert (K : cmul f (csub cunit_im z) = cmul e (cadd cunit_im z)).
  { rewrite <- HR, <- F2. transitivity (cmul (cmul e f) (cmul f (csub cunit_im z))); [rewrite HF; ring|ring]. }
  assert (En : e <> czero) by exact (cmul_one_nz _ _ HF).
  assert (In : (cunit_im : complex R) <> czero) by (intros E; apply (f_equal im) in E; cbn in E; lra).
  assert (C : ccos w <> czero).
  { rewrite ccos_i, ccosh_exp, He, Hf, chalf_eq. intros E.
    assert (S : cadd e f = czero).
    { transitivity (cmul (cdiv (cadd e f) (cadd cone cone)) (cadd cone cone)); [field; exact T|]. rewrite E. ring. }
    assert (S' : f = cneg e) by (transitivity (cadd (cadd e f) (cneg e)); [ring|rewrite S; ring]).
    rewrite S' in K.
    assert (X : cmul e (cmul (cadd cone cone) cunit_im) = czero).
    { transitivity (csub (cmul e (cadd cunit_im z)) (cmul (cneg e) (csub cunit_im z))); [ring|]. rewrite K. ring. }
    apply cmul_zero_inv in X. destruct X as [X|X]; [auto|]. apply cmul_zero_inv in X. tauto. }
  split; [exact C|]. rewrite ctan_quotient by exact C.
  assert (D : cmul (ccos w) z = csin w).
  { rewrite ccos_i, csin_i, ccosh_exp, csinh_exp, He, Hf, !chalf_eq.
    assert (Y : cmul (cadd e f) z = cmul (cneg cunit_im) (csub e f)).
    { transitivity (csub (cmul (cneg cunit_im) (csub e f)) (csub (cmul f (csub cunit_im z)) (cmul e (cadd cunit_im z))));
        [ring|]. rewrite K. ring. }
    transitivity (cdiv (cmul (cadd e f) z) (cadd cone cone)); [field; exact T|]. rewrite Y. field. exact T. }
  rewrite <- D. field. exact C.
Qed.
Lemma qdiv_right_slice u z w : vnorm u = 1 -> w <> czero ->
  qdiv_right_eps (slice u z) (slice u w) 0 = Some (slice u (cdiv z w)).
Proof.
  intros U N. assert (P : 0 < qnorm (slice u w)) by (apply qnorm_pos, slice_nz; assumption).
  destruct (qdiv_right_spec (slice u z) (slice u w) 0 ltac:(lra)) as [A B].
  destruct (qdiv_right_eps (slice u z) (slice u w) 0) as [x|]; [|exfalso; destruct A as [A _]; specialize (A eq_refl); lra].
  f_equal. destruct (B x eq_refl) as [_ Q]. symmetry. apply Q. rewrite slice_mul by exact U. f_equal.
  apply cdiv_mul, cms_nz, N.
Qed.
Lemma qhalf_slice u z : qhalf (slice u z) = slice u (chalf z).
Proof.
  unfold qhalf. rewrite slice_scale. f_equal. unfold cmul_s, chalf, one_half. rnum. apply complex_eq; cbn [re im]; field.
Qed.
Lemma qtan_atan q : qvector q <> vzero 3 -> (qscalar q <> 0 \/ vnorm (qvector q) < 1) ->
  exists r, qatan_eps q 0 = Some r /\ qcos r <> qzero /\ qtan r = q.
Proof.
  intros N X. destruct (slice_normal q N) as (U & E & P & G).
  set (u := vnormalize (qvector q)) in *. set (z := mkC (qscalar q) (vnorm (qvector q))) in *.
  change (0 < vnorm (qvector q)) in P.
  assert (Iz : im z = vnorm (qvector q)) by reflexivity. assert (Rz : re z = qscalar q) by reflexivity.
  assert (D : csub cunit_im z <> czero).
  { intros Z. assert (A := f_equal re Z). assert (B := f_equal im Z). cbn [csub cunit_im czero re im] in A, B. rnum.
    unfold z in A, B. cbn [re im] in A, B. lra. }
  assert (A : qadd (slice u cunit_im) q = slice u (cadd cunit_im z)) by (rewrite E at 1; apply slice_add).
  assert (B : qsub (slice u cunit_im) q = slice u (csub cunit_im z)) by (rewrite E at 1; apply slice_sub).
  unfold qatan_eps. rewrite G. cbv beta iota zeta. rewrite A, B. clear A B.
  rewrite qdiv_right_slice by assumption. eexists. split; [reflexivity|].
  set (r := cdiv (cadd cunit_im z) (csub cunit_im z)).
  assert (HR : cmul r (csub cunit_im z) = cadd cunit_im z) by (apply cdiv_mul, cms_nz, D).
  assert (G2 : off_neg r).
  { assert (A := f_equal re HR). assert (B := f_equal im HR).
    destruct r as [a b]. unfold z in A, B. cbn [cmul csub cadd cunit_im re im] in A, B. rnum. 
    set (x := qscalar q) in *. set (y := vnorm (qvector q)) in *.
    unfold off_neg. cbn [re im]. destruct (Req_dec b 0) as [Zb|Zb]; [right|left; exact Zb]. subst b.
    destruct X as [X|X].
    - exfalso. assert (a = -1) by (apply (Rmult_eq_reg_r x); [lra|exact X]). subst a. lra.
    - nra. }
  assert (Nr : r <> czero) by (apply off_neg_nz, G2).
  rewrite qln_good, qhalf_slice, slice_mul by assumption.
  set (w := cmul (chalf cunit_im) (cln r)).
  assert (W : cadd w w = cmul cunit_im (cln r)).
  { unfold w. rewrite chalf_eq. field. exact ctwo_nz. }
  destruct (ctan_log z r w HR Nr W) as [C T].
  rewrite qtan_slice, qcos_slice by assumption. split; [apply slice_nz; assumption|]. rewrite T. symmetry. exact E.
Qed.
(** On real quaternions the first three produce NaN; [atan] panics at the pure unit quaternions. *)
Lemma qarc_real x eps :
  qacos_eps (qfrom_real x) eps = None /\ qasin_eps (qfrom_real x) eps = None /\
  qatan_eps (qfrom_real x) eps = None.
Proof.
  assert (Z : qsignum_vec (qfrom_real x) = None).
  { unfold qsignum_vec. destruct (Req_EM_T _ 0) as [_|N]; [reflexivity|]. exfalso. apply N.
    apply vnorm_zero. unfold qfrom_real. apply qvector_parts. }
  unfold qacos_eps, qasin_eps, qatan_eps. rewrite Z. auto.
Qed.
Lemma qatan_panic v eps : 0 <= eps -> vnorm v = 1 -> qatan_eps (qfrom_pure v) eps = None.
Proof.
  intros He H. assert (N : v <> vzero 3) by (intros E; apply vnorm_zero in E; lra).
  assert (V : qvector (qfrom_pure v) = v) by (unfold qfrom_pure; apply qvector_parts).
  unfold qatan_eps, qsignum_vec. rewrite V, H. destruct (Req_EM_T 1 0); [lra|].
  rewrite vnormalize_unit by exact H.
  assert (Z : qsub (qfrom_pure v) (qfrom_pure v) = qzero) by (apply qsub_zero; reflexivity).
  rewrite Z. destruct (qdiv_right_spec (qadd (qfrom_pure v) (qfrom_pure v)) qzero eps He) as [A _].
  rewrite (proj2 A); [reflexivity|]. rewrite (proj2 (qnorm_zero qzero) eq_refl). exact He.
Qed.

(** acosh, asinh, atanh *)
Lemma slice_any (q : quat R) : exists u z, vnorm u = 1 /\ q = slice u z /\
  re z = qscalar q /\ im z = vnorm (qvector q).
Proof. destruct (slice_exists q) as (u & U & E & _). eexists. eexists. split; [exact U|]. split; [exact E|]. split; reflexivity. Qed.

Lemma acosh_prod (z : complex R) : let s := cmul (csqrt (cadd z cone)) (csqrt (csub z cone)) in
  cmul (cadd z s) (csub z s) = cone.
Proof.
  intros s. assert (SS : cmul s s = cmul (cadd z cone) (csub z cone)).
  { transitivity (cmul (cmul (csqrt (cadd z cone)) (csqrt (cadd z cone))) (cmul (csqrt (csub z cone)) (csqrt (csub z cone)))).
    - unfold s. ring.
    - rewrite !csqrt_sq. reflexivity. }
  transitivity (csub (cmul z z) (cmul s s)); [ring|]. rewrite SS. ring.
Qed.

(** A sum of a number with its inverse that is not real, or is real above -2, keeps it off the cut. *)
Lemma off_neg_sum (w v z : complex R) : cmul w v = cone -> cadd w v = cadd z z ->
  im z <> 0 \/ -1 < re z -> off_neg w.
Proof.
  intros P S H. destruct (Req_dec (im w) 0) as [Z|Z]; [|left; exact Z].
  pose proof (cinv_im _ _ P Z) as Z'. assert (S1 := f_equal re S). assert (S2 := f_equal im S).
  assert (P1 := f_equal re P). cbn [cadd cmul cone cidentity re im] in S1, S2, P1. rnum.
  rewrite Z, Z' in *. destruct H as [H|H]; [exfalso; lra|]. right.
  destruct (Rlt_dec 0 (re w)) as [Y|Y]; [exact Y|exfalso].
  set (a := re w) in *. set (c := re v) in *. clearbody a c.
  assert (Q : a * (a + c + 2) = (a + 1) * (a + 1)) by (replace (a * (a + c + 2)) with (a * a + (a * c - 0 * 0) + 2 * a) by ring; rewrite P1; ring).
  assert (N : a <> 0) by (intros N; subst; lra).
  assert (a * (a + c + 2) < 0) by (apply Ropp_lt_cancel; rewrite Ropp_0, Ropp_mult_distr_l; apply Rmult_lt_0_compat; lra).
  pose proof (Rle_0_sqr (a + 1)) as Z0. unfold Rsqr in Z0. lra.
Qed.
(** A quaternion lies in some slice; a real one in the slice of the x axis. *)
Lemma slice_x (q : quat R) : exists u z, vnorm u = 1 /\ q = slice u z /\
  re z = qscalar q /\ (im z = 0 -> u = v3_unit_x) /\ Rabs (im z) = vnorm (qvector q) /\
  (qvector q <> vzero 3 -> u = vnormalize (qvector q)).
Proof.
  destruct (slice_exists q) as (u & U & E & V).
  destruct (Req_dec (vnorm (qvector q)) 0) as [Z|Z].
  - exists v3_unit_x, (mkC (qscalar q) 0). pose proof (proj1 (vnorm_zero _ _) Z) as Z'. conjs.
    + apply v3_unit_norms.
    + rewrite <- slice_real. apply qreal_of_vec, Z'.
    + reflexivity.
    + reflexivity.
    + cbn [im]. rewrite Rabs_R0. symmetry. exact Z.
    + intros N. contradiction.
  - exists u, (mkC (qscalar q) (vnorm (qvector q))). conjs; auto.
    + intros Y. cbn [im] in Y. contradiction.
    + cbn [im]. apply Rabs_right, Rle_ge, vnorm_nonneg.
Qed.
Lemma qsqrt_both u z : vnorm u = 1 -> (im z = 0 -> u = v3_unit_x) ->
  qsqrt_eps (slice u z) 0 = slice u (csqrt z).
Proof.
  intros U H. destruct (Req_dec (im z) 0) as [Z|Z]; [rewrite (H Z); apply qsqrt_x|apply qsqrt_good; auto].
Qed.

Lemma qcosh_acosh q : qvector q <> vzero 3 \/ -1 < qscalar q -> qcosh (qacosh_eps q 0) = q.
Proof.
  intros H. destruct (slice_x q) as (u & z & U & E & Rz & X & A & _).
  assert (H' : im z <> 0 \/ -1 < re z).
  { destruct H as [H|H]; [left|right; lra]. intros Z. rewrite Z, Rabs_R0 in A. apply H.
    apply vnorm_zero. symmetry. exact A. }
  unfold qacosh_eps. rewrite E at 1 2 3. rewrite (slice_one u), slice_add, slice_sub.
  assert (I1 : im (cadd z cone) = im z) by (cbn; ring). assert (I2 : im (csub z cone) = im z) by (cbn; ring).
  rewrite !qsqrt_both, slice_mul, slice_add by (rewrite ?I1, ?I2; assumption).
  pose proof (acosh_prod z) as PP. cbv zeta in PP. set (s := cmul (csqrt _) _) in *.
  assert (G : off_neg (cadd z s)) by (apply (off_neg_sum _ _ z PP); [ring|exact H']).
  rewrite qln_good, qcosh_slice, ccosh_ln by (assumption || apply off_neg_nz, G).
  rewrite (cinv_unique _ _ PP), chalf_sum with (z := z) by ring. symmetry. exact E.
Qed.
(** On the cut real x <= -1 the logarithm drops the sign. *)
Lemma qacosh_cut x : x <= -1 -> qcosh (qacosh_eps (qfrom_real x) 0) = qfrom_real (- x).
Proof.
  intros H. destruct v3_unit_norms as (U & _).
  unfold qacosh_eps. rewrite (slice_real v3_unit_x), (slice_one v3_unit_x), slice_add, slice_sub.
  rewrite !qsqrt_x, slice_mul, slice_add by exact U.
  pose proof (acosh_prod (mkC x 0)) as PP. cbv zeta in PP. set (s := cmul (csqrt _) _) in *.
  assert (S : s = mkC (- sqrt (- (x + 1)) * sqrt (- (x - 1))) 0).
  { unfold s. replace (csub (mkC x 0) cone) with (mkC (x - 1) 0) by (apply complex_eq; cbn; ring).
    replace (cadd (mkC x 0) cone) with (mkC (x + 1) 0) by (apply complex_eq; cbn; ring).
    rewrite (csqrt_neg (x - 1)) by lra. destruct (Req_dec x (-1)) as [Y|Y].
    - subst x. rewrite csqrt_pos by lra. replace (-1 + 1) with 0 by ring. rewrite Ropp_0, sqrt_0.
      apply complex_eq; cbn; ring.
    - rewrite csqrt_neg by lra. apply complex_eq; cbn; ring. }
  set (r := sqrt (- (x + 1)) * sqrt (- (x - 1))).
  assert (R0 : 0 <= r) by (apply Rmult_le_pos; apply sqrt_pos).
  assert (Er : s = mkC (- r) 0) by (rewrite S; unfold r; f_equal; ring).
  rewrite Er in *. assert (P1 := f_equal re PP). cbn [cadd csub cmul cone cidentity re im] in P1. rnum.
  replace (cadd (mkC x 0) (mkC (- r) 0)) with (mkC (x - r) 0) by (apply complex_eq; cbn; ring).
  rewrite <- slice_real, qln_real, (proj1 (proj2 (proj2 (proj2 (qtrig_real _))))). f_equal.
  rewrite Rabs_left by lra. unfold cosh. rewrite exp_Ropp, exp_ln by lra.
  apply (Rmult_eq_reg_r (2 * (- (x - r)))); [|lra]. field_simplify; [|lra]. lra.
Qed.

Lemma qsinh_asinh q :
  qscalar q <> 0 \/ vnorm (qvector q) <= 1 \/ vnormalize (qvector q) = v3_unit_x ->
  qsinh (qasinh_eps q 0) = q.
Proof.
  intros H. destruct (slice_x q) as (u & z & U & E & Rz & X & A & V).
  unfold qasinh_eps, qsquared. rewrite E at 1 2 3. rewrite (slice_one u), slice_mul, slice_add by exact U.
  assert (I1 : im (cadd (cmul z z) cone) = 2 * (re z * im z)) by (cbn; ring).
  assert (I2 : re (cadd (cmul z z) cone) = re z * re z - im z * im z + 1) by (cbn; ring).
  assert (S : qsqrt_eps (slice u (cadd (cmul z z) cone)) 0 = slice u (csqrt (cadd (cmul z z) cone))).
  { destruct (Req_dec (im z) 0) as [Z|Z]; [rewrite (X Z); apply qsqrt_x|].
    destruct H as [H|[H|H]].
    - apply qsqrt_good; [exact U|left]. rewrite I1, Rz. intros Y.
      assert (Y' : qscalar q * im z = 0) by lra. apply Rmult_integral in Y'. tauto.
    - apply qsqrt_good; [exact U|]. rewrite I1, I2.
      destruct (Req_dec (re z) 0) as [Y|Y]; [right|left].
      + assert (im z * im z <= 1).
        { rewrite <- A in H. replace 1 with (1 * 1) by ring.
          replace (im z * im z) with (Rabs (im z) * Rabs (im z))
            by (rewrite <- Rabs_mult; apply Rabs_right, Rle_ge, Rle_0_sqr).
          apply Rmult_le_compat; (apply Rabs_pos || exact H). }
        nra.
      + intros Q. assert (Y' : re z * im z = 0) by lra. apply Rmult_integral in Y'. tauto.
    - rewrite V, H; [apply qsqrt_x|]. intros Q. apply vnorm_zero in Q. rewrite Q in A.
      apply Rabs_eq_0 in A. contradiction. }
  rewrite S, slice_add. set (s := csqrt _).
  assert (SS : cmul s s = cadd (cmul z z) cone) by apply csqrt_sq.
  assert (PP : cmul (cadd z s) (csub s z) = cone).
  { transitivity (csub (cmul s s) (cmul z z)); [ring|]. rewrite SS. ring. }
  assert (G : off_neg (cadd z s)).
  { destruct (Req_dec (im (cadd z s)) 0) as [Z|Z]; [right|left; exact Z].
    pose proof (cinv_im _ _ PP Z) as Z'. cbn [cadd csub im] in Z, Z'. rnum. assert (Zz : im z = 0) by lra.
    assert (Es : s = mkC (sqrt (re z * re z + 1)) 0).
    { unfold s. rewrite <- csqrt_pos by nra. f_equal. apply complex_eq; rewrite ?I1, ?I2, Zz; cbn [re im]; ring. }
    rewrite Es. cbn [cadd re]. rnum.
    assert (Q : Rabs (re z) < sqrt (re z * re z + 1)).
    { rewrite <- sqrt_Rsqr_abs. unfold Rsqr. apply sqrt_lt_1; nra. }
    pose proof (Rle_abs (- re z)) as Q'. rewrite Rabs_Ropp in Q'. lra. }
  rewrite qln_good, qsinh_slice, csinh_ln by (assumption || apply off_neg_nz, G).
  rewrite (cinv_unique _ _ PP). transitivity (slice u z); [f_equal|symmetry; exact E].
  rewrite chalf_eq. field. exact ctwo_nz.
Qed.

Lemma qtanh_atanh q : qvector q <> vzero 3 \/ -1 < qscalar q < 1 ->
  qcosh (qatanh_eps q 0) <> qzero /\ qtanh (qatanh_eps q 0) = q.
Proof.
  intros H. destruct (slice_x q) as (u & z & U & E & Rz & X & A & _).
  assert (H' : im z <> 0 \/ -1 < re z < 1).
  { destruct H as [H|H]; [left|right; lra]. intros Z. rewrite Z, Rabs_R0 in A. apply H.
    apply vnorm_zero. symmetry. exact A. }
  unfold qatanh_eps. rewrite E at 1 2 3 4. rewrite (slice_one u), slice_add, slice_sub.
  assert (G1 : off_neg (cadd cone z)).
  { unfold off_neg. cbn [cadd cone cidentity re im]. rnum. destruct H'; [left|right]; lra. }
  assert (G2 : off_neg (csub cone z)).
  { unfold off_neg. cbn [csub cone cidentity re im]. rnum. destruct H'; [left|right]; lra. }
  rewrite !qln_good, slice_sub, qhalf_slice by assumption.
  set (w := chalf _).
  assert (C : catanh z = Some w).
  { unfold catanh. cbv zeta. unfold w. rewrite chalf_eq.
    destruct (Req_EM_T (im z) 0); [|reflexivity].
    destruct (Req_EM_T (re z) 1); [exfalso; lra|]. destruct (Req_EM_T (re z) (-1)); [exfalso; lra|]. reflexivity. }
  destruct (ctanh_atanh z w C) as [N T]. rewrite qcosh_slice, qtanh_slice, T by assumption.
  split; [apply slice_nz; assumption|symmetry; exact E].
Qed.
(** Outside [-1, 1] on the real line [atanh] is the inverse of 1/x instead. *)
Lemma qatanh_cut x : 1 < Rabs x -> qtanh (qatanh_eps (qfrom_real x) 0) = qfrom_real (/ x).
Proof.
  intros H. unfold qatanh_eps.
  assert (A : qadd qidentity (qfrom_real x) = qfrom_real (1 + x)) by (qrcompute; pairs ltac:(ring)).
  assert (B : qsub qidentity (qfrom_real x) = qfrom_real (1 - x)) by (qrcompute; pairs ltac:(ring)).
  rewrite A, B, !qln_real.
  assert (C : qhalf (qsub (qfrom_real (ln (Rabs (1 + x)))) (qfrom_real (ln (Rabs (1 - x))))) =
              qfrom_real ((ln (Rabs (1 + x)) - ln (Rabs (1 - x))) / 2)).
  { unfold qhalf, one_half. qrcompute. pairs ltac:(field). }
  rewrite C, (proj2 (proj2 (proj2 (proj2 (proj2 (qtrig_real _)))))). f_equal.
  assert (N1 : 0 < Rabs (1 + x)).
  { apply Rabs_pos_lt. intros Z. replace x with (-1) in H by lra. rewrite Rabs_left in H; lra. }
  assert (N2 : 0 < Rabs (1 - x)).
  { apply Rabs_pos_lt. intros Z. replace x with 1 in H by lra. rewrite Rabs_right in H; lra. }
  assert (X0 : x <> 0) by (intros Z; subst; rewrite Rabs_R0 in H; lra).
  unfold rtanh. set (t := (ln (Rabs (1 + x)) - ln (Rabs (1 - x))) / 2).
  assert (T2 : exp t * exp t * Rabs (1 - x) = Rabs (1 + x)).
  { rewrite <- exp_plus. replace (t + t) with (ln (Rabs (1 + x)) - ln (Rabs (1 - x))) by (unfold t; field).
    rewrite <- (exp_ln _ N2) at 2. rewrite <- exp_plus. rewrite <- (exp_ln _ N1) at 2. f_equal. ring. }
  pose proof (exp_pos t) as E0. unfold sinh, cosh. rewrite exp_Ropp.
  assert (Q : (exp t * exp t - 1) * x = exp t * exp t + 1).
  { destruct (Rle_dec 0 x) as [L|L].
    - rewrite (Rabs_right x) in H by lra. rewrite Rabs_left, Rabs_right in T2 by lra. nra.
    - rewrite (Rabs_left x) in H by lra. rewrite (Rabs_right (1 - x)), Rabs_left in T2 by lra. nra. }
  assert (N : exp t * exp t + 1 <> 0) by nra.
  field_simplify_eq; [|conjs; lra || (try (intros Z; apply N; nra))]. nra.
Qed.

(** At j the square root leaves the slice of j, and the cosine of the result has a k component. *)
Lemma qln_pure (v : vec R 3) : v <> vzero 3 ->
  qln_eps (qfrom_pure v) 0 = qfrom_parts (ln (vnorm v)) (vmul_s v (PI / 2 / vnorm v)).
Proof.
  intros N. pose proof (vnorm_pos _ _ N) as P. unfold qln_eps. cbv zeta.
  assert (V : qvector (qfrom_pure v) = v) by apply qvector_parts.
  assert (S : qscalar (qfrom_pure v) = 0) by apply qscalar_parts.
  rewrite V, S. unfold vnorm in P. change (vnorm v) with (sqrt (vnorm_squared v)).
  destruct (Rle_dec _ _) as [L|L].
  - exfalso. rewrite sqrt_neg_0 in P; lra.
  - assert (Q : qnorm (qfrom_pure v) = sqrt (vnorm_squared v)).
    { apply qnorm_by_sq; [lra|]. rewrite qns_parts, V, S. change (vnorm v) with (sqrt (vnorm_squared v)). ring. }
    rewrite Q. replace (0 / sqrt (vnorm_squared v)) with 0 by (field; lra). rewrite acos_0. reflexivity.
Qed.
Lemma qacos_j_fails : exists r, qacos_eps (qfrom_pure v3_unit_y) 0 = Some r /\ qcos r <> qfrom_pure v3_unit_y.
Proof.
  destruct v3_unit_norms as (_ & U & _). pose proof PI_RGT_0 as PI0.
  assert (V : qvector (qfrom_pure v3_unit_y) = (v3_unit_y : vec R 3)) by apply qvector_parts.
  unfold qacos_eps, qsignum_vec. rewrite V, U. destruct (Req_EM_T 1 0) as [O|_]; [lra|].
  rewrite vnormalize_unit by exact U. eexists. split; [reflexivity|].
  assert (A : qsub (qsquared (qfrom_pure v3_unit_y)) qidentity = qfrom_real (-2)).
  { unfold qsquared. qrcompute. pairs ltac:(ring). }
  rewrite A, qsqrt_real by (rewrite ?Rabs_left; lra). destruct (Rgt_dec (-2) 0) as [O|_]; [lra|].
  assert (B : qadd (qfrom_pure v3_unit_y) (qfrom_pure (v3 (sqrt (- -2)) 0 0)) = qfrom_pure (v3 (sqrt 2) 1 0)).
  { qrcompute. pairs ltac:(try (replace (- - 2) with 2 by ring); ring). }
  rewrite B. set (v := v3 (sqrt 2) 1 0).
  assert (S2 : sqrt 2 * sqrt 2 = 2) by (apply sqrt_sqrt; lra).
  assert (N3 : vnorm v = sqrt 3) by (unfold vnorm; f_equal; unfold v; vcompute; rnum; lra).
  assert (P3 : 1 < sqrt 3) by (rewrite <- sqrt_1 at 1; apply sqrt_lt_1; lra).
  assert (Nv : v <> vzero 3) by (intros Z; apply vnorm_zero in Z; lra).
  rewrite qln_pure, N3 by exact Nv. set (l := ln (sqrt 3)). set (a := PI / 2 / sqrt 3).
  assert (C : qneg (qmul (qfrom_pure v3_unit_y) (qfrom_parts l (vmul_s v a))) =
              qfrom_parts a (v3 0 (- l) (sqrt 2 * a))).
  { unfold v. qrcompute. pairs ltac:(ring). }
  rewrite C. clear C.
  assert (a0 : 0 < a < PI).
  { unfold a. assert (0 < / sqrt 3 < 1).
    { split; [apply Rinv_0_lt_compat; lra|]. rewrite <- Rinv_1. apply Rinv_lt_contravar; lra. }
    unfold Rdiv. split; nra. }
  intros E. unfold qcos in E. cbv zeta in E.
  rewrite qvector_parts, qscalar_parts in E. set (n := vnorm _) in E.
  pose proof (vnorm_nonneg _ (v3 0 (- l) (sqrt 2 * a))) as Nn. fold n in Nn.
  assert (s2 : 0 < sqrt 2) by (apply sqrt_lt_R0; lra).
  assert (Pn : 0 < n).
  { apply vnorm_pos. intros Z. apply (f_equal (fun w => vat w 2)) in Z. cbn in Z. nra. }
  destruct (Req_EM_T n 0); [lra|].
  apply (f_equal qvector) in E. rewrite V, qvector_parts in E.
  apply (f_equal (fun w => vat w 2)) in E. cbn in E. rnum.
  assert (0 < sin a) by (apply sin_gt_0; lra).
  assert (0 < sinh n).
  { unfold sinh. assert (exp (- n) < exp n) by (apply exp_increasing; lra). lra. }
  assert (0 < sqrt 2 * a * (sin a * sinh n / n)).
  { apply Rmult_lt_0_compat; [nra|]. apply Rdiv_lt_0_compat; [nra|exact Pn]. }
  replace (sqrt 2 * a * (- sin a * sinh n / n)) with (- (sqrt 2 * a * (sin a * sinh n / n))) in E by (field; lra).
  lra.
Qed.
