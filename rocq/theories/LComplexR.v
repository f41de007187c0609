(** The complex model over the reals: polar form, exponential, roots, trigonometry. *)

From Coq Require Import Arith Lia ZArith Bool Ring Field Reals Lra Psatz.
From Verif Require Import Base Scalar Spec LBase MReal LReal MComplex LComplex LVectorR.
Local Open Scope R_scope.

Definition cinv (z : complex R) : complex R :=
  mkC (re z / cmodulus_squared z) (- im z / cmodulus_squared z).

Lemma cms_R z : cmodulus_squared z = re z * re z + im z * im z.
Proof. reflexivity. Qed.
Lemma cms_pos z : 0 <= cmodulus_squared z.
Proof. rewrite cms_R. nra. Qed.
Lemma cms_zero z : cmodulus_squared z = 0 <-> z = czero.
Proof.
  rewrite cms_R. split.
  - intros H. destruct (sumsq_zero _ _ H). cext; auto.
  - intros ->; cbn; ring.
Qed.
Lemma cms_nz z : z <> czero -> cmodulus_squared z <> 0.
Proof. rewrite cms_zero; auto. Qed.

Lemma complex_field_theory :
  field_theory (@czero R _) cone cadd cmul csub cneg cdiv cinv (@eq (complex R)).
Proof.
  constructor.
  - exact complex_ring_theory.
  - intros H. apply (f_equal re) in H. cbn in H. lra.
  - intros p q. cext; rnum; unfold Rdiv; ring.
  - intros p Hp. apply cms_nz in Hp. unfold cinv. cext; rnum; rewrite cms_R in *; field; exact Hp.
Qed.
Add Field Cfield : complex_field_theory.

Lemma cmul_zero_inv z w : cmul z w = czero -> z = czero \/ w = czero :> complex R.
Proof.
  intros H. apply (f_equal cmodulus_squared) in H. rewrite cmodulus_squared_mul in H.
  change (cmodulus_squared z * cmodulus_squared w = 0 * 0 + 0 * 0) in H.
  rewrite <- !cms_zero. apply Rmult_integral. lra.
Qed.
Lemma cmul_nz z w : z <> czero -> w <> czero -> cmul z w <> czero :> complex R.
Proof. intros Hz Hw E. destruct (cmul_zero_inv _ _ E); auto. Qed.
Lemma cmul_one_nz z w : cmul z w = cone -> z <> czero :> complex R.
Proof.
  intros H E. subst z. apply (f_equal re) in H. cbn in H. lra.
Qed.
Lemma cone_nz : @cone R _ <> czero.
Proof. intros H. apply (f_equal re) in H. cbn in H. lra. Qed.
Lemma ctwo_nz : cadd cone cone <> @czero R _.
Proof. intros H. apply (f_equal re) in H. cbn in H. lra. Qed.

(** ** Modulus *)
Lemma cnorm_nonneg z : 0 <= cnorm z.
Proof. apply sqrt_pos. Qed.
Lemma cnorm_sq z : cnorm z * cnorm z = cmodulus_squared z.
Proof. apply sqrt_sqrt, cms_pos. Qed.
Lemma cnorm_mul z w : cnorm (cmul z w) = cnorm z * cnorm w.
Proof.
  unfold cnorm. rewrite cmodulus_squared_mul. apply sqrt_mult; apply cms_pos.
Qed.
Lemma cnorm_zero z : cnorm z = 0 <-> z = czero.
Proof.
  rewrite <- cms_zero. split; intros H.
  - rewrite <- cnorm_sq, H. ring.
  - unfold cnorm. rewrite H. apply sqrt_0.
Qed.
Lemma cnorm_pos z : z <> czero -> 0 < cnorm z.
Proof.
  intros H. pose proof (cnorm_nonneg z). rewrite <- cnorm_zero in H. lra.
Qed.
Lemma cnorm_conj z : cnorm (cconj z) = cnorm z.
Proof. unfold cnorm. rewrite cmodulus_squared_conj. reflexivity. Qed.
Lemma cnorm_triangle z w : cnorm (cadd z w) <= cnorm z + cnorm w.
Proof.
  pose proof (cnorm_nonneg z); pose proof (cnorm_nonneg w).
  apply Rsqr_incr_0_var; [|lra]. unfold Rsqr. rewrite cnorm_sq.
  pose proof (cnorm_sq z) as Z; pose proof (cnorm_sq w) as W. rewrite cms_R in *.
  destruct z as [a b], w as [c d]; cbn [re im cadd] in *; rnum.
  set (x := cnorm {| re := a; im := b |}) in *. set (y := cnorm {| re := c; im := d |}) in *.
  assert (Q : a * c + b * d <= x * y).
  { apply Rsqr_incr_0_var; [unfold Rsqr|apply Rmult_le_pos; auto].
    replace (x * y * (x * y)) with ((a * a + b * b) * (c * c + d * d)) by (rewrite <- Z, <- W; ring).
    pose proof (Rle_0_sqr (a * d - b * c)) as S. unfold Rsqr in S. lra. }
  replace ((x + y) * (x + y)) with (x * x + y * y + 2 * (x * y)) by ring. lra.
Qed.

(** ** Polar form *)
Lemma cfrom_polar_mul r a s b :
  cmul (cfrom_polar r a) (cfrom_polar s b) = cfrom_polar (r * s) (a + b).
Proof. cext; rnum; [rewrite cos_plus|rewrite sin_plus]; ring. Qed.
Lemma cfrom_polar_cpolar z : cfrom_polar (cnorm z) (carg z) = z.
Proof.
  destruct (ratan2_spec (re z) (im z)) as [C S].
  cext; assumption.
Qed.
Lemma carg_range z : - PI < carg z <= PI.
Proof. apply ratan2_range. Qed.
Lemma cnorm_from_polar r t : 0 <= r -> cnorm (cfrom_polar r t) = r.
Proof. intros. unfold cnorm. rewrite cms_R. cbn. apply sqrt_polar; auto. Qed.
Lemma cpolar_from_polar r t : 0 < r -> - PI < t <= PI -> cpolar (cfrom_polar r t) = (r, t).
Proof.
  intros Hr Ht. unfold cpolar. rewrite cnorm_from_polar by lra.
  f_equal. apply ratan2_polar; auto.
Qed.

(** ** Exponential and logarithm *)
Lemma cexp_polar z : cexp z = cfrom_polar (exp (re z)) (im z).
Proof. reflexivity. Qed.
Lemma cexp_add z w : cexp (cadd z w) = cmul (cexp z) (cexp w).
Proof. rewrite !cexp_polar, cfrom_polar_mul, <- exp_plus. reflexivity. Qed.
Lemma cexp_0 : cexp czero = cone.
Proof. cext; rewrite exp_0, ?cos_0, ?sin_0; rnum; ring. Qed.
Lemma cexp_neg z : cmul (cexp z) (cexp (cneg z)) = cone.
Proof.
  rewrite <- cexp_add. replace (cadd z (cneg z)) with (@czero R _) by ring. apply cexp_0.
Qed.
Lemma cexp_nz z : cexp z <> czero.
Proof. exact (cmul_one_nz _ _ (cexp_neg z)). Qed.
Lemma cnorm_exp z : cnorm (cexp z) = exp (re z).
Proof. apply cnorm_from_polar, Rlt_le, exp_pos. Qed.
Lemma cexp_ln z : z <> czero -> cexp (cln z) = z.
Proof.
  intros H. rewrite cexp_polar. cbn [cln re im]. rewrite exp_ln by (apply cnorm_pos; auto).
  apply cfrom_polar_cpolar.
Qed.
Lemma cln_exp z : - PI < im z <= PI -> cln (cexp z) = z.
Proof.
  intros H. unfold cln. rewrite cnorm_exp, ln_exp. cext; [reflexivity|].
  apply ratan2_polar; auto. apply exp_pos.
Qed.
Lemma cexp_im_unit t : cexp (mkC 0 t) = mkC (cos t) (sin t).
Proof. cext; rewrite exp_0; ring. Qed.

Lemma cexp2_spec z : cexp2 z = cexp (cmul_s z (ln 2)).
Proof. unfold cexp2, cexp, cfrom_polar, rexp2, Rpower, cmul_s; cbn. reflexivity. Qed.
Lemma clog_spec z b : clog z b = cdiv_s (cln z) (ln b).
Proof. reflexivity. Qed.

(** ** Roots *)
Lemma csqrt_polar z : csqrt z = cfrom_polar (sqrt (cnorm z)) (carg z / 2).
Proof. reflexivity. Qed.
Lemma csqrt_sq z : cmul (csqrt z) (csqrt z) = z.
Proof.
  rewrite csqrt_polar, cfrom_polar_mul, sqrt_sqrt by apply cnorm_nonneg.
  replace (carg z / 2 + carg z / 2) with (carg z) by field. apply cfrom_polar_cpolar.
Qed.
Lemma csqrt_re_nonneg z : 0 <= re (csqrt z).
Proof.
  cbn. apply Rmult_le_pos; [apply sqrt_pos|]. pose proof (carg_range z). pose proof PI_RGT_0.
  apply cos_ge_0; lra.
Qed.
(** Among the two roots, zero real part only with non-negative imaginary part. *)
Lemma csqrt_im_nonneg z : re (csqrt z) = 0 -> 0 <= im (csqrt z).
Proof.
  intros H. cbn in *. pose proof (carg_range z) as [A B]. pose proof PI_RGT_0.
  apply Rmult_integral in H. destruct H as [->|H]; [lra|].
  apply Rmult_le_pos; [apply sqrt_pos|].
  destruct (Rle_dec 0 (carg z / 2)); [apply sin_ge_0; lra|].
  assert (0 < cos (carg z / 2)) by (apply cos_gt_0; lra). lra.
Qed.
Lemma ccbrt_cube z : cmul (cmul (ccbrt z) (ccbrt z)) (ccbrt z) = z.
Proof.
  unfold ccbrt, cpolar. rewrite !cfrom_polar_mul, rcbrt_cube by apply cnorm_nonneg.
  replace (carg z / 3 + carg z / 3 + carg z / 3) with (carg z) by field.
  apply cfrom_polar_cpolar.
Qed.

(** ** Hyperbolic and circular functions *)
Definition chalf (z : complex R) : complex R := mkC (re z / 2) (im z / 2).
Lemma chalf_two z : cdiv z (cadd cone cone) = chalf z.
Proof. unfold chalf. cext; rnum; unfold cmodulus_squared; cbn; field. Qed.

Lemma ccosh_exp z : ccosh z = chalf (cadd (cexp z) (cexp (cneg z))).
Proof.
  unfold ccosh, chalf. destruct z as [a b]; cbn [re im].
  assert (G : mkC (cosh a * cos b) (sinh a * sin b) =
    chalf (cadd (cexp (mkC a b)) (cexp (cneg (mkC a b))))).
  { cext; rewrite ?cos_neg, ?sin_neg; unfold cosh, sinh; field. }
  destruct (nis0 a) eqn:Ea; cbn [andb]; [destruct (nis0 b) eqn:Eb|]; try exact G.
  cbn in Ea, Eb. destruct (Req_EM_T a 0), (Req_EM_T b 0); try discriminate. subst.
  rewrite cosh_0, sinh_0, cos_0, sin_0 in G. unfold chalf in G. rewrite <- G.
  cext; ring.
Qed.
Lemma csinh_exp z : csinh z = chalf (csub (cexp z) (cexp (cneg z))).
Proof. unfold chalf. cext; rewrite ?cos_neg, ?sin_neg; unfold cosh, sinh; field. Qed.

Definition ctimes_i (z : complex R) : complex R := mkC (- im z) (re z).
Lemma ctimes_i_eq z : ctimes_i z = cmul cunit_im z.
Proof. cext; rnum; ring. Qed.
Lemma cneg_i_eq z : mkC (im z) (- re z) = cmul (cneg cunit_im) z.
Proof. cext; rnum; ring. Qed.

Lemma chalf_eq z : chalf z = cdiv z (cadd cone cone).
Proof. symmetry; apply chalf_two. Qed.

Lemma ccos_exp z :
  ccos z = chalf (cadd (cexp (cmul cunit_im z)) (cexp (cneg (cmul cunit_im z)))).
Proof. unfold ccos. fold (ctimes_i z). rewrite ctimes_i_eq. apply ccosh_exp. Qed.
Lemma csin_exp z :
  csin z = cmul (cneg cunit_im)
    (chalf (csub (cexp (cmul cunit_im z)) (cexp (cneg (cmul cunit_im z))))).
Proof.
  unfold csin. cbv zeta. fold (ctimes_i z). rewrite cneg_i_eq, ctimes_i_eq, csinh_exp.
  reflexivity.
Qed.
Lemma csin_exp' z :
  csin z = cdiv (csub (cexp (cmul cunit_im z)) (cexp (cneg (cmul cunit_im z))))
                (cmul (cadd cone cone) cunit_im).
Proof.
  rewrite csin_exp, chalf_eq. set (w := csub _ _).
  assert (cunit_im <> @czero R _) by (intros E; apply (f_equal im) in E; cbn in E; lra).
  pose proof ctwo_nz.
  assert (I : cneg cunit_im = cdiv cone (@cunit_im R _)).
  { assert (E : cmul (cneg cunit_im) cunit_im = @cone R _) by (cext; rnum; ring).
    rewrite <- E. field. auto. }
  rewrite I. field. auto.
Qed.

Lemma exp_pair z : exists e f, cexp z = e /\ cexp (cneg z) = f /\ cmul e f = cone.
Proof. exists (cexp z), (cexp (cneg z)). auto using cexp_neg. Qed.

Lemma ccosh2_csinh2 z : csub (cmul (ccosh z) (ccosh z)) (cmul (csinh z) (csinh z)) = cone.
Proof.
  rewrite ccosh_exp, csinh_exp, !chalf_eq.
  destruct (exp_pair z) as (e & f & -> & -> & H).
  transitivity (cmul e f); [field; exact ctwo_nz|exact H].
Qed.
Lemma ccos2_csin2 z : cadd (cmul (ccos z) (ccos z)) (cmul (csin z) (csin z)) = cone.
Proof.
  pose proof (ccosh2_csinh2 (cmul cunit_im z)) as H.
  unfold ccos, csin. cbv zeta. fold (ctimes_i z). rewrite cneg_i_eq, ctimes_i_eq.
  rewrite <- H. set (s := csinh _). set (c := ccosh _).
  replace (cmul (cmul (cneg cunit_im) s) (cmul (cneg cunit_im) s))
    with (cmul (cmul cunit_im cunit_im) (cmul s s)) by ring.
  rewrite cunit_im_sq. ring.
Qed.

(** The denominator of [tanh] is 2 |cosh z|^2. *)
Lemma ccosh_eq z : ccosh z = mkC (cosh (re z) * cos (im z)) (sinh (re z) * sin (im z)).
Proof.
  rewrite ccosh_exp. unfold chalf. cext; rewrite ?cos_neg, ?sin_neg; unfold cosh, sinh; field.
Qed.
Lemma cosh_double x : cosh (x + x) = cosh x * cosh x + sinh x * sinh x.
Proof.
  unfold cosh, sinh. rewrite Ropp_plus_distr, !exp_plus. field.
Qed.
Lemma sinh_double x : sinh (x + x) = 2 * (sinh x * cosh x).
Proof. unfold cosh, sinh. rewrite Ropp_plus_distr, !exp_plus. field. Qed.
Lemma ctanh_denominator z :
  cosh (re z + re z) + cos (im z + im z) = 2 * cmodulus_squared (ccosh z).
Proof.
  rewrite ccosh_eq, cms_R; cbn [re im]. rewrite cosh_double, cos_plus.
  pose proof (cosh2_sinh2 (re z)). pose proof (sin2_cos2R (im z)).
  set (c := cos (im z)) in *. set (s := sin (im z)) in *.
  set (ch := cosh (re z)) in *. set (sh := sinh (re z)) in *.
  assert (sh * sh = ch * ch - 1) by lra. assert (c * c = 1 - s * s) by lra.
  replace (2 * (ch * c * (ch * c) + sh * s * (sh * s)))
    with (2 * ((ch * ch) * (c * c) + (sh * sh) * (s * s))) by ring. rewrite H1, H2. ring.
Qed.
Lemma ctanh_quotient z : ccosh z <> czero -> ctanh z = cdiv (csinh z) (ccosh z).
Proof.
  intros H. apply cms_nz in H.
  pose proof (ctanh_denominator z) as D.
  unfold ctanh. cbv zeta. rewrite D.
  unfold cdiv. cbv zeta. set (n := cmodulus_squared (ccosh z)) in *.
  rewrite ccosh_eq. unfold csinh. cbn [re im].
  cext; rnum.
  - rewrite sinh_double.
    replace (sinh (re z) * cos (im z) * (cosh (re z) * cos (im z)) +
             cosh (re z) * sin (im z) * (sinh (re z) * sin (im z)))
      with (sinh (re z) * cosh (re z) * (sin (im z) * sin (im z) + cos (im z) * cos (im z)))
      by ring. rewrite sin2_cos2R. field. auto.
  - rewrite sin_plus.
    replace (cosh (re z) * sin (im z) * (cosh (re z) * cos (im z)) -
             sinh (re z) * cos (im z) * (sinh (re z) * sin (im z)))
      with (sin (im z) * cos (im z) * (cosh (re z) * cosh (re z) - sinh (re z) * sinh (re z)))
      by ring. rewrite cosh2_sinh2. field. auto.
Qed.
Lemma ctan_quotient z : ccos z <> czero -> ctan z = cdiv (csin z) (ccos z).
Proof.
  intros H. unfold ctan, csin, ccos in *. cbv zeta.
  rewrite ctanh_quotient by exact H. rewrite !cneg_i_eq. field. exact H.
Qed.

(** ** Inverse functions *)
Lemma ccosh_ln w : w <> czero -> ccosh (cln w) = chalf (cadd w (cinv w)).
Proof.
  intros H. rewrite ccosh_exp. pose proof (cexp_neg (cln w)) as E.
  rewrite cexp_ln in * by auto. f_equal. f_equal.
  transitivity (cmul (cinv w) (cmul w (cexp (cneg (cln w))))); [field; auto|].
  rewrite E. ring.
Qed.
Lemma csinh_ln w : w <> czero -> csinh (cln w) = chalf (csub w (cinv w)).
Proof.
  intros H. rewrite csinh_exp. pose proof (cexp_neg (cln w)) as E.
  rewrite cexp_ln in * by auto. f_equal. f_equal.
  transitivity (cmul (cinv w) (cmul w (cexp (cneg (cln w))))); [field; auto|].
  rewrite E. ring.
Qed.
Lemma cinv_unique w v : cmul w v = cone -> cinv w = v.
Proof.
  intros H. pose proof (cmul_one_nz _ _ H).
  transitivity (cmul (cinv w) (cmul w v)); [rewrite H; ring|field; auto].
Qed.

Lemma csinh_asinh z : csinh (casinh z) = z.
Proof.
  unfold casinh. set (s := csqrt _).
  assert (S : cmul s s = cadd cone (cmul z z)) by apply csqrt_sq.
  assert (P : cmul (cadd z s) (csub s z) = cone).
  { replace (cmul (cadd z s) (csub s z)) with (csub (cmul s s) (cmul z z)) by ring.
    rewrite S. ring. }
  rewrite csinh_ln by exact (cmul_one_nz _ _ P). rewrite (cinv_unique _ _ P), chalf_eq.
  field. exact ctwo_nz.
Qed.
Lemma csin_asin z : csin (casin z) = z.
Proof.
  unfold casin. cbv zeta. rewrite cneg_i_eq. fold (ctimes_i z). set (w := casinh (ctimes_i z)).
  unfold csin. cbv zeta. fold (ctimes_i (cmul (cneg cunit_im) w)).
  rewrite cneg_i_eq, ctimes_i_eq.
  replace (cmul cunit_im (cmul (cneg cunit_im) w)) with w by (cext; rnum; ring).
  unfold w. rewrite csinh_asinh, ctimes_i_eq. cext; rnum; ring.
Qed.

Lemma ccosh_double w : w <> czero ->
  ccosh (cmul (cadd cone cone) (cln w)) = chalf (cadd (cmul w w) (cinv (cmul w w))).
Proof.
  intros H. replace (cmul (cadd cone cone) (cln w)) with (cadd (cln w) (cln w)) by ring.
  rewrite ccosh_exp. f_equal.
  assert (E : cexp (cadd (cln w) (cln w)) = cmul w w).
  { rewrite cexp_add, cexp_ln by auto. reflexivity. }
  rewrite E. f_equal. symmetry. apply cinv_unique. rewrite <- E. apply cexp_neg.
Qed.
Lemma ccosh_acosh z : ccosh (cacosh z) = z.
Proof.
  unfold cacosh. cbv zeta.
  set (a := csqrt (cdiv (cadd z cone) _)). set (b := csqrt (cdiv (csub z cone) _)).
  assert (A : cmul a a = cdiv (cadd z cone) (cadd cone cone)) by apply csqrt_sq.
  assert (B : cmul b b = cdiv (csub z cone) (cadd cone cone)) by apply csqrt_sq.
  pose proof ctwo_nz as T.
  assert (P : cmul (cmul (cadd a b) (cadd a b)) (cmul (csub a b) (csub a b)) = cone).
  { replace (cmul (cmul (cadd a b) (cadd a b)) (cmul (csub a b) (csub a b)))
      with (cmul (csub (cmul a a) (cmul b b)) (csub (cmul a a) (cmul b b))) by ring.
    rewrite A, B. field. exact T. }
  assert (Q : cadd a b <> czero).
  { intros E. rewrite E in P. apply (f_equal re) in P. cbn in P. rnum. lra. }
  rewrite ccosh_double by exact Q. rewrite (cinv_unique _ _ P), chalf_eq.
  replace (cadd (cmul (cadd a b) (cadd a b)) (cmul (csub a b) (csub a b)))
    with (cmul (cadd cone cone) (cadd (cmul a a) (cmul b b))) by ring.
  rewrite A, B. field. exact T.
Qed.
Lemma ccos_acos z : ccos (cacos z) = z.
Proof.
  unfold cacos. destruct z as [x y]; cbn [re im].
  assert (G : ccos (cmul (cneg cunit_im) (cln (cadd (cmul cunit_im (csqrt (csub cone
     (cmul (mkC x y) (mkC x y))))) (mkC x y)))) = mkC x y).
  { set (z := mkC x y). set (s := csqrt _).
    assert (S : cmul s s = csub cone (cmul z z)) by apply csqrt_sq.
    unfold ccos. set (w := cln _). fold (ctimes_i (cmul (cneg cunit_im) w)).
    rewrite ctimes_i_eq.
    replace (cmul cunit_im (cmul (cneg cunit_im) w)) with w by (cext; rnum; ring).
    unfold w.
    assert (P : cmul (cadd (cmul cunit_im s) z) (csub z (cmul cunit_im s)) = cone).
    { replace (cmul (cadd (cmul cunit_im s) z) (csub z (cmul cunit_im s)))
        with (csub (cmul z z) (cmul (cmul cunit_im cunit_im) (cmul s s))) by ring.
      rewrite cunit_im_sq, S. ring. }
    rewrite ccosh_ln by exact (cmul_one_nz _ _ P).
    rewrite (cinv_unique _ _ P), chalf_eq. field. exact ctwo_nz. }
  destruct (nis0 x) eqn:Ex; cbn [andb]; [destruct (nis0 y) eqn:Ey|]; try exact G.
  cbn in Ex, Ey. destruct (Req_EM_T x 0), (Req_EM_T y 0); try discriminate. subst.
  unfold ccos; cbn [re im]. rewrite ccosh_eq. cbn [re im]. rewrite !Ropp_0, cosh_0, sinh_0,
    cos_PI2, sin_PI2. cext; ring.
Qed.

Lemma ctanh_atanh z w : catanh z = Some w -> ccosh w <> czero /\ ctanh w = z.
Proof.
  intros H. pose proof ctwo_nz as T.
  assert (G : cadd cone z <> czero /\ csub cone z <> czero /\
     w = cdiv (csub (cln (cadd cone z)) (cln (csub cone z))) (cadd cone cone)).
  { unfold catanh in H. cbv zeta in H. destruct z as [x y]; cbn [re im] in *.
    destruct (Req_EM_T y 0), (Req_EM_T x 1), (Req_EM_T x (-1)); try discriminate;
    injection H as <-; conjs; auto;
    try (intros E; pose proof (f_equal re E); pose proof (f_equal im E); cbn in *; rnum; lra). }
  destruct G as (P & M & ->). set (p := cadd cone z) in *. set (m := csub cone z) in *.
  set (u := cdiv (csub (cln p) (cln m)) (cadd cone cone)).
  assert (U : cadd u u = csub (cln p) (cln m)) by (unfold u; field; exact T).
  assert (E2 : cmul (cmul (cexp u) (cexp u)) m = p).
  { rewrite <- cexp_add, U. rewrite <- (cexp_ln m M) at 2. rewrite <- cexp_add.
    replace (cadd (csub (cln p) (cln m)) (cln m)) with (cln p) by ring. apply cexp_ln; auto. }
  destruct (exp_pair u) as (e & f & He & Hf & HF). rewrite He in E2.
  assert (En : e <> czero) by exact (cmul_one_nz _ _ HF).
  assert (Mf : cmul e m = cmul f p).
  { transitivity (cmul (cmul e f) (cmul e m)); [rewrite HF; ring|].
    rewrite <- E2. ring. }
  assert (C : ccosh u <> czero).
  { rewrite ccosh_exp, He, Hf, chalf_eq. intros E.
    assert (S : cadd e f = czero).
    { transitivity (cmul (cdiv (cadd e f) (cadd cone cone)) (cadd cone cone)); [field; exact T|].
      rewrite E. ring. }
    assert (S' : f = cneg e).
    { transitivity (cadd (cadd e f) (cneg e)); [ring|rewrite S; ring]. }
    rewrite S' in Mf.
    assert (X : cmul e (cadd m p) = czero).
    { transitivity (cadd (cmul e m) (cmul e p)); [ring|]. rewrite Mf. ring. }
    apply cmul_zero_inv in X. destruct X as [X|X]; [auto|].
    replace (cadd m p) with (cadd cone (@cone R _)) in X by (unfold m, p; ring). auto. }
  split; [exact C|]. rewrite ctanh_quotient by exact C.
  assert (D : cmul (ccosh u) z = csinh u).
  { rewrite ccosh_exp, csinh_exp, He, Hf, !chalf_eq.
    assert (Y : cmul (cadd e f) z = csub e f).
    { transitivity (cadd (csub e f) (csub (cmul f p) (cmul e m))); [unfold p, m; ring|].
      rewrite Mf. ring. }
    rewrite <- Y. field. exact T. }
  rewrite <- D. field. exact C.
Qed.
Lemma catanh_none z : catanh z = None <-> z = cone \/ z = cneg cone.
Proof.
  unfold catanh. cbv zeta. destruct z as [x y]; cbn [re im]. split.
  - destruct (Req_EM_T y 0), (Req_EM_T x 1), (Req_EM_T x (-1)); try discriminate; intros _; subst;
    [left|left|right]; cext; rnum; lra.
  - intros [E|E]; pose proof (f_equal re E) as A; pose proof (f_equal im E) as B; cbn in A, B;
    destruct (Req_EM_T y 0), (Req_EM_T x 1), (Req_EM_T x (-1)); auto; lra.
Qed.
Lemma ctan_atan z w : catan z = Some w -> ccos w <> czero /\ ctan w = z.
Proof.
  unfold catan. destruct (catanh (mkC (- im z) (re z))) as [v|] eqn:E; [|discriminate].
  intros [= <-]. apply ctanh_atanh in E. destruct E as [C T].
  rewrite cneg_i_eq. unfold ccos, ctan. cbv zeta. fold (ctimes_i (cmul (cneg cunit_im) v)).
  rewrite ctimes_i_eq. replace (cmul cunit_im (cmul (cneg cunit_im) v)) with v by (cext; rnum; ring).
  split; [exact C|]. rewrite T. cext; rnum; ring.
Qed.
Lemma catan_none z : catan z = None <-> z = cunit_im \/ z = cneg cunit_im.
Proof.
  unfold catan. destruct (catanh (mkC (- im z) (re z))) as [v|] eqn:E.
  - split; [discriminate|]. intros H.
    assert (N : catanh (mkC (- im z) (re z)) = None).
    { apply catanh_none. destruct H as [->| ->]; [right|left]; cext; rnum; lra. }
    congruence.
  - split; auto. intros _. apply catanh_none in E. destruct z as [x y]; cbn [re im] in E.
    destruct E as [E|E]; pose proof (f_equal re E) as A; pose proof (f_equal im E) as B;
    cbn in A, B; [right|left]; cext; rnum; lra.
Qed.

(** ** Invertibility threshold *)
Lemma cis_invertible_sound z eps :
  0 < eps -> cis_invertible_eps z eps = true -> exists w, ctry_inverse z = Some w.
Proof.
  intros He. unfold cis_invertible_eps. destruct (Rle_dec _ _) as [H|]; [|discriminate].
  intros _. destruct (ctry_inverse z) eqn:E; [eauto|].
  unfold ctry_inverse in E. destruct (nis0 (cmodulus_squared z)) eqn:N; [|discriminate].
  cbn [nis0 numdiv_R] in N. destruct (Req_EM_T (cmodulus_squared z) 0); [nra|discriminate].
Qed.

Lemma cis_invertible_incomplete eps : 0 < eps ->
  exists (z w : complex R), ctry_inverse z = Some w /\ cmul z w = mkC 1 0 /\
                            cis_invertible_eps z eps = false.
Proof.
  intros He. set (z := mkC (eps / 2) 0).
  assert (M : cmodulus_squared z = eps * eps / 4) by (rewrite cms_R; cbn; field).
  assert (N : cmodulus_squared z <> 0) by (rewrite M; nra).
  destruct (ctry_inverse z) as [w|] eqn:E.
  - exists z, w. split; auto. split.
    + apply (ctry_inverse_some z w E).
    + unfold cis_invertible_eps. rewrite M. destruct (Rle_dec _ _); [nra|reflexivity].
  - apply ctry_inverse_none in E. contradiction.
Qed.
Lemma ctry_inverse_noneR z : ctry_inverse z = None <-> z = mkC 0 0.
Proof. rewrite ctry_inverse_none. apply cms_zero. Qed.

Lemma cexp_cis z : cexp z = cmul (cfrom_real (exp (re z))) (ccis (im z)).
Proof. cext; rnum; ring. Qed.
Lemma cmul_s_div_s z s : s <> 0 -> cmul_s (cdiv_s z s) s = z.
Proof. intros. cext; rnum; field; auto. Qed.
Lemma clog_exp z b : 0 < b -> b <> 1 -> z <> mkC 0 0 -> cexp (cmul_s (clog z b) (ln b)) = z.
Proof.
  intros Hb H1 Hz. rewrite clog_spec, cmul_s_div_s; [apply cexp_ln; auto|].
  intros E. apply H1. rewrite <- (exp_ln b), E by auto. apply exp_0.
Qed.
Lemma ln_gt_1 x : 1 < x -> ln x <> 0.
Proof. intros H. assert (ln 1 < ln x) by (apply ln_increasing; lra). rewrite ln_1 in *. lra. Qed.
Lemma clog2_10_exp z : z <> mkC 0 0 ->
  cexp2 (clog2 z) = z /\ cexp (cmul_s (clog10 z) (ln 10)) = z.
Proof.
  intros Hz. rewrite cexp2_spec. unfold clog2, clog10.
  rewrite !cmul_s_div_s by (apply ln_gt_1; lra). split; apply cexp_ln; auto.
Qed.
Lemma cpowf_1 z : z <> mkC 0 0 -> cpowf z 1 = z.
Proof.
  intros H. unfold cpowf. replace (cmul_s (cln z) 1) with (cln z); [apply cexp_ln; auto|].
  cext; rnum; ring.
Qed.
Lemma cpowf_add z s t : cpowf z (s + t) = cmul (cpowf z s) (cpowf z t).
Proof.
  unfold cpowf. rewrite <- cexp_add. f_equal. cext; rnum; ring.
Qed.
Lemma cpowf_nat z : z <> mkC 0 0 -> forall n : nat, cpowf z (INR n) = cprod z n.
Proof.
  intros H. induction n as [|n IH].
  - cbn [INR cprod]. unfold cpowf. replace (cmul_s (cln z) 0) with (@czero R _);
    [apply cexp_0|cext; rnum; ring].
  - rewrite S_INR, cpowf_add, IH, cpowf_1 by auto. cbn [cprod]. ring.
Qed.
Lemma cis_zeroR z : cis_zero z = true <-> z = czero :> complex R.
Proof.
  unfold cis_zero. rewrite andb_true_iff. cbn [nis0 numdiv_R].
  destruct z as [a b]; cbn [re im].
  destruct (Req_EM_T a 0), (Req_EM_T b 0); split; try (intros [? ?]; discriminate);
  try (intros H; injection H; intros; contradiction); subst; auto.
Qed.
Lemma cpowc_exp z w : cpowc z w = cexp (cmul w (cln z)).
Proof.
  unfold cpowc. destruct (cis_zero w) eqn:E; [|reflexivity].
  apply cis_zeroR in E. subst w. replace (cmul czero (cln z)) with (@czero R _) by ring.
  rewrite cexp_0. reflexivity.
Qed.
Lemma cpowc_1 z : z <> mkC 0 0 -> cpowc z (mkC 1 0) = z.
Proof.
  intros H. rewrite cpowc_exp. change (mkC 1 0) with (@cone R _).
  replace (cmul cone (cln z)) with (cln z) by ring. apply cexp_ln; auto.
Qed.
Lemma cpowc_0 z : cpowc z (mkC 0 0) = mkC 1 0.
Proof.
  rewrite cpowc_exp. change (mkC 0 0) with (@czero R _).
  replace (cmul czero (cln z)) with (@czero R _) by ring. apply cexp_0.
Qed.
Lemma cpowc_add z a b : cpowc z (cadd a b) = cmul (cpowc z a) (cpowc z b).
Proof.
  rewrite !cpowc_exp, <- cexp_add. f_equal. ring.
Qed.
Lemma csqrt_unique z w : cmul w w = z -> w = csqrt z \/ w = cneg (csqrt z).
Proof.
  intros H. pose proof (csqrt_sq z) as S. set (s := csqrt z) in *.
  assert (P : cmul (csub w s) (cadd w s) = czero).
  { replace (cmul (csub w s) (cadd w s)) with (csub (cmul w w) (cmul s s)) by ring.
    rewrite H, S. ring. }
  apply cmul_zero_inv in P. destruct P as [P|P]; [left|right].
  - transitivity (cadd (csub w s) s); [ring|rewrite P; ring].
  - transitivity (csub (cadd w s) s); [ring|rewrite P; ring].
Qed.
Lemma ctrig_exp z :
    let i := mkC 0 1 in let two := mkC 2 0 in
    ccosh z = cdiv (cadd (cexp z) (cexp (cneg z))) two /\
    csinh z = cdiv (csub (cexp z) (cexp (cneg z))) two /\
    ccos z = cdiv (cadd (cexp (cmul i z)) (cexp (cneg (cmul i z)))) two /\
    csin z = cdiv (csub (cexp (cmul i z)) (cexp (cneg (cmul i z)))) (cmul two i).
Proof.
  intros i two. assert (T : two = cadd cone cone) by (unfold two; cext; rnum; ring).
  rewrite T. change i with (@cunit_im R _).
  conjs; [rewrite ccosh_exp|rewrite csinh_exp|rewrite ccos_exp|rewrite csin_exp']; auto;
  rewrite chalf_eq; reflexivity.
Qed.
Lemma catan_all z :
    (catanh z = None <-> z = mkC 1 0 \/ z = mkC (-1) 0) /\
    (forall w, catanh z = Some w -> ccosh w <> mkC 0 0 /\ ctanh w = z) /\
    (catan z = None <-> z = mkC 0 1 \/ z = mkC 0 (-1)) /\
    (forall w, catan z = Some w -> ccos w <> mkC 0 0 /\ ctan w = z).
Proof.
  assert (E1 : cneg cone = mkC (-1) 0) by (cext; rnum; ring).
  assert (E2 : cneg cunit_im = mkC 0 (-1)) by (cext; rnum; ring).
  split; [rewrite catanh_none, E1; reflexivity|]. split; [apply ctanh_atanh|].
  split; [rewrite catan_none, E2; reflexivity|apply ctan_atan].
Qed.
Lemma cnormalize_all (z : complex R) (threshold : R) :
    (z <> mkC 0 0 -> cnorm (cnormalize z) = 1 /\ cscale (cnormalize z) (cnorm z) = z) /\
    (ctry_normalize z threshold = None <-> cnorm z <= threshold) /\
    (forall w, ctry_normalize z threshold = Some w -> w = cnormalize z).
Proof.
  split; [|split].
  - intros H. apply cnorm_pos in H. unfold cnormalize. split.
    + rewrite cmul_s_eq, cnorm_mul.
      assert (E : cnorm (cfrom_real (1 / cnorm z)) = 1 / cnorm z).
      { unfold cnorm at 1. rewrite cms_R. cbn. rewrite Rmult_0_l, Rplus_0_r.
        apply sqrt_square. apply Rlt_le. unfold Rdiv. rewrite Rmult_1_l.
        apply Rinv_0_lt_compat; auto. }
      rewrite E. field. lra.
    + cext; rnum; field; lra.
  - unfold ctry_normalize. destruct (Rle_dec _ _); split; auto; [discriminate|contradiction].
  - intros w. unfold ctry_normalize. destruct (Rle_dec _ _); [discriminate|congruence].
Qed.

(** Witnesses for the examples. *)
Lemma c35_witness :
  mkC 0 (-1) <> mkC 0 0 :> complex R /\ carg (mkC 0 (-1)) = - (PI / 2) /\
  - PI < PI <= PI /\ cpolar (mkC (-2) 0) = (2, PI).
Proof.
  pose proof PI_RGT_0. split; [|split; [|split; [lra|]]].
  - intros H0. injection H0. lra.
  - unfold carg, ratan2; cbn [re im]. destruct (Rlt_dec 0 0); [lra|].
    destruct (Rlt_dec 0 (-1)); [lra|]. destruct (Rlt_dec (-1) 0); lra.
  - replace (mkC (-2) 0) with (cfrom_polar 2 PI).
    + apply cpolar_from_polar; lra.
    + cext; rewrite ?cos_PI, ?sin_PI; ring.
Qed.
Lemma c36_witness : csqrt (mkC (-4) 0) = mkC 0 2.
Proof.
  pose proof PI_RGT_0.
  assert (E : cpolar (mkC (-4) 0) = (4, PI)).
  { replace (mkC (-4) 0) with (cfrom_polar 4 PI).
    - apply cpolar_from_polar; lra.
    - cext; rewrite ?cos_PI, ?sin_PI; ring. }
  unfold cpolar in E. injection E as E1 E2. rewrite csqrt_polar, E1, E2.
  replace 4 with (2 * 2) by ring. rewrite sqrt_square by lra.
  cext; rewrite ?cos_PI2, ?sin_PI2; ring.
Qed.
Lemma c37_witness :
  ccosh (mkC 0 0) <> mkC 0 0 /\ (exists w, catan (mkC 2 0) = Some w) /\ ccos (mkC PI 0) = mkC (-1) 0.
Proof.
  split; [|split].
  - rewrite ccosh_eq. cbn [re im]. rewrite cosh_0, cos_0. intros H. injection H. lra.
  - destruct (catan (mkC 2 0)) eqn:E; [eauto|]. apply catan_none in E.
    destruct E as [E|E]; injection E; lra.
  - unfold ccos; cbn [re im]. rewrite ccosh_eq; cbn [re im].
    rewrite Ropp_0, cosh_0, sinh_0, cos_PI. cext; ring.
Qed.
Lemma c38_witness : ctry_inverse (mkC 0 2) = Some (mkC 0 (- (1 / 2))).
Proof.
  unfold ctry_inverse. rewrite cms_R. cbn [re im nis0 numdiv_R].
  destruct (Req_EM_T _ 0); [lra|]. f_equal. cext; rnum; field.
Qed.
Lemma c10_c12_witness :
  cnorm (mkC 3 4) = 5 /\
  ctry_cast (fun z => if Z.ltb z 128 then Some z else None) (mkC 3 400)%Z = None /\
  ccmp_all (fun a b t => Z.leb (Z.abs (a - b)) t) (mkC 3 400)%Z (mkC 4 399)%Z 1%Z = true.
Proof.
  split; [|split; reflexivity]. unfold cnorm. rewrite cms_R; cbn.
  replace (3 * 3 + 4 * 4) with (5 * 5) by ring. apply sqrt_square; lra.
Qed.
