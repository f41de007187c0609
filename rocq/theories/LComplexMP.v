(** Proofs of the theorems of PComplexF.v on inverse functions at finite arguments. *)

From Coq Require Import ZArith Bool Reals Lia Lra.
From Flocq Require Import Core.Core IEEE754.BinarySingleNaN.
From Verif Require Import Base Scalar MReal MComplex MFloat MFloatVec MSign MComplexF SpecLibm SpecLibmS SpecCR LFloat LReal LAngleFP LComplexFP LComplexGP LComplexIP LLibmP LComplexHP LComplexJP LComplexLP LTrigB LFloatNormP.
Local Open Scope R_scope.

Section CR.
Context {prec emax : Z} {Hprec : Prec_gt_0 prec} {Hemax : Prec_lt_emax prec emax}.
Notation fl := (binary_float prec emax).
Notation fexp := (FLT_exp (3 - emax - prec) prec).
Notation rnd := (round radix2 fexp ZnearestE).
Local Instance vexpC : Valid_exp fexp := FLT_exp_valid _ _.
Variable nb : bool.
Notation L := (cr_libm nb : libm fl).
Hypothesis He5 : (6 <= emax)%Z.

Lemma cr_signs : libm_signs L.
Proof.
  assert (PE : (0 < prec < emax)%Z) by (unfold Prec_gt_0, Prec_lt_emax in *; lia). pose proof PI_bounds as PB.
  split.
  - intros y x Ny Nx. cbn [m_atan2 cr_libm]. unfold cr_atan2. rewrite Ny, Nx. cbn [orb].
    assert (Q : forall u : fl, is_finite u = true /\ Rabs (B2R u) <= 4 ->
      is_finite (fset_sign (Bsign y) u) = true /\ Rabs (B2R (fset_sign (Bsign y) u)) <= 4 /\ Bsign (fset_sign (Bsign y) u) = Bsign y).
    { intros u (U1 & U2). rewrite set_sign_fin, set_sign_R. split; [exact U1|]. split; [destruct (Bsign y); rewrite ?Rabs_Ropp, Rabs_Rabsolu; exact U2|].
      apply set_sign_sign, fin_nan, U1. }
    apply Q.
    assert (K : forall r, Rabs r <= 4 -> is_finite (cr r false : fl) = true /\ Rabs (B2R (cr r false : fl)) <= 4).
    { intros r R. destruct (cr_bounded r false 2) as (A & B & _); [lia|cbn; lra|split; [exact A|exact B]]. }
    assert (Z : is_finite (B754_zero false : fl) = true /\ Rabs (B2R (B754_zero false : fl)) <= 4) by (split; [reflexivity|cbn; rewrite Rabs_R0; lra]).
    assert (KP : Rabs PI <= 4) by (rewrite Rabs_pos_eq; lra). assert (KP2 : Rabs (PI / 2) <= 4) by (rewrite Rabs_pos_eq; lra).
    assert (KP4 : Rabs (PI / 4) <= 4) by (rewrite Rabs_pos_eq; lra). assert (KP34 : Rabs (3 * PI / 4) <= 4) by (rewrite Rabs_pos_eq; lra).
    destruct y as [sy|sy| |sy my ey Hy], x as [sx|sx| |sx mx ex Hx]; try discriminate Ny; try discriminate Nx;
      try (destruct sx); try exact Z; apply K; try assumption; apply ratan2_abs4.
  - reflexivity.
  - intros x F B. cbn [m_sin cr_libm]. rewrite F. destruct (cr_bounded (sin (B2R x)) (Bsign x) 0) as (_ & _ & _ & E).
    { lia. } { apply Rabs_le. pose proof (SIN_bound (B2R x)). cbn. lra. }
    rewrite E. unfold cr_sign. apply Rabs_le_inv in B.
    assert (PI2 : 2 < PI) by (pose proof PI2_3_2; lra).
    destruct (Rtotal_order (B2R x) 0) as [X|[X|X]].
    + pose proof (sin_gt_0 (- B2R x) ltac:(lra) ltac:(lra)) as G. rewrite sin_neg in G. destruct Rlt_dec; [|lra]. symmetry. apply neg_sign, X.
    + rewrite X, sin_0. destruct (Rlt_dec 0 0); [lra|reflexivity].
    + pose proof (sin_gt_0 (B2R x) ltac:(lra) ltac:(lra)) as G. destruct Rlt_dec; [lra|]. destruct Rlt_dec; [|lra]. symmetry. apply pos_sign, X.
Qed.

Lemma cr_rounded : libm_rounded L.
Proof.
  assert (PE : (0 < prec < emax)%Z) by (unfold Prec_gt_0, Prec_lt_emax in *; lia).
  split.
  - intros x F. cbn [m_sin cr_libm]. rewrite F. destruct (cr_bounded (sin (B2R x)) (Bsign x) 0) as (_ & _ & E & _); [lia| |exact E].
    apply Rabs_le. pose proof (SIN_bound (B2R x)). cbn. lra.
  - intros x F. cbn [m_cos cr_libm]. rewrite F. destruct (cr_bounded (cos (B2R x)) false 0) as (_ & _ & E & _); [lia| |exact E].
    apply Rabs_le. pose proof (COS_bound (B2R x)). cbn. lra.
  - intros y x Fy Fx X. cbn [m_atan2 cr_libm]. unfold cr_atan2. rewrite (fin_nan y Fy), (fin_nan x Fx). cbn [orb].
    assert (E : B2R (fset_sign (Bsign y) (cr (ratan2 (Rabs (B2R y)) (B2R x)) false : fl)) = rnd (atan (B2R y / B2R x))).
    { rewrite set_sign_R. destruct (cr_bounded (ratan2 (Rabs (B2R y)) (B2R x)) false 2) as (_ & _ & E & _); [lia| |].
      { pose proof (ratan2_abs4 (Rabs (B2R y)) (B2R x)). cbn. lra. }
      rewrite E. unfold ratan2. destruct (Rlt_dec 0 (B2R x)) as [_|N]; [|contradiction].
      assert (0 <= rnd (atan (Rabs (B2R y) / B2R x))).
      { rewrite <- (round_0 radix2 fexp ZnearestE). apply round_le; auto with typeclass_instances.
        rewrite <- atan_0. assert (Q : 0 <= Rabs (B2R y) / B2R x) by (apply Rmult_le_pos; [apply Rabs_pos|left; apply Rinv_0_lt_compat, X]).
        destruct Q as [Q|Q]; [left; apply atan_increasing, Q|rewrite <- Q; lra]. }
      rewrite Rabs_pos_eq by assumption.
      destruct (Rtotal_order (B2R y) 0) as [Y|[Y|Y]].
      - rewrite (neg_sign y Y). rewrite <- round_NE_opp, <- atan_opp. f_equal. f_equal. rewrite Rabs_left by exact Y. field. lra.
      - rewrite Y. unfold Rdiv. rewrite Rabs_R0, Rmult_0_l, atan_0, round_0 by auto with typeclass_instances. destruct (Bsign y); ring.
      - rewrite (pos_sign y Y). rewrite Rabs_pos_eq by lra. reflexivity. }
    destruct y as [sy|sy| |sy my ey Hy], x as [sx|sx| |sx mx ex Hx]; try discriminate Fy; try discriminate Fx; try (cbn in X; lra); exact E.
Qed.
End CR.

(** The point -2^60 + 3 2^32 i, where the two imaginary parts of asinh's sum cancel and the real parts leave -128. *)
Definition za : f64 := (- f64_of_Z (2 ^ 60))%N_.
Definition zb : f64 := f64_of_Z (3 * 2 ^ 32).
Definition zR : f64 := f64_of_Z (2 ^ 120 - 2 ^ 67).
Definition zI : f64 := (- f64_of_Z (6 * 2 ^ 92))%N_.
Definition t1 : f64 := (- (f64_of_Z 3 / f64_of_Z (2 ^ 28)))%N_.
Definition t2 : f64 := (- (f64_of_Z 3 / f64_of_Z (2 ^ 27)))%N_.
Definition tc : f64 := (Bone - Bone / f64_of_Z (2 ^ 53))%N_.
Definition m128 : f64 := (- f64_of_Z 128)%N_.

Lemma lit_R (x : f64) s m e : B2SF x = SpecFloat.S754_finite s m e -> is_finite x = true /\ B2R x = IZR (cond_Zopp s (Zpos m)) * bpow radix2 e /\ Bsign x = s.
Proof.
  destruct x as [t|t| |t m' e' H]; cbn; try discriminate. intros E. injection E as -> -> ->. repeat split; reflexivity.
Qed.

Section F64.
Variable L : libm f64.
Hypothesis S : libm_symmetric L.
Hypothesis P : libm_special L.
Hypothesis Rd : libm_rounded L.

Lemma rd_eq (x y : f64) r s m k : is_finite x = true -> B2R x = round radix2 (FLT_exp (3 - 1024 - 53) 53) ZnearestE r ->
  (-1021 <= k)%Z -> bpow radix2 (k - 1) <= Rabs r < bpow radix2 k -> Rabs (r * bpow radix2 (53 - k) - IZR (cond_Zopp s (Zpos m))) < / 2 ->
  B2SF y = SpecFloat.S754_finite s m (k - 53) -> x = y.
Proof.
  intros F E K B H Y. rewrite (rnd64 r k _ K B H) in E. destruct (lit_R y _ _ _ Y) as (Fy & Vy & Sy).
  apply fval_eq; [exact F|exact Fy|congruence|]. rewrite Sy. pose proof (bpow_gt_0 radix2 (k - 53)) as Q.
  destruct s; cbn [cond_Zopp] in *.
  - apply neg_sign. rewrite E, <- (Rmult_0_l (bpow radix2 (k - 53))). apply Rmult_lt_compat_r; [exact Q|apply IZR_lt; lia].
  - apply pos_sign. rewrite E. apply Rmult_lt_0_compat; [apply IZR_lt; lia|exact Q].
Qed.

Lemma v_t1 : is_finite t1 = true /\ B2R t1 = - (3 / 268435456).
Proof.
  destruct (lit_R t1 true (3 * 2 ^ 51) (-79)) as (F & V & _); [vm_compute; reflexivity|]. split; [exact F|]. rewrite V.
  change (bpow radix2 (-79)) with (/ IZR (2 ^ 79)). change (cond_Zopp true (Z.pos (3 * 2 ^ 51))) with (- 6755399441055744)%Z. change (2 ^ 79)%Z with 604462909807314587353088%Z. lra.
Qed.

Lemma angle_zA : m_atan2 L zI zR = t2.
Proof.
  destruct (lit_R zI true (3 * 2 ^ 51) 42) as (FI & VI & _); [vm_compute; reflexivity|].
  destruct (lit_R zR false (2 ^ 53 - 1) 67) as (FR & VR & _); [vm_compute; reflexivity|].
  assert (XR : 0 < B2R zR) by (rewrite VR; apply Rmult_lt_0_compat; [apply IZR_lt; reflexivity|apply bpow_gt_0]).
  assert (Q : B2R zI / B2R zR = - (6755399441055744 / (9007199254740991 * 33554432))).
  { rewrite VI, VR. change (bpow radix2 42) with (IZR (2 ^ 42)). change (bpow radix2 67) with (IZR (2 ^ 67)).
    change (cond_Zopp true (Z.pos (3 * 2 ^ 51))) with (- 6755399441055744)%Z. change (cond_Zopp false (Z.pos (2 ^ 53 - 1))) with 9007199254740991%Z.
    change (2 ^ 42)%Z with 4398046511104%Z. change (2 ^ 67)%Z with 147573952589676412928%Z. field. }
  set (q := 6755399441055744 / (9007199254740991 * 33554432)) in *.
  assert (Q0 : 3 / 134217728 * (1 + / 9100000000000000) < q < 3 / 134217728 * (1 + / 9000000000000000)) by (unfold q; lra).
  pose proof (atan_taylor q ltac:(lra)) as (A & B).
  assert (Q3 : 27 / 2417851639229258349412352 <= q ^ 3 <= 27 / 2417851639229258349412352 * (1 + / 1000000)).
  { pose proof (pow_incr (3 / 134217728) q 3 ltac:(lra)) as I. pose proof (pow_incr q (3 / 134217728 * (1 + / 9000000000000000)) 3 ltac:(lra)) as J.
    split; [eapply Rle_trans; [|exact I]|eapply Rle_trans; [exact J|]]; lra. }
  assert (Q5 : 0 <= q ^ 5 <= / 10 ^ 37).
  { split; [apply pow_le; lra|]. eapply Rle_trans; [apply (pow_incr q (/ 40000000) 5); lra|lra]. }
  apply (rd_eq _ t2 (atan (B2R zI / B2R zR)) true (3 * 2 ^ 51) (-25)).
  - apply (sp_atan2 L P); assumption.
  - apply (rd_atan2 L Rd); assumption.
  - lia.
  - rewrite Q, atan_opp, Rabs_Ropp, Rabs_pos_eq by lra. change (bpow radix2 (-25 - 1)) with (/ 67108864). change (bpow radix2 (-25)) with (/ 33554432). lra.
  - rewrite Q, atan_opp. change (bpow radix2 (53 - -25)) with 302231454903657293676544. change (cond_Zopp true (Z.pos (3 * 2 ^ 51))) with (- 6755399441055744)%Z.
    apply Rabs_def1; lra.
  - vm_compute; reflexivity.
Qed.

Lemma cos_zA : m_cos L t1 = tc.
Proof.
  destruct v_t1 as (F & V). pose proof (cos_taylor (3 / 268435456) ltac:(lra)) as C.
  apply (rd_eq _ tc (cos (B2R t1)) false (2 ^ 53 - 1) 0).
  - apply (sp_cos L P), F.
  - apply (rd_cos L Rd), F.
  - lia.
  - rewrite V, cos_neg, Rabs_pos_eq by lra. change (bpow radix2 (0 - 1)) with (/ 2). change (bpow radix2 0) with 1. lra.
  - rewrite V, cos_neg. change (bpow radix2 (53 - 0)) with 9007199254740992. change (cond_Zopp false (Z.pos (2 ^ 53 - 1))) with 9007199254740991%Z.
    apply Rabs_def1; lra.
  - vm_compute; reflexivity.
Qed.
Lemma sin_zA : m_sin L t1 = t1.
Proof.
  destruct v_t1 as (F & V). pose proof (sin_taylor (3 / 268435456) ltac:(lra)) as C.
  apply (rd_eq _ t1 (sin (B2R t1)) true (3 * 2 ^ 51) (-26)).
  - apply (sp_sin L P), F.
  - apply (rd_sin L Rd), F.
  - lia.
  - rewrite V, sin_neg, Rabs_Ropp, Rabs_pos_eq by lra. change (bpow radix2 (-26 - 1)) with (/ 134217728). change (bpow radix2 (-26)) with (/ 67108864). lra.
  - rewrite V, sin_neg. change (bpow radix2 (53 - -26)) with 604462909807314587353088. change (cond_Zopp true (Z.pos (3 * 2 ^ 51))) with (- 6755399441055744)%Z.
    apply Rabs_def1; lra.
  - vm_compute; reflexivity.
Qed.
Lemma sqrt_zA : fc_sqrt L (mkC zR zI) = mkC (f64_of_Z (2 ^ 60 - 128)) (- zb)%N_.
Proof.
  assert (E : fc_sqrt L (mkC zR zI) = mkC (fsqrt (fc_norm (mkC zR zI)) * m_cos L (m_atan2 L zI zR / (n1 + n1)))%N_
    (fsqrt (fc_norm (mkC zR zI)) * m_sin L (m_atan2 L zI zR / (n1 + n1)))%N_) by reflexivity.
  rewrite E, angle_zA. clear E. replace (t2 / (n1 + n1))%N_ with t1 by lit. rewrite cos_zA, sin_zA.
  replace (fsqrt (fc_norm (mkC zR zI))) with (f64_of_Z (2 ^ 60)) by (unfold fc_norm, cmodulus_squared; cbn [re im]; lit).
  f_equal; lit.
Qed.
Lemma asinh_zA : fc_asinh L (mkC za zb) = mkC (m_ln L (f64_of_Z 128)) (m_pi L).
Proof.
  rewrite asinh_finite by reflexivity. unfold asinh_body.
  replace (cadd cone (cmul (mkC za zb) (mkC za zb))) with (mkC zR zI) by (unfold cadd, cmul; cbn [re im cone cidentity]; f_equal; lit).
  rewrite sqrt_zA. replace (cadd (mkC za zb) _) with (mkC m128 (B754_zero false)) by (unfold cadd; cbn [re im]; f_equal; lit).
  unfold fc_ln, fc_arg. cbn [re im]. f_equal.
  - f_equal. unfold fc_norm, cmodulus_squared. cbn [re im]. lit.
  - apply (sp_atan2_neg L P); [reflexivity|]. destruct (lit_R m128 true (2 ^ 52) (-45)) as (_ & V & _); [vm_compute; reflexivity|]. rewrite V.
    pose proof (bpow_gt_0 radix2 (-45)) as Q. change (IZR (cond_Zopp true (Z.pos (2 ^ 52)))) with (-4503599627370496). lra.
Qed.
Lemma asinh_zA_conj : fc_asinh L (mkC za (- zb)%N_) = mkC (m_ln L (f64_of_Z 128)) (m_pi L).
Proof.
  rewrite asinh_finite by reflexivity. unfold asinh_body.
  replace (cadd cone (cmul (mkC za (- zb)%N_) (mkC za (- zb)%N_))) with (cconj (mkC zR zI)) by (unfold cadd, cmul, cconj; cbn [re im cone cidentity]; f_equal; lit).
  replace (fc_sqrt L (cconj (mkC zR zI))) with (cconj (fc_sqrt L (mkC zR zI))) by (symmetry; exact (sqrt_conj L S (mkC zR zI))). rewrite sqrt_zA.
  replace (cadd (mkC za (- zb)%N_) _) with (mkC m128 (B754_zero false)) by (unfold cadd, cconj; cbn [re im]; f_equal; lit).
  unfold fc_ln, fc_arg. cbn [re im]. f_equal.
  - f_equal. unfold fc_norm, cmodulus_squared. cbn [re im]. lit.
  - apply (sp_atan2_neg L P); [reflexivity|]. destruct (lit_R m128 true (2 ^ 52) (-45)) as (_ & V & _); [vm_compute; reflexivity|]. rewrite V.
    pose proof (bpow_gt_0 radix2 (-45)) as Q. change (IZR (cond_Zopp true (Z.pos (2 ^ 52)))) with (-4503599627370496). lra.
Qed.
End F64.

Section MulI.
Context {prec emax : Z} {Hprec : Prec_gt_0 prec} {Hemax : Prec_lt_emax prec emax}.
Notation fl := (binary_float prec emax).
Lemma add0_fin t (x : fl) : is_finite x = true -> is_finite (B754_zero t + x)%N_ = true.
Proof. destruct x as [s|s| |s m e H]; try discriminate; intros _; [destruct t, s; reflexivity|reflexivity]. Qed.
Lemma mul0_fin t (x : fl) : is_finite x = true -> exists u, (B754_zero t * x)%N_ = (B754_zero u : fl).
Proof. destruct x as [s|s| |s m e H]; try discriminate; intros _; cbn; eauto. Qed.
Lemma mulm1_fin (x : fl) : is_finite x = true -> is_finite ((- n1) * x)%N_ = true.
Proof.
  intros F. destruct (@one_facts prec emax _ _) as (Fo & O & _). rewrite (fmul_comm (- n1)%N_ x).
  apply (fmul_le1 x (- n1)%N_ F); [rewrite fin_neg; exact Fo|].
  cbn [nneg num_float]. rewrite B2R_Bopp, Rabs_Ropp. rewrite O, Rabs_R1. lra.
Qed.
Lemma muli_fin (w : complex fl) : is_finite (re w) = true -> is_finite (im w) = true -> cis_finite (cmul (cneg cunit_im) w) = true.
Proof.
  destruct w as [l a]. cbn [re im]. intros Fl Fa. unfold cmul, cneg, cis_finite. cbn [re im cunit_im].
  change (- n0)%N_ with (B754_zero true : fl).
  destruct (mul0_fin true l Fl) as (u & E1), (mul0_fin true a Fa) as (v & E2). rewrite E1, E2.
  apply andb_true_intro. split.
  - rewrite fsub_add_neg. apply add0_fin. rewrite fin_neg. apply mulm1_fin, Fa.
  - apply add0_fin. apply mulm1_fin, Fl.
Qed.
End MulI.

Section Acos.
Variable L : libm f64.
Hypothesis P : libm_special L.
Notation p0 := (B754_zero false : f64).

(** acos and asin at +-2^60 i. *)
Lemma asin_im (s : bool) : let z2 := fc_asinh L (z60 s p0) in
  fc_asin L (mkC p0 (if s then f64_of_Z (2 ^ 60) else - f64_of_Z (2 ^ 60))%N_) = mkC (im z2) (- re z2)%N_.
Proof. cbv zeta. unfold fc_asin. cbn [re im]. destruct s; reflexivity. Qed.

Lemma acos_60 (y : f64) : y = f64_of_Z (2 ^ 60) \/ y = (- f64_of_Z (2 ^ 60))%N_ ->
  fc_acos L (mkC p0 y) = cmul (cneg cunit_im) (fc_ln L (mkC p0 (f64_of_Z (2 ^ 60) + y)%N_)).
Proof.
  intros Y.
  assert (E : fc_acos L (mkC p0 y) = cmul (cneg cunit_im) (fc_ln L (cadd (cmul cunit_im (fc_sqrt L (csub cone (cmul (mkC p0 y) (mkC p0 y))))) (mkC p0 y)))).
  { destruct Y as [->| ->]; reflexivity. }
  rewrite E. clear E. f_equal.
  replace (csub cone (cmul (mkC p0 y) (mkC p0 y))) with (mkC (f64_of_Z (2 ^ 120)) p0) by (destruct Y as [->| ->]; unfold csub, cmul; cbn [re im cone cidentity]; f_equal; lit).
  rewrite (sqrt_2p120 L P). f_equal. destruct Y as [->| ->]; unfold cadd, cmul; cbn [re im cunit_im]; f_equal; lit.
Qed.
Lemma acos_up : cis_finite (fc_acos L (mkC p0 (f64_of_Z (2 ^ 60)))) = true.
Proof.
  rewrite acos_60 by auto. replace (f64_of_Z (2 ^ 60) + f64_of_Z (2 ^ 60))%N_ with (f64_of_Z (2 ^ 61)) by lit.
  set (w := fc_ln L _). assert (W : is_finite (re w) = true /\ is_finite (im w) = true).
  { split.
    - change (re w) with (m_ln L (fc_norm (mkC p0 (f64_of_Z (2 ^ 61))))). destruct (pow_pos 61) as (F & Q); [auto|].
      replace (fc_norm _) with (f64_of_Z (2 ^ 61)) by (unfold fc_norm; lit). apply (sp_ln L P); assumption.
    - apply (sp_atan2 L P); reflexivity. }
  apply muli_fin; apply W.
Qed.
Lemma acos_down : im (fc_acos L (mkC p0 (- f64_of_Z (2 ^ 60))%N_)) = B754_infinity false.
Proof.
  rewrite acos_60 by auto. replace (f64_of_Z (2 ^ 60) + - f64_of_Z (2 ^ 60))%N_ with p0 by lit.
  replace (fc_ln L (mkC p0 p0)) with (mkC (B754_infinity true) p0 : complex f64); [reflexivity|].
  unfold fc_ln, fc_arg. cbn [re im]. f_equal.
  - symmetry. change (fc_norm _) with p0. apply (sp_ln_0 L P).
  - symmetry. apply (sp_atan2_0 L P).
Qed.
End Acos.

Lemma c115_inverse_finite :
  forall (prec emax : Z) (Hp : Prec_gt_0 prec) (He : Prec_lt_emax prec emax) (L : libm (binary_float prec emax)),
    (3 <= emax)%Z -> libm_symmetric L -> libm_special L -> libm_signs L ->
    forall z : complex (binary_float prec emax), cis_finite z = true ->
      ((B2R (im z) = 0 -> 1 <= B2R (re z)) -> ceqv (fc_acosh L (cconj z)) (cconj (fc_acosh L z))) /\
      (0 <= B2R (re z) -> (B2R (re z) = 0 -> Rabs (B2R (im z)) <= 1) ->
       ceqv (fc_asinh L (cconj z)) (cconj (fc_asinh L z))).
Proof.
  intros prec emax Hp He L H3 S P G z F. split; intros H.
  - apply (acosh_fin_conj L S P G H3 z F). intros N. apply H. apply is0_iff in N. destruct N as (s & ->). reflexivity.
  - intros H'. exact (asinh_fin_conj L S P G z F H H').
Qed.

Lemma c115_inverse_finite_refuted :
  (forall L : libm f64, libm_symmetric L -> libm_special L -> libm_rounded L ->
     exists z : complex f64, cis_finite z = true /\ B2R (re z) < 0 /\ B2R (im z) <> 0 /\
       fc_asinh L (cconj z) = fc_asinh L z /\ 2 <= B2R (im (fc_asinh L z))) /\
  (forall L : libm f64, libm_special L ->
     (exists z : complex f64, cis_finite z = true /\ B2R (re z) = 0 /\ 1 < B2R (im z) /\
       cis_finite (fc_acos L z) = true /\ im (fc_acos L (cconj z)) = B754_infinity false) /\
     (exists z : complex f64, cis_finite z = true /\ B2R (re z) = 0 /\ B2R (im z) < -1 /\
       cis_finite (fc_asin L z) = true /\ im (fc_asin L (cconj z)) = B754_infinity false)).
Proof.
  split.
  - intros L S P Rd. exists (mkC za zb). split; [reflexivity|]. cbn [re im].
    destruct (lit_R za true (2 ^ 52) 8) as (_ & V & _); [vm_compute; reflexivity|].
    destruct (lit_R zb false (3 * 2 ^ 51) (-19)) as (_ & W & _); [vm_compute; reflexivity|].
    pose proof (bpow_gt_0 radix2 8). pose proof (bpow_gt_0 radix2 (-19)).
    split; [rewrite V; change (IZR (cond_Zopp true (Z.pos (2 ^ 52)))) with (-4503599627370496); lra|].
    split; [rewrite W; change (IZR (cond_Zopp false (Z.pos (3 * 2 ^ 51)))) with 6755399441055744; lra|].
    change (cconj (mkC za zb)) with (mkC za (- zb)%N_). rewrite (asinh_zA L P Rd), (asinh_zA_conj L S P Rd).
    split; [reflexivity|]. apply (sp_pi L P).
  - intros L P.
    assert (V : B2R (f64_of_Z (2 ^ 60)) = bpow radix2 60).
    { destruct (lit_R (f64_of_Z (2 ^ 60)) false (2 ^ 52) 8) as (_ & V & _); [vm_compute; reflexivity|]. rewrite V.
      change (bpow radix2 60) with (IZR (2 ^ 60)). change (bpow radix2 8) with (IZR (2 ^ 8)). rewrite <- mult_IZR. reflexivity. }
    assert (B : 1 < bpow radix2 60) by (change 1 with (bpow radix2 0); apply bpow_lt; lia).
    split.
    + exists (mkC (B754_zero false) (f64_of_Z (2 ^ 60))). split; [reflexivity|]. split; [reflexivity|]. split; [cbn [im]; rewrite V; exact B|].
      split; [exact (acos_up L P)|exact (acos_down L P)].
    + exists (mkC (B754_zero false) (- f64_of_Z (2 ^ 60))%N_). split; [reflexivity|]. split; [reflexivity|]. split.
      { cbn [im nneg num_float]. change (B2R (Bopp (f64_of_Z (2 ^ 60))) < -1). rewrite B2R_Bopp, V. lra. }
      split.
      * refine (eq_trans (f_equal cis_finite (asin_im L false)) _). destruct (asinh_pos60 L P) as (x & Fx & ->).
        unfold cis_finite. cbn [re im]. apply andb_true_intro. split; [reflexivity|]. exact (eq_trans (fin_neg x) Fx).
      * replace (cconj (mkC (B754_zero false) (- f64_of_Z (2 ^ 60))%N_)) with (mkC (B754_zero false) (f64_of_Z (2 ^ 60))) by (unfold cconj; cbn [re im]; f_equal; lit).
        refine (eq_trans (f_equal (@im f64) (asin_im L true)) _). rewrite (asinh_neg60 L P). reflexivity.
Qed.

Lemma c115_example_finite :
  (forall nb : bool,
    libm_signs (cr_libm nb : libm f64) /\ libm_rounded (cr_libm nb : libm f64) /\
    libm_signs (cr_libm nb : libm f32) /\ libm_rounded (cr_libm nb : libm f32)) /\
  (let z := mkC (f64_of_Z 3) (f64_of_Z (-5)) in cis_finite z = true /\ B2R (im z) <> 0 /\ 0 <= B2R (re z) /\ B2R (re z) <> 0).
Proof.
  split.
  - intros nb. split; [apply cr_signs; lia|split; [apply cr_rounded; lia|split; [apply cr_signs; lia|apply cr_rounded; lia]]].
  - cbv zeta. cbn [re im]. destruct (f64_of_Z_exact 3) as (V & F); [cbn; lia|]. destruct (f64_of_Z_exact (-5)) as (V' & F'); [cbn; lia|].
    split; [reflexivity|]. rewrite V, V'. repeat split; lra.
Qed.
