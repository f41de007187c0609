(** Lemmas for C118: complex functions without spurious overflow. *)

From Coq Require Import ZArith Bool Reals Lia Lra Floats.SpecFloat.
From Flocq Require Import Core.Core Relative IEEE754.BinarySingleNaN.
From Verif Require Import Base Scalar MComplex MFloat MFloatVec MSign MComplexF SpecLibm LFloat LFloatVec LAngleFP LComplexFP LComplexGP LComplexIP LSqrtSq LFloatNormP.
Local Open Scope R_scope.

Section Gen.
Context {prec emax : Z} {Hprec : Prec_gt_0 prec} {Hemax : Prec_lt_emax prec emax}.
Notation fl := (binary_float prec emax).
Notation fexp := (FLT_exp (3 - emax - prec) prec).
Notation rnd := (round radix2 fexp ZnearestE).

Lemma fmul_le1 (a b : fl) : is_finite a = true -> is_finite b = true -> Rabs (B2R b) <= 1 ->
  is_finite (a * b)%N_ = true /\ Rabs (B2R (a * b)%N_) <= Rabs (B2R a).
Proof.
  intros Fa Fb B. assert (Q : Rabs (rnd (B2R a * B2R b)) <= Rabs (B2R a)).
  { apply abs_round_le_generic; [apply FLT_exp_valid; exact Hprec|apply valid_rnd_N|apply generic_format_abs, generic_format_B2R|].
    rewrite Rabs_mult. pose proof (Rabs_pos (B2R a)). pose proof (Rabs_pos (B2R b)). nra. }
  assert (F : is_finite (a * b)%N_ = true).
  { cbn [nmul num_float]. pose proof (Bmult_correct prec emax _ _ mode_NE a b) as C.
    rewrite Rlt_bool_true in C.
    - destruct C as (_ & C & _). rewrite Fa, Fb in C. exact C.
    - eapply Rle_lt_trans; [exact Q|]. apply abs_B2R_lt_emax. }
  split; [exact F|]. rewrite (fmul_R _ _ F). exact Q.
Qed.

Lemma fsqrt_fin (x : fl) : fnonneg x -> is_finite x = true -> is_finite (fsqrt x) = true /\ Bsign (fsqrt x) = false.
Proof.
  intros N F. unfold fsqrt. destruct (Bsqrt_correct prec emax _ _ mode_NE x) as (_ & E & G).
  assert (Fs : is_finite (Bsqrt mode_NE x) = true).
  { rewrite E. destruct x as [s|s| |s m e H]; try discriminate F; [reflexivity|].
    destruct N as [N|N]; cbn in N; [discriminate|subst; reflexivity]. }
  split; [exact Fs|]. rewrite G by (destruct (Bsqrt mode_NE x); try discriminate Fs; reflexivity).
  destruct N as [N|N]; [destruct x; discriminate|exact N].
Qed.

Lemma msq_nonneg (z : complex fl) : fnonneg (cmodulus_squared z).
Proof. unfold cmodulus_squared. apply fadd_sign; apply fmul_square_sign. Qed.
Lemma norm_fin (z : complex fl) : is_finite (cmodulus_squared z) = true -> is_finite (fc_norm z) = true /\ Bsign (fc_norm z) = false.
Proof. intros F. apply fsqrt_fin; [apply msq_nonneg|exact F]. Qed.
Lemma norm_pos (z : complex fl) : is_finite (cmodulus_squared z) = true -> B2R (cmodulus_squared z) <> 0 -> 0 < B2R (fc_norm z).
Proof.
  intros F N. pose proof (fnonneg_R _ (msq_nonneg z)) as P. destruct (norm_fin z F) as (Fn & _).
  unfold fc_norm, fsqrt in *. destruct (Bsqrt_correct prec emax _ _ mode_NE (cmodulus_squared z)) as (E & _). rewrite E.
  set (q := B2R (cmodulus_squared z)) in *.
  assert (Q : bpow radix2 (3 - emax - prec) <= q).
  { apply (generic_format_ge_bpow radix2 fexp); [intros; unfold FLT_exp; lia|lra|apply generic_format_B2R]. }
  assert (PE : (0 < prec < emax)%Z) by (unfold Prec_gt_0, Prec_lt_emax in *; lia).
  apply (Rlt_le_trans _ (bpow radix2 (3 - emax - prec))); [apply bpow_gt_0|].
  rewrite <- (round_generic radix2 fexp ZnearestE (bpow radix2 (3 - emax - prec))).
  - apply round_le; [apply FLT_exp_valid; exact Hprec|apply valid_rnd_N|].
    rewrite <- (sqrt_square (bpow radix2 (3 - emax - prec))) by apply bpow_ge_0.
    apply sqrt_le_1_alt. eapply Rle_trans; [|exact Q].
    rewrite <- bpow_plus. apply bpow_le. lia.
  - apply generic_format_bpow. unfold FLT_exp. lia.
Qed.

Lemma two_val : is_finite (1 + 1 : fl)%N_ = true /\ B2R (1 + 1 : fl)%N_ = 2.
Proof.
  destruct (@fbone prec emax _ _) as (O & Fo & _).
  assert (PE : (0 < prec < emax)%Z) by (unfold Prec_gt_0, Prec_lt_emax in *; lia).
  assert (F : is_finite (1 + 1 : fl)%N_ = true).
  { pose proof (Bplus_correct prec emax _ _ mode_NE Bone Bone Fo Fo) as C. rewrite O in C.
    change (round radix2 (SpecFloat.fexp prec emax) (round_mode mode_NE) (1 + 1)) with (rnd (1 + 1)) in C.
    replace (1 + 1) with (bpow radix2 1) in C by (cbn; lra).
    rewrite round_generic in C; [|apply valid_rnd_N|apply generic_format_bpow; unfold FLT_exp; lia].
    rewrite Rlt_bool_true in C; [apply C|]. rewrite Rabs_pos_eq by apply bpow_ge_0. apply bpow_lt. lia. }
  split; [exact F|]. rewrite (fadd_R _ _ F). change (B2R (1%N_ : fl)) with (B2R (Bone : fl)). rewrite O.
  replace (1 + 1) with (bpow radix2 1) by (cbn; lra). rewrite round_generic; [reflexivity|apply valid_rnd_N|apply generic_format_bpow; unfold FLT_exp; lia].
Qed.
Lemma half_fin (x : fl) : is_finite x = true -> is_finite (x / (1 + 1))%N_ = true.
Proof.
  intros F. destruct two_val as (_ & V). cbn [ndiv numdiv_float].
  pose proof (Bdiv_correct prec emax _ _ mode_NE x (1 + 1)%N_) as C. rewrite V in C. specialize (C ltac:(lra)).
  rewrite Rlt_bool_true in C; [destruct C as (_ & C & _); rewrite C; exact F|].
  eapply Rle_lt_trans; [|apply (abs_B2R_lt_emax prec emax x)].
  apply abs_round_le_generic; [apply FLT_exp_valid; exact Hprec|apply valid_rnd_N|apply generic_format_abs, generic_format_B2R|].
  unfold Rdiv. rewrite Rabs_mult, (Rabs_pos_eq (/ 2)) by lra. pose proof (Rabs_pos (B2R x)). lra.
Qed.

Variable L : libm fl.
Hypothesis S : libm_special L.

Lemma cis_fin x : is_finite x = true -> cis_finite (fc_cis L x) = true.
Proof. intros F. unfold cis_finite, fc_cis. cbn [re im]. rewrite (proj1 (sp_cos L S x F)), (proj1 (sp_sin L S x F)). reflexivity. Qed.
Lemma polar_fin r a : is_finite r = true -> is_finite a = true -> cis_finite (fc_from_polar L r a) = true.
Proof.
  intros Fr Fa. destruct (sp_cos L S a Fa) as (C1 & C2), (sp_sin L S a Fa) as (S1 & S2).
  unfold cis_finite, fc_from_polar. cbn [re im].
  rewrite (proj1 (fmul_le1 r _ Fr C1 C2)), (proj1 (fmul_le1 r _ Fr S1 S2)). reflexivity.
Qed.
Lemma exp_fin z : cis_finite z = true -> is_finite (m_exp L (re z)) = true -> cis_finite (fc_exp L z) = true.
Proof. intros F E. apply andb_prop in F. exact (polar_fin _ _ E (proj2 F)). Qed.

Lemma sqrt_fin z : cis_finite z = true -> is_finite (cmodulus_squared z) = true -> cis_finite (fc_sqrt L z) = true.
Proof.
  intros F M. destruct (norm_fin z M) as (Fn & Sn). apply polar_fin.
  - apply fsqrt_fin; [right; exact Sn|exact Fn].
  - apply half_fin. unfold fc_arg. apply andb_prop in F. destruct F as (F1 & F2). apply (sp_atan2 L S); assumption.
Qed.
Lemma ln_fin z : cis_finite z = true -> is_finite (cmodulus_squared z) = true -> B2R (cmodulus_squared z) <> 0 -> cis_finite (fc_ln L z) = true.
Proof.
  intros F M N. apply andb_prop in F. destruct F as (F1 & F2). unfold cis_finite, fc_ln. cbn [re im].
  destruct (sp_ln L S (fc_norm z)) as (-> & _); [apply norm_fin, M|apply norm_pos; assumption|].
  unfold fc_arg. destruct (sp_atan2 L S (im z) (re z)) as (-> & _); auto.
Qed.
Lemma mul_fin1 (a b : fl) : is_finite a = true -> is_finite b = true -> Rabs (B2R b) <= 1 -> is_finite (a * b)%N_ = true.
Proof. intros. apply fmul_le1; assumption. Qed.
Lemma hyp_fin z : cis_finite z = true -> is_finite (m_cosh L (re z)) = true -> is_finite (m_sinh L (re z)) = true ->
  cis_finite (fc_cosh L z) = true /\ cis_finite (fc_sinh L z) = true.
Proof.
  intros F C H. apply andb_prop in F. destruct F as (F1 & F2).
  destruct (sp_cos L S (im z) F2) as (C1 & C2), (sp_sin L S (im z) F2) as (S1 & S2).
  unfold fc_cosh, fc_sinh. rewrite F1, F2. cbn [negb]. rewrite !andb_false_r.
  split.
  - destruct (nis0 (re z) && nis0 (im z))%bool.
    + unfold cis_finite. cbn [re im]. rewrite F2. destruct (@fbone prec emax _ _) as (_ & Fo & _). exact (andb_true_intro (conj Fo eq_refl)).
    + unfold cis_finite. cbn [re im]. rewrite !mul_fin1 by assumption. reflexivity.
  - unfold cis_finite. cbn [re im]. rewrite !mul_fin1 by assumption. reflexivity.
Qed.

(** On the real axis. *)
Notation p0 := (B754_zero false : fl).
Lemma mul_0_r (x : fl) : is_finite x = true -> exists t, (x * p0)%N_ = B754_zero t.
Proof. destruct x as [s|s| |s m e H]; try discriminate; intros _; cbn; eauto. Qed.
Lemma pos_mul_0 (x : fl) : is_finite x = true -> 0 < B2R x -> (x * p0)%N_ = p0.
Proof. intros F P. pose proof (pos_sign x P) as Q. destruct x as [s|s| |s m e H]; try discriminate; cbn in Q; subst; reflexivity. Qed.
Lemma pos_add_0 (x : fl) : nis0 x = false -> (x + p0)%N_ = x.
Proof. apply add_0_r. Qed.
Lemma pos_nz (x : fl) : B2R x <> 0 -> nis0 x = false.
Proof. intros Q. destruct (nis0 x) eqn:N; [|reflexivity]. apply is0_iff in N. destruct N as (s & ->). contradiction. Qed.
Lemma pos_abs (x : fl) : 0 < B2R x -> fabs x = x.
Proof. intros P. pose proof (pos_sign x P) as Q. destruct x as [s|s| |s m e H]; cbn in Q; subst; reflexivity. Qed.

Definition moderate (x : fl) : Prop := is_finite x = true /\ 0 < B2R x /\ is_finite (x * x)%N_ = true /\ bpow radix2 (2 - emax) <= B2R x * B2R x.
Hypothesis P2 : (2 <= prec)%Z.
Lemma norm_real (x : fl) : moderate x -> fc_norm (mkC x p0) = x.
Proof.
  intros (F & P & F2 & B). unfold fc_norm, cmodulus_squared. cbn [re im].
  change (p0 * p0)%N_ with p0. rewrite pos_add_0.
  - rewrite sqrt_square_float by assumption. apply pos_abs, P.
  - apply pos_nz. rewrite (fmul_R _ _ F2). apply Rgt_not_eq. apply (Rlt_le_trans _ (bpow radix2 (2 - emax))); [apply bpow_gt_0|].
    apply round_ge_generic; [apply FLT_exp_valid; exact Hprec|apply valid_rnd_N| |exact B].
    apply generic_format_bpow. unfold FLT_exp. unfold Prec_gt_0, Prec_lt_emax in *. lia.
Qed.
Lemma ln_real (x : fl) : moderate x -> fc_ln L (mkC x p0) = mkC (m_ln L x) p0.
Proof. intros M. unfold fc_ln, fc_arg. rewrite norm_real by exact M. cbn [re im]. rewrite (sp_atan2_pos L S); [reflexivity|apply M|apply M]. Qed.
Lemma fsqrt_pos (x : fl) : is_finite x = true -> 0 < B2R x -> is_finite (fsqrt x) = true /\ Bsign (fsqrt x) = false.
Proof. intros F P. apply fsqrt_fin; [right; apply pos_sign, P|exact F]. Qed.
Lemma mul_0_sign (x : fl) : is_finite x = true -> Bsign x = false -> (x * p0)%N_ = p0.
Proof. intros F Q. destruct x as [s|s| |s m e H]; try discriminate; cbn in Q; subst; reflexivity. Qed.
Lemma half_0 : (p0 / (1 + 1))%N_ = p0.
Proof. destruct two_val as (F & V). destruct (1 + 1)%N_ as [s|s| |s m e H] eqn:E; try discriminate F; [cbn in V; lra|].
  assert (Q : Bsign (B754_finite s m e H) = false) by (apply pos_sign; rewrite V; lra). cbn in Q. subst. reflexivity. Qed.
Lemma sqrt_real (x : fl) : moderate x -> fc_sqrt L (mkC x p0) = mkC (fsqrt x) p0.
Proof.
  intros M. unfold fc_sqrt, fc_arg. cbv zeta. rewrite norm_real by exact M. cbn [re im].
  rewrite (sp_atan2_pos L S) by apply M. rewrite half_0, (sp_cos_0 L S), (sp_sin_0 L S), fmul_1_r.
  destruct (fsqrt_pos x) as (F & Q); try apply M. rewrite mul_0_sign by assumption. reflexivity.
Qed.
Lemma exp_real (x : fl) : is_finite (m_exp L x) = true -> exists s, fc_exp L (mkC x p0) = mkC (m_exp L x) (B754_zero s).
Proof.
  intros F. unfold fc_exp. cbv zeta. cbn [re im]. rewrite (sp_cos_0 L S), (sp_sin_0 L S), fmul_1_r. destruct (mul_0_r _ F) as (s & ->). eauto.
Qed.
Lemma cosh_real (x : fl) : is_finite x = true -> nis0 x = false -> is_finite (m_sinh L x) = true ->
  exists s, fc_cosh L (mkC x p0) = mkC (m_cosh L x) (B754_zero s).
Proof.
  intros F N H. unfold fc_cosh. cbn [re im is_finite]. rewrite F, N. cbn [negb]. rewrite !andb_false_r. cbn [andb].
  rewrite (sp_cos_0 L S), (sp_sin_0 L S), fmul_1_r. destruct (mul_0_r _ H) as (s & ->). eauto.
Qed.
Lemma sinh_real (x : fl) : is_finite x = true -> is_finite (m_cosh L x) = true ->
  exists s, fc_sinh L (mkC x p0) = mkC (m_sinh L x) (B754_zero s).
Proof.
  intros F H. unfold fc_sinh. cbn [re im is_finite]. rewrite F. cbn [negb]. rewrite !andb_false_r.
  rewrite (sp_cos_0 L S), (sp_sin_0 L S), fmul_1_r. destruct (mul_0_r _ H) as (s & ->). eauto.
Qed.
Lemma zero_mul (t : bool) (x : fl) : is_finite x = true -> exists s, ((B754_zero t : fl) * x)%N_ = B754_zero s.
Proof. destruct x as [s|s| |s m e H]; try discriminate; intros _; cbn; eauto. Qed.
Lemma cos_real (x : fl) : is_finite x = true -> nis0 x = false -> exists s, fc_cos L (mkC x p0) = mkC (m_cos L x) (B754_zero s).
Proof.
  intros F N. unfold fc_cos, fc_cosh. cbn [re im]. change (- p0)%N_ with (B754_zero true : fl). rewrite F, N. cbn [negb fis_infinite nis0].
  change (nis0 (B754_zero true : fl)) with true. cbn [andb]. rewrite (sp_cosh_0 L S), (sp_sinh_0 L S), fmul_comm, fmul_1_r.
  destruct (zero_mul true _ (proj1 (sp_sin L S x F))) as (s & ->). eauto.
Qed.
Lemma sin_real (x : fl) : is_finite x = true -> exists s, fc_sin L (mkC x p0) = mkC (m_sin L x) (B754_zero s).
Proof.
  intros F. unfold fc_sin, fc_sinh. cbv zeta. cbn [re im]. change (- p0)%N_ with (B754_zero true : fl). rewrite F. cbn [negb].
  change (is_finite (B754_zero true : fl)) with true. rewrite !andb_false_r. cbn [re im]. rewrite (sp_cosh_0 L S), (sp_sinh_0 L S).
  destruct (zero_mul true _ (proj1 (sp_cos L S x F))) as (s & ->). rewrite fmul_comm, fmul_1_r. exists (negb s). reflexivity.
Qed.
End Gen.
