(** Proofs of the theorems of PComplexH.v. *)

From Coq Require Import ZArith Bool Reals Lia Lra.
From Flocq Require Import Core.Core IEEE754.BinarySingleNaN.
From Verif Require Import Base Scalar MComplex MFloat MFloatVec MSign MComplexF SpecLibm SpecCR LFloat LFloatVec LAngleFP LFloatNormP LComplexFP LComplexGP LComplexIP LComplexHP LLibmP LComplexJP.
Local Open Scope R_scope.

Section Ov.
Context {prec emax : Z} {Hprec : Prec_gt_0 prec} {Hemax : Prec_lt_emax prec emax}.
Notation fl := (binary_float prec emax).
Notation fexp := (FLT_exp (3 - emax - prec) prec).
Notation p0 := (B754_zero false : fl).
Notation inf := (B754_infinity false : fl).
Variable L : libm fl.
Hypothesis S : libm_special L.

Lemma exp_big x : IZR emax <= x -> bpow radix2 emax <= exp x.
Proof.
  intros H. rewrite bpow_exp. change (IZR radix2) with 2.
  assert (PE : (0 < emax)%Z) by (unfold Prec_gt_0, Prec_lt_emax in *; lia). apply IZR_lt in PE.
  assert (L2 : ln 2 < 1) by (rewrite <- (ln_exp 1); apply ln_increasing; [lra|pose proof (exp_ineq1 1 ltac:(lra)); lra]).
  destruct (Rle_lt_or_eq_dec (IZR emax * ln 2) x) as [Q|Q]; [nra|left; apply exp_increasing, Q|right; f_equal; exact Q].
Qed.
Lemma sinh_big x : IZR emax + 2 <= x -> bpow radix2 emax <= sinh x /\ bpow radix2 emax <= cosh x.
Proof.
  intros H. assert (PE : (0 < emax)%Z) by (unfold Prec_gt_0, Prec_lt_emax in *; lia). pose proof (IZR_lt _ _ PE) as PR.
  pose proof (exp_big (x - 2) ltac:(lra)) as E.
  assert (E2 : 3 < exp 2) by (pose proof (exp_ineq1 2 ltac:(lra)); lra).
  assert (E3 : exp x = exp (x - 2) * exp 2) by (rewrite <- exp_plus; f_equal; ring).
  assert (E4 : exp (- x) < 1) by (rewrite <- exp_0; apply exp_increasing; lra). pose proof (exp_pos (- x)).
  assert (1 <= bpow radix2 emax) by (change 1 with (bpow radix2 0); apply bpow_le; lia).
  unfold sinh, cosh. nra.
Qed.
Lemma inf_mul_1 : (inf * 1)%N_ = inf.
Proof. apply fmul_1_r. Qed.
Lemma inf_add_fin (x : fl) : is_finite x = true -> (inf + x)%N_ = inf.
Proof. destruct x; try discriminate; reflexivity. Qed.
Lemma one_fin : is_finite (1%N_ : fl) = true.
Proof. apply fbone. Qed.

Lemma exp_over x : is_finite x = true -> IZR emax <= B2R x -> fc_exp L (mkC x p0) = mkC inf B754_nan.
Proof.
  intros F H. unfold fc_exp. cbv zeta. cbn [re im]. rewrite (sp_exp_over L S x F (exp_big _ H)), (sp_cos_0 L S), (sp_sin_0 L S), inf_mul_1. reflexivity.
Qed.
Lemma tanh_over (x : fl) : is_finite x = true -> is_finite (x + x)%N_ = true -> IZR emax + 2 <= B2R x -> fc_tanh L (mkC x p0) = mkC B754_nan p0.
Proof.
  intros F F2 H. assert (PE : (0 < emax)%Z) by (unfold Prec_gt_0, Prec_lt_emax in *; lia). pose proof (IZR_lt _ _ PE) as PR.
  unfold fc_tanh. cbv zeta. cbn [re im].
  replace (fis_infinite x) with false by (destruct x; try discriminate F; reflexivity).
  replace (is_nan x) with false by (destruct x; try discriminate F; reflexivity). cbn [andb].
  assert (V : IZR emax + 2 <= B2R (x + x)%N_).
  { rewrite (fadd_R _ _ F2). eapply Rle_trans; [exact H|].
    apply round_ge_generic; [apply FLT_exp_valid; exact Hprec|apply valid_rnd_N|apply generic_format_B2R|lra]. }
  destruct (sinh_big _ V) as (A & B). rewrite (sp_sinh_over L S _ F2 A), (sp_cosh_over L S _ F2 B).
  change (p0 + p0)%N_ with p0. rewrite (sp_sin_0 L S), (sp_cos_0 L S), (inf_add_fin _ one_fin). reflexivity.
Qed.
Lemma norm_over (x : fl) : (x * x)%N_ = inf -> fc_norm (mkC x p0) = inf.
Proof. intros E. unfold fc_norm, cmodulus_squared. cbn [re im]. rewrite E. reflexivity. Qed.
Lemma norm_under (x : fl) : (x * x)%N_ = p0 -> fc_norm (mkC x p0) = p0.
Proof. intros E. unfold fc_norm, cmodulus_squared. cbn [re im]. rewrite E. reflexivity. Qed.
Lemma real_over (x : fl) : is_finite x = true -> 0 < B2R x -> (x * x)%N_ = inf ->
  fc_ln L (mkC x p0) = mkC inf p0 /\ fc_sqrt L (mkC x p0) = mkC inf B754_nan.
Proof.
  intros F P E. unfold fc_ln, fc_sqrt, fc_arg. cbv zeta. rewrite (norm_over x E). cbn [re im].
  rewrite (sp_atan2_pos L S x F P), (sp_ln_inf L S), half_0, (sp_cos_0 L S), (sp_sin_0 L S).
  change (fsqrt inf) with inf. rewrite inf_mul_1. split; reflexivity.
Qed.
Lemma real_under (x : fl) : is_finite x = true -> 0 < B2R x -> (x * x)%N_ = p0 ->
  fc_ln L (mkC x p0) = mkC (B754_infinity true) p0 /\ fc_sqrt L (mkC x p0) = mkC p0 p0.
Proof.
  intros F P E. unfold fc_ln, fc_sqrt, fc_arg. cbv zeta. rewrite (norm_under x E). cbn [re im].
  rewrite (sp_atan2_pos L S x F P), (sp_ln_0 L S), half_0, (sp_cos_0 L S), (sp_sin_0 L S).
  change (fsqrt p0) with p0. rewrite fmul_1_r. split; reflexivity.
Qed.
End Ov.

Definition p600 : f64 := f64_of_Z (2 ^ 600).
Definition m600 : f64 := Bdiv mode_NE Bone p600.
Lemma p600_val : is_finite p600 = true /\ B2R p600 = bpow radix2 600 /\ nmul p600 p600 = B754_infinity false.
Proof.
  split; [reflexivity|]. split; [|apply B2SF_inj; vm_compute; reflexivity].
  rewrite <- SF2R_B2SF. replace (B2SF p600) with (SpecFloat.S754_finite false (2 ^ 52) 548) by (vm_compute; reflexivity).
  cbn [SF2R cond_Zopp]. unfold F2R. cbn [Fnum Fexp]. change (Z.pos (2 ^ 52)) with (Zpower radix2 52). rewrite (IZR_Zpower radix2 52) by lia. rewrite <- bpow_plus. reflexivity.
Qed.
Lemma m600_val : is_finite m600 = true /\ B2R m600 = bpow radix2 (-600) /\ nmul m600 m600 = B754_zero false.
Proof.
  split; [vm_compute; reflexivity|]. split; [|apply B2SF_inj; vm_compute; reflexivity].
  rewrite <- SF2R_B2SF. replace (B2SF m600) with (SpecFloat.S754_finite false (2 ^ 52) (-652)) by (vm_compute; reflexivity).
  cbn [SF2R cond_Zopp]. unfold F2R. cbn [Fnum Fexp]. change (Z.pos (2 ^ 52)) with (Zpower radix2 52). rewrite (IZR_Zpower radix2 52) by lia. rewrite <- bpow_plus. reflexivity.
Qed.

Lemma c118_finite :
  forall (prec emax : Z) (Hp : Prec_gt_0 prec) (He : Prec_lt_emax prec emax) (L : libm (binary_float prec emax)),
    libm_special L ->
    (forall r a : binary_float prec emax, is_finite r = true -> is_finite a = true ->
       cis_finite (fc_cis L a) = true /\ cis_finite (fc_from_polar L r a) = true) /\
    (forall z : complex (binary_float prec emax), cis_finite z = true ->
      (is_finite (m_exp L (re z)) = true -> cis_finite (fc_exp L z) = true) /\
      (is_finite (m_cosh L (re z)) = true -> is_finite (m_sinh L (re z)) = true ->
         cis_finite (fc_cosh L z) = true /\ cis_finite (fc_sinh L z) = true) /\
      (is_finite (m_cosh L (nneg (im z))) = true -> is_finite (m_sinh L (nneg (im z))) = true ->
         cis_finite (fc_cos L z) = true /\ cis_finite (fc_sin L z) = true) /\
      (is_finite (re z * re z + im z * im z)%N_ = true ->
         is_finite (fc_norm z) = true /\ cis_finite (fc_sqrt L z) = true /\
         (B2R (re z * re z + im z * im z)%N_ <> 0 -> cis_finite (fc_ln L z) = true))).
Proof.
  intros prec emax Hp He L S. split.
  - intros r a Fr Fa. split; [apply (cis_fin L S); exact Fa|apply (polar_fin L S); assumption].
  - intros z F. split; [intros E; apply (exp_fin L S); assumption|]. split; [intros C H; apply (hyp_fin L S); assumption|].
    split.
    + intros C H.
      assert (F' : cis_finite (mkC (nneg (im z)) (re z)) = true).
      { unfold cis_finite in *. cbn [re im]. rewrite fin_neg, andb_comm. exact F. }
      destruct (hyp_fin L S (mkC (nneg (im z)) (re z)) F' C H) as (A & B). split; [exact A|].
      unfold fc_sin. cbv zeta. unfold cis_finite in *. cbn [re im]. rewrite fin_neg, andb_comm. exact B.
    + intros M. split; [exact (proj1 (norm_fin z M))|]. split; [exact (sqrt_fin L S z F M)|]. intros N. exact (ln_fin L S z F M N).
Qed.

Lemma c118_real_axis :
  forall (prec emax : Z) (Hp : Prec_gt_0 prec) (He : Prec_lt_emax prec emax) (L : libm (binary_float prec emax)),
    (2 <= prec)%Z -> libm_special L ->
    forall x : binary_float prec emax, is_finite x = true ->
      (0 < B2R x -> is_finite (x * x)%N_ = true -> bpow radix2 (2 - emax) <= B2R x * B2R x ->
         fc_norm (mkC x (B754_zero false)) = x /\
         fc_ln L (mkC x (B754_zero false)) = mkC (m_ln L x) (B754_zero false) /\
         fc_sqrt L (mkC x (B754_zero false)) = mkC (fsqrt x) (B754_zero false)) /\
      (is_finite (m_exp L x) = true -> exists s, fc_exp L (mkC x (B754_zero false)) = mkC (m_exp L x) (B754_zero s)) /\
      (is_finite (m_cosh L x) = true -> exists s, fc_sinh L (mkC x (B754_zero false)) = mkC (m_sinh L x) (B754_zero s)) /\
      (is_finite (m_sinh L x) = true -> exists s, fc_cosh L (mkC x (B754_zero false)) = mkC (m_cosh L x) (B754_zero s)) /\
      (exists s, fc_sin L (mkC x (B754_zero false)) = mkC (m_sin L x) (B754_zero s)) /\
      (exists s, fc_cos L (mkC x (B754_zero false)) = mkC (m_cos L x) (B754_zero s)).
Proof.
  intros prec emax Hp He L P2 S x F. split.
  { intros P F2 B. assert (M : moderate x) by (repeat split; assumption).
    split; [apply norm_real; assumption|]. split; [apply (ln_real L S); assumption|apply (sqrt_real L S); assumption]. }
  split; [apply (exp_real L S)|]. split; [apply (sinh_real L S), F|].
  split.
  { intros H. destruct (nis0 x) eqn:N; [|apply (cosh_real L S); assumption]. apply is0_iff in N. destruct N as (s & ->).
    exists false. rewrite (sp_cosh_0 L S). destruct s; reflexivity. }
  split; [apply (sin_real L S), F|].
  destruct (nis0 x) eqn:N; [|apply (cos_real L S); assumption]. apply is0_iff in N. destruct N as (s & ->).
  exists s. rewrite (sp_cos_0 L S). destruct s; reflexivity.
Qed.

Lemma c118_overflow_refuted :
  (forall (prec emax : Z) (Hp : Prec_gt_0 prec) (He : Prec_lt_emax prec emax) (L : libm (binary_float prec emax)),
     libm_special L ->
     forall x : binary_float prec emax, is_finite x = true ->
       (IZR emax <= B2R x -> fc_exp L (mkC x (B754_zero false)) = mkC (B754_infinity false) B754_nan) /\
       (IZR emax + 2 <= B2R x -> is_finite (x + x)%N_ = true -> fc_tanh L (mkC x (B754_zero false)) = mkC B754_nan (B754_zero false)) /\
       (0 < B2R x -> (x * x)%N_ = B754_infinity false ->
          fc_ln L (mkC x (B754_zero false)) = mkC (B754_infinity false) (B754_zero false) /\
          fc_sqrt L (mkC x (B754_zero false)) = mkC (B754_infinity false) B754_nan) /\
       (0 < B2R x -> (x * x)%N_ = B754_zero false ->
          fc_ln L (mkC x (B754_zero false)) = mkC (B754_infinity true) (B754_zero false) /\
          fc_sqrt L (mkC x (B754_zero false)) = mkC (B754_zero false) (B754_zero false))) /\
  (exists x y z : f64,
     (is_finite x = true /\ B2R x = 2000 /\ is_finite (x + x)%N_ = true) /\
     (is_finite y = true /\ B2R y = bpow radix2 600 /\ nmul y y = B754_infinity false) /\
     (is_finite z = true /\ B2R z = bpow radix2 (-600) /\ nmul z z = B754_zero false)).
Proof.
  split.
  - intros prec emax Hp He L S x F. split; [intros H; apply (exp_over L S); assumption|].
    split; [intros H F2; apply (tanh_over L S); assumption|].
    split; intros P E; [apply (real_over L S)|apply (real_under L S)]; assumption.
  - exists (f64_of_Z 2000), p600, m600. destruct (f64_of_Z_exact 2000) as (V & F); [cbn; lia|].
    split; [split; [exact F|split; [exact V|vm_compute; reflexivity]]|]. split; [exact p600_val|exact m600_val].
Qed.

Lemma c118_example :
  let x := f64_of_Z 3 in
  is_finite x = true /\ 0 < B2R x /\ is_finite (nmul x x) = true /\ bpow radix2 (2 - 1024) <= B2R x * B2R x /\
  (forall nb, libm_special (cr_libm nb : libm f64)).
Proof.
  cbv zeta. destruct (f64_of_Z_exact 3) as (V & F); [cbn; lia|]. rewrite V.
  split; [exact F|]. split; [lra|]. split; [vm_compute; reflexivity|]. split.
  - apply Rle_trans with 1; [|lra]. change 1 with (bpow radix2 0). apply bpow_le. lia.
  - intros nb. apply cr_special. lia.
Qed.
