(** Proofs of the theorems of PComplexF.v. *)

From Coq Require Import ZArith Bool Reals Lia Lra.
From Flocq Require Import Core.Core Relative Plus_error IEEE754.BinarySingleNaN.
From Verif Require Import Base Scalar MComplex MFloat MFloatVec MSign MComplexF SpecLibm SpecCR LFloat LFloatVec LAngleFP LFloatNormP LComplexFP LComplexGP LComplexIP LLibmP.
Local Open Scope R_scope.

Section Fin.
Context {prec emax : Z} {Hprec : Prec_gt_0 prec} {Hemax : Prec_lt_emax prec emax}.
Notation fl := (binary_float prec emax).
Notation fexp := (FLT_exp (3 - emax - prec) prec).
Local Instance vexp' : Valid_exp fexp := FLT_exp_valid _ _.
Variable L : libm fl.
Hypothesis S : libm_symmetric L.
Hypothesis P : libm_special L.

Lemma add1_pos (x : fl) : is_finite x = true -> -1 < B2R x <= 1 -> is_finite (n1 + x)%N_ = true /\ 0 < B2R (n1 + x)%N_.
Proof.
  intros F B. destruct (@fbone prec emax _ _) as (O & Fo & _). change (Bone : fl) with (n1 : fl) in O, Fo.
  assert (PE : (0 < prec < emax)%Z) by (unfold Prec_gt_0, Prec_lt_emax in *; lia).
  assert (F2 : is_finite (n1 + x)%N_ = true).
  { apply fadd_fin; auto. rewrite O. apply Rabs_le. pose proof (bpow_le radix2 1 (emax - 1) ltac:(lia)) as H. cbn in H. lra. }
  split; [exact F2|]. rewrite (fadd_R _ _ F2), O.
  assert (0 <= round radix2 fexp ZnearestE (1 + B2R x)).
  { rewrite <- (round_0 radix2 fexp ZnearestE). apply round_le; auto with typeclass_instances. lra. }
  assert (round radix2 fexp ZnearestE (1 + B2R x) <> 0); [|lra].
  rewrite <- O. apply round_plus_neq_0; try apply generic_format_B2R; auto with typeclass_instances.
  rewrite O. lra.
Qed.

Lemma atanh_im0_conj (z : complex fl) : is_finite (re z) = true -> nis0 (im z) = true -> Rabs (B2R (re z)) < 1 ->
  ceqv (atanh_body L (cconj z)) (cconj (atanh_body L z)).
Proof.
  destruct z as [x y]. cbn [re im]. intros F N B. apply is0_iff in N. destruct N as (s & ->). apply Rabs_def2 in B.
  assert (E1 : forall t : bool, atanh_body L (mkC x (B754_zero t)) = atanh_body L (mkC x (B754_zero s))).
  { intros t. unfold atanh_body. f_equal. f_equal; f_equal; unfold cadd, csub; cbn [re im cone cidentity]; f_equal; destruct s, t; reflexivity. }
  change (cconj (mkC x (B754_zero s))) with (mkC x (B754_zero (negb s) : fl)). rewrite E1.
  split; [apply feqv_refl|]. cbn [im cconj].
  unfold atanh_body. rewrite c_two. unfold cdiv, csub at 1 3. cbv zeta. cbn [re im].
  set (a := re (csub _ _)). unfold fc_ln, fc_arg. cbn [re im cadd csub cone cidentity].
  replace (n0 + B754_zero s)%N_ with (B754_zero false : fl) by (destruct s; reflexivity).
  replace (n0 - B754_zero s)%N_ with (B754_zero false : fl) by (destruct s; reflexivity).
  rewrite (sp_atan2_pos L P (n1 + x)%N_) by (apply add1_pos; [exact F|lra]).
  rewrite (sp_atan2_pos L P (n1 - x)%N_).
  2, 3: rewrite fsub_add_neg; apply add1_pos; [rewrite fin_neg; exact F|cbn [nneg num_float]; rewrite B2R_Bopp; lra].
  change (B754_zero false - B754_zero false)%N_ with (B754_zero false : fl).
  rewrite <- fdiv_neg_l. apply feqv_div_l. eapply feqv_trans; [|apply feqv_sub_neg].
  apply feqv_sub; [rewrite fmul_comm|]; apply mul_zero.
Qed.

Lemma sub_fin (x y : fl) : is_finite x = true -> Rabs (B2R x) <= bpow radix2 (emax - 2) -> is_finite y = true -> Rabs (B2R y) <= bpow radix2 (emax - 2) ->
  is_finite (x - y)%N_ = true.
Proof.
  intros Fx Bx Fy By. rewrite fsub_add_neg. apply fadd_fin; [exact Fx|rewrite fin_neg; exact Fy|].
  cbn [nneg num_float]. rewrite B2R_Bopp. apply Rabs_le_inv in Bx, By. apply Rabs_le.
  replace (emax - 1)%Z with (emax - 2 + 1)%Z by lia. rewrite bpow_plus. change (bpow radix2 1) with 2. lra.
Qed.

Lemma im_val (p a c2 c4 : fl) : (4 <= prec)%Z -> (6 <= emax)%Z -> is_finite p = true -> 2 <= B2R p <= 4 -> is_finite a = true ->
  is_finite c2 = true -> B2R c2 = 2 -> is_finite c4 = true -> B2R c4 = 4 ->
  let r := (((B754_zero false - p) * c2 - a * B754_zero false) / c4)%N_ in B2R r <= -1 /\ is_finite r = true.
Proof.
  intros H4 H6 Fp Bp Fa F2 V2 F4 V4. cbv zeta.
  assert (Za : exists t, (a * B754_zero false)%N_ = (B754_zero t : fl)) by (destruct a as [s|s| |s m e H]; try discriminate Fa; cbn; eauto).
  destruct Za as (t & ->).
  assert (NZ : forall q : fl, B2R q <> 0 -> nis0 q = false).
  { intros q Q. destruct (nis0 q) eqn:N; [|reflexivity]. apply is0_iff in N. destruct N as (s & ->). contradiction. }
  assert (Np : nis0 (- p)%N_ = false) by (apply NZ; cbn [nneg num_float]; rewrite B2R_Bopp; lra).
  rewrite (fsub_add_neg (B754_zero false)), (add_0_l _ _ Np).
  set (q := (- p * c2)%N_).
  assert (BP : forall k m, (k <= m)%Z -> bpow radix2 k <= bpow radix2 m) by (intros; apply bpow_le; assumption).
  assert (G : forall k, (-3 <= k <= 3)%Z -> generic_format radix2 fexp (- bpow radix2 k)).
  { intros k K. apply generic_format_opp, generic_format_bpow. unfold FLT_exp. lia. }
  pose proof (BP 3 (emax - 1) ltac:(lia))%Z as B. change (bpow radix2 3) with 8 in B.
  assert (M : is_finite q = true /\ B2R q <= -4 /\ -8 <= B2R q).
  { assert (Vq : B2R (- p)%N_ * B2R c2 = - B2R p * 2) by (cbn [nneg num_float]; rewrite B2R_Bopp, V2; ring).
    assert (Fq : is_finite q = true).
    { apply fmul_fin; [rewrite fin_neg; exact Fp|exact F2|]. rewrite Vq. apply Rabs_le. lra. }
    split; [exact Fq|]. unfold q in *. rewrite (fmul_R _ _ Fq), Vq.
    pose proof (G 2%Z ltac:(lia)) as G2. pose proof (G 3%Z ltac:(lia)) as G3'. change (bpow radix2 2) with 4 in G2. change (bpow radix2 3) with 8 in G3'.
    split; [apply round_le_generic|apply round_ge_generic]; auto with typeclass_instances; lra. }
  destruct M as (Fq & Q1 & Q2).
  replace (q - B754_zero t)%N_ with q by (rewrite fsub_add_neg; symmetry; apply (add_0_r (negb t)), NZ; lra).
  cbn [ndiv numdiv_float]. pose proof (Bdiv_correct prec emax _ _ mode_NE q c4) as C. rewrite V4 in C. specialize (C ltac:(lra)).
  rewrite Rlt_bool_true in C.
  - destruct C as (C1 & C2 & _). rewrite C2. split; [|exact Fq]. rewrite C1.
    pose proof (G 0%Z ltac:(lia)) as G0. change (bpow radix2 0) with 1 in G0.
    apply round_le_generic; auto with typeclass_instances; lra.
  - apply round_lt_max. apply Rabs_le. lra.
Qed.

Lemma eqb_val (x y : fl) : is_finite x = true -> is_finite y = true -> Beqb x y = false -> B2R x <> B2R y.
Proof. intros Fx Fy. rewrite Beqb_correct by assumption. destruct (Req_bool_spec (B2R x) (B2R y)); [discriminate|auto]. Qed.

Lemma atanh_conj_gen (z : complex fl) : (cis_finite z = true -> nis0 (im z) = true -> Rabs (B2R (re z)) <= 1) ->
  ceqv (fc_atanh L (cconj z)) (cconj (fc_atanh L z)).
Proof.
  intros H. destruct (cis_finite z) eqn:F; [|apply ceqv_eq, atanh_conj; assumption].
  rewrite !atanh_finite by (rewrite ?conj_nf; exact F). rewrite ceqb_conj, ceqb_conjn.
  destruct (fc_eqb z cone) eqn:E1; [split; [apply feqv_refl|apply feqv_zero]|].
  destruct (fc_eqb z (cneg cone)) eqn:E2; [split; [apply feqv_refl|apply feqv_zero]|].
  destruct (nis0 (im z)) eqn:N; [|apply atanh_body_conj; assumption].
  apply andb_prop in F. destruct F as (F & _). specialize (H eq_refl eq_refl).
  apply atanh_im0_conj; try assumption. destruct (@fbone prec emax _ _) as (O & Fo & _).
  apply is0_iff in N. destruct N as (t & N).
  unfold fc_eqb in E1, E2. cbn [re im cone cidentity cneg] in E1, E2. rewrite N in E1, E2.
  change (Beqb (B754_zero t : fl) n0) with true in E1. rewrite eqb_neg0 in E2. change (Beqb (B754_zero t : fl) n0) with true in E2. rewrite andb_true_r in E1, E2.
  apply eqb_val in E1; [|exact F|exact Fo]. apply eqb_val in E2; [|exact F|rewrite fin_neg; exact Fo].
  cbn [nneg num_float] in E2. rewrite B2R_Bopp in E2. change (B2R (n1 : fl)) with (B2R (Bone : fl)) in E1, E2. rewrite O in E1, E2.
  apply Rabs_le_inv in H. apply Rabs_def1; lra.
Qed.

Lemma atan_conj_gen (z : complex fl) : (cis_finite z = true -> nis0 (re z) = true -> Rabs (B2R (im z)) <= 1) ->
  ceqv (fc_atan L (cconj z)) (cconj (fc_atan L z)).
Proof.
  intros H. destruct z as [x y]. unfold fc_atan. cbv zeta. cbn [re im cconj] in *.
  set (w := mkC (- y)%N_ x).
  assert (E : mkC (- - y)%N_ x = cneg (cconj w)) by (unfold w, cneg, cconj; cbn [re im]; rewrite !fneg_invol; reflexivity).
  rewrite E. pose proof (atanh_odd_all L (cconj w)) as A.
  assert (C : ceqv (fc_atanh L (cconj w)) (cconj (fc_atanh L w))).
  { apply atanh_conj_gen. intros F N. unfold w in *. cbn [re im] in *. cbn [nneg num_float]. rewrite B2R_Bopp, Rabs_Ropp. apply H; [|exact N].
    unfold cis_finite in *. cbn [re im] in *. rewrite fin_neg, andb_comm in F. exact F. }
  destruct (ceqv_trans _ _ _ A (ceqv_opp _ _ C)) as (U & V). change (feqv (re (fc_atanh L (cneg (cconj w)))) (- re (fc_atanh L w))%N_) in U.
  change (feqv (im (fc_atanh L (cneg (cconj w)))) (- - im (fc_atanh L w))%N_) in V. rewrite fneg_invol in V.
  split; cbn [re im cconj]; [exact V|]. apply feqv_opp, U.
Qed.
End Fin.

Definition z60 (s : bool) (y : f64) : complex f64 := mkC (if s then (- f64_of_Z (2 ^ 60))%N_ else f64_of_Z (2 ^ 60)) y.
Ltac lit := apply B2SF_inj; vm_compute; reflexivity.
Lemma lit_pos (k : Z) : (0 < k)%Z -> is_finite (f64_of_Z (2 ^ k)) = true -> B2SF (f64_of_Z (2 ^ k)) = SpecFloat.S754_finite false (2 ^ 52) (k - 52) -> 0 < B2R (f64_of_Z (2 ^ k)).
Proof. intros K F E. rewrite <- SF2R_B2SF, E. cbn [SF2R cond_Zopp]. apply F2R_gt_0. reflexivity. Qed.
Lemma pow_pos k : (k = 60 \/ k = 61 \/ k = 120)%Z -> is_finite (f64_of_Z (2 ^ k)) = true /\ 0 < B2R (f64_of_Z (2 ^ k)).
Proof. intros [->|[->| ->]]; (split; [reflexivity|apply lit_pos; [lia|reflexivity|vm_compute; reflexivity]]). Qed.

Section F64.
Variable L : libm f64.
Hypothesis P : libm_special L.

Lemma sqrt_2p120 : fc_sqrt L (mkC (f64_of_Z (2 ^ 120)) (B754_zero false)) = mkC (f64_of_Z (2 ^ 60)) (B754_zero false).
Proof.
  unfold fc_sqrt, fc_arg. cbv zeta. cbn [re im]. destruct (pow_pos 120) as (F & Q); [auto|]. rewrite (sp_atan2_pos L P _ F Q).
  change ((B754_zero false / (n1 + n1))%N_ : f64) with (B754_zero false : f64). rewrite (sp_cos_0 L P), (sp_sin_0 L P). unfold fc_norm. f_equal; lit.
Qed.
Lemma asinh_60 s : fc_asinh L (z60 s (B754_zero false)) = fc_ln L (cadd (z60 s (B754_zero false)) (mkC (f64_of_Z (2 ^ 60)) (B754_zero false))).
Proof.
  unfold fc_asinh.
  replace (cadd cone (cmul (z60 s (B754_zero false)) (z60 s (B754_zero false)))) with (mkC (f64_of_Z (2 ^ 120)) (B754_zero false)) by (destruct s; unfold cadd, cmul; f_equal; lit).
  rewrite sqrt_2p120. destruct s; reflexivity.
Qed.
Lemma asinh_neg60 : fc_asinh L (z60 true (B754_zero false)) = mkC (B754_infinity true) (B754_zero false).
Proof.
  rewrite asinh_60. replace (cadd _ _) with (mkC (B754_zero false) (B754_zero false) : complex f64) by (unfold cadd; f_equal; lit).
  unfold fc_ln, fc_arg. cbn [re im]. rewrite (sp_atan2_0 L P). change (fc_norm _) with (B754_zero false : f64). rewrite (sp_ln_0 L P). reflexivity.
Qed.
Lemma asinh_pos60 : exists x, is_finite x = true /\ fc_asinh L (z60 false (B754_zero false)) = mkC x (B754_zero false).
Proof.
  rewrite asinh_60. replace (cadd _ _) with (mkC (f64_of_Z (2 ^ 61)) (B754_zero false) : complex f64) by (unfold cadd; f_equal; lit).
  unfold fc_ln, fc_arg. cbn [re im]. destruct (pow_pos 61) as (F & Q); [auto|]. rewrite (sp_atan2_pos L P _ F Q).
  replace (fc_norm _) with (f64_of_Z (2 ^ 61)) by (unfold fc_norm; lit). eexists. split; [|reflexivity]. apply (sp_ln L P); assumption.
Qed.

Lemma atanh_2 (s : bool) : fc_atanh L (mkC (f64_of_Z 2) (B754_zero s)) = atanh_body L (mkC (f64_of_Z 2) (B754_zero false)).
Proof. rewrite atanh_finite by (destruct s; reflexivity). destruct s; reflexivity. Qed.
Lemma atanh_2_im : B2R (im (atanh_body L (mkC (f64_of_Z 2) (B754_zero false)))) <= -1 /\ is_finite (im (atanh_body L (mkC (f64_of_Z 2) (B754_zero false)))) = true.
Proof.
  destruct (sp_pi L P) as (Fp & Bp). destruct (f64_of_Z_exact 3) as (V3 & F3); [cbn; lia|].
  destruct (@fbone 53 1024 _ _) as (O & Fo & _).
  assert (M1 : is_finite (Bopp Bone : f64) = true /\ B2R (Bopp Bone : f64) = -1).
  { split; [rewrite is_finite_Bopp; exact Fo|]. rewrite B2R_Bopp, O; ring. }
  unfold atanh_body. rewrite c_two.
  replace (csub cone _) with (mkC (Bopp Bone) (B754_zero false) : complex f64) by (unfold csub; f_equal; lit).
  replace (cadd cone _) with (mkC (f64_of_Z 3) (B754_zero false) : complex f64) by (unfold cadd; f_equal; lit).
  unfold cdiv, csub. cbv zeta. cbn [re im].
  unfold fc_ln, fc_arg. cbn [re im].
  rewrite (sp_atan2_pos L P (f64_of_Z 3)) by (rewrite ?V3; auto; lra).
  rewrite (sp_atan2_neg L P _ (proj1 M1) ltac:(rewrite (proj2 M1); lra)).
  replace (fc_norm {| re := f64_of_Z 3; im := B754_zero false |}) with (f64_of_Z 3) by (unfold fc_norm; lit).
  replace (fc_norm {| re := Bopp Bone; im := B754_zero false |}) with (Bone : f64) by (unfold fc_norm; lit).
  replace (cmodulus_squared _) with (f64_of_Z 4) by lit.
  replace (n1 + n1)%N_ with (f64_of_Z 2) by lit.
  destruct (sp_ln L P (f64_of_Z 3) F3 ltac:(rewrite V3; lra)) as (G3 & H3). destruct (sp_ln L P Bone Fo ltac:(rewrite O; lra)) as (G1 & H1).
  set (a := (m_ln L (f64_of_Z 3) - m_ln L Bone)%N_).
  assert (Fa : is_finite a = true) by (exact (sub_fin _ _ G3 H3 G1 H1)).
  destruct (f64_of_Z_exact 2) as (V2 & F2); [cbn; lia|]. destruct (f64_of_Z_exact 4) as (V4 & F4); [cbn; lia|].
  exact (im_val (m_pi L) a _ _ ltac:(lia) ltac:(lia) Fp Bp Fa F2 V2 F4 V4).
Qed.
End F64.

Lemma c115_conjugation :
  forall (prec emax : Z) (Hp : Prec_gt_0 prec) (He : Prec_lt_emax prec emax) (L : libm (binary_float prec emax)),
    libm_symmetric L ->
    forall z : complex (binary_float prec emax),
      fc_exp L (cconj z) = cconj (fc_exp L z) /\
      fc_ln L (cconj z) = cconj (fc_ln L z) /\
      fc_sqrt L (cconj z) = cconj (fc_sqrt L z) /\
      fc_cbrt L (cconj z) = cconj (fc_cbrt L z) /\
      (forall e, fc_powf L (cconj z) e = cconj (fc_powf L z e)) /\
      fc_sinh L (cconj z) = cconj (fc_sinh L z) /\
      fc_sin L (cconj z) = cconj (fc_sin L z) /\
      ceqv (fc_cosh L (cconj z)) (cconj (fc_cosh L z)) /\
      ceqv (fc_cos L (cconj z)) (cconj (fc_cos L z)) /\
      ceqv (fc_tanh L (cconj z)) (cconj (fc_tanh L z)) /\
      ceqv (fc_tan L (cconj z)) (cconj (fc_tan L z)) /\
      fc_norm (cconj z) = fc_norm z /\
      fc_arg L (cconj z) = nneg (fc_arg L z) /\
      (forall r a, fc_from_polar L r (nneg a) = cconj (fc_from_polar L r a) /\ fc_cis L (nneg a) = cconj (fc_cis L a)).
Proof.
  intros prec emax Hp He L S z.
  repeat match goal with |- _ /\ _ => split end; intros;
    first [apply exp_conj | apply ln_conj | apply sqrt_conj | apply cbrt_conj | apply powf_conj | apply sinh_conj | apply sin_conj
          | apply cosh_conj | apply cos_conj | apply tanh_conj | apply tan_conj | apply norm_conj | apply arg_conj
          | split; [apply polar_conj|apply cis_conj]]; exact S.
Qed.

Lemma c115_parity :
  forall (prec emax : Z) (Hp : Prec_gt_0 prec) (He : Prec_lt_emax prec emax) (L : libm (binary_float prec emax))
    (z : complex (binary_float prec emax)),
    (libm_symmetric L ->
      fc_sinh L (cneg z) = cneg (fc_sinh L z) /\
      fc_sin L (cneg z) = cneg (fc_sin L z) /\
      ceqv (fc_cosh L (cneg z)) (fc_cosh L z) /\
      ceqv (fc_cos L (cneg z)) (fc_cos L z) /\
      ceqv (fc_tanh L (cneg z)) (cneg (fc_tanh L z)) /\
      ceqv (fc_tan L (cneg z)) (cneg (fc_tan L z))) /\
    ceqv (fc_atanh L (cneg z)) (cneg (fc_atanh L z)) /\
    ceqv (fc_atan L (cneg z)) (cneg (fc_atan L z)).
Proof.
  intros prec emax Hp He L z. split; [intros S|split; [apply atanh_odd_all|apply atan_odd_all]].
  repeat match goal with |- _ /\ _ => split end;
    first [apply sinh_odd | apply sin_odd | apply cosh_even | apply cos_even | apply tanh_odd | apply tan_odd]; exact S.
Qed.

Lemma c115_inverse_partial :
  forall (prec emax : Z) (Hp : Prec_gt_0 prec) (He : Prec_lt_emax prec emax) (L : libm (binary_float prec emax)),
    libm_symmetric L -> libm_special L ->
    forall z : complex (binary_float prec emax),
      ((cis_finite z = true -> nis0 (im z) = true -> Rabs (B2R (re z)) <= 1) ->
       ceqv (fc_atanh L (cconj z)) (cconj (fc_atanh L z))) /\
      ((cis_finite z = true -> nis0 (re z) = true -> Rabs (B2R (im z)) <= 1) ->
       ceqv (fc_atan L (cconj z)) (cconj (fc_atan L z))) /\
      (cis_finite z = false ->
       fc_acosh L (cconj z) = cconj (fc_acosh L z) /\
       (andb (is_nan (re z)) (fis_infinite (im z)) = false ->
        fc_asinh L (cconj z) = cconj (fc_asinh L z) /\ fc_asinh L (cneg z) = cneg (fc_asinh L z)) /\
       (andb (fis_infinite (re z)) (orb (is_nan (im z)) (nis0 (im z))) = false ->
        fc_acos L (cconj z) = cconj (fc_acos L z)) /\
       (andb (is_nan (im z)) (fis_infinite (re z)) = false ->
        fc_asin L (cconj z) = cconj (fc_asin L z))).
Proof.
  intros prec emax Hp He L S P z. split; [apply (atanh_conj_gen L S P)|]. split; [apply (atan_conj_gen L S P)|]. intros NF.
  split; [apply acosh_conj; assumption|]. split; [intros EX; split; [apply asinh_conj|apply asinh_odd]; assumption|].
  split; intros EX; [apply acos_conj|apply asin_conj]; assumption.
Qed.

Lemma c115_infinite_arguments :
  forall (prec emax : Z) (Hp : Prec_gt_0 prec) (He : Prec_lt_emax prec emax) (L : libm (binary_float prec emax))
    (z : complex (binary_float prec emax)),
    fis_infinite (re z) = true \/ fis_infinite (im z) = true ->
    re (fc_acosh L z) = B754_infinity false /\
    fis_infinite (re (fc_asinh L z)) = true /\
    (is_nan (re z) = false -> Bsign (re (fc_asinh L z)) = Bsign (re z)) /\
    fis_infinite (im (fc_acos L z)) = true /\
    fis_infinite (im (fc_asin L z)) = true /\
    (exists s, re (fc_atanh L z) = B754_zero s) /\
    (is_nan (im z) = false -> im (fc_atanh L z) = fcopysign (m_nb L) (m_frac_pi_2 L) (im z)).
Proof.
  intros prec emax Hp He L z H. split; [apply acosh_inf, H|]. destruct (asinh_inf L z H) as (A & B).
  destruct (atanh_inf L z H) as (C & D & _).
  split; [exact A|]. split; [exact B|]. split; [apply acos_inf, H|]. split; [apply asin_inf, H|]. split; [exact C|exact D].
Qed.

Lemma c115_refuted :
  forall L : libm f64, libm_special L ->
    (exists z : complex f64, cis_finite z = true /\ cis_finite (fc_asinh L z) = true /\
       re (fc_asinh L (cneg z)) = B754_infinity true) /\
    (exists z : complex f64, cis_finite z = true /\ fc_atanh L (cconj z) = fc_atanh L z /\
       is_finite (im (fc_atanh L z)) = true /\ B2R (im (fc_atanh L z)) <= -1) /\
    (exists z : complex f64, re z = B754_infinity false /\ im z = B754_zero false /\
       fc_acos L (cconj z) = fc_acos L z /\ im (fc_acos L z) = B754_infinity true) /\
    (exists z : complex f64, re (fc_asinh L z) = B754_infinity false /\ re (fc_asinh L (cconj z)) = B754_infinity true) /\
    (exists z : complex f64, cis_finite z = true /\ im z = B754_zero false /\
       im (fc_atanh L z) = B754_zero false /\ im (fc_atanh L (cconj z)) = B754_zero false).
Proof.
  intros L P. split; [|split; [|split; [|split]]].
  - exists (z60 false (B754_zero false)). split; [reflexivity|]. destruct (asinh_pos60 L P) as (x & F & E). rewrite E.
    split; [unfold cis_finite; cbn [re im]; rewrite F; reflexivity|].
    replace (cneg (z60 false (B754_zero false))) with (z60 true (B754_zero true)) by reflexivity.
    replace (fc_asinh L (z60 true (B754_zero true))) with (fc_asinh L (z60 true (B754_zero false))); [rewrite asinh_neg60 by exact P; reflexivity|].
    unfold fc_asinh.
    replace (cadd cone (cmul (z60 true (B754_zero true)) (z60 true (B754_zero true)))) with (mkC (f64_of_Z (2 ^ 120)) (B754_zero false)) by (unfold cadd, cmul; f_equal; lit).
    replace (cadd cone (cmul (z60 true (B754_zero false)) (z60 true (B754_zero false)))) with (mkC (f64_of_Z (2 ^ 120)) (B754_zero false)) by (unfold cadd, cmul; f_equal; lit).
    rewrite (sqrt_2p120 L P). reflexivity.
  - exists (mkC (f64_of_Z 2) (B754_zero false)). split; [reflexivity|]. change (cconj _) with (mkC (f64_of_Z 2) (B754_zero true : f64)).
    rewrite !atanh_2. destruct (atanh_2_im L P) as (A & B). auto.
  - exists (mkC (B754_infinity false) (B754_zero false)). repeat split; reflexivity.
  - exists (mkC B754_nan (B754_infinity false)). split; reflexivity.
  - exists (mkC Bone (B754_zero false)). repeat split; reflexivity.
Qed.

Lemma c115_example :
  forall nb : bool,
    libm_symmetric (cr_libm nb : libm f64) /\ libm_special (cr_libm nb : libm f64) /\
    libm_symmetric (cr_libm nb : libm f32) /\ libm_special (cr_libm nb : libm f32).
Proof.
  intros nb. split; [apply cr_symmetric|split; [apply cr_special; lia|split; [apply cr_symmetric|apply cr_special; lia]]].
Qed.

Lemma c115_example_values :
  nis0 (im (mkC (f64_of_Z 1) (f64_of_Z 2))) = false /\
  cis_finite (mkC (B754_infinity false) (f64_of_Z 1) : complex f64) = false /\
  andb (fis_infinite (B754_infinity false : f64)) (orb (is_nan (f64_of_Z 1)) (nis0 (f64_of_Z 1))) = false.
Proof.
  repeat split; reflexivity.
Qed.
