(** Lemmas for C115: inverse functions at infinities and NaN. *)

From Coq Require Import ZArith Bool Reals Lia Lra Floats.SpecFloat.
From Flocq Require Import Core.Core IEEE754.BinarySingleNaN.
From Verif Require Import Base Scalar MComplex MFloat MFloatVec MSign MComplexF SpecLibm LFloat LComplexFP.
Local Open Scope num_scope.

Section Lem.
Context {prec emax : Z} {Hprec : Prec_gt_0 prec} {Hemax : Prec_lt_emax prec emax}.
Notation fl := (binary_float prec emax).

Lemma self_neg (x : fl) : x = - x -> x = B754_nan.
Proof. destruct x as [s|s| |s m e H]; cbn; intros E; try reflexivity; injection E; destruct s; discriminate. Qed.
Lemma nan_add_l (x : fl) : (B754_nan : fl) + x = B754_nan.
Proof. reflexivity. Qed.
Lemma nan_add_r (x : fl) : x + (B754_nan : fl) = B754_nan.
Proof. destruct x; reflexivity. Qed.
Lemma nan_sub_l (x : fl) : (B754_nan : fl) - x = B754_nan.
Proof. reflexivity. Qed.
Lemma nan_sub_r (x : fl) : x - (B754_nan : fl) = B754_nan.
Proof. destruct x; reflexivity. Qed.
Lemma nan_mul_l (x : fl) : (B754_nan : fl) * x = B754_nan.
Proof. reflexivity. Qed.
Lemma nan_mul_r (x : fl) : x * (B754_nan : fl) = B754_nan.
Proof. destruct x; reflexivity. Qed.
Lemma nan_div_l (x : fl) : (B754_nan : fl) / x = B754_nan.
Proof. reflexivity. Qed.
Lemma is_nan_eq (x : fl) : is_nan x = true -> x = B754_nan.
Proof. destruct x; try discriminate; reflexivity. Qed.

Hint Rewrite nan_add_l nan_add_r nan_sub_l nan_sub_r nan_mul_l nan_mul_r nan_div_l : nan.

Variable L : libm fl.
Hypothesis S : libm_symmetric L.

Lemma atan2_nan x : m_atan2 L B754_nan x = B754_nan.
Proof. apply self_neg. exact (sym_atan2 L S B754_nan x). Qed.
Lemma sin_nan : m_sin L B754_nan = B754_nan.
Proof. apply self_neg. exact (sym_sin L S B754_nan). Qed.

Lemma sqrt_im_nan x : im (fc_sqrt L (mkC x B754_nan)) = B754_nan.
Proof.
  unfold fc_sqrt, fc_arg. cbv zeta. cbn [re im]. rewrite atan2_nan, nan_div_l, sin_nan. apply nan_mul_r.
Qed.
Lemma ln_im_nan x : fc_ln L (mkC x B754_nan) = mkC B754_nan B754_nan.
Proof.
  unfold fc_ln, fc_arg, fc_norm, cmodulus_squared. cbn [re im]. rewrite atan2_nan, nan_mul_r, nan_add_r.
  change (fsqrt B754_nan) with (B754_nan : fl). rewrite (sym_ln_nan L S). reflexivity.
Qed.
Lemma acosh_general_nan x : is_finite x = true -> fc_acosh L (mkC x B754_nan) = mkC B754_nan B754_nan.
Proof.
  intros F. unfold fc_acosh. cbn [re im is_nan fis_infinite].
  replace (fis_infinite x) with false by (destruct x; try discriminate F; reflexivity).
  replace (is_nan x) with false by (destruct x; try discriminate F; reflexivity). cbv zeta.
  set (w := cadd (fc_sqrt L _) _). assert (W : im w = B754_nan).
  { unfold w, cadd, cdiv, csub. cbv zeta. cbn [re im cone cidentity]. autorewrite with nan. reflexivity. }
  destruct w as [a b]. cbn [im] in W. subst b. rewrite ln_im_nan. unfold cmul. cbn [re im]. autorewrite with nan. reflexivity.
Qed.
Lemma asinh_general_nan x : is_finite x = true -> fc_asinh L (mkC x B754_nan) = mkC B754_nan B754_nan.
Proof.
  intros F. unfold fc_asinh. cbn [re im is_nan fis_infinite].
  replace (fis_infinite x) with false by (destruct x; try discriminate F; reflexivity).
  replace (is_nan x) with false by (destruct x; try discriminate F; reflexivity).
  unfold cadd at 1. cbn [re im]. rewrite nan_add_l. apply ln_im_nan.
Qed.
Lemma acos_general_nan x : is_finite x = true -> nis0 x = false -> fc_acos L (mkC x B754_nan) = mkC B754_nan B754_nan.
Proof.
  intros F N. unfold fc_acos. cbn [re im]. rewrite N. cbn [is_nan fis_infinite andb].
  replace (fis_infinite x) with false by (destruct x; try discriminate F; reflexivity).
  replace (is_nan x) with false by (destruct x; try discriminate F; reflexivity). cbv zeta.
  unfold cadd at 1. cbn [re im]. rewrite nan_add_r, ln_im_nan. unfold cmul. cbn [re im]. autorewrite with nan. reflexivity.
Qed.

Ltac negs := cbn [re im cconj cneg]; rewrite ?inf_neg, ?fin_neg, ?is0_neg, ?nan_neg, ?abs_neg.
Ltac bools := repeat match goal with |- context [if ?b then _ else _] => let E := fresh "E" in destruct b eqn:E end.

Lemma not_fin (x : fl) : is_finite x = false -> fis_infinite x = true \/ is_nan x = true.
Proof. destruct x; cbn; auto; discriminate. Qed.
Lemma class3 (x : fl) : (exists s, x = B754_infinity s) \/ x = B754_nan \/ (is_finite x = true /\ fis_infinite x = false /\ is_nan x = false).
Proof. destruct x; cbn; eauto 6. Qed.

(** Non-finite arguments, by the kinds of both parts. *)
Ltac kinds z NF :=
  let x := fresh "x" in let y := fresh "y" in destruct z as [x y];
  destruct (class3 x) as [(sx & ->)|[->|(Fx & Ix & Nx)]]; destruct (class3 y) as [(sy & ->)|[->|(Fy & Iy & Ny)]];
  [ | | | | | | | | exfalso; unfold cis_finite in NF; cbn [re im] in NF; rewrite Fx, Fy in NF; discriminate NF].

Lemma copysign_negL (c x : fl) : is_nan x = false -> copysign L c (- x) = - copysign L c x.
Proof. apply copysign_neg. Qed.

Ltac simp := cbn [re im cconj cneg nneg num_float Bopp fis_infinite is_nan is_finite]; rewrite ?inf_neg, ?fin_neg, ?is0_neg, ?nan_neg, ?abs_neg.

Ltac csinf := unfold cconj, cneg; cbn -[copysign nmul nadd]; f_equal;
  try first [exact (copysign_negL _ (B754_infinity true) eq_refl) | exact (copysign_negL _ (B754_infinity false) eq_refl)].
Lemma acosh_conj z : cis_finite z = false -> fc_acosh L (cconj z) = cconj (fc_acosh L z).
Proof.
  intros NF. kinds z NF.
  - destruct sx, sy; unfold fc_acosh; csinf.
  - reflexivity.
  - unfold fc_acosh. cbn [re im cconj fis_infinite]. rewrite nan_neg, inf_neg, Iy, Ny.
    destruct sx; cbn -[copysign]; unfold cconj; cbn [re im]; f_equal; apply (copysign_negL _ y Ny).
  - destruct sy; reflexivity.
  - reflexivity.
  - unfold fc_acosh. cbn [re im cconj fis_infinite is_nan]. rewrite inf_neg, Iy. reflexivity.
  - unfold fc_acosh. cbn [re im cconj fis_infinite is_nan]. rewrite Ix, Nx. cbn [nneg num_float Bopp fis_infinite].
    destruct sy; unfold cconj; cbn [re im]; f_equal; first [exact (copysign_negL _ (B754_infinity true) eq_refl) | exact (copysign_negL _ (B754_infinity false) eq_refl)].
  - change (cconj (mkC x B754_nan)) with (mkC x (B754_nan : fl)). rewrite acosh_general_nan by assumption. reflexivity.
Qed.

Lemma asinh_conj z : cis_finite z = false -> andb (is_nan (re z)) (fis_infinite (im z)) = false -> fc_asinh L (cconj z) = cconj (fc_asinh L z).
Proof.
  intros NF EX. kinds z NF.
  - destruct sx, sy; unfold fc_asinh; csinf.
  - reflexivity.
  - unfold fc_asinh. cbn [re im cconj fis_infinite]. rewrite nan_neg, inf_neg, Iy, Ny.
    unfold cconj; cbn [re im]; f_equal; apply (copysign_negL _ y Ny).
  - discriminate EX.
  - reflexivity.
  - unfold fc_asinh. cbn [re im cconj fis_infinite is_nan]. rewrite inf_neg, is0_neg, Iy. destruct (nis0 y); reflexivity.
  - unfold fc_asinh. cbn [re im cconj fis_infinite is_nan]. rewrite Ix, Nx. cbn [nneg num_float Bopp fis_infinite].
    destruct sy; unfold cconj; cbn [re im]; f_equal; first [exact (copysign_negL _ (B754_infinity true) eq_refl) | exact (copysign_negL _ (B754_infinity false) eq_refl) | reflexivity].
  - change (cconj (mkC x B754_nan)) with (mkC x (B754_nan : fl)). rewrite asinh_general_nan by assumption. reflexivity.
Qed.

Lemma atanh_conj z : cis_finite z = false -> fc_atanh L (cconj z) = cconj (fc_atanh L z).
Proof.
  intros NF. kinds z NF.
  - destruct sx, sy; unfold fc_atanh; csinf.
  - reflexivity.
  - unfold fc_atanh. cbv zeta. cbn [re im cconj fis_infinite is_nan]. rewrite nan_neg, inf_neg, Iy, Ny.
    unfold cconj; cbn [re im]; f_equal; apply (copysign_negL _ y Ny).
  - destruct sy; unfold fc_atanh; csinf.
  - reflexivity.
  - unfold fc_atanh. cbv zeta. cbn [re im cconj fis_infinite is_nan]. rewrite nan_neg, inf_neg, Iy, Ny. reflexivity.
  - destruct sy; unfold fc_atanh; csinf.
  - unfold fc_atanh. cbv zeta. cbn [re im cconj fis_infinite is_nan nneg num_float Bopp]. destruct (fis_infinite x || nis0 x)%bool; reflexivity.
Qed.

Lemma ltb_neg0 (y : fl) : is_finite y = true -> nis0 y = false -> Bltb (- y) 0 = negb (Bltb y 0).
Proof. destruct y as [[]|[]| |[] m e H]; cbn; try discriminate; reflexivity. Qed.

Lemma acos_conj z : cis_finite z = false -> andb (fis_infinite (re z)) (orb (is_nan (im z)) (nis0 (im z))) = false ->
  fc_acos L (cconj z) = cconj (fc_acos L z).
Proof.
  intros NF EX. kinds z NF.
  - destruct sx, sy; reflexivity.
  - discriminate EX.
  - cbn [re im fis_infinite andb] in EX. rewrite Ny in EX. cbn [orb] in EX.
    unfold fc_acos. cbn [re im cconj fis_infinite is_nan]. rewrite nan_neg, inf_neg, Iy, Ny, (ltb_neg0 y Fy EX).
    destruct sx; cbn -[Bltb]; unfold cconj; cbn [re im]; destruct (Bltb y _); reflexivity.
  - destruct sy; reflexivity.
  - reflexivity.
  - unfold fc_acos. cbn [re im cconj fis_infinite is_nan]. rewrite inf_neg, Iy. reflexivity.
  - unfold fc_acos. cbn [re im cconj fis_infinite is_nan nneg num_float Bopp]. rewrite Ix, Nx. destruct sy; reflexivity.
  - change (cconj (mkC x B754_nan)) with (mkC x (B754_nan : fl)). destruct (nis0 x) eqn:N.
    + unfold fc_acos. cbn [re im cconj fis_infinite is_nan]. rewrite Ix, Nx, N. rewrite orb_true_r. reflexivity.
    + rewrite acos_general_nan by assumption. reflexivity.
Qed.

(** asinh and atanh of the reflection at the imaginary axis. *)
Definition crefl (z : complex fl) : complex fl := mkC (- re z) (im z).

Lemma asinh_refl z : cis_finite z = false -> andb (is_nan (re z)) (fis_infinite (im z)) = false ->
  fc_asinh L (crefl z) = crefl (fc_asinh L z).
Proof.
  intros NF EX. kinds z NF; unfold crefl; cbn [re im].
  - destruct sx, sy; reflexivity.
  - reflexivity.
  - unfold fc_asinh. cbn [re im nneg num_float Bopp fis_infinite]. rewrite Iy, Ny. reflexivity.
  - discriminate EX.
  - reflexivity.
  - unfold fc_asinh. cbn [re im nneg num_float Bopp fis_infinite is_nan]. rewrite Iy. destruct (nis0 y); reflexivity.
  - unfold fc_asinh. cbn [re im fis_infinite is_nan]. rewrite inf_neg, nan_neg, Ix, Nx. cbn [re im]. f_equal.
    apply (copysign_negL _ x Nx).
  - rewrite !asinh_general_nan by (rewrite ?fin_neg; assumption). reflexivity.
Qed.
Lemma atanh_refl z : cis_finite z = false -> ceqv (fc_atanh L (crefl z)) (crefl (fc_atanh L z)).
Proof.
  intros NF. kinds z NF; unfold crefl; cbn [re im].
  - destruct sx, sy; split; (apply feqv_refl || apply feqv_zero).
  - split; (apply feqv_refl || apply feqv_zero).
  - unfold fc_atanh. cbv zeta. cbn [re im nneg num_float Bopp fis_infinite is_nan]. rewrite Iy, Ny.
    split; (apply feqv_refl || apply feqv_zero).
  - split; (apply feqv_refl || apply feqv_zero).
  - apply ceqv_eq. reflexivity.
  - unfold fc_atanh. cbv zeta. cbn [re im nneg num_float Bopp fis_infinite is_nan]. rewrite Iy, Ny. apply ceqv_eq. reflexivity.
  - split; (apply feqv_refl || apply feqv_zero).
  - unfold fc_atanh. cbv zeta. cbn [re im fis_infinite is_nan]. rewrite inf_neg, is0_neg.
    destruct (fis_infinite x || nis0 x)%bool; split; (apply feqv_refl || apply feqv_zero).
Qed.

Lemma asin_conj z : cis_finite z = false -> andb (is_nan (im z)) (fis_infinite (re z)) = false ->
  fc_asin L (cconj z) = cconj (fc_asin L z).
Proof.
  intros NF EX. destruct z as [x y]. unfold fc_asin. cbv zeta. cbn [re im cconj].
  change (mkC (- - y) x) with (crefl (mkC (- y) x)). rewrite asinh_refl.
  - reflexivity.
  - unfold cis_finite in *. cbn [re im] in *. rewrite fin_neg, andb_comm. exact NF.
  - cbn [re im]. rewrite nan_neg. exact EX.
Qed.
Lemma atan_conj z : cis_finite z = false -> ceqv (fc_atan L (cconj z)) (cconj (fc_atan L z)).
Proof.
  intros NF. destruct z as [x y]. unfold fc_atan. cbv zeta. cbn [re im cconj].
  change (mkC (- - y) x) with (crefl (mkC (- y) x)). destruct (atanh_refl (mkC (- y) x)) as (A & B).
  - unfold cis_finite in *. cbn [re im] in *. rewrite fin_neg, andb_comm. exact NF.
  - split; cbn [re im] in *; [exact B|]. apply feqv_opp, A.
Qed.

(** Odd: reflection at both axes. *)
Lemma neg_refl z : cneg z = crefl (cconj z).
Proof. reflexivity. Qed.
Lemma conj_nf (z : complex fl) : cis_finite (cconj z) = cis_finite z.
Proof. destruct z as [x y]. unfold cis_finite. cbn [re im cconj]. now rewrite (fin_neg y). Qed.

Lemma asinh_odd z : cis_finite z = false -> andb (is_nan (re z)) (fis_infinite (im z)) = false ->
  fc_asinh L (cneg z) = cneg (fc_asinh L z).
Proof.
  intros NF EX. rewrite neg_refl.
  rewrite (asinh_refl (cconj z)); [rewrite (asinh_conj z NF EX); reflexivity|rewrite conj_nf; exact NF|].
  destruct z as [x y]. cbn [re im cconj] in *. rewrite inf_neg. exact EX.
Qed.
Lemma atanh_odd z : cis_finite z = false -> ceqv (fc_atanh L (cneg z)) (cneg (fc_atanh L z)).
Proof.
  intros NF. rewrite neg_refl. eapply ceqv_trans; [apply atanh_refl; rewrite conj_nf; exact NF|].
  rewrite (atanh_conj z NF). apply ceqv_eq. reflexivity.
Qed.

(** Infinite arguments. *)
Lemma inf_class (x : fl) : fis_infinite x = true -> exists s, x = B754_infinity s.
Proof. destruct x; try discriminate; eauto. Qed.

Lemma acosh_inf z : fis_infinite (re z) = true \/ fis_infinite (im z) = true -> re (fc_acosh L z) = B754_infinity false.
Proof.
  destruct z as [x y]. cbn [re im]. intros [H|H]; apply inf_class in H; destruct H as (s & ->).
  - unfold fc_acosh. cbn [re im fis_infinite]. destruct (is_nan y); [reflexivity|]. destruct (fis_infinite y), s; reflexivity.
  - unfold fc_acosh. cbn [re im fis_infinite is_nan]. destruct (class3 x) as [(t & ->)|[->|(Fx & Ix & Nx)]].
    + cbn [fis_infinite]. destruct t; reflexivity.
    + reflexivity.
    + rewrite Ix, Nx. reflexivity.
Qed.
Lemma asinh_inf z : fis_infinite (re z) = true \/ fis_infinite (im z) = true ->
  fis_infinite (re (fc_asinh L z)) = true /\ (is_nan (re z) = false -> Bsign (re (fc_asinh L z)) = Bsign (re z)).
Proof.
  destruct z as [x y]. cbn [re im]. intros [H|H]; apply inf_class in H; destruct H as (s & ->).
  - unfold fc_asinh. cbn [re im fis_infinite]. destruct (is_nan y); [auto|]. destruct (fis_infinite y), s; auto.
  - unfold fc_asinh. cbn [re im fis_infinite is_nan]. destruct (class3 x) as [(t & ->)|[->|(Fx & Ix & Nx)]].
    + cbn [fis_infinite]. auto.
    + cbn. split; [reflexivity|discriminate].
    + rewrite Ix, Nx. cbn [re]. split; [reflexivity|]. intros _. destruct x; try discriminate; reflexivity.
Qed.
Lemma acos_inf z : fis_infinite (re z) = true \/ fis_infinite (im z) = true -> fis_infinite (im (fc_acos L z)) = true.
Proof.
  destruct z as [x y]. cbn [re im]. intros [H|H]; apply inf_class in H; destruct H as (s & ->).
  - unfold fc_acos. cbn [re im fis_infinite]. destruct (is_nan y); [reflexivity|].
    destruct (fis_infinite y) eqn:I, s; cbn -[Bltb Bopp]; try (destruct (Bltb y _); reflexivity);
      exact (eq_trans (inf_neg y) I).
  - unfold fc_acos. cbn [re im fis_infinite is_nan]. destruct (class3 x) as [(t & ->)|[->|(Fx & Ix & Nx)]].
    + destruct t; reflexivity.
    + reflexivity.
    + rewrite Ix, Nx. reflexivity.
Qed.
Lemma asin_inf z : fis_infinite (re z) = true \/ fis_infinite (im z) = true -> fis_infinite (im (fc_asin L z)) = true.
Proof.
  intros H. destruct z as [x y]. unfold fc_asin. cbv zeta. cbn [im]. rewrite inf_neg.
  apply asinh_inf. cbn [re im] in *. rewrite inf_neg. tauto.
Qed.
Lemma atanh_inf z : fis_infinite (re z) = true \/ fis_infinite (im z) = true ->
  (exists s, re (fc_atanh L z) = B754_zero s) /\
  (is_nan (im z) = false -> im (fc_atanh L z) = copysign L (m_frac_pi_2 L) (im z)) /\
  (is_nan (im z) = true -> is_nan (im (fc_atanh L z)) = true).
Proof.
  destruct z as [x y]. cbn [re im]. intros H. unfold fc_atanh. cbv zeta. cbn [re im].
  destruct (class3 y) as [(t & ->)|[->|(Fy & Iy & Ny)]].
  - cbn [fis_infinite]. repeat split; [eexists; reflexivity|intros E; discriminate E].
  - destruct H as [H|H]; [|discriminate H]. cbn [fis_infinite is_nan]. rewrite H. cbn [orb re im].
    repeat split; [eexists; reflexivity|discriminate].
  - destruct H as [H|H]; [|congruence]. rewrite Iy, Ny, H. rewrite (inf_not_nan _ H). cbn [re im].
    repeat split; [eexists; reflexivity|intros; congruence].
Qed.
End Lem.
