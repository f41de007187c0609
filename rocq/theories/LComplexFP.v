(** Lemmas for C115. *)

From Coq Require Import ZArith Bool Reals Lia Lra Floats.SpecFloat.
From Flocq Require Import Core.Core IEEE754.BinarySingleNaN.
From Verif Require Import Base Scalar MComplex MFloat MFloatVec MSign MComplexF SpecLibm LFloat.
Local Open Scope num_scope.

Section Lem.
Context {prec emax : Z} {Hprec : Prec_gt_0 prec} {Hemax : Prec_lt_emax prec emax}.
Notation fl := (binary_float prec emax).

Lemma round_aux_neg s m e l :
  binary_round_aux prec emax mode_NE (negb s) m e l = SFopp (binary_round_aux prec emax mode_NE s m e l).
Proof.
  unfold binary_round_aux. destruct (shr_fexp prec emax m e l) as (r & e1). cbn [choice_mode].
  destruct (shr_fexp prec emax _ e1 loc_Exact) as (r2 & e2). destruct (shr_m r2); try reflexivity.
  unfold binary_fit_aux. destruct (Z.leb _ _); reflexivity.
Qed.

Lemma B2SF_neg (x : fl) : B2SF (- x) = SFopp (B2SF x).
Proof. destruct x; reflexivity. Qed.

Lemma fmul_neg_l (x y : fl) : (- x) * y = - (x * y).
Proof.
  apply B2SF_inj. rewrite B2SF_neg. cbn [nmul nneg num_float].
  destruct x as [sx|sx| |sx mx ex Hx], y as [sy|sy| |sy my ey Hy]; try reflexivity;
    try (destruct sx, sy; reflexivity).
  cbn [Bopp Bmult]. rewrite !B2SF_SF2B. rewrite <- round_aux_neg. f_equal. destruct sx, sy; reflexivity.
Qed.
Lemma fmul_neg_r (x y : fl) : x * (- y) = - (x * y).
Proof. rewrite (fmul_comm x (- y)), fmul_neg_l, (fmul_comm y x). reflexivity. Qed.

Lemma fdiv_neg_l (x y : fl) : (- x) / y = - (x / y).
Proof.
  apply B2SF_inj. rewrite B2SF_neg. cbn [ndiv nneg num_float numdiv_float].
  destruct x as [sx|sx| |sx mx ex Hx], y as [sy|sy| |sy my ey Hy]; try reflexivity;
    try (destruct sx, sy; reflexivity).
  cbn [Bopp Bdiv]. rewrite !B2SF_SF2B. destruct (SFdiv_core_binary _ _ _ _ _ _) as ((m & e) & l).
  rewrite <- round_aux_neg. f_equal. destruct sx, sy; reflexivity.
Qed.

Lemma binary_normalize_neg m e s : m <> 0%Z ->
  binary_normalize prec emax _ _ mode_NE (- m) e s = - binary_normalize prec emax _ _ mode_NE m e s.
Proof.
  intros N. apply B2SF_inj. rewrite B2SF_neg. destruct m as [|m|m]; [congruence| |]; cbn [Z.opp binary_normalize];
    rewrite !B2SF_SF2B; unfold binary_round; destruct (shl_align_fexp _ _ _ _) as (mz & ez).
  - exact (round_aux_neg false _ _ _).
  - exact (round_aux_neg true _ _ _).
Qed.

Lemma fplus_naive_neg sx mx ex sy my ey ez :
  Fplus_naive (negb sx) mx ex (negb sy) my ey ez = (- Fplus_naive sx mx ex sy my ey ez)%Z.
Proof. unfold Fplus_naive. rewrite !cond_Zopp_negb. lia. Qed.

(** A sum of opposites is the opposite, up to the sign of a zero. *)
Lemma fadd_neg (x y : fl) : (- x) + (- y) = - (x + y) \/ (x + y = B754_zero false /\ (- x) + (- y) = B754_zero false).
Proof.
  cbn [nadd nneg num_float]. destruct x as [sx|sx| |sx mx ex Hx], y as [sy|sy| |sy my ey Hy]; auto;
    try (left; destruct sx, sy; reflexivity); try (destruct sx, sy; (left; reflexivity) || (right; split; reflexivity)).
  cbn [Bopp Bplus]. rewrite fplus_naive_neg. set (m := Fplus_naive _ _ _ _ _ _ _).
  destruct (Z.eq_dec m 0) as [->|N]; [right; split; reflexivity|left; apply binary_normalize_neg, N].
Qed.

Lemma fdouble_neg (x : fl) : (- x) + (- x) = - (x + x).
Proof.
  cbn [nadd nneg num_float]. destruct x as [sx|sx| |sx mx ex Hx]; try (destruct sx; reflexivity); [reflexivity|].
  cbn [Bopp Bplus]. rewrite fplus_naive_neg. apply binary_normalize_neg.
  unfold Fplus_naive. destruct sx; cbn [cond_Zopp]; lia.
Qed.

(** The classifications do not see the sign. *)
Lemma inf_neg (x : fl) : fis_infinite (- x) = fis_infinite x.
Proof. destruct x; reflexivity. Qed.
Lemma fin_neg (x : fl) : is_finite (- x) = is_finite x.
Proof. destruct x; reflexivity. Qed.
Lemma nan_neg (x : fl) : is_nan (- x) = is_nan x.
Proof. destruct x; reflexivity. Qed.
Lemma is0_neg (x : fl) : nis0 (- x) = nis0 x.
Proof. destruct x as [[]|[]| |[]]; reflexivity. Qed.
Lemma is0_iff (x : fl) : nis0 x = true <-> exists s, x = B754_zero s.
Proof. destruct x as [s|[]| |[]]; cbn; split; try discriminate; eauto; intros (? & E); discriminate E. Qed.
Lemma abs_neg (x : fl) : fabs (- x) = fabs x.
Proof. destruct x; reflexivity. Qed.
Lemma nan_op : - (fnan : fl) = fnan.
Proof. reflexivity. Qed.

Lemma feqv_refl (x : fl) : feqv x x.
Proof. left; reflexivity. Qed.
Lemma feqv_eq (x y : fl) : x = y -> feqv x y.
Proof. left; assumption. Qed.
Lemma feqv_zero s t : feqv (B754_zero s : fl) (B754_zero t).
Proof. right; eauto. Qed.
Lemma feqv_neg0 (x : fl) : nis0 x = true -> feqv x (- x).
Proof. intros H. apply is0_iff in H. destruct H as (s & ->). apply feqv_zero. Qed.

Lemma feqv_0neg (x : fl) : nis0 x = true -> feqv (- x) x.
Proof. intros H. apply is0_iff in H. destruct H as (s & ->). apply feqv_zero. Qed.
Lemma feqv_trans (x y z : fl) : feqv x y -> feqv y z -> feqv x z.
Proof.
  intros [->|(s & t & -> & ->)]; [auto|]. intros [<-|(s' & t' & _ & ->)]; right; eauto.
Qed.
Lemma feqv_opp (x y : fl) : feqv x y -> feqv (- x) (- y).
Proof. intros [->|(s & t & -> & ->)]; [left; reflexivity|right; cbn; eauto]. Qed.
Lemma ceqv_trans (x y z : complex fl) : ceqv x y -> ceqv y z -> ceqv x z.
Proof. intros (A & B) (C & D). split; eapply feqv_trans; eassumption. Qed.
Lemma ceqv_eq (x y : complex fl) : x = y -> ceqv x y.
Proof. intros ->. split; apply feqv_refl. Qed.
Lemma ceqv_conj (x y : complex fl) : ceqv x y -> ceqv (cconj x) (cconj y).
Proof. intros (A & B). split; [exact A|apply feqv_opp, B]. Qed.
Lemma ceqv_opp (x y : complex fl) : ceqv x y -> ceqv (cneg x) (cneg y).
Proof. intros (A & B). split; apply feqv_opp; assumption. Qed.

Lemma norm_conj (z : complex fl) : fc_norm (cconj z) = fc_norm z.
Proof. unfold fc_norm, cmodulus_squared, cconj. cbn [re im]. rewrite fmul_neg_neg. reflexivity. Qed.

Lemma norm_negconj (z : complex fl) : fc_norm (cneg z) = fc_norm z.
Proof. unfold fc_norm, cmodulus_squared, cneg. cbn [re im]. rewrite !fmul_neg_neg. reflexivity. Qed.

Section Sym.
Variable L : libm fl.
Hypothesis S : libm_symmetric L.

Lemma exp_conj z : fc_exp L (cconj z) = cconj (fc_exp L z).
Proof. unfold fc_exp, cconj. cbn [re im]. rewrite (sym_cos L S), (sym_sin L S), fmul_neg_r. reflexivity. Qed.
Lemma arg_conj z : fc_arg L (cconj z) = - fc_arg L z.
Proof. unfold fc_arg, cconj. cbn [re im]. apply (sym_atan2 L S). Qed.
Lemma ln_conj z : fc_ln L (cconj z) = cconj (fc_ln L z).
Proof. unfold fc_ln. rewrite norm_conj, arg_conj. reflexivity. Qed.
Lemma polar_conj r a : fc_from_polar L r (- a) = cconj (fc_from_polar L r a).
Proof. unfold fc_from_polar, cconj. cbn [re im]. rewrite (sym_cos L S), (sym_sin L S), fmul_neg_r. reflexivity. Qed.
Lemma sqrt_conj z : fc_sqrt L (cconj z) = cconj (fc_sqrt L z).
Proof. unfold fc_sqrt. rewrite norm_conj, arg_conj, fdiv_neg_l. exact (polar_conj _ _). Qed.
Lemma cbrt_conj z : fc_cbrt L (cconj z) = cconj (fc_cbrt L z).
Proof. unfold fc_cbrt. rewrite norm_conj, arg_conj, fdiv_neg_l. exact (polar_conj _ _). Qed.
Lemma powf_conj z e : fc_powf L (cconj z) e = cconj (fc_powf L z e).
Proof.
  unfold fc_powf. rewrite ln_conj, <- exp_conj. f_equal. unfold cmul_s, cconj. cbn [re im]. rewrite fmul_neg_l. reflexivity.
Qed.
Lemma cis_conj a : fc_cis L (- a) = cconj (fc_cis L a).
Proof. unfold fc_cis, cconj. cbn [re im]. rewrite (sym_cos L S), (sym_sin L S). reflexivity. Qed.

Ltac negs := cbn [re im cconj cneg]; rewrite ?inf_neg, ?fin_neg, ?is0_neg, ?nan_neg, ?abs_neg.
Ltac syms := rewrite ?(sym_cos L S), ?(sym_sin L S), ?(sym_cosh L S), ?(sym_sinh L S),
  ?fmul_neg_l, ?fmul_neg_r, ?fdiv_neg_l, ?fneg_invol.
Ltac bools := repeat match goal with |- context [if ?b then _ else _] => let E := fresh "E" in destruct b eqn:E end.

(** sinh: exact in both directions. *)
Lemma sinh_conj z : fc_sinh L (cconj z) = cconj (fc_sinh L z).
Proof. destruct z as [x y]. unfold fc_sinh. negs. bools; negs; syms; reflexivity. Qed.
Lemma sinh_odd z : fc_sinh L (cneg z) = cneg (fc_sinh L z).
Proof. destruct z as [x y]. unfold fc_sinh. negs. bools; unfold cneg; cbn [re im]; syms; reflexivity. Qed.

Lemma andb_l a b : andb a b = true -> a = true.
Proof. destruct a; [reflexivity|discriminate]. Qed.
Lemma andb_r a b : andb a b = true -> b = true.
Proof. destruct a; [auto|discriminate]. Qed.

Ltac eqv := first [apply feqv_refl | apply feqv_neg0; eauto using andb_l, andb_r | apply feqv_0neg; eauto using andb_l, andb_r].
Lemma cosh_conj z : ceqv (fc_cosh L (cconj z)) (cconj (fc_cosh L z)).
Proof. destruct z as [x y]. unfold fc_cosh. negs. bools; negs; syms; split; cbn [re im]; eqv. Qed.
Lemma cosh_even z : ceqv (fc_cosh L (cneg z)) (fc_cosh L z).
Proof. destruct z as [x y]. unfold fc_cosh. negs. bools; unfold cneg; cbn [re im]; syms; split; cbn [re im]; eqv. Qed.

Lemma copysign_0 nb (x y : fl) : feqv (fcopysign nb n0 x) (fcopysign nb n0 y).
Proof. apply feqv_zero. Qed.
Lemma copysign_neg nb (c x : fl) : is_nan x = false -> fcopysign nb c (- x) = - fcopysign nb c x.
Proof. destruct x; try discriminate; intros _; destruct c; reflexivity. Qed.
Lemma inf_not_nan (x : fl) : fis_infinite x = true -> is_nan x = false.
Proof. destruct x; try discriminate; reflexivity. Qed.

Lemma tanh_conj z : ceqv (fc_tanh L (cconj z)) (cconj (fc_tanh L z)).
Proof.
  destruct z as [x y]. unfold fc_tanh, copysign. cbv zeta. negs.
  bools; cbn [re im cconj]; rewrite ?fdouble_neg; syms; split; cbn [re im]; try apply feqv_refl; try apply feqv_zero.
Qed.
Lemma tanh_odd z : ceqv (fc_tanh L (cneg z)) (cneg (fc_tanh L z)).
Proof.
  destruct z as [x y]. unfold fc_tanh, copysign. cbv zeta. negs.
  bools; unfold cneg; cbn [re im]; rewrite ?fdouble_neg; syms; split; cbn [re im]; try apply feqv_refl; try apply feqv_zero;
    apply feqv_eq, copysign_neg, inf_not_nan; assumption.
Qed.

Lemma negconj_negconj (x y : fl) : mkC (- x) y = cneg (cconj (mkC x y)).
Proof. unfold cneg, cconj. cbn [re im]. rewrite fneg_invol. reflexivity. Qed.

Lemma cos_conj z : ceqv (fc_cos L (cconj z)) (cconj (fc_cos L z)).
Proof.
  destruct z as [x y]. unfold fc_cos. cbn [re im cconj]. rewrite negconj_negconj.
  eapply ceqv_trans; [apply cosh_even|apply cosh_conj].
Qed.
Lemma cos_even z : ceqv (fc_cos L (cneg z)) (fc_cos L z).
Proof. destruct z as [x y]. unfold fc_cos. cbn [re im cneg]. exact (cosh_even (mkC (- y) x)). Qed.
Lemma sin_conj z : fc_sin L (cconj z) = cconj (fc_sin L z).
Proof.
  destruct z as [x y]. unfold fc_sin. cbv zeta. cbn [re im cconj].
  rewrite negconj_negconj, sinh_odd, sinh_conj. unfold cneg, cconj. cbn [re im]. rewrite fneg_invol. reflexivity.
Qed.
Lemma sin_odd z : fc_sin L (cneg z) = cneg (fc_sin L z).
Proof.
  destruct z as [x y]. unfold fc_sin. cbv zeta. cbn [re im cneg].
  change (mkC (- - y) (- x)) with (cneg (mkC (- y) x)). rewrite sinh_odd. reflexivity.
Qed.
Lemma tan_conj z : ceqv (fc_tan L (cconj z)) (cconj (fc_tan L z)).
Proof.
  destruct z as [x y]. unfold fc_tan. cbv zeta. cbn [re im cconj]. rewrite negconj_negconj.
  destruct (ceqv_trans _ _ _ (tanh_odd (cconj (mkC (- y) x))) (ceqv_opp _ _ (tanh_conj _))) as (A & B). unfold cneg, cconj in *. cbn [re im] in *.
  repeat rewrite fneg_invol in A; repeat rewrite fneg_invol in B; repeat rewrite fneg_invol. split; cbn [re im]; [exact B|apply feqv_opp in A; rewrite fneg_invol in A; exact A].
Qed.
Lemma tan_odd z : ceqv (fc_tan L (cneg z)) (cneg (fc_tan L z)).
Proof.
  destruct z as [x y]. unfold fc_tan. cbv zeta. cbn [re im cneg].
  destruct (tanh_odd (mkC (- y) x)) as (A & B). unfold cneg in *. cbn [re im] in *. split; cbn [re im]; [exact B|apply feqv_opp, A].
Qed.
End Sym.
End Lem.
