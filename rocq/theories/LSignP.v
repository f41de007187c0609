(** Proofs of the theorems of PSign.v. *)

From Coq Require Import List Arith ZArith Bool Lia Reals Lra.
From Flocq Require Import Core.Core IEEE754.BinarySingleNaN.
From Verif Require Import Base Scalar Spec LBase MComplex LComplex MInt LInt LIntP MFloat LFloat LFloatP MSign.
Import ListNotations.

Section FS.
Context {prec emax : Z} {Hprec : Prec_gt_0 prec} {Hemax : Prec_lt_emax prec emax}.
Notation fl := (binary_float prec emax).

Lemma fset_sign_own (x : fl) : is_nan x = false -> fset_sign (Bsign x) x = x.
Proof. destruct x; try discriminate; reflexivity. Qed.

Lemma fset_sign_neg b (x : fl) : fset_sign (negb b) x = Bopp (fset_sign b x).
Proof. destruct x; reflexivity. Qed.

Lemma Bone_sign : Bsign (Bone (prec := prec) (emax := emax)) = false.
Proof. apply Bsign_Bone. Qed.

Lemma Bone_set (b : bool) : fset_sign b (Bone (prec := prec) (emax := emax)) = if b then nneg n1 else n1.
Proof.
  assert (E : fset_sign false (Bone (prec := prec) (emax := emax)) = Bone).
  { rewrite <- Bone_sign at 1. apply fset_sign_own. apply is_nan_Bone. }
  destruct b; [|exact E]. change true with (negb false). rewrite fset_sign_neg, E. reflexivity.
Qed.

Lemma fmul_signed_one (b : bool) (x : fl) : nmul (if b then nneg n1 else n1) x = if b then Bopp x else x.
Proof.
  destruct b.
  - rewrite fmul_comm. transitivity (nmul (Bopp x) n1); [|apply fmul_1_r].
    rewrite <- (fmul_neg_neg (Bopp x) n1). f_equal. symmetry. apply Bopp_involutive.
  - rewrite fmul_comm. apply fmul_1_r.
Qed.

Lemma fmul_nan_l (x y : fl) : is_nan x = true -> is_nan (nmul x y) = true.
Proof. destruct x; try discriminate. destruct y; reflexivity. Qed.
Lemma fmul_nan_r (x y : fl) : is_nan y = true -> is_nan (nmul x y) = true.
Proof. destruct y; try discriminate. destruct x; reflexivity. Qed.
Lemma fadd_nan_l (x y : fl) : is_nan x = true -> is_nan (nadd x y) = true.
Proof. destruct x; try discriminate. destruct y; reflexivity. Qed.
Lemma fadd_nan_r (x y : fl) : is_nan y = true -> is_nan (nadd x y) = true.
Proof. destruct y; try discriminate. destruct x; reflexivity. Qed.
Lemma fsub_nan_l (x y : fl) : is_nan x = true -> is_nan (nsub x y) = true.
Proof. destruct x; try discriminate. destruct y; reflexivity. Qed.
Lemma fsub_nan_r (x y : fl) : is_nan y = true -> is_nan (nsub x y) = true.
Proof. destruct y; try discriminate. destruct x; reflexivity. Qed.
End FS.

Lemma wint_one w (y : wint true w) : nmul (nneg n1) y = nneg y /\ nmul n1 y = y.
Proof.
  rewrite <- (wof_wval _ _ y). change (n1 : wint true w) with (wof true w 1).
  rewrite <- !wof_neg, <- !wof_mul. split; f_equal; ring.
Qed.
Lemma wint_neg_neg w (y : wint true w) : nneg (nneg y) = y.
Proof. rewrite <- (wof_wval _ _ y). rewrite <- !wof_neg. f_equal. ring. Qed.

Lemma c107_exactly_one :
  forall (prec emax : Z) (z : complex (binary_float prec emax)),
    (cis_finite z = true /\ cis_nan z = false /\ cis_infinite z = false) \/
    (cis_finite z = false /\ cis_nan z = true /\ cis_infinite z = false) \/
    (cis_finite z = false /\ cis_nan z = false /\ cis_infinite z = true).
Proof.
  intros prec emax [a b]. unfold cis_finite, cis_nan, cis_infinite, cis_nan. cbn [re im].
  destruct a, b; cbn; auto 6.
Qed.

Lemma c107_nan_propagates :
  forall (prec emax : Z) (Hp : Prec_gt_0 prec) (He : Prec_lt_emax prec emax) (z w : complex (binary_float prec emax)),
    cis_nan z = true \/ cis_nan w = true ->
    cis_nan (cadd z w) = true /\ cis_nan (csub z w) = true /\ cis_nan (cneg z) = cis_nan z /\ cis_nan (cconj z) = cis_nan z /\
    is_nan (re (cmul z w)) = true /\ is_nan (im (cmul z w)) = true.
Proof.
  intros prec emax Hp He [a b] [c d] H. unfold cis_nan, cadd, csub, cneg, cconj, cmul in *. cbn [re im] in *.
  assert (N : is_nan a = true \/ is_nan b = true \/ is_nan c = true \/ is_nan d = true).
  { rewrite !orb_true_iff in H. tauto. }
  conjs.
  - rewrite orb_true_iff. destruct N as [N|[N|[N|N]]]; auto using fadd_nan_l, fadd_nan_r.
  - rewrite orb_true_iff. destruct N as [N|[N|[N|N]]]; auto using fsub_nan_l, fsub_nan_r.
  - destruct a, b; reflexivity.
  - destruct a, b; reflexivity.
  - destruct N as [N|[N|[N|N]]]; auto using fsub_nan_l, fsub_nan_r, fmul_nan_l, fmul_nan_r.
  - destruct N as [N|[N|[N|N]]]; auto using fadd_nan_l, fadd_nan_r, fmul_nan_l, fmul_nan_r.
Qed.

Lemma c107_is_infinite_partial :
  forall (prec emax : Z) (z : complex (binary_float prec emax)),
    (cis_infinite z = true -> (exists s, re z = B754_infinity s) \/ (exists s, im z = B754_infinity s)) /\
    (is_nan (re z) = false -> is_nan (im z) = false ->
     (exists s, re z = B754_infinity s) \/ (exists s, im z = B754_infinity s) -> cis_infinite z = true).
Proof.
  intros prec emax [a b]. unfold cis_infinite, cis_nan. cbn [re im]. split.
  - intros H. destruct a; destruct b; try discriminate; eauto.
  - intros A B [[s ->]|[s ->]]; cbn [is_nan fis_infinite]; rewrite ?A, ?B; cbn; [|rewrite orb_true_r]; reflexivity.
Qed.

Lemma c107_is_infinite_refuted :
  exists z : complex f64, re z = B754_infinity false /\ cis_infinite z = false.
Proof.
  exists (mkC (B754_infinity false : f64) (B754_nan : f64)). split; reflexivity.
Qed.

Lemma c107_example :
  cis_infinite (mkC (f64_of_Z 1) (B754_infinity true : f64)) = true /\ cis_finite (mkC (f64_of_Z 1) (f64_of_Z 2)) = true /\
  cis_nan (cmul (mkC (f64_of_Z 1) (B754_nan : f64)) (mkC (f64_of_Z 1) (f64_of_Z 2))) = true.
Proof.
  conjs; vm_compute; reflexivity.
Qed.

Lemma c112_float_signum :
  forall (prec emax : Z) (Hp : Prec_gt_0 prec) (He : Prec_lt_emax prec emax) (x : binary_float prec emax),
    nmul (fsignum x) (fabs x) = x /\ fabs x = nmul (fsignum x) x /\
    (is_nan x = false -> Bsign (fabs x) = false /\ (B2R (fabs x) = Rabs (B2R x))%R).
Proof.
  intros prec emax Hp He x. unfold fsignum, fabs. destruct (is_nan x) eqn:N.
  - destruct x; try discriminate. conjs; try reflexivity; discriminate.
  - rewrite Bone_set, !fmul_signed_one. conjs.
    + destruct x as [[]|[]| |[] m e H]; try discriminate; reflexivity.
    + destruct x as [[]|[]| |[] m e H]; try discriminate; reflexivity.
    + intros _. split; [destruct x; try discriminate; reflexivity|].
      destruct x as [s|s| |s m e H]; cbn [fset_sign B2R]; rewrite ?Rabs_R0; try reflexivity.
      rewrite <- F2R_Zabs. rewrite abs_cond_Zopp. reflexivity.
Qed.

Lemma c112_float_copysign_partial :
  forall (prec emax : Z) (Hp : Prec_gt_0 prec) (He : Prec_lt_emax prec emax) (nb : bool) (x s : binary_float prec emax),
    (is_nan s = false -> fcopysign nb x s = nmul (fsignum s) (fabs x)) /\
    fabs (fcopysign nb x s) = fabs x /\ (is_nan x = false -> fsignbit nb (fcopysign nb x s) = fsignbit nb s) /\
    fcopysign nb (fcopysign nb x s) x = (if is_nan x then B754_nan else x) /\
    fis_sign_positive nb x = negb (fis_sign_negative nb x).
Proof.
  intros prec emax Hp He nb x s. conjs.
  - intros N. unfold fcopysign, fsignum, fabs. rewrite N, Bone_set, fmul_signed_one.
    replace (fsignbit nb s) with (Bsign s) by (destruct s; try discriminate; reflexivity).
    destruct (Bsign s); [|reflexivity]. change true with (negb false) at 1. apply fset_sign_neg.
  - destruct x; reflexivity.
  - intros N. unfold fcopysign. destruct x; try discriminate; reflexivity.
  - unfold fcopysign. destruct x; try discriminate; reflexivity.
  - reflexivity.
Qed.

Lemma c112_float_copysign_refuted :
  exists (nb : bool) (x s : f64), fcopysign nb x s = x /\ is_finite x = true /\ is_nan (nmul (fsignum s) (fabs x)) = true.
Proof.
  exists false, (f64_of_Z 3), B754_nan. conjs; [reflexivity|reflexivity|reflexivity].
Qed.

Lemma c112_integer_signum :
  forall (w : positive) (x : wint true w),
    nmul (isignum x) (iabs x) = x /\ iabs x = nmul (isignum x) x /\
    (wval x <> wmin true w -> wval (iabs x) = Z.abs (wval x)) /\ (wval x = wmin true w -> iabs x = x) /\
    ((iis_sign_positive x = true /\ iis_sign_negative x = false /\ wval x <> 0%Z) \/
     (iis_sign_positive x = false /\ iis_sign_negative x = true /\ wval x <> 0%Z) \/
     (iis_sign_positive x = false /\ iis_sign_negative x = false /\ wval x = 0%Z)).
Proof.
  intros w x.
  assert (M1 : nmul (nneg n1) x = nneg x) by (exact (proj1 (wint_one w x))).
  assert (M4 : nmul n1 x = x) by (exact (proj2 (wint_one w x))).
  assert (M2 : nneg (nneg x) = x) by (exact (wint_neg_neg w x)).
  assert (M3 : nmul (nneg n1) (nneg x) = x) by (rewrite (proj1 (wint_one w (nneg x))); exact M2).
  pose proof (wval_range true w x) as XR. unfold wfits, wmin, wmodulus in XR.
  assert (E : (2 ^ Zpos w = 2 * 2 ^ (Zpos w - 1))%Z) by (rewrite <- Z.pow_succ_r by lia; f_equal; lia).
  unfold isignum, iabs, iis_sign_positive, iis_sign_negative.
  destruct (Z.ltb_spec 0 (wval x)); destruct (Z.ltb_spec (wval x) 0); destruct (Z.eqb_spec (wval x) 0); try lia.
  - conjs; auto; lia.
  - conjs; auto.
    + intros NM. unfold wmin in NM. cbn [nneg num_wint]. rewrite wval_wof, wwrap_fits; [lia|].
      unfold wfits, wmin, wmodulus. lia.
    + intros NM. unfold wmin in NM. cbn [nneg num_wint]. rewrite <- (wof_wval _ _ x) at 2. apply wof_eq.
      rewrite NM. unfold wmodulus. rewrite E. set (p := (2 ^ (Zpos w - 1))%Z) in *. assert (0 < p)%Z by (apply Z.pow_pos_nonneg; lia).
      replace (- - p)%Z with (- p + 1 * (2 * p))%Z by ring. apply Z_mod_plus_full.
  - assert (X0 : x = n0) by (apply wint_eq; rewrite e; cbn [n0 num_wint]; rewrite wval_wof, wwrap_fits; [reflexivity|unfold wfits, wmin, wmodulus; lia]).
    conjs; auto; try lia.
    + rewrite X0. cbn [nmul n0 num_wint]. apply wof_eq. f_equal. rewrite wval_wof, wwrap_fits; [reflexivity|unfold wfits, wmin, wmodulus; lia].
    + rewrite X0. cbn [nmul n0 num_wint]. apply wof_eq. f_equal. rewrite wval_wof, wwrap_fits; [reflexivity|unfold wfits, wmin, wmodulus; lia].
Qed.

Lemma c112_integer_copysign_partial :
  forall (w : positive) (x s : wint true w), wval s <> 0%Z -> icopysign x s = nmul (isignum s) (iabs x).
Proof.
  intros w x s N. unfold icopysign, isignum.
  pose proof (wint_one w) as M.
  destruct (Z.leb_spec 0 (wval s)); destruct (Z.ltb_spec 0 (wval s)); destruct (Z.eqb_spec (wval s) 0); try lia; symmetry; apply M.
Qed.

Lemma c112_integer_copysign_refuted :
  exists x s : wint true 32, wval s = 0%Z /\ wval (icopysign x s) = 3%Z /\ wval (nmul (isignum s) (iabs x)) = 0%Z.
Proof.
  exists (wof true 32 (-3)), (wof true 32 0). conjs; vm_compute; reflexivity.
Qed.

Lemma c112_example :
  wval (icopysign (wof true 8 5) (wof true 8 (-2))) = (-5)%Z /\ wval (iabs (wof true 8 (-128))) = (-128)%Z /\
  B2SF (fsignum (nneg (f64_of_Z 0))) = B2SF (f64_of_Z (-1)).
Proof.
  conjs; vm_compute; reflexivity.
Qed.
