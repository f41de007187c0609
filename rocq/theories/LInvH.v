(** Inverse complex functions in floats: the functions obtained by turning the plane, and where the formulas cancel. *)

From Coq Require Import List Arith ZArith Bool Lia Reals Lra Psatz.
From Flocq Require Import Core.Core Relative IEEE754.BinarySingleNaN.
From Verif Require Import Base Scalar Spec SpecF SpecCplx SpecInv SpecLibm SpecCR MReal MVector MFloat MFloatVec MSign MComplex MComplexF
  LBase LVector LReal LFloat LFloatP LFloatVec LFloatNormP LComplexHP LComplexIP LComplexJP LComplexKP LComplexLP LLibmP LTrScF LSlerpS LDegF LCplxF LCplxFP LInvA LInvB LInvC LInvD LInvE LInvF LInvG.
Local Open Scope R_scope.

Section R.
Context {prec emax : Z} {Hp : Prec_gt_0 prec} {He : Prec_lt_emax prec emax}.
Notation fl := (binary_float prec emax).
Notation u := (bpow radix2 (- prec)).
Hypothesis H24 : (24 <= prec)%Z.
Variable L : libm fl.
Variable d : R.
Hypothesis Hd : u <= d <= / 65536.
Notation zx z := (B2R (re z)).
Notation zy z := (B2R (im z)).

Lemma fnear_opp (x : fl) v e : fnear x v e -> fnear (nneg x) (- v) e.
Proof. intros (F & E). split; [cbn [nneg num_float]; rewrite is_finite_Bopp; exact F|]. cbn [nneg num_float]. rewrite B2R_Bopp. replace (- B2R x - - v) with (- (B2R x - v)) by ring. rewrite Rabs_Ropp. exact E. Qed.
Lemma cosh_opp x : cosh (- x) = cosh x. Proof. unfold cosh. rewrite Ropp_involutive. field. Qed.
Lemma sinh_opp x : sinh (- x) = - sinh x. Proof. unfold sinh. rewrite Ropp_involutive. field. Qed.
Lemma turn_val (z : complex fl) : cis_finite z = true -> cis_finite (mkC (nneg (im z)) (re z)) = true /\ zx (mkC (nneg (im z)) (re z)) = - zy z.
Proof. unfold cis_finite. cbn [re im nneg num_float]. intros F. apply andb_prop in F. destruct F as (A & B). rewrite is_finite_Bopp, A, B, B2R_Bopp. auto. Qed.

Lemma asin_near (z : complex fl) (kappa : R) (k : Z) : cis_finite z = true -> (prec <= k)%Z -> (2 * k + 40 <= emax)%Z ->
  let a := zx z in let b := zy z in
  1 + a * a + b * b <= bpow radix2 k -> a * b = 0 \/ bpow radix2 (3 - emax) <= Rabs (a * b) -> b <= 0 -> (b = 0 -> -1 <= a) ->
  1 + a * a + b * b <= kappa * nm (1 - (a * a - b * b)) (2 * a * b) -> d * kappa <= / 65536 ->
  let z' := mkC (nneg (im z)) (re z) in let s := cadd cone (cmul z' z') in root_at d L s -> log_at d L (cadd z' (fc_sqrt L s)) ->
  exists X Y : R, - (PI / 2) <= X <= PI / 2 /\ Y <= 0 /\ sin X * cosh Y = a /\ cos X * sinh Y = b /\
    fnear (re (fc_asin L z)) X (60 * (d * kappa)) /\ fnear (im (fc_asin L z)) Y (d * Rabs Y + 60 * (d * kappa)).
Proof.
  intros F Kp K a b NK AB B0 A0 HK DK z' s Rs Lw. destruct (turn_val z F) as (F' & V'). fold z' in F', V'.
  assert (W : zy z' = a) by reflexivity. fold b in V'.
  destruct (asinh_near H24 L d Hd z' kappa k F' Kp K) as (X & Y & X0 & Y0 & E1 & E2 & E3 & E4); rewrite ?V', ?W; try assumption.
  - replace (1 + - b * - b + a * a) with (1 + a * a + b * b) by ring. exact NK.
  - destruct AB as [AB|AB]; [left; lra|right]. replace (- b * a) with (- (a * b)) by ring. rewrite Rabs_Ropp. exact AB.
  - lra.
  - intros Q. apply A0. lra.
  - replace (1 + - b * - b + a * a) with (1 + a * a + b * b) by ring. replace (1 + (- b * - b - a * a)) with (1 - (a * a - b * b)) by ring.
    replace (2 * - b * a) with (- (2 * a * b)) by ring. replace (nm (1 - (a * a - b * b)) (- (2 * a * b))) with (nm (1 - (a * a - b * b)) (2 * a * b)) by (unfold nm; f_equal; ring). exact HK.
  - exists Y, (- X). rewrite cosh_opp, sinh_opp. split; [exact Y0|]. split; [lra|]. split; [rewrite W in E2; lra|]. split; [rewrite V' in E1; lra|].
    split; [exact E4|]. replace (d * Rabs (- X)) with (d * X) by (rewrite Rabs_Ropp, Rabs_pos_eq by lra; reflexivity). exact (fnear_opp _ _ _ E3).
Qed.

Lemma atan_near (z : complex fl) (k : Z) : cis_finite z = true -> (0 <= k)%Z -> (2 * k + 40 <= emax)%Z ->
  let a := zx z in let b := zy z in let r := nm a (1 - b) in let t := nm a (1 + b) in
  bpow radix2 (- k) <= r <= bpow radix2 k -> bpow radix2 (- k) <= t <= bpow radix2 k ->
  let z' := mkC (nneg (im z)) (re z) in log_at d L (cadd cone z') -> log_at d L (csub cone z') ->
  exists X Y : R, - (PI / 2) <= X <= PI / 2 /\ Y = (ln t - ln r) / 2 /\
    sin X * cosh Y = a * (cos X * cosh Y) + b * (sin X * sinh Y) /\ cos X * sinh Y = b * (cos X * cosh Y) - a * (sin X * sinh Y) /\
    fnear (re (fc_atan L z)) X (25 * d) /\ fnear (im (fc_atan L z)) Y (3 * d * (Rabs (ln r) + Rabs (ln t)) + 13 * d).
Proof.
  intros F K0 K a b r t HR HT z' L1 L2. destruct (turn_val z F) as (F' & V'). fold z' in F', V'. assert (W : zy z' = a) by reflexivity. fold b in V'.
  assert (N1 : nm (1 + zx z') (zy z') = r) by (rewrite V', W; unfold r, nm; f_equal; ring). assert (N2 : nm (1 - zx z') (zy z') = t) by (rewrite V', W; unfold t, nm; f_equal; ring).
  destruct (atanh_near H24 L d Hd z' k F' K0 K) as (X & Y & EX & Y0 & E1 & E2 & E3 & E4); rewrite ?N1, ?N2; try assumption. rewrite N1, N2 in EX, E3. rewrite V', W in E1, E2.
  exists Y, (- X). rewrite cosh_opp, sinh_opp. split; [exact Y0|]. split; [rewrite EX; field|]. split; [lra|]. split; [lra|]. split; [exact E4|exact (fnear_opp _ _ _ E3)].
Qed.
End R.

(** *** Cancellation: the left half of the real axis for [asinh], the lower half of the imaginary axis for [acos] *)
Section C64.
Variable L : libm f64.
Hypothesis P : libm_special L.
Notation p x := (mkC x (B754_zero false) : complex f64).
Lemma pow64 : is_finite (f64_of_Z (2 ^ 54)) = true /\ 0 < B2R (f64_of_Z (2 ^ 54)).
Proof. destruct (lit_val (f64_of_Z (2 ^ 54)) (2 ^ 52) 2 ltac:(vm_compute; reflexivity)) as (F & E). split; [exact F|]. rewrite E. apply Rmult_lt_0_compat; [apply IZR_lt; reflexivity|apply bpow_gt_0]. Qed.
Lemma root64 : fc_sqrt L (p (f64_of_Z (2 ^ 54))) = p (f64_of_Z (2 ^ 27)).
Proof.
  unfold fc_sqrt, fc_arg. cbv zeta. cbn [re im]. destruct pow64 as (F & Q). rewrite (sp_atan2_pos L P _ F Q).
  change ((B754_zero false / (n1 + n1))%N_ : f64) with (B754_zero false : f64). rewrite (sp_cos_0 L P), (sp_sin_0 L P). unfold fc_norm. f_equal; lit.
Qed.
Lemma ln0_64 : fc_ln L (p (B754_zero false)) = p (B754_infinity true).
Proof. unfold fc_ln, fc_arg. cbn [re im]. rewrite (sp_atan2_0 L P). change (fc_norm _) with (B754_zero false : f64). rewrite (sp_ln_0 L P). reflexivity. Qed.
Lemma asinh64 : fc_asinh L (p (f64_of_Z (- 2 ^ 27))) = p (B754_infinity true).
Proof.
  unfold fc_asinh. cbn [re im]. change (fis_infinite (f64_of_Z (- 2 ^ 27))) with false. change (is_nan (f64_of_Z (- 2 ^ 27))) with false. change (fis_infinite (B754_zero false : f64)) with false. cbv iota.
  replace (cadd cone (cmul (p (f64_of_Z (- 2 ^ 27))) (p (f64_of_Z (- 2 ^ 27))))) with (p (f64_of_Z (2 ^ 54))) by (unfold cadd, cmul; f_equal; lit). rewrite root64.
  replace (cadd _ _) with (p (B754_zero false)) by (unfold cadd; f_equal; lit). exact ln0_64.
Qed.
Lemma acos64 : fc_acos L (mkC (B754_zero false) (f64_of_Z (- 2 ^ 27)) : complex f64) = mkC B754_nan (B754_infinity false).
Proof.
  rewrite acos_finite; [|reflexivity|right; cbn [im]; destruct (f64_of_Z_exact (- 2 ^ 27)) as (V & _); [cbn; lia|rewrite V; intros Q; apply eq_IZR in Q; discriminate Q]].
  replace (csub cone (cmul _ _)) with (p (f64_of_Z (2 ^ 54))) by (unfold csub, cmul; f_equal; lit). rewrite root64.
  replace (cadd _ _) with (p (B754_zero false)) by (unfold cadd, cmul; f_equal; lit). rewrite ln0_64. unfold cmul. f_equal; lit.
Qed.
End C64.
Section C32.
Variable L : libm f32.
Hypothesis P : libm_special L.
Notation p x := (mkC x (B754_zero false) : complex f32).
Lemma pow32 : is_finite (f32_of_Z (2 ^ 24)) = true /\ 0 < B2R (f32_of_Z (2 ^ 24)).
Proof. destruct (lit_val (f32_of_Z (2 ^ 24)) (2 ^ 23) 1 ltac:(vm_compute; reflexivity)) as (F & E). split; [exact F|]. rewrite E. apply Rmult_lt_0_compat; [apply IZR_lt; reflexivity|apply bpow_gt_0]. Qed.
Lemma root32 : fc_sqrt L (p (f32_of_Z (2 ^ 24))) = p (f32_of_Z (2 ^ 12)).
Proof.
  unfold fc_sqrt, fc_arg. cbv zeta. cbn [re im]. destruct pow32 as (F & Q). rewrite (sp_atan2_pos L P _ F Q).
  change ((B754_zero false / (n1 + n1))%N_ : f32) with (B754_zero false : f32). rewrite (sp_cos_0 L P), (sp_sin_0 L P). unfold fc_norm. f_equal; lit.
Qed.
Lemma ln0_32 : fc_ln L (p (B754_zero false)) = p (B754_infinity true).
Proof. unfold fc_ln, fc_arg. cbn [re im]. rewrite (sp_atan2_0 L P). change (fc_norm _) with (B754_zero false : f32). rewrite (sp_ln_0 L P). reflexivity. Qed.
Lemma asinh32 : fc_asinh L (p (f32_of_Z (- 2 ^ 12))) = p (B754_infinity true).
Proof.
  unfold fc_asinh. cbn [re im]. change (fis_infinite (f32_of_Z (- 2 ^ 12))) with false. change (is_nan (f32_of_Z (- 2 ^ 12))) with false. change (fis_infinite (B754_zero false : f32)) with false. cbv iota.
  replace (cadd cone (cmul (p (f32_of_Z (- 2 ^ 12))) (p (f32_of_Z (- 2 ^ 12))))) with (p (f32_of_Z (2 ^ 24))) by (unfold cadd, cmul; f_equal; lit). rewrite root32.
  replace (cadd _ _) with (p (B754_zero false)) by (unfold cadd; f_equal; lit). exact ln0_32.
Qed.
Lemma acos32 : fc_acos L (mkC (B754_zero false) (f32_of_Z (- 2 ^ 12)) : complex f32) = mkC B754_nan (B754_infinity false).
Proof.
  rewrite acos_finite; [|reflexivity|right; cbn [im]; intros Q; destruct (lit_val (Bopp (f32_of_Z (- 2 ^ 12))) (2 ^ 23) (-11) ltac:(vm_compute; reflexivity)) as (_ & E)].
  2:{ rewrite B2R_Bopp, Q in E. assert (Q2 : 0 < IZR (Z.pos (2 ^ 23)) * bpow radix2 (-11)) by (apply Rmult_lt_0_compat; [apply IZR_lt; reflexivity|apply bpow_gt_0]). rewrite <- E in Q2. lra. }
  replace (csub cone (cmul _ _)) with (p (f32_of_Z (2 ^ 24))) by (unfold csub, cmul; f_equal; lit). rewrite root32.
  replace (cadd _ _) with (p (B754_zero false)) by (unfold cadd, cmul; f_equal; lit). rewrite ln0_32. unfold cmul. f_equal; lit.
Qed.
End C32.
