(** The example of PInv.v: points where the hypotheses of its theorems hold with the correctly rounded library in [f64]. *)

From Coq Require Import List Arith ZArith Bool Lia Reals Lra Psatz.
From Flocq Require Import Core.Core Relative IEEE754.BinarySingleNaN.
From Verif Require Import Base Scalar Spec SpecF SpecCplx SpecInv SpecLibm SpecCR MReal MVector MFloat MFloatVec MSign MComplex MComplexF
  LBase LVector LReal LFloat LFloatP LFloatVec LFloatNormP LComplexHP LComplexIP LComplexJP LComplexKP LComplexLP LLibmP LTrScF LSlerpS LDegF LDegFP LAngleFP LCplxF LCplxFP LCplxFQ
  LInvA LInvB LInvC LInvD LInvE LInvF LInvG LInvH LInvI LInvJ.
Local Open Scope R_scope.

Notation L := (cr_libm true : libm f64).
Notation p x := (mkC x (B754_zero false) : complex f64).
Lemma special64 : libm_special L. Proof. apply cr_special; lia. Qed.
Lemma near_self (x : f64) v e : is_finite x = true -> B2R x = v -> 0 <= e -> fnear x v e.
Proof. intros F V E. split; [exact F|]. rewrite V, Rminus_diag_eq, Rabs_R0; [exact E|reflexivity]. Qed.
Lemma dd_0 : 0 <= dd. Proof. rewrite dd_val. lra. Qed.
Lemma arg_pos (x : f64) : is_finite x = true -> 0 < B2R x -> arg_at dd L (p x).
Proof.
  intros F P. pose proof PI_digits as PD. exists (B2R x), 0. split; [exact P|]. split; [lra|]. cbn [re im]. rewrite cos_0, sin_0, Rabs_R0. split; [ring|]. split; [cbn; ring|].
  rewrite (sp_atan2_pos L special64 x F P). apply near_self; [reflexivity|reflexivity|lra].
Qed.
Lemma root_pos (x : f64) : is_finite x = true -> 0 < B2R x -> root_at dd L (p x).
Proof.
  intros F P. split; [exact (arg_pos x F P)|]. cbn [re im]. rewrite (sp_atan2_pos L special64 x F P). cbv zeta. change (ndiv (B754_zero false : f64) (nadd n1 n1)) with (B754_zero false : f64).
  pose proof dd_0 as D0. split.
  - unfold lib_at. rewrite (sp_cos_0 L special64 false). change (B2R (B754_zero false : f64)) with 0. rewrite cos_0. apply near_self; [reflexivity|apply Bone_correct|]. apply Rmult_le_pos; [exact D0|apply Rabs_pos].
  - unfold lib_at. rewrite (sp_sin_0 L special64 false). change (B2R (B754_zero false : f64)) with 0. rewrite sin_0. apply near_self; [reflexivity|reflexivity|]. apply Rmult_le_pos; [exact D0|apply Rabs_pos].
Qed.
Lemma ln_ok v : / 3 <= v <= 4 / 5 \/ 5 / 4 <= v <= 4 -> / 1000000 <= Rabs (ln v) <= 4.
Proof.
  intros H. assert (P : 0 < v) by lra. destruct (ln_low v P) as (A & B). assert (I : v * / v = 1) by (apply Rinv_r; lra). destruct H as [H|H].
  - assert (J : / v <= 3) by (apply (Rmult_le_reg_l v); [lra|]; rewrite I; lra). rewrite Rabs_left by lra. lra.
  - assert (J : / v <= 4 / 5) by (apply (Rmult_le_reg_l v); [lra|]; rewrite I; lra). rewrite Rabs_pos_eq by lra. lra.
Qed.
Lemma log_lib (x : f64) m e : B2SF x = SpecFloat.S754_finite false m e -> (let v := IZR (Zpos m) * bpow radix2 e in / 3 <= v <= 4 / 5 \/ 5 / 4 <= v <= 4) -> lib_at dd ln (m_ln L) x.
Proof.
  intros E H. destruct (lit_val x m e E) as (F & V). cbv zeta in H. rewrite <- V in H. apply lib_ln; [exact F|lra|apply ln_ok; exact H].
Qed.
Lemma log_pos (x : f64) m e : is_finite x = true -> 0 < B2R x -> B2SF (fc_norm (p x)) = SpecFloat.S754_finite false m e ->
  (let v := IZR (Zpos m) * bpow radix2 e in / 3 <= v <= 4 / 5 \/ 5 / 4 <= v <= 4) -> log_at dd L (p x).
Proof. intros F P E H. split; [exact (arg_pos x F P)|exact (log_lib _ m e E H)]. Qed.
Lemma lit_ok (x : f64) m e : B2SF x = SpecFloat.S754_finite false m e -> is_finite x = true /\ 0 < B2R x.
Proof. intros E. destruct (lit_val x m e E) as (F & V). split; [exact F|]. rewrite V. apply Rmult_lt_0_compat; [apply IZR_lt; reflexivity|apply bpow_gt_0]. Qed.

Definition c1 : f64 := f64_of_Z 1.
Definition c2 : f64 := f64_of_Z 2.
Definition r2 : f64 := fsqrt c2.
Definition w2 : f64 := nadd c1 r2.
Lemma c1_ok : is_finite c1 = true /\ 0 < B2R c1. Proof. apply (lit_ok c1 (2 ^ 52) (-52)). vm_compute. reflexivity. Qed.
Lemma c2_ok : is_finite c2 = true /\ 0 < B2R c2. Proof. apply (lit_ok c2 (2 ^ 52) (-51)). vm_compute. reflexivity. Qed.
Lemma w2_ok : is_finite w2 = true /\ 0 < B2R w2. Proof. apply (lit_ok w2 5436325649948134 (-51)). vm_compute. reflexivity. Qed.
Lemma root_c (x y : f64) : is_finite x = true -> 0 < B2R x -> fsqrt (fc_norm (p x)) = y -> nmul y c1 = y -> nmul y (B754_zero false) = B754_zero false -> fc_sqrt L (p x) = p y.
Proof.
  intros F P E M Z. unfold fc_sqrt, fc_arg. cbv zeta. cbn [re im]. rewrite (sp_atan2_pos L special64 x F P).
  change ((B754_zero false / (n1 + n1))%N_ : f64) with (B754_zero false : f64). rewrite (sp_cos_0 L special64), (sp_sin_0 L special64), E. f_equal; [|exact Z].
  transitivity (nmul y c1); [|exact M]. replace c1 with (n1 : f64) by lit. reflexivity.
Qed.
Lemma root_2 : fc_sqrt L (p c2) = p r2.
Proof. destruct c2_ok as (F & P). apply root_c; [exact F|exact P|lit|lit|lit]. Qed.
Lemma root_1 : fc_sqrt L (p c1) = p c1.
Proof. destruct c1_ok as (F & P). apply root_c; [exact F|exact P|lit|lit|lit]. Qed.
Lemma log_w2 : log_at dd L (p w2).
Proof. destruct w2_ok as (F & P). apply (log_pos w2 5436325649948134 (-51) F P); [vm_compute; reflexivity|]. cbv zeta. change (bpow radix2 (-51)) with (/ 2251799813685248). lra. Qed.
Lemma log_up : log_at dd L (mkC (B754_zero false) w2 : complex f64).
Proof.
  destruct w2_ok as (F & P). pose proof PI_digits as PD. split.
  - exists (B2R w2), (PI / 2). split; [exact P|]. split; [lra|]. cbn [re im]. rewrite cos_PI2, sin_PI2. split; [cbn; ring|]. split; [ring|].
    assert (RA : ratan2 (Rabs (B2R w2)) 0 = PI / 2). { unfold ratan2. rewrite Rabs_pos_eq by lra. destruct (Rlt_dec 0 0); [lra|]. destruct (Rlt_dec 0 (B2R w2)); [reflexivity|lra]. }
    destruct (cr_rel (PI / 2) false) as (G & W & D); [rewrite Rabs_pos_eq by lra; lra|].
    assert (E : m_atan2 L w2 (B754_zero false) = fset_sign false (cr (PI / 2) false)).
    { cbn [m_atan2 cr_libm]. unfold cr_atan2. change (B2R (B754_zero false : f64)) with 0. rewrite (pos_sign _ P), RA. revert F P. generalize w2. intros [s|s| |s m e H] F P; try discriminate F; [cbn in P; lra|]. reflexivity. }
    assert (N : fnear (fset_sign false (cr (PI / 2) false) : f64) (PI / 2) (dd * Rabs (PI / 2))).
    { split; [rewrite set_sign_fin; exact G|]. rewrite set_sign_R, (Rabs_pos_eq (B2R (cr (PI / 2) false : f64))); [exact D|]. rewrite W.
      rewrite <- (round_0 radix2 (FLT_exp (-1074) 53) ZnearestE). apply round_le; [apply FLT_exp_valid; reflexivity|apply valid_rnd_N|lra]. }
    exact (eq_ind_r (fun x : f64 => fnear x (PI / 2) (dd * Rabs (PI / 2))) N E).
  - apply (log_lib _ 5436325649948134 (-51)); [vm_compute; reflexivity|]. cbv zeta. change (bpow radix2 (-51)) with (/ 2251799813685248). lra.
Qed.
Lemma log_lit (x : f64) m e : B2SF x = SpecFloat.S754_finite false m e -> B2SF (fc_norm (p x)) = SpecFloat.S754_finite false m e ->
  (let v := IZR (Zpos m) * bpow radix2 e in / 3 <= v <= 4 / 5 \/ 5 / 4 <= v <= 4) -> log_at dd L (p x).
Proof. intros E N H. destruct (lit_ok x m e E) as (F & P). exact (log_pos x m e F P N H). Qed.
Ltac part := first [lit | f_equal; lit].
Lemma nm_pos_r x : 0 <= x -> nm x 0 = x.
Proof. intros H. unfold nm. rewrite Rmult_0_l, Rplus_0_r. apply sqrt_square. exact H. Qed.
Lemma nm_pos_l x : 0 <= x -> nm 0 x = x.
Proof. intros H. unfold nm. rewrite Rmult_0_l, Rplus_0_l. apply sqrt_square. exact H. Qed.

Lemma c144_example :
  let L : libm f64 := cr_libm true in let d := bpow radix2 (-50) in let h : f64 := ndiv (f64_of_Z 1) (f64_of_Z 2) in
  (bpow radix2 (- 53) <= d <= / 65536 /\ libm_special L /\ m_ln L (f64_of_Z 1) = B754_zero false) /\
  (let z : complex f64 := mkC (f64_of_Z 3) (B754_zero false) in let s := cdiv (cadd z cone) (cadd cone cone) in let t := cdiv (csub z cone) (cadd cone cone) in
    B2R (re z) = 3 /\ B2R (im z) = 0 /\ bpow radix2 (1 - 2) <= nm (3 + 1) 0 <= bpow radix2 2 /\ bpow radix2 (1 - 2) <= nm (3 - 1) 0 <= bpow radix2 2 /\
    root_at d L s /\ root_at d L t /\ log_at d L (cadd (fc_sqrt L s) (fc_sqrt L t))) /\
  (let z : complex f64 := mkC (f64_of_Z 1) (B754_zero false) in let s := cadd cone (cmul z z) in
    B2R (re z) = 1 /\ B2R (im z) = 0 /\ 1 + 1 * 1 + 0 * 0 <= bpow radix2 53 /\ 1 + 1 * 1 + 0 * 0 <= 1 * nm (1 + (1 * 1 - 0 * 0)) (2 * 1 * 0) /\ d * 1 <= / 65536 /\
    root_at d L s /\ log_at d L (cadd z (fc_sqrt L s))) /\
  (let z : complex f64 := mkC h (B754_zero false) in
    B2R (re z) = / 2 /\ B2R (im z) = 0 /\ bpow radix2 (- 1) <= nm (1 + / 2) 0 <= bpow radix2 1 /\ bpow radix2 (- 1) <= nm (1 - / 2) 0 <= bpow radix2 1 /\
    log_at d L (cadd cone z) /\ log_at d L (csub cone z)) /\
  (let z : complex f64 := mkC (B754_zero false) (f64_of_Z 1) in let s := csub cone (cmul z z) in
    B2R (re z) = 0 /\ B2R (im z) = 1 /\ 1 + 0 * 0 + 1 * 1 <= 1 * nm (1 - (0 * 0 - 1 * 1)) (2 * 0 * 1) /\
    root_at d L s /\ log_at d L (cadd (cmul cunit_im (fc_sqrt L s)) z)) /\
  (let z : complex f64 := mkC (B754_zero false) (f64_of_Z (-1)) in let z' := mkC (nneg (im z)) (re z) in let s := cadd cone (cmul z' z') in
    B2R (re z) = 0 /\ B2R (im z) = -1 /\ root_at d L s /\ log_at d L (cadd z' (fc_sqrt L s))) /\
  (let z : complex f64 := mkC (B754_zero false) (nneg h) in let z' := mkC (nneg (im z)) (re z) in
    B2R (re z) = 0 /\ B2R (im z) = - / 2 /\ bpow radix2 (- 1) <= nm 0 (1 - - / 2) <= bpow radix2 1 /\ bpow radix2 (- 1) <= nm 0 (1 + - / 2) <= bpow radix2 1 /\
    log_at d L (cadd cone z') /\ log_at d L (csub cone z')).
Proof.
  intros L' d h. change L' with L. change d with dd. change h with half64. clear L' d h. destruct LCplxFQ.half_val as (Fh & Vh). destruct c1_ok as (F1 & P1). destruct c2_ok as (F2 & P2).
  destruct (f64_of_Z_exact 3) as (V3 & _); [cbn; lia|]. destruct (f64_of_Z_exact 1) as (V1 & _); [cbn; lia|]. destruct (f64_of_Z_exact (-1)) as (Vm & _); [cbn; lia|].
  change (bpow radix2 (1 - 2)) with (/ 2). change (bpow radix2 2) with 4. change (bpow radix2 (- 1)) with (/ 2). change (bpow radix2 1) with 2.
  assert (D : bpow radix2 (- 53) <= dd <= / 65536) by (rewrite dd_val; change (bpow radix2 (- 53)) with (/ 9007199254740992); lra).
  assert (LP : log_at dd L (cadd cone (p half64))).
  { replace (cadd cone (p half64)) with (p (nadd c1 half64)) by (unfold cadd; f_equal; lit). apply (log_lit _ 6755399441055744 (-52)); [vm_compute; reflexivity|vm_compute; reflexivity|]. cbv zeta. change (bpow radix2 (-52)) with (/ 4503599627370496). lra. }
  assert (LM : log_at dd L (csub cone (p half64))).
  { replace (csub cone (p half64)) with (p half64) by (unfold csub; f_equal; lit). apply (log_lit _ 4503599627370496 (-53)); [vm_compute; reflexivity|vm_compute; reflexivity|]. cbv zeta. change (bpow radix2 (-53)) with (/ 9007199254740992). lra. }
  assert (AS : root_at dd L (cadd cone (cmul (p c1) (p c1))) /\ log_at dd L (cadd (p c1) (fc_sqrt L (cadd cone (cmul (p c1) (p c1)))))).
  { replace (cadd cone (cmul (p c1) (p c1))) with (p c2) by (unfold cadd, cmul; f_equal; lit). split; [exact (root_pos c2 F2 P2)|]. rewrite root_2. replace (cadd (p c1) (p r2)) with (p w2) by (unfold cadd; f_equal; lit). exact log_w2. }
  split; [|split; [|split; [|split; [|split; [|split]]]]].
  - split; [exact D|]. split; [exact special64|]. cbn [m_ln cr_libm]. assert (E : forall x : f64, is_finite x = true -> B2R x = 1 -> match x with B754_zero _ => B754_infinity true | B754_infinity s => if s then B754_nan else B754_infinity false | B754_nan => B754_nan | B754_finite _ _ _ _ => if Bsign x then B754_nan else cr (ln (B2R x)) false end = B754_zero false :> f64).
    { intros x F V. rewrite V, ln_1, cr_0, (pos_sign x) by (rewrite V; lra). destruct x as [s|s| |s m e H]; try discriminate F; [cbn in V; lra|reflexivity]. }
    exact (E _ F1 V1).
  - cbv zeta. cbn [re im]. rewrite !nm_pos_r by lra. split; [exact V3|]. split; [reflexivity|]. split; [lra|]. split; [lra|].
    replace (cdiv (cadd (p (f64_of_Z 3)) cone) (cadd cone cone)) with (p c2) by (unfold cdiv, cadd; f_equal; lit). replace (cdiv (csub (p (f64_of_Z 3)) cone) (cadd cone cone)) with (p c1) by (unfold cdiv, csub, cadd; f_equal; lit).
    split; [exact (root_pos c2 F2 P2)|]. split; [exact (root_pos c1 F1 P1)|]. rewrite root_2, root_1. replace (cadd (p r2) (p c1)) with (p w2) by (unfold cadd; f_equal; lit). exact log_w2.
  - cbv zeta. cbn [re im]. replace (2 * 1 * 0) with 0 by ring. rewrite nm_pos_r by lra. split; [exact V1|]. split; [reflexivity|].
    split; [apply Rle_trans with 4; [lra|apply (bpow_le radix2 2); lia]|]. split; [lra|]. split; [lra|]. exact AS.
  - cbv zeta. cbn [re im]. rewrite !nm_pos_r by lra. split; [exact Vh|]. split; [reflexivity|]. split; [lra|]. split; [lra|]. exact (conj LP LM).
  - cbv zeta. cbn [re im]. replace (2 * 0 * 1) with 0 by ring. rewrite nm_pos_r by lra. split; [reflexivity|]. split; [exact V1|]. split; [lra|].
    replace (csub cone (cmul (mkC (B754_zero false) (f64_of_Z 1)) (mkC (B754_zero false) (f64_of_Z 1)))) with (p c2) by (unfold csub, cmul; f_equal; lit). split; [exact (root_pos c2 F2 P2)|]. rewrite root_2.
    replace (cadd (cmul cunit_im (p r2)) (mkC (B754_zero false) (f64_of_Z 1))) with (mkC (B754_zero false) w2 : complex f64) by (unfold cadd, cmul; f_equal; lit). exact log_up.
  - cbv zeta. cbn [re im]. split; [reflexivity|]. split; [exact Vm|]. replace (nneg (f64_of_Z (-1))) with c1 by lit. exact AS.
  - cbv zeta. cbn [re im]. rewrite !nm_pos_l by lra. split; [reflexivity|]. split; [exact (proj2 (proj1 neg_vals))|]. split; [lra|]. split; [lra|].
    replace (nneg (nneg half64)) with half64 by lit. exact (conj LP LM).
Qed.
