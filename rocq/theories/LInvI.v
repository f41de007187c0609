(** Arc cosine of -2 in [f32] with the correctly rounded library: the computed square root is on the wrong side of the cut. *)

From Coq Require Import List Arith ZArith Bool Lia Reals Lra Psatz.
From Flocq Require Import Core.Core Relative IEEE754.BinarySingleNaN.
From Verif Require Import Base Scalar Spec SpecF SpecCplx SpecInv SpecLibm SpecCR MReal MVector MFloat MFloatVec MSign MComplex MComplexF
  LBase LVector LReal LFloat LFloatP LFloatVec LFloatNormP LComplexHP LComplexIP LComplexJP LComplexKP LComplexLP LLibmP LTrScF LSlerp LSlerpS LSlerpW LDegF LDegFP LNormF LAngleFP LAngleFP LCplxF LCplxFP LCplxFQ
  LInvA LInvB LInvC LInvD LInvE LInvF LInvG LInvH.
Local Open Scope R_scope.

Section F32.
Variable nb : bool.
Notation L := (cr_libm nb : libm f32).
Notation fx := (FLT_exp (-149) 24).
Notation rnd := (round radix2 fx ZnearestE).
Local Instance vx : Valid_exp fx. Proof. apply FLT_exp_valid. reflexivity. Qed.

Lemma rnd_pi32 : rnd PI = 13176795 / 4194304.
Proof.
  pose proof PI_digits as PD. assert (M : mag radix2 PI = 2%Z :> Z).
  { apply mag_unique. rewrite Rabs_pos_eq by lra. change (bpow radix2 (2 - 1)) with 2. change (bpow radix2 2) with 4. lra. }
  unfold round, scaled_mantissa, Generic_fmt.cexp. rewrite M. change (FLT_exp (-149) 24 2) with (-22)%Z. change (bpow radix2 (- -22)) with 4194304.
  rewrite (Znearest_imp _ _ 13176795).
  - unfold F2R. cbn [Fnum Fexp]. change (bpow radix2 (-22)) with (/ 4194304). reflexivity.
  - apply Rabs_def1; lra.
Qed.
Lemma cr32 r s k : (-140 <= k <= 120)%Z -> Rabs r <= bpow radix2 k -> is_finite (cr r s : f32) = true /\ B2R (cr r s : f32) = rnd r.
Proof. intros K B. destruct (cr_bounded (prec := 24) (emax := 128) r s k) as (F & _ & V & _); [lia|exact B|]. split; [exact F|exact V]. Qed.
Lemma m32 : is_finite (m_pi L) = true /\ B2R (m_pi L) = 13176795 / 4194304.
Proof. pose proof PI_digits as PD. destruct (cr32 PI false 2) as (F & V); [lia|change (bpow radix2 2) with 4; rewrite Rabs_pos_eq; lra|]. rewrite rnd_pi32 in V. split; [exact F|exact V]. Qed.
Definition tt32 : f32 := ndiv (m_pi L) (nadd n1 n1).
Lemma tt32_val : is_finite tt32 = true /\ B2R tt32 = 13176795 / 8388608.
Proof.
  destruct m32 as (F & V). set (q := ndiv (f32_of_Z 13176795) (f32_of_Z 4194304) : f32).
  destruct (lit_val q 13176795 (-22) ltac:(vm_compute; reflexivity)) as (Fq & Vq). change (bpow radix2 (-22)) with (/ 4194304) in Vq.
  assert (E : m_pi L = q). { apply B2R_Bsign_inj; [exact F|exact Fq|rewrite V, Vq; reflexivity|]. rewrite !pos_sign; [reflexivity|rewrite Vq; lra|rewrite V; lra]. }
  unfold tt32. rewrite E. assert (LT : B2SF (ndiv q (nadd n1 n1) : f32) = SpecFloat.S754_finite false 13176795 (-23)) by (vm_compute; reflexivity). destruct (lit_val _ _ _ LT) as (Ft & Vt). split; [exact Ft|]. rewrite Vt. reflexivity.
Qed.

Lemma atan2_neg (y x : f32) : is_finite y = true -> is_finite x = true -> B2R y < 0 -> B2R x < 0 -> B2R (cr_atan2 y x) = - Rabs (B2R (cr (ratan2 (Rabs (B2R y)) (B2R x)) false : f32)).
Proof.
  destruct y as [s1|s1| |s1 m1 e1 H1], x as [s2|s2| |s2 m2 e2 H2]; intros A1 A2 A3 A4; try discriminate A1; try discriminate A2; try (cbn in A3; lra); try (cbn in A4; lra).
  destruct s1; [|exfalso; assert (0 <= B2R (B754_finite false m1 e1 H1 : f32)) by (apply F2R_ge_0; cbn; lia); lra].
  unfold cr_atan2. cbn [is_nan orb Bsign]. rewrite set_sign_R. reflexivity.
Qed.
Lemma lit32 : (is_finite (f32_of_Z (-2)) = true /\ B2R (f32_of_Z (-2)) = -2) /\ (is_finite (f32_of_Z (-3)) = true /\ B2R (f32_of_Z (-3)) = -3).
Proof.
  destruct (lit_val (Bopp (f32_of_Z (-2))) 8388608 (-22) ltac:(vm_compute; reflexivity)) as (F2 & V2). destruct (lit_val (Bopp (f32_of_Z (-3))) 12582912 (-22) ltac:(vm_compute; reflexivity)) as (F3 & V3).
  rewrite is_finite_Bopp in F2, F3. rewrite B2R_Bopp in V2, V3. change (bpow radix2 (-22)) with (/ 4194304) in V2, V3. split; (split; [assumption|lra]).
Qed.

Lemma acos_2 : let z : complex f32 := mkC (f32_of_Z (-2)) (B754_zero false) in is_finite (re (fc_acos L z)) = true /\ B2R (re (fc_acos L z)) <= -3.
Proof.
  intros z. pose proof PI_digits as PD. assert (SP : libm_special L) by (apply cr_special; lia).
  assert (V2 : B2R (f32_of_Z (-2)) = -2) by exact (proj2 (proj1 lit32)).
  rewrite acos_finite; [|reflexivity|left; cbn [re z]; rewrite V2; lra].
  set (s := mkC (f32_of_Z (-3)) (B754_zero false) : complex f32). replace (csub cone (cmul z z)) with s by (unfold s, z, csub, cmul; f_equal; lit).
  assert (V3 : is_finite (f32_of_Z (-3)) = true /\ B2R (f32_of_Z (-3)) = -3) by exact (proj2 lit32). destruct V3 as (F3 & V3).
  set (q := fsqrt (fc_norm s)). assert (ES : fc_sqrt L s = mkC (nmul q (m_cos L tt32)) (nmul q (m_sin L tt32))).
  { assert (EA : m_atan2 L (im s) (re s) = m_pi L) by (apply (sp_atan2_neg L SP _ F3); rewrite V3; lra). exact (f_equal (fun a : f32 => mkC (nmul q (m_cos L (ndiv a (nadd n1 n1)))) (nmul q (m_sin L (ndiv a (nadd n1 n1))))) EA). }
  assert (Q : exists m e, B2SF q = SpecFloat.S754_finite false m e /\ 1 <= IZR (Z.pos m) * bpow radix2 e <= 2). 
  { exists 14529495%positive, (-23)%Z. split; [vm_compute; reflexivity|]. change (bpow radix2 (-23)) with (/ 8388608). lra. }
  destruct Q as (m & e & Q1 & Q2). destruct (lit_val q m e Q1) as (Fq & Vq). rewrite <- Vq in Q2. clear Q1 m e Vq.
  destruct tt32_val as (Ft & Vt). set (t := 13176795 / 8388608) in *.
  assert (CT : - bpow radix2 (-24) <= cos t <= - bpow radix2 (-25)).
  { replace t with (PI / 2 + (t - PI / 2)) by ring. change (bpow radix2 (-24)) with (/ 16777216). change (bpow radix2 (-25)) with (/ 33554432).
    assert (TD : 43 / 1000000000 <= t - PI / 2 <= 44 / 1000000000) by (unfold t; lra). set (x := t - PI / 2) in *. rewrite cos_plus, cos_PI2, sin_PI2.
    assert (S1 : sin x <= x) by (left; apply sin_lt_x; lra). assert (S2 : x * (1 + cos x) / 2 <= sin x) by (apply sin_lower; lra). pose proof (cos_ge x) as CX. assert (x * x <= / 10 * / 10) by (apply Rmult_le_compat; lra). assert (x * (19 / 10) <= x * (1 + cos x)) by (apply Rmult_le_compat_l; lra). lra. }
  assert (ST : 0 <= sin t <= 1) by (split; [apply sin_ge_0; unfold t; lra|apply SIN_bound]).
  assert (FB : forall k, (-149 <= k)%Z -> generic_format radix2 fx (bpow radix2 k)) by (intros k K; apply generic_format_bpow; unfold FLT_exp; lia).
  assert (C : is_finite (m_cos L tt32) = true /\ - bpow radix2 (-24) <= B2R (m_cos L tt32) <= - bpow radix2 (-25)).
  { cbn [m_cos cr_libm]. rewrite Ft, Vt. destruct (cr32 (cos t) false 0) as (F & V); [lia|apply Rabs_le; pose proof (COS_bound t); cbn; lra|]. split; [exact F|]. rewrite V.
    split; [apply round_ge_generic|apply round_le_generic]; auto with typeclass_instances; try (apply generic_format_opp, FB; lia); lra. }
  assert (S : is_finite (m_sin L tt32) = true /\ 0 <= B2R (m_sin L tt32) <= 1).
  { cbn [m_sin cr_libm]. rewrite Ft, Vt. destruct (cr32 (sin t) (Bsign tt32) 0) as (F & V); [lia|apply Rabs_le; cbn; lra|]. split; [exact F|]. rewrite V.
    split; [apply round_ge_generic; auto with typeclass_instances; [apply generic_format_0|lra]|apply round_le_generic; auto with typeclass_instances; [apply (FB 0%Z); lia|cbn; lra]]. }
  destruct C as (Fc & Vc), S as (Fs & Vs). set (c := m_cos L tt32) in *. set (sn := m_sin L tt32) in *.
  assert (B24 : bpow radix2 (-24) = / 16777216) by reflexivity. assert (B25 : bpow radix2 (-25) = / 33554432) by reflexivity. assert (BB : 16 <= bpow radix2 (128 - 1)) by (apply (bpow_le radix2 4); lia).
  destruct (mul_val q c Fq Fc) as (F1 & W1). { rewrite Rabs_mult, Rabs_pos_eq, Rabs_left by lra. nra. }
  destruct (mul_val q sn Fq Fs) as (F2 & W2). { rewrite Rabs_mult, !Rabs_pos_eq by lra. nra. }
  change (B2R (nmul q c) = rnd (B2R q * B2R c)) in W1. change (B2R (nmul q sn) = rnd (B2R q * B2R sn)) in W2.
  assert (X1 : - bpow radix2 (-23) <= B2R (nmul q c) <= - bpow radix2 (-25)).
  { rewrite W1. assert (B23 : bpow radix2 (-23) = / 8388608) by reflexivity. split; [apply round_ge_generic|apply round_le_generic]; auto with typeclass_instances; try (apply generic_format_opp, FB; lia); nra. }
  assert (X2 : 0 <= B2R (nmul q sn) <= 2).
  { rewrite W2. split; [apply round_ge_generic; auto with typeclass_instances; [apply generic_format_0|nra]|apply round_le_generic; auto with typeclass_instances; [apply (FB 1%Z); lia|replace 2 with (2 * 1) by ring; apply Rmult_le_compat; lra]]. }
  rewrite ES. set (g := mkC (nmul q c) (nmul q sn) : complex f32). destruct (mul_i g) as (Fg & Gx & Gy); [exact (andb_true_intro (conj F1 F2))|].
  unfold cis_finite in Fg. apply andb_prop in Fg. destruct Fg as (Fg1 & Fg2). set (h := cmul cunit_im g) in *. change (B2R (re h) = - B2R (nmul q sn)) in Gx. change (B2R (im h) = B2R (nmul q c)) in Gy.
  destruct (add_val (re h) (re z) Fg1 eq_refl) as (Fa & Ea & _). { cbn [re z]. rewrite V2, Gx. apply Rle_trans with 16; [apply Rabs_le; lra|exact BB]. }
  destruct (add_exact (im h) (im z) Fg2 eq_refl) as (Fb & Eb & _); [right; reflexivity|]. change (B2R (im z)) with 0 in Eb. rewrite Rplus_0_r, Gy in Eb. cbn [re z] in Ea. rewrite V2, Gx in Ea.
  change (B2R (nadd (re h) (re z)) = rnd (- B2R (nmul q sn) + -2)) in Ea.
  set (w := cadd h z). change (nadd (re h) (re z)) with (re w) in *. change (nadd (im h) (im z)) with (im w) in *.
  assert (X3 : - (4) <= B2R (re w) <= - (2)).
  { rewrite Ea. split; [apply round_ge_generic|apply round_le_generic]; auto with typeclass_instances; try (apply generic_format_opp; apply (FB 2%Z) || apply (FB 1%Z); lia); lra. }
  assert (Y3 : - bpow radix2 (-23) <= B2R (im w) <= - bpow radix2 (-25)) by (rewrite Eb; exact X1). assert (B23 : bpow radix2 (-23) = / 8388608) by reflexivity.
  assert (FL : cis_finite (fc_ln L w) = true).
  { destruct (proj2 (c118_finite 24 128 _ _ L SP) w) as (_ & _ & _ & FN); [exact (andb_true_intro (conj Fa Fb))|].
    destruct (mul_val (re w) (re w) Fa Fa) as (M1 & N1). { rewrite Rabs_mult, Rabs_left by lra. nra. }
    destruct (mul_val (im w) (im w) Fb Fb) as (M2 & N2). { rewrite Rabs_mult, Rabs_left by lra. nra. }
    change (B2R (nmul (re w) (re w)) = rnd (B2R (re w) * B2R (re w))) in N1. change (B2R (nmul (im w) (im w)) = rnd (B2R (im w) * B2R (im w))) in N2.
    assert (O1 : 4 <= B2R (nmul (re w) (re w)) <= 16). { rewrite N1. split; [apply round_ge_generic|apply round_le_generic]; auto with typeclass_instances; try (apply (FB 2%Z) || apply (FB 4%Z); lia); nra. }
    assert (O2 : 0 <= B2R (nmul (im w) (im w)) <= 1). { rewrite N2. split; [apply round_ge_generic|apply round_le_generic]; auto with typeclass_instances; try (apply generic_format_0 || (apply (FB 0%Z); lia)); nra. }
    assert (GB : forall p1 p2, 4 <= p1 <= 16 -> 0 <= p2 <= 1 -> Rabs (p1 + p2) <= bpow radix2 (128 - 1)) by (intros p1 p2 P1 P2; apply Rle_trans with (bpow radix2 5); [apply Rabs_le; change (bpow radix2 5) with 32; lra|apply bpow_le; lia]).
    destruct (add_val _ _ M1 M2 (GB _ _ O1 O2)) as (M3 & N3 & _).
    destruct (FN M3) as (_ & _ & G). apply G. change (B2R (nadd (nmul (re w) (re w)) (nmul (im w) (im w))) = rnd (B2R (nmul (re w) (re w)) + B2R (nmul (im w) (im w)))) in N3.
    assert (GC : forall p1 p2, 4 <= p1 -> 0 <= p2 -> rnd (p1 + p2) <> 0) by (intros p1 p2 P1 P2 Z; assert (4 <= rnd (p1 + p2)) by (apply round_ge_generic; auto with typeclass_instances; [apply (FB 2%Z); lia|lra]); lra).
    intros Z. exact (GC _ _ (proj1 O1) (proj1 O2) (eq_trans (eq_sym N3) Z)). }
  unfold cis_finite in FL. apply andb_prop in FL. destruct FL as (FL1 & FL2).
  assert (Z0 : forall x : f32, is_finite x = true -> fnear x (B2R x) 0) by (intros x F; split; [exact F|rewrite Rminus_diag_eq, Rabs_R0; [lra|reflexivity]]).
  destruct (mul_neg_i (fc_ln L w) _ _ 0 0 (Z0 _ FL1) (Z0 _ FL2)) as ((FR & ER) & _). split; [exact FR|]. apply Rabs_le_inv in ER.
  assert (GE : forall p1 p2, - 0 <= p1 - p2 <= 0 -> p2 <= -3 -> p1 <= -3) by (intros; lra). apply (GE _ _ ER). clear ER FR FL1 FL2 GE. change (B2R (cr_atan2 (im w) (re w)) <= -3).
  set (r := ratan2 (Rabs (B2R (im w))) (B2R (re w))).
  assert (R3 : 3 <= r <= 4).
  { unfold r, ratan2. rewrite Rabs_left by lra. destruct Rlt_dec; [lra|]. destruct Rlt_dec; [|lra]. destruct Rle_dec; [|lra]. set (v := - B2R (im w) / B2R (re w)).
    assert (HV : - / 10 <= v <= 0).
    { unfold v. assert (I : - (1) <= / B2R (re w) <= 0). { split; [|left; apply Rinv_lt_0_compat; lra]. rewrite <- (Rinv_inv (- (1))). apply Rle_trans with (/ B2R (re w)); [|lra]. assert (/ - B2R (re w) <= / 1) by (apply Rinv_le_contravar; lra). rewrite Rinv_opp in H. rewrite Rinv_inv. lra. }
      unfold Rdiv. nra. }
    assert (AT : v <= atan v <= 0). { split; [|destruct (Req_dec v 0) as [-> |Z]; [rewrite atan_0; lra|left; rewrite <- atan_0; apply atan_increasing; lra]]. pose proof (atan_le (- v) ltac:(lra)) as AL. rewrite atan_opp in AL. lra. }
    lra. }
  assert (K : is_finite (cr r false : f32) = true /\ 3 <= B2R (cr r false : f32)).
  { destruct (cr32 r false 2) as (F & V); [lia|change (bpow radix2 2) with 4; rewrite Rabs_pos_eq; lra|]. split; [exact F|]. rewrite V. apply round_ge_generic; auto with typeclass_instances; [|lra].
    pose proof (generic_format_B2R 24 128 (f32_of_Z (-3))) as GF. rewrite V3 in GF. apply generic_format_opp in GF. replace (- -3) with 3 in GF by ring. exact GF. }
  destruct K as (_ & K). rewrite atan2_neg; [|exact Fb|exact Fa|lra|lra]. fold r. rewrite Rabs_pos_eq by lra. lra.
Qed.
End F32.
