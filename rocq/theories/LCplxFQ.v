(** Proofs of the theorems of PCplxF.v: statements and the example. *)

From Coq Require Import List Arith ZArith Bool Lia Reals Lra Psatz.
From Flocq Require Import Core.Core Relative IEEE754.BinarySingleNaN.
From Verif Require Import Base Scalar Spec SpecF SpecCplx SpecCR LBase MReal MFloat LFloat LFloatP MFloatVec LFloatVec LFloatNormP MComplex MSign MComplexF
  LTrScF LNormF LLibmP LSlerpS LSlerpW LDegF LDegFP LAngleFP LComplexHP LCplxF LCplxFP.
Local Open Scope R_scope.

Lemma c134_exponential :
  forall (prec emax : Z) {Hp : Prec_gt_0 prec} {He : Prec_lt_emax prec emax} (L : libm (binary_float prec emax)) (d : R), bpow radix2 (- prec) <= d <= / 64 ->
    forall z : complex (binary_float prec emax), let x := B2R (re z) in let y := B2R (im z) in
      lib_at d exp (m_exp L) (re z) -> lib_at d cos (m_cos L) (im z) -> lib_at d sin (m_sin L) (im z) -> exp x <= bpow radix2 (emax - 2) ->
      near_rel (4 * d) (re (fc_exp L z)) (exp x * cos y) /\ near_rel (4 * d) (im (fc_exp L z)) (exp x * sin y).
Proof. intros prec emax Hp He L d D z x y A B C E. exact (exp_near L d D z A B C E). Qed.

Lemma c134_hyperbolic :
  forall (prec emax : Z) {Hp : Prec_gt_0 prec} {He : Prec_lt_emax prec emax} (L : libm (binary_float prec emax)) (d : R), bpow radix2 (- prec) <= d <= / 64 ->
    forall z : complex (binary_float prec emax), let x := B2R (re z) in let y := B2R (im z) in
      cis_finite z = true -> lib_at d cosh (m_cosh L) (re z) -> lib_at d sinh (m_sinh L) (re z) -> lib_at d cos (m_cos L) (im z) -> lib_at d sin (m_sin L) (im z) ->
      cosh x <= bpow radix2 (emax - 2) ->
      (near_rel (4 * d) (re (fc_cosh L z)) (cosh x * cos y) /\ near_rel (4 * d) (im (fc_cosh L z)) (sinh x * sin y)) /\
      (near_rel (4 * d) (re (fc_sinh L z)) (sinh x * cos y) /\ near_rel (4 * d) (im (fc_sinh L z)) (cosh x * sin y)).
Proof. intros prec emax Hp He L d D z x y F A B C S M. exact (cosh_near L d D z F A B C S M). Qed.

Lemma c134_trigonometric :
  forall (prec emax : Z) {Hp : Prec_gt_0 prec} {He : Prec_lt_emax prec emax} (L : libm (binary_float prec emax)) (d : R), bpow radix2 (- prec) <= d <= / 64 ->
    forall z : complex (binary_float prec emax), let x := B2R (re z) in let y := B2R (im z) in
      cis_finite z = true -> lib_at d cosh (m_cosh L) (nneg (im z)) -> lib_at d sinh (m_sinh L) (nneg (im z)) -> lib_at d cos (m_cos L) (re z) ->
      lib_at d sin (m_sin L) (re z) -> cosh y <= bpow radix2 (emax - 2) ->
      (near_rel (4 * d) (re (fc_cos L z)) (cos x * cosh y) /\ near_rel (4 * d) (im (fc_cos L z)) (- (sin x * sinh y))) /\
      (near_rel (4 * d) (re (fc_sin L z)) (sin x * cosh y) /\ near_rel (4 * d) (im (fc_sin L z)) (cos x * sinh y)).
Proof. intros prec emax Hp He L d D z x y F A B C S M. exact (cos_near L d D z F A B C S M). Qed.

Lemma c134_tangents :
  forall (prec emax : Z) {Hp : Prec_gt_0 prec} {He : Prec_lt_emax prec emax} (L : libm (binary_float prec emax)) (d : R), bpow radix2 (- prec) <= d <= / 64 ->
    forall (z : complex (binary_float prec emax)) (k : R), cis_finite z = true ->
      Rabs (B2R (re z)) <= bpow radix2 (emax - 2) -> Rabs (B2R (im z)) <= bpow radix2 (emax - 2) -> 8 * d * k <= 1 ->
      let a := 2 * B2R (re z) in let b := 2 * B2R (im z) in
      (lib_at d cosh (m_cosh L) (nadd (re z) (re z)) -> lib_at d sinh (m_sinh L) (nadd (re z) (re z)) ->
       lib_at d cos (m_cos L) (nadd (im z) (im z)) -> lib_at d sin (m_sin L) (nadd (im z) (im z)) ->
       cosh a <= / 2 * bpow radix2 (emax - 2) -> 0 < cosh a + cos b -> cosh a + 1 <= k * (cosh a + cos b) ->
       near_rel (12 * d * k) (re (fc_tanh L z)) (sinh a / (cosh a + cos b)) /\ near_rel (12 * d * k) (im (fc_tanh L z)) (sin b / (cosh a + cos b))) /\
      (lib_at d cosh (m_cosh L) (nadd (nneg (im z)) (nneg (im z))) -> lib_at d sinh (m_sinh L) (nadd (nneg (im z)) (nneg (im z))) ->
       lib_at d cos (m_cos L) (nadd (re z) (re z)) -> lib_at d sin (m_sin L) (nadd (re z) (re z)) ->
       cosh b <= / 2 * bpow radix2 (emax - 2) -> 0 < cosh b + cos a -> cosh b + 1 <= k * (cosh b + cos a) ->
       near_rel (12 * d * k) (re (fc_tan L z)) (sin a / (cosh b + cos a)) /\ near_rel (12 * d * k) (im (fc_tan L z)) (sinh b / (cosh b + cos a))).
Proof.
  intros prec emax Hp He L d D z k F Br Bi K8 a b. split; intros A B C S M P0 K.
  - exact (tanh_near L d D z k F Br Bi A B C S M P0 K K8).
  - exact (tan_near L d D z k F Br Bi A B C S M P0 K K8).
Qed.

Lemma c134_polar :
  forall (prec emax : Z) {Hp : Prec_gt_0 prec} {He : Prec_lt_emax prec emax} (L : libm (binary_float prec emax)) (d : R), bpow radix2 (- prec) <= d <= / 64 ->
    (forall scale angle : binary_float prec emax, is_finite scale = true -> Rabs (B2R scale) <= bpow radix2 (emax - 2) ->
       lib_at d cos (m_cos L) angle -> lib_at d sin (m_sin L) angle ->
       near_rel (4 * d) (re (fc_from_polar L scale angle)) (B2R scale * cos (B2R angle)) /\
       near_rel (4 * d) (im (fc_from_polar L scale angle)) (B2R scale * sin (B2R angle))) /\
    (forall (z : complex (binary_float prec emax)) (r phi : R) (k : Z), (24 <= prec)%Z -> (0 <= k)%Z -> (2 * k + 31 <= emax)%Z -> cis_finite z = true ->
       B2R (re z) = r * cos phi -> B2R (im z) = r * sin phi -> bpow radix2 (- k) <= r <= bpow radix2 k ->
       fnear (fc_norm z) r (8 * bpow radix2 (- prec) * r) /\
       (lib_at d ln (m_ln L) (fc_norm z) -> fnear (re (fc_ln L z)) (ln r) (d * Rabs (ln r) + 10 * bpow radix2 (- prec))) /\
       (fnear (m_atan2 L (im z) (re z)) phi (d * Rabs phi) -> fnear (im (fc_ln L z)) phi (d * Rabs phi))).
Proof.
  intros prec emax Hp He L d D. split.
  - intros s t Fs B C S. assert (X : fnear s (B2R s) (d * Rabs (B2R s))).
    { split; [exact Fs|]. rewrite Rminus_diag_eq, Rabs_R0 by reflexivity. apply Rmult_le_pos; [pose proof (bpow_gt_0 radix2 (- prec)); lra|apply Rabs_pos]. }
    split; apply (mul_rel _ _ _ _ d D); try assumption; apply unit_le; try assumption; [apply COS_bound|apply SIN_bound].
  - intros z r phi k H24 K0 K F Ea Eb Hr. split; [|split].
    + exact (norm_polar H24 z r phi k F Ea Eb K0 K Hr).
    + exact (ln_polar L d D H24 z r phi k F Ea Eb K0 K Hr).
    + intros A. exact A.
Qed.

Lemma c134_square_root :
  forall (prec emax : Z) {Hp : Prec_gt_0 prec} {He : Prec_lt_emax prec emax} (L : libm (binary_float prec emax)) (d : R), (24 <= prec)%Z -> bpow radix2 (- prec) <= d <= / 1000 ->
    forall (z : complex (binary_float prec emax)) (r phi : R) (k : Z), (0 <= k)%Z -> (2 * k + 31 <= emax)%Z -> cis_finite z = true ->
      B2R (re z) = r * cos phi -> B2R (im z) = r * sin phi -> bpow radix2 (- k) <= r <= bpow radix2 k -> - PI <= phi <= PI ->
      fnear (m_atan2 L (im z) (re z)) phi (d * Rabs phi) ->
      let t := ndiv (m_atan2 L (im z) (re z)) (nadd n1 n1) in lib_at d cos (m_cos L) t -> lib_at d sin (m_sin L) t ->
      exists v w : R, 0 <= v /\ v * v - w * w = B2R (re z) /\ 2 * v * w = B2R (im z) /\ v * v + w * w = r /\
        fnear (re (fc_sqrt L z)) v (21 * d * sqrt r) /\ fnear (im (fc_sqrt L z)) w (21 * d * sqrt r).
Proof.
  intros prec emax Hp He L d H24 D z r phi k K0 K F Ea Eb Hr P A t C S.
  assert (R0 : 0 < r) by (pose proof (bpow_gt_0 radix2 (- k)); lra).
  destruct (sqrt_polar L d ltac:(lra) H24 z r phi k F Ea Eb P K0 K Hr A C S ltac:(lra)) as (X & Y).
  pose proof (sqrt_sqrt r ltac:(lra)) as Q. assert (W : 2 * (phi / 2) = phi) by field.
  pose proof (cos_2a (phi / 2)) as C2. pose proof (sin_2a (phi / 2)) as S2. rewrite W in C2, S2.
  exists (sqrt r * cos (phi / 2)), (sqrt r * sin (phi / 2)). rewrite Ea, Eb.
  assert (T : sin (phi / 2) * sin (phi / 2) + cos (phi / 2) * cos (phi / 2) = 1) by apply sin2_cos2.
  split; [|split; [|split; [|split; [|exact (conj X Y)]]]].
  - apply Rmult_le_pos; [apply sqrt_pos|apply cos_ge_0; lra].
  - rewrite C2. replace (r * (cos (phi / 2) * cos (phi / 2) - sin (phi / 2) * sin (phi / 2))) with
      (sqrt r * sqrt r * (cos (phi / 2) * cos (phi / 2) - sin (phi / 2) * sin (phi / 2))) by (rewrite Q; reflexivity). ring.
  - rewrite S2. replace (r * (2 * sin (phi / 2) * cos (phi / 2))) with (sqrt r * sqrt r * (2 * sin (phi / 2) * cos (phi / 2))) by (rewrite Q; reflexivity). ring.
  - replace (sqrt r * cos (phi / 2) * (sqrt r * cos (phi / 2)) + sqrt r * sin (phi / 2) * (sqrt r * sin (phi / 2))) with
      (sqrt r * sqrt r * (sin (phi / 2) * sin (phi / 2) + cos (phi / 2) * cos (phi / 2))) by ring. rewrite Q, T. ring.
Qed.

Lemma triple_angle x : cos (3 * x) = cos x * cos x * cos x - 3 * (cos x * (sin x * sin x)) /\ sin (3 * x) = 3 * (cos x * cos x * sin x) - sin x * sin x * sin x.
Proof.
  replace (3 * x) with (2 * x + x) by ring. rewrite cos_plus, sin_plus, cos_2a, sin_2a. split; ring.
Qed.

Lemma c134_cube_root :
  forall (prec emax : Z) {Hp : Prec_gt_0 prec} {He : Prec_lt_emax prec emax} (L : libm (binary_float prec emax)) (d : R), (24 <= prec)%Z -> bpow radix2 (- prec) <= d <= / 1000 ->
    forall (z : complex (binary_float prec emax)) (r phi : R) (k : Z), (0 <= k)%Z -> (2 * k + 31 <= emax)%Z -> cis_finite z = true ->
      B2R (re z) = r * cos phi -> B2R (im z) = r * sin phi -> bpow radix2 (- k) <= r <= bpow radix2 k -> - PI <= phi <= PI ->
      fnear (m_atan2 L (im z) (re z)) phi (d * Rabs phi) -> lib_at d (fun x => Rpower x (/ 3)) (m_cbrt L) (fc_norm z) ->
      let t := ndiv (m_atan2 L (im z) (re z)) (nadd (nadd n1 n1) n1) in lib_at d cos (m_cos L) t -> lib_at d sin (m_sin L) t ->
      exists p v w : R, 0 < p /\ p ^ 3 = r /\ Rabs w <= sqrt 3 * v /\ v ^ 3 - 3 * v * w ^ 2 = B2R (re z) /\ 3 * v ^ 2 * w - w ^ 3 = B2R (im z) /\
        fnear (re (fc_cbrt L z)) v (21 * d * p) /\ fnear (im (fc_cbrt L z)) w (21 * d * p).
Proof.
  intros prec emax Hp He L d H24 D z r phi k K0 K F Ea Eb Hr P A CB t C S.
  assert (R0 : 0 < r) by (pose proof (bpow_gt_0 radix2 (- k)); lra).
  destruct (cbrt_polar L d ltac:(lra) H24 z r phi k F Ea Eb P K0 K Hr A CB C S ltac:(lra)) as (X & Y).
  destruct (cube_root_pow r R0) as (C0 & C3). set (p := Rpower r (/ 3)) in *. assert (W : phi = 3 * (phi / 3)) by field.
  destruct (triple_angle (phi / 3)) as (T1 & T2). rewrite <- W in T1, T2.
  exists p, (p * cos (phi / 3)), (p * sin (phi / 3)). rewrite Ea, Eb.
  split; [exact C0|]. split; [exact C3|]. split; [|split; [|split; [|exact (conj X Y)]]].
  - rewrite Rabs_mult, (Rabs_pos_eq p) by lra.
    assert (G : forall s, - PI / 3 <= s <= PI / 3 -> sin s <= sqrt 3 * cos s).
    { intros s Hs. assert (Q : 0 <= sin (PI / 3 - s)) by (apply sin_ge_0; lra). rewrite sin_minus, sin_PI3, cos_PI3 in Q. lra. }
    assert (H : Rabs (sin (phi / 3)) <= sqrt 3 * cos (phi / 3)).
    { pose proof (G (phi / 3) ltac:(lra)) as G1. pose proof (G (- (phi / 3)) ltac:(lra)) as G2. rewrite sin_neg, cos_neg in G2. apply Rabs_le. lra. }
    apply Rle_trans with (p * (sqrt 3 * cos (phi / 3))); [apply Rmult_le_compat_l; lra|right; ring].
  - rewrite T1, <- C3. ring.
  - rewrite T2, <- C3. ring.
Qed.

Lemma c134_power :
  forall (prec emax : Z) {Hp : Prec_gt_0 prec} {He : Prec_lt_emax prec emax} (L : libm (binary_float prec emax)) (d : R), (24 <= prec)%Z -> bpow radix2 (- prec) <= d <= / 64 ->
    forall (z : complex (binary_float prec emax)) (e : binary_float prec emax) (r phi : R) (k : Z), (0 <= k)%Z -> (2 * k + 31 <= emax)%Z ->
      cis_finite z = true -> is_finite e = true ->
      B2R (re z) = r * cos phi -> B2R (im z) = r * sin phi -> bpow radix2 (- k) <= r <= bpow radix2 k -> - PI <= phi <= PI ->
      fnear (m_atan2 L (im z) (re z)) phi (d * Rabs phi) -> lib_at d ln (m_ln L) (fc_norm z) ->
      let x := nmul (m_ln L (fc_norm z)) e in let t := nmul (m_atan2 L (im z) (re z)) e in
      lib_at d exp (m_exp L) x -> lib_at d cos (m_cos L) t -> lib_at d sin (m_sin L) t ->
      let h := 11 * d * Rabs (B2R e) * (1 + Rabs (ln r)) + bpow radix2 (2 - emax - prec) in
      let p := Rpower r (B2R e) in
      h <= / 5 -> p <= bpow radix2 (emax - 3) ->
      fnear (re (fc_powf L z e)) (p * cos (B2R e * phi)) ((6 * d + 3 * h) * p + bpow radix2 (2 - emax - prec)) /\
      fnear (im (fc_powf L z e)) (p * sin (B2R e * phi)) ((6 * d + 3 * h) * p + bpow radix2 (2 - emax - prec)).
Proof.
  intros prec emax Hp He L d H24 D z e r phi k K0 K F Fe Ea Eb Hr P A LN x t E C S h p H B.
  exact (powf_polar L d D H24 z r phi k F Ea Eb P K0 K Hr e Fe A LN E C S H B).
Qed.

(** *** The example: (1 + i)/2 with the correctly rounded library in [f64] *)
Notation L := (cr_libm true : libm f64).
Definition dd : R := bpow radix2 (-50).
Lemma dd_val : dd = / 1125899906842624. Proof. reflexivity. Qed.
Lemma cr_rel r s : / 1000000 <= Rabs r <= 4 -> is_finite (cr r s : f64) = true /\ B2R (cr r s : f64) = round radix2 (FLT_exp (-1074) 53) ZnearestE r /\
  Rabs (B2R (cr r s : f64) - r) <= dd * Rabs r.
Proof.
  intros (A & B). destruct (cr_bounded (prec := 53) (emax := 1024) r s 2) as (F & _ & V & _); [lia|exact B|]. split; [exact F|]. split; [exact V|].
  assert (E : Rabs (B2R (cr r s : f64) - r) <= bpow radix2 (-53) * Rabs r).
  { rewrite V. replace (bpow radix2 (-53)) with (/ 2 * bpow radix2 (- 53 + 1)) by (change (/ 2) with (bpow radix2 (-1)); rewrite <- bpow_plus; reflexivity).
    apply relative_error_N_FLT; [reflexivity|]. apply Rle_trans with (bpow radix2 (-20)); [apply bpow_le; lia|].
    eapply Rle_trans; [|exact A]. change (bpow radix2 (-20)) with (/ 1048576). lra. }
  eapply Rle_trans; [exact E|]. apply Rmult_le_compat_r; [apply Rabs_pos|]. apply bpow_le. lia.
Qed.

Lemma cos_ge x : 1 - x * x / 2 <= cos x.
Proof.
  replace (cos x) with (cos (2 * (x / 2))) by (f_equal; field). rewrite cos_2a_sin. pose proof (sin_lip (x / 2) 0) as S. rewrite sin_0, !Rminus_0_r in S.
  assert (Q : sin (x / 2) * sin (x / 2) <= x / 2 * (x / 2)) by (apply Rsqr_le_abs_1 in S; exact S). lra.
Qed.

Definition half64 : f64 := ndiv (f64_of_Z 1) (f64_of_Z 2).
Definition zz : complex f64 := mkC half64 half64.
Lemma half_val : is_finite half64 = true /\ B2R half64 = / 2.
Proof.
  assert (E : B2SF half64 = SpecFloat.S754_finite false 4503599627370496 (-53)) by (vm_compute; reflexivity).
  destruct (lit_val _ _ _ E) as (F & V). split; [exact F|]. rewrite V. change (IZR (Zpos 4503599627370496)) with (bpow radix2 52). rewrite <- bpow_plus. reflexivity.
Qed.
Lemma one_val : is_finite (nadd half64 half64) = true /\ B2R (nadd half64 half64) = 1.
Proof.
  assert (E : B2SF (nadd half64 half64) = SpecFloat.S754_finite false 4503599627370496 (-52)) by (vm_compute; reflexivity).
  destruct (lit_val _ _ _ E) as (F & V). split; [exact F|]. rewrite V. change (IZR (Zpos 4503599627370496)) with (bpow radix2 52). rewrite <- bpow_plus. reflexivity.
Qed.
Lemma neg_vals : (is_finite (nneg half64) = true /\ B2R (nneg half64) = - / 2) /\ (is_finite (nadd (nneg half64) (nneg half64)) = true /\ B2R (nadd (nneg half64) (nneg half64)) = - (1)).
Proof.
  assert (E : nadd (nneg half64) (nneg half64) = nneg (nadd half64 half64)) by (apply B2SF_inj; vm_compute; reflexivity). rewrite E.
  assert (G : forall x : f64, is_finite (nneg x) = is_finite x /\ B2R (nneg x) = - B2R x) by (intros x; split; [apply is_finite_Bopp|apply B2R_Bopp]).
  destruct half_val as (F & V). destruct one_val as (F1 & V1). destruct (G half64) as (A & B). destruct (G (nadd half64 half64)) as (A1 & B1).
  rewrite A, B, A1, B1, V, V1. auto.
Qed.
Definition rr : R := 1 / sqrt 2.
Lemma rr_val : 7 / 10 <= rr <= 71 / 100 /\ rr * rr = / 2.
Proof.
  pose proof (sqrt_sqrt 2 ltac:(lra)) as S. pose proof (sqrt_lt_R0 2 ltac:(lra)) as P. unfold rr.
  assert (Q : 1 / sqrt 2 * (1 / sqrt 2) = / 2) by (rewrite <- S at 3; field; lra). split; [|exact Q].
  assert (I : 0 < 1 / sqrt 2) by (apply Rdiv_lt_0_compat; lra). set (x := 1 / sqrt 2) in *. split; nra.
Qed.
Lemma cos_bd x : Rabs x <= 1 -> / 1000000 <= Rabs (cos x) <= 4.
Proof.
  intros X. pose proof (cos_ge x) as C. pose proof (COS_bound x) as B. assert (x * x <= 1) by (apply Rabs_le_inv in X; nra). rewrite Rabs_pos_eq by lra. lra.
Qed.
Lemma sin_bd x : / 4 <= x <= 1 -> / 1000000 <= Rabs (sin x) <= 4.
Proof.
  intros X. pose proof PI_digits as PD. pose proof (SIN_bound x) as B. assert (Q : sin (/ 1000) <= sin x) by (left; apply sin_increasing_1; lra).
  pose proof (sin_low (/ 1000) ltac:(lra)). rewrite Rabs_pos_eq by lra. lra.
Qed.
Lemma exp_bd x : Rabs x <= 3 / 2 -> / 1000000 <= exp x /\ (Rabs x <= 1 -> exp x <= 3).
Proof.
  intros X. apply Rabs_le_inv in X. split.
  - assert (E : exp (-2) <= exp x) by (left; apply exp_increasing; lra). pose proof exp_le_3 as E3.
    assert (Q : exp (-2) = / (exp 1 * exp 1)) by (replace (-2) with (- (1 + 1)) by ring; rewrite exp_Ropp, exp_plus; reflexivity). pose proof (exp_pos 1).
    assert (exp 1 * exp 1 <= 3 * 3) by (apply Rmult_le_compat; lra). assert (/ 9 <= / (exp 1 * exp 1)) by (apply Rinv_le; [apply Rmult_lt_0_compat; lra|lra]). lra.
  - intros Y. apply Rabs_le_inv in Y. pose proof exp_le_3. destruct (Rle_lt_or_eq_dec x 1 ltac:(lra)) as [Q| ->]; [|assumption]. pose proof (exp_increasing _ _ Q). lra.
Qed.
Lemma cosh_bd x : Rabs x <= 1 -> / 1000000 <= Rabs (cosh x) <= 4 /\ cosh x <= 3.
Proof.
  intros X. pose proof (cosh_ge1 x) as C. destruct (exp_bd x ltac:(lra)) as (_ & A). destruct (exp_bd (- x)) as (_ & B); [rewrite Rabs_Ropp; lra|]. rewrite Rabs_Ropp in B.
  specialize (A X). specialize (B X). assert (cosh x <= 3) by (unfold cosh; lra). rewrite Rabs_pos_eq by lra. lra.
Qed.
Lemma sinh_bd x : / 4 <= Rabs x <= 1 -> / 1000000 <= Rabs (sinh x) <= 4.
Proof.
  intros X. destruct (cosh_bd x ltac:(lra)) as (_ & B). pose proof (sinh_le x) as C. split; [|lra].
  assert (G : forall y, / 4 <= y -> / 5 <= sinh y).
  { intros y Y. unfold sinh. pose proof (exp_ineq1_le y). pose proof (exp_ineq1_le y) as E1. pose proof (exp_pos y) as P. rewrite exp_Ropp.
    assert (/ exp y <= / (1 + y)) by (apply Rinv_le; lra). assert (/ (1 + y) <= 1 - y / (1 + y)) by (right; field; lra).
    assert (/ 5 <= y / (1 + y)) by (apply (Rmult_le_reg_r (1 + y)); [lra|]; unfold Rdiv; rewrite Rmult_assoc, Rinv_l by lra; lra). lra. }
  destruct (Rle_or_lt 0 x) as [P|P].
  - rewrite Rabs_pos_eq in X by lra. pose proof (G x ltac:(lra)). rewrite Rabs_pos_eq by lra. lra.
  - rewrite Rabs_left in X by lra. pose proof (G (- x) ltac:(lra)) as Q. rewrite sinh_odd in Q. rewrite Rabs_left by lra. lra.
Qed.

(** The library at points in range. *)
Lemma lib_cos (x : f64) : is_finite x = true -> / 1000000 <= Rabs (cos (B2R x)) <= 4 -> lib_at dd cos (m_cos L) x.
Proof. intros F B. destruct (cr_rel (cos (B2R x)) false B) as (G & _ & E). unfold lib_at. cbn [m_cos cr_libm]. rewrite F. split; assumption. Qed.
Lemma lib_sin (x : f64) : is_finite x = true -> / 1000000 <= Rabs (sin (B2R x)) <= 4 -> lib_at dd sin (m_sin L) x.
Proof. intros F B. destruct (cr_rel (sin (B2R x)) (Bsign x) B) as (G & _ & E). unfold lib_at. cbn [m_sin cr_libm]. rewrite F. split; assumption. Qed.
Lemma lib_cosh (x : f64) : is_finite x = true -> / 1000000 <= Rabs (cosh (B2R x)) <= 4 -> lib_at dd cosh (m_cosh L) x.
Proof. intros F B. destruct (cr_rel (cosh (B2R x)) false B) as (G & _ & E). unfold lib_at. cbn [m_cosh cr_libm]. rewrite F. split; assumption. Qed.
Lemma lib_sinh (x : f64) : is_finite x = true -> / 1000000 <= Rabs (sinh (B2R x)) <= 4 -> lib_at dd sinh (m_sinh L) x.
Proof. intros F B. destruct (cr_rel (sinh (B2R x)) (Bsign x) B) as (G & _ & E). unfold lib_at. cbn [m_sinh cr_libm]. rewrite F. split; assumption. Qed.
Lemma lib_exp (x : f64) : is_finite x = true -> / 1000000 <= Rabs (exp (B2R x)) <= 4 -> lib_at dd exp (m_exp L) x.
Proof. intros F B. destruct (cr_rel (exp (B2R x)) false B) as (G & _ & E). unfold lib_at. cbn [m_exp cr_libm]. destruct x; try discriminate F; split; assumption. Qed.
Lemma lib_ln (x : f64) : is_finite x = true -> 0 < B2R x -> / 1000000 <= Rabs (ln (B2R x)) <= 4 -> lib_at dd ln (m_ln L) x.
Proof.
  intros F P B. destruct (cr_rel (ln (B2R x)) false B) as (G & _ & E). unfold lib_at. cbn [m_ln cr_libm]. rewrite (pos_sign _ P).
  destruct x as [s|s| |s m e H]; try discriminate F; [cbn in P; lra|]. split; assumption.
Qed.
Lemma lib_cbrt (x : f64) : is_finite x = true -> 0 < B2R x -> / 1000000 <= Rabs (Rpower (B2R x) (/ 3)) <= 4 -> lib_at dd (fun x => Rpower x (/ 3)) (m_cbrt L) x.
Proof.
  intros F P B. assert (E : rcbrt (Rabs (B2R x)) = Rpower (B2R x) (/ 3)).
  { rewrite Rabs_pos_eq by lra. unfold rcbrt. destruct Req_EM_T; [lra|]. f_equal. lra. }
  destruct (cr_rel (Rpower (B2R x) (/ 3)) false B) as (G & V & D). unfold lib_at. cbn [m_cbrt cr_libm]. rewrite F, (pos_sign _ P), E. split; [rewrite set_sign_fin; exact G|].
  rewrite set_sign_R, (Rabs_pos_eq (B2R (cr (Rpower (B2R x) (/ 3)) false : f64))); [exact D|]. rewrite V. rewrite <- (round_0 radix2 (FLT_exp (-1074) 53) ZnearestE). apply round_le; [apply FLT_exp_valid; reflexivity|apply valid_rnd_N|].
  left. apply exp_pos.
Qed.
Lemma lib_arg : fnear (m_atan2 L half64 half64) (PI / 4) (dd * Rabs (PI / 4)).
Proof.
  destruct half_val as (F & V). pose proof PI_digits as PD. assert (P : 0 < B2R half64) by (rewrite V; lra).
  assert (RA : ratan2 (Rabs (B2R half64)) (B2R half64) = PI / 4).
  { rewrite V, Rabs_pos_eq by lra. unfold ratan2. destruct Rlt_dec; [|lra]. replace (/ 2 / / 2) with 1 by field. apply atan_1. }
  destruct (cr_rel (PI / 4) false) as (G & W & D); [rewrite Rabs_pos_eq by lra; lra|].
  assert (E : m_atan2 L half64 half64 = fset_sign false (cr (PI / 4) false)).
  { cbn [m_atan2 cr_libm]. unfold cr_atan2. rewrite (pos_sign _ P), RA. revert F P. generalize half64. intros [s|s| |s m e H] F P; try discriminate F; [cbn in P; lra|]. reflexivity. }
  rewrite E. split; [rewrite set_sign_fin; exact G|]. rewrite set_sign_R, (Rabs_pos_eq (B2R (cr (PI / 4) false : f64))); [exact D|]. rewrite W.
  rewrite <- (round_0 radix2 (FLT_exp (-1074) 53) ZnearestE). apply round_le; [apply FLT_exp_valid; reflexivity|apply valid_rnd_N|lra].
Qed.

Lemma dd_ok : bpow radix2 (-53) <= dd <= / 1000.
Proof. split; [apply bpow_le; lia|rewrite dd_val; lra]. Qed.
Lemma pair_bd (t : f64) (a : R) : is_finite t = true -> Rabs (B2R t - a) <= 4 * dd -> 26 / 100 <= a <= 99 / 100 -> lib_at dd cos (m_cos L) t /\ lib_at dd sin (m_sin L) t.
Proof.
  intros F E A. apply Rabs_le_inv in E. rewrite dd_val in E. split; [apply lib_cos; [exact F|apply cos_bd; apply Rabs_le; lra]|apply lib_sin; [exact F|apply sin_bd; lra]].
Qed.
Lemma zz_polar : cis_finite zz = true /\ B2R (re zz) = rr * cos (PI / 4) /\ B2R (im zz) = rr * sin (PI / 4) /\ - PI <= PI / 4 <= PI /\ bpow radix2 (-1) <= rr <= bpow radix2 1.
Proof.
  destruct half_val as (F & V). pose proof PI_digits as PD. destruct rr_val as (B & Q). unfold cis_finite, zz. cbn [re im]. rewrite F, V, cos_PI4, sin_PI4. fold rr.
  change (bpow radix2 (-1)) with (/ 2). change (bpow radix2 1) with 2. split; [reflexivity|]. repeat split; lra.
Qed.
Lemma zz_norm : is_finite (fc_norm zz) = true /\ 69 / 100 <= B2R (fc_norm zz) <= 72 / 100.
Proof.
  destruct zz_polar as (F & A & B & P & R1). destruct (norm_polar (prec := 53) (emax := 1024) ltac:(lia) zz rr (PI / 4) 1 F A B ltac:(lia) ltac:(lia) R1) as (G & N). split; [exact G|].
  destruct rr_val as (RB & _). apply Rabs_le_inv in N. change (bpow radix2 (- 53)) with (/ 9007199254740992) in N.
  assert (M : - (8 * / 9007199254740992 * rr) <= B2R (fc_norm zz) - rr <= 8 * / 9007199254740992 * rr) by exact N. lra.
Qed.

Lemma c134_example :
  let L : libm f64 := cr_libm true in let h : f64 := ndiv (f64_of_Z 1) (f64_of_Z 2) in let z := mkC h h in let d := bpow radix2 (-50) in
    let r := 1 / sqrt 2 in let phi := PI / 4 in
    (cis_finite z = true /\ B2R (re z) = / 2 /\ B2R (im z) = / 2) /\
    (lib_at d exp (m_exp L) h /\ lib_at d cos (m_cos L) h /\ lib_at d sin (m_sin L) h /\ lib_at d cosh (m_cosh L) h /\ lib_at d sinh (m_sinh L) h /\
     lib_at d cosh (m_cosh L) (nneg h) /\ lib_at d sinh (m_sinh L) (nneg h) /\ exp (/ 2) <= bpow radix2 1022 /\ cosh (/ 2) <= bpow radix2 1022) /\
    (lib_at d cos (m_cos L) (nadd h h) /\ lib_at d sin (m_sin L) (nadd h h) /\ lib_at d cosh (m_cosh L) (nadd h h) /\ lib_at d sinh (m_sinh L) (nadd h h) /\
     lib_at d cosh (m_cosh L) (nadd (nneg h) (nneg h)) /\ lib_at d sinh (m_sinh L) (nadd (nneg h) (nneg h)) /\
     cosh 1 <= / 2 * bpow radix2 1022 /\ 0 < cosh 1 + cos 1 /\ cosh 1 + 1 <= 2 * (cosh 1 + cos 1) /\ 8 * d * 2 <= 1) /\
    (B2R (re z) = r * cos phi /\ B2R (im z) = r * sin phi /\ - PI <= phi <= PI /\ bpow radix2 (-1) <= r <= bpow radix2 1 /\
     fnear (m_atan2 L h h) phi (d * Rabs phi) /\ lib_at d ln (m_ln L) (fc_norm z) /\ lib_at d (fun x => Rpower x (/ 3)) (m_cbrt L) (fc_norm z)) /\
    (let t := ndiv (m_atan2 L h h) (nadd n1 n1) in lib_at d cos (m_cos L) t /\ lib_at d sin (m_sin L) t) /\
    (let t := ndiv (m_atan2 L h h) (nadd (nadd n1 n1) n1) in lib_at d cos (m_cos L) t /\ lib_at d sin (m_sin L) t) /\
    (let e := f64_of_Z 3 in let x := nmul (m_ln L (fc_norm z)) e in let t := nmul (m_atan2 L h h) e in
     lib_at d exp (m_exp L) x /\ lib_at d cos (m_cos L) t /\ lib_at d sin (m_sin L) t /\
     11 * d * Rabs (B2R e) * (1 + Rabs (ln r)) + bpow radix2 (-1075) <= / 5 /\ Rpower r (B2R e) <= bpow radix2 1021).
Proof.
  intros L' h z d r phi. change L' with L. change h with half64. change z with zz. change d with dd. change r with rr.
  destruct half_val as (F & V). destruct one_val as (F1 & V1). destruct neg_vals as ((Fn & Vn) & (Fm & Vm)). destruct zz_polar as (Fz & A & B & P & R1).
  destruct zz_norm as (Nf & Nb). assert (N0 : 0 < B2R (fc_norm zz)) by lra. pose proof lib_arg as LA. pose proof dd_ok as DO. assert (D64 : bpow radix2 (- (53)) <= dd <= / 64) by (change (- (53))%Z with (-53)%Z; lra). destruct rr_val as (RB & RQ). pose proof PI_digits as PD.
  assert (LN : lib_at dd ln (m_ln L) (fc_norm zz)).
  { apply lib_ln; [exact Nf|lra|]. destruct (ln_low (B2R (fc_norm zz)) N0) as (Q1 & Q2).
    assert (/ B2R (fc_norm zz) <= / (69 / 100)) by (apply Rinv_le; lra). rewrite Rabs_left by lra. lra. }
  assert (LR : Rabs (ln rr) <= 1).
  { destruct (ln_low rr ltac:(lra)) as (Q1 & Q2). assert (/ rr <= / (7 / 10)) by (apply Rinv_le; lra). apply Rabs_le. lra. }
  assert (A1 : Rabs 1 <= 1) by (rewrite Rabs_R1; lra). assert (A2 : Rabs (/ 2) = / 2) by (apply Rabs_pos_eq; lra).
  destruct (cosh_bd 1 A1) as (C1 & C1b). destruct (cosh_bd (/ 2)) as (C2 & C2b); [lra|]. destruct (exp_bd (/ 2)) as (E1 & E2); [lra|]. specialize (E2 ltac:(lra)).
  assert (BIG : 8 <= bpow radix2 1021) by (apply (bpow_le radix2 3); lia). assert (BIG2 : 8 <= bpow radix2 1022) by (apply (bpow_le radix2 3); lia).
  pose proof (cosh_ge1 1) as G1. pose proof (cos_ge 1) as G2.
  split; [exact (conj Fz (conj V V))|]. split; [|split; [|split; [|split; [|split]]]].
  - split; [apply lib_exp; [exact F|rewrite V, Rabs_pos_eq by lra; lra]|].
    split; [apply lib_cos; [exact F|rewrite V; apply cos_bd; lra]|]. split; [apply lib_sin; [exact F|rewrite V; apply sin_bd; lra]|].
    split; [apply lib_cosh; [exact F|rewrite V; exact C2]|]. split; [apply lib_sinh; [exact F|rewrite V; apply sinh_bd; lra]|].
    split; [apply lib_cosh; [exact Fn|rewrite Vn, cosh_even; exact C2]|].
    split; [apply lib_sinh; [exact Fn|rewrite Vn; apply sinh_bd; rewrite Rabs_Ropp; lra]|]. split; lra.
  - split; [apply lib_cos; [exact F1|rewrite V1; apply cos_bd; lra]|]. split; [apply lib_sin; [exact F1|rewrite V1; apply sin_bd; lra]|].
    split; [apply lib_cosh; [exact F1|rewrite V1; exact C1]|]. split; [apply lib_sinh; [exact F1|rewrite V1; apply sinh_bd; rewrite Rabs_R1; lra]|].
    split; [apply lib_cosh; [exact Fm|rewrite Vm, cosh_even; exact C1]|].
    split; [apply lib_sinh; [exact Fm|rewrite Vm; apply sinh_bd; rewrite Rabs_Ropp, Rabs_R1; lra]|]. repeat split; lra.
  - split; [exact A|]. split; [exact B|]. split; [exact P|]. split; [exact R1|]. split; [exact LA|]. split; [exact LN|].
    apply lib_cbrt; [exact Nf|lra|]. destruct (cube_root_pow (B2R (fc_norm zz)) N0) as (Q0 & Q3). set (c := Rpower (B2R (fc_norm zz)) (/ 3)) in *.
    rewrite Rabs_pos_eq by lra. split.
    + destruct (Rle_or_lt (/ 1000000) c) as [H|H]; [exact H|]. exfalso. assert (c ^ 3 = c * c * c) by ring. assert (c * c <= 1 * 1) by (apply Rmult_le_compat; lra).
      assert (c * c * c <= 1 * c) by (apply Rmult_le_compat_r; lra). lra.
    + destruct (Rle_or_lt c 4) as [H|H]; [exact H|]. exfalso. assert (c ^ 3 = c * c * c) by ring. assert (1 * 1 <= c * c) by (apply Rmult_le_compat; lra).
      assert (1 * c <= c * c * c) by (apply Rmult_le_compat_r; lra). lra.
  - destruct (@two_val 53 1024 _ _) as (F2 & V2).
    destruct (angle_div (prec := 53) (emax := 1024) L dd D64 ltac:(lia) zz (PI / 4) 1 P ltac:(lia) ltac:(lia) (nadd n1 n1) 2 F2 V2 ltac:(lra) LA) as (Ft & Et).
    exact (pair_bd _ (PI / 4 / 2) Ft Et ltac:(lra)).
  - destruct (@three_val 53 1024 _ _ ltac:(lia) 1 ltac:(lia) ltac:(lia)) as (F2 & V2).
    destruct (angle_div (prec := 53) (emax := 1024) L dd D64 ltac:(lia) zz (PI / 4) 1 P ltac:(lia) ltac:(lia) (nadd (nadd n1 n1) n1) 3 F2 V2 ltac:(lra) LA) as (Ft & Et).
    exact (pair_bd _ (PI / 4 / 3) Ft Et ltac:(lra)).
  - intros e x t. destruct (f64_of_Z_exact 3 ltac:(reflexivity)) as (Ev & Ef).
    assert (T : 0 < bpow radix2 (-1075) <= / 1000) by (split; [apply bpow_gt_0|apply Rle_trans with (bpow radix2 (-10)); [apply bpow_le; lia|change (bpow radix2 (-10)) with (/ 1024); lra]]).
    assert (HH : 11 * dd * Rabs (B2R e) * (1 + Rabs (ln rr)) + bpow radix2 (-1075) <= / 100).
    { assert (D0 : 0 < dd <= / 1000000) by (rewrite dd_val; lra). unfold e. rewrite Ev, Rabs_pos_eq by lra. assert (11 * dd * 3 * (1 + Rabs (ln rr)) <= 11 * dd * 3 * 2) by (apply Rmult_le_compat_l; lra). lra. }
    destruct (powf_args (prec := 53) (emax := 1024) L dd D64 ltac:(lia) zz rr (PI / 4) 1 Fz A B P ltac:(lia) ltac:(lia) R1 e Ef LA LN) as ((Fx & Ft) & Ex & Et).
    { eapply Rle_trans; [exact HH|lra]. }
    change (2 - 1024 - 53)%Z with (-1075)%Z in Ex, Et. pose proof (Rle_trans _ _ _ Ex HH) as Ex'. pose proof (Rle_trans _ _ _ Et HH) as Et'. clear Ex Et.
    assert (X2 : Rabs (B2R x - B2R e * ln rr) <= / 100) by exact Ex'. assert (T2 : Rabs (B2R t - B2R e * (PI / 4)) <= / 100) by exact Et'. clear Ex' Et'.
    assert (Gx : is_finite x = true) by exact Fx. assert (Gt : is_finite t = true) by exact Ft. clear Fx Ft.
    assert (Ve : B2R e = 3) by exact Ev. rewrite Ve in X2, T2. rewrite Ve in HH |- *. apply Rabs_le_inv in X2. apply Rabs_le_inv in T2. clearbody x t.
    destruct (ln_low rr ltac:(lra)) as (Q1 & Q2). assert (/ rr <= / (7 / 10)) by (apply Rinv_le; lra).
    split; [|split; [|split; [|split]]].
    + apply lib_exp; [exact Gx|]. destruct (exp_bd (B2R x)) as (U1 & _); [apply Rabs_le; lra|]. rewrite Rabs_pos_eq by lra. split; [exact U1|].
      apply Rle_trans with (exp 0); [left; apply exp_increasing; lra|rewrite exp_0; lra].
    + apply lib_cos; [exact Gt|]. assert (Q : cos (B2R t) = - cos (PI - B2R t)) by (rewrite <- Rtrigo_facts.cos_pi_minus; f_equal; ring). rewrite Q, Rabs_Ropp. apply cos_bd, Rabs_le. lra.
    + apply lib_sin; [exact Gt|]. rewrite <- (sin_PI_x (B2R t)). apply sin_bd. lra.
    + lra.
    + unfold Rpower. apply Rle_trans with (exp 0); [left; apply exp_increasing; lra|rewrite exp_0; lra].
Qed.
