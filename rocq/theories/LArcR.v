(** Where rounding makes the recovered angle NaN; the correctly rounded library. *)

From Coq Require Import Arith ZArith Bool Lia Reals Lra.
From Flocq Require Import Core.Core IEEE754.BinarySingleNaN.
From Verif Require Import Base Scalar Spec SpecF SpecDrift LBase MVector LVector MMatrix MFloat MFloatVec MSign LFloat LFloatVec LReal LComplexHP LComplexLP LLibmP LTrigB SpecLibm SpecCR LFloatNormP LComplexFP LComplexJP
  MQuat MComplexF MRotF MTransform MArcF SpecArc LArc LArcN LArcP LArcQ LArcS LArcA.
Local Open Scope R_scope.

Section Gen.
Context {prec emax : Z} {Hp : Prec_gt_0 prec} {He : Prec_lt_emax prec emax}.
Notation fl := (binary_float prec emax).
Notation fexp := (FLT_exp (3 - emax - prec) prec).
Notation rnd := (round radix2 fexp ZnearestE).
Variable L : libm fl.
Variables arccos arcsin : fl -> fl.
Hypothesis LA : libm_arc L arccos arcsin.

Lemma over_one (x : fl) : is_finite x = true -> Bltb n1 (fabs x) = true -> 1 < Rabs (B2R x).
Proof.
  intros F B. destruct (@one_facts prec emax _ _) as (Fo & Vo & _). destruct (fabs_R x) as (E & Fx). rewrite F in Fx.
  rewrite (Bltb_correct _ _ _ _ Fo Fx) in B. revert B. case Rlt_bool_spec; [|discriminate]. rewrite E.
  change (B2R (n1 : fl)) with (B2R (1%N_ : fl)). rewrite Vo. auto.
Qed.
Lemma acos_over (x : fl) : is_finite x = true -> Bltb n1 (fabs x) = true -> arccos x = B754_nan.
Proof. intros F B. apply (arc_acos_nan _ _ _ LA x F). apply over_one; assumption. Qed.
Lemma asin_over (x : fl) : is_finite x = true -> Bltb n1 (fabs x) = true -> arcsin x = B754_nan.
Proof. intros F B. apply (arc_asin_nan _ _ _ LA x F). apply over_one; assumption. Qed.

Lemma nan_diag (x : fl) : ((1 - B754_nan) * x * x + B754_nan)%N_ = B754_nan :> fl.
Proof.
  assert (E : (1 - B754_nan)%N_ = B754_nan :> fl) by (destruct (1%N_ : fl); reflexivity). rewrite E.
  assert (M : forall y : fl, (B754_nan * y)%N_ = B754_nan :> fl) by (intros y; destruct y; reflexivity). rewrite !M. reflexivity.
Qed.

Lemma m3between_nan (v1 v2 : vec fl 3) : let u1 := fvnormalize v1 in let u2 := fvnormalize v2 in
  Bleb (fvnorm v1) n0 = false -> Bleb (fvnorm v2) n0 = false ->
  Bltb (feps * feps)%N_ (vnorm_squared (vcross u1 u2)) = true ->
  is_finite (vdot u1 u2) = true -> Bltb n1 (fabs (vdot u1 u2)) = true ->
  exists m, fm3rotation_between L arccos v1 v2 = Some m /\ mget m 0 0 = B754_nan.
Proof.
  intros u1 u2 E1 E2 E3 F B. unfold fm3rotation_between, fvtry_normalize. cbv zeta. rewrite E1, E2. unfold fvtry_unit. cbv zeta.
  fold u1. fold u2. rewrite E3, (acos_over _ F B).
  eexists. split; [reflexivity|]. unfold gm3from_axis_angle. cbv zeta. rewrite (arc_cos_nan _ _ _ LA). apply nan_diag.
Qed.
Lemma half_turn_nan (axis : vec fl 3) (angle c : fl) : m_cos L angle = c ->
  is_finite (targ (ent c (vat axis 0)) (ent c (vat axis 1)) (ent c (vat axis 2))) = true ->
  Bltb n1 (fabs (targ (ent c (vat axis 0)) (ent c (vat axis 1)) (ent c (vat axis 2)))) = true ->
  frot3angle arccos (frot3from_axis_angle L axis angle) = B754_nan.
Proof. intros C F B. rewrite angle_eq, C. apply acos_over; assumption. Qed.

Lemma nz_strict (x : fl) : is_finite x = true -> B2R x <> 0 -> is_finite_strict x = true.
Proof. destruct x; try discriminate; cbn; auto. Qed.
End Gen.

Notation F n := (f64_of_Z n).

(** (1, 3, 1) and (1 + 2^-27, 3, 1), scaled by 2^27. *)
Definition w1 : vec f64 3 := v3 (F (2 ^ 27)) (F (3 * 2 ^ 27)) (F (2 ^ 27)).
Definition w2 : vec f64 3 := v3 (F (2 ^ 27 + 1)) (F (3 * 2 ^ 27)) (F (2 ^ 27)).

Lemma c126_matrix_between_nan : forall (L : libm f64) (arccos arcsin : f64 -> f64), libm_arc L arccos arcsin ->
  exists m, fm3rotation_between L arccos w1 w2 = Some m /\ mget m 0 0 = B754_nan.
Proof. intros L arccos arcsin LA. apply (m3between_nan L arccos arcsin LA); vm_compute; reflexivity. Qed.

Definition q1 : quat f64 := qnew (F 3) (F 1) (F 1) (F 2).
Lemma c126_inverse_angle_nan : forall (L : libm f64) (arccos arcsin : f64 -> f64), libm_arc L arccos arcsin ->
  frot3angle arccos (rot_mul (rot_inverse (frot3from_quaternion q1)) (frot3from_quaternion q1)) = B754_nan.
Proof.
  intros L arccos arcsin LA. unfold frot3angle. cbv zeta. apply (acos_over L arccos arcsin LA); vm_compute; reflexivity.
Qed.

Definition q2 : quat f64 := qnew (F 1) (F 3) (F 1) (F 3).
Lemma c126_euler_nan : forall (L : libm f64) (arccos arcsin : f64 -> f64), libm_arc L arccos arcsin ->
  snd (fst (frot3euler_angles L arcsin (frot3from_quaternion q2))) = B754_nan.
Proof.
  intros L arccos arcsin LA. unfold frot3euler_angles. cbv zeta.
  match goal with |- context [arcsin ?t] => assert (E : arcsin t = B754_nan) by (apply (asin_over L arccos arcsin LA); vm_compute; reflexivity) end.
  rewrite E. destruct (nis0 _); reflexivity.
Qed.

Definition ax1 : vec f64 3 := fvnormalize (v3 (F 0) (F 1) (F 1)).
Lemma c126_half_turn_nan : forall (L : libm f64) (arccos arcsin : f64 -> f64) (angle : f64), libm_arc L arccos arcsin ->
  m_cos L angle = nneg n1 -> frot3angle arccos (frot3from_axis_angle L ax1 angle) = B754_nan.
Proof.
  intros L arccos arcsin angle LA C. apply (half_turn_nan L arccos arcsin LA ax1 angle (nneg n1) C); vm_compute; reflexivity.
Qed.

(** ** The correctly rounded library *)
Section CR.
Context {prec emax : Z} {Hp : Prec_gt_0 prec} {He : Prec_lt_emax prec emax}.
Notation fl := (binary_float prec emax).
Notation fexp := (FLT_exp (3 - emax - prec) prec).
Notation rnd := (round radix2 fexp ZnearestE).
Notation u := (bpow radix2 (- prec)).
Variable nb : bool.
Notation L := (cr_libm nb : libm fl).
Hypothesis H1 : (24 <= prec)%Z.
Hypothesis H2 : (2 * prec <= emax)%Z.

Lemma cr_arc : libm_arc L cr_acos cr_asin.
Proof.
  pose proof Hp as P0. unfold Prec_gt_0 in P0. pose proof PI_bounds as PB. pose proof (bpow_gt_0 radix2 (- prec)) as U0. pose proof (u_small H1) as US.
  split.
  - intros x F B. unfold cr_acos. rewrite F. destruct Rle_dec as [_|N]; [|contradiction]. apply Rabs_le_inv in B.
    pose proof (acos_bound (B2R x)) as AB.
    destruct (cr_bounded (acos (B2R x)) false 2) as (A & C & E & _); [lia|rewrite Rabs_pos_eq by lra; change (bpow radix2 2) with 4; lra|].
    split; [exact A|]. change (bpow radix2 2) with 4 in C. split; [|apply Rabs_le_inv in C; lra].
    rewrite E. apply round_ge_generic; auto with typeclass_instances; [apply generic_format_0|lra].
  - intros x F B. unfold cr_acos. rewrite F. destruct Rle_dec; [lra|reflexivity].
  - intros x F B. unfold cr_asin. rewrite F. destruct Rle_dec as [_|N]; [|contradiction].
    pose proof (asin_bound (B2R x)) as AB.
    destruct (cr_bounded (asin (B2R x)) (Bsign x) 1) as (A & C & E & _); [lia|apply Rabs_le; change (bpow radix2 1) with 2; lra|].
    split; [exact A|exact C].
  - intros x F B. unfold cr_asin. rewrite F. destruct Rle_dec; [lra|reflexivity].
  - reflexivity.
  - reflexivity.
  - intros x F. cbn [m_sin m_cos cr_libm]. rewrite F.
    assert (BS : Rabs (sin (B2R x)) <= bpow radix2 0) by (apply Rabs_le; pose proof (SIN_bound (B2R x)); cbn; lra).
    assert (BC : Rabs (cos (B2R x)) <= bpow radix2 0) by (apply Rabs_le; pose proof (COS_bound (B2R x)); cbn; lra).
    destruct (cr_bounded (sin (B2R x)) (Bsign x) 0) as (_ & _ & E1 & _); [lia|exact BS|].
    destruct (cr_bounded (cos (B2R x)) false 0) as (_ & _ & E2 & _); [lia|exact BC|]. rewrite E1, E2.
    assert (K0 : (3 - emax <= 0)%Z) by lia. pose proof (rnd_err H1 _ 0 K0 BS) as X1. pose proof (rnd_err H1 _ 0 K0 BC) as X2.
    change (bpow radix2 0) with 1 in *. pose proof (sin2_cos2 (B2R x)) as SC. unfold Rsqr in SC.
    set (s := sin (B2R x)) in *. set (c := cos (B2R x)) in *. set (s' := rnd s) in *. set (c' := rnd c) in *.
    apply Rabs_le_inv in X1, X2, BS, BC.
    assert (S : s * s - / 8 <= s' * s').
    { replace (s' * s') with (s * s + 2 * (s * (s' - s)) + (s' - s) * (s' - s)) by ring. assert (- / 16 <= s * (s' - s)) by nra. nra. }
    assert (C : c * c - / 8 <= c' * c').
    { replace (c' * c') with (c * c + 2 * (c * (c' - c)) + (c' - c) * (c' - c)) by ring. assert (- / 16 <= c * (c' - c)) by nra. nra. }
    lra.
Qed.

(** The cosine of the float nearest to pi is -1. *)
Lemma cr_cos_pi : m_cos L (m_pi L) = nneg n1.
Proof.
  pose proof Hp as P0. unfold Prec_gt_0 in P0. pose proof PI_bounds as PB. pose proof (bpow_gt_0 radix2 (- prec)) as U0. pose proof (u_small H1) as US.
  destruct (@one_facts prec emax _ _) as (Fo & Vo & _).
  cbn [m_cos m_pi cr_libm].
  assert (BP : Rabs PI <= bpow radix2 2) by (rewrite Rabs_pos_eq by lra; change (bpow radix2 2) with 4; lra).
  destruct (cr_bounded PI false 2) as (FP & _ & EP & _); [lia|exact BP|]. rewrite FP.
  assert (K0 : (3 - emax <= 2)%Z) by lia. pose proof (rnd_err H1 PI 2 K0 BP) as X. change (bpow radix2 2) with 4 in X. set (p := B2R (cr PI false : fl)) in *. rewrite <- EP in X.
  assert (C : -1 <= cos p <= -1 + 8 * (u * u)).
  { split; [apply COS_bound|]. replace p with (PI + (p - PI)) by ring. rewrite cos_plus, cos_PI, sin_PI.
    replace (cos (p - PI)) with (cos (Rabs (p - PI))) by (unfold Rabs; destruct Rcase_abs; [apply cos_neg|reflexivity]). pose proof (cos_taylor (Rabs (p - PI)) ltac:(split; [apply Rabs_pos|lra])) as (T & _).
    set (d := Rabs (p - PI)) in *. assert (d ^ 2 <= (4 * u) ^ 2) by (apply pow_incr; split; [apply Rabs_pos|exact X]). nra. }
  assert (R : rnd (cos p) = -1).
  { apply Rle_antisym; [|apply round_ge_generic; auto with typeclass_instances; [apply (fmt_int H1 (-1)); lia|lra]].
    apply round_N_le_midp; auto with typeclass_instances; [apply (fmt_int H1 (-1)); lia|].
    assert (S : succ radix2 fexp (-1) = - (1 - u)).
    { replace (-1) with (- (1)) by ring. rewrite succ_opp. f_equal. change 1 with (bpow radix2 0) at 1. rewrite pred_bpow by auto with typeclass_instances. f_equal. unfold FLT_exp. f_equal. lia. }
    rewrite S. nra. }
  destruct (cr_bounded (cos p) false 0) as (FC & _ & EC & _); [lia|apply Rabs_le; pose proof (COS_bound p); change (bpow radix2 0) with 1; lra|].
  apply B2R_inj.
  - apply nz_strict; [exact FC|]. rewrite EC, R. lra.
  - apply nz_strict; [cbn [nneg num_float]; rewrite is_finite_Bopp; exact Fo|]. cbn [nneg num_float]. rewrite B2R_Bopp. change (Bone : fl) with (1%N_ : fl). rewrite Vo. lra.
  - rewrite EC, R. cbn [nneg num_float]. rewrite B2R_Bopp. change (Bone : fl) with (1%N_ : fl). rewrite Vo. lra.
Qed.
End CR.

Lemma c126_library : let L : libm f64 := cr_libm true in
  libm_special L /\ libm_arc L cr_acos cr_asin /\ m_cos L (m_pi L) = nneg n1 /\ is_finite (m_pi L) = true /\ Rabs (B2R (m_pi L) - PI) <= bpow radix2 (- 51).
Proof.
  cbv zeta. split; [apply cr_special; lia|]. split; [apply cr_arc; lia|]. split; [apply cr_cos_pi; lia|].
  pose proof PI_bounds as PB.
  assert (BP : Rabs PI <= bpow radix2 2) by (rewrite Rabs_pos_eq by lra; change (bpow radix2 2) with 4; lra).
  destruct (@cr_bounded 53 1024 _ _ PI false 2) as (FP & _ & EP & _); [lia|exact BP|]. split; [exact FP|].
  change (B2R (m_pi (cr_libm true : libm f64))) with (B2R (@cr 53 1024 _ _ PI false)). rewrite EP.
  apply Rle_trans with (bpow radix2 2 * bpow radix2 (- 53)); [refine (@rnd_err 53 1024 _ _ PI 2 _ BP); lia|].
  rewrite <- bpow_plus. apply bpow_le. lia.
Qed.

Lemma c126_example : let L : libm f64 := cr_libm true in
  let p : quat f64 := qnew (F 1) (F 0) (F 0) (F 0) in let q : quat f64 := qnew (F 0) (F 1) (F 0) (F 0) in
  let axis : vec f64 3 := v3 (F 1) (F 0) (F 0) in let a : vec R 3 := v3 1 0 0 in
  all_finite (p : vec f64 4) /\ all_finite (q : vec f64 4) /\
  qlength (B2R (vat (p : vec _ 4) 0), B2R (vat (p : vec _ 4) 1), B2R (vat (p : vec _ 4) 2), B2R (vat (p : vec _ 4) 3)) = 1 /\
  qlength (B2R (vat (q : vec _ 4) 0), B2R (vat (q : vec _ 4) 1), B2R (vat (q : vec _ 4) 2), B2R (vat (q : vec _ 4) 3)) = 1 /\
  sum 3 (fun i => vat a i * vat a i)%R = 1 /\
  (forall i, (i < 3)%nat -> fnear (vat axis i) (vat a i) (bpow radix2 (- 53)) /\ Rabs (B2R (vat axis i)) <= 1) /\
  fnear (m_sin L (F 1)) (sin 1) (bpow radix2 (- 53)) /\ fnear (m_cos L (F 1)) (cos 1) (bpow radix2 (- 53)) /\
  -1 + 12 * bpow radix2 (- 53) + 71 * bpow radix2 (- 53) <= cos 1.
Proof.
  cbv zeta. destruct (f64_of_Z_exact 0 ltac:(lia)) as (V0 & F0). destruct (f64_of_Z_exact 1 ltac:(lia)) as (V1 & F1).
  pose proof (bpow_gt_0 radix2 (- 53)) as U0.
  assert (US : bpow radix2 (- 53) <= / 16777216) by (change (/ 16777216) with (bpow radix2 (-24)); apply bpow_le; lia).
  split; [intros [|[|[|[|i]]]] Hi; [exact F1|exact F0|exact F0|exact F0|lia]|].
  split; [intros [|[|[|[|i]]]] Hi; [exact F0|exact F1|exact F0|exact F0|lia]|].
  split; [|split; [|split; [|split]]].
  - change (qlength (B2R (F 1), B2R (F 0), B2R (F 0), B2R (F 0)) = 1). rewrite V0, V1. unfold qlength.
    replace (1 * 1 + 0 * 0 + 0 * 0 + 0 * 0) with 1 by ring. apply sqrt_1.
  - change (qlength (B2R (F 0), B2R (F 1), B2R (F 0), B2R (F 0)) = 1). rewrite V0, V1. unfold qlength.
    replace (0 * 0 + 1 * 1 + 0 * 0 + 0 * 0) with 1 by ring. apply sqrt_1.
  - cbv [sum vat vget v3 fst snd nadd n0 num_R]. ring.
  - assert (A : forall (x : f64) r, B2R x = r -> is_finite x = true -> Rabs r <= 1 -> fnear x r (bpow radix2 (- 53)) /\ Rabs (B2R x) <= 1).
    { intros x r E G B. split; [split; [exact G|]|rewrite E; exact B]. rewrite E. replace (r - r) with 0 by ring. rewrite Rabs_R0. lra. }
    intros [|[|[|i]]] Hi; [apply (A (F 1) 1 V1 F1)|apply (A (F 0) 0 V0 F0)|apply (A (F 0) 0 V0 F0)|lia]; rewrite ?Rabs_R1, ?Rabs_R0; lra.
  - assert (BS : Rabs (sin 1) <= bpow radix2 0) by (apply Rabs_le; pose proof (SIN_bound 1); cbn; lra).
    assert (BC : Rabs (cos 1) <= bpow radix2 0) by (apply Rabs_le; pose proof (COS_bound 1); cbn; lra).
    assert (Ka : (24 <= 53)%Z) by lia. assert (Kb : (3 - 1024 <= 0)%Z) by lia. assert (Kc : (4 - 1024 - 53 <= 0 < 1024)%Z) by lia.
    pose proof (@rnd_err 53 1024 _ Ka (sin 1) 0 Kb BS) as X1. pose proof (@rnd_err 53 1024 _ Ka (cos 1) 0 Kb BC) as X2.
    change (bpow radix2 0) with 1 in X1, X2. rewrite Rmult_1_l in X1, X2.
    cbn [m_sin m_cos cr_libm]. rewrite F1, V1.
    destruct (@cr_bounded 53 1024 _ _ (sin 1) (Bsign (F 1)) 0 Kc BS) as (A1 & _ & E1 & _).
    destruct (@cr_bounded 53 1024 _ _ (cos 1) false 0 Kc BC) as (A2 & _ & E2 & _).
    split; [split; [exact A1|]; rewrite <- E1 in X1; exact X1|]. split; [split; [exact A2|]; rewrite <- E2 in X2; exact X2|].
    pose proof (cos_taylor 1 ltac:(lra)). lra.
Qed.
