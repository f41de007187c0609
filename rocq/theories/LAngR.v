(** Lemmas for C137 and C138: the statements, the correctly rounded library and the refutations. *)

From Coq Require Import List Arith ZArith Bool Lia Reals Lra Psatz.
From Flocq Require Import Core.Core IEEE754.BinarySingleNaN.
From Verif Require Import Base Scalar Spec SpecF SpecDrift SpecRot SpecRotF SpecRigid SpecLook SpecAng SpecLibm SpecCR SpecArc MReal MVector MMatrix MQuat MFloat MFloatVec MSign MComplexF MRotF MTransform MArcF MAngF
  LBase LVector LVectorR LReal LFloat LFloatVec LFloatP LFloatAcc LFloatExP LDriftM LDriftP LRigidF LNormF LLookF LBetw LComplexHP LArc LArcN LArcP LArcQ LArcR LRotFP LTrScF LSlerpS LSlerpW LDegF
  LComplexLP LComplexGP LLibmP LFloatNormP LAng LBetwP LBetwQ LBetwR LAngF LAngG LAngH.
Local Open Scope R_scope.

Lemma c137_euler :
  forall (prec emax : Z) (Hp : Prec_gt_0 prec) (He : Prec_lt_emax prec emax) (L : libm (binary_float prec emax))
    (arccos arcsin : binary_float prec emax -> binary_float prec emax) (r : rotation (binary_float prec emax) 3) (a b c d e : R),
    0 <= d <= / 64 -> ang_lib L arccos arcsin d ->
    - PI <= a <= PI -> - (PI / 2) <= b <= PI / 2 -> - PI <= c <= PI ->
    0 <= e -> 0 < cos b -> 8 * e <= cos b * cos b -> 4 * d <= cos b ->
    (forall j i, (j < 3)%nat -> (i < 3)%nat -> fnear (mget r j i) (vat (euler_turn a b c (axis3 j)) i) e) ->
    let '(x, y, z) := frot3euler_angles L arcsin r in
    fnear_turn x a (d + 2 * e / cos b) /\ fnear y b (d + 5 / 4 * e / cos b) /\ fnear_turn z c (d + 2 * e / cos b).
Proof. intros. eapply euler_near; eassumption. Qed.

Lemma c137_euler_round_trip :
  forall (prec emax : Z) (Hp : Prec_gt_0 prec) (He : Prec_lt_emax prec emax) (L : libm (binary_float prec emax))
    (arccos arcsin : binary_float prec emax -> binary_float prec emax) (ax ay az : binary_float prec emax) (d : R),
    (24 <= prec)%Z -> (34 <= emax)%Z -> 0 <= d <= / 64 -> ang_lib L arccos arcsin d ->
    is_finite ax = true -> is_finite ay = true -> is_finite az = true ->
    Rabs (B2R ax) <= PI -> Rabs (B2R ay) <= PI / 2 -> Rabs (B2R az) <= PI ->
    let s := cos (B2R ay) in let e := 6 * d + 8 * bpow radix2 (- prec) in
    0 < s -> 8 * e <= s * s ->
    let '(x, y, z) := frot3euler_angles L arcsin (frot3from_euler_angles L ax ay az) in
    fnear_turn x (B2R ax) (d + 2 * e / s) /\ fnear y (B2R ay) (d + 5 / 4 * e / s) /\ fnear_turn z (B2R az) (d + 2 * e / s).
Proof.
  intros prec emax Hp He L arccos arcsin ax ay az d H24 H34 Hd HL Fx Fy Fz Bx By Bz s e S0 S.
  pose proof PI_digits as PD. apply Rabs_le_inv in Bx, By, Bz. destruct HL as (HA & HT & HS). pose proof (conj HA (conj HT HS)) as HL.
  assert (E0 : 0 <= e) by (unfold e; pose proof (bpow_gt_0 radix2 (- prec)); lra).
  assert (S1 : s <= 1) by (destruct (COS_bound (B2R ay)); assumption).
  assert (D4 : 4 * d <= s) by (unfold e in S; pose proof (bpow_gt_0 radix2 (- prec)); nra).
  apply (euler_near L arccos arcsin d Hd HL _ (B2R ax) (B2R ay) (B2R az) e); try assumption; try lra.
  destruct (HS ax Fx ltac:(apply Rabs_le; lra)) as (X1 & X2). destruct (HS ay Fy ltac:(apply Rabs_le; lra)) as (Y1 & Y2). destruct (HS az Fz ltac:(apply Rabs_le; lra)) as (Z1 & Z2).
  unfold frot3from_euler_angles. apply (c124_euler prec emax Hp He (m_sin L) (m_cos L) ax ay az _ _ _ d H24 H34); [lra|assumption..].
Qed.

Lemma c137_axis_angle :
  forall (prec emax : Z) (Hp : Prec_gt_0 prec) (He : Prec_lt_emax prec emax) (L : libm (binary_float prec emax))
    (arccos arcsin : binary_float prec emax -> binary_float prec emax) (r : rotation (binary_float prec emax) 3) (a : vec R 3) (t d e : R),
    (24 <= prec)%Z -> (2 * prec + 31 <= emax)%Z -> ang_lib L arccos arcsin d ->
    sum 3 (fun i => vat a i * vat a i) = 1 -> 0 <= t <= PI -> 0 <= e ->
    let u := bpow radix2 (- prec) in let s := sin t in
    0 < s -> 64 * (e + u) <= s * s ->
    (forall j i, (j < 3)%nat -> (i < 3)%nat -> fnear (mget r j i) (vat (rodrigues a t (axis3 j)) i) e) ->
    exists axis angle, frot3axis_angle arccos r = Some (axis, angle) /\
      (forall i, (i < 3)%nat -> fnear (vat axis i) (vat a i) ((7 / 2 * e + 18 * u) / s)) /\ fnear angle t (d + (2 * e + 13 * u) / s).
Proof. intros. eapply axis_angle_near; eassumption. Qed.

Lemma c137_axis_angle_round_trip :
  forall (prec emax : Z) (Hp : Prec_gt_0 prec) (He : Prec_lt_emax prec emax) (L : libm (binary_float prec emax))
    (arccos arcsin : binary_float prec emax -> binary_float prec emax) (axis : vec (binary_float prec emax) 3) (angle : binary_float prec emax) (a : vec R 3) (d : R),
    (24 <= prec)%Z -> (2 * prec + 31 <= emax)%Z -> 0 <= d <= / 64 -> ang_lib L arccos arcsin d ->
    sum 3 (fun i => vat a i * vat a i) = 1 -> (forall i, (i < 3)%nat -> fnear (vat axis i) (vat a i) d) ->
    is_finite angle = true -> 0 <= B2R angle <= PI ->
    let u := bpow radix2 (- prec) in let s := sin (B2R angle) in
    0 < s -> 512 * (d + 2 * u) <= s * s ->
    exists axis' angle', frot3axis_angle arccos (frot3from_axis_angle L axis angle) = Some (axis', angle') /\
      (forall i, (i < 3)%nat -> fnear (vat axis' i) (vat a i) ((28 * d + 71 * u) / s)) /\ fnear angle' (B2R angle) (d + (16 * d + 43 * u) / s).
Proof.
  intros prec emax Hp He L arccos arcsin axis angle a d H24 Hr2 Hd HL Ha NA F B u s S0 S.
  assert (U : 0 < u) by apply bpow_gt_0. pose proof PI_digits as PD. destruct HL as (HA & HT & HS). pose proof (conj HA (conj HT HS)) as HL.
  destruct (HS angle F ltac:(apply Rabs_le; lra)) as (X1 & X2).
  assert (N := c124_axis_angle_matrix prec emax Hp He (m_sin L) (m_cos L) axis angle a (B2R angle) d H24 ltac:(lia) ltac:(lra) Ha NA X1 X2).
  assert (S' : 64 * (8 * d + 15 * u + bpow radix2 (- prec)) <= sin (B2R angle) * sin (B2R angle)) by (fold u; fold s; lra).
  assert (E1 : 0 <= 8 * d + 15 * u) by lra.
  destruct (axis_angle_near H24 Hr2 L arccos arcsin d HL (frot3from_axis_angle L axis angle) a (B2R angle) (8 * d + 15 * u) Ha B E1 S0 S' N) as (x & y & E & Nx & Ny).
  exists x, y. split; [exact E|]. split.
  - intros i Hi. eapply fnear_wk; [apply (Nx i Hi)|]. apply Rmult_le_compat_r; [left; apply Rinv_0_lt_compat; exact S0|]. fold u. lra.
  - eapply fnear_wk; [exact Ny|]. apply Rplus_le_compat_l. apply Rmult_le_compat_r; [left; apply Rinv_0_lt_compat; exact S0|]. fold u. lra.
Qed.

Lemma c137_plane_angle :
  forall (prec emax : Z) (Hp : Prec_gt_0 prec) (He : Prec_lt_emax prec emax) (L : libm (binary_float prec emax))
    (arccos arcsin : binary_float prec emax -> binary_float prec emax) (d : R), 0 <= d <= / 64 -> ang_lib L arccos arcsin d ->
    (forall (r : rotation (binary_float prec emax) 2) (t e : R), 0 <= e <= / 8 -> - PI <= t <= PI ->
      (forall j i, (j < 2)%nat -> (i < 2)%nat -> fnear (mget r j i) (vat (turn2 t (axis2 j)) i) e) ->
      fnear_turn (frot2angle L r) t (d + 2 * e)) /\
    (forall x, is_finite x = true -> Rabs (B2R x) <= PI -> fnear_turn (frot2angle L (frot2from_angle L x)) (B2R x) (3 * d)).
Proof.
  intros prec emax Hp He L arccos arcsin d Hd HL. pose proof (fun r t e => angle2_near L arccos arcsin d Hd HL r t e) as A. split; [exact A|].
  intros x F B. destruct HL as (HA & HT & HS). pose proof PI_digits as PD. destruct (HS x F ltac:(lra)) as (X1 & X2). replace (3 * d) with (d + 2 * d) by ring.
  apply A; [lra|apply Rabs_le_inv in B; lra|].
  exact (proj1 (c124_coordinate_angles prec emax Hp He (m_sin L) (m_cos L) x (B2R x) d ltac:(lra) X1 X2)).
Qed.

Lemma c137_plane_between :
  forall (prec emax : Z) (Hp : Prec_gt_0 prec) (He : Prec_lt_emax prec emax) (k : Z) (L : libm (binary_float prec emax))
    (arccos arcsin : binary_float prec emax -> binary_float prec emax) (v w : vec (binary_float prec emax) 2) (d : R),
    (24 <= prec)%Z -> (2 * prec + 31 <= emax)%Z -> (0 <= k)%Z -> (2 * k + 31 <= emax)%Z -> 0 <= d <= / 64 -> ang_lib L arccos arcsin d ->
    (forall i, (i < 2)%nat -> is_finite (vat v i) = true) -> (forall i, (i < 2)%nat -> is_finite (vat w i) = true) ->
    bpow radix2 (- k) <= rlength 2 (fval v) <= bpow radix2 k -> bpow radix2 (- k) <= rlength 2 (fval w) <= bpow radix2 k ->
    exists t, - PI <= t <= PI /\ turn2 t (dir2 (fval v)) = dir2 (fval w) /\
      forall j i, (j < 2)%nat -> (i < 2)%nat ->
        fnear (mget (frot2rotation_between L v w) j i) (vat (turn2 t (axis2 j)) i) (2 * d + 120 * bpow radix2 (- prec)).
Proof. intros. eapply between2; eassumption. Qed.

Lemma c138_rebuild :
  forall (prec emax : Z) (Hp : Prec_gt_0 prec) (He : Prec_lt_emax prec emax) (L : libm (binary_float prec emax))
    (arccos arcsin : binary_float prec emax -> binary_float prec emax) (r : rotation (binary_float prec emax) 3) (a b c d e : R),
    (24 <= prec)%Z -> (34 <= emax)%Z -> 0 <= d <= / 64 -> ang_lib L arccos arcsin d ->
    - PI <= a <= PI -> - (PI / 2) <= b <= PI / 2 -> - PI <= c <= PI ->
    0 <= e -> 0 < cos b -> 32 * e <= cos b * cos b -> 4 * d <= cos b ->
    (forall j i, (j < 3)%nat -> (i < 3)%nat -> fnear (mget r j i) (vat (euler_turn a b c (axis3 j)) i) e) ->
    let '(x, y, z) := frot3euler_angles L arcsin r in
    let bound := 12 * d + 12 * e / cos b + 8 * bpow radix2 (- prec) in
    forall j i, (j < 3)%nat -> (i < 3)%nat ->
      fnear (mget (frot3from_euler_angles L x y z) j i) (vat (euler_turn a b c (axis3 j)) i) bound /\
      Rabs (B2R (mget (frot3from_euler_angles L x y z) j i) - B2R (mget r j i)) <= bound + e.
Proof. intros. pose proof (rebuild L arccos arcsin d H1 H2 H H0 r a b c e H3 H4 H5 H6 H7 H8 H9 H10) as X. destruct frot3euler_angles as ((x & y) & z). exact X. Qed.

(** * The correctly rounded library *)
Lemma cr_ang (prec emax : Z) (Hp : Prec_gt_0 prec) (He : Prec_lt_emax prec emax) (nb : bool) : (24 <= prec)%Z -> (2 * prec <= emax)%Z ->
  ang_lib (cr_libm nb : libm (binary_float prec emax)) cr_acos cr_asin (bpow radix2 (2 - prec)).
Proof.
  intros H24 He2. pose proof PI_digits as PD.
  assert (U : bpow radix2 (2 - prec) = 4 * bpow radix2 (- prec)) by (unfold Z.sub; rewrite bpow_plus; reflexivity).
  assert (U0 : 0 < bpow radix2 (- prec)) by apply bpow_gt_0.
  assert (R : forall z, Rabs z <= 7 / 2 -> Rabs (round radix2 (FLT_exp (3 - emax - prec) prec) ZnearestE z - z) <= bpow radix2 (2 - prec)).
  { intros z Z. eapply Rle_trans; [apply rnd_rel|]. rewrite U.
    assert (T : bpow radix2 (2 - emax - prec) <= / 2 * bpow radix2 (- prec)).
    { change (/ 2) with (bpow radix2 (-1)). rewrite <- bpow_plus. apply bpow_le. lia. }
    assert (bpow radix2 (- prec) * Rabs z <= bpow radix2 (- prec) * (7 / 2)) by (apply Rmult_le_compat_l; lra). lra. }
  assert (C : forall z b, Rabs z <= 7 / 2 -> fnear (cr z b : binary_float prec emax) z (bpow radix2 (2 - prec))).
  { intros z b Z. destruct (cr_bounded (prec := prec) (emax := emax) z b 2) as (A & _ & E & _); [lia|change (bpow radix2 2) with 4; lra|]. split; [exact A|]. rewrite E. apply R. exact Z. }
  split; [|split].
  - intros x F B. unfold cr_acos, cr_asin. rewrite F. destruct Rle_dec as [_|N]; [|contradiction].
    pose proof (acos_bound (B2R x)) as AB. pose proof (asin_bound (B2R x)) as SB. split; apply C; apply Rabs_le; lra.
  - intros y x Fy Fx N. cbn [m_atan2 cr_libm]. unfold cr_atan2. rewrite (fin_nan y Fy), (fin_nan x Fx). cbn [orb].
    match goal with |- exists phi, _ /\ _ /\ fnear (fset_sign _ ?m) _ _ => assert (M : m = cr (ratan2 (Rabs (B2R y)) (B2R x)) false) end.
    { destruct y as [sy|sy| |sy my ey Hy], x as [sx|sx| |sx mx ex Hx]; try discriminate; try reflexivity. exfalso. cbn [B2R] in N. lra. }
    rewrite M. clear M. set (t := ratan2 (Rabs (B2R y)) (B2R x)). destruct (ratan2_spec (B2R x) (Rabs (B2R y))) as (TC & TS). fold t in TC, TS.
    pose proof (ratan2_range (B2R x) (Rabs (B2R y))) as TR. fold t in TR. set (rho := sqrt _) in *.
    assert (RP : 0 < rho).
    { apply sqrt_lt_R0. rewrite <- Rabs_mult, (Rabs_pos_eq (B2R y * B2R y)) by nra. destruct N as [N|N]; nra. }
    assert (T0 : 0 <= t).
    { destruct (Rle_or_lt 0 t) as [|T]; [assumption|]. pose proof (Rabs_pos (B2R y)) as Y0.
      assert (sin t < 0) by (apply sin_lt_0_var; lra). assert (rho * sin t < 0) by nra. lra. }
    assert (Y : B2R y = if Bsign y then - Rabs (B2R y) else Rabs (B2R y)) by (rewrite <- set_sign_R, set_sign_id; reflexivity).
    exists (if Bsign y then - t else t). split; [destruct (Bsign y); lra|]. split.
    + exists rho. split; [exact RP|]. rewrite Y. destruct (Bsign y); rewrite ?cos_neg, ?sin_neg; split; lra.
    + destruct (C t false ltac:(apply Rabs_le; lra)) as (A & B). split; [rewrite set_sign_fin; exact A|]. rewrite set_sign_R.
      assert (B' : Rabs (Rabs (B2R (cr t false : binary_float prec emax)) - t) <= bpow radix2 (2 - prec)).
      { eapply Rle_trans; [|exact B]. rewrite <- (Rabs_pos_eq t) at 2 by exact T0. apply Rabs_triang_inv2. }
      destruct (Bsign y); [|exact B']. rewrite <- Rabs_Ropp. replace (- (- Rabs (B2R (cr t false : binary_float prec emax)) - - t)) with (Rabs (B2R (cr t false : binary_float prec emax)) - t) by ring. exact B'.
  - intros x F B. cbn [m_sin m_cos cr_libm]. rewrite F. pose proof (SIN_bound (B2R x)) as SB. pose proof (COS_bound (B2R x)) as CB. split; apply C; apply Rabs_le; lra.
Qed.

Lemma cos_half : / 2 <= cos (/ 2).
Proof. pose proof (cos_lip (/ 2) 0) as H. rewrite cos_0 in H. replace (/ 2 - 0) with (/ 2) in H by ring. rewrite (Rabs_pos_eq (/ 2)) in H by lra. apply Rabs_le_inv in H. lra. Qed.
Lemma sin_one : / 2 <= sin 1.
Proof. rewrite <- (Rinv_1 : / 1 = 1). replace (/ 2) with (1 / 2) by field. rewrite <- sin_PI6. pose proof PI_digits. apply sin_incr_1; lra. Qed.
Lemma len2_eq (x : nat -> R) a : 0 <= a -> x 0%nat * x 0%nat + x 1%nat * x 1%nat = a * a -> rlength 2 x = a.
Proof. intros A H. unfold rlength. replace (sum 2 (fun i => x i * x i)) with (a * a) by (rewrite <- H; cbv [sum nadd n0 num_R]; ring). apply sqrt_square. exact A. Qed.

Lemma c137_example :
  let d := bpow radix2 (-51) in let u := bpow radix2 (- (53)) in
  ang_lib (cr_libm true : libm f64) cr_acos cr_asin d /\ 0 <= d <= / 64 /\
  (let ay : f64 := ndiv (f64_of_Z 1) (f64_of_Z 2) in let s := cos (B2R ay) in
   is_finite ay = true /\ Rabs (B2R ay) <= PI / 2 /\ 0 < s /\ 8 * (6 * d + 8 * u) <= s * s) /\
  (let angle : f64 := f64_of_Z 1 in let s := sin (B2R angle) in
   is_finite angle = true /\ 0 <= B2R angle <= PI /\ 0 < s /\ 512 * (d + 2 * u) <= s * s) /\
  (let axis : vec f64 3 := v3 (ndiv (f64_of_Z 3) (f64_of_Z 5)) (ndiv (f64_of_Z 4) (f64_of_Z 5)) n0 in let a : vec R 3 := v3 (3 / 5) (4 / 5) 0 in
   sum 3 (fun i => vat a i * vat a i) = 1 /\ forall i, (i < 3)%nat -> fnear (vat axis i) (vat a i) d) /\
  (let v : vec f64 2 := v2 (f64_of_Z 3) (f64_of_Z (-4)) in
   (forall i, (i < 2)%nat -> is_finite (vat v i) = true) /\ rlength 2 (fval v) = 5).
Proof.
  intros d u. assert (U : u = / 9007199254740992) by reflexivity. assert (D : d = 4 / 9007199254740992) by (unfold d; change (bpow radix2 (-51)) with (/ 2251799813685248); lra).
  pose proof PI_digits as PD.
  split; [apply (cr_ang 53 1024); lia|]. split; [rewrite D; lra|]. split; [|split; [|split]].
  - intros ay s.
    assert (E : ay = @B754_finite 53 1024 false 4503599627370496 (-53) eq_refl) by (apply B2SF_inj; vm_compute; reflexivity).
    assert (V : B2R ay = / 2).
    { rewrite E. unfold B2R, F2R; cbn -[IZR bpow]. change (bpow radix2 (-53)) with (/ 9007199254740992). lra. }
    split; [rewrite E; reflexivity|]. unfold s. rewrite V. pose proof cos_half as C. split; [rewrite Rabs_pos_eq; lra|]. split; [lra|]. rewrite D, U. nra.
  - intros angle s. destruct (f64_of_Z_exact 1 ltac:(lia)) as (V & F). unfold s. unfold angle. rewrite V. split; [exact F|]. pose proof sin_one as C. split; [lra|]. split; [lra|]. rewrite D, U. nra.
  - destruct c124_example as (A & B & _). split; [exact A|]. intros i Hi. eapply fnear_wk; [apply B; exact Hi|]. unfold d. apply bpow_le. lia.
  - intros v. assert (V0 : fval v 0%nat = 3) by exact (zval 3 eq_refl). assert (V1 : fval v 1%nat = -4) by exact (zval (-4) eq_refl).
    split; [intros i Hi; destruct i as [|[|i]]; [| |lia]; vm_compute; reflexivity|]. apply len2_eq; [lra|]. rewrite V0, V1. ring.
Qed.

(** * The refutations *)
(** The exact rotation by the Euler angles [PI / 2], [PI / 2] and [0], and its columns. *)
Definition gimbal_lock : rotation f64 3 := m3new (n0 : f64) n1 n0  n0 n0 n1  n1 n0 n0.
Lemma gimbal_exact : forall j i, (j < 3)%nat -> (i < 3)%nat -> B2R (mget gimbal_lock j i) = vat (euler_turn (PI / 2) (PI / 2) 0 (axis3 j)) i.
Proof.
  intros j i Hj Hi. assert (O : B2R (n1 : f64) = 1) by apply Bone_correct.
  destruct j as [|[|[|j]]]; [| | |lia]; (destruct i as [|[|[|i]]]; [| | |lia]);
    (match goal with |- B2R ?m = _ => first [change (B2R m) with 0 | change m with (n1 : f64); rewrite O] end);
    cbv [euler_turn rodrigues axis3 delta Nat.eqb sum vat vget fst snd v3 nadd nmul n0 n1 num_R]; rewrite ?sin_PI2, ?cos_PI2, ?sin_0, ?cos_0; ring.
Qed.

Lemma c138_gimbal :
  exists r : rotation f64 3,
    (forall j i, (j < 3)%nat -> (i < 3)%nat -> is_finite (mget r j i) = true /\ B2R (mget r j i) = vat (euler_turn (PI / 2) (PI / 2) 0 (axis3 j)) i) /\
    forall (L : libm f64) (arccos arcsin : f64 -> f64) (d : R),
      0 <= d <= / 64 -> ang_lib L arccos arcsin d -> libm_special L -> libm_symmetric L -> B2R (m_cos L (arcsin n1)) <> 0 ->
      let '(x, y, z) := frot3euler_angles L arcsin r in
      3 / 4 <= Rabs (B2R (mget (frot3from_euler_angles L x y z) 0 1) - B2R (mget r 0 1)).
Proof.
  exists gimbal_lock. split.
  { intros j i Hj Hi. split; [|apply gimbal_exact; assumption]. destruct j as [|[|[|j]]]; [| | |lia]; (destruct i as [|[|[|i]]]; [| | |lia]); reflexivity. }
  intros L arccos arcsin d Hd HL SP SY NZ. destruct HL as (HA & HT & HS). pose proof PI_digits as PD.
  assert (O : B2R (n1 : f64) = 1) by apply Bone_correct. assert (FO : is_finite (n1 : f64) = true) by reflexivity.
  assert (O1 : Rabs (B2R (n1 : f64)) <= 1) by (rewrite O, Rabs_R1; lra).
  destruct (HA (n1 : f64) FO O1) as (_ & (FY & EY)). rewrite O, asin_1 in EY. apply Rabs_le_inv in EY.
  assert (T : m_atan2 L (nneg (n0 : f64)) n0 = nneg (n0 : f64)) by (rewrite (sym_atan2 L SY); f_equal; apply (sp_atan2_0 L SP)).
  assert (E : frot3euler_angles L arcsin gimbal_lock = (nneg n0, arcsin n1, nneg n0)).
  { unfold frot3euler_angles. cbv zeta. change (mget gimbal_lock 2 0) with (n1 : f64).
    change (mget gimbal_lock 2 1) with (n0 : f64). change (mget gimbal_lock 2 2) with (n0 : f64). change (mget gimbal_lock 1 0) with (n0 : f64). change (mget gimbal_lock 0 0) with (n0 : f64).
    replace (nis0 (fabs (m_cos L (arcsin n1)))) with false; [exact (f_equal2 (fun p q : f64 => (p, arcsin n1, q)) T T)|]. symmetry. revert NZ. generalize (m_cos L (arcsin (n1 : f64))). intros f NZ.
    destruct f as [s|s| |s m e H]; try reflexivity. exfalso. apply NZ. reflexivity. }
  rewrite E. change (mget gimbal_lock 0 1) with (n1 : f64). rewrite O. set (nz := nneg (n0 : f64)).
  assert (FZ : is_finite nz = true) by reflexivity. assert (VZ : B2R nz = 0) by reflexivity.
  destruct (HS nz FZ ltac:(rewrite VZ, Rabs_R0; lra)) as (S1 & C1). destruct (HS (arcsin n1) FY ltac:(apply Rabs_le; lra)) as (S2 & C2). rewrite VZ in S1, C1.
  destruct (c124_euler 53 1024 _ _ (m_sin L) (m_cos L) nz (arcsin n1) nz 0 (B2R (arcsin n1)) 0 d ltac:(lia) ltac:(lia) ltac:(lra) S1 C1 S2 C2 S1 C1 0%nat 1%nat ltac:(lia) ltac:(lia)) as (_ & Q).
  assert (V : vat (euler_turn 0 (B2R (arcsin n1)) 0 (axis3 0)) 1 = 0).
  { cbv [euler_turn rodrigues axis3 delta Nat.eqb sum vat vget fst snd v3 nadd nmul n0 n1 num_R]. rewrite sin_0, cos_0. ring. }
  rewrite V in Q. assert (G : forall q, Rabs (q - 0) <= 6 * d + 8 * bpow radix2 (- (53)) -> 3 / 4 <= Rabs (q - 1)).
  { intros q B. change (bpow radix2 (- (53))) with (/ 9007199254740992) in B. apply Rabs_le_inv in B. rewrite Rabs_left; lra. }
  exact (G _ Q).
Qed.

(** The correctly rounded library: the arc sine of 1 is less than [PI / 2], so its cosine is not 0. *)
Lemma round_half_pi : round radix2 (FLT_exp (3 - 1024 - 53) 53) ZnearestE (PI / 2) = 7074237752028440 / 4503599627370496.
Proof.
  pose proof PI_digits as PD. assert (M : mag radix2 (PI / 2) = 1%Z :> Z).
  { apply mag_unique. rewrite Rabs_pos_eq by lra. change (bpow radix2 (1 - 1)) with 1. change (bpow radix2 1) with 2. lra. }
  unfold round, scaled_mantissa, cexp. rewrite M. change (FLT_exp (3 - 1024 - 53) 53 1) with (-52)%Z. change (bpow radix2 (- -52)) with 4503599627370496.
  rewrite (Znearest_imp _ _ 7074237752028440).
  - unfold F2R. cbn [Fnum Fexp]. change (bpow radix2 (-52)) with (/ 4503599627370496). reflexivity.
  - apply Rabs_def1; lra.
Qed.
Lemma c138_library :
  let L : libm f64 := cr_libm true in let d := bpow radix2 (-51) in
  0 <= d <= / 64 /\ ang_lib L cr_acos cr_asin d /\ libm_special L /\ libm_symmetric L /\ B2R (m_cos L (cr_asin (n1 : f64))) <> 0.
Proof.
  intros L d. split; [unfold d; change (bpow radix2 (-51)) with (/ 2251799813685248); lra|]. split; [apply (cr_ang 53 1024); lia|]. split; [apply cr_special; lia|]. split; [apply cr_symmetric|].
  assert (O : B2R (n1 : f64) = 1) by apply Bone_correct. pose proof PI_digits as PD.
  unfold cr_asin. change (is_finite (n1 : f64)) with true. cbv iota. rewrite O. destruct Rle_dec as [_|N]; [|rewrite Rabs_R1 in N; lra]. rewrite asin_1.
  destruct (cr_bounded (prec := 53) (emax := 1024) (PI / 2) (Bsign (n1 : f64)) 1) as (F & _ & V & _); [lia|rewrite Rabs_pos_eq by lra; change (bpow radix2 1) with 2; lra|].
  rewrite round_half_pi in V. cbn [m_cos cr_libm L]. set (y := cr (PI / 2) _) in *. change (B2R y = 7074237752028440 / 4503599627370496) in V. change (is_finite (y : f64) = true) in F. rewrite F, V.
  set (t := 7074237752028440 / 4503599627370496). pose proof (COS_bound t) as CB.
  destruct (cr_bounded (prec := 53) (emax := 1024) (cos t) false 0) as (_ & _ & W & _); [lia|apply Rabs_le; cbn; lra|].
  change (B2R (cr (cos t) false : f64) <> 0). intros Z. change (B2R (cr (cos t) false : f64) = round radix2 (FLT_exp (3 - 1024 - 53) 53) ZnearestE (cos t)) in W. rewrite Z in W.
  assert (B : bpow radix2 (-60) <= cos t).
  { replace t with (PI / 2 - (PI / 2 - t)) by ring. rewrite Rtrigo1.cos_shift. change (bpow radix2 (-60)) with (/ 1152921504606846976).
    assert (T : / 100000000000000000 <= PI / 2 - t <= 1) by (unfold t; lra). set (x := PI / 2 - t) in *.
    pose proof (LSlerp.sin_lower x ltac:(lra)) as X. assert (C : 0 <= cos x) by (apply cos_ge_0; lra). nra. }
  assert (G : bpow radix2 (-60) <= round radix2 (FLT_exp (3 - 1024 - 53) 53) ZnearestE (cos t)).
  { apply round_ge_generic; [auto with typeclass_instances..| |exact B]. apply generic_format_bpow. cbn. lia. }
  rewrite <- W in G. pose proof (bpow_gt_0 radix2 (-60)). lra.
Qed.

(** [Matrix2x2::rotation_between] of a vector and itself. *)
Lemma m2between_nan (prec emax : Z) (Hp : Prec_gt_0 prec) (He : Prec_lt_emax prec emax) (L : libm (binary_float prec emax)) (arccos arcsin : binary_float prec emax -> binary_float prec emax) (v : vec (binary_float prec emax) 2) : libm_arc L arccos arcsin -> libm_symmetric L ->
  fvtry_unit v n0 = Some (fvnormalize v) ->
  fsqrt (nsub n1 (nmul (vdot (fvnormalize v) (fvnormalize v)) (vdot (fvnormalize v) (fvnormalize v)))) = B754_nan ->
  forall j i, (j < 2)%nat -> (i < 2)%nat -> mget (fm2rotation_between L v v) j i = B754_nan.
Proof.
  intros LA SY T S j i Hj Hi. unfold fm2rotation_between. rewrite T. unfold fm2rotation_between_axis. cbv zeta.
  set (c := vdot (fvnormalize v) (fvnormalize v)) in *. change (fsqrt (nsub n1 (nmul c c)) = (B754_nan : binary_float prec emax)) in S.
  assert (A : m_atan2 L (B754_nan : binary_float prec emax) c = B754_nan) by exact (atan2_nan L SY c).
  match goal with |- context [gm2from_angle _ _ ?a] => replace a with (B754_nan : binary_float prec emax) by (rewrite <- A; f_equal; symmetry; exact S) end.
  pose proof (arc_sin_nan L arccos arcsin LA) as SN. pose proof (arc_cos_nan L arccos arcsin LA) as CN.
  assert (SN' : nneg (m_sin L (B754_nan : binary_float prec emax)) = B754_nan) by (rewrite SN; reflexivity).
  destruct j as [|[|j]]; [| |lia]; (destruct i as [|[|i]]; [| |lia]); first [exact CN|exact SN|exact SN'].
Qed.
Lemma c126_plane_refuted : forall (L : libm f64) (arccos arcsin : f64 -> f64), libm_arc L arccos arcsin -> libm_symmetric L ->
  exists v : vec f64 2, all_finite v /\ fval v 0%nat = 3 /\ fval v 1%nat = 4 /\
    forall j i, (j < 2)%nat -> (i < 2)%nat -> mget (fm2rotation_between L v v) j i = B754_nan.
Proof.
  intros L arccos arcsin LA SY. exists (v2 (f64_of_Z 3) (f64_of_Z 4)).
  split; [intros i Hi; destruct i as [|[|i]]; [| |lia]; vm_compute; reflexivity|]. split; [exact (zval 3 eq_refl)|]. split; [exact (zval 4 eq_refl)|].
  apply (m2between_nan 53 1024 _ _ L arccos arcsin _ LA SY).
  - unfold fvtry_unit. cbv zeta. match goal with |- (if ?b then _ else _) = _ => replace b with true by (vm_compute; reflexivity) end. reflexivity.
  - vm_compute. reflexivity.
Qed.
