(** Lemmas for C135 and C136: the statements, and the correctly rounded library. *)

From Coq Require Import List Arith ZArith Bool Lia Reals Lra Psatz.
From Flocq Require Import Core.Core IEEE754.BinarySingleNaN.
From Verif Require Import Base Scalar Spec SpecF SpecDrift SpecRot SpecRotF SpecRigid SpecLook SpecBetw SpecLibm SpecCR SpecArc MVector MMatrix MQuat MFloat MFloatVec MSign MComplexF MRotF MTransform MArcF
  LBase LVector LVectorR LFloat LFloatVec LFloatP LFloatAcc LFloatExP LDriftM LDriftP LRigidF LNormF LLookF LBetw LComplexHP LArc LArcN LArcP LArcQ LRotFP LTrScF LSlerpS LSlerpW LDegF
  LComplexLP LLibmP LFloatNormP LBetwF LBetwP LBetwQ.
Local Open Scope R_scope.

Lemma c135_quaternion :
  forall (prec emax : Z) (Hp : Prec_gt_0 prec) (He : Prec_lt_emax prec emax) (k : Z) (L : libm (binary_float prec emax))
    (arccos : binary_float prec emax -> binary_float prec emax) (v w : vec (binary_float prec emax) 3) (d : R),
    (24 <= prec)%Z -> (2 * prec + 31 <= emax)%Z -> (0 <= k)%Z -> (2 * k + 31 <= emax)%Z ->
    (forall i, (i < 3)%nat -> is_finite (vat v i) = true) -> (forall i, (i < 3)%nat -> is_finite (vat w i) = true) ->
    bpow radix2 (- k) <= rlength 3 (fval v) <= bpow radix2 k -> bpow radix2 (- k) <= rlength 3 (fval w) <= bpow radix2 k ->
    0 <= d <= / 256 -> turn_lib L arccos d ->
    let u := bpow radix2 (- prec) in let s := rsine (fval v) (fval w) in let t := turn_angle (fval v) (fval w) in
    512 * u <= s * s ->
    exists q : quat (binary_float prec emax), fqrotation_between L arccos v w = Some q /\
      fnear (vat (q : vec _ 4) 0) (cos (t / 2)) (6 * d + 350 * u / s) /\
      forall i, (i < 3)%nat -> fnear (vat (q : vec _ 4) (S i)) (sin (t / 2) * vat (turn_axis (fval v) (fval w)) i) (6 * d + 350 * u / s).
Proof. intros. eapply apart_q; eassumption. Qed.

Lemma c135_rotation :
  forall (prec emax : Z) (Hp : Prec_gt_0 prec) (He : Prec_lt_emax prec emax) (k : Z) (L : libm (binary_float prec emax))
    (arccos : binary_float prec emax -> binary_float prec emax) (v w : vec (binary_float prec emax) 3) (d : R),
    (24 <= prec)%Z -> (2 * prec + 31 <= emax)%Z -> (0 <= k)%Z -> (2 * k + 31 <= emax)%Z ->
    (forall i, (i < 3)%nat -> is_finite (vat v i) = true) -> (forall i, (i < 3)%nat -> is_finite (vat w i) = true) ->
    bpow radix2 (- k) <= rlength 3 (fval v) <= bpow radix2 k -> bpow radix2 (- k) <= rlength 3 (fval w) <= bpow radix2 k ->
    0 <= d <= / 256 -> turn_lib L arccos d ->
    let u := bpow radix2 (- prec) in let s := rsine (fval v) (fval w) in let e := 72 * d + 4280 * u / s in
    512 * u <= s * s ->
    exists r, frot3rotation_between L arccos v w = Some r /\
      (forall j i, (j < 3)%nat -> (i < 3)%nat ->
        fnear (mget r j i) (vat (rodrigues (turn_axis (fval v) (fval w)) (turn_angle (fval v) (fval w)) (axis3 j)) i) e) /\
      (forall i, (i < 3)%nat -> Rabs (rdot (fun j => B2R (mget r j i)) (rdir (fval v)) - rdir (fval w) i) <= 7 / 4 * e).
Proof.
  intros prec emax Hp He k L arccos v w d H24 Hr2 Hk Hr Fv Fw HV HW Hd HL u s e Hs.
  destruct (apart_r prec emax Hp He k L arccos v w d H24 Hr2 Hk Hr Fv Fw HV HW Hd HL Hs) as (r & E & N). exists r. split; [exact E|]. split; [exact N|].
  destruct (s_big prec emax Hp He k v w H24 HV HW Hs) as (S & B). assert (U : 0 < u) by apply bpow_gt_0.
  assert (P : 0 < 4280 * u / s) by (apply Rdiv_lt_0_compat; [lra|exact S]).
  assert (E0 : 0 <= e) by (unfold e; lra).
  exact (rod_image prec emax Hp He k v w HV HW r e E0 S N).
Qed.

Lemma c135_matrix :
  forall (prec emax : Z) (Hp : Prec_gt_0 prec) (He : Prec_lt_emax prec emax) (k : Z) (L : libm (binary_float prec emax))
    (arccos : binary_float prec emax -> binary_float prec emax) (v w : vec (binary_float prec emax) 3) (d : R),
    (24 <= prec)%Z -> (2 * prec + 31 <= emax)%Z -> (0 <= k)%Z -> (2 * k + 31 <= emax)%Z ->
    (forall i, (i < 3)%nat -> is_finite (vat v i) = true) -> (forall i, (i < 3)%nat -> is_finite (vat w i) = true) ->
    bpow radix2 (- k) <= rlength 3 (fval v) <= bpow radix2 k -> bpow radix2 (- k) <= rlength 3 (fval w) <= bpow radix2 k ->
    0 <= d <= / 256 -> turn_lib L arccos d ->
    let u := bpow radix2 (- prec) in let s := rsine (fval v) (fval w) in let e := 16 * d + 943 * u / s in
    512 * u <= s * s ->
    exists m, fm3rotation_between L arccos v w = Some m /\
      (forall j i, (j < 3)%nat -> (i < 3)%nat ->
        fnear (mget m j i) (vat (rodrigues (turn_axis (fval v) (fval w)) (turn_angle (fval v) (fval w)) (axis3 j)) i) e) /\
      (forall i, (i < 3)%nat -> Rabs (rdot (fun j => B2R (mget m j i)) (rdir (fval v)) - rdir (fval w) i) <= 7 / 4 * e).
Proof.
  intros prec emax Hp He k L arccos v w d H24 Hr2 Hk Hr Fv Fw HV HW Hd HL u s e Hs.
  destruct (apart_m prec emax Hp He k L arccos v w d H24 Hr2 Hk Hr Fv Fw HV HW Hd HL Hs) as (r & E & N). exists r. split; [exact E|]. split; [exact N|].
  destruct (s_big prec emax Hp He k v w H24 HV HW Hs) as (S & B). assert (U : 0 < u) by apply bpow_gt_0.
  assert (P : 0 < 943 * u / s) by (apply Rdiv_lt_0_compat; [lra|exact S]).
  assert (E0 : 0 <= e) by (unfold e; lra).
  exact (rod_image prec emax Hp He k v w HV HW r e E0 S N).
Qed.

Lemma c135_nearly_parallel :
  forall (prec emax : Z) (Hp : Prec_gt_0 prec) (He : Prec_lt_emax prec emax) (k : Z) (L : libm (binary_float prec emax))
    (arccos : binary_float prec emax -> binary_float prec emax) (v w : vec (binary_float prec emax) 3) (d : R),
    (24 <= prec)%Z -> (2 * prec + 31 <= emax)%Z -> (0 <= k)%Z -> (2 * k + 31 <= emax)%Z ->
    (forall i, (i < 3)%nat -> is_finite (vat v i) = true) -> (forall i, (i < 3)%nat -> is_finite (vat w i) = true) ->
    bpow radix2 (- k) <= rlength 3 (fval v) <= bpow radix2 k -> bpow radix2 (- k) <= rlength 3 (fval w) <= bpow radix2 k ->
    0 <= d <= / 256 -> turn_lib L arccos d ->
    let u := bpow radix2 (- prec) in
    0 < rcosine (fval v) (fval w) -> rsine (fval v) (fval w) * rsine (fval v) (fval w) <= 512 * u ->
    exists q : quat (binary_float prec emax), fqrotation_between L arccos v w = Some q /\
      (forall i, (i < 4)%nat -> fnear (vat (q : vec _ 4) i) (delta i 0) (30 * sqrt u + 4 * d)) /\
      rlength 3 (fun i => rdir (fval w) i - rdir (fval v) i) <= 23 * sqrt u.
Proof. intros. eapply par_q; eassumption. Qed.

Lemma c136_image :
  forall (prec emax : Z) (Hp : Prec_gt_0 prec) (He : Prec_lt_emax prec emax) (k : Z) (L : libm (binary_float prec emax))
    (arccos : binary_float prec emax -> binary_float prec emax) (v w : vec (binary_float prec emax) 3) (d : R),
    (24 <= prec)%Z -> (2 * prec + 31 <= emax)%Z -> (0 <= k)%Z -> (2 * k + 31 <= emax)%Z ->
    (forall i, (i < 3)%nat -> is_finite (vat v i) = true) -> (forall i, (i < 3)%nat -> is_finite (vat w i) = true) ->
    bpow radix2 (- k) <= rlength 3 (fval v) <= bpow radix2 k -> bpow radix2 (- k) <= rlength 3 (fval w) <= bpow radix2 k ->
    0 <= d <= / 256 -> turn_lib L arccos d ->
    let u := bpow radix2 (- prec) in
    0 < rcosine (fval v) (fval w) \/ 512 * u <= rsine (fval v) (fval w) * rsine (fval v) (fval w) ->
    exists r, frot3rotation_between L arccos v w = Some r /\
      forall i, (i < 3)%nat -> Rabs (rdot (fun j => B2R (mget r j i)) (rdir (fval v)) - rdir (fval w) i) <= 130 * d + 700 * sqrt u.
Proof. intros. eapply image; eassumption. Qed.

(** * The correctly rounded library *)
Lemma cr_turn (prec emax : Z) (Hp : Prec_gt_0 prec) (He : Prec_lt_emax prec emax) (nb : bool) : (24 <= prec)%Z -> (2 * prec <= emax)%Z ->
  turn_lib (cr_libm nb : libm (binary_float prec emax)) cr_acos (bpow radix2 (2 - prec)).
Proof.
  intros H24 He2. pose proof PI_4 as PB.
  assert (U : bpow radix2 (2 - prec) = 4 * bpow radix2 (- prec)) by (unfold Z.sub; rewrite bpow_plus; reflexivity).
  assert (U0 : 0 < bpow radix2 (- prec)) by apply bpow_gt_0.
  assert (R : forall z, Rabs z <= 7 / 2 -> Rabs (round radix2 (FLT_exp (3 - emax - prec) prec) ZnearestE z - z) <= bpow radix2 (2 - prec)).
  { intros z Z. eapply Rle_trans; [apply rnd_rel|]. rewrite U.
    assert (T : bpow radix2 (2 - emax - prec) <= / 2 * bpow radix2 (- prec)).
    { change (/ 2) with (bpow radix2 (-1)). rewrite <- bpow_plus. apply bpow_le. lia. }
    assert (bpow radix2 (- prec) * Rabs z <= bpow radix2 (- prec) * (7 / 2)) by (apply Rmult_le_compat_l; lra). lra. }
  split.
  - intros x F B. unfold cr_acos. rewrite F. destruct Rle_dec as [_|N]; [|contradiction]. pose proof (acos_bound (B2R x)) as AB. pose proof PI_digits as PD.
    destruct (cr_bounded (acos (B2R x)) false 2) as (A & _ & E & _); [lia|rewrite Rabs_pos_eq by lra; change (bpow radix2 2) with 4; lra|].
    split; [exact A|]. rewrite E. apply R. rewrite Rabs_pos_eq by lra. lra.
  - intros x F B. cbn [m_sin m_cos cr_libm]. rewrite F. pose proof (SIN_bound (B2R x)) as SB. pose proof (COS_bound (B2R x)) as CB.
    destruct (cr_bounded (sin (B2R x)) (Bsign x) 0) as (A1 & _ & E1 & _); [lia|apply Rabs_le; cbn; lra|].
    destruct (cr_bounded (cos (B2R x)) false 0) as (A2 & _ & E2 & _); [lia|apply Rabs_le; cbn; lra|].
    split; (split; [assumption|]); [rewrite E1|rewrite E2]; apply R; apply Rabs_le; lra.
Qed.

Lemma len3_eq (x : nat -> R) m : 0 <= m -> x 0%nat * x 0%nat + x 1%nat * x 1%nat + x 2%nat * x 2%nat = m * m -> rlength 3 x = m.
Proof. intros M H. apply Rle_antisym; [apply len3_le|apply len3_ge]; lra. Qed.
Definition ev : vec f64 3 := v3 (f64_of_Z 1) (f64_of_Z 2) (f64_of_Z 2).
Definition ew : vec f64 3 := v3 (f64_of_Z 2) (f64_of_Z (-1)) (f64_of_Z 2).
Lemma c135_example :
  turn_lib (cr_libm true : libm f64) cr_acos (bpow radix2 (-51)) /\
  let v : vec f64 3 := v3 (f64_of_Z 1) (f64_of_Z 2) (f64_of_Z 2) in let w : vec f64 3 := v3 (f64_of_Z 2) (f64_of_Z (-1)) (f64_of_Z 2) in
  (forall i, (i < 3)%nat -> is_finite (vat v i) = true) /\ (forall i, (i < 3)%nat -> is_finite (vat w i) = true) /\
  rlength 3 (fval v) = 3 /\ rlength 3 (fval w) = 3 /\ rcosine (fval v) (fval w) = 4 / 9 /\
  rsine (fval v) (fval w) * rsine (fval v) (fval w) = 65 / 81.
Proof.
  split; [apply (cr_turn 53 1024); lia|]. intros v w.
  assert (V0 : fval v 0%nat = 1) by exact (zval 1 eq_refl). assert (V1 : fval v 1%nat = 2) by exact (zval 2 eq_refl). assert (V2 : fval v 2%nat = 2) by exact (zval 2 eq_refl).
  assert (W0 : fval w 0%nat = 2) by exact (zval 2 eq_refl). assert (W1 : fval w 1%nat = -1) by exact (zval (-1) eq_refl). assert (W2 : fval w 2%nat = 2) by exact (zval 2 eq_refl).
  assert (LV : rlength 3 (fval v) = 3) by (apply len3_eq; [lra|rewrite V0, V1, V2; ring]).
  assert (LW : rlength 3 (fval w) = 3) by (apply len3_eq; [lra|rewrite W0, W1, W2; ring]).
  split; [intros i Hi; destruct i as [|[|[|i]]]; [| | |lia]; vm_compute; reflexivity|].
  split; [intros i Hi; destruct i as [|[|[|i]]]; [| | |lia]; vm_compute; reflexivity|].
  split; [exact LV|]. split; [exact LW|]. split.
  - unfold rcosine. rewrite LV, LW, rdot3, V0, V1, V2, W0, W1, W2. field.
  - unfold rsine. rewrite LV, LW.
    assert (LC : rlength 3 (rcross (fval v) (fval w)) * rlength 3 (rcross (fval v) (fval w)) = 65).
    { change (rlength 3 (rcross (fval v) (fval w))) with (fnrm 3 (rcross (fval v) (fval w))). rewrite len_sq, rdot3. unfold rcross. rewrite V0, V1, V2, W0, W1, W2. ring. }
    replace (rlength 3 (rcross (fval v) (fval w)) / (3 * 3) * (rlength 3 (rcross (fval v) (fval w)) / (3 * 3)))
      with (rlength 3 (rcross (fval v) (fval w)) * rlength 3 (rcross (fval v) (fval w)) / 81) by field. rewrite LC. reflexivity.
Qed.
Lemma c135_parallel_example :
  let v : vec f64 3 := v3 (f64_of_Z (2 ^ 27)) (f64_of_Z 0) (f64_of_Z 0) in let w : vec f64 3 := v3 (f64_of_Z (2 ^ 27)) (f64_of_Z 1) (f64_of_Z 0) in
  (forall i, (i < 3)%nat -> is_finite (vat v i) = true) /\ (forall i, (i < 3)%nat -> is_finite (vat w i) = true) /\
  bpow radix2 (- (28)) <= rlength 3 (fval v) <= bpow radix2 28 /\ bpow radix2 (- (28)) <= rlength 3 (fval w) <= bpow radix2 28 /\
  0 < rcosine (fval v) (fval w) /\ rsine (fval v) (fval w) * rsine (fval v) (fval w) <= 512 * bpow radix2 (- (53)).
Proof.
  intros v w.
  assert (V0 : fval v 0%nat = IZR (2 ^ 27)) by exact (zval (2 ^ 27) eq_refl). assert (V1 : fval v 1%nat = 0) by exact (zval 0 eq_refl). assert (V2 : fval v 2%nat = 0) by exact (zval 0 eq_refl).
  assert (W0 : fval w 0%nat = IZR (2 ^ 27)) by exact (zval (2 ^ 27) eq_refl). assert (W1 : fval w 1%nat = 1) by exact (zval 1 eq_refl). assert (W2 : fval w 2%nat = 0) by exact (zval 0 eq_refl).
  set (x := IZR (2 ^ 27)) in *. assert (X : 1 <= x) by (apply IZR_le; lia).
  assert (B28 : bpow radix2 28 = 2 * x) by (change (bpow radix2 28) with (IZR (2 ^ 28)); unfold x; rewrite <- mult_IZR; reflexivity).
  assert (B1 : bpow radix2 (- (28)) <= 1) by (change 1 with (bpow radix2 0); apply bpow_le; lia).
  assert (LV : rlength 3 (fval v) = x) by (apply len3_eq; [lra|rewrite V0, V1, V2; ring]).
  assert (LW : x <= rlength 3 (fval w) <= 2 * x) by (split; [apply len3_ge|apply len3_le]; try lra; rewrite W0, W1, W2; nra).
  split; [intros i Hi; destruct i as [|[|[|i]]]; [| | |lia]; vm_compute; reflexivity|].
  split; [intros i Hi; destruct i as [|[|[|i]]]; [| | |lia]; vm_compute; reflexivity|].
  rewrite B28, LV. split; [lra|]. split; [lra|]. set (lw := rlength 3 (fval w)) in *. split.
  - unfold rcosine. rewrite LV, rdot3, V0, V1, V2, W0, W1, W2. fold lw. apply Rdiv_lt_0_compat; nra.
  - unfold rsine. rewrite LV. fold lw.
    assert (LC : rlength 3 (rcross (fval v) (fval w)) = x) by (apply len3_eq; [lra|unfold rcross; rewrite V0, V1, V2, W0, W1, W2; ring]). rewrite LC.
    replace (x / (x * lw)) with (/ lw) by (field; lra).
    assert (IL : / lw <= / x) by (apply Rinv_le_contravar; lra). assert (I0 : 0 < / lw) by (apply Rinv_0_lt_compat; lra).
    apply Rle_trans with (/ x * / x); [apply Rmult_le_compat; lra|].
    unfold x. change (/ IZR (2 ^ 27)) with (bpow radix2 (- 27)). rewrite <- bpow_plus. apply Rle_trans with (1 * bpow radix2 (- (53))).
    + rewrite Rmult_1_l. apply bpow_le. lia.
    + apply Rmult_le_compat_r; [apply bpow_ge_0|lra].
Qed.

(** * The refutations *)
Lemma c136_opposite :
  exists v w : vec f64 3,
    (forall i, (i < 3)%nat -> is_finite (vat v i) = true) /\ (forall i, (i < 3)%nat -> is_finite (vat w i) = true) /\
    bpow radix2 (- (54)) <= rlength 3 (fval v) <= bpow radix2 54 /\ bpow radix2 (- (54)) <= rlength 3 (fval w) <= bpow radix2 54 /\
    forall (L : libm f64) (arccos : f64 -> f64), turn_lib L arccos (/ 256) ->
    exists q : quat f64, fqrotation_between L arccos v w = Some q /\
      let val : rquat := (B2R (vat (q : vec f64 4) 0), B2R (vat (q : vec f64 4) 1), B2R (vat (q : vec f64 4) 2), B2R (vat (q : vec f64 4) 3)) in
      2 / 5 <= rlength 3 (fun i => vat (qsandwich val (vdir (fval v))) i - rdir (fval w) i).
Proof.
  exists (v3 (f64_of_Z 7) (f64_of_Z 13) (f64_of_Z 8)), (v3 (f64_of_Z (- (7 * 2 ^ 49 + 3))) (f64_of_Z (- (13 * 2 ^ 49))) (f64_of_Z (- (2 ^ 52)))).
  set (v := v3 (f64_of_Z 7) (f64_of_Z 13) (f64_of_Z 8) : vec f64 3). set (w := v3 (f64_of_Z (- (7 * 2 ^ 49 + 3))) (f64_of_Z (- (13 * 2 ^ 49))) (f64_of_Z (- (2 ^ 52))) : vec f64 3).
  assert (V0 : fval v 0%nat = 7) by exact (zval 7 eq_refl). assert (V1 : fval v 1%nat = 13) by exact (zval 13 eq_refl). assert (V2 : fval v 2%nat = 8) by exact (zval 8 eq_refl).
  assert (W0 : fval w 0%nat = IZR (- (7 * 2 ^ 49 + 3))) by exact (zval (- (7 * 2 ^ 49 + 3)) eq_refl). assert (W1 : fval w 1%nat = IZR (- (13 * 2 ^ 49))) by exact (zval (- (13 * 2 ^ 49)) eq_refl).
  assert (W2 : fval w 2%nat = IZR (- (2 ^ 52))) by exact (zval (- (2 ^ 52)) eq_refl).
  assert (B1 : bpow radix2 (- (54)) <= 1) by (change 1 with (bpow radix2 0); apply bpow_le; lia).
  split; [intros i Hi; destruct i as [|[|[|i]]]; [| | |lia]; vm_compute; reflexivity|].
  split; [intros i Hi; destruct i as [|[|[|i]]]; [| | |lia]; vm_compute; reflexivity|].
  split; [|split].
  - split; [apply Rle_trans with 1; [exact B1|]; apply len3_ge; [lra|rewrite V0, V1, V2; lra]|].
    apply Rle_trans with 32; [apply len3_le; [lra|rewrite V0, V1, V2; lra]|]. change 32 with (bpow radix2 5). apply bpow_le. lia.
  - split; [apply Rle_trans with 1; [exact B1|]; apply len3_ge; [lra|]|change (bpow radix2 54) with (IZR (2 ^ 54)); apply len3_le; [apply IZR_le; lia|]];
      rewrite W0, W1, W2, <- ?mult_IZR, <- ?plus_IZR, <- ?mult_IZR; apply IZR_le; vm_compute; discriminate.
  - intros L arccos HL. exact (c136_nearly_opposite L arccos HL).
Qed.

Lemma c136_lost :
  exists v w : vec f64 3,
    (forall (L : libm f64) (arccos : f64 -> f64), fqrotation_between L arccos v w = Some qidentity) /\
    bpow radix2 (- 28) <= rdir (fval w) 1%nat - rdir (fval v) 1%nat.
Proof. exact (ex_intro _ _ (ex_intro _ _ c136_small_angle)). Qed.
