(** Rounding errors of functions of quaternions: products of real functions, and the scaled vector part. *)

From Coq Require Import List Arith ZArith Bool Lia Reals Lra Psatz.
From Flocq Require Import Core.Core Relative IEEE754.BinarySingleNaN.
From Verif Require Import Base Scalar Spec SpecF SpecRigid SpecLook SpecCplx MReal MVector MMatrix MQuat MFloat MFloatVec MSign MComplexF MRotF MTransform MArcF MQFunF
  LBase LVector LFloat LFloatP LFloatVec LTrScF LRigidF LDriftM LNormF LLookF LSlerpS LSlerpW LDegF LArc LArcP LArcQ LCplxF.
Local Open Scope R_scope.

Section F.
Context {prec emax : Z} {Hp : Prec_gt_0 prec} {He : Prec_lt_emax prec emax}.
Notation fl := (binary_float prec emax).
Notation u := (bpow radix2 (- prec)).
Notation tiny := (bpow radix2 (2 - emax - prec)).
Notation fexp := (FLT_exp (3 - emax - prec) prec).
Notation rnd := (round radix2 fexp ZnearestE).

Lemma big8 : bpow radix2 (emax - 1) = 8 * bpow radix2 (emax - 4).
Proof. replace (emax - 1)%Z with (3 + (emax - 4))%Z by ring. apply bpow_plus. Qed.

(** A product of two approximate factors. *)
Lemma prod_abs (X Y : fl) x y m1 m2 a b : u <= / 64 -> 0 <= a <= / 2 -> 0 <= b <= / 2 -> Rabs x <= m1 -> Rabs y <= m2 -> m1 * m2 <= bpow radix2 (emax - 4) ->
  fnear X x (a * m1) -> fnear Y y (b * m2) -> fnear (nmul X Y) (x * y) ((a + 3 / 2 * b + 9 / 4 * u) * (m1 * m2) + tiny).
Proof.
  intros U A B HX HY M (FX & EX) (FY & EY). pose proof (bpow_gt_0 radix2 (- prec)) as U0. pose proof big8 as B8.
  assert (M1 : 0 <= m1) by (pose proof (Rabs_pos x); lra). assert (M2 : 0 <= m2) by (pose proof (Rabs_pos y); lra). assert (MM : 0 <= m1 * m2) by (apply Rmult_le_pos; assumption).
  assert (BX : Rabs (B2R X) <= 3 / 2 * m1).
  { replace (B2R X) with (x + (B2R X - x)) by ring. eapply Rle_trans; [apply Rabs_triang|]. assert (a * m1 <= / 2 * m1) by (apply Rmult_le_compat_r; lra). lra. }
  assert (BY : Rabs (B2R Y) <= 3 / 2 * m2).
  { replace (B2R Y) with (y + (B2R Y - y)) by ring. eapply Rle_trans; [apply Rabs_triang|]. assert (b * m2 <= / 2 * m2) by (apply Rmult_le_compat_r; lra). lra. }
  assert (BP : Rabs (B2R X * B2R Y) <= 9 / 4 * (m1 * m2)).
  { rewrite Rabs_mult. replace (9 / 4 * (m1 * m2)) with (3 / 2 * m1 * (3 / 2 * m2)) by field. apply Rmult_le_compat; try apply Rabs_pos; assumption. }
  assert (E1 : Rabs (B2R X * B2R Y - x * y) <= (a + 3 / 2 * b) * (m1 * m2)).
  { replace (B2R X * B2R Y - x * y) with (B2R X * (B2R Y - y) + (B2R X - x) * y) by ring. eapply Rle_trans; [apply Rabs_triang|].
    rewrite !Rabs_mult. assert (Rabs (B2R X) * Rabs (B2R Y - y) <= 3 / 2 * m1 * (b * m2)) by (apply Rmult_le_compat; try apply Rabs_pos; assumption).
    assert (Rabs (B2R X - x) * Rabs y <= a * m1 * m2) by (apply Rmult_le_compat; try apply Rabs_pos; assumption). lra. }
  destruct (mul_val X Y FX FY ltac:(lra)) as (F & E). split; [exact F|]. rewrite E.
  pose proof (rnd_rel (prec := prec) (emax := emax) (B2R X * B2R Y)) as R. set (z := B2R X * B2R Y) in *.
  replace (rnd z - x * y) with ((rnd z - z) + (z - x * y)) by ring. eapply Rle_trans; [apply Rabs_triang|].
  assert (u * Rabs z <= u * (9 / 4 * (m1 * m2))) by (apply Rmult_le_compat_l; lra). lra.
Qed.

Lemma prod_size (X Y : fl) m : u <= / 64 -> is_finite X = true -> is_finite Y = true -> Rabs (B2R X * B2R Y) <= m -> m <= bpow radix2 (emax - 1) ->
  Rabs (B2R (nmul X Y)) <= 65 / 64 * m + tiny.
Proof.
  intros U FX FY B M. destruct (mul_val X Y FX FY ltac:(lra)) as (F & E). rewrite E. pose proof (rnd_rel (prec := prec) (emax := emax) (B2R X * B2R Y)) as R. set (z := B2R X * B2R Y) in *.
  replace (rnd z) with (z + (rnd z - z)) by ring. eapply Rle_trans; [apply Rabs_triang|]. pose proof (bpow_gt_0 radix2 (- prec)) as U0. pose proof (Rabs_pos z). nra.
Qed.

(** The vector part: [A / N] times a component, where [N] is the rounded length. *)
Lemma dir_scale (v : vec fl 3) (N A : fl) alpha a M i : let n := rlength 3 (fval v) in
  u <= / 1024 -> (i < 3)%nat -> is_finite (vat v i) = true -> 0 < n -> 4 * u * n <= 1 -> fnear N n (8 * u * n) -> fnear A alpha a ->
  Rabs (B2R A) <= M * n -> M <= bpow radix2 (emax - 4) -> Rabs alpha <= bpow radix2 (emax - 4) -> a <= bpow radix2 (emax - 4) ->
  fnear (nmul (vat v i) (ndiv A N)) (alpha * rdir (fval v) i) (a + 12 * u * (Rabs alpha + a) + bpow radix2 (2 - emax)).
Proof.
  intros n U Hi Fv N0 NU (FN & EN) (FA & EA) HA HM Hal Ha. pose proof (bpow_gt_0 radix2 (- prec)) as U0. pose proof big8 as B8. pose proof (bpow_gt_0 radix2 (emax - 4)) as BB.
  assert (T0 : 0 < tiny) by apply bpow_gt_0.
  assert (UN : 0 <= u * n <= / 1024 * n) by (split; [apply Rmult_le_pos; lra|apply Rmult_le_compat_r; lra]).
  apply Rabs_le_inv in EN. assert (NP : 127 / 128 * n <= B2R N <= 129 / 128 * n) by lra.
  assert (VI : Rabs (fval v i) <= n) by (apply (fnrm_comp 3 (fval v) i Hi)).
  assert (M0 : 0 <= M) by (pose proof (Rabs_pos (B2R A)); nra).
  assert (IN : 0 < / B2R N) by (apply Rinv_0_lt_compat; lra).
  assert (INB : n * / B2R N <= 128 / 127) by (apply (Rmult_le_reg_r (B2R N)); [lra|]; rewrite Rmult_assoc, Rinv_l by lra; lra).
  assert (IND : Rabs (n * / B2R N - 1) <= 9 * u).
  { replace (n * / B2R N - 1) with ((n - B2R N) * / B2R N) by (field; lra). rewrite Rabs_mult, (Rabs_pos_eq (/ B2R N)) by lra.
    apply (Rmult_le_reg_r (B2R N)); [lra|]. rewrite Rmult_assoc, Rinv_l, Rmult_1_r by lra.
    assert (Rabs (n - B2R N) <= 8 * u * n) by (apply Rabs_le; lra). nra. }
  set (AA := Rabs (B2R A)) in *. assert (A0 : 0 <= AA) by apply Rabs_pos.
  assert (AB : AA <= Rabs alpha + a).
  { unfold AA. replace (B2R A) with (alpha + (B2R A - alpha)) by ring. eapply Rle_trans; [apply Rabs_triang|]. lra. }
  assert (QB : Rabs (B2R A / B2R N) <= 128 / 127 * M).
  { unfold Rdiv. rewrite Rabs_mult, (Rabs_pos_eq (/ B2R N)) by lra. fold AA.
    apply Rle_trans with (M * n * / B2R N); [apply Rmult_le_compat_r; lra|]. rewrite Rmult_assoc. rewrite (Rmult_comm (128 / 127)). apply Rmult_le_compat_l; assumption. }
  destruct (div_val A N FA ltac:(lra) ltac:(lra)) as (FQ & EQ).
  pose proof (rnd_rel (prec := prec) (emax := emax) (B2R A / B2R N)) as RQ. rewrite <- EQ in RQ. set (Q := ndiv A N) in *. set (z := B2R A / B2R N) in *.
  (* v_i * Q against v_i * z *)
  assert (ZV : Rabs (fval v i * z) <= 128 / 127 * AA).
  { unfold z, Rdiv. rewrite !Rabs_mult, (Rabs_pos_eq (/ B2R N)) by lra. fold AA.
    apply Rle_trans with (n * (AA * / B2R N)); [apply Rmult_le_compat_r; [apply Rmult_le_pos; lra|exact VI]|]. replace (n * (AA * / B2R N)) with (n * / B2R N * AA) by ring. apply Rmult_le_compat_r; assumption. }
  assert (D1 : Rabs (fval v i * B2R Q - fval v i * z) <= u * (128 / 127 * AA) + n * tiny).
  { rewrite <- Rmult_minus_distr_l, Rabs_mult. apply Rle_trans with (Rabs (fval v i) * (u * Rabs z + tiny)); [apply Rmult_le_compat_l; [apply Rabs_pos|exact RQ]|].
    rewrite Rmult_plus_distr_l. apply Rplus_le_compat; [|apply Rmult_le_compat_r; lra].
    replace (Rabs (fval v i) * (u * Rabs z)) with (u * (Rabs (fval v i) * Rabs z)) by ring. rewrite <- Rabs_mult. apply Rmult_le_compat_l; lra. }
  assert (NT : n * tiny <= / 4 * bpow radix2 (2 - emax)).
  { assert (TE : bpow radix2 (2 - emax) = tiny * bpow radix2 prec) by (rewrite <- bpow_plus; apply f_equal; ring). rewrite TE.
    assert (P : bpow radix2 prec * u = 1) by (rewrite <- bpow_plus; replace (prec + - prec)%Z with 0%Z by ring; reflexivity).
    assert (PP : 0 < bpow radix2 prec) by apply bpow_gt_0. assert (NB : n <= / 4 * bpow radix2 prec).
    { apply (Rmult_le_reg_r u); [exact U0|]. rewrite Rmult_assoc, P. lra. }
    replace (/ 4 * (tiny * bpow radix2 prec)) with (/ 4 * bpow radix2 prec * tiny) by ring. apply Rmult_le_compat_r; lra. }
  assert (TT : tiny <= / 1024 * bpow radix2 (2 - emax)).
  { replace (2 - emax - prec)%Z with (- prec + (2 - emax))%Z by ring. rewrite bpow_plus. apply Rmult_le_compat_r; [apply bpow_ge_0|exact U]. }
  assert (W0 : 0 < bpow radix2 (2 - emax)) by apply bpow_gt_0.
  assert (D2 : Rabs (fval v i * z - alpha * rdir (fval v) i) <= a + 9 * u * AA).
  { unfold rdir. change (rlength 3 (fval v)) with n. unfold z.
    replace (fval v i * (B2R A / B2R N) - alpha * (fval v i / n)) with (fval v i / n * (B2R A * (n * / B2R N - 1) + (B2R A - alpha))) by (field; lra).
    rewrite Rabs_mult. assert (VN : Rabs (fval v i / n) <= 1).
    { unfold Rdiv. rewrite Rabs_mult, (Rabs_pos_eq (/ n)) by (left; apply Rinv_0_lt_compat; exact N0). apply (Rmult_le_reg_r n); [exact N0|]. rewrite Rmult_assoc, Rinv_l by lra. lra. }
    apply Rle_trans with (1 * (AA * (9 * u) + a)); [|lra]. apply Rmult_le_compat; try apply Rabs_pos; [exact VN|].
    eapply Rle_trans; [apply Rabs_triang|]. apply Rplus_le_compat; [|exact EA]. rewrite Rabs_mult. apply Rmult_le_compat_l; [apply Rabs_pos|exact IND]. }
  assert (AM : AA <= 2 * bpow radix2 (emax - 4)) by lra.
  assert (W1 : bpow radix2 (2 - emax) <= bpow radix2 (emax - 4)).
  { apply bpow_le. pose proof He as P. unfold Prec_lt_emax in P. pose proof Hp as P'. unfold Prec_gt_0 in P'.
    assert (10 <= prec)%Z; [|lia]. destruct (Z_lt_le_dec prec 10) as [C|C]; [|exact C]. exfalso.
    assert (bpow radix2 (-9) <= u) by (apply bpow_le; lia). change (bpow radix2 (-9)) with (/ 512) in *. lra. }
  assert (PB : Rabs (fval v i * B2R Q) <= 130 / 127 * AA + / 4 * bpow radix2 (2 - emax)).
  { replace (fval v i * B2R Q) with (fval v i * z + (fval v i * B2R Q - fval v i * z)) by ring. eapply Rle_trans; [apply Rabs_triang|].
    assert (u * (128 / 127 * AA) <= / 1024 * (128 / 127 * AA)) by (apply Rmult_le_compat_r; lra). lra. }
  destruct (mul_val (vat v i) Q Fv FQ ltac:(change (B2R (vat v i)) with (fval v i); lra)) as (FR & ER). split; [exact FR|]. rewrite ER.
  change (B2R (vat v i)) with (fval v i). pose proof (rnd_rel (prec := prec) (emax := emax) (fval v i * B2R Q)) as RR. set (y := fval v i * B2R Q) in *.
  replace (rnd y - alpha * rdir (fval v) i) with ((rnd y - y) + (y - fval v i * z) + (fval v i * z - alpha * rdir (fval v) i)) by ring.
  eapply Rle_trans; [apply Rabs_triang|]. eapply Rle_trans; [apply Rplus_le_compat_r, Rabs_triang|].
  assert (u * Rabs y <= u * (130 / 127 * AA + / 4 * bpow radix2 (2 - emax))) by (apply Rmult_le_compat_l; lra).
  assert (u * bpow radix2 (2 - emax) <= / 1024 * bpow radix2 (2 - emax)) by (apply Rmult_le_compat_r; lra).
  assert (u * AA <= u * (Rabs alpha + a)) by (apply Rmult_le_compat_l; lra). assert (0 <= u * AA) by (apply Rmult_le_pos; lra). lra.
Qed.

(** The test whether the vector part is negligible. *)
Hypothesis H24 : (24 <= prec)%Z.
Variable k : Z.
Hypothesis Hk : (prec + 1 <= k)%Z.
Hypothesis Hr2 : (2 * k + 31 <= emax)%Z.
Lemma size_any n (v : vec fl n) : (n <= 4)%nat -> (forall i, (i < n)%nat -> is_finite (vat v i) = true) -> u / 2 <= rlength n (fval v) -> rlength n (fval v) <= bpow radix2 k ->
  fnear (fsqrt (vnorm_squared v)) (rlength n (fval v)) (8 * u * rlength n (fval v)).
Proof.
  intros Hn Fv B1 B2. pose proof (bpow_gt_0 radix2 (- prec)) as U0.
  refine (proj1 (c97_any prec emax Hp He n k v H24 Hn ltac:(lia) ltac:(lia) Fv _)). split; [|exact B2].
  eapply Rle_trans; [|exact B1]. replace (u / 2) with (bpow radix2 (- (prec + 1))); [apply bpow_le; lia|].
  replace (- (prec + 1))%Z with (-1 + - prec)%Z by ring. rewrite bpow_plus. change (bpow radix2 (-1)) with (/ 2). lra.
Qed.
Lemma norm_fin n (v : vec fl n) : (forall i, (i < n)%nat -> is_finite (vat v i) = true) -> is_finite (fsqrt (vnorm_squared v)) = true ->
  is_finite (vnorm_squared v) = true /\ 0 <= B2R (vnorm_squared v) /\ B2R (fsqrt (vnorm_squared v)) = rnd (sqrt (B2R (vnorm_squared v))).
Proof.
  intros Fv F. pose proof (nn_norm2 n v Fv) as N. destruct (nn_cases _ N) as [E|(F1 & P)]; [rewrite E in F; discriminate F|].
  destruct (sqrt_R _ N F1) as (_ & E). repeat split; assumption.
Qed.
Lemma small_branch n (v : vec fl n) : (n <= 4)%nat -> (forall i, (i < n)%nat -> is_finite (vat v i) = true) -> rlength n (fval v) <= bpow radix2 k ->
  Bleb (vnorm_squared v) (nmul feps feps) = true -> rlength n (fval v) <= 3 * u.
Proof.
  intros Hn Fv B H. destruct (Rle_or_lt (rlength n (fval v)) (3 * u)) as [|G]; [assumption|exfalso].
  pose proof (bpow_gt_0 radix2 (- prec)) as U0. assert (U : u <= / 1024) by (apply (bpow_le radix2 (- prec) (-10)); lia).
  destruct (size_any n v Hn Fv ltac:(lra) B) as (F & E). destruct (norm_fin n v Fv F) as (F2 & P2 & E2).
  destruct (@eps2_facts prec emax _ _ ltac:(lia) ltac:(lia)) as (Ne & Fe & Ve).
  rewrite Bleb_correct in H by assumption. apply Rle_bool_true in H || (destruct (Rle_bool_spec (B2R (vnorm_squared v)) (B2R (nmul feps feps : fl))) as [H'|H']; [clear H; rename H' into H|discriminate H]).
  rewrite Ve in H.
  assert (S : sqrt (B2R (vnorm_squared v)) <= bpow radix2 (1 - prec)).
  { rewrite <- (sqrt_square (bpow radix2 (1 - prec))) by apply bpow_ge_0. apply sqrt_le_1_alt. rewrite <- bpow_plus. replace (1 - prec + (1 - prec))%Z with (2 - 2 * prec)%Z by ring. exact H. }
  assert (S' : rnd (sqrt (B2R (vnorm_squared v))) <= bpow radix2 (1 - prec)).
  { assert (GB : generic_format radix2 fexp (bpow radix2 (1 - prec))) by (apply generic_format_bpow; unfold FLT_exp; lia).
    apply round_le_generic; auto with typeclass_instances. }
  rewrite <- E2 in S'. replace (1 - prec)%Z with (1 + - prec)%Z in S' by ring. rewrite bpow_plus in S'. change (bpow radix2 1) with 2 in S'.
  set (r := rlength n (fval v)) in *. apply Rabs_le_inv in E. assert (u * r <= / 1024 * r) by (apply Rmult_le_compat_r; lra). lra.
Qed.
Lemma large_branch n (v : vec fl n) : (n <= 4)%nat -> (forall i, (i < n)%nat -> is_finite (vat v i) = true) -> rlength n (fval v) <= bpow radix2 k ->
  Bleb (vnorm_squared v) (nmul feps feps) = false -> u / 2 <= rlength n (fval v) /\ fnear (fsqrt (vnorm_squared v)) (rlength n (fval v)) (8 * u * rlength n (fval v)).
Proof.
  intros Hn Fv B H. enough (G : u / 2 <= rlength n (fval v)) by (split; [exact G|apply size_any; assumption]).
  destruct (Rle_or_lt (u / 2) (rlength n (fval v))) as [|G]; [assumption|exfalso].
  pose proof He as P2. unfold Prec_lt_emax in P2.
  assert (C : forall i, (i < n)%nat -> fb (-1 - prec) (vat v i)).
  { intros i Hi. split; [apply Fv, Hi|]. pose proof (fnrm_comp n (fval v) i Hi) as K. change (fnrm n (fval v)) with (rlength n (fval v)) in K. change (fval v i) with (B2R (vat v i)) in K.
    replace (-1 - prec)%Z with (-1 + - prec)%Z by ring. rewrite bpow_plus. change (bpow radix2 (-1)) with (/ 2). lra. }
  assert (S : forall j, (j <= n)%nat -> fb (2 * (-1 - prec) + Z.of_nat j) (sum j (fun i => (vat v i * vat v i)%N_))).
  { induction j as [|j IH]; intros Hj; [apply fb_0|]. cbn [sum].
    assert (M : fb (2 * (-1 - prec)) (nmul (vat v j) (vat v j))).
    { destruct (fb_mul (-1 - prec) (-1 - prec) _ _ (C j ltac:(lia)) (C j ltac:(lia)) ltac:(lia)) as (M & _). replace (2 * (-1 - prec))%Z with (-1 - prec + (-1 - prec))%Z by ring. exact M. }
    destruct (fb_add (2 * (-1 - prec) + Z.of_nat j) _ _ (IH ltac:(lia)) (fb_weak _ (2 * (-1 - prec) + Z.of_nat j) _ M ltac:(lia)) ltac:(lia)) as (A & _).
    replace (2 * (-1 - prec) + Z.of_nat (S j))%Z with (2 * (-1 - prec) + Z.of_nat j + 1)%Z by lia. exact A. }
  specialize (S n ltac:(lia)). rewrite <- vnorm2_sum in S. destruct (fb_weak _ (2 - 2 * prec) _ S ltac:(lia)) as (F & Q).
  destruct (@eps2_facts prec emax _ _ ltac:(lia) ltac:(lia)) as (Ne & Fe & Ve).
  rewrite Bleb_correct in H by assumption. destruct (Rle_bool_spec (B2R (vnorm_squared v)) (B2R (nmul feps feps : fl))) as [H'|H']; [discriminate H|].
  rewrite Ve in H'. apply Rabs_le_inv in Q. lra.
Qed.
End F.
