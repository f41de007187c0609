(** The polar form of quaternions in floats: the statements of C152. *)

From Coq Require Import List Arith ZArith Bool Lia Reals Lra Psatz.
From Flocq Require Import Core.Core IEEE754.BinarySingleNaN.
From Verif Require Import Base Scalar Spec SpecF SpecRigid SpecAng SpecArc SpecCR MReal MVector MMatrix MQuat MFloat MFloatVec MSign MComplexF MArcF MQPolF
  LBase LFloat LFloatNormP LDriftM LNormF LAngF LAngR LQFunH LQPolF.
Local Open Scope R_scope.

Theorem c152_decomposition :
  forall (prec emax : Z) (Hp : Prec_gt_0 prec) (He : Prec_lt_emax prec emax) (L : libm (binary_float prec emax))
    (arccos arcsin : binary_float prec emax -> binary_float prec emax) (d : R) (q : quat (binary_float prec emax)) (k : Z),
  let u := bpow radix2 (- prec) in let r := rlength 4 (fval (q : vec _ 4)) in let n := rlength 3 (fval (qvector q)) in
  (24 <= prec)%Z -> (2 * prec + 33 <= emax)%Z -> 0 <= d <= / 64 -> ang_lib L arccos arcsin d -> (0 <= k)%Z -> (2 * k + 31 <= emax)%Z ->
  all_finite (q : vec _ 4) -> bpow radix2 (- k) <= n -> r <= bpow radix2 k ->
  exists norm angle axis theta, fqpolar L q = (norm, angle, Some axis) /\
    0 <= theta <= PI / 2 /\ r * cos theta = Rabs (B2R (qscalar q)) /\ r * sin theta = n /\
    fnear norm r (8 * u * r) /\ fnear angle theta (d + 60 * u) /\ forall i, (i < 3)%nat -> fnear (vat axis i) (fval (qvector q) i / n) (12 * u).
Proof.
  intros prec emax Hp He L arccos arcsin d q k u r n H24 Hr2 Hd HL Hk Hr Fq HN HR.
  assert (RR : bpow radix2 (- k) <= r <= bpow radix2 k) by (split; [eapply Rle_trans; [exact HN|apply n_le_r]|exact HR]).
  destruct (polar_axis H24 L q k Hk Hr Fq RR HN) as (axis & E & A). do 2 eexists. exists axis, (theta q). split; [exact E|].
  destruct (theta_facts q k RR) as (T & TC & TS). split; [exact T|]. split; [exact TC|]. split; [exact TS|].
  split; [exact (proj1 (proj2 (q_unit_norm H24 q k Hk Hr Fq RR)))|]. split; [exact (angle_near H24 Hr2 L arccos arcsin d Hd HL q k Hk Hr Fq RR)|exact A].
Qed.

Theorem c152_real :
  forall (prec emax : Z) (Hp : Prec_gt_0 prec) (He : Prec_lt_emax prec emax) (L : libm (binary_float prec emax)) (q : quat (binary_float prec emax)) (k : Z),
  (24 <= prec)%Z -> (0 <= k)%Z -> (2 * k + 31 <= emax)%Z -> all_finite (q : vec _ 4) ->
  (forall i, (i < 3)%nat -> B2R (vat (qvector q) i) = 0) -> bpow radix2 (- k) <= Rabs (B2R (qscalar q)) <= bpow radix2 k ->
  exists norm, fqpolar L q = (norm, n0, None) /\ fnear norm (Rabs (B2R (qscalar q))) (8 * bpow radix2 (- prec) * Rabs (B2R (qscalar q))).
Proof.
  intros prec emax Hp He L q k H24 Hk Hr Fq Z HR.
  assert (N : rlength 3 (fval (qvector q)) = 0).
  { unfold rlength. cbn [sum]. unfold fval. rewrite !Z by lia. change (sqrt (0 + 0 * 0 + 0 * 0 + 0 * 0) = 0). replace (0 + 0 * 0 + 0 * 0 + 0 * 0) with 0 by ring. apply sqrt_0. }
  assert (R : rlength 4 (fval (q : vec _ 4)) = Rabs (B2R (qscalar q))).
  { pose proof (len_split q) as LS. rewrite N in LS. apply Rsqr_inj; [apply fnrm_pos|apply Rabs_pos|]. rewrite <- Rsqr_abs. unfold Rsqr. lra. }
  rewrite <- R in HR |- *. eexists. split; [exact (polar_real H24 L q k Hk Hr Fq HR N)|]. exact (proj1 (proj2 (q_unit_norm H24 q k Hk Hr Fq HR))).
Qed.

Theorem c152_from :
  forall (prec emax : Z) (Hp : Prec_gt_0 prec) (He : Prec_lt_emax prec emax) (L : libm (binary_float prec emax))
    (arccos arcsin : binary_float prec emax -> binary_float prec emax) (d : R) (scale angle : binary_float prec emax) (axis : vec (binary_float prec emax) 3) (S : R),
  let u := bpow radix2 (- prec) in let q := fqfrom_polar L scale angle axis in let t := B2R angle / 2 in
  (24 <= prec)%Z -> (2 * prec + 33 <= emax)%Z -> 0 <= d <= / 64 -> ang_lib L arccos arcsin d ->
  fbnd S scale -> fbnd 9 angle -> (forall i, (i < 3)%nat -> fbnd 2 (vat axis i)) -> bpow radix2 (12 - emax) <= S <= bpow radix2 (emax - 6) ->
  fnear (qscalar q) (B2R scale * cos t) ((d + 8 * u) * S) /\
  forall i, (i < 3)%nat -> fnear (vat (qvector q) i) (B2R scale * sin t * B2R (vat axis i)) ((3 * d + 25 * u) * S).
Proof.
  intros prec emax Hp He L arccos arcsin d scale angle axis S u q t H24 Hr2 Hd HL (Fs & Bs) (Fa & Ba) Ax HS. split.
  - exact (from_scalar H24 Hr2 L arccos arcsin d Hd HL scale angle axis S Fs Fa Bs Ba HS).
  - exact (from_vector H24 Hr2 L arccos arcsin d Hd HL scale angle axis S Fs Fa Bs Ba Ax HS).
Qed.

Theorem c152_round_trip :
  forall (prec emax : Z) (Hp : Prec_gt_0 prec) (He : Prec_lt_emax prec emax) (L : libm (binary_float prec emax))
    (arccos arcsin : binary_float prec emax -> binary_float prec emax) (d : R) (q : quat (binary_float prec emax)) (k : Z),
  let u := bpow radix2 (- prec) in let r := rlength 4 (fval (q : vec _ 4)) in let n := rlength 3 (fval (qvector q)) in
  (24 <= prec)%Z -> (2 * prec + 33 <= emax)%Z -> 0 <= d <= / 64 -> ang_lib L arccos arcsin d -> (0 <= k)%Z -> (2 * k + 31 <= emax)%Z ->
  all_finite (q : vec _ 4) -> bpow radix2 (- k) <= n -> r <= bpow radix2 k ->
  exists norm angle axis, fqpolar L q = (norm, angle, Some axis) /\ let q' := fqfrom_polar L norm (nadd angle angle) axis in
    fnear (qscalar q') (Rabs (B2R (qscalar q))) ((5 * d + 120 * u) * r) /\
    forall i, (i < 3)%nat -> fnear (vat (qvector q') i) (B2R (vat (qvector q) i)) ((5 * d + 120 * u) * r).
Proof.
  intros prec emax Hp He L arccos arcsin d q k u r n H24 Hr2 Hd HL Hk Hr Fq HN HR.
  assert (RR : bpow radix2 (- k) <= r <= bpow radix2 k) by (split; [eapply Rle_trans; [exact HN|apply n_le_r]|exact HR]).
  exact (round_trip H24 Hr2 L arccos arcsin d Hd HL q k Hk Hr Fq RR HN).
Qed.

Theorem c152_small_and_large_refuted :
  exists p q a : quat f64, all_finite (p : vec f64 4) /\ all_finite (q : vec f64 4) /\ all_finite (a : vec f64 4) /\ forall L : libm f64,
    (0 < B2R (qscalar p) /\ fqpolar L p = (n0, n0, None)) /\ fqpolar L q = (B754_infinity false, n0, None) /\
    (0 < B2R (vat (qvector a) 0) /\ fqpolar L a = (n1, n0, None)).
Proof.
  set (small := ndiv (f64_of_Z 1) (f64_of_Z (2 ^ 600))). set (big := f64_of_Z (2 ^ 600)). set (z := (n0 : f64)).
  assert (PS : is_finite small = true /\ 0 < B2R small).
  { split; [reflexivity|]. assert (E : B2SF small = SpecFloat.S754_finite false (2 ^ 52) (- 652)) by (vm_compute; reflexivity).
    destruct small as [s|s| |s m e H]; try discriminate E. injection E as -> -> ->. apply (F2R_gt_0 radix2). reflexivity. }
  exists (qnew small z z z), (qnew big z z z), (qnew (n1 : f64) small z z).
  split; [intros i Hi; destruct i as [|[|[|[|i]]]]; [reflexivity..|lia]|]. split; [intros i Hi; destruct i as [|[|[|[|i]]]]; [reflexivity..|lia]|].
  split; [intros i Hi; destruct i as [|[|[|[|i]]]]; [reflexivity..|lia]|]. intros L. split; [|split].
  - split; [exact (proj2 PS)|]. unfold fqpolar, fqtry_unit_norm. cbv zeta.
    match goal with |- context [if Bltb ?a ?b then _ else _] => assert (E : Bltb a b = false) by (vm_compute; reflexivity); rewrite E end. reflexivity.
  - unfold fqpolar, fqtry_unit_norm, fvtry_unit. cbv zeta.
    match goal with |- context [if Bltb ?a ?b then _ else _] => assert (E : Bltb a b = true) by (vm_compute; reflexivity); rewrite E end.
    match goal with |- context [if Bltb ?a ?b then _ else _] => assert (E2 : Bltb a b = false) by (vm_compute; reflexivity); rewrite E2 end.
    reflexivity.
  - split; [exact (proj2 PS)|]. unfold fqpolar, fqtry_unit_norm, fvtry_unit. cbv zeta.
    match goal with |- context [if Bltb ?a ?b then _ else _] => assert (E : Bltb a b = true) by (vm_compute; reflexivity); rewrite E end.
    match goal with |- context [if Bltb ?a ?b then _ else _] => assert (E2 : Bltb a b = false) by (vm_compute; reflexivity); rewrite E2 end.
    f_equal. f_equal. apply B2SF_inj. vm_compute. reflexivity.
Qed.

Theorem c152_example :
  let L := cr_libm true : libm f64 in let d := bpow radix2 (2 - 53) in let q := qnew (f64_of_Z (-3)) (f64_of_Z 4) n0 n0 : quat f64 in
  ang_lib L cr_acos cr_asin d /\ 0 <= d <= / 64 /\ all_finite (q : vec f64 4) /\ B2R (qscalar q) = -3 /\
  rlength 3 (fval (qvector q)) = 4 /\ rlength 4 (fval (q : vec f64 4)) = 5 /\ bpow radix2 (- 3) <= 4 /\ 5 <= bpow radix2 3.
Proof.
  intros L d q. assert (V3 : B2R (f64_of_Z (-3)) = -3) by exact (proj1 (f64_of_Z_exact (-3) ltac:(lia))). assert (V4 : B2R (f64_of_Z 4) = 4) by exact (proj1 (f64_of_Z_exact 4 ltac:(lia))).
  split; [exact (cr_ang 53 1024 _ _ true ltac:(lia) ltac:(lia))|]. split; [split; [apply bpow_ge_0|apply (bpow_le radix2 (2 - 53) (-6)); lia]|].
  split; [intros i Hi; destruct i as [|[|[|[|i]]]]; [reflexivity..|lia]|]. split; [exact V3|]. split; [|split; [|split]].
  - change (sqrt (0 + B2R (f64_of_Z 4) * B2R (f64_of_Z 4) + 0 * 0 + 0 * 0) = 4). rewrite V4. replace (0 + 4 * 4 + 0 * 0 + 0 * 0) with (4 * 4) by ring. apply sqrt_square. lra.
  - change (sqrt (0 + B2R (f64_of_Z (-3)) * B2R (f64_of_Z (-3)) + B2R (f64_of_Z 4) * B2R (f64_of_Z 4) + 0 * 0 + 0 * 0) = 5). rewrite V3, V4. replace (0 + -3 * -3 + 4 * 4 + 0 * 0 + 0 * 0) with (5 * 5) by ring. apply sqrt_square. lra.
  - change (/ 8 <= 4). lra.
  - change (5 <= 8). lra.
Qed.
