(** Rounding errors of the square root of a quaternion. *)

From Coq Require Import List Arith ZArith Bool Lia Reals Lra Psatz.
From Flocq Require Import Core.Core Relative IEEE754.BinarySingleNaN.
From Verif Require Import Base Scalar Spec SpecF SpecRigid SpecLook SpecCplx SpecArc SpecQFun MReal MVector MMatrix MQuat MFloat MFloatVec MSign MComplexF MRotF MTransform MArcF MQFunF
  LBase LVector LFloat LFloatP LFloatVec LTrScF LRigidF LDriftM LNormF LLookF LSlerpS LSlerpW LDegF LArc LArcP LArcQ LComplexHP LComplexLP LCplxF LCplxFP LQFunF LQFunG.
Local Open Scope R_scope.

Lemma sqrt_half H h e : 0 < h -> 0 <= H -> 0 <= e <= / 8 -> Rabs (H - h) <= e * h -> Rabs (sqrt H - sqrt h) <= 9 / 16 * e * sqrt h.
Proof.
  intros Hh HH E D. pose proof (sqrt_lt_R0 h Hh) as B. pose proof (sqrt_pos H) as A. pose proof (sqrt_sqrt h ltac:(lra)) as SB. pose proof (sqrt_sqrt H HH) as SA.
  set (a := sqrt H) in *. set (b := sqrt h) in *. rewrite <- SA, <- SB in D.
  assert (L : 7 / 9 * b <= a).
  { apply Rsqr_incr_0_var; [|exact A]. unfold Rsqr. apply Rabs_le_inv in D. assert (e * (b * b) <= / 8 * (b * b)) by (apply Rmult_le_compat_r; [apply Rmult_le_pos|]; lra). nra. }
  replace (a * a - b * b) with ((a - b) * (a + b)) in D by ring. rewrite Rabs_mult, (Rabs_pos_eq (a + b)) in D by lra.
  pose proof (Rabs_pos (a - b)) as P. assert (Rabs (a - b) * (16 / 9 * b) <= Rabs (a - b) * (a + b)) by (apply Rmult_le_compat_l; lra).
  apply (Rmult_le_reg_r b); [exact B|]. nra.
Qed.

(** The root, from the length [r]. *)
Definition root_of (q : nat -> R) : nat -> R := let r := rlength 4 q in
  fun i => match i with O => sqrt ((r + q O) / 2) | _ => q i * sqrt (/ 2 / (r + q O)) end.
Lemma len4_sq q : rlength 4 q * rlength 4 q = q 0%nat * q 0%nat + (q 1%nat * q 1%nat + q 2%nat * q 2%nat + q 3%nat * q 3%nat).
Proof.
  unfold rlength. rewrite sqrt_sqrt; cbn [sum].
  - change (0 + q 0%nat * q 0%nat + q 1%nat * q 1%nat + q 2%nat * q 2%nat + q 3%nat * q 3%nat = q 0%nat * q 0%nat + (q 1%nat * q 1%nat + q 2%nat * q 2%nat + q 3%nat * q 3%nat)). ring.
  - change (0 <= 0 + q 0%nat * q 0%nat + q 1%nat * q 1%nat + q 2%nat * q 2%nat + q 3%nat * q 3%nat). nra.
Qed.
Lemma root_is q : 0 < rlength 4 q + q 0%nat -> principal_root q (root_of q).
Proof.
  intros T. set (r := rlength 4 q) in *. pose proof (len4_sq q) as L. fold r in L. unfold principal_root, root_of. fold r. cbv zeta. set (t := r + q 0%nat) in *.
  assert (H1 : sqrt (t / 2) * sqrt (t / 2) = t / 2) by (apply sqrt_sqrt; lra).
  assert (HP : 0 < / 2 / t) by (unfold Rdiv; apply Rmult_lt_0_compat; [lra|apply Rinv_0_lt_compat, T]).
  assert (H2 : sqrt (/ 2 / t) * sqrt (/ 2 / t) = / 2 / t) by (apply sqrt_sqrt; lra).
  assert (H3 : sqrt (t / 2) * sqrt (/ 2 / t) = / 2).
  { rewrite <- sqrt_mult_alt by lra. replace (t / 2 * (/ 2 / t)) with (/ 2 * / 2) by (field; lra). apply sqrt_square. lra. }
  split; [apply sqrt_lt_R0; lra|]. split.
  - rewrite H1. set (c := sqrt (/ 2 / t)) in *.
    replace (q 1%nat * c * (q 1%nat * c) + q 2%nat * c * (q 2%nat * c) + q 3%nat * c * (q 3%nat * c)) with ((q 1%nat * q 1%nat + q 2%nat * q 2%nat + q 3%nat * q 3%nat) * (c * c)) by ring.
    rewrite H2. replace (q 1%nat * q 1%nat + q 2%nat * q 2%nat + q 3%nat * q 3%nat) with ((r - q 0%nat) * t) by (unfold t; lra).
    unfold t. field. fold t. lra.
  - intros [|i] Hi; [lia|]. replace (sqrt (t / 2) * (q (S i) * sqrt (/ 2 / t))) with (q (S i) * (sqrt (t / 2) * sqrt (/ 2 / t))) by ring. rewrite H3. field.
Qed.

Section F.
Context {prec emax : Z} {Hp : Prec_gt_0 prec} {He : Prec_lt_emax prec emax}.
Notation fl := (binary_float prec emax).
Notation u := (bpow radix2 (- prec)).
Notation tiny := (bpow radix2 (2 - emax - prec)).
Notation fexp := (FLT_exp (3 - emax - prec) prec).
Notation rnd := (round radix2 fexp ZnearestE).
Hypothesis H24 : (24 <= prec)%Z.

Lemma half_R : is_finite (ndiv n1 (nadd n1 n1) : fl) = true /\ B2R (ndiv n1 (nadd n1 n1) : fl) = / 2.
Proof.
  pose proof He as P2. unfold Prec_lt_emax in P2. destruct (@two_val prec emax _ _) as (F & V). destruct (@one_facts prec emax _ _) as (F1 & V1 & _).
  assert (E : B2R (n1 : fl) / B2R (nadd n1 n1 : fl) = / 2) by (rewrite V, V1; lra).
  assert (B1 : 1 <= bpow radix2 (emax - 1)) by (apply (bpow_le radix2 0 (emax - 1)); lia).
  destruct (div_val (n1 : fl) (nadd n1 n1) F1 ltac:(rewrite V; lra) ltac:(rewrite E, Rabs_pos_eq; lra)) as (FD & VD). split; [exact FD|]. rewrite VD, E.
  apply round_generic; auto with typeclass_instances. change (/ 2) with (bpow radix2 (-1)). apply generic_format_bpow. unfold FLT_exp. lia.
Qed.

(** Rounding of a value that is relatively close, away from underflow. *)
Lemma rnd_close z v e : 0 <= e <= / 8 -> 0 < v -> Rabs (z - v) <= e * v -> Rabs (rnd z - v) <= (e + 9 / 8 * u) * v + tiny.
Proof.
  intros E V H. pose proof (rnd_rel (prec := prec) (emax := emax) z) as R. pose proof (bpow_gt_0 radix2 (- prec)) as U0.
  assert (Z : Rabs z <= 9 / 8 * v). { replace z with (v + (z - v)) by ring. eapply Rle_trans; [apply Rabs_triang|]. rewrite (Rabs_pos_eq v) by lra. assert (e * v <= / 8 * v) by (apply Rmult_le_compat_r; lra). lra. }
  replace (rnd z - v) with ((rnd z - z) + (z - v)) by ring. eapply Rle_trans; [apply Rabs_triang|]. assert (u * Rabs z <= u * (9 / 8 * v)) by (apply Rmult_le_compat_l; lra). lra.
Qed.

Lemma scale_factor (q : quat fl) k kappa (N : fl) : let r := rlength 4 (fval (q : vec fl 4)) in let t := r + B2R (qscalar q) in
  (prec + 1 <= k)%Z -> (2 * k + 31 <= emax)%Z -> is_finite (qscalar q) = true -> fnear N r (8 * u * r) -> u / 2 <= r <= bpow radix2 k -> 1 <= kappa -> 256 * u * kappa <= 1 -> r <= kappa * t ->
  let T := nadd N (qscalar q) in let c := fsqrt (ndiv (ndiv n1 (nadd n1 n1)) T) in
  0 < t /\ fnear T t (11 * u * kappa * t) /\ fnear c (sqrt (/ 2 / t)) (10 * u * kappa * sqrt (/ 2 / t)) /\ 64 * u * u <= t <= 2 * bpow radix2 k.
Proof.
  intros r t Hk Hr Fs (FN & EN) (R1 & R2) K1 K2 KT T c. pose proof (bpow_gt_0 radix2 (- prec)) as U0. assert (U : u <= / 1024) by (apply u_le, H24).
  assert (R0 : 0 < r) by lra.
  assert (T0 : 0 < t) by nra.
  assert (UK : u <= u * kappa) by nra.
  assert (UT : u * r <= u * kappa * t) by (rewrite Rmult_assoc; apply Rmult_le_compat_l; lra).
  assert (TL : 64 * u * u <= t).
  { assert (256 * u * r <= t). { apply Rle_trans with (256 * u * (kappa * t)); [apply Rmult_le_compat_l; lra|]. replace (256 * u * (kappa * t)) with (256 * u * kappa * t) by ring. nra. } nra. }
  assert (SR : Rabs (B2R (qscalar q)) <= r).
  { exact (fnrm_comp 4 (fval (q : vec fl 4)) 0 ltac:(lia)). }
  assert (TU : t <= 2 * bpow radix2 k) by (unfold t; apply Rabs_le_inv in SR; lra).
  pose proof (bpow_gt_0 radix2 k) as BK.
  assert (UKT : 0 <= u * kappa * t) by (apply Rmult_le_pos; [apply Rmult_le_pos|]; lra).
  assert (Es : Rabs (B2R N + B2R (qscalar q) - t) <= 8 * u * kappa * t).
  { replace (B2R N + B2R (qscalar q) - t) with (B2R N - r) by (unfold t; ring). lra. }
  assert (KU : u * kappa * t <= / 256 * t) by (apply Rmult_le_compat_r; lra).
  assert (BM : 8 * bpow radix2 k <= bpow radix2 (emax - 1)).
  { replace (8 * bpow radix2 k) with (bpow radix2 (3 + k)) by (rewrite bpow_plus; reflexivity). apply bpow_le. lia. }
  assert (AB : Rabs (B2R N + B2R (qscalar q)) <= 2 * t).
  { replace (B2R N + B2R (qscalar q)) with (t + (B2R N + B2R (qscalar q) - t)) by ring. eapply Rle_trans; [apply Rabs_triang|]. rewrite (Rabs_pos_eq t) by lra. lra. }
  destruct (add_val N (qscalar q) FN Fs ltac:(lra)) as (FT & _ & ET). fold T in FT, ET.
  assert (ET' : Rabs (B2R T - t) <= 11 * u * kappa * t).
  { replace (B2R T - t) with ((B2R T - (B2R N + B2R (qscalar q))) + (B2R N + B2R (qscalar q) - t)) by ring. eapply Rle_trans; [apply Rabs_triang|].
    assert (u * Rabs (B2R N + B2R (qscalar q)) <= u * (2 * t)) by (apply Rmult_le_compat_l; lra). assert (u * t <= u * kappa * t) by (apply Rmult_le_compat_r; lra). lra. }
  assert (TP : 120 / 128 * t <= B2R T <= 136 / 128 * t) by (pose proof (Rabs_le_inv _ _ ET'); lra).
  destruct half_R as (FH & VH).
  set (h := / 2 / t). assert (H0 : 0 < h) by (unfold h, Rdiv; apply Rmult_lt_0_compat; [lra|apply Rinv_0_lt_compat, T0]).
  assert (HB : bpow radix2 (- k - 2) <= h).
  { unfold h. apply (Rmult_le_reg_r t); [exact T0|]. unfold Rdiv. rewrite Rmult_assoc, Rinv_l, Rmult_1_r by lra.
    apply Rle_trans with (bpow radix2 (- k - 2) * (2 * bpow radix2 k)); [apply Rmult_le_compat_l; [apply bpow_ge_0|exact TU]|].
    replace (bpow radix2 (- k - 2) * (2 * bpow radix2 k)) with (2 * (bpow radix2 (- k - 2) * bpow radix2 k)) by ring. rewrite <- bpow_plus. replace (- k - 2 + k)%Z with (-2)%Z by ring. change (bpow radix2 (-2)) with (/ 4). lra. }
  assert (EH : Rabs (B2R (ndiv n1 (nadd n1 n1) : fl) / B2R T - h) <= 12 * u * kappa * h).
  { rewrite VH. unfold h. replace (/ 2 / B2R T - / 2 / t) with ((t - B2R T) * (/ 2 / t) * / B2R T) by (field; lra).
    rewrite !Rabs_mult, (Rabs_pos_eq (/ 2 / t)), (Rabs_pos_eq (/ B2R T)) by (try (left; apply Rinv_0_lt_compat); fold h; lra).
    fold h. rewrite Rabs_minus_sym. apply (Rmult_le_reg_r (B2R T)); [lra|]. rewrite Rmult_assoc, Rinv_l, Rmult_1_r by lra.
    apply Rle_trans with (11 * u * kappa * t * h); [apply Rmult_le_compat_r; lra|].
    replace (12 * u * kappa * h * B2R T) with (u * kappa * h * (12 * B2R T)) by ring. replace (11 * u * kappa * t * h) with (u * kappa * h * (11 * t)) by ring.
    apply Rmult_le_compat_l; [apply Rmult_le_pos; [apply Rmult_le_pos|]; lra|]. lra. }
  assert (KH : 0 <= u * kappa * h <= / 256 * h) by (split; [apply Rmult_le_pos; [apply Rmult_le_pos|]; lra|apply Rmult_le_compat_r; lra]).
  assert (HT : h <= bpow radix2 (emax - 3)).
  { unfold h. apply (Rmult_le_reg_r t); [exact T0|]. unfold Rdiv. rewrite Rmult_assoc, Rinv_l, Rmult_1_r by lra.
    assert (bpow radix2 (emax - 3) * (64 * u * u) <= bpow radix2 (emax - 3) * t) by (apply Rmult_le_compat_l; [apply bpow_ge_0|exact TL]).
    assert (1 <= bpow radix2 (emax - 3) * (64 * u * u)); [|lra].
    replace (bpow radix2 (emax - 3) * (64 * u * u)) with (bpow radix2 (emax - 3 + 6 + - prec + - prec)) by (rewrite !bpow_plus; change (bpow radix2 6) with 64; ring).
    apply (bpow_le radix2 0). lia. }
  assert (BD : 4 * bpow radix2 (emax - 3) = bpow radix2 (emax - 1)) by (replace (emax - 1)%Z with (2 + (emax - 3))%Z by ring; symmetry; apply bpow_plus).
  assert (Rq : Rabs (B2R (ndiv n1 (nadd n1 n1) : fl) / B2R T) <= 2 * h).
  { set (z := B2R (ndiv n1 (nadd n1 n1) : fl) / B2R T) in *. replace z with (h + (z - h)) by ring. eapply Rle_trans; [apply Rabs_triang|]. rewrite (Rabs_pos_eq h) by lra. lra. }
  destruct (div_val (ndiv n1 (nadd n1 n1) : fl) T FH ltac:(lra) ltac:(lra)) as (FD & ED).
  set (H := ndiv (ndiv n1 (nadd n1 n1)) T) in *.
  assert (TH : tiny <= / 16 * (u * h)).
  { assert (TE : tiny = u * bpow radix2 (2 - emax)) by (rewrite <- bpow_plus; f_equal; ring). rewrite TE. replace (/ 16 * (u * h)) with (u * (/ 16 * h)) by ring. apply Rmult_le_compat_l; [lra|].
    apply Rle_trans with (/ 16 * bpow radix2 (- k - 2)); [|lra]. replace (/ 16 * bpow radix2 (- k - 2)) with (bpow radix2 (-4 + (- k - 2))) by (rewrite bpow_plus; reflexivity). apply bpow_le. lia. }
  assert (EH2 : Rabs (B2R H - h) <= (12 * u * kappa + 9 / 8 * u) * h + tiny).
  { rewrite ED. apply rnd_close; [split; [apply Rmult_le_pos|]; lra|exact H0|exact EH]. }
  assert (UH : u * h <= u * kappa * h) by (apply Rmult_le_compat_r; lra).
  assert (EH3 : Rabs (B2R H - h) <= (53 / 4 * (u * kappa)) * h) by lra.
  assert (HP : 0 < B2R H) by (apply Rabs_le_inv in EH3; lra).
  assert (HN : nn H).
  { clear - HP. destruct H as [[]|[]| |[] m e B]; cbn in *; try lra; try (split; reflexivity). exfalso. revert HP. apply Rle_not_lt. apply F2R_le_0. cbn. lia. }
  destruct (sqrt_R H HN FD) as (FC & EC). fold c in FC, EC.
  pose proof (sqrt_half (B2R H) h (53 / 4 * (u * kappa)) H0 ltac:(lra) ltac:(split; [|lra]; apply Rmult_le_pos; [lra|apply Rmult_le_pos; lra]) EH3) as SH.
  assert (S0 : 0 < sqrt h) by (apply sqrt_lt_R0, H0).
  assert (TS : tiny <= / 16 * (u * sqrt h)).
  { destruct (Rle_or_lt h 1) as [H1|H1].
    - assert (h <= sqrt h). { rewrite <- (sqrt_sqrt h) at 1 by lra. assert (sqrt h <= 1) by (rewrite <- sqrt_1; apply sqrt_le_1_alt; exact H1). nra. } nra.
    - assert (1 <= sqrt h) by (rewrite <- sqrt_1; apply sqrt_le_1_alt; lra).
      assert (TE : tiny = u * bpow radix2 (2 - emax)) by (rewrite <- bpow_plus; f_equal; ring). assert (bpow radix2 (2 - emax) <= / 16) by (apply (bpow_le radix2 (2 - emax) (-4)); lia). rewrite TE.
      assert (u * bpow radix2 (2 - emax) <= u * / 16) by (apply Rmult_le_compat_l; lra). assert (u * 1 <= u * sqrt h) by (apply Rmult_le_compat_l; lra). lra. }
  split; [exact T0|]. split; [split; assumption|]. split; [|split; assumption].
  split; [exact FC|]. rewrite EC. eapply Rle_trans; [apply (rnd_close _ _ (9 / 16 * (53 / 4 * (u * kappa)))); [|exact S0|exact SH]|].
  - split; [apply Rmult_le_pos; [lra|apply Rmult_le_pos; [lra|apply Rmult_le_pos; lra]]|lra].
  - assert (u * sqrt h <= u * kappa * sqrt h) by (apply Rmult_le_compat_r; lra). fold h. assert (0 <= u * sqrt h) by (apply Rmult_le_pos; lra). lra.
Qed.

Section Root.
Variable q : quat fl.
Variable k : Z.
Hypothesis Hk : (prec + 1 <= k)%Z.
Hypothesis Hr : (2 * k + 31 <= emax)%Z.
Hypothesis Fq : all_finite (q : vec fl 4).
Notation r := (rlength 4 (fval (q : vec fl 4))).
Notation n := (rlength 3 (fval (qvector q))).
Notation s := (B2R (qscalar q)).
Hypothesis Rk : r <= bpow radix2 k.

Lemma len_split : r * r = s * s + n * n.
Proof.
  rewrite len4_sq. change (n * n) with (rlength 3 (fval (qvector q)) * rlength 3 (fval (qvector q))). unfold rlength. rewrite sqrt_sqrt; cbn [sum].
  - change (0 + fval (q : vec fl 4) 1 * fval (q : vec fl 4) 1 + fval (q : vec fl 4) 2 * fval (q : vec fl 4) 2 + fval (q : vec fl 4) 3 * fval (q : vec fl 4) 3) with
      (0 + fval (qvector q) 0 * fval (qvector q) 0 + fval (qvector q) 1 * fval (qvector q) 1 + fval (qvector q) 2 * fval (qvector q) 2). 
    change (fval (q : vec fl 4) 0) with s. change (fval (q : vec fl 4) 1) with (fval (qvector q) 0). change (fval (q : vec fl 4) 2) with (fval (qvector q) 1). change (fval (q : vec fl 4) 3) with (fval (qvector q) 2).
    match goal with |- _ = _ + ?x => change x with (0 + fval (qvector q) 0 * fval (qvector q) 0 + fval (qvector q) 1 * fval (qvector q) 1 + fval (qvector q) 2 * fval (qvector q) 2) end. ring.
  - change (0 <= 0 + fval (qvector q) 0 * fval (qvector q) 0 + fval (qvector q) 1 * fval (qvector q) 1 + fval (qvector q) 2 * fval (qvector q) 2). nra.
Qed.
Lemma n_le_r : n <= r.
Proof. pose proof len_split as E. assert (0 <= r) by apply fnrm_pos. assert (0 <= n) by apply fnrm_pos. apply Rsqr_incr_0_var; [unfold Rsqr; nra|assumption]. Qed.
Lemma Fqv : forall i, (i < 3)%nat -> is_finite (vat (qvector q) i) = true.
Proof. intros [|[|[|i]]] Hi; try lia; [exact (Fq 1%nat ltac:(lia))|exact (Fq 2%nat ltac:(lia))|exact (Fq 3%nat ltac:(lia))]. Qed.

Lemma sqrt_core kappa : u / 2 <= r -> Bleb (qnorm_squared q) (nmul feps feps) = false -> Bleb (vnorm_squared (qvector q)) (nmul feps feps) = false -> 1 <= kappa -> 256 * u * kappa <= 1 -> r <= kappa * (r + s) ->
  0 < r + s /\ forall i, (i < 4)%nat -> near_rel (24 * u * kappa) (vat (fqsqrt q : vec fl 4) i) (root_of (fval (q : vec fl 4)) i).
Proof.
  intros R1 B1 B2 K1 K2 KT. pose proof (bpow_gt_0 radix2 (- prec)) as U0. assert (U : u <= / 1024) by (apply u_le, H24). pose proof n_le_r as NR.
  pose proof (@size_any prec emax Hp He H24 k Hk Hr 4 (q : vec fl 4) ltac:(lia) Fq R1 Rk) as HN.
  assert (Fs : is_finite (qscalar q) = true) by exact (Fq 0%nat ltac:(lia)).
  destruct (scale_factor q k kappa _ Hk Hr Fs HN (conj R1 Rk) K1 K2 KT) as (T0 & HT & HC & TL & TU).
  split; [exact T0|].
  unfold fqsqrt, fqsqrt_eps. cbv zeta. rewrite B1, B2. change (vnorm_squared (q : vec fl 4)) with (qnorm_squared q) in *.
  set (T := nadd (fsqrt (qnorm_squared q)) (qscalar q)) in *. set (c := fsqrt (ndiv (ndiv n1 (nadd n1 n1)) T)) in *. set (t := r + s) in *.
  set (h := sqrt (/ 2 / t)) in *. destruct HT as (FT & ET), HC as (FC & EC).
  assert (HP : 0 < / 2 / t) by (unfold Rdiv; apply Rmult_lt_0_compat; [lra|apply Rinv_0_lt_compat, T0]).
  assert (h0 : 0 < h) by (apply sqrt_lt_R0, HP).
  assert (TH : t * h = sqrt (t / 2)).
  { unfold h. rewrite <- (sqrt_square t) at 1 by lra. rewrite <- sqrt_mult_alt by (apply Rmult_le_pos; lra). f_equal. field. lra. }
  assert (UK : u <= u * kappa) by nra.
  assert (Uh : 0 <= u * kappa * h <= / 256 * h) by (split; [apply Rmult_le_pos; [apply Rmult_le_pos|]; lra|apply Rmult_le_compat_r; lra]).
  assert (BM : 8 * bpow radix2 k <= bpow radix2 (emax - 1)).
  { replace (8 * bpow radix2 k) with (bpow radix2 (3 + k)) by (rewrite bpow_plus; reflexivity). apply bpow_le. lia. }
  assert (BK : 1 <= bpow radix2 k) by (apply (bpow_le radix2 0 k); lia).
  assert (p0 : 0 < sqrt (t / 2)) by (apply sqrt_lt_R0; lra).
  assert (PB : sqrt (t / 2) <= bpow radix2 k).
  { rewrite <- (sqrt_square (bpow radix2 k)) by lra. apply sqrt_le_1_alt. nra. }
  intros [|i] Hi.
  - change (vat (qfrom_parts (nmul T c) (vmul_s (qvector q) c) : vec fl 4) 0) with (nmul T c).
    change (root_of (fval (q : vec fl 4)) 0) with (sqrt (t / 2)).
    assert (E1 : Rabs (B2R T * B2R c - sqrt (t / 2)) <= 43 / 2 * (u * kappa) * sqrt (t / 2)).
    { rewrite <- TH. replace (B2R T * B2R c - t * h) with ((B2R T - t) * (B2R c - h) + (B2R T - t) * h + t * (B2R c - h)) by ring.
      eapply Rle_trans; [apply Rabs_triang|]. eapply Rle_trans; [apply Rplus_le_compat_r, Rabs_triang|]. rewrite !Rabs_mult, (Rabs_pos_eq h), (Rabs_pos_eq t) by lra.
      assert (Rabs (B2R T - t) * Rabs (B2R c - h) <= 11 * u * kappa * t * (10 * u * kappa * h)) by (apply Rmult_le_compat; try apply Rabs_pos; assumption).
      assert (Rabs (B2R T - t) * h <= 11 * u * kappa * t * h) by (apply Rmult_le_compat_r; lra).
      assert (t * Rabs (B2R c - h) <= t * (10 * u * kappa * h)) by (apply Rmult_le_compat_l; lra).
      assert (11 * u * kappa * t * (10 * u * kappa * h) <= 11 * u * kappa * t * (10 * / 256 * h)).
      { apply Rmult_le_compat_l; [repeat (apply Rmult_le_pos; try lra)|]. apply Rmult_le_compat_r; lra. }
      assert (0 <= u * kappa * t * h) by (repeat (apply Rmult_le_pos; try lra)). lra. }
    assert (SB : u * kappa * sqrt (t / 2) <= / 256 * sqrt (t / 2)) by (apply Rmult_le_compat_r; lra).
    assert (Z2 : Rabs (B2R T * B2R c) <= 2 * sqrt (t / 2)).
    { replace (B2R T * B2R c) with (sqrt (t / 2) + (B2R T * B2R c - sqrt (t / 2))) by ring. eapply Rle_trans; [apply Rabs_triang|]. rewrite (Rabs_pos_eq (sqrt (t / 2))) by lra. lra. }
    destruct (mul_val T c FT FC ltac:(lra)) as (FM & EM). split; [exact FM|]. rewrite EM.
    eapply Rle_trans; [apply (rnd_close _ _ (43 / 2 * (u * kappa)) ltac:(split; [apply Rmult_le_pos; [lra|apply Rmult_le_pos; lra]|lra]) p0 E1)|].
    rewrite (Rabs_pos_eq (sqrt (t / 2))) by lra. assert (u * sqrt (t / 2) <= u * kappa * sqrt (t / 2)) by (apply Rmult_le_compat_r; lra). assert (0 <= u * sqrt (t / 2)) by (apply Rmult_le_pos; lra). lra.
  - assert (Q : vat (qfrom_parts (nmul T c) (vmul_s (qvector q) c) : vec fl 4) (S i) = nmul (vat (q : vec fl 4) (S i)) c).
    { change (nmul (vat (q : vec fl 4) (S i)) c) with (nmul (vat (q : vec fl 4) (S i)) c). destruct i as [|[|[|i]]]; try lia; reflexivity. }
    rewrite Q. change (root_of (fval (q : vec fl 4)) (S i)) with (fval (q : vec fl 4) (S i) * h). set (w := fval (q : vec fl 4) (S i)).
    assert (Fw : is_finite (vat (q : vec fl 4) (S i)) = true) by exact (Fq (S i) Hi).
    assert (WP : principal_root (fval (q : vec fl 4)) (root_of (fval (q : vec fl 4)))) by (apply root_is; exact T0).
    assert (WB : Rabs (w * h) <= bpow radix2 k).
    { destruct WP as (_ & P1 & _). change (root_of (fval (q : vec fl 4)) 0) with (sqrt (t / 2)) in P1. rewrite sqrt_sqrt in P1 by lra.
      assert (SS : root_of (fval (q : vec fl 4)) 1 * root_of (fval (q : vec fl 4)) 1 + root_of (fval (q : vec fl 4)) 2 * root_of (fval (q : vec fl 4)) 2 + root_of (fval (q : vec fl 4)) 3 * root_of (fval (q : vec fl 4)) 3 <= bpow radix2 k).
      { change (fval (q : vec fl 4) 0) with s in P1. unfold t in P1. pose proof (fnrm_comp 4 (fval (q : vec fl 4)) 0 ltac:(lia)) as SR. change (fnrm 4 (fval (q : vec fl 4))) with r in SR. change (fval (q : vec fl 4) 0) with s in SR.
        apply Rabs_le_inv in SR. lra. }
      assert (W2 : w * h * (w * h) <= bpow radix2 k * bpow radix2 k).
      { apply Rle_trans with (bpow radix2 k); [|nra]. destruct i as [|[|[|i]]]; try lia; unfold w;
        [change (fval (q : vec fl 4) 1 * h) with (root_of (fval (q : vec fl 4)) 1)|change (fval (q : vec fl 4) 2 * h) with (root_of (fval (q : vec fl 4)) 2)|change (fval (q : vec fl 4) 3 * h) with (root_of (fval (q : vec fl 4)) 3)]; nra. }
      apply Rsqr_le_abs_0 in W2. rewrite (Rabs_pos_eq (bpow radix2 k)) in W2 by lra. exact W2. }
    assert (E1 : Rabs (w * B2R c - w * h) <= 10 * (u * kappa) * Rabs (w * h)).
    { rewrite <- Rmult_minus_distr_l, !Rabs_mult, (Rabs_pos_eq h) by lra. replace (10 * (u * kappa) * (Rabs w * h)) with (Rabs w * (10 * u * kappa * h)) by ring. apply Rmult_le_compat_l; [apply Rabs_pos|exact EC]. }
    pose proof (Rabs_pos (w * h)) as WA. assert (UW : 0 <= u * kappa * Rabs (w * h) <= / 256 * Rabs (w * h)) by (split; [apply Rmult_le_pos; [apply Rmult_le_pos|]; lra|apply Rmult_le_compat_r; lra]).
    assert (Z2 : Rabs (w * B2R c) <= 9 / 8 * Rabs (w * h)).
    { replace (w * B2R c) with (w * h + (w * B2R c - w * h)) by ring. eapply Rle_trans; [apply Rabs_triang|]. lra. }
    assert (Z3 : Rabs (w * B2R c) <= bpow radix2 (emax - 1)) by lra.
    destruct (mul_val (vat (q : vec fl 4) (S i)) c Fw FC Z3) as (FM & EM). split; [exact FM|]. rewrite EM. change (B2R (vat (q : vec fl 4) (S i))) with w.
    pose proof (rnd_rel (prec := prec) (emax := emax) (w * B2R c)) as RR. set (z := w * B2R c) in *.
    replace (rnd z - w * h) with ((rnd z - z) + (z - w * h)) by ring. eapply Rle_trans; [apply Rabs_triang|].
    assert (u * Rabs z <= u * (9 / 8 * Rabs (w * h))) by (apply Rmult_le_compat_l; lra). assert (u * Rabs (w * h) <= u * kappa * Rabs (w * h)) by (apply Rmult_le_compat_r; lra). lra.
Qed.

Lemma sqrt_main kappa : 3 * u < n -> 1 <= kappa -> 256 * u * kappa <= 1 -> r <= kappa * (r + s) ->
  0 < r + s /\ forall i, (i < 4)%nat -> near_rel (24 * u * kappa) (vat (fqsqrt q : vec fl 4) i) (root_of (fval (q : vec fl 4)) i).
Proof.
  intros NL. pose proof (bpow_gt_0 radix2 (- prec)) as U0. pose proof n_le_r as NR. assert (R1 : u / 2 <= r) by lra.
  assert (B1 : Bleb (qnorm_squared q) (nmul feps feps) = false).
  { destruct (Bleb (qnorm_squared q) (nmul feps feps)) eqn:B; [|reflexivity]. pose proof (@small_branch prec emax Hp He H24 k Hk Hr 4 (q : vec fl 4) ltac:(lia) Fq Rk B). lra. }
  assert (B2 : Bleb (vnorm_squared (qvector q)) (nmul feps feps) = false).
  { destruct (Bleb (vnorm_squared (qvector q)) (nmul feps feps)) eqn:B; [|reflexivity]. pose proof (@small_branch prec emax Hp He H24 k Hk Hr 3 (qvector q) ltac:(lia) Fqv ltac:(lra) B). lra. }
  apply sqrt_core; assumption.
Qed.

Lemma sqrt_big : 1 <= s -> forall i, (i < 4)%nat -> fnear (vat (fqsqrt q : vec fl 4) i) (root_of (fval (q : vec fl 4)) i) (25 * u * sqrt r).
Proof.
  intros S1. pose proof (bpow_gt_0 radix2 (- prec)) as U0. assert (U : u <= / 1024) by (apply u_le, H24). pose proof n_le_r as NR. pose proof len_split as LS. assert (N0 : 0 <= n) by apply fnrm_pos.
  assert (RS : s <= r) by (pose proof (fnrm_comp 4 (fval (q : vec fl 4)) 0 ltac:(lia)) as SR; change (fnrm 4 (fval (q : vec fl 4))) with r in SR; change (fval (q : vec fl 4) 0) with s in SR; apply Rabs_le_inv in SR; lra).
  assert (R1 : 1 <= sqrt r) by (rewrite <- sqrt_1; apply sqrt_le_1_alt; lra).
  assert (WP : principal_root (fval (q : vec fl 4)) (root_of (fval (q : vec fl 4)))) by (apply root_is; change (fval (q : vec fl 4) 0) with s; lra).
  assert (P0 : root_of (fval (q : vec fl 4)) 0 = sqrt ((r + s) / 2)) by reflexivity.
  assert (PR : forall i, (i < 4)%nat -> Rabs (root_of (fval (q : vec fl 4)) i) <= sqrt r).
  { destruct WP as (A1 & A2 & _). rewrite P0 in A2. rewrite sqrt_sqrt in A2 by lra. change (fval (q : vec fl 4) 0) with s in A2.
    assert (RR : sqrt r * sqrt r = r) by (apply sqrt_sqrt; lra).
    assert (G : forall x, x * x <= r -> Rabs x <= sqrt r) by (intros x X; rewrite <- RR in X; apply Rsqr_le_abs_0 in X; rewrite (Rabs_pos_eq (sqrt r)) in X by lra; exact X).
    intros [|[|[|[|i]]]] Hi; try lia; apply G; [rewrite P0, sqrt_sqrt by lra; lra|nra|nra|nra]. }
  assert (B1 : Bleb (qnorm_squared q) (nmul feps feps) = false).
  { destruct (Bleb (qnorm_squared q) (nmul feps feps)) eqn:B; [|reflexivity]. pose proof (@small_branch prec emax Hp He H24 k Hk Hr 4 (q : vec fl 4) ltac:(lia) Fq Rk B). lra. }
  destruct (Bleb (vnorm_squared (qvector q)) (nmul feps feps)) eqn:B2.
  - pose proof (@small_branch prec emax Hp He H24 k Hk Hr 3 (qvector q) ltac:(lia) Fqv ltac:(lra) B2) as NS.
    destruct (@size_any prec emax Hp He H24 k Hk Hr 4 (q : vec fl 4) ltac:(lia) Fq ltac:(lra) Rk) as (FN & EN). change (vnorm_squared (q : vec fl 4)) with (qnorm_squared q) in *. set (N := fsqrt (qnorm_squared q)) in *.
    unfold fqsqrt, fqsqrt_eps. cbv zeta. rewrite B1, B2. fold N.
    assert (L1 : Bltb (n0 : fl) (qscalar q) = true).
    { rewrite Bltb_correct; [|reflexivity|exact (Fq 0%nat ltac:(lia))]. apply Rlt_bool_true. change (B2R (n0 : fl)) with 0. lra. }
    rewrite L1.
    assert (UR : u * r <= / 1024 * r) by (apply Rmult_le_compat_r; lra).
    assert (NP : 0 < B2R N) by (apply Rabs_le_inv in EN; lra).
    assert (NN : nn N) by (unfold N; apply nn_sqrt; exact (nn_norm2 4 (q : vec fl 4) Fq)).
    destruct (sqrt_R N NN FN) as (FC & EC).
    assert (r0 : 0 < r) by lra. assert (N1 : 0 <= B2R N) by lra. assert (U8 : 0 <= 8 * u <= / 8) by lra.
    pose proof (sqrt_half (B2R N) r (8 * u) r0 N1 U8 EN) as SH.
    assert (T1 : tiny <= / 16 * u).
    { replace (/ 16 * u) with (bpow radix2 (-4 + - prec)) by (rewrite bpow_plus; reflexivity). apply bpow_le. lia. }
    assert (UR1 : u * 1 <= u * sqrt r) by (apply Rmult_le_compat_l; lra).
    assert (U9 : 0 <= 9 / 16 * (8 * u) <= / 8) by lra. assert (sr0 : 0 < sqrt r) by lra.
    pose proof (rnd_close _ _ (9 / 16 * (8 * u)) U9 sr0 SH) as RC. rewrite <- EC in RC.
    assert (D : Rabs (sqrt r - sqrt ((r + s) / 2)) <= u * sqrt r).
    { assert (RD : Rabs ((r + s) / 2 - r) <= u * r).
      { replace ((r + s) / 2 - r) with (- ((r - s) / 2)) by field. rewrite Rabs_Ropp, Rabs_pos_eq by lra.
        assert (E9 : (r - s) * (r + s) <= 9 * u * u) by nra. assert ((r - s) * 2 <= 9 * u * u) by nra. nra. }
      assert (m0 : 0 <= (r + s) / 2) by lra. assert (U7 : 0 <= u <= / 8) by lra.
      rewrite Rabs_minus_sym. eapply Rle_trans; [apply (sqrt_half _ _ u r0 m0 U7 RD)|]. nra. }
    intros [|i] Hi.
    + change (vat (qfrom_real (fsqrt N) : vec fl 4) 0) with (fsqrt N). split; [exact FC|]. rewrite P0.
      replace (B2R (fsqrt N) - sqrt ((r + s) / 2)) with ((B2R (fsqrt N) - sqrt r) + (sqrt r - sqrt ((r + s) / 2))) by ring. eapply Rle_trans; [apply Rabs_triang|]. nra.
    + assert (Q : vat (qfrom_real (fsqrt N) : vec fl 4) (S i) = (n0 : fl)) by (destruct i as [|[|[|i]]]; try lia; reflexivity). rewrite Q. split; [reflexivity|].
      change (B2R (n0 : fl)) with 0. rewrite Rminus_0_l, Rabs_Ropp. change (root_of (fval (q : vec fl 4)) (S i)) with (fval (q : vec fl 4) (S i) * sqrt (/ 2 / (r + s))).
      rewrite Rabs_mult. assert (VB : Rabs (fval (q : vec fl 4) (S i)) <= n).
      { destruct i as [|[|[|i]]]; try lia; [exact (fnrm_comp 3 (fval (qvector q)) 0 ltac:(lia))|exact (fnrm_comp 3 (fval (qvector q)) 1 ltac:(lia))|exact (fnrm_comp 3 (fval (qvector q)) 2 ltac:(lia))]. }
      assert (HB : Rabs (sqrt (/ 2 / (r + s))) <= 1).
      { rewrite Rabs_pos_eq by apply sqrt_pos. rewrite <- sqrt_1. apply sqrt_le_1_alt. apply (Rmult_le_reg_r (r + s)); [lra|]. unfold Rdiv. rewrite Rmult_assoc, Rinv_l by lra. lra. }
      assert (Rabs (fval (q : vec fl 4) (S i)) * Rabs (sqrt (/ 2 / (r + s))) <= 3 * u * 1) by (apply Rmult_le_compat; try apply Rabs_pos; lra). lra.
  - destruct (sqrt_core 1 ltac:(lra) B1 B2 ltac:(lra) ltac:(lra) ltac:(lra)) as (_ & M). intros i Hi. destruct (M i Hi) as (F & E). split; [exact F|]. eapply Rle_trans; [exact E|]. specialize (PR i Hi).
    assert (24 * u * 1 * Rabs (root_of (fval (q : vec fl 4)) i) <= 24 * u * 1 * sqrt r) by (apply Rmult_le_compat_l; lra).
    assert (tiny <= u) by (apply bpow_le; lia). assert (u * 1 <= u * sqrt r) by (apply Rmult_le_compat_l; lra). lra.
Qed.
End Root.
End F.
