(** Integer powers of complex floats: the proofs of the property theorems of PPowF.v. *)

From Coq Require Import List Arith ZArith Bool Lia Reals Lra Psatz.
From Flocq Require Import Core.Core IEEE754.BinarySingleNaN.
From Verif Require Import Base Scalar Spec LBase MComplex LComplex LComplexR MFloat LFloat LFloatP LFloatNormP MFloatVec LFloatVec MSign LTrScF
  SpecPowF MPowF LPowFA LPowFB.
Local Open Scope R_scope.

Lemma zpow_cprod a b n : cprod (mkC a b) n = mkC (fst (zpow a b n)) (snd (zpow a b n)).
Proof.
  induction n as [|n IH]; [reflexivity|]. cbn [cprod zpow fst snd]. rewrite IH. apply complex_eq; cbn; ring.
Qed.

Lemma pow_small (x : R) (m : nat) : 0 <= x -> INR m * x <= / 4 -> (1 + x) ^ m - 1 <= 4 / 3 * (INR m * x) /\ (1 + x) ^ m <= 4 / 3.
Proof.
  intros X H. assert (G : forall k, (k <= m)%nat -> (1 + x) ^ k * (1 - INR k * x) <= 1).
  { induction k as [|k IH]; intros Hk; [cbn; lra|]. specialize (IH ltac:(lia)). rewrite S_INR. cbn [pow].
    assert (P : 0 <= (1 + x) ^ k) by (apply pow_le; lra). pose proof (pos_INR k) as K.
    assert (I : 0 <= (INR k + 1) * (x * x)) by (apply Rmult_le_pos; nra).
    assert (J : (1 + x) * (1 - (INR k + 1) * x) <= 1 - INR k * x) by nra.
    assert (T : (1 + x) ^ k * ((1 + x) * (1 - (INR k + 1) * x)) <= (1 + x) ^ k * (1 - INR k * x)) by (apply Rmult_le_compat_l; assumption). lra. }
  specialize (G m ltac:(lia)). assert (P : 0 <= (1 + x) ^ m) by (apply pow_le; lra).
  assert (Y : 0 <= INR m * x) by (apply Rmult_le_pos; [apply pos_INR|exact X]). set (y := INR m * x) in *. set (p := (1 + x) ^ m) in *.
  assert (p <= 4 / 3) by nra. split; [|lra]. nra.
Qed.

Lemma cn_parts (x1 x2 e1 e2 k t : R) : 0 <= k -> 0 <= t -> Rabs e1 <= k * Rabs x1 + t -> Rabs e2 <= k * Rabs x2 + t ->
  cn (mkC e1 e2) <= k * cn (mkC x1 x2) + 1.5 * t.
Proof.
  intros K T H1 H2. pose proof (cn_pos (mkC x1 x2)) as P. pose proof (cn_sq (mkC x1 x2)) as Q. cbn [re im] in *.
  set (p := cn (mkC x1 x2)) in *. set (X := Rabs x1) in *. set (Y := Rabs x2) in *.
  assert (X0 : 0 <= X) by apply Rabs_pos. assert (Y0 : 0 <= Y) by apply Rabs_pos.
  assert (SX : X * X = x1 * x1) by (unfold X; rewrite <- Rabs_mult; apply Rabs_pos_eq; nra).
  assert (SY : Y * Y = x2 * x2) by (unfold Y; rewrite <- Rabs_mult; apply Rabs_pos_eq; nra).
  assert (S : X + Y <= 1.5 * p).
  { apply Rsqr_incr_0_var; [|lra]. unfold Rsqr. pose proof (Rle_0_sqr (X - Y)) as Z. unfold Rsqr in Z. nra. }
  assert (KP : 0 <= k * p) by (apply Rmult_le_pos; assumption).
  apply cn_le; [lra|]. cbn [re im].
  assert (E1 : e1 * e1 <= (k * X + t) * (k * X + t)). { apply Rabs_le_inv in H1. assert (0 <= k * X) by (apply Rmult_le_pos; assumption). nra. }
  assert (E2 : e2 * e2 <= (k * Y + t) * (k * Y + t)). { apply Rabs_le_inv in H2. assert (0 <= k * Y) by (apply Rmult_le_pos; assumption). nra. }
  assert (KT : 0 <= k * t) by (apply Rmult_le_pos; assumption).
  assert (M : k * t * (X + Y) <= k * t * (1.5 * p)) by (apply Rmult_le_compat_l; assumption).
  assert (N : k * k * (X * X + Y * Y) = k * k * (p * p)) by (rewrite SX, SY, Q; reflexivity).
  nra.
Qed.

Lemma rl_near {prec emax} (x : complex (binary_float prec emax)) a b n d e : rl d x (cprod (mkC a b) n) ->
  d * sqrt (a * a + b * b) ^ n <= e -> znear x (zpow a b n) e.
Proof.
  intros (F & H) L. apply andb_true_iff in F. destruct F as (F1 & F2). split; [exact F1|]. split; [exact F2|].
  rewrite cn_cprod in H. rewrite zpow_cprod in H. eapply Rle_trans; [|exact L]. exact H.
Qed.

Section P.
Context {prec emax : Z} {Hp : Prec_gt_0 prec} {He : Prec_lt_emax prec emax}.
Notation fl := (binary_float prec emax).
Notation u := (bpow radix2 (- prec)).

Lemma rl_start (z : complex fl) : cis_finite z = true -> rl 0 z (cR z).
Proof.
  intros F. split; [exact F|]. replace (csub (cR z) (cR z)) with (mkC 0 0) by (apply complex_eq; cbn; ring).
  unfold cn at 1. cbn [re im]. replace (0 * 0 + 0 * 0) with 0 by ring. rewrite sqrt_0. lra.
Qed.
(** The rounded inverse from which negative powers start. *)
Lemma inv_start (z : complex fl) : (24 <= prec)%Z -> cis_finite z = true ->
  let A := cn (cR z) in
  bpow radix2 (7 - emax) <= A * A <= bpow radix2 (emax - 4) -> bpow radix2 (7 - emax) <= 1 / A <= bpow radix2 (emax - 4) ->
  nis0 (cmodulus_squared z) = false /\
  rl (4 * u) (mkC (ndiv (re z) (cmodulus_squared z)) (ndiv (nneg (im z)) (cmodulus_squared z)))
     (mkC (B2R (re z) / (A * A)) (- B2R (im z) / (A * A))).
Proof.
  intros H F A L M. pose proof (u_small H) as U. apply cfin in F. destruct F as (F1 & F2).
  pose proof (bpow_gt_0 radix2 (7 - emax)) as T. pose proof (cn_pos (cR z)) as A0. fold A in A0.
  assert (A1 : 0 < A). { destruct (Rle_lt_or_eq_dec _ _ A0) as [X|X]; [exact X|]. rewrite <- X in L. lra. }
  pose proof (cn_re (cR z)) as Ba. pose proof (cn_im (cR z)) as Bb. pose proof (cn_sq (cR z)) as Sq. cbn [cR re im] in Ba, Bb, Sq. fold A in Ba, Bb, Sq.
  set (a := B2R (re z)) in *. set (b := B2R (im z)) in *.
  assert (EP : bpow radix2 (emax - 3) = 2 * bpow radix2 (emax - 4)). { replace (emax - 3)%Z with (1 + (emax - 4))%Z by ring. rewrite bpow_plus. reflexivity. }
  assert (EQ : bpow radix2 (emax - 1) = 8 * bpow radix2 (emax - 4)). { replace (emax - 1)%Z with (3 + (emax - 4))%Z by ring. rewrite bpow_plus. reflexivity. }
  assert (ET : bpow radix2 (7 - emax) = 32 * bpow radix2 (2 - emax)). { replace (7 - emax)%Z with (5 + (2 - emax))%Z by ring. rewrite bpow_plus. reflexivity. }
  pose proof (bpow_gt_0 radix2 (emax - 4)) as BP. pose proof (bpow_gt_0 radix2 (2 - emax)) as T2.
  assert (Q1 : Rabs (a * a) <= A * A) by (rewrite Rabs_mult; apply Rmult_le_compat; auto using Rabs_pos).
  assert (Q2 : Rabs (b * b) <= A * A) by (rewrite Rabs_mult; apply Rmult_le_compat; auto using Rabs_pos).
  destruct (dot2 (re z) (im z) (re z) (im z) (A * A) H F1 F2 F1 F2 Q1 Q2 ltac:(lra)) as ((FN & EN) & _).
  change (nadd (nmul (re z) (re z)) (nmul (im z) (im z))) with (cmodulus_squared z) in FN, EN.
  set (N := cmodulus_squared z) in *. fold a b in EN. rewrite <- Sq in EN.
  rewrite (Rabs_pos_eq (a * a)), (Rabs_pos_eq (b * b)), <- Sq in EN by nra.
  set (S := A * A) in *.
  assert (S0 : 0 < S) by (unfold S; apply Rmult_lt_0_compat; assumption).
  assert (E1 : Rabs (B2R N - S) <= 2.1 * u * S).
  { eapply Rle_trans; [exact EN|]. assert (u * bpow radix2 (2 - emax) <= u * (S / 32)) by (apply Rmult_le_compat_l; lra).
    assert (0 <= u * S) by (apply Rmult_le_pos; lra). lra. }
  apply Rabs_le_inv in E1. assert (US : 0 <= u * S <= / 16777216 * S) by (split; [apply Rmult_le_pos; lra|apply Rmult_le_compat_r; lra]).
  assert (N0 : 0 < B2R N) by lra.
  split.
  { cbn [nis0 numdiv_float]. rewrite Beqb_correct by (exact FN || reflexivity). cbn [B2R]. apply Req_bool_false. lra. }
  assert (IN : Rabs (1 / B2R N - 1 / S) <= 2.2 * u * (1 / S)).
  { replace (1 / B2R N - 1 / S) with ((S - B2R N) / B2R N * (1 / S)) by (field; split; lra).
    assert (I0 : 0 < 1 / S) by (apply Rdiv_lt_0_compat; lra). rewrite Rabs_mult, (Rabs_pos_eq (1 / S)) by lra.
    apply Rmult_le_compat_r; [lra|]. unfold Rdiv. rewrite Rabs_mult, (Rabs_pos_eq (/ B2R N)) by (left; apply Rinv_0_lt_compat; exact N0).
    apply Rmult_le_reg_r with (B2R N); [exact N0|]. rewrite Rmult_assoc, Rinv_l, Rmult_1_r by lra.
    apply Rabs_le. nra. }
  set (I := 1 / S) in *. assert (I0 : 0 < I) by (apply Rdiv_lt_0_compat; lra).
  assert (AI : A * I = 1 / A) by (unfold I, S; field; lra).
  assert (P1 : forall x : fl, is_finite x = true -> Rabs (B2R x) <= A ->
    is_finite (ndiv x N) = true /\ Rabs (B2R (ndiv x N) - B2R x / S) <= 3.3 * u * Rabs (B2R x / S) + u * bpow radix2 (2 - emax)).
  { intros x Fx Bx.
    assert (X1 : Rabs (B2R x / B2R N - B2R x / S) <= 2.2 * u * Rabs (B2R x / S)).
    { replace (B2R x / B2R N - B2R x / S) with (B2R x * (1 / B2R N - I)) by (unfold I; field; split; lra).
      replace (B2R x / S) with (B2R x * I) by (unfold I; field; lra). rewrite !Rabs_mult, (Rabs_pos_eq I) by lra.
      replace (2.2 * u * (Rabs (B2R x) * I)) with (Rabs (B2R x) * (2.2 * u * I)) by ring. apply Rmult_le_compat_l; [apply Rabs_pos|exact IN]. }
    assert (X2 : Rabs (B2R x / S) <= 1 / A).
    { replace (B2R x / S) with (B2R x * I) by (unfold I; field; lra). rewrite Rabs_mult, (Rabs_pos_eq I) by lra. rewrite <- AI. apply Rmult_le_compat_r; lra. }
    set (r := B2R x / S) in *. set (q := B2R x / B2R N) in *. pose proof (Rabs_pos r) as R0.
    assert (UR : 0 <= u * Rabs r <= / 16777216 * Rabs r) by (split; [apply Rmult_le_pos; lra|apply Rmult_le_compat_r; lra]).
    assert (X3 : Rabs q <= Rabs r + 2.2 * u * Rabs r). { replace q with (r + (q - r)) by ring. eapply Rle_trans; [apply Rabs_triang|]. lra. }
    destruct (fdiv_fin x N Fx ltac:(lra)) as (Fd & d & e & Hd & Ht & Ed); [fold q; lra|]. split; [exact Fd|].
    rewrite funit_eq in Hd. rewrite eta_eq in Ht. fold q in Ed. rewrite Ed.
    replace (q * (1 + d) + e - r) with ((q - r) + q * d + e) by ring.
    eapply Rle_trans; [apply Rabs_triang|]. eapply Rle_trans; [apply Rplus_le_compat_r; apply Rabs_triang|]. rewrite (Rabs_mult q).
    assert (Rabs q * Rabs d <= (Rabs r + 2.2 * u * Rabs r) * u) by (apply Rmult_le_compat; auto using Rabs_pos).
    assert (u * (u * Rabs r) <= / 16777216 * (u * Rabs r)) by (apply Rmult_le_compat_r; lra). nra. }
  destruct (P1 (re z) F1 Ba) as (G1 & K1).
  assert (Fn : is_finite (nneg (im z)) = true) by (cbn [nneg num_float]; rewrite is_finite_Bopp; exact F2).
  assert (Rn : B2R (nneg (im z)) = - b) by apply B2R_Bopp.
  destruct (P1 (nneg (im z)) Fn ltac:(rewrite Rn, Rabs_Ropp; exact Bb)) as (G2 & K2). rewrite Rn in K2. fold a in K1.
  assert (Cn : cn (mkC (a / S) (- b / S)) = 1 / A).
  { unfold cn. cbn [re im]. replace (a / S * (a / S) + - b / S * (- b / S)) with ((a * a + b * b) * (I * I)) by (unfold I; field; lra).
    rewrite <- Sq. replace (S * (I * I)) with (Rsqr (A * I)) by (unfold S, Rsqr; ring). rewrite sqrt_Rsqr by nra. exact AI. }
  split; [apply cfin; split; assumption|]. rewrite Cn.
  eapply Rle_trans; [eapply (cn_parts (a / S) (- b / S) _ _ (3.3 * u) (u * bpow radix2 (2 - emax)))|].
  - lra.
  - apply Rmult_le_pos; lra.
  - exact K1.
  - exact K2.
  - rewrite Cn. assert (u * bpow radix2 (2 - emax) <= u * (1 / A / 32)) by (apply Rmult_le_compat_l; lra).
    assert (0 <= u * (1 / A)) by (apply Rmult_le_pos; lra). lra.
Qed.
End P.

Theorem c147_positive (prec emax : Z) (Hp : Prec_gt_0 prec) (He : Prec_lt_emax prec emax) (z : complex (binary_float prec emax)) (n : nat) :
  let a := B2R (re z) in let b := B2R (im z) in let A := sqrt (a * a + b * b) in
  (24 <= prec)%Z -> (1 <= n)%nat -> is_finite (re z) = true -> is_finite (im z) = true ->
  bpow radix2 (7 - emax) <= A <= bpow radix2 (emax - 4) -> bpow radix2 (7 - emax) <= A ^ n <= bpow radix2 (emax - 4) ->
  12 * INR n * bpow radix2 (- prec) <= 1 ->
  exists w w', cpowu z n = Some w /\ fcpowi z (Z.of_nat n) = Some w' /\
    znear w (zpow a b n) (4 * (INR n - 1) * bpow radix2 (- prec) * A ^ n) /\
    znear w' (zpow a b n) (4 * (INR n - 1) * bpow radix2 (- prec) * A ^ n).
Proof.
  intros a b A H Hn F1 F2 L1 Ln G. pose proof (u_small H) as U.
  assert (F : cis_finite z = true) by (apply andb_true_iff; auto).
  assert (A0 : 0 <= A) by apply sqrt_pos.
  assert (Rng : forall j, (1 <= j <= n)%nat -> bpow radix2 (7 - emax) <= cn (cR z) ^ j <= bpow radix2 (emax - 4)).
  { intros j Hj. apply (pow_between A _ _ n j); assumption. }
  destruct (pow_small (3 * bpow radix2 (- prec)) n) as (_ & D1); [lra|lra|].
  destruct (pow_small (3 * bpow radix2 (- prec)) (n - 1)) as (D2 & _); [lra|rewrite minus_INR by lia; cbn [INR]; lra|].
  assert (Dn : (1 + 0) ^ n * (1 + 3 * bpow radix2 (- prec)) ^ n <= 2) by (rewrite Rplus_0_r, pow1; lra).
  assert (X : ap (cR z) 0 z 1).
  { split; [lia|]. rewrite cprod_1. unfold grow. cbn [Nat.sub pow]. replace ((1 + 0) * 1 * 1 - 1) with 0 by ring. apply rl_start. exact F. }
  assert (B : grow (prec := prec) 0 n * A ^ n <= 4 * (INR n - 1) * bpow radix2 (- prec) * A ^ n).
  { apply Rmult_le_compat_r; [apply pow_le; exact A0|]. unfold grow. rewrite Rplus_0_r, pow1, Rmult_1_l.
    eapply Rle_trans; [exact D2|]. rewrite minus_INR by lia. cbn [INR]. lra. }
  destruct (powu_loop H (cR z) 0 n (Rle_refl 0) Rng Dn z ltac:(lia) X) as (w & E & _ & Hw).
  destruct (powi_pos_loop H (cR z) 0 n (Rle_refl 0) Rng Dn z ltac:(lia) X) as (w' & E' & _ & Hw').
  exists w, w'. split; [exact E|]. split; [exact E'|].
  split; eapply rl_near; try exact B; assumption.
Qed.

Theorem c147_negative_partial (prec emax : Z) (Hp : Prec_gt_0 prec) (He : Prec_lt_emax prec emax) (z : complex (binary_float prec emax)) (k m : nat) :
  let a := B2R (re z) in let b := B2R (im z) in let S := a * a + b * b in let I := / sqrt S in
  (24 <= prec)%Z -> Nat.odd m = true -> is_finite (re z) = true -> is_finite (im z) = true ->
  bpow radix2 (7 - emax) <= S <= bpow radix2 (emax - 4) -> bpow radix2 (7 - emax) <= I <= bpow radix2 (emax - 4) ->
  bpow radix2 (7 - emax) <= I ^ (2 ^ k) <= bpow radix2 (emax - 4) ->
  32 * INR (2 ^ k) * bpow radix2 (- prec) <= 1 ->
  exists w, fcpowi z (- Z.of_nat (2 ^ k * m)) = Some w /\
    znear w (zpow (a / S) (- b / S) (2 ^ k)) (11 * INR (2 ^ k) * bpow radix2 (- prec) * I ^ (2 ^ k)).
Proof.
  intros a b S I H Hm F1 F2 L1 L2 Ln G. pose proof (u_small H) as U.
  assert (F : cis_finite z = true) by (apply andb_true_iff; auto).
  assert (K1 : (1 <= 2 ^ k)%nat) by (apply Nat.neq_0_lt_0, Nat.pow_nonzero; lia). set (n := (2 ^ k)%nat) in *.
  set (A := cn (cR z)). assert (SA : A * A = S) by apply cn_sq. assert (IA : I = 1 / A) by (unfold I, A, cn, Rdiv; cbn [cR re im]; fold a b S; ring).
  destruct (inv_start z H F) as (Z0 & B0).
  { fold A. rewrite SA. exact L1. }
  { fold A. rewrite <- IA. exact L2. }
  fold A in B0. rewrite SA in B0. fold a b in B0.
  set (V := mkC (a / S) (- b / S)) in *.
  assert (S0 : 0 < S) by (pose proof (bpow_gt_0 radix2 (7 - emax)); lra).
  assert (A0 : 0 < A). { pose proof (cn_pos (cR z)) as P. fold A in P. destruct (Rle_lt_or_eq_dec _ _ P) as [X|X]; [exact X|]. rewrite <- X in SA. lra. }
  assert (Cn : cn V = I).
  { unfold cn, V. cbn [re im]. replace (a / S * (a / S) + - b / S * (- b / S)) with (Rsqr (1 / A)).
    - rewrite sqrt_Rsqr; [symmetry; exact IA|]. left. apply Rdiv_lt_0_compat; lra.
    - transitivity (1 / S); [rewrite <- SA; unfold Rsqr; field; lra|]. unfold S in *. field. lra. }
  assert (I0 : 0 <= I) by (pose proof (bpow_gt_0 radix2 (7 - emax)); lra).
  assert (Rng : forall j, (1 <= j <= n)%nat -> bpow radix2 (7 - emax) <= cn V ^ j <= bpow radix2 (emax - 4)).
  { intros j Hj. rewrite Cn. apply (pow_between I _ _ n j); assumption. }
  assert (I2 : INR (n + n) = 2 * INR n) by (rewrite plus_INR; ring).
  destruct (pow_small (4 * bpow radix2 (- prec)) (n + n)) as (D2 & D1); [lra|rewrite I2; lra|]. rewrite I2 in D2. rewrite pow_add in D1, D2.
  assert (P4 : 1 <= (1 + 4 * bpow radix2 (- prec)) ^ n) by (apply pow_R1_Rle; lra).
  assert (P34 : (1 + 3 * bpow radix2 (- prec)) ^ n <= (1 + 4 * bpow radix2 (- prec)) ^ n) by (apply pow_incr; lra).
  assert (P33 : (1 + 3 * bpow radix2 (- prec)) ^ (n - 1) <= (1 + 3 * bpow radix2 (- prec)) ^ n) by (apply Rle_pow; [lra|lia]).
  set (p4 := (1 + 4 * bpow radix2 (- prec)) ^ n) in *.
  assert (Dn : (1 + 4 * bpow radix2 (- prec)) ^ n * (1 + 3 * bpow radix2 (- prec)) ^ n <= 2).
  { fold p4. assert (p4 * (1 + 3 * bpow radix2 (- prec)) ^ n <= p4 * p4) by (apply Rmult_le_compat_l; lra). lra. }
  assert (Gr : grow (prec := prec) (4 * bpow radix2 (- prec)) n <= 11 * INR n * bpow radix2 (- prec)).
  { unfold grow. fold p4. assert (p4 * (1 + 3 * bpow radix2 (- prec)) ^ (n - 1) <= p4 * p4) by (apply Rmult_le_compat_l; lra).
    assert (0 <= INR n * bpow radix2 (- prec)) by (apply Rmult_le_pos; [apply pos_INR|lra]). lra. }
  assert (X : ap V (4 * bpow radix2 (- prec)) (mkC (ndiv (re z) (cmodulus_squared z)) (ndiv (nneg (im z)) (cmodulus_squared z))) 1).
  { split; [lia|]. rewrite cprod_1. unfold grow. cbn [Nat.sub pow]. replace ((1 + 4 * bpow radix2 (- prec)) * 1 * 1 - 1) with (4 * bpow radix2 (- prec)) by ring. exact B0. }
  destruct (powi_neg_loop H V (4 * bpow radix2 (- prec)) n ltac:(lra) Rng Dn z _ k m Hm eq_refl Z0 eq_refl X) as (w & E & _ & Hw).
  exists w. split; [exact E|]. unfold V in Hw. eapply rl_near; [exact Hw|]. change (sqrt (a / S * (a / S) + - b / S * (- b / S))) with (cn V). rewrite Cn.
  apply Rmult_le_compat_r; [apply pow_le; exact I0|exact Gr].
Qed.

Theorem c147_special (prec emax : Z) (Hp : Prec_gt_0 prec) (He : Prec_lt_emax prec emax) (z : complex (binary_float prec emax)) :
  cpowu z 0 = Some (mkC n1 n0) /\ fcpowi z 0 = Some (mkC n1 n0) /\
  (forall n, (0 < n)%Z -> cis_nan z = true -> fcpowi z n = Some z) /\
  (forall n, (n < 0)%Z -> cis_nan z = true -> exists w, fcpowi z n = Some w /\ cis_nan w = true) /\
  (forall n, (n < 0)%Z -> B2R (cmodulus_squared z) = 0 -> is_finite (cmodulus_squared z) = true -> exists w, fcpowi z n = Some w /\ is_nan (re w) = true /\ is_nan (im w) = true).
Proof.
  split; [reflexivity|]. split; [reflexivity|]. split; [|split].
  - intros n Hn N. unfold fcpowi. destruct (Z.eqb_spec n 0); [lia|]. destruct (Z.ltb_spec 0 n); [|lia]. cbv zeta. rewrite N. reflexivity.
  - intros n Hn N. unfold fcpowi. destruct (Z.eqb_spec n 0); [lia|]. destruct (Z.ltb_spec 0 n); [lia|]. cbv zeta.
    match goal with |- context [cis_nan ?b] => set (base := b) end.
    assert (B : cis_nan base = true).
    { unfold base. destruct (nis0 (cmodulus_squared z)); [reflexivity|]. unfold cis_nan in *. cbn [re im]. apply orb_true_iff in N.
      destruct N as [N|N]; [destruct (re z); try discriminate; reflexivity|].
      destruct (im z); try discriminate. cbn [nneg num_float Bopp ndiv numdiv_float Bdiv is_nan]. apply orb_true_r. }
    rewrite B. exists base. split; [reflexivity|exact B].
  - intros n Hn Z F. unfold fcpowi. destruct (Z.eqb_spec n 0); [lia|]. destruct (Z.ltb_spec 0 n); [lia|]. cbv zeta.
    assert (Q : nis0 (cmodulus_squared z) = true).
    { cbn [nis0 numdiv_float]. rewrite Beqb_correct by (exact F || reflexivity). rewrite Z. apply Req_bool_true. reflexivity. }
    rewrite Q. exists (mkC B754_nan B754_nan). split; [reflexivity|]. split; reflexivity.
Qed.

Definition opt_parts (o : option (complex f64)) : option (SpecFloat.spec_float * SpecFloat.spec_float) :=
  match o with Some w => Some (B2SF (re w), B2SF (im w)) | None => None end.
Lemma opt_parts_some o a b : opt_parts o = Some (a, b) -> exists w, o = Some w /\ B2SF (re w) = a /\ B2SF (im w) = b.
Proof. destruct o as [w|]; [|discriminate]. intros E. injection E as E1 E2. exists w. auto. Qed.

Theorem c147_negative_refuted :
  exists (z w : complex f64) (n : Z), (n < 0)%Z /\ B2R (re z) = 2 /\ B2R (im z) = 0 /\ fcpowi z n = Some w /\
    B2R (re w) = / 2 /\ fst (zpow (/ 2) 0 (Z.to_nat (- n))) = / 8.
Proof.
  destruct (opt_parts_some (fcpowi (mkC (f64_of_Z 2) (f64_of_Z 0)) (-3))
    (SpecFloat.S754_finite false 4503599627370496 (-53)) (SpecFloat.S754_zero true)) as (w & E & E1 & _); [vm_compute; reflexivity|].
  exists (mkC (f64_of_Z 2) (f64_of_Z 0)), w, (-3)%Z.
  split; [lia|]. split; [apply f64_of_Z_exact; lia|]. split; [apply f64_of_Z_exact; lia|].
  split; [exact E|]. split; [|change (Z.to_nat (- -3)) with 3%nat; cbn [zpow fst snd]; field].
  rewrite <- SF2R_B2SF, E1. unfold SF2R, F2R. cbn [Fnum Fexp SpecFloat.cond_Zopp]. change (bpow radix2 (-53)) with (/ 9007199254740992). lra.
Qed.

Theorem c147_overflow_refuted :
  exists (z w : complex f64), is_finite (re z) = true /\ B2R (im z) = 0 /\ is_finite (im z) = true /\ cpowu z 3 = Some w /\
    re w = B754_infinity false /\ is_nan (im w) = true.
Proof.
  destruct (opt_parts_some (cpowu (mkC (f64_of_Z (2 ^ 600)) (f64_of_Z 0)) 3)
    (SpecFloat.S754_infinity false) SpecFloat.S754_nan) as (w & E & E1 & E2); [vm_compute; reflexivity|].
  exists (mkC (f64_of_Z (2 ^ 600)) (f64_of_Z 0)), w. split; [vm_compute; reflexivity|]. split; [apply f64_of_Z_exact; lia|]. split; [reflexivity|].
  split; [exact E|]. split; [apply B2SF_inj; exact E1|]. destruct (im w); try discriminate; reflexivity.
Qed.

Theorem c147_example :
  let z : complex f64 := mkC (f64_of_Z 3) (f64_of_Z (-4)) in
  is_finite (re z) = true /\ is_finite (im z) = true /\
  bpow radix2 (7 - 1024) <= sqrt (B2R (re z) * B2R (re z) + B2R (im z) * B2R (im z)) <= bpow radix2 (1024 - 4) /\
  bpow radix2 (7 - 1024) <= sqrt (B2R (re z) * B2R (re z) + B2R (im z) * B2R (im z)) ^ 5 <= bpow radix2 (1024 - 4) /\
  12 * INR 5 * bpow radix2 (- 53) <= 1 /\ zpow 3 (-4) 5 = (-237, 3116) /\
  exists w, cpowu z 5 = Some w /\ B2SF (re w) = B2SF (f64_of_Z (-237)) /\ B2SF (im w) = B2SF (f64_of_Z 3116).
Proof.
  destruct (f64_of_Z_exact 3 ltac:(lia)) as (E1 & F1). destruct (f64_of_Z_exact (-4) ltac:(lia)) as (E2 & F2).
  intros z. split; [exact F1|]. split; [exact F2|].
  assert (Q : sqrt (B2R (re z) * B2R (re z) + B2R (im z) * B2R (im z)) = 5).
  { assert (R1 : B2R (re z) = 3) by exact E1. assert (R2 : B2R (im z) = -4) by exact E2. rewrite R1, R2.
    replace (3 * 3 + -4 * -4) with (Rsqr 5) by (unfold Rsqr; ring). apply sqrt_Rsqr. lra. }
  rewrite Q.
  assert (L : bpow radix2 (7 - 1024) <= 1) by (change 1 with (bpow radix2 0); apply bpow_le; lia).
  assert (M : 4096 <= bpow radix2 (1024 - 4)) by (change 4096 with (bpow radix2 12); apply bpow_le; lia).
  assert (T : bpow radix2 (-53) <= / 4096) by (change (/ 4096) with (bpow radix2 (-12)); apply bpow_le; lia).
  split; [lra|]. split; [cbn [pow]; lra|]. split; [cbn [INR]; lra|]. split; [cbn; f_equal; ring|].
  destruct (opt_parts_some (cpowu z 5) (B2SF (f64_of_Z (-237))) (B2SF (f64_of_Z 3116))) as (w & E); [vm_compute; reflexivity|].
  exists w. exact E.
Qed.
