(** Proofs of the property theorems about quaternions of rotation matrices in floats (C131). *)

From Coq Require Import Arith ZArith Lia Reals Lra Psatz.
From Flocq Require Import Core.Core IEEE754.BinarySingleNaN.
From Verif Require Import Base Scalar Spec SpecF SpecRot SpecDrift SpecRigid SpecRotF SpecLook SpecQMat LBase MVector MMatrix MPoint MQuat MReal MRot LVector LMatrix LMatrixDet
  LRot LVectorR LQuat LQuatR MFloat MLookF MQMatF LFloat LFloatP LFloatVec LFloatNormP LRotFP LDriftM LRigidF LQMatF LLookF LLookFP LLookGP.
Local Open Scope R_scope.

Lemma qlength_one w x y z : qlength (w, x, y, z) = 1 -> w * w + x * x + y * y + z * z = 1.
Proof.
  intros H. unfold qlength in H. set (S := w * w + x * x + y * y + z * z) in *.
  assert (0 <= S) by (unfold S; pose proof (Rle_0_sqr w); pose proof (Rle_0_sqr x); pose proof (Rle_0_sqr y); pose proof (Rle_0_sqr z); unfold Rsqr in *; lra).
  rewrite <- (sqrt_sqrt S) by assumption. rewrite H. ring.
Qed.
Lemma qlength_one' w x y z : w * w + x * x + y * y + z * z = 1 -> qlength (w, x, y, z) = 1.
Proof. intros H. unfold qlength. rewrite H. apply sqrt_1. Qed.

Lemma c131_from_matrix :
  forall (prec emax : Z) (Hp : Prec_gt_0 prec) (He : Prec_lt_emax prec emax) (m : mat (binary_float prec emax) 3 3) (w x y z e : R),
    let u := bpow radix2 (- prec) in
    (24 <= prec)%Z -> 0 <= e <= / 1024 -> qlength (w, x, y, z) = 1 ->
    (forall j i, (j < 3)%nat -> (i < 3)%nat -> fnear (mget m j i) (vat (qsandwich (w, x, y, z) (axis3 j)) i) e) ->
    exists g, (g = 1 \/ g = -1) /\
      forall k, (k < 4)%nat -> fnear (vat (fqfrom_matrix m : vec _ 4) k) (g * vat (v4 w x y z) k) (15 * (e + u)).
Proof.
  intros prec emax Hp He m w x y z e u H24 He1 HQ HM. pose proof (qlength_one _ _ _ _ HQ) as U.
  destruct (sandwich_entries w x y z 2) as (E0 & E1 & E2); [rewrite U; lra|rewrite U; lra|].
  pose proof (fun i H => HM 0%nat i ltac:(lia) H) as M0. pose proof (fun i H => HM 1%nat i ltac:(lia) H) as M1.
  pose proof (fun i H => HM 2%nat i ltac:(lia) H) as M2. rewrite E0 in M0. rewrite E1 in M1. rewrite E2 in M2. clear HM.
  pose proof (M0 0%nat ltac:(lia)) as A00. pose proof (M0 1%nat ltac:(lia)) as A01. pose proof (M0 2%nat ltac:(lia)) as A02.
  pose proof (M1 0%nat ltac:(lia)) as A10. pose proof (M1 1%nat ltac:(lia)) as A11. pose proof (M1 2%nat ltac:(lia)) as A12.
  pose proof (M2 0%nat ltac:(lia)) as A20. pose proof (M2 1%nat ltac:(lia)) as A21. pose proof (M2 2%nat ltac:(lia)) as A22.
  clear M0 M1 M2. destruct m as [[a [b [c []]]] [[a' [b' [c' []]]] [[a'' [b'' [c'' []]]] []]]].
  cbv [v3 vat vget fst snd mget] in A00, A01, A02, A10, A11, A12, A20, A21, A22.
  destruct (from_matrix_near H24 e He1 w x y z U a b c a' b' c' a'' b'' c'') as (g & G & P0 & P1 & P2 & P3);
    try (eapply fnear_eq; [eassumption|ring]).
  exists g. split; [exact G|]. intros [|[|[|[|k]]]] Hk; [exact P0|exact P1|exact P2|exact P3|exfalso; lia].
Qed.

(** Every rotation matrix is the matrix of a unit quaternion. *)
Lemma rotation_quaternion (M : mat R 3 3) : is_rotation M ->
  exists w x y z, qlength (w, x, y, z) = 1 /\ forall j i, (j < 3)%nat -> (i < 3)%nat -> vat (qsandwich (w, x, y, z) (axis3 j)) i = mget M j i.
Proof.
  intros H. destruct (qfrom_matrix_spec M H) as (N & E). set (q := qfrom_matrix M) in *. clearbody q.
  assert (Q : qnorm_squared q = 1) by (rewrite <- qnorm_sq, N; ring).
  assert (S2 : ndiv (nadd n1 n1) (qnorm_squared q) = 2) by (rewrite Q; change ((1 + 1) / 1 = 2); lra).
  unfold qto_matrix in E. cbv zeta in E. rewrite S2 in E. rewrite qnorm_squared_entries in Q. clear S2 N.
  destruct q as [w [x [y [z []]]]]. exists w, x, y, z.
  assert (U : w * w + x * x + y * y + z * z = 1) by exact Q.
  split; [apply qlength_one'; exact U|]. intros j i Hj Hi. rewrite <- E.
  destruct (sandwich_entries w x y z 2) as (E0 & E1 & E2); [rewrite U; lra|rewrite U; lra|].
  cases3 j Hj; [rewrite E0|rewrite E1|rewrite E2]; cases3 i Hi; reflexivity.
Qed.

Lemma c131_rotation_matrix :
  forall (prec emax : Z) (Hp : Prec_gt_0 prec) (He : Prec_lt_emax prec emax) (m : mat (binary_float prec emax) 3 3) (M : mat R 3 3) (e : R),
    let u := bpow radix2 (- prec) in
    let q := fqfrom_matrix m : vec _ 4 in
    (24 <= prec)%Z -> (33 <= emax)%Z -> 0 <= e <= / 1024 -> is_rotation M ->
    (forall j i, (j < 3)%nat -> (i < 3)%nat -> fnear (mget m j i) (mget M j i) e) ->
    turns_near q (fun i j => mget M j i) (15 * (e + u)) /\
    Rabs (qlength (B2R (vat q 0), B2R (vat q 1), B2R (vat q 2), B2R (vat q 3)) - 1) <= 64 * (e + u) /\
    (forall j i, (j < 3)%nat -> (i < 3)%nat -> fnear (mget (qto_matrix (fqfrom_matrix m)) j i) (mget M j i) (180 * e + 260 * u)).
Proof.
  intros prec emax Hp He m M e u q H24 H33 He1 HR HM. pose proof (u_small H24) as Hu. fold u in Hu.
  destruct (rotation_quaternion M HR) as (w & x & y & z & U & ES).
  destruct (c131_from_matrix prec emax Hp He m w x y z e H24 He1 U) as (g & G & P).
  { intros j i Hj Hi. rewrite ES by assumption. apply HM; assumption. }
  fold u q in P. pose proof (qlength_one _ _ _ _ U) as N.
  pose proof (P 0%nat ltac:(lia)) as P0. pose proof (P 1%nat ltac:(lia)) as P1. pose proof (P 2%nat ltac:(lia)) as P2. pose proof (P 3%nat ltac:(lia)) as P3.
  cbv [vat v4 vget fst snd] in P0, P1, P2, P3. change (vget n0 q ?k) with (vat q k) in *.
  assert (GG : g * g = 1) by (destruct G as [-> | ->]; ring).
  assert (N' : g * w * (g * w) + g * x * (g * x) + g * y * (g * y) + g * z * (g * z) = 1).
  { replace (_ + _) with (g * g * (w * w + x * x + y * y + z * z)) by ring. rewrite GG, N. ring. }
  assert (EG : forall j i, (j < 3)%nat -> (i < 3)%nat -> vat (qsandwich (g * w, g * x, g * y, g * z) (axis3 j)) i = mget M j i).
  { intros j i Hj Hi. rewrite <- ES by assumption.
    destruct (sandwich_entries w x y z 2) as (E0 & E1 & E2); [rewrite N; lra|rewrite N; lra|].
    destruct (sandwich_entries (g * w) (g * x) (g * y) (g * z) 2) as (G0 & G1 & G2); [rewrite N'; lra|rewrite N'; lra|].
    destruct G as [-> | ->]; cases3 j Hj; [rewrite E0, G0|rewrite E1, G1|rewrite E2, G2|rewrite E0, G0|rewrite E1, G1|rewrite E2, G2]; cases3 i Hi;
      cbv [v3 vat vget fst snd]; ring. }
  assert (PP : forall k, (k < 4)%nat -> fnear (vat q k) (vat (v4 (g * w) (g * x) (g * y) (g * z)) k) (15 * (e + u))).
  { intros [|[|[|[|k]]]] Hk; [exact P0|exact P1|exact P2|exact P3|exfalso; lia]. }
  destruct P0 as (F0 & B0). destruct P1 as (F1 & B1). destruct P2 as (F2 & B2). destruct P3 as (F3 & B3).
  set (D := 15 * (e + u)) in *.
  assert (D0 : 0 <= D) by (unfold D; lra). assert (D16 : D <= / 16) by (unfold D; lra).
  pose proof (pert_n D _ _ _ _ _ _ _ _ D0 D16 B0 B1 B2 B3 N') as PN.
  set (NN := _ + _ + _ + _) in PN.
  assert (L : Rabs (sqrt NN - 1) <= 17 / 4 * D).
  { assert (N0 : 0 <= NN) by (apply Rabs_le_inv in PN; lra). pose proof (sqrt_pos NN) as S0. pose proof (sqrt_sqrt NN N0) as SS.
    set (s := sqrt NN) in *. assert (T : Rabs (s - 1) * (s + 1) = Rabs (NN - 1)).
    { rewrite <- (Rabs_pos_eq (s + 1)) at 1 by lra. rewrite <- Rabs_mult. f_equal. rewrite <- SS. ring. }
    pose proof (Rabs_pos (s - 1)). assert (Rabs (s - 1) * 1 <= Rabs (s - 1) * (s + 1)) by (apply Rmult_le_compat_l; lra). lra. }
  split; [|split].
  - exists (g * w), (g * x), (g * y), (g * z). split; [apply qlength_one'; exact N'|]. split; [intros i j Hi Hj; apply EG; assumption|exact PP].
  - change (Rabs (sqrt NN - 1) <= 64 * (e + u)). unfold D in L. lra.
  - intros j i Hj Hi.
    assert (FF : forall k, (k < 4)%nat -> is_finite (vat q k) = true) by (intros [|[|[|[|k]]]] Hk; try assumption; exfalso; lia).
    pose proof (c124_quaternion_matrix prec emax Hp He 1 (fqfrom_matrix m) H24 ltac:(lia) ltac:(lia) FF) as T. cbv zeta in T.
    assert (LL : bpow radix2 (- (1)) <= qlength (B2R (vat q 0), B2R (vat q 1), B2R (vat q 2), B2R (vat q 3)) <= bpow radix2 1).
    { change (bpow radix2 (-1) <= sqrt NN <= bpow radix2 1). apply Rabs_le_inv in L. change (bpow radix2 (-1)) with (/ 2). change (bpow radix2 1) with 2. unfold D in L. lra. }
    specialize (T LL j i Hj Hi). fold u in T.
    replace (180 * e + 260 * u) with (12 * D + 80 * u) by (unfold D; ring). eapply fnear_tri; [exact T|].
    rewrite <- EG by assumption. apply (pert_sandwich D); assumption.
Qed.

Lemma c131_round_trip :
  forall (prec emax : Z) (Hp : Prec_gt_0 prec) (He : Prec_lt_emax prec emax) (k : Z) (q : quat (binary_float prec emax)),
    (24 <= prec)%Z -> (0 <= k)%Z -> (2 * k + 31 <= emax)%Z ->
    (forall i, (i < 4)%nat -> is_finite (vat (q : vec _ 4) i) = true) ->
    let len := qlength (B2R (vat (q : vec _ 4) 0), B2R (vat (q : vec _ 4) 1), B2R (vat (q : vec _ 4) 2), B2R (vat (q : vec _ 4) 3)) in
    bpow radix2 (- k) <= len <= bpow radix2 k ->
    exists g, (g = 1 \/ g = -1) /\
      forall i, (i < 4)%nat -> fnear (vat (fqfrom_matrix (qto_matrix q) : vec _ 4) i) (g * (B2R (vat (q : vec _ 4) i) / len)) (1215 * bpow radix2 (- prec)).
Proof.
  intros prec emax Hp He k q H24 k0 Hk HF len HL. pose proof (u_small H24) as Hu. set (u := bpow radix2 (- prec)) in *.
  pose proof (c124_quaternion_matrix prec emax Hp He k q H24 k0 Hk HF HL) as T. cbv zeta in T. fold u in T.
  assert (L0 : 0 < len) by (pose proof (bpow_gt_0 radix2 (- k)); lra).
  set (W := B2R (vat (q : vec _ 4) 0)) in *. set (X := B2R (vat (q : vec _ 4) 1)) in *.
  set (Y := B2R (vat (q : vec _ 4) 2)) in *. set (Z' := B2R (vat (q : vec _ 4) 3)) in *.
  assert (SS : len * len = W * W + X * X + Y * Y + Z' * Z').
  { apply sqrt_sqrt. pose proof (Rle_0_sqr W). pose proof (Rle_0_sqr X). pose proof (Rle_0_sqr Y). pose proof (Rle_0_sqr Z'). unfold Rsqr in *. lra. }
  assert (L2 : 0 < len * len) by (apply Rmult_lt_0_compat; exact L0).
  assert (N : W / len * (W / len) + X / len * (X / len) + Y / len * (Y / len) + Z' / len * (Z' / len) = 1).
  { replace (_ + _) with ((W * W + X * X + Y * Y + Z' * Z') / (len * len)) by (field; lra). rewrite <- SS. field. lra. }
  assert (E : forall j i, (j < 3)%nat -> (i < 3)%nat ->
    vat (qsandwich (W / len, X / len, Y / len, Z' / len) (axis3 j)) i = vat (qsandwich (W, X, Y, Z') (axis3 j)) i).
  { intros j i Hj Hi.
    destruct (sandwich_entries W X Y Z' (2 / (len * len))) as (E0 & E1 & E2); [rewrite SS; reflexivity|rewrite <- SS; exact L2|].
    destruct (sandwich_entries (W / len) (X / len) (Y / len) (Z' / len) 2) as (G0 & G1 & G2); [rewrite N; lra|rewrite N; lra|].
    cases3 j Hj; [rewrite E0, G0|rewrite E1, G1|rewrite E2, G2]; cases3 i Hi; cbv [v3 vat vget fst snd]; field; lra. }
  destruct (c131_from_matrix prec emax Hp He (qto_matrix q) (W / len) (X / len) (Y / len) (Z' / len) (80 * u) H24 ltac:(lra)) as (g & G & P).
  - apply qlength_one'. exact N.
  - intros j i Hj Hi. rewrite E by assumption. apply T; assumption.
  - fold u in P. exists g. split; [exact G|]. intros i Hi. specialize (P i Hi). replace (15 * (80 * u + u)) with (1215 * u) in P by ring.
    destruct i as [|[|[|[|i]]]]; [exact P|exact P|exact P|exact P|exfalso; lia].
Qed.

(** The frame of an observer, as a matrix whose rows are the axes. *)
Definition frame_matrix (f : nat -> nat -> R) : mat R 3 3 :=
  m3new (f 0%nat 0%nat) (f 1%nat 0%nat) (f 2%nat 0%nat) (f 0%nat 1%nat) (f 1%nat 1%nat) (f 2%nat 1%nat) (f 0%nat 2%nat) (f 1%nat 2%nat) (f 2%nat 2%nat).
Lemma frame_rotation (d up : nat -> R) : 0 < rlength 3 (rcross up d) -> is_rotation (frame_matrix (frame d up)).
Proof.
  intros C. destruct (c127_frame d up C) as (O & X & _).
  set (f := frame d up) in *. 
  set (t := m3new (f 0%nat 0%nat) (f 0%nat 1%nat) (f 0%nat 2%nat) (f 1%nat 0%nat) (f 1%nat 1%nat) (f 1%nat 2%nat) (f 2%nat 0%nat) (f 2%nat 1%nat) (f 2%nat 2%nat)).
  change (frame_matrix f) with (mtranspose t). apply is_rotation_transpose.
  pose proof (X 0%nat ltac:(lia)) as X0. pose proof (X 1%nat ltac:(lia)) as X1. pose proof (X 2%nat ltac:(lia)) as X2.
  unfold rcross in X0, X1, X2. split.
  - intros j k Hj Hk. specialize (O j k Hj Hk). unfold rdot in O. unfold delta. cbn [n0 n1 num_R].
    etransitivity; [|exact O]. cases3 j Hj; cases3 k Hk; reflexivity.
  - pose proof (O 0%nat 0%nat ltac:(lia) ltac:(lia)) as O0. rewrite rdot3 in O0. cbn [Nat.eqb] in O0.
    etransitivity; [|exact O0]. rewrite <- (m3det_laplace t).
    cbv [m3det t m3new mget mget_d v3 vget fst snd nadd nsub nmul num_R]. rewrite <- X0, <- X1, <- X2. ring.
Qed.

Lemma frame_near {prec emax} {Hp : Prec_gt_0 prec} {He : Prec_lt_emax prec emax} (m : mat (binary_float prec emax) 3 3) (d up : nat -> R) (e : R) :
  (24 <= prec)%Z -> (33 <= emax)%Z -> 0 <= e <= / 1024 -> 0 < rsine up d ->
  (forall i j, (i < 3)%nat -> (j < 3)%nat -> fnear (mget m j i) (frame d up i j) e) ->
  turns_near (fqfrom_matrix m : vec _ 4) (frame d up) (15 * (e + bpow radix2 (- prec))).
Proof.
  intros H24 H33 He1 HS HM.
  assert (C : 0 < rlength 3 (rcross up d)).
  { destruct (Rle_lt_dec (rlength 3 (rcross up d)) 0) as [L|L]; [|exact L]. exfalso.
    assert (Z0 : rlength 3 (rcross up d) = 0) by (apply Rle_antisym; [exact L|apply sqrt_pos]).
    unfold rsine in HS. rewrite Z0 in HS. unfold Rdiv in HS. lra. }
  destruct (c131_rotation_matrix prec emax Hp He m (frame_matrix (frame d up)) e H24 H33 He1 (frame_rotation d up C)) as ((w & x & y & z & U & E & P) & _).
  - intros j i Hj Hi. eapply fnear_eq; [apply HM; assumption|]. cases3 j Hj; cases3 i Hi; reflexivity.
  - exists w, x, y, z. split; [exact U|]. split; [|exact P]. intros i j Hi Hj. rewrite E by assumption.
    cases3 j Hj; cases3 i Hi; reflexivity.
Qed.

Lemma look_e u s : 0 < u -> 524288 * u <= s -> 0 <= 273 * u / s <= / 1024.
Proof.
  intros u0 H. assert (s0 : 0 < s) by lra. split.
  - apply Rmult_le_pos; [lra|left; apply Rinv_0_lt_compat; exact s0].
  - apply (Rmult_le_reg_r s); [exact s0|]. unfold Rdiv. rewrite Rmult_assoc, Rinv_l by lra. lra.
Qed.

Lemma c131_look_to :
  forall (prec emax : Z) (Hp : Prec_gt_0 prec) (He : Prec_lt_emax prec emax) (k : Z) (d up : vec (binary_float prec emax) 3),
    let u := bpow radix2 (- prec) in let s := rsine (fval up) (fval d) in
    (24 <= prec)%Z -> (0 <= k)%Z -> (2 * (k + prec) + 13 <= emax)%Z ->
    (forall i, (i < 3)%nat -> is_finite (vat d i) = true) -> (forall i, (i < 3)%nat -> is_finite (vat up i) = true) ->
    bpow radix2 (- k) <= rlength 3 (fval d) <= bpow radix2 k -> bpow radix2 (- k) <= rlength 3 (fval up) <= bpow radix2 k ->
    524288 * u <= s ->
    turns_near (fqlook_to_lh d up : vec _ 4) (frame (fval d) (fval up)) (15 * (273 * u / s + u)) /\
    turns_near (fqlook_to_rh d up : vec _ 4) (frame (fun a => - fval d a) (fval up)) (15 * (273 * u / s + u)).
Proof.
  intros prec emax Hp He k d up u s H24 k0 Hk Fd Fu Ld Lu Hs. pose proof (u_small H24) as Hu. fold u in Hu.
  pose proof (look_e u s (proj1 Hu) Hs) as HE.
  pose proof (c127_look_to prec emax Hp He k d up H24 k0 Hk Fd Fu Ld Lu ltac:(fold u s; lra)) as T. cbv zeta in T. fold u s in T.
  split; apply frame_near; try lia; try exact HE; try (intros i j Hi Hj; apply (T i j Hi Hj)).
  - fold s. lra.
  - rewrite sine_neg. fold s. lra.
Qed.

Lemma c131_look_at :
  forall (prec emax : Z) (Hp : Prec_gt_0 prec) (He : Prec_lt_emax prec emax) (k : Z) (eye target up : vec (binary_float prec emax) 3),
    let u := bpow radix2 (- prec) in let D := fun i => fval target i - fval eye i in let s := rsine (fval up) D in
    (24 <= prec)%Z -> (0 <= k)%Z -> (2 * (k + prec) + 13 <= emax)%Z ->
    (forall i, (i < 3)%nat -> is_finite (vat eye i) = true) -> (forall i, (i < 3)%nat -> is_finite (vat target i) = true) ->
    (forall i, (i < 3)%nat -> is_finite (vat up i) = true) ->
    bpow radix2 (- k) <= rlength 3 D <= bpow radix2 k -> bpow radix2 (- k) <= rlength 3 (fval up) <= bpow radix2 k ->
    524288 * u <= s ->
    turns_near (fqlook_at_lh eye target up : vec _ 4) (frame D (fval up)) (15 * (273 * u / s + u)) /\
    turns_near (fqlook_at_rh eye target up : vec _ 4) (frame (fun a => - D a) (fval up)) (15 * (273 * u / s + u)).
Proof.
  intros prec emax Hp He k eye target up u D s H24 k0 Hk Fe Ft Fu Ld Lu Hs. pose proof (u_small H24) as Hu. fold u in Hu.
  pose proof (look_e u s (proj1 Hu) Hs) as HE.
  pose proof (c127_look_at prec emax Hp He k eye target up H24 k0 Hk Fe Ft Fu Ld Lu ltac:(fold u D s; lra)) as T. cbv zeta in T. fold u D s in T.
  split; apply frame_near; try lia; try exact HE; try (intros i j Hi Hj; apply (T i j Hi Hj)).
  - fold s. lra.
  - rewrite sine_neg. fold s. lra.
Qed.

(** A half turn about (1, 1, 0): the trace is -1 and the first branch is not taken. *)
Definition half_turn : mat f64 3 3 :=
  m3new (n0 : f64) n1 n0 n1 n0 n0 n0 n0 (f64_of_Z (-1)).
Lemma c131_example :
  is_rotation (m3new 0 1 0 1 0 0 0 0 (-1) : mat R 3 3) /\
  (forall j i, (j < 3)%nat -> (i < 3)%nat -> fnear (mget half_turn j i) (mget (m3new 0 1 0 1 0 0 0 0 (-1) : mat R 3 3) j i) 0) /\
  B2R (mtrace half_turn) = -1 /\
  qsandwich (0, / sqrt 2, / sqrt 2, 0) (axis3 0) = axis3 1 /\
  (let d := vz 3 4 0 in let up := vz 0 1 0 in 524288 * bpow radix2 (- 53) <= rsine (fval up) (fval d)).
Proof.
  split; [|split; [|split; [|split]]].
  - apply is_rotation3. split.
    + mcompute; rnum; pairs ltac:(ring).
    + mcompute; rnum; ring.
  - intros j i Hj Hi. destruct (f64_of_Z_exact (-1) ltac:(lia)) as (V & F).
    cases3 j Hj; cases3 i Hi; (apply fnear_0; [reflexivity|lra]) || (apply fnear_1; [reflexivity|lra]) ||
      (split; [exact F|]; change (Rabs (B2R (f64_of_Z (-1)) - -1) <= 0); rewrite V, Rminus_diag_eq, Rabs_R0 by reflexivity; lra).
  - destruct (f64_of_Z_exact (-1) ltac:(lia)) as (V & F). replace (mtrace half_turn) with (f64_of_Z (-1)); [exact V|].
    apply B2SF_inj. vm_compute. reflexivity.
  - pose proof (sqrt_lt_R0 2 ltac:(lra)) as S. pose proof (sqrt_sqrt 2 ltac:(lra)) as SS.
    assert (I : / sqrt 2 * / sqrt 2 = / 2) by (rewrite <- Rinv_mult, SS; reflexivity).
    destruct (sandwich_entries 0 (/ sqrt 2) (/ sqrt 2) 0 2) as (E0 & _); [|lra|].
    + replace (_ + _) with 1; lra.
    + rewrite E0. cbv [axis3 delta Nat.eqb n0 n1 num_R]. repeat f_equal; lra.
  - intros d up. destruct c127_example as (_ & _ & _ & _ & _ & E & _). fold d up in E. cbv zeta in E. rewrite E.
    change (bpow radix2 (-53)) with (/ 9007199254740992). lra.
Qed.
