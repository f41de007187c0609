(** Proofs of the property theorems about rotation constructors in floats (C124). *)

From Coq Require Import List Arith ZArith Lia Reals Lra Psatz.
From Flocq Require Import Core.Core IEEE754.BinarySingleNaN.
From Verif Require Import Base Scalar Spec SpecF SpecRot SpecDrift SpecRotF LBase MVector MMatrix MQuat MReal MRot MRotF LVector LMatrix LQuat
  MFloat LFloat LFloatP LFloatVec LFloatEx LFloatAcc LFloatExP LFloatNormP LProjF LProjFP LRotF.
Local Open Scope R_scope.

Lemma fnear_leaf {prec emax} {Hp : Prec_gt_0 prec} {He : Prec_lt_emax prec emax} (x : binary_float prec emax) r d :
  0 <= d <= / 8 -> Rabs r <= 1 -> fnear x r d -> fapp (9 / 8) 1 0 x (B2R x).
Proof.
  intros Hd Hr (F & E). apply fapp_leafV; [exact F|]. replace (B2R x) with ((B2R x - r) + r) by ring.
  eapply Rle_trans; [apply Rabs_triang|]. lra.
Qed.
Lemma fnear_tri {prec emax} (x : binary_float prec emax) r s e1 e2 : fnear x r e1 -> Rabs (r - s) <= e2 -> fnear x s (e2 + e1).
Proof. intros (F & E) H. split; [exact F|]. rewrite Rplus_comm. apply (tri2 _ r); assumption. Qed.

Lemma unit_comp a b c : a * a + b * b + c * c = 1 -> Rabs a <= 1 /\ Rabs b <= 1 /\ Rabs c <= 1.
Proof. intros H. repeat split; apply Rabs_le; split; nra. Qed.

Ltac cases3 j Hj := destruct j as [|[|[|j]]]; [| | |exfalso; lia].

Lemma c124_axis_angle_matrix :
  forall (prec emax : Z) (Hp : Prec_gt_0 prec) (He : Prec_lt_emax prec emax)
    (sine cosine : binary_float prec emax -> binary_float prec emax)
    (axis : vec (binary_float prec emax) 3) (angle : binary_float prec emax) (a : vec R 3) (t d : R),
    (24 <= prec)%Z -> (34 <= emax)%Z -> 0 <= d <= / 8 ->
    sum 3 (fun i => vat a i * vat a i) = 1 ->
    (forall i, (i < 3)%nat -> fnear (vat axis i) (vat a i) d) ->
    fnear (sine angle) (sin t) d -> fnear (cosine angle) (cos t) d ->
    forall j i, (j < 3)%nat -> (i < 3)%nat ->
      fnear (mget (gm3from_axis_angle sine cosine axis angle) j i) (vat (rodrigues a t (axis3 j)) i)
        (8 * d + 15 * bpow radix2 (- prec)).
Proof.
  intros prec emax Hp He sine cosine axis angle a t d H24 H34 Hd Ha HA HS HC j i Hj Hi.
  pose proof (HA 0%nat ltac:(lia)) as A0. pose proof (HA 1%nat ltac:(lia)) as A1. pose proof (HA 2%nat ltac:(lia)) as A2. clear HA.
  destruct axis as [x [y [z []]]]. destruct a as [a [b [c []]]].
  cbv [vat vget fst snd] in A0, A1, A2.
  cbv [sum vat vget fst snd nadd nmul n0 n1 num_R] in Ha.
  assert (U : a * a + b * b + c * c = 1) by lra.
  destruct (unit_comp a b c U) as (Ba & Bb & Bc).
  assert (BC : Rabs (cos t) <= 1) by (apply Rabs_le; destruct (COS_bound t); lra).
  assert (BS : Rabs (sin t) <= 1) by (apply Rabs_le; destruct (SIN_bound t); lra).
  pose proof (fnear_leaf _ _ _ Hd Ba A0) as Lx. pose proof (fnear_leaf _ _ _ Hd Bb A1) as Ly. pose proof (fnear_leaf _ _ _ Hd Bc A2) as Lz.
  pose proof (fnear_leaf _ _ _ Hd BS HS) as Ls. pose proof (fnear_leaf _ _ _ Hd BC HC) as Lc.
  destruct A0 as (_ & A0), A1 as (_ & A1), A2 as (_ & A2), HS as (_ & HS), HC as (_ & HC).
  unfold gm3from_axis_angle. cbv zeta. set (s := sine angle) in *. set (co := cosine angle) in *.
  assert (DG : forall (p : binary_float prec emax) q, fapp (9 / 8) 1 0 p (B2R p) -> Rabs (B2R p - q) <= d -> Rabs q <= 1 ->
    fnear (nadd (nmul (nmul (nsub n1 co) p) p) co) ((1 - cos t) * q * q + cos t) (8 * d + 15 * bpow radix2 (- prec))).
  { intros p q Lp Hq Bq. eapply fnear_tri; [apply (a_diag H24 H34 _ Lc _ Lp)|]. apply diag_pert; lra || assumption. }
  assert (OF : forall (p p' r : binary_float prec emax) q q' v, fapp (9 / 8) 1 0 p (B2R p) -> fapp (9 / 8) 1 0 p' (B2R p') -> fapp (9 / 8) 1 0 r (B2R r) ->
    Rabs (B2R p - q) <= d -> Rabs (B2R p' - q') <= d -> Rabs (B2R r - v) <= d -> Rabs q <= 1 -> Rabs q' <= 1 -> Rabs v <= 1 ->
    fnear (nadd (nmul (nmul (nsub n1 co) p) p') (nmul s r)) ((1 - cos t) * q * q' + sin t * v) (8 * d + 15 * bpow radix2 (- prec)) /\
    fnear (nsub (nmul (nmul (nsub n1 co) p) p') (nmul s r)) ((1 - cos t) * q * q' - sin t * v) (8 * d + 15 * bpow radix2 (- prec))).
  { intros p p' r q q' v Lp Lp' Lr E1 E2 E3 B1 B2 B3.
    destruct (a_off H24 H34 _ _ Ls Lc p p' r Lp Lp' Lr) as (F1 & F2).
    destruct (off_pert d (proj1 Hd) (proj2 Hd) (B2R co) (cos t) (B2R s) (sin t) (B2R p) (B2R p') (B2R r) q q' v) as (P1 & P2); try assumption.
    split; eapply fnear_tri; eassumption. }
  assert (EQ : forall (f : binary_float prec emax) r r' e, r = r' -> fnear f r e -> fnear f r' e) by (intros f r r' e <-; exact (fun h => h)).
  cases3 j Hj; cases3 i Hi; cbv [mget vat vget fst snd m3new v3].
  all: first
    [ eapply EQ; [|apply (DG x a); assumption]; cbv [rodrigues axis3 delta Nat.eqb sum vat vget fst snd v3 nadd nmul n0 n1 num_R]; nra
    | eapply EQ; [|apply (DG y b); assumption]; cbv [rodrigues axis3 delta Nat.eqb sum vat vget fst snd v3 nadd nmul n0 n1 num_R]; nra
    | eapply EQ; [|apply (DG z c); assumption]; cbv [rodrigues axis3 delta Nat.eqb sum vat vget fst snd v3 nadd nmul n0 n1 num_R]; nra
    | eapply EQ; [|apply (OF x y z a b c); assumption]; cbv [rodrigues axis3 delta Nat.eqb sum vat vget fst snd v3 nadd nmul n0 n1 num_R]; ring
    | eapply EQ; [|apply (OF x z y a c b); assumption]; cbv [rodrigues axis3 delta Nat.eqb sum vat vget fst snd v3 nadd nmul n0 n1 num_R]; ring
    | eapply EQ; [|apply (OF y z x b c a); assumption]; cbv [rodrigues axis3 delta Nat.eqb sum vat vget fst snd v3 nadd nmul n0 n1 num_R]; ring ].
Qed.

Lemma c124_axis_angle_quaternion :
  forall (prec emax : Z) (Hp : Prec_gt_0 prec) (He : Prec_lt_emax prec emax)
    (sine cosine : binary_float prec emax -> binary_float prec emax)
    (axis : vec (binary_float prec emax) 3) (angle : binary_float prec emax) (a : vec R 3) (t d : R),
    (24 <= prec)%Z -> (34 <= emax)%Z -> 0 <= d <= / 8 ->
    sum 3 (fun i => vat a i * vat a i) = 1 ->
    (forall i, (i < 3)%nat -> fnear (vat axis i) (vat a i) d) ->
    let half : binary_float prec emax := nmul angle (ndiv n1 (nadd n1 n1)) in
    fnear (sine half) (sin (t / 2)) d -> fnear (cosine half) (cos (t / 2)) d ->
    let q := gqfrom_axis_angle sine cosine axis angle : vec _ 4 in
    fnear (vat q 0) (cos (t / 2)) (3 * d + 2 * bpow radix2 (- prec)) /\
    (forall i, (i < 3)%nat -> fnear (vat q (S i)) (sin (t / 2) * vat a i) (3 * d + 2 * bpow radix2 (- prec))).
Proof.
  intros prec emax Hp He sine cosine axis angle a t d H24 H34 Hd Ha HA half HS HC q.
  pose proof (bpow_gt_0 radix2 (- prec)) as U0.
  assert (BS : Rabs (sin (t / 2)) <= 1) by (apply Rabs_le; destruct (SIN_bound (t / 2)); lra).
  pose proof (fnear_leaf _ _ _ Hd BS HS) as Ls.
  split.
  - destruct HC as (FC & HC). split; [exact FC|]. change (Rabs (B2R (cosine half) - cos (t / 2)) <= 3 * d + 2 * bpow radix2 (- prec)). lra.
  - intros i Hi.
    assert (E : vat q (S i) = nmul (vat axis i) (sine half)).
    { subst q half. unfold gqfrom_axis_angle. cbv zeta. destruct axis as [x [y [z []]]]. cases3 i Hi; reflexivity. }
    rewrite E. clear E.
    assert (Ba : Rabs (vat a i) <= 1).
    { destruct a as [x [y [z []]]]. cbv [sum vat vget fst snd nadd nmul n0 n1 num_R] in Ha.
      destruct (unit_comp x y z ltac:(lra)) as (B0 & B1 & B2). cases3 i Hi; assumption. }
    pose proof (fnear_leaf _ _ _ Hd Ba (HA i Hi)) as La.
    destruct (a_mul H24 H34 (vat axis i) La (sine half) Ls) as (F & M).
    split; [exact F|]. destruct (HA i Hi) as (_ & E1). destruct HS as (_ & E2).
    pose proof (sz_pert d (proj1 Hd) (proj2 Hd) (B2R (vat axis i)) (vat a i) (B2R (sine half)) (sin (t / 2)) E1 E2 Ba BS) as P.
    rewrite (Rmult_comm (sin (t / 2))). pose proof (tri2 _ _ _ _ _ M P). lra.
Qed.

(** The entries of the exact matrix of a quaternion. *)
Lemma sandwich_entries (w x y z : R) (i : R) : i = 2 / (w * w + x * x + y * y + z * z) -> 0 < w * w + x * x + y * y + z * z ->
  qsandwich (w, x, y, z) (axis3 0) = v3 (1 - i * y * y - i * z * z) (i * x * y + i * w * z) (i * x * z - i * w * y) /\
  qsandwich (w, x, y, z) (axis3 1) = v3 (i * x * y - i * w * z) (1 - i * x * x - i * z * z) (i * y * z + i * w * x) /\
  qsandwich (w, x, y, z) (axis3 2) = v3 (i * x * z + i * w * y) (i * y * z - i * w * x) (1 - i * x * x - i * y * y).
Proof.
  intros -> P. assert (S : qlength (w, x, y, z) * qlength (w, x, y, z) = w * w + x * x + y * y + z * z) by (apply sqrt_sqrt; lra).
  unfold qsandwich. rewrite S. cbv [axis3 delta Nat.eqb vat vget v3 fst snd hamilton rqconj n0 n1 num_R].
  split; [|split]; pairs ltac:(field; lra).
Qed.

Lemma c124_quaternion_matrix :
  forall (prec emax : Z) (Hp : Prec_gt_0 prec) (He : Prec_lt_emax prec emax) (k : Z) (q : quat (binary_float prec emax)),
    (24 <= prec)%Z -> (0 <= k)%Z -> (2 * k + 31 <= emax)%Z ->
    (forall i, (i < 4)%nat -> is_finite (vat (q : vec _ 4) i) = true) ->
    let val : rquat := (B2R (vat (q : vec _ 4) 0), B2R (vat (q : vec _ 4) 1), B2R (vat (q : vec _ 4) 2), B2R (vat (q : vec _ 4) 3)) in
    bpow radix2 (- k) <= qlength val <= bpow radix2 k ->
    forall j i, (j < 3)%nat -> (i < 3)%nat ->
      fnear (mget (qto_matrix q) j i) (vat (qsandwich val (axis3 j)) i) (80 * bpow radix2 (- prec)).
Proof.
  intros prec emax Hp He k q H24 k0 Hk HF val HV j i Hj Hi.
  pose proof (HF 0%nat ltac:(lia)) as F0. pose proof (HF 1%nat ltac:(lia)) as F1.
  pose proof (HF 2%nat ltac:(lia)) as F2. pose proof (HF 3%nat ltac:(lia)) as F3. clear HF.
  destruct q as [w [x [y [z []]]]]. cbv [vat vget fst snd] in F0, F1, F2, F3. cbv [vat vget fst snd] in val.
  set (V := qlength val) in *.
  assert (SS : 0 <= B2R w * B2R w + B2R x * B2R x + B2R y * B2R y + B2R z * B2R z).
  { pose proof (Rle_0_sqr (B2R w)). pose proof (Rle_0_sqr (B2R x)). pose proof (Rle_0_sqr (B2R y)). pose proof (Rle_0_sqr (B2R z)).
    unfold Rsqr in *. lra. }
  assert (VV : V * V = B2R w * B2R w + B2R x * B2R x + B2R y * B2R y + B2R z * B2R z) by (apply sqrt_sqrt; exact SS).
  assert (V0 : 0 < V) by (pose proof (bpow_gt_0 radix2 (- k)); lra).
  assert (V2 : 0 < V * V) by (apply Rmult_lt_0_compat; assumption).
  destruct (q_leaves k V w x y z HV VV F0 F1 F2 F3) as (Lw & Lx & Ly & Lz).
  pose proof (q_norm2 H24 k V w x y z Hk HV VV F0 F1 F2 F3) as N2.
  apply (fapp_eq _ (V * V) _ _ _ _ (V * V)) in N2; [|reflexivity|rewrite VV; ring].
  destruct (sandwich_entries (B2R w) (B2R x) (B2R y) (B2R z) (2 / (V * V))) as (E0 & E1 & E2); [rewrite VV; reflexivity|rewrite <- VV; exact V2|].
  fold val in E0, E1, E2.
  set (n2 := nadd (nadd (nadd (nadd n0 (nmul w w)) (nmul x x)) (nmul y y)) (nmul z z)) in *.
  assert (D : forall a b : binary_float prec emax, fapp V 1 0 a (B2R a) -> fapp V 1 0 b (B2R b) -> B2R a * B2R a + B2R b * B2R b <= V * V ->
    fnear (nsub (nsub n1 (nmul (nmul (ndiv (nadd n1 n1) n2) a) a)) (nmul (nmul (ndiv (nadd n1 n1) n2) b) b))
      (1 - 2 / (V * V) * B2R a * B2R a - 2 / (V * V) * B2R b * B2R b) (80 * bpow radix2 (- prec))).
  { intros a b La Lb HL. rewrite <- (Rmult_1_r (80 * _)). eapply fapp_near; [lra|apply (q_diag H24 k V k0 Hk HV n2 N2); assumption|lia]. }
  assert (O : forall a b c d : binary_float prec emax, fapp V 1 0 a (B2R a) -> fapp V 1 0 b (B2R b) -> fapp V 1 0 c (B2R c) -> fapp V 1 0 d (B2R d) ->
    B2R a * B2R a + B2R b * B2R b + B2R c * B2R c + B2R d * B2R d <= V * V ->
    fnear (nadd (nmul (nmul (ndiv (nadd n1 n1) n2) a) b) (nmul (nmul (ndiv (nadd n1 n1) n2) c) d))
      (2 / (V * V) * B2R a * B2R b + 2 / (V * V) * B2R c * B2R d) (80 * bpow radix2 (- prec)) /\
    fnear (nsub (nmul (nmul (ndiv (nadd n1 n1) n2) a) b) (nmul (nmul (ndiv (nadd n1 n1) n2) c) d))
      (2 / (V * V) * B2R a * B2R b - 2 / (V * V) * B2R c * B2R d) (80 * bpow radix2 (- prec))).
  { intros a b c d La Lb Lc Ld HL. destruct (q_offp H24 k V k0 Hk HV n2 N2 a b c d La Lb Lc Ld HL) as (O1 & O2).
    rewrite <- (Rmult_1_r (80 * _)). split; (eapply fapp_near; [lra|eassumption|lia]). }
  assert (Q : forall a b : R, a * a + b * b <= V * V -> a * a + b * b <= V * V) by auto.
  cases3 j Hj; [rewrite E0|rewrite E1|rewrite E2]; cases3 i Hi; cbv [v3 vat vget fst snd];
    (apply D; [assumption|assumption|rewrite VV; nra]) || (apply O; [assumption..|rewrite VV; lra]).
Qed.

(** The exact matrices of two nearby quaternions, one of them a unit. *)
Lemma sq_pert d x a : Rabs (x - a) <= d -> Rabs (x * x - a * a) <= 2 * d * Rabs a + d * d.
Proof.
  intros H. assert (d0 : 0 <= d) by (pose proof (Rabs_pos (x - a)); lra).
  pose proof (prod_pert d x x a a H H). lra.
Qed.

Section Pert.
Variables (d w x y z a b c e : R).
Hypothesis d0 : 0 <= d.
Hypothesis d16 : d <= / 16.
Hypothesis Hw : Rabs (w - a) <= d.
Hypothesis Hx : Rabs (x - b) <= d.
Hypothesis Hy : Rabs (y - c) <= d.
Hypothesis Hz : Rabs (z - e) <= d.
Hypothesis U : a * a + b * b + c * c + e * e = 1.

Lemma pert_n : Rabs (w * w + x * x + y * y + z * z - 1) <= 17 / 4 * d.
Proof.
  pose proof (sq_pert d w a Hw) as P1. pose proof (sq_pert d x b Hx) as P2. pose proof (sq_pert d y c Hy) as P3. pose proof (sq_pert d z e Hz) as P4.
  pose proof (sum4_abs a b c e U) as S. apply Rabs_le_inv in P1, P2, P3, P4. rewrite <- U. apply Rabs_le. split; nra.
Qed.
Lemma pert_diag : forall s2 s3 s4 : R, (s2 = 1 \/ s2 = -1) -> (s3 = 1 \/ s3 = -1) -> (s4 = 1 \/ s4 = -1) ->
  Rabs ((w * w + s2 * (x * x) + s3 * (y * y) + s4 * (z * z)) / (w * w + x * x + y * y + z * z) - (a * a + s2 * (b * b) + s3 * (c * c) + s4 * (e * e))) <= 12 * d.
Proof.
  intros s2 s3 s4 H2 H3 H4. apply quot_pert; try lra; [| |exact pert_n].
  - pose proof (sq_pert d w a Hw) as P1. pose proof (sq_pert d x b Hx) as P2. pose proof (sq_pert d y c Hy) as P3. pose proof (sq_pert d z e Hz) as P4.
    pose proof (sum4_abs a b c e U) as S. apply Rabs_le_inv in P1, P2, P3, P4.
    assert (B : 2 * d * (Rabs a + Rabs b + Rabs c + Rabs e) + 4 * (d * d) <= 17 / 4 * d) by nra.
    apply Rabs_le. destruct H2 as [-> | ->], H3 as [-> | ->], H4 as [-> | ->]; lra.
  - pose proof (Rle_0_sqr a). pose proof (Rle_0_sqr b). pose proof (Rle_0_sqr c). pose proof (Rle_0_sqr e). unfold Rsqr in *.
    apply Rabs_le. destruct H2 as [-> | ->], H3 as [-> | ->], H4 as [-> | ->]; lra.
Qed.
Lemma pert_off : forall p q r s p' q' r' s' : R,
  p * p + q * q + r * r + s * s = w * w + x * x + y * y + z * z ->
  Rabs (p - p') <= d -> Rabs (q - q') <= d -> Rabs (r - r') <= d -> Rabs (s - s') <= d ->
  p' * p' + q' * q' + r' * r' + s' * s' = 1 ->
  Rabs (2 * (p * q + r * s) / (w * w + x * x + y * y + z * z) - 2 * (p' * q' + r' * s')) <= 12 * d /\
  Rabs (2 * (p * q - r * s) / (w * w + x * x + y * y + z * z) - 2 * (p' * q' - r' * s')) <= 12 * d.
Proof.
  intros p q r s p' q' r' s' _ Hp Hq Hr Hs U'.
  pose proof (prod_pert d p q p' q' Hp Hq) as P1. pose proof (prod_pert d r s r' s' Hr Hs) as P2.
  pose proof (sum4_abs _ _ _ _ U') as S. apply Rabs_le_inv in P1, P2.
  assert (B : 2 * d * (Rabs p' + Rabs q' + Rabs r' + Rabs s') + 4 * (d * d) <= 17 / 4 * d) by nra.
  pose proof (Rle_0_sqr (p' + q')) as S1. pose proof (Rle_0_sqr (p' - q')) as S2. pose proof (Rle_0_sqr (r' + s')) as S3. pose proof (Rle_0_sqr (r' - s')) as S4.
  unfold Rsqr in S1, S2, S3, S4.
  split; apply quot_pert; try lra; try exact pert_n; apply Rabs_le; lra.
Qed.
Lemma pert_sandwich : forall j i, (j < 3)%nat -> (i < 3)%nat ->
  Rabs (vat (qsandwich (w, x, y, z) (axis3 j)) i - vat (qsandwich (a, b, c, e) (axis3 j)) i) <= 12 * d.
Proof.
  intros j i Hj Hi. pose proof pert_n as PN. apply Rabs_le_inv in PN.
  assert (N0 : 0 < w * w + x * x + y * y + z * z) by lra.
  destruct (sandwich_entries w x y z (2 / (w * w + x * x + y * y + z * z)) eq_refl N0) as (E0 & E1 & E2).
  destruct (sandwich_entries a b c e 2) as (G0 & G1 & G2); [rewrite U; lra|rewrite U; lra|].
  rewrite ?E0, ?E1, ?E2, ?G0, ?G1, ?G2.
  set (N := w * w + x * x + y * y + z * z) in *.
  assert (EQ : forall p q p' q' : R, p = p' -> q = q' -> Rabs (p' - q') <= 12 * d -> Rabs (p - q) <= 12 * d) by (intros; subst; assumption).
  cases3 j Hj; [rewrite E0, G0|rewrite E1, G1|rewrite E2, G2]; cases3 i Hi; cbv [v3 vat vget fst snd].
  - eapply EQ; [| |apply (pert_diag 1 (-1) (-1)); lra]; [fold N; unfold N; field; fold N; lra|lra].
  - eapply EQ; [| |refine (proj1 (pert_off x y w z b c a e _ _ _ _ _ _)); assumption || (unfold N; ring) || lra]; [fold N; field; lra|ring].
  - eapply EQ; [| |refine (proj2 (pert_off x z w y b e a c _ _ _ _ _ _)); assumption || (unfold N; ring) || lra]; [fold N; field; lra|ring].
  - eapply EQ; [| |refine (proj2 (pert_off x y w z b c a e _ _ _ _ _ _)); assumption || (unfold N; ring) || lra]; [fold N; field; lra|ring].
  - eapply EQ; [| |apply (pert_diag (-1) 1 (-1)); lra]; [fold N; unfold N; field; fold N; lra|lra].
  - eapply EQ; [| |refine (proj1 (pert_off y z w x c e a b _ _ _ _ _ _)); assumption || (unfold N; ring) || lra]; [fold N; field; lra|ring].
  - eapply EQ; [| |refine (proj1 (pert_off x z w y b e a c _ _ _ _ _ _)); assumption || (unfold N; ring) || lra]; [fold N; field; lra|ring].
  - eapply EQ; [| |refine (proj2 (pert_off y z w x c e a b _ _ _ _ _ _)); assumption || (unfold N; ring) || lra]; [fold N; field; lra|ring].
  - eapply EQ; [| |apply (pert_diag (-1) (-1) 1); lra]; [fold N; unfold N; field; fold N; lra|lra].
Qed.
End Pert.

(** The quaternion of the half angle turns like Rodrigues' formula. *)
Lemma sandwich_rodrigues (a b c t : R) : a * a + b * b + c * c = 1 -> forall j i, (j < 3)%nat -> (i < 3)%nat ->
  vat (qsandwich (cos (t / 2), sin (t / 2) * a, sin (t / 2) * b, sin (t / 2) * c) (axis3 j)) i = vat (rodrigues (v3 a b c) t (axis3 j)) i.
Proof.
  intros U j i Hj Hi. set (C := cos (t / 2)). set (S := sin (t / 2)).
  assert (P : S * S + C * C = 1) by (pose proof (sin2_cos2 (t / 2)) as P; unfold Rsqr in P; exact P).
  assert (CT : cos t = C * C - S * S) by (replace t with (2 * (t / 2)) by field; rewrite cos_2a; reflexivity).
  assert (ST : sin t = 2 * S * C) by (replace t with (2 * (t / 2)) by field; rewrite sin_2a; reflexivity).
  destruct (sandwich_entries C (S * a) (S * b) (S * c) 2) as (G0 & G1 & G2).
  { replace (C * C + S * a * (S * a) + S * b * (S * b) + S * c * (S * c)) with (C * C + S * S * (a * a + b * b + c * c)) by ring. rewrite U. replace (C * C + S * S * 1) with 1 by lra. lra. }
  { replace (C * C + S * a * (S * a) + S * b * (S * b) + S * c * (S * c)) with (C * C + S * S * (a * a + b * b + c * c)) by ring. rewrite U. lra. }
  assert (CT' : cos t = 1 - 2 * (S * S)) by lra. assert (K : S * S * (a * a + b * b + c * c) = S * S) by (rewrite U; ring).
  cases3 j Hj; [rewrite G0|rewrite G1|rewrite G2]; cases3 i Hi;
    cbv [rodrigues axis3 delta Nat.eqb sum vat vget fst snd v3 nadd nmul n0 n1 num_R]; rewrite CT', ST; lra.
Qed.

Lemma c124_axis_angle_quaternion_matrix :
  forall (prec emax : Z) (Hp : Prec_gt_0 prec) (He : Prec_lt_emax prec emax)
    (sine cosine : binary_float prec emax -> binary_float prec emax)
    (axis : vec (binary_float prec emax) 3) (angle : binary_float prec emax) (a : vec R 3) (t d : R),
    (24 <= prec)%Z -> (34 <= emax)%Z -> 0 <= d <= / 64 ->
    sum 3 (fun i => vat a i * vat a i) = 1 ->
    (forall i, (i < 3)%nat -> fnear (vat axis i) (vat a i) d) ->
    let half : binary_float prec emax := nmul angle (ndiv n1 (nadd n1 n1)) in
    fnear (sine half) (sin (t / 2)) d -> fnear (cosine half) (cos (t / 2)) d ->
    forall j i, (j < 3)%nat -> (i < 3)%nat ->
      fnear (mget (qto_matrix (gqfrom_axis_angle sine cosine axis angle)) j i) (vat (rodrigues a t (axis3 j)) i)
        (36 * d + 104 * bpow radix2 (- prec)).
Proof.
  intros prec emax Hp He sine cosine axis angle a t d H24 H34 Hd Ha HA half HS HC j i Hj Hi.
  destruct (c124_axis_angle_quaternion prec emax Hp He sine cosine axis angle a t d H24 H34 ltac:(lra) Ha HA HS HC) as (Q0 & Q1).
  set (q := gqfrom_axis_angle sine cosine axis angle) in *.
  pose proof (Q1 0%nat ltac:(lia)) as (F1 & E1). pose proof (Q1 1%nat ltac:(lia)) as (F2 & E2). pose proof (Q1 2%nat ltac:(lia)) as (F3 & E3).
  destruct Q0 as (F0 & E0). clear Q1.
  set (u := bpow radix2 (- prec)) in *.
  assert (u0 : 0 < u) by apply bpow_gt_0.
  assert (u1 : u <= / 16777216).
  { replace (/ 16777216) with (bpow radix2 (-24)) by (cbn; reflexivity). apply bpow_le. lia. }
  set (D := 3 * d + 2 * u) in *.
  assert (D16 : D <= / 16) by (unfold D; lra). assert (D0 : 0 <= D) by (unfold D; lra).
  destruct a as [a [b [c []]]]. cbv [sum vat vget fst snd nadd nmul n0 n1 num_R] in Ha.
  assert (U : a * a + b * b + c * c = 1) by lra. clear Ha.
  pose proof (sin2_cos2 (t / 2)) as SC. unfold Rsqr in SC.
  assert (U4 : cos (t / 2) * cos (t / 2) + sin (t / 2) * a * (sin (t / 2) * a) + sin (t / 2) * b * (sin (t / 2) * b) + sin (t / 2) * c * (sin (t / 2) * c) = 1).
  { assert (K : sin (t / 2) * sin (t / 2) * (a * a + b * b + c * c) = sin (t / 2) * sin (t / 2)) by (rewrite U; ring). lra. }
  pose proof (pert_n D _ _ _ _ _ _ _ _ D0 D16 E0 E1 E2 E3 U4) as PN. apply Rabs_le_inv in PN.
  assert (M : forall k, (k < 4)%nat -> is_finite (vat (q : vec _ 4) k) = true).
  { intros [|[|[|[|k]]]] Hk; try assumption. exfalso. lia. }
  pose proof (c124_quaternion_matrix prec emax Hp He 1 q H24 ltac:(lia) ltac:(lia) M) as T. cbv zeta in T.
  assert (L : bpow radix2 (- (1)) <= qlength (B2R (vat (q : vec _ 4) 0), B2R (vat (q : vec _ 4) 1), B2R (vat (q : vec _ 4) 2), B2R (vat (q : vec _ 4) 3)) <= bpow radix2 1).
  { unfold qlength. match goal with |- _ <= sqrt ?N <= _ => set (NN := N) in * end.
    assert (B : / 4 <= NN <= 4) by lra.
    replace (bpow radix2 (- (1))) with (sqrt (/ 4)).
    - replace (bpow radix2 1) with (sqrt 4).
      + split; apply sqrt_le_1_alt; lra.
      + replace 4 with (2 * 2) by ring. rewrite sqrt_square by lra. cbn. lra.
    - replace (/ 4) with (/ 2 * / 2) by field. rewrite sqrt_square by lra. cbn. lra. }
  specialize (T L j i Hj Hi). clear L.
  replace (36 * d + 104 * u) with (12 * D + 80 * u) by (unfold D; ring).
  eapply fnear_tri; [exact T|].
  change (a, (b, (c, tt))) with (v3 a b c). rewrite <- (sandwich_rodrigues a b c t U j i Hj Hi).
  apply pert_sandwich; assumption.
Qed.

(** ** Angles about the coordinate axes *)
Lemma fnear_0 {prec emax} {Hp : Prec_gt_0 prec} {He : Prec_lt_emax prec emax} r d : r = 0 -> 0 <= d -> fnear (n0 : binary_float prec emax) r d.
Proof. intros -> H. split; [reflexivity|]. cbn. rewrite Rminus_0_r, Rabs_R0. exact H. Qed.
Lemma fnear_1 {prec emax} {Hp : Prec_gt_0 prec} {He : Prec_lt_emax prec emax} r d : r = 1 -> 0 <= d -> fnear (n1 : binary_float prec emax) r d.
Proof.
  intros -> H. destruct (@fapp_1 prec emax Hp He) as (F & _ & E). split; [exact F|].
  eapply Rle_trans; [exact E|]. lra.
Qed.
Lemma fnear_eq {prec emax} (x : binary_float prec emax) r r' d : fnear x r d -> r' = r -> fnear x r' d.
Proof. intros H ->. exact H. Qed.
Lemma fnear_neg {prec emax} {Hp : Prec_gt_0 prec} {He : Prec_lt_emax prec emax} (x : binary_float prec emax) r r' d :
  fnear x r d -> r' = - r -> fnear (nneg x : binary_float prec emax) r' d.
Proof.
  intros (F & E) ->. cbn [nneg num_float]. split; [rewrite is_finite_Bopp; exact F|].
  rewrite B2R_Bopp. replace (- B2R x - - r) with (- (B2R x - r)) by ring. rewrite Rabs_Ropp. exact E.
Qed.

Lemma c124_coordinate_angles :
  forall (prec emax : Z) (Hp : Prec_gt_0 prec) (He : Prec_lt_emax prec emax)
    (sine cosine : binary_float prec emax -> binary_float prec emax) (angle : binary_float prec emax) (t d : R),
    0 <= d -> fnear (sine angle) (sin t) d -> fnear (cosine angle) (cos t) d ->
    (forall j i, (j < 2)%nat -> (i < 2)%nat -> fnear (mget (gm2from_angle sine cosine angle) j i) (vat (turn2 t (axis2 j)) i) d) /\
    (forall j i, (j < 3)%nat -> (i < 3)%nat ->
      fnear (mget (gm3from_angle_x sine cosine angle) j i) (vat (rodrigues (axis3 0) t (axis3 j)) i) d /\
      fnear (mget (gm3from_angle_y sine cosine angle) j i) (vat (rodrigues (axis3 1) t (axis3 j)) i) d /\
      fnear (mget (gm3from_angle_z sine cosine angle) j i) (vat (rodrigues (axis3 2) t (axis3 j)) i) d).
Proof.
  intros prec emax Hp He sine cosine angle t d d0 HS HC. split.
  - intros j i Hj Hi. destruct j as [|[|j]]; [| |exfalso; lia]; destruct i as [|[|i]]; try (exfalso; lia);
      cbv [gm2from_angle m2new mget vget fst snd v2];
      match goal with |- fnear ?x ?r _ => let r' := eval cbv [turn2 axis2 delta Nat.eqb vat vget fst snd v2 n0 n1 num_R] in r in change (fnear x r' d) end;
      first [eapply fnear_eq; [exact HS|ring] | eapply fnear_eq; [exact HC|ring] | eapply fnear_neg; [exact HS|ring]].
  - intros j i Hj Hi. cases3 j Hj; cases3 i Hi;
      cbv [gm3from_angle_x gm3from_angle_y gm3from_angle_z m3new mget vget fst snd v3];
      (split; [|split]);
      match goal with |- fnear ?x ?r _ => let r' := eval cbv [rodrigues axis3 delta Nat.eqb sum vat vget fst snd v3 nadd nmul n0 n1 num_R] in r in change (fnear x r' d) end;
      first [eapply fnear_eq; [exact HS|ring] | eapply fnear_eq; [exact HC|ring] | eapply fnear_neg; [exact HS|ring] | apply fnear_0; [ring|exact d0] | apply fnear_1; [ring|exact d0]].
Qed.

(** ** Euler angles *)
Section Euler.
Context {prec emax : Z} {Hp : Prec_gt_0 prec} {He : Prec_lt_emax prec emax}.
Hypothesis H24 : (24 <= prec)%Z.
Hypothesis H34 : (34 <= emax)%Z.
Notation fl := (binary_float prec emax).
Notation V := (9 / 8).
Variable d : R.
Hypothesis Hd : 0 <= d <= / 8.

(** A float near a number of magnitude at most 1. *)
Definition ltrig (x : fl) (r : R) : Prop := fnear x r d /\ Rabs r <= 1.
Lemma ltrig_leaf x r : ltrig x r -> fapp V 1 0 x (B2R x).
Proof. intros (H & B). exact (fnear_leaf x r d Hd B H). Qed.

Lemma e_prod2 x y r s : ltrig x r -> ltrig y s -> fapp (V * V) 1 1025 (nmul x y) (B2R x * B2R y) /\ Rabs (B2R x * B2R y - r * s) <= 17 / 8 * d.
Proof.
  intros Lx Ly. split; [apply (a_sc H24 H34 x (ltrig_leaf _ _ Lx) y (ltrig_leaf _ _ Ly))|].
  destruct Lx as ((_ & E1) & B1), Ly as ((_ & E2) & B2). apply (sz_pert d (proj1 Hd) (proj2 Hd)); assumption.
Qed.
Lemma e_prod3 x y z r s v : ltrig x r -> ltrig y s -> ltrig z v ->
  fapp (V * V * V) 1 2050 (nmul (nmul x y) z) (B2R x * B2R y * B2R z) /\ Rabs (B2R x * B2R y * B2R z - r * s * v) <= 111 / 32 * d.
Proof.
  intros Lx Ly Lz. destruct (e_prod2 x y r s Lx Ly) as (F & E). split.
  - pose proof (pow24 H24) as P24. apply (fapp_mul2 H24 (V * V) V 1 1 1025 0); try assumption; try lia; try lra; [apply (a_wok3 H34)|exact (ltrig_leaf _ _ Lz)].
  - destruct Lx as (_ & B1), Ly as (_ & B2), Lz as ((_ & E3) & B3).
    assert (B12 : Rabs (r * s) <= 1).
    { rewrite Rabs_mult. replace 1 with (1 * 1) by ring. apply Rmult_le_compat; try apply Rabs_pos; assumption. }
    assert (BZ : Rabs (B2R z) <= 1 + / 8).
    { replace (B2R z) with ((B2R z - v) + v) by ring. eapply Rle_trans; [apply Rabs_triang|]. lra. }
    replace (B2R x * B2R y * B2R z - r * s * v) with ((B2R x * B2R y - r * s) * B2R z + r * s * (B2R z - v)) by ring.
    eapply Rle_trans; [apply Rabs_triang|]. rewrite (Rabs_mult (_ - _) (B2R z)), (Rabs_mult (r * s)).
    assert (Rabs (B2R x * B2R y - r * s) * Rabs (B2R z) <= 17 / 8 * d * (1 + / 8)) by (apply Rmult_le_compat; try apply Rabs_pos; assumption).
    assert (Rabs (r * s) * Rabs (B2R z - v) <= 1 * d) by (apply Rmult_le_compat; try apply Rabs_pos; assumption).
    lra.
Qed.
Lemma e_two x y r s : ltrig x r -> ltrig y s -> fnear (nmul x y : fl) (r * s) (6 * d + 8 * bpow radix2 (- prec)).
Proof.
  intros Lx Ly. destruct (e_prod2 x y r s Lx Ly) as ((F & _ & E) & P). split; [exact F|].
  pose proof (tri2 _ _ _ _ _ E P). pose proof (bpow_gt_0 radix2 (- prec)). lra.
Qed.
Lemma e_sum x y a b c r s p q v : ltrig x r -> ltrig y s -> ltrig a p -> ltrig b q -> ltrig c v ->
  fnear (nadd (nmul x y) (nmul (nmul a b) c) : fl) (r * s + p * q * v) (6 * d + 8 * bpow radix2 (- prec)) /\
  fnear (nsub (nmul x y) (nmul (nmul a b) c) : fl) (r * s - p * q * v) (6 * d + 8 * bpow radix2 (- prec)).
Proof.
  intros Lx Ly La Lb Lc. destruct (e_prod2 x y r s Lx Ly) as (F2 & E2). destruct (e_prod3 a b c p q v La Lb Lc) as (F3 & E3).
  pose proof (pow24 H24) as P24. pose proof (bpow_gt_0 radix2 (- prec)) as U0.
  apply (fapp_up _ (V * V * V)) in F2; [|lra|lia|lia].
  pose proof (fapp_add H24 _ 1 1 _ _ _ _ _ _ (a_wok3 H34) F2 F3 ltac:(lia) ltac:(lia)) as (G1 & _ & S1).
  pose proof (fapp_sub H24 _ 1 1 _ _ _ _ _ _ (a_wok3 H34) F2 F3 ltac:(lia) ltac:(lia)) as (G2 & _ & S2).
  apply Rabs_le_inv in E2, E3. destruct Hd as (d0 & d8).
  change (1025 + 2050 + 1024 * (1 + 1) + 1)%Z with 5124%Z in S1, S2.
  split; (split; [assumption|]).
  - eapply Rle_trans; [eapply (tri2 _ _ _ _ (17 / 8 * d + 111 / 32 * d)); [exact S1|apply Rabs_le; lra]|]. lra.
  - eapply Rle_trans; [eapply (tri2 _ _ _ _ (17 / 8 * d + 111 / 32 * d)); [exact S2|apply Rabs_le; lra]|]. lra.
Qed.
Lemma ltrig_neg x r : ltrig x r -> ltrig (nneg x) (- r).
Proof. intros (H & B). split; [eapply fnear_neg; [exact H|reflexivity]|]. rewrite Rabs_Ropp. exact B. Qed.
End Euler.

Lemma c124_euler :
  forall (prec emax : Z) (Hp : Prec_gt_0 prec) (He : Prec_lt_emax prec emax)
    (sine cosine : binary_float prec emax -> binary_float prec emax) (ax ay az : binary_float prec emax) (a b c d : R),
    (24 <= prec)%Z -> (34 <= emax)%Z -> 0 <= d <= / 8 ->
    fnear (sine ax) (sin a) d -> fnear (cosine ax) (cos a) d ->
    fnear (sine ay) (sin b) d -> fnear (cosine ay) (cos b) d ->
    fnear (sine az) (sin c) d -> fnear (cosine az) (cos c) d ->
    forall j i, (j < 3)%nat -> (i < 3)%nat ->
      fnear (mget (geuler_to_matrix sine cosine ax ay az) j i) (vat (euler_turn a b c (axis3 j)) i) (6 * d + 8 * bpow radix2 (- prec)).
Proof.
  intros prec emax Hp He sine cosine ax ay az a b c d H24 H34 Hd Sa Ca Sb Cb Sc Cc j i Hj Hi.
  assert (BS : forall t, Rabs (sin t) <= 1) by (intros t; apply Rabs_le; destruct (SIN_bound t); lra).
  assert (BC : forall t, Rabs (cos t) <= 1) by (intros t; apply Rabs_le; destruct (COS_bound t); lra).
  assert (Tsa : ltrig d (sine ax) (sin a)) by (split; [assumption|apply BS]).
  assert (Tca : ltrig d (cosine ax) (cos a)) by (split; [assumption|apply BC]).
  assert (Tsb : ltrig d (sine ay) (sin b)) by (split; [assumption|apply BS]).
  assert (Tcb : ltrig d (cosine ay) (cos b)) by (split; [assumption|apply BC]).
  assert (Tsc : ltrig d (sine az) (sin c)) by (split; [assumption|apply BS]).
  assert (Tcc : ltrig d (cosine az) (cos c)) by (split; [assumption|apply BC]).
  pose proof (ltrig_neg d _ _ Tcb) as Tnb.
  pose proof (bpow_gt_0 radix2 (- prec)) as U0.
  assert (Ws : fnear (sine ay) (sin b) (6 * d + 8 * bpow radix2 (- prec))) by (destruct Sb as (F & E); split; [exact F|lra]).
  unfold geuler_to_matrix. cbv zeta.
  assert (ST : forall t : R, sin t * sin t = 1 - cos t * cos t) by (intros t; pose proof (sin2_cos2 t) as P; unfold Rsqr in P; lra).
  cases3 j Hj; cases3 i Hi; cbv [m3new mget vget fst snd v3];
    [ eapply fnear_eq; [apply (e_two H24 H34 d Hd _ _ _ _ Tcb Tcc)|]
    | eapply fnear_eq; [apply (e_sum H24 H34 d Hd _ _ _ _ _ _ _ _ _ _ Tca Tsc Tcc Tsb Tsa)|]
    | eapply fnear_eq; [apply (e_sum H24 H34 d Hd _ _ _ _ _ _ _ _ _ _ Tsc Tsa Tcc Tca Tsb)|]
    | eapply fnear_eq; [apply (e_two H24 H34 d Hd _ _ _ _ Tnb Tsc)|]
    | eapply fnear_eq; [apply (e_sum H24 H34 d Hd _ _ _ _ _ _ _ _ _ _ Tcc Tca Tsb Tsc Tsa)|]
    | eapply fnear_eq; [apply (e_sum H24 H34 d Hd _ _ _ _ _ _ _ _ _ _ Tcc Tsa Tca Tsb Tsc)|]
    | eapply fnear_eq; [apply Ws|]
    | eapply fnear_eq; [apply (e_two H24 H34 d Hd _ _ _ _ Tnb Tsa)|]
    | eapply fnear_eq; [apply (e_two H24 H34 d Hd _ _ _ _ Tcb Tca)|] ];
    cbv [euler_turn rodrigues axis3 delta Nat.eqb sum vat vget fst snd v3 nadd nmul n0 n1 num_R]; ring.
Qed.

(** Over the reals, with the real sine and cosine, the functions of MRotF.v are those of MRot.v and MQuat.v. *)
Lemma c124_reals : forall (t a b c : R) (axis : vec R 3),
  gm2from_angle sin cos t = m2from_angle t /\ gm3from_angle_x sin cos t = m3from_angle_x t /\
  gm3from_angle_y sin cos t = m3from_angle_y t /\ gm3from_angle_z sin cos t = m3from_angle_z t /\
  gm3from_axis_angle sin cos axis t = m3from_axis_angle axis t /\ gqfrom_axis_angle sin cos axis t = qfrom_axis_angle axis t /\
  geuler_to_matrix sin cos a b c = euler_to_matrix (mkEuler a b c).
Proof. intros. repeat split. Qed.

Lemma c124_example :
  let x : f64 := ndiv (f64_of_Z 3) (f64_of_Z 5) in let y : f64 := ndiv (f64_of_Z 4) (f64_of_Z 5) in
  let axis : vec f64 3 := v3 x y (n0 : f64) in let a : vec R 3 := v3 (3 / 5)%R (4 / 5)%R 0%R in
  let u := bpow radix2 (- 53) in
  sum 3 (fun i => (vat a i * vat a i)%R) = 1%R /\
  (forall i, (i < 3)%nat -> fnear (vat axis i) (vat a i) u) /\
  fnear (n1 : f64) (sin (PI / 2)) u /\ fnear (n0 : f64) (cos (PI / 2)) u.
Proof.
  intros x y axis a u.
  assert (Ec : x = @B754_finite 53 1024 false 5404319552844595 (-53) eq_refl) by (apply B2SF_inj; vm_compute; reflexivity).
  assert (Es : y = @B754_finite 53 1024 false 7205759403792794 (-53) eq_refl) by (apply B2SF_inj; vm_compute; reflexivity).
  assert (U : u = / 9007199254740992) by reflexivity.
  assert (Vc : B2R x = 5404319552844595 / 9007199254740992).
  { rewrite Ec. unfold B2R, F2R; cbn -[IZR bpow]. change (bpow radix2 (-53)) with (/ 9007199254740992). reflexivity. }
  assert (Vs : B2R y = 7205759403792794 / 9007199254740992).
  { rewrite Es. unfold B2R, F2R; cbn -[IZR bpow]. change (bpow radix2 (-53)) with (/ 9007199254740992). reflexivity. }
  assert (U0 : 0 <= u) by (rewrite U; lra).
  split; [cbv [sum vat vget fst snd a v3 nadd nmul n0 n1 num_R]; field|]. split; [|split].
  - intros i Hi. cases3 i Hi.
    + split; [cbn [vat vget fst snd axis v3]; rewrite Ec; reflexivity|]. cbn [vat vget fst snd axis a v3]. rewrite Vc, U. apply Rabs_le. lra.
    + split; [cbn [vat vget fst snd axis v3]; rewrite Es; reflexivity|]. cbn [vat vget fst snd axis a v3]. rewrite Vs, U. apply Rabs_le. lra.
    + apply fnear_0; [reflexivity|exact U0].
  - apply fnear_1; [apply sin_PI2|exact U0].
  - apply fnear_0; [apply cos_PI2|exact U0].
Qed.

Lemma c124_quaternion_example :
  let q : quat f64 := qnew (f64_of_Z 1) (f64_of_Z 2) (f64_of_Z 2) (f64_of_Z 4) in
  (forall i, (i < 4)%nat -> is_finite (vat (q : vec _ 4) i) = true) /\
  qlength (B2R (vat (q : vec _ 4) 0), B2R (vat (q : vec _ 4) 1), B2R (vat (q : vec _ 4) 2), B2R (vat (q : vec _ 4) 3)) = 5%R.
Proof.
  intros q.
  destruct (f64_of_Z_exact 1 ltac:(lia)) as (V1 & F1). destruct (f64_of_Z_exact 2 ltac:(lia)) as (V2 & F2). destruct (f64_of_Z_exact 4 ltac:(lia)) as (V4 & F4).
  split.
  - intros i Hi. destruct i as [|[|[|[|i]]]]; [| | | |exfalso; lia]; assumption.
  - change (qlength (B2R (f64_of_Z 1), B2R (f64_of_Z 2), B2R (f64_of_Z 2), B2R (f64_of_Z 4)) = 5).
    rewrite V1, V2, V4. unfold qlength. replace (_ + _) with (5 * 5) by lra. apply sqrt_square. lra.
Qed.
