(** Interpolation of quaternions in floats: rounding errors. *)

From Coq Require Import List Arith ZArith Bool Lia Reals Lra Psatz.
From Flocq Require Import Core.Core Sterbenz Mult_error IEEE754.BinarySingleNaN.
From Verif Require Import Base Scalar Spec SpecF SpecRigid SpecSlerp LBase MVector MQuat LVector MFloat LFloat LFloatP MFloatVec LFloatVec LTrScF LAngleFP
  MSign MComplexF MRotF MArcF LArc LArcN LArcP LDriftM LRigidF LNormF LQMatF LSlerp LSlerpG.
Local Open Scope R_scope.

Section SlerpF.
Context {prec emax : Z} {Hp : Prec_gt_0 prec} {He : Prec_lt_emax prec emax}.
Notation fl := (binary_float prec emax).
Notation u := (bpow radix2 (- prec)).
Notation fexp := (FLT_exp (3 - emax - prec) prec).
Notation rnd := (round radix2 fexp ZnearestE).
Hypothesis H24 : (24 <= prec)%Z.
Hypothesis Hrange : (2 * prec + 31 <= emax)%Z.

Lemma one_val : is_finite (n1 : fl) = true /\ B2R (n1 : fl) = 1.
Proof. destruct (@fbone prec emax Hp He) as (E & F & _). exact (conj F E). Qed.
Lemma n_self (x : fl) : is_finite x = true -> fnear x (B2R x) 0.
Proof. intros F. split; [exact F|]. rewrite Rminus_diag_eq, Rabs_R0 by reflexivity. lra. Qed.
Lemma n_one : fnear (n1 : fl) 1 0.
Proof. destruct one_val as (F & E). split; [exact F|]. rewrite E, Rminus_diag_eq, Rabs_R0 by reflexivity. lra. Qed.
Lemma abs1 x y : Rabs x <= 1 -> Rabs y <= 1 -> Rabs (x * y) <= 1.
Proof. intros A B. rewrite Rabs_mult. rewrite <- (Rmult_1_l 1). apply Rmult_le_compat; try apply Rabs_pos; assumption. Qed.
Lemma n_abs (x : fl) r e A : fnear x r e -> Rabs r <= A -> Rabs (B2R x) <= A + e.
Proof. intros (_ & E) H. replace (B2R x) with (r + (B2R x - r)) by ring. eapply Rle_trans; [apply Rabs_triang|]. lra. Qed.
Lemma n_prod (x y : fl) r s d e A B : fnear x r d -> fnear y s e -> Rabs r <= A -> Rabs s <= B -> (A + d) * (B + e) <= 16 ->
  fnear (nmul x y) (r * s) (d * (B + e) + A * e + ((A + d) * (B + e) + / 4096) * u).
Proof.
  intros Hx Hy Hr Hs H16. pose proof (n_abs x r d A Hx Hr) as Bx. pose proof (n_abs y s e B Hy Hs) as By.
  pose proof Hx as (Fx & Ex). pose proof Hy as (Fy & Ey).
  assert (B0 : Rabs (B2R x * B2R y) <= (A + d) * (B + e)) by (rewrite Rabs_mult; apply Rmult_le_compat; try apply Rabs_pos; assumption).
  destruct (n_mul H24 x y _ Fx Fy B0 H16) as (F & E). split; [exact F|].
  replace (B2R (nmul x y) - r * s) with ((B2R (nmul x y) - B2R x * B2R y) + ((B2R x - r) * B2R y + r * (B2R y - s))) by ring.
  eapply Rle_trans; [apply Rabs_triang|]. assert (Rabs ((B2R x - r) * B2R y + r * (B2R y - s)) <= d * (B + e) + A * e); [|lra].
  eapply Rle_trans; [apply Rabs_triang|]. rewrite !Rabs_mult.
  apply Rplus_le_compat; apply Rmult_le_compat; try apply Rabs_pos; assumption.
Qed.

Variable d : R.
Hypothesis Hd : u <= d <= / 65536.

Section Pair.
Variables P Q : nat -> R.
Hypothesis HP : rlength 4 P = 1.
Hypothesis HQ : rlength 4 Q = 1.
Variables p q : vec fl 4.
Hypothesis np : forall i, (i < 4)%nat -> fnear (vat p i) (P i) d.
Hypothesis nq : forall i, (i < 4)%nat -> fnear (vat q i) (Q i) d.

(** Scalar product. *)
Lemma dot_near : fnear (qdot p q) (dot4 P Q) (24 * d).
Proof.
  pose proof (u_small H24) as Hu. rewrite dot4_eq.
  change (qdot p q) with (nadd (nadd (nadd (nadd n0 (nmul (vat p 0) (vat q 0))) (nmul (vat p 1) (vat q 1))) (nmul (vat p 2) (vat q 2))) (nmul (vat p 3) (vat q 3)) : fl).
  assert (M : forall i, (i < 4)%nat -> fnear (nmul (vat p i) (vat q i) : fl) (P i * Q i) (32 / 10 * d) /\ Rabs (P i * Q i) <= 1).
  { intros i Hi. pose proof (unit4_comp P i HP Hi) as BP. pose proof (unit4_comp Q i HQ Hi) as BQ.
    assert (D2 : d * d <= d * / 65536) by (apply Rmult_le_compat_l; lra).
    assert (B : (1 + d) * (1 + d) <= 1001 / 1000) by lra. split.
    - eapply n_weak; [apply (n_prod _ _ _ _ d d 1 1); auto; lra|].
      assert (((1 + d) * (1 + d) + / 4096) * u <= (1001 / 1000 + / 4096) * u) by (apply Rmult_le_compat_r; lra). lra.
    - rewrite Rabs_mult. replace 1 with (1 * 1) by ring. apply Rmult_le_compat; try apply Rabs_pos; assumption. }
  assert (Z : fnear (n0 : fl) 0 0) by (split; [reflexivity|]; cbn; rewrite Rminus_0_r, Rabs_R0; lra).
  destruct (M 0%nat ltac:(lia)) as (M0 & B0). destruct (M 1%nat ltac:(lia)) as (M1 & B1).
  destruct (M 2%nat ltac:(lia)) as (M2 & B2). destruct (M 3%nat ltac:(lia)) as (M3 & B3). clear M.
  assert (S : forall (x y : fl) r s e f A, fnear x r e -> fnear y s f -> Rabs r + Rabs s + e + f <= A -> A <= 16 -> fnear (nadd x y) (r + s) (e + f + A * u)).
  { intros x y r s e f A Hx Hy HA A16. apply (n_add H24 x y r s e f A Hx Hy); [|exact A16].
    eapply Rle_trans; [apply Rabs_triang|]. pose proof (n_abs x r e _ Hx (Rle_refl _)). pose proof (n_abs y s f _ Hy (Rle_refl _)). lra. }
  pose proof (S _ _ _ _ _ _ (11 / 10) Z M0 ltac:(rewrite Rabs_R0; lra) ltac:(lra)) as A0. rewrite Rplus_0_l in A0.
  pose proof (S _ _ _ _ _ _ (21 / 10) A0 M1 ltac:(lra) ltac:(lra)) as A1.
  assert (B01 : Rabs (P 0%nat * Q 0%nat + P 1%nat * Q 1%nat) <= 2) by (eapply Rle_trans; [apply Rabs_triang|lra]).
  pose proof (S _ _ _ _ _ _ (31 / 10) A1 M2 ltac:(lra) ltac:(lra)) as A2.
  assert (B02 : Rabs (P 0%nat * Q 0%nat + P 1%nat * Q 1%nat + P 2%nat * Q 2%nat) <= 3) by (eapply Rle_trans; [apply Rabs_triang|lra]).
  pose proof (S _ _ _ _ _ _ (41 / 10) A2 M3 ltac:(lra) ltac:(lra)) as A3.
  eapply n_weak; [exact A3|]. lra.
Qed.

(** The unnormalised combination of [nlerp]. *)
Variable a : fl.
Hypothesis Fa : is_finite a = true.
Hypothesis Ba : 0 <= B2R a <= 1.

Lemma co_near : fnear (nsub n1 a) (1 - B2R a) u.
Proof.
  eapply n_weak; [apply (n_sub H24 _ _ _ _ 0 0 1 n_one (n_self a Fa))|]; [|lra|lra].
  rewrite (proj2 one_val). rewrite Rabs_pos_eq; lra.
Qed.
Definition mix : vec fl 4 := qadd (qscale p (nsub n1 a)) (qscale q a).
Lemma mix_near i : (i < 4)%nat -> fnear (vat mix i) (chord P Q (B2R a) i) (8 * d).
Proof.
  intros Hi. pose proof (u_small H24) as Hu. replace (vat mix i) with (nadd (nmul (vat p i) (nsub n1 a)) (nmul (vat q i) a) : fl)
    by (destruct i as [|[|[|[|i]]]]; [reflexivity..|exfalso; lia]).
  pose proof (unit4_comp P i HP Hi) as BP. pose proof (unit4_comp Q i HQ Hi) as BQ.
  assert (D2 : d * u <= d * / 65536) by (apply Rmult_le_compat_l; lra).
  assert (D3 : d * u <= / 65536 * u) by (apply Rmult_le_compat_r; lra).
  assert (U2 : u * u <= u * / 65536) by (apply Rmult_le_compat_l; lra).
  assert (T1 : Rabs (1 - B2R a) <= 1) by (rewrite Rabs_pos_eq; lra). assert (T0 : Rabs (B2R a) <= 1) by (rewrite Rabs_pos_eq; lra).
  assert (M1 : fnear (nmul (vat p i) (nsub n1 a)) (P i * (1 - B2R a)) (33 / 10 * d)).
  { eapply n_weak; [apply (n_prod _ _ _ _ d u 1 1 (np i Hi) co_near BP T1); lra|].
    assert (((1 + d) * (1 + u) + / 4096) * u <= (1001 / 1000 + / 4096) * u) by (apply Rmult_le_compat_r; lra). lra. }
  assert (M2 : fnear (nmul (vat q i) a) (Q i * B2R a) (22 / 10 * d)).
  { eapply n_weak; [apply (n_prod _ _ _ _ d 0 1 1 (nq i Hi) (n_self a Fa) BQ T0); lra|].
    assert (((1 + d) * (1 + 0) + / 4096) * u <= (1001 / 1000 + / 4096) * u) by (apply Rmult_le_compat_r; lra). lra. }
  assert (A1 : Rabs (P i * (1 - B2R a)) <= 1) by (apply abs1; assumption).
  assert (A2 : Rabs (Q i * B2R a) <= 1) by (apply abs1; assumption).
  unfold chord. replace ((1 - B2R a) * P i + B2R a * Q i) with (P i * (1 - B2R a) + Q i * B2R a) by ring.
  eapply n_weak; [apply (n_add H24 _ _ _ _ _ _ (21 / 10) M1 M2)|]; [|lra|lra].
  eapply Rle_trans; [apply Rabs_triang|]. pose proof (n_abs _ _ _ _ M1 A1). pose proof (n_abs _ _ _ _ M2 A2). lra.
Qed.
Lemma nlerp_near s : rlength 4 (chord P Q (B2R a)) = s -> 64 * d <= s ->
  forall i, (i < 4)%nat -> fnear (vat (fqnlerp p q a : vec fl 4) i) (chord P Q (B2R a) i / s) (36 * d / s).
Proof.
  intros Es Hs i Hi. pose proof (u_small H24) as Hu. pose proof (chord_le P Q HP HQ (B2R a) Ba) as S1. rewrite Es in S1.
  set (C := chord P Q (B2R a)) in *. change (fqnlerp p q a : vec fl 4) with (fvnormalize mix).
  assert (M : forall i, (i < 4)%nat -> fnear (vat mix i) (C i) (8 * d)) by exact mix_near.
  set (r := rlength 4 (fval mix)).
  assert (D : rlength 4 (fun i => fval mix i - C i) <= 16 * d).
  { eapply Rle_trans; [apply (fnrm_bound 4 _ (8 * d)); [lra|]|].
    - intros j Hj. exact (proj2 (M j Hj)).
    - pose proof (sqrt_INR_2 4 ltac:(lia)). assert (sqrt (INR 4) * (8 * d) <= 2 * (8 * d)) by (apply Rmult_le_compat_r; lra). lra. }
  assert (Rr : Rabs (r - s) <= 16 * d).
  { pose proof (fnrm_near 4 (fval mix) C _ D) as R1. fold r in R1. change (fnrm 4 C) with (rlength 4 C) in R1. rewrite Es in R1.
    assert (D' : rlength 4 (fun i => C i - fval mix i) <= 16 * d).
    { change (fnrm 4 (fun i => C i - fval mix i) <= 16 * d). rewrite <- fnrm_neg.
      rewrite (fnrm_ext 4 _ (fun i => fval mix i - C i)) by (intros; ring). exact D. }
    pose proof (fnrm_near 4 C (fval mix) _ D') as R2. change (fnrm 4 C) with (rlength 4 C) in R2. rewrite Es in R2. fold r in R2.
    change (fnrm 4 (fval mix)) with r in R1, R2. apply Rabs_le. lra. }
  apply Rabs_le_inv in Rr.
  assert (B : bpow radix2 (- prec) <= r <= bpow radix2 prec).
  { split; [lra|]. apply Rle_trans with (bpow radix2 1); [change (bpow radix2 1) with 2; lra|apply bpow_le; lia]. }
  destruct (c97_any prec emax Hp He 4 prec mix H24 ltac:(lia) ltac:(lia) ltac:(lia) (fun j Hj => proj1 (M j Hj)) B) as (_ & N).
  fold r in N. destruct (N i Hi) as (F & E). split; [exact F|].
  assert (s0 : 0 < s) by lra. assert (r0 : 0 < r) by lra. set (x := fval mix i) in *.
  assert (X : Rabs (x - C i) <= 8 * d) by exact (proj2 (M i Hi)).
  assert (XR : Rabs x <= r) by exact (fnrm_comp 4 (fval mix) i Hi).
  assert (K : Rabs (x / r - C i / s) <= 24 * d / s).
  { replace (x / r - C i / s) with ((x - C i) * / s + x * / r * ((s - r) * / s)) by (field; lra).
    pose proof (Rinv_0_lt_compat s s0) as I. pose proof (Rinv_0_lt_compat r r0) as I'.
    eapply Rle_trans; [apply Rabs_triang|]. rewrite !Rabs_mult, (Rabs_pos_eq (/ s)), (Rabs_pos_eq (/ r)) by lra.
    assert (Rabs (x - C i) * / s <= 8 * d * / s) by (apply Rmult_le_compat_r; lra).
    assert (Y : Rabs x * / r <= 1).
    { apply (Rmult_le_reg_r r); [exact r0|]. rewrite Rmult_assoc, Rinv_l by lra. lra. }
    assert (Rabs x * / r * (Rabs (s - r) * / s) <= 1 * (16 * d * / s)).
    { apply Rmult_le_compat; [apply Rmult_le_pos; [apply Rabs_pos|lra]|apply Rmult_le_pos; [apply Rabs_pos|lra]|exact Y|].
      apply Rmult_le_compat_r; [lra|]. apply Rabs_le. lra. }
    unfold Rdiv. lra. }
  assert (U : 12 * u <= 12 * d / s).
  { apply (Rmult_le_reg_r s); [exact s0|]. replace (12 * d / s * s) with (12 * d) by (field; lra).
    assert (12 * u * s <= 12 * d * 1) by (apply Rmult_le_compat; lra). lra. }
  replace (B2R (vat (fvnormalize mix) i) - C i / s) with ((B2R (vat (fvnormalize mix) i) - x / r) + (x / r - C i / s)) by ring.
  eapply Rle_trans; [apply Rabs_triang|]. replace (36 * d / s) with (12 * d / s + 24 * d / s) by (field; lra).
  change (fval mix i) with x in E. lra.
Qed.
End Pair.
End SlerpF.
