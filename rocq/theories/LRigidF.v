(** Rounding errors of rigid motions in floats, measured in Euclidean length. *)

From Coq Require Import List Arith ZArith Lia Reals Lra Psatz.
From Flocq Require Import Core.Core IEEE754.BinarySingleNaN.
From Verif Require Import Base Scalar Spec SpecF SpecRot SpecDrift MVector MMatrix MReal MFloat
  LBase LVector LMatrix LReal LVectorR LRot LTransformR LFloat LFloatVec LFloatAcc LFloatNormP LFloatP LDrift LDriftM.

Local Open Scope R_scope.

Lemma fnrm_le n f g : (forall i, (i < n)%nat -> Rabs (f i) <= Rabs (g i)) -> fnrm n f <= fnrm n g.
Proof.
  intros H. apply sqrt_le_1_alt. apply rsum_le. intros i Hi. apply (Rsqr_le_abs_1 (f i) (g i) (H i Hi)).
Qed.
Lemma fnrm_scale n c f : fnrm n (fun i => c * f i) = Rabs c * fnrm n f.
Proof.
  unfold fnrm. rewrite <- sqrt_Rsqr_abs, <- sqrt_mult.
  - apply f_equal. unfold Rsqr. induction n as [|n IH]; [cbn; ring|]. rewrite !rsum_S, IH. ring.
  - apply Rle_0_sqr.
  - apply rsum_nonneg. intros. apply Rle_0_sqr.
Qed.
Lemma fnrm_tri3 n x y z e1 e2 : fnrm n (fun i => x i - y i) <= e1 -> fnrm n (fun i => y i - z i) <= e2 -> fnrm n (fun i => x i - z i) <= e1 + e2.
Proof.
  intros H1 H2. rewrite (fnrm_ext n _ (fun i => (x i - y i) + (y i - z i))) by (intros; ring).
  eapply Rle_trans; [apply fnrm_tri|]. lra.
Qed.
Lemma fnrm_near n x r e : fnrm n (fun i => x i - r i) <= e -> fnrm n x <= fnrm n r + e.
Proof.
  intros H. rewrite (fnrm_ext n x (fun i => r i + (x i - r i))) by (intros; ring).
  eapply Rle_trans; [apply fnrm_tri|]. lra.
Qed.
Lemma fnrm_neg n f : fnrm n (fun i => - f i) = fnrm n f.
Proof. unfold fnrm. apply f_equal. apply sum_ext. intros i Hi. change (- f i * - f i = f i * f i). ring. Qed.
Lemma fnrm_orth_mul n (q : mat R n n) x : orthonormal_columns q -> fnrm n (fun i => rsum n (fun j => mget q j i * x j)) = fnrm n x.
Proof.
  intros H. rewrite <- (fnrm_orth n (mtranspose q) x (orth_inverse n q H)). apply fnrm_ext. intros i Hi. apply sum_ext. intros j Hj.
  rewrite mget_mtranspose by assumption. apply Rmult_comm.
Qed.
Lemma rsum_minus n f g : rsum n f - rsum n g = rsum n (fun i => f i - g i).
Proof. induction n as [|n IH]; [cbn; ring|]. rewrite !rsum_S, <- IH. ring. Qed.
Lemma rsum_plus n f g : rsum n f + rsum n g = rsum n (fun i => f i + g i).
Proof. induction n as [|n IH]; [cbn; ring|]. rewrite !rsum_S, <- IH. ring. Qed.

Section V.
Context {prec emax : Z} {Hp : Prec_gt_0 prec} {He : Prec_lt_emax prec emax}.
Notation fl := (binary_float prec emax).
Notation u := (bpow radix2 (- prec)).
Hypothesis H24 : (24 <= prec)%Z.
Variable n : nat.
Hypothesis Hn : (n <= 4)%nat.
Variable V : R.
Hypothesis HV : @wok emax V.

(** The float family [x] is finite and within [e V] of [r]. *)
Definition vne (e : R) (x : nat -> fl) (r : nat -> R) : Prop :=
  (forall i, (i < n)%nat -> is_finite (x i) = true) /\ fnrm n (fun i => B2R (x i) - r i) <= e * V.

Lemma vne_ext e x y r s : vne e x r -> (forall i, (i < n)%nat -> x i = y i) -> (forall i, (i < n)%nat -> r i = s i) -> vne e y s.
Proof.
  intros (F & E) H1 H2. split; [intros i Hi; rewrite <- H1 by exact Hi; apply F; exact Hi|].
  rewrite (fnrm_ext n _ (fun i => B2R (x i) - r i)); [exact E|]. intros i Hi. rewrite H1, H2 by exact Hi. reflexivity.
Qed.
Lemma V_pos : 0 < V.
Proof. exact (wok_pos _ HV). Qed.
Lemma vne_weak e e' x r : vne e x r -> e <= e' -> vne e' x r.
Proof. intros (F & E) H. split; [exact F|]. eapply Rle_trans; [exact E|]. apply Rmult_le_compat_r; [pose proof V_pos; lra|exact H]. Qed.
Lemma vne_exact x : (forall i, (i < n)%nat -> is_finite (x i) = true) -> vne 0 x (fun i => B2R (x i)).
Proof.
  intros F. split; [exact F|]. rewrite (fnrm_ext n _ (fun i => 0 * B2R (x i))) by (intros; ring). rewrite fnrm_scale, Rabs_R0. lra.
Qed.

Lemma u_small : 0 < u <= / 16777216.
Proof. split; [apply bpow_gt_0|]. change (/ 16777216) with (bpow radix2 (-24)). apply bpow_le. clear -H24. lia. Qed.
Lemma V_max : 1048576 * (64 * V) <= bpow radix2 (emax - 1).
Proof.
  destruct HV as (_ & H). apply Rle_trans with (bpow radix2 26 * bpow radix2 (emax - 31)).
  - change (bpow radix2 26) with 67108864. lra.
  - rewrite <- bpow_plus. apply bpow_le. clear. lia.
Qed.

Lemma add_step e f B C x y r s : vne e x r -> vne f y s -> fnrm n r <= B * V -> fnrm n s <= C * V -> 0 <= e -> 0 <= f ->
  B + C + e + f <= 1048576 ->
  vne (e + f + (B + C + e + f) * u) (fun i => nadd (x i) (y i)) (fun i => r i + s i).
Proof.
  intros (Fx & Ex) (Fy & Ey) HB HC e0 f0 HS. pose proof V_pos as V0.
  assert (S : fnrm n (fun i => B2R (x i) + B2R (y i)) <= (B + C + e + f) * V).
  { eapply Rle_trans; [apply fnrm_tri|]. pose proof (fnrm_near _ _ _ _ Ex). pose proof (fnrm_near _ _ _ _ Ey). lra. }
  assert (F : forall i, (i < n)%nat -> is_finite (nadd (x i) (y i)) = true).
  { intros i Hi. apply fadd_fin; [apply Fx; exact Hi|apply Fy; exact Hi|].
    eapply Rle_trans; [apply (fnrm_comp n (fun i => B2R (x i) + B2R (y i)) i Hi)|]. pose proof V_max. nra. }
  split; [exact F|].
  replace ((e + f + (B + C + e + f) * u) * V) with (u * ((B + C + e + f) * V) + (e * V + f * V)) by ring.
  apply fnrm_tri3 with (fun i => B2R (x i) + B2R (y i)).
  - apply Rle_trans with (fnrm n (fun i => u * (B2R (x i) + B2R (y i)))).
    + apply fnrm_le. intros i Hi. destruct (fadd_err _ _ (F i Hi)) as (d & Hd & E). rewrite E.
      replace ((B2R (x i) + B2R (y i)) * (1 + d) - (B2R (x i) + B2R (y i))) with (d * (B2R (x i) + B2R (y i))) by ring.
      rewrite !Rabs_mult. apply Rmult_le_compat_r; [apply Rabs_pos|]. rewrite (Rabs_pos_eq u) by apply bpow_ge_0.
      rewrite <- (@funit_eq prec). exact Hd.
    + rewrite fnrm_scale, Rabs_pos_eq by apply bpow_ge_0. apply Rmult_le_compat_l; [apply bpow_ge_0|exact S].
  - rewrite (fnrm_ext n _ (fun i => (B2R (x i) - r i) + (B2R (y i) - s i))) by (intros; ring).
    eapply Rle_trans; [apply fnrm_tri|]. lra.
Qed.
Lemma neg_step e x r : vne e x r -> vne e (fun i => nneg (x i)) (fun i => - r i).
Proof.
  intros (F & E). split.
  - intros i Hi. cbn [nneg num_float]. rewrite is_finite_Bopp. apply F. exact Hi.
  - rewrite (fnrm_ext n _ (fun i => - (B2R (x i) - r i))); [rewrite fnrm_neg; exact E|].
    intros i Hi. cbn [nneg num_float]. rewrite B2R_Bopp. ring.
Qed.
Lemma sub_step e f B C x y r s : vne e x r -> vne f y s -> fnrm n r <= B * V -> fnrm n s <= C * V -> 0 <= e -> 0 <= f ->
  B + C + e + f <= 1048576 ->
  vne (e + f + (B + C + e + f) * u) (fun i => nsub (x i) (y i)) (fun i => r i - s i).
Proof.
  intros Hx Hy HB HC e0 f0 HS.
  apply (vne_ext _ (fun i => nadd (x i) (nneg (y i))) _ (fun i => r i + - s i)).
  - apply add_step; try assumption; [apply neg_step; exact Hy|rewrite fnrm_neg; exact HC].
  - intros i Hi. symmetry. apply fsub_add_neg.
  - intros; ring.
Qed.

(** Multiplication by a float matrix near an orthonormal real matrix. *)
Section Mat.
Variables (M : nat -> nat -> fl) (Q : mat R n n) (d : R).
Hypothesis d0 : 0 <= d.
Hypothesis d8 : d <= / 8.
Hypothesis HQ : orthonormal_columns Q.
Hypothesis HM : forall j i, (j < n)%nat -> (i < n)%nat -> fnear (M j i) (mget Q j i) d.

Lemma row_nrm i : (i < n)%nat -> fnrm n (fun j => B2R (M j i)) <= 1 + 2 * d.
Proof.
  intros Hi. rewrite <- (orth_row_nrm n Q i HQ Hi). apply fnrm_near.
  eapply Rle_trans; [apply (fnrm_bound n _ d d0); intros j Hj; apply HM; assumption|].
  apply Rmult_le_compat_r; [exact d0|apply sqrt_INR_2; exact Hn].
Qed.

Lemma dot_stepV A x i : 1 <= A -> A <= 1048576 -> (i < n)%nat ->
  (forall j, (j < n)%nat -> is_finite (x j) = true) -> fnrm n (fun j => B2R (x j)) <= A * V ->
  is_finite (sum n (fun j => nmul (M j i) (x j))) = true /\
  Rabs (B2R (sum n (fun j => nmul (M j i) (x j))) - rsum n (fun j => B2R (M j i) * B2R (x j))) <= 9 * u * A * V.
Proof.
  intros A1 A2 Hi Fx Nx. pose proof V_pos as V0. pose proof u_small as U. pose proof V_max as VM.
  assert (FM : forall j, (j < n)%nat -> is_finite (M j i) = true) by (intros j Hj; apply HM; assumption).
  assert (EU : @funit prec = u) by apply funit_eq.
  pose proof (@ftiny_w prec emax _ HV) as T. pose proof (@ftiny_pos prec emax) as T0.
  set (t := @ftiny prec emax) in *.
  set (S := rsum n (fun j => Rabs (B2R (M j i) * B2R (x j)))).
  assert (N : 0 <= INR n <= 4) by (split; [apply pos_INR|replace 4 with (INR 4) by (cbn; ring); apply le_INR; exact Hn]).
  assert (HS : 0 <= S <= 5 / 4 * (A * V)).
  { split; [apply rsum_nonneg; intros; apply Rabs_pos|]. unfold S.
    replace (rsum n (fun j => Rabs (B2R (M j i) * B2R (x j)))) with (rsum n (fun j => Rabs (B2R (M j i)) * Rabs (B2R (x j))))
      by (apply sum_ext; intros; symmetry; apply Rabs_mult).
    eapply Rle_trans; [apply Rle_abs|]. eapply Rle_trans; [apply fnrm_cs|].
    assert (RA : forall f, fnrm n (fun j => Rabs (f j)) = fnrm n f).
    { intros f. unfold fnrm. apply f_equal. apply sum_ext. intros j Hj. change (Rabs (f j) * Rabs (f j) = f j * f j).
      rewrite <- Rabs_mult. apply Rabs_pos_eq, Rle_0_sqr. }
    rewrite (RA (fun j => B2R (M j i))), (RA (fun j => B2R (x j))).
    apply Rmult_le_compat; try apply fnrm_pos; [|exact Nx]. pose proof (row_nrm i Hi). lra. }
  pose proof (pow_u_bound u (Datatypes.S n) ltac:(lra) ltac:(lia)) as P1. pose proof (pow_u_bound u n ltac:(lra) ltac:(lia)) as P2.
  assert (TB : INR n * t * (1 + u) ^ n <= u / 128 * V).
  { apply Rle_trans with (4 * t * 2); [|lra].
    apply Rmult_le_compat; try lra; [apply Rmult_le_pos; lra|apply Rmult_le_compat_r; lra]. }
  assert (AV : V <= A * V) by nra.
  assert (AV0 : 0 < A * V) by lra.
  assert (F : is_finite (sum n (fun j => nmul (M j i) (x j))) = true).
  { apply dot_fin; [exact FM|exact Fx|]. rewrite EU. fold t S.
    assert (S * (1 + u) ^ Datatypes.S n <= 5 / 4 * (A * V) * 2) by (apply Rmult_le_compat; lra).
    assert (u / 128 * V <= A * V) by nra.
    assert (A * V <= 1048576 * V) by (apply Rmult_le_compat_r; lra). lra. }
  split; [exact F|]. eapply Rle_trans; [apply dot_err_bound; exact F|]. rewrite EU. fold t S.
  assert (((1 + u) ^ Datatypes.S n - 1) * S <= 7 * u * (5 / 4 * (A * V))) by (apply Rmult_le_compat; lra).
  assert (u / 128 * V <= u / 128 * (A * V)) by (apply Rmult_le_compat_l; lra).
  assert (0 < u * (A * V)) by (apply Rmult_lt_0_compat; lra). lra.
Qed.

Lemma mat_pert (x : nat -> fl) : fnrm n (fun i => rsum n (fun j => B2R (M j i) * B2R (x j)) - rsum n (fun j => mget Q j i * B2R (x j))) <= 4 * d * fnrm n (fun j => B2R (x j)).
Proof.
  pose proof (fnrm_pos n (fun j => B2R (x j))) as N0. pose proof (sqrt_INR_2 n Hn) as S2. pose proof (sqrt_pos (INR n)) as S0.
  assert (K : 0 <= 2 * d * fnrm n (fun j => B2R (x j))) by (apply Rmult_le_pos; lra).
  eapply Rle_trans; [apply (fnrm_bound n _ (2 * d * fnrm n (fun j => B2R (x j))) K)|].
  - intros i Hi. rewrite rsum_minus.
    replace (rsum n (fun j => B2R (M j i) * B2R (x j) - mget Q j i * B2R (x j))) with (rsum n (fun j => (B2R (M j i) - mget Q j i) * B2R (x j)))
      by (apply sum_ext; intros j Hj; ring).
    eapply Rle_trans; [apply fnrm_cs|]. apply Rmult_le_compat_r; [exact N0|].
    eapply Rle_trans; [apply (fnrm_bound n _ d d0); intros j Hj; apply HM; assumption|]. nra.
  - nra.
Qed.

Lemma mat_step e B x r : vne e x r -> fnrm n r <= B * V -> 0 <= e -> 1 <= B + e -> B + e <= 1048576 ->
  vne (e + (4 * d + 18 * u) * (B + e)) (fun i => sum n (fun j => nmul (M j i) (x j))) (fun i => rsum n (fun j => mget Q j i * r j)).
Proof.
  intros (Fx & Ex) HB e0 A1 A2. pose proof V_pos as V0. pose proof u_small as U.
  assert (Nx : fnrm n (fun j => B2R (x j)) <= (B + e) * V) by (pose proof (fnrm_near _ _ _ _ Ex); lra).
  assert (D := fun i Hi => dot_stepV (B + e) x i A1 A2 Hi Fx Nx).
  split; [intros i Hi; apply D; exact Hi|].
  replace ((e + (4 * d + 18 * u) * (B + e)) * V) with (18 * u * (B + e) * V + (4 * d * ((B + e) * V) + e * V)) by ring.
  apply fnrm_tri3 with (fun i => rsum n (fun j => B2R (M j i) * B2R (x j))).
  - assert (K : 0 <= 9 * u * (B + e) * V) by (repeat apply Rmult_le_pos; lra).
    eapply Rle_trans; [apply (fnrm_bound n _ (9 * u * (B + e) * V) K); intros i Hi; apply D; exact Hi|].
    pose proof (sqrt_INR_2 n Hn). nra.
  - apply fnrm_tri3 with (fun i => rsum n (fun j => mget Q j i * B2R (x j))).
    + eapply Rle_trans; [apply mat_pert|]. apply Rmult_le_compat_l; lra.
    + rewrite (fnrm_ext n _ (fun i => rsum n (fun j => mget Q j i * (B2R (x j) - r j)))).
      * rewrite (fnrm_orth_mul n Q (fun j => B2R (x j) - r j) HQ). exact Ex.
      * intros i Hi. rewrite rsum_minus. apply sum_ext. intros j Hj. change (mget Q j i * B2R (x j) - mget Q j i * r j = mget Q j i * (B2R (x j) - r j)). ring.
Qed.
End Mat.
End V.
