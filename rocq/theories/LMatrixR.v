(** Proofs about the norms of real matrices. *)

From Coq Require Import List Arith Lia Bool Reals Lra Setoid.
From Verif Require Import Base Scalar Spec LBase MVector LVector LVectorR MMatrix LMatrix.
Import ListNotations.
Local Open Scope R_scope.

Lemma mget_zeroR r c j i : mget (mzero r c : mat R r c) j i = 0.
Proof. exact (mget_mzero r c j i). Qed.

Lemma mcol_get r c (m : mat R r c) j i : vat (mcol m j) i = mget m j i.
Proof. reflexivity. Qed.

Lemma sum_zero_extR n (f : nat -> R) : (forall i, (i < n)%nat -> f i = 0) -> sum n f = 0.
Proof. exact (sum_zero_ext n f). Qed.

Lemma sum_mul_rR n a (f : nat -> R) : sum n (fun i => f i * a) = sum n f * a.
Proof. exact (sum_mul_r n a f). Qed.
Lemma sum_mul_lR n a (f : nat -> R) : sum n (fun i => a * f i) = a * sum n f.
Proof. exact (sum_mul_l n a f). Qed.
Lemma sum_addR n (f g : nat -> R) : sum n (fun i => f i + g i) = sum n f + sum n g.
Proof. exact (sum_add n f g). Qed.

(** ** Maxima of non-negative families *)
Definition rmax (n : nat) (f : nat -> R) : R := for_range n (fun i acc => Rmax acc (f i)) 0.

Lemma rmax_nonneg n f : 0 <= rmax n f.
Proof.
  unfold rmax. induction n as [|n IH]; [cbn; lra|].
  rewrite for_range_S. eapply Rle_trans; [exact IH|apply Rmax_l].
Qed.
Lemma rmax_le n f b : 0 <= b -> (rmax n f <= b <-> forall i, (i < n)%nat -> f i <= b).
Proof.
  intros Hb. unfold rmax. induction n as [|n IH].
  - cbn. split; [intros; lia|auto].
  - rewrite for_range_S. split.
    + intros H i Hi. destruct (Nat.eq_dec i n) as [->|].
      * eapply Rle_trans; [apply Rmax_r|exact H].
      * apply IH; [|lia]. eapply Rle_trans; [apply Rmax_l|exact H].
    + intros H. apply Rmax_lub; [apply IH; intros; apply H; lia|apply H; lia].
Qed.
Lemma rmax_ge n f i : (i < n)%nat -> f i <= rmax n f.
Proof. apply (proj1 (rmax_le n f _ (rmax_nonneg n f))). lra. Qed.
Lemma rmax_ext n f g : (forall i, (i < n)%nat -> f i = g i) -> rmax n f = rmax n g.
Proof.
  intros H. unfold rmax. apply for_range_ext. intros i st Hi. rewrite H; auto.
Qed.
Lemma rmax_mul n f a : 0 <= a -> (forall i, (i < n)%nat -> 0 <= f i) ->
  rmax n (fun i => f i * a) = rmax n f * a.
Proof.
  intros Ha Hf. apply Rle_antisym.
  - apply rmax_le; [apply Rmult_le_pos; auto; apply rmax_nonneg|].
    intros i Hi. apply Rmult_le_compat_r; auto. apply rmax_ge; auto.
  - destruct Ha as [Ha|<-].
    + apply (Rmult_le_reg_r (/ a)); [apply Rinv_0_lt_compat; auto|].
      rewrite Rmult_assoc, Rinv_r, Rmult_1_r by lra.
      apply rmax_le.
      * apply Rmult_le_pos; [apply rmax_nonneg|apply Rlt_le, Rinv_0_lt_compat; auto].
      * intros i Hi. apply (Rmult_le_reg_r a); auto.
        rewrite Rmult_assoc, Rinv_l, Rmult_1_r by lra.
        apply (rmax_ge n (fun i => f i * a)); auto.
    + rewrite Rmult_0_r. apply rmax_nonneg.
Qed.

(** ** Column-sum and row-sum norms *)
Definition colsum {r c} (m : mat R r c) (j : nat) : R := sum r (fun i => Rabs (mget m j i)).
Definition rowsum {r c} (m : mat R r c) (i : nat) : R := sum c (fun j => Rabs (mget m j i)).

Lemma ml1_rmax r c (m : mat R r c) : ml1_norm m = rmax c (colsum m).
Proof.
  unfold ml1_norm. apply for_range_ext. intros j st _. rewrite vl1_sum. reflexivity.
Qed.
Lemma mlinf_rmax r c (m : mat R r c) : mlinf_norm m = rmax r (rowsum m).
Proof.
  unfold mlinf_norm. apply for_range_ext. intros i st _. f_equal.
  exact (for_range_sum c (fun j => Rabs (mget m j i))).
Qed.

Lemma colsum_nonneg r c (m : mat R r c) j : 0 <= colsum m j.
Proof. apply sum_nonneg; intros; apply Rabs_pos. Qed.
Lemma rowsum_nonneg r c (m : mat R r c) j : 0 <= rowsum m j.
Proof. apply sum_nonneg; intros; apply Rabs_pos. Qed.
Lemma colsum_transpose r c (m : mat R r c) i :
  (i < r)%nat -> colsum (mtranspose m) i = rowsum m i.
Proof.
  intros Hi. apply sum_ext. intros j Hj. rewrite mget_mtranspose by auto. reflexivity.
Qed.

Lemma ml1_nonneg r c (m : mat R r c) : 0 <= ml1_norm m.
Proof. rewrite ml1_rmax. apply rmax_nonneg. Qed.
Lemma ml1_transpose r c (m : mat R r c) : ml1_norm (mtranspose m) = mlinf_norm m.
Proof.
  rewrite ml1_rmax, mlinf_rmax. apply rmax_ext. intros; apply colsum_transpose; auto.
Qed.
Lemma mlinf_transpose r c (m : mat R r c) : mlinf_norm (mtranspose m) = ml1_norm m.
Proof. rewrite <- ml1_transpose, mtranspose_invol. reflexivity. Qed.

Lemma ml1_zero r c (m : mat R r c) : ml1_norm m = 0 <-> m = mzero r c.
Proof.
  rewrite ml1_rmax. split.
  - intros H. apply mat_ext. intros j i Hj Hi. rewrite mget_zeroR.
    assert (E : colsum m j <= 0) by (rewrite <- H; apply rmax_ge; auto).
    assert (E' : Rabs (mget m j i) <= colsum m j)
      by (apply (sum_term_le r (fun i => Rabs (mget m j i))); auto; intros; apply Rabs_pos).
    pose proof (Rabs_pos (mget m j i)). destruct (Req_dec (mget m j i) 0); auto.
    apply Rabs_pos_lt in H1. lra.
  - intros ->. apply Rle_antisym; [|apply rmax_nonneg].
    apply rmax_le; [lra|]. intros j Hj. apply Req_le. apply sum_zero_extR.
    intros i Hi. rewrite mget_zeroR. apply Rabs_R0.
Qed.

Lemma ml1_mul_s r c (m : mat R r c) a : ml1_norm (mmul_s m a) = ml1_norm m * Rabs a.
Proof.
  rewrite !ml1_rmax, <- rmax_mul; [|apply Rabs_pos|intros; apply colsum_nonneg].
  apply rmax_ext. intros j Hj. unfold colsum.
  transitivity (sum r (fun i => Rabs (mget m j i) * Rabs a)); [|apply sum_mul_rR].
  apply sum_ext. intros i Hi. rewrite mget_mmul_s by auto. apply Rabs_mult.
Qed.

Lemma ml1_triangle r c (a b : mat R r c) : ml1_norm (madd a b) <= ml1_norm a + ml1_norm b.
Proof.
  rewrite !ml1_rmax.
  apply rmax_le; [pose proof (rmax_nonneg c (colsum a)); pose proof (rmax_nonneg c (colsum b)); lra|].
  intros j Hj. apply Rle_trans with (colsum a j + colsum b j).
  - unfold colsum. rewrite <- sum_addR. apply sum_le. intros i Hi.
    rewrite mget_madd by auto. apply Rabs_triang.
  - apply Rplus_le_compat; apply rmax_ge; auto.
Qed.

Lemma sum_abs n (f : nat -> R) : Rabs (sum n f) <= sum n (fun i => Rabs (f i)).
Proof.
  induction n as [|n IH]; cbn; rnum; [rewrite Rabs_R0; lra|].
  eapply Rle_trans; [apply Rabs_triang|]. apply Rplus_le_compat; auto. lra.
Qed.

Lemma ml1_submul r n c (a : mat R r n) (b : mat R n c) :
  ml1_norm (mmul a b) <= ml1_norm a * ml1_norm b.
Proof.
  rewrite !ml1_rmax.
  apply rmax_le; [apply Rmult_le_pos; apply rmax_nonneg|]. intros j Hj.
  apply Rle_trans with (rmax n (colsum a) * colsum b j);
    [|apply Rmult_le_compat_l; [apply rmax_nonneg|apply rmax_ge; auto]].
  apply Rle_trans with (sum r (fun i => sum n (fun k => Rabs (mget a k i) * Rabs (mget b j k)))).
  - apply sum_le. intros i Hi. rewrite mget_mmul by auto.
    eapply Rle_trans; [apply sum_abs|]. apply sum_le. intros k Hk. rnum.
    rewrite Rabs_mult. lra.
  - rewrite sum_swap. unfold colsum at 2. rewrite <- sum_mul_lR.
    apply sum_le. intros k Hk. rewrite sum_mul_rR.
    apply Rmult_le_compat_r; [apply Rabs_pos|]. apply (rmax_ge n (colsum a)); auto.
Qed.

Lemma mlinf_nonneg r c (m : mat R r c) : 0 <= mlinf_norm m.
Proof. rewrite <- ml1_transpose. apply ml1_nonneg. Qed.
Lemma mtranspose_zeroR r c : mtranspose (mzero r c : mat R r c) = mzero c r.
Proof.
  apply mat_ext. intros j i Hj Hi. rewrite mget_mtranspose, !mget_zeroR by auto. reflexivity.
Qed.
Lemma mlinf_zero r c (m : mat R r c) : mlinf_norm m = 0 <-> m = mzero r c.
Proof.
  rewrite <- ml1_transpose, ml1_zero. split; intros H.
  - rewrite <- (mtranspose_invol r c m), H. apply mtranspose_zeroR.
  - rewrite H. apply mtranspose_zeroR.
Qed.
Lemma mlinf_mul_s r c (m : mat R r c) a : mlinf_norm (mmul_s m a) = mlinf_norm m * Rabs a.
Proof. rewrite <- !ml1_transpose, mtranspose_mul_s. apply ml1_mul_s. Qed.
Lemma mlinf_triangle r c (a b : mat R r c) :
  mlinf_norm (madd a b) <= mlinf_norm a + mlinf_norm b.
Proof. rewrite <- !ml1_transpose, mtranspose_add. apply ml1_triangle. Qed.
Lemma mlinf_submul r n c (a : mat R r n) (b : mat R n c) :
  mlinf_norm (mmul a b) <= mlinf_norm a * mlinf_norm b.
Proof.
  rewrite <- !ml1_transpose, mtranspose_mul, Rmult_comm. apply ml1_submul.
Qed.

(** ** Frobenius norm, as the L2 norm of the vector of column norms *)
Definition colnorms {r c} (m : mat R r c) : vec R c :=
  for_range c (fun j v => vset v j (vnorm (mcol m j))) (vzero c).
Lemma vat_colnorms r c (m : mat R r c) j : (j < c)%nat -> vat (colnorms m) j = vnorm (mcol m j).
Proof. intros. unfold colnorms, vat. rewrite vget_loop_fill; auto. Qed.

Lemma mnorm_squared_cols r c (m : mat R r c) :
  mnorm_squared m = sum c (fun j => vdot (mcol m j) (mcol m j)).
Proof.
  unfold mnorm_squared. rewrite mdot_sum.
  rewrite sum_swap. apply sum_ext. intros j Hj. rewrite vdot_sum. reflexivity.
Qed.
Lemma mnorm_squared_nonneg r c (m : mat R r c) : 0 <= mnorm_squared m.
Proof. rewrite mnorm_squared_cols. apply sum_nonneg. intros; apply vdot_pos. Qed.

Lemma mnorm_cols r c (m : mat R r c) : mnorm m = vnorm (colnorms m).
Proof.
  unfold mnorm, vnorm, vnorm_squared. f_equal. rewrite mnorm_squared_cols, vdot_sum.
  apply sum_ext. intros j Hj. rewrite !vat_colnorms by auto. symmetry. apply vnorm_sq.
Qed.
Lemma mnorm_sq r c (m : mat R r c) : mnorm m * mnorm m = mnorm_squared m.
Proof. apply sqrt_sqrt, mnorm_squared_nonneg. Qed.
Lemma mnorm_nonneg r c (m : mat R r c) : 0 <= mnorm m.
Proof. apply sqrt_pos. Qed.

Lemma mcol_add r c (a b : mat R r c) j :
  (j < c)%nat -> mcol (madd a b) j = vadd (mcol a j) (mcol b j).
Proof. intros. vext. rewrite !mcol_get. rewrite mget_madd by auto. reflexivity. Qed.
Lemma mcol_mul_s r c (a : mat R r c) s j :
  (j < c)%nat -> mcol (mmul_s a s) j = vmul_s (mcol a j) s.
Proof. intros. vext. rewrite !mcol_get. rewrite mget_mmul_s by auto. reflexivity. Qed.
Lemma mcol_zero r c j : mcol (mzero r c : mat R r c) j = vzero r.
Proof. vext. rewrite mcol_get, mget_zeroR. reflexivity. Qed.

Lemma mnorm_zero r c (m : mat R r c) : mnorm m = 0 <-> m = mzero r c.
Proof.
  rewrite mnorm_cols, vnorm_zero. split.
  - intros H. apply mat_ext. intros j i Hj Hi. rewrite mget_zeroR, <- mcol_get.
    assert (E : vnorm (mcol m j) = 0) by (rewrite <- vat_colnorms, H, vat_vzeroR; auto).
    apply vnorm_zero in E. rewrite E. apply vat_vzeroR.
  - intros ->. vext. rewrite vat_colnorms, mcol_zero by auto. apply vnorm_zero. auto.
Qed.
Lemma mnorm_mul_s r c (m : mat R r c) a : mnorm (mmul_s m a) = mnorm m * Rabs a.
Proof.
  rewrite !mnorm_cols.
  assert (E : colnorms (mmul_s m a) = vmul_s (colnorms m) (Rabs a)).
  { vext. rewrite !vat_colnorms by auto. rewrite mcol_mul_s by auto. apply vnorm_mul. }
  rewrite E, vnorm_mul, (Rabs_pos_eq (Rabs a)); auto. apply Rabs_pos.
Qed.
Lemma vnorm_mono n (u v : vec R n) :
  (forall i, (i < n)%nat -> 0 <= vat u i <= vat v i) -> vnorm u <= vnorm v.
Proof.
  intros H. unfold vnorm, vnorm_squared. apply sqrt_le_1_alt. rewrite !vdot_sum.
  apply sum_le. intros i Hi. specialize (H i Hi). rnum. nra.
Qed.
Lemma mnorm_triangle r c (a b : mat R r c) : mnorm (madd a b) <= mnorm a + mnorm b.
Proof.
  rewrite !mnorm_cols. eapply Rle_trans; [|apply vnorm_triangle].
  apply vnorm_mono. intros j Hj. autorewrite with vat; auto. rewrite !vat_colnorms by auto.
  rewrite mcol_add by auto. split; [apply vnorm_nonneg|apply vnorm_triangle].
Qed.

Lemma mnorm_squared_transpose r c (m : mat R r c) : mnorm_squared (mtranspose m) = mnorm_squared m.
Proof.
  unfold mnorm_squared. rewrite !mdot_sum, sum_swap.
  apply sum_ext; intros i Hi; apply sum_ext; intros j Hj.
  rewrite mget_mtranspose by auto. reflexivity.
Qed.
Lemma mnorm_transpose r c (m : mat R r c) : mnorm (mtranspose m) = mnorm m.
Proof. unfold mnorm. rewrite mnorm_squared_transpose. reflexivity. Qed.

Lemma mmulv_norm r c (m : mat R r c) (v : vec R c) : vnorm (mmulv m v) <= mnorm m * vnorm v.
Proof.
  apply Rsqr_incr_0_var; [|apply Rmult_le_pos; [apply mnorm_nonneg|apply vnorm_nonneg]].
  unfold Rsqr. rewrite vnorm_sq.
  replace (mnorm m * vnorm v * (mnorm m * vnorm v))
    with ((mnorm m * mnorm m) * (vnorm v * vnorm v)) by ring.
  rewrite mnorm_sq, vnorm_sq, <- (mnorm_squared_transpose r c m), mnorm_squared_cols, vdot_sum.
  rewrite <- sum_mul_rR. apply sum_le. intros i Hi.
  assert (E : vat (mmulv m v) i = vdot (mcol (mtranspose m) i) v).
  { rewrite vat_mmulv, vdot_sum by auto. apply sum_ext. intros j Hj.
    rewrite mcol_get, mget_mtranspose by auto. reflexivity. }
  rewrite E. apply cauchy_schwarz_sq.
Qed.
Lemma mnorm_submul r n c (a : mat R r n) (b : mat R n c) :
  mnorm (mmul a b) <= mnorm a * mnorm b.
Proof.
  rewrite (mnorm_cols n c b), (mnorm_cols r c).
  rewrite <- (Rabs_pos_eq (mnorm a)), Rmult_comm, <- vnorm_mul by apply mnorm_nonneg.
  apply vnorm_mono. intros j Hj. rewrite vat_vmul_s, !vat_colnorms by auto.
  split; [apply vnorm_nonneg|]. rewrite mmul_col by auto. rnum. rewrite Rmult_comm.
  apply mmulv_norm.
Qed.

Lemma mnormalize_norm r c (m : mat R r c) : m <> mzero r c -> mnorm (mnormalize m) = 1.
Proof.
  intros H. assert (P : 0 < mnorm m).
  { destruct (mnorm_nonneg r c m) as [|E]; auto. exfalso; apply H, mnorm_zero; auto. }
  unfold mnormalize. rewrite mnorm_mul_s, Rabs_pos_eq; [field; lra|].
  apply Rlt_le, Rdiv_lt_0_compat; lra.
Qed.

Lemma mdist_sym r c (a b : mat R r c) : mdist a b = mdist b a.
Proof.
  unfold mdist. replace (msub a b) with (mmul_s (msub b a) (-1)).
  - rewrite mnorm_mul_s. replace (Rabs (-1)) with 1; [ring|].
    rewrite Rabs_left; lra.
  - mext. rnum. ring.
Qed.
Lemma mdist_zero r c (a b : mat R r c) : mdist a b = 0 <-> a = b.
Proof.
  unfold mdist. rewrite mnorm_zero. split.
  - intros H. apply mat_ext. intros j i Hj Hi.
    assert (E : mget (msub a b) j i = 0) by (rewrite H; apply mget_zeroR).
    rewrite mget_msub in E by auto. rnum. lra.
  - intros ->. apply mat_ext. intros j i Hj Hi. rewrite mget_msub, mget_zeroR by auto.
    rnum; ring.
Qed.
Lemma mdist_triangle r c (a b d : mat R r c) : mdist a d <= mdist a b + mdist b d.
Proof.
  unfold mdist. replace (msub a d) with (madd (msub a b) (msub b d)).
  - apply mnorm_triangle.
  - mext. rnum; ring.
Qed.
