(** Norms and other real-valued vector functions. *)

From Coq Require Import List Arith Lia Reals Lra Psatz.
From Verif Require Import Base Scalar Spec LBase MVector LVector.
Local Open Scope R_scope.

Ltac rnum := cbn [n0 n1 nadd nsub nmul nneg num_R ndiv nis0 numdiv_R] in *.

Lemma nmul_sq_nonneg (x : R) : 0 <= nmul x x.
Proof. apply Rle_0_sqr. Qed.

(** Instances at [R] with the usual literals. *)
Lemma vmul_s_1R n (u : vec R n) : vmul_s u 1 = u.
Proof. exact (vmul_s_1 n u). Qed.
Lemma vmul_s_0R n (u : vec R n) : vmul_s u 0 = vzero n.
Proof. exact (vmul_s_0 n u). Qed.
Lemma vat_vzeroR n i : vat (vzero n) i = 0.
Proof. exact (vat_vzero n i). Qed.
Lemma vdot_0_lR n (u : vec R n) : vdot (vzero n) u = 0.
Proof. exact (vdot_0_l n u). Qed.
Lemma vdot_0_rR n (u : vec R n) : vdot u (vzero n) = 0.
Proof. exact (vdot_0_r n u). Qed.

(** ** Sums of reals *)

Lemma sum_nonneg n (f : nat -> R) : (forall i, (i < n)%nat -> 0 <= f i) -> 0 <= sum n f.
Proof.
  induction n as [|n IH]; intros H; cbn; [lra|].
  assert (0 <= sum n f) by (apply IH; intros; apply H; lia).
  assert (0 <= f n) by (apply H; lia). rnum; lra.
Qed.

Lemma sum_le n (f g : nat -> R) :
  (forall i, (i < n)%nat -> f i <= g i) -> sum n f <= sum n g.
Proof.
  induction n as [|n IH]; intros H; cbn; [lra|].
  assert (sum n f <= sum n g) by (apply IH; intros; apply H; lia).
  assert (f n <= g n) by (apply H; lia). rnum; lra.
Qed.

Lemma sum_nonneg_zero n (f : nat -> R) :
  (forall i, (i < n)%nat -> 0 <= f i) -> sum n f = 0 -> forall i, (i < n)%nat -> f i = 0.
Proof.
  induction n as [|n IH]; intros H H0 i Hi; [lia|]. cbn in H0; rnum.
  assert (A : 0 <= sum n f) by (apply sum_nonneg; intros; apply H; lia).
  assert (B : 0 <= f n) by (apply H; lia).
  destruct (Nat.eq_dec i n) as [->|]; [lra|]. apply IH; try lia; [|lra].
  intros; apply H; lia.
Qed.

Lemma sum_term_le n (f : nat -> R) i :
  (forall j, (j < n)%nat -> 0 <= f j) -> (i < n)%nat -> f i <= sum n f.
Proof.
  induction n as [|n IH]; intros H Hi; [lia|]. cbn; rnum.
  assert (A : 0 <= sum n f) by (apply sum_nonneg; intros; apply H; lia).
  assert (B : 0 <= f n) by (apply H; lia).
  destruct (Nat.eq_dec i n) as [->|]; [lra|].
  assert (f i <= sum n f) by (apply IH; [intros; apply H|]; lia). lra.
Qed.

Lemma sum_const n (c : R) : sum n (fun _ => c) = INR n * c.
Proof.
  induction n as [|n IH]; [cbn; ring|]. cbn [sum]. rewrite IH, S_INR. rnum; ring.
Qed.

(** ** Euclidean norm *)

Lemma vdot_pos n (u : vec R n) : 0 <= vdot u u.
Proof. rewrite vdot_sum. apply sum_nonneg; intros; rnum; apply Rle_0_sqr. Qed.

Lemma vdot_zero n (u : vec R n) : vdot u u = 0 <-> u = vzero n.
Proof.
  split.
  - intros H. vext. rewrite vdot_sum in H.
    pose proof (sum_nonneg_zero n (fun i => nmul (vat u i) (vat u i))
      (fun j _ => nmul_sq_nonneg (vat u j)) H i Hi) as E. cbn in E.
    apply Rsqr_0_uniq; exact E.
  - intros ->. rewrite vdot_0_l. reflexivity.
Qed.

Lemma vnorm_sq n (u : vec R n) : vnorm u * vnorm u = vdot u u.
Proof. apply sqrt_sqrt, vdot_pos. Qed.

Lemma vnorm_nonneg n (u : vec R n) : 0 <= vnorm u.
Proof. apply sqrt_pos. Qed.

Lemma vnorm_zero n (u : vec R n) : vnorm u = 0 <-> u = vzero n.
Proof.
  rewrite <- vdot_zero, <- vnorm_sq. split; intros H; [rewrite H; ring|].
  apply Rmult_integral in H; tauto.
Qed.

Lemma vnorm_pos n (u : vec R n) : u <> vzero n -> 0 < vnorm u.
Proof.
  intros H. destruct (vnorm_nonneg n u) as [|E]; auto.
  exfalso; apply H, vnorm_zero; auto.
Qed.

Lemma vdot_nz_pos n (u : vec R n) : u <> vzero n -> 0 < vdot u u.
Proof.
  intros H. destruct (vdot_pos n u) as [|E]; auto.
  exfalso; apply H, vdot_zero; auto.
Qed.

Lemma vnorm_mul n (u : vec R n) a : vnorm (vmul_s u a) = vnorm u * Rabs a.
Proof.
  apply Rsqr_inj; try apply vnorm_nonneg.
  - apply Rmult_le_pos; [apply vnorm_nonneg|apply Rabs_pos].
  - unfold Rsqr. rewrite vnorm_sq, vdot_mul_l, vdot_mul_r. rnum.
    transitivity ((vnorm u * vnorm u) * (Rabs a * Rabs a)); [|ring].
    rewrite vnorm_sq, <- Rabs_mult, (Rabs_pos_eq (a * a)) by apply Rle_0_sqr. ring.
Qed.

Lemma vnorm_neg n (u : vec R n) : vnorm (vneg u) = vnorm u.
Proof.
  unfold vnorm, vnorm_squared. rewrite vdot_neg_l, vdot_neg_r. f_equal. rnum; ring.
Qed.

Lemma cauchy_schwarz_sq n (u v : vec R n) :
  vdot u v * vdot u v <= vdot u u * vdot v v.
Proof.
  pose proof (vdot_pos n v) as [Hv|Hv].
  - set (w := vsub (vmul_s u (vdot v v)) (vmul_s v (vdot u v))).
    pose proof (vdot_pos n w) as Hw. unfold w in Hw.
    rewrite !vdot_sub_l, !vdot_sub_r, !vdot_mul_l, !vdot_mul_r in Hw.
    rewrite (vdot_comm _ v u) in Hw. rnum.
    set (a := vdot u u) in *. set (b := vdot v v) in *. set (c := vdot u v) in *.
    assert (E : b * (a * b - c * c) >= 0) by nra. nra.
  - symmetry in Hv. apply vdot_zero in Hv. subst v. rewrite !vdot_0_r. rnum; lra.
Qed.

Lemma cauchy_schwarz n (u v : vec R n) : Rabs (vdot u v) <= vnorm u * vnorm v.
Proof.
  apply Rsqr_incr_0_var; [|apply Rmult_le_pos; apply vnorm_nonneg].
  rewrite <- Rsqr_abs. unfold Rsqr.
  replace (vnorm u * vnorm v * (vnorm u * vnorm v)) with
    ((vnorm u * vnorm u) * (vnorm v * vnorm v)) by ring.
  rewrite !vnorm_sq. apply cauchy_schwarz_sq.
Qed.

Lemma vnorm_triangle n (u v : vec R n) : vnorm (vadd u v) <= vnorm u + vnorm v.
Proof.
  pose proof (vnorm_nonneg n u); pose proof (vnorm_nonneg n v).
  apply Rsqr_incr_0_var; [|lra]. unfold Rsqr. rewrite vnorm_sq.
  rewrite vdot_add_l, !vdot_add_r, (vdot_comm _ v u). rnum.
  pose proof (cauchy_schwarz n u v). pose proof (Rle_abs (vdot u v)).
  pose proof (vnorm_sq n u). pose proof (vnorm_sq n v). nra.
Qed.

Lemma vdist_sym n (u v : vec R n) : vdist u v = vdist v u.
Proof.
  unfold vdist. rewrite <- vnorm_neg. f_equal. vext. rnum; ring.
Qed.

Lemma vdist_zero n (u v : vec R n) : vdist u v = 0 <-> u = v.
Proof.
  unfold vdist. rewrite vnorm_zero. split.
  - intros H. vext. assert (E : vat (vsub u v) i = 0) by (rewrite H, vat_vzero; reflexivity).
    rewrite vat_vsub in E by auto. rnum; lra.
  - intros ->. apply vsub_self.
Qed.

Lemma vdist_triangle n (u v w : vec R n) : vdist u w <= vdist u v + vdist v w.
Proof.
  unfold vdist. replace (vsub u w) with (vadd (vsub u v) (vsub v w)).
  - apply vnorm_triangle.
  - vext. rnum; ring.
Qed.

Lemma vdist_nonneg n (u v : vec R n) : 0 <= vdist u v.
Proof. apply vnorm_nonneg. Qed.

Lemma vdist_sq n (u v : vec R n) : vdist u v * vdist u v = vdist_squared u v.
Proof. apply vnorm_sq. Qed.

(** ** L1 and L-infinity norms *)

Lemma vl1_sum n (u : vec R n) : vl1_norm u = sum n (fun i => Rabs (vat u i)).
Proof. unfold vl1_norm. exact (for_range_sum n (fun i => Rabs (vat u i))). Qed.

Lemma vl1_nonneg n (u : vec R n) : 0 <= vl1_norm u.
Proof. rewrite vl1_sum. apply sum_nonneg; intros; apply Rabs_pos. Qed.

Lemma vl1_zero n (u : vec R n) : vl1_norm u = 0 <-> u = vzero n.
Proof.
  rewrite vl1_sum. split.
  - intros H. vext.
    pose proof (sum_nonneg_zero n (fun i => Rabs (vat u i))
      ltac:(intros; apply Rabs_pos) H i Hi) as E. cbn in E.
    destruct (Req_dec (vat u i) 0) as [|Hne]; auto.
    apply Rabs_no_R0 in Hne; contradiction.
  - intros ->. rewrite sum_zero_ext; [reflexivity|]. intros. rewrite vat_vzero. apply Rabs_R0.
Qed.

Lemma vl1_mul n (u : vec R n) a : vl1_norm (vmul_s u a) = vl1_norm u * Rabs a.
Proof.
  rewrite !vl1_sum. change Rmult with (@nmul R _). rewrite <- sum_mul_r.
  apply sum_ext; intros. autorewrite with vat. apply Rabs_mult.
Qed.

Lemma vl1_triangle n (u v : vec R n) : vl1_norm (vadd u v) <= vl1_norm u + vl1_norm v.
Proof.
  rewrite !vl1_sum. change Rplus with (@nadd R _). rewrite <- sum_add.
  apply sum_le; intros. autorewrite with vat. apply Rabs_triang.
Qed.

(** [linf] is the least upper bound (with zero) of the absolute components. *)
Lemma vlinf_le n (u : vec R n) b :
  0 <= b -> (vlinf_norm u <= b <-> forall i, (i < n)%nat -> Rabs (vat u i) <= b).
Proof.
  intros Hb. unfold vlinf_norm.
  assert (G : forall m, (for_range m (fun i acc => Rmax acc (Rabs (vat u i))) 0 <= b <->
    forall i, (i < m)%nat -> Rabs (vat u i) <= b)).
  { induction m as [|m IH].
    - cbn. split; auto; intros; lia.
    - rewrite for_range_S. split.
      + intros H i Hi.
        pose proof (Rmax_l (for_range m (fun i acc => Rmax acc (Rabs (vat u i))) 0)
          (Rabs (vat u m))).
        pose proof (Rmax_r (for_range m (fun i acc => Rmax acc (Rabs (vat u i))) 0)
          (Rabs (vat u m))).
        destruct (Nat.eq_dec i m) as [->|]; [lra|]. apply IH; [lra|lia].
      + intros H. apply Rmax_lub; [|apply H; lia]. apply IH. intros; apply H; lia. }
  apply G.
Qed.

Lemma vlinf_nonneg n (u : vec R n) : 0 <= vlinf_norm u.
Proof.
  unfold vlinf_norm. generalize n at 1 as m. induction m as [|m IH]; [cbn; lra|].
  rewrite for_range_S. eapply Rle_trans; [exact IH|apply Rmax_l].
Qed.

Lemma vlinf_ge n (u : vec R n) i : (i < n)%nat -> Rabs (vat u i) <= vlinf_norm u.
Proof. apply (proj1 (vlinf_le n u _ (vlinf_nonneg n u))). lra. Qed.

Lemma vlinf_zero n (u : vec R n) : vlinf_norm u = 0 <-> u = vzero n.
Proof.
  split.
  - intros H. vext. pose proof (vlinf_ge n u i Hi) as E. rewrite H in E.
    pose proof (Rabs_pos (vat u i)). rnum.
    destruct (Req_dec (vat u i) 0) as [|Hne]; auto. apply Rabs_no_R0 in Hne; lra.
  - intros ->. apply Rle_antisym; [|apply vlinf_nonneg].
    apply vlinf_le; [lra|]. intros. rewrite vat_vzero. rnum. rewrite Rabs_R0; lra.
Qed.

Lemma vlinf_triangle n (u v : vec R n) :
  vlinf_norm (vadd u v) <= vlinf_norm u + vlinf_norm v.
Proof.
  pose proof (vlinf_nonneg n u); pose proof (vlinf_nonneg n v).
  apply vlinf_le; [lra|]. intros. autorewrite with vat.
  pose proof (vlinf_ge n u i ltac:(auto)). pose proof (vlinf_ge n v i ltac:(auto)).
  pose proof (Rabs_triang (vat u i) (vat v i)). rnum; lra.
Qed.

Lemma vlinf_mul n (u : vec R n) a : vlinf_norm (vmul_s u a) = vlinf_norm u * Rabs a.
Proof.
  assert (L : forall (w : vec R n) b, vlinf_norm (vmul_s w b) <= vlinf_norm w * Rabs b).
  { intros w b. apply vlinf_le.
    - apply Rmult_le_pos; [apply vlinf_nonneg|apply Rabs_pos].
    - intros. autorewrite with vat. rnum. rewrite Rabs_mult.
      apply Rmult_le_compat_r; [apply Rabs_pos|apply vlinf_ge; auto]. }
  apply Rle_antisym; [apply L|].
  destruct (Req_dec a 0) as [->|Ha].
  - rewrite Rabs_R0, Rmult_0_r. apply vlinf_nonneg.
  - pose proof (L (vmul_s u a) (/ a)) as H.
    rewrite vmul_s_assoc in H. rnum.
    replace (a * / a) with 1 in H by (field; auto).
    rewrite vmul_s_1R in H.
    pose proof (Rabs_pos_lt a Ha) as Hp. rewrite Rabs_inv in H.
    apply Rmult_le_reg_r with (/ Rabs a); [apply Rinv_0_lt_compat; auto|].
    replace (vlinf_norm u * Rabs a * / Rabs a) with (vlinf_norm u) by (field; lra).
    exact H.
Qed.

(** *** Comparison of the norms *)

Lemma linf_le_l2 n (u : vec R n) : vlinf_norm u <= vnorm u.
Proof.
  apply vlinf_le; [apply vnorm_nonneg|]. intros i Hi.
  apply Rsqr_incr_0_var; [|apply vnorm_nonneg]. rewrite <- Rsqr_abs. unfold Rsqr.
  rewrite vnorm_sq, vdot_sum.
  exact (sum_term_le n (fun i => nmul (vat u i) (vat u i)) i
           (fun j _ => nmul_sq_nonneg (vat u j)) Hi).
Qed.

Lemma sum_sq_le n (f : nat -> R) :
  (forall i, (i < n)%nat -> 0 <= f i) -> sum n (fun i => f i * f i) <= sum n f * sum n f.
Proof.
  induction n as [|n IH]; intros H; cbn; rnum; [lra|].
  assert (A : 0 <= sum n f) by (apply sum_nonneg; intros; apply H; lia).
  assert (B : 0 <= f n) by (apply H; lia).
  assert (sum n (fun i => f i * f i) <= sum n f * sum n f)
    by (apply IH; intros; apply H; lia). nra.
Qed.

Lemma l2_le_l1 n (u : vec R n) : vnorm u <= vl1_norm u.
Proof.
  apply Rsqr_incr_0_var; [|apply vl1_nonneg]. unfold Rsqr. rewrite vnorm_sq, vdot_sum, vl1_sum.
  rewrite (sum_ext n _ (fun i => Rabs (vat u i) * Rabs (vat u i))).
  - apply sum_sq_le; intros; apply Rabs_pos.
  - intros. rnum. rewrite <- Rabs_mult. symmetry. apply Rabs_pos_eq, Rle_0_sqr.
Qed.

Lemma l1_le_n_linf n (u : vec R n) : vl1_norm u <= INR n * vlinf_norm u.
Proof.
  rewrite vl1_sum, <- sum_const. apply sum_le; intros; apply vlinf_ge; auto.
Qed.

(** ** Normalization *)

Lemma vnormalize_norm n (u : vec R n) : u <> vzero n -> vnorm (vnormalize u) = 1.
Proof.
  intros H. pose proof (vnorm_pos n u H). unfold vnormalize.
  rewrite vnorm_mul, Rabs_pos_eq.
  - field; lra.
  - apply Rmult_le_pos; [lra|]. left; apply Rinv_0_lt_compat; auto.
Qed.

Lemma vnormalize_back n (u : vec R n) :
  u <> vzero n -> vmul_s (vnormalize u) (vnorm u) = u.
Proof.
  intros H. pose proof (vnorm_pos n u H). unfold vnormalize. rewrite vmul_s_assoc. rnum.
  replace (1 / vnorm u * vnorm u) with 1 by (field; lra). apply vmul_s_1R.
Qed.

Lemma unit_norm_iff n (u : vec R n) : vnorm u = 1 <-> vdot u u = 1.
Proof.
  rewrite <- vnorm_sq. pose proof (vnorm_nonneg n u).
  split; intros E; [rewrite E; ring|]. nra.
Qed.

Lemma vnormalize_dot n (u : vec R n) :
  u <> vzero n -> vdot (vnormalize u) (vnormalize u) = 1.
Proof. intros; apply unit_norm_iff, vnormalize_norm; auto. Qed.

Lemma vnormalize_unit n (u : vec R n) : vnorm u = 1 -> vnormalize u = u.
Proof.
  intros H; unfold vnormalize; rewrite H. replace (1 / 1) with 1 by field.
  apply vmul_s_1R.
Qed.

Lemma unit_nonzero n (u : vec R n) : vdot u u = 1 -> u <> vzero n.
Proof. intros H ->. rewrite vdot_0_l in H. rnum; lra. Qed.

Lemma vnormalize_pos_mul n (u : vec R n) a :
  0 < a -> u <> vzero n -> vnormalize (vmul_s u a) = vnormalize u.
Proof.
  intros Ha Hu. pose proof (vnorm_pos n u Hu). unfold vnormalize.
  rewrite vnorm_mul, Rabs_pos_eq, vmul_s_assoc by lra. f_equal. rnum. field; lra.
Qed.

Lemma vtry_normalize_spec n (u : vec R n) t :
  vtry_normalize u t = if Rle_dec (vnorm u) t then None else Some (vnormalize u).
Proof. reflexivity. Qed.

(** ** Projection and reflection *)

Lemma vproject_orth n (u w : vec R n) :
  w <> vzero n -> vdot (vsub u (vproject u w)) w = 0.
Proof.
  intros H. pose proof (vdot_nz_pos n w H).
  rewrite vdot_sub_l. unfold vproject, vnorm_squared. rewrite vdot_mul_l. rnum. field. lra.
Qed.

Lemma vreflect_unit n (u m : vec R n) :
  vdot m m = 1 -> vreflect u m = vsub u (vmul_s m (2 * vdot u m)).
Proof.
  intros H. unfold vreflect. rewrite vnormalize_unit by (apply unit_norm_iff; auto).
  replace (1 + 1) with 2 by ring. reflexivity.
Qed.

Lemma vreflect_normalize n (u m : vec R n) :
  m <> vzero n -> vreflect u m = vreflect u (vnormalize m).
Proof.
  intros H. unfold vreflect at 1. rewrite vreflect_unit by (apply vnormalize_dot; auto).
  replace (1 + 1) with 2 by ring. reflexivity.
Qed.

Lemma refl_dot n (u v m : vec R n) : vdot m m = 1 ->
  vdot (vsub u (vmul_s m (2 * vdot u m))) (vsub v (vmul_s m (2 * vdot v m))) = vdot u v.
Proof.
  intros H. rewrite !vdot_sub_l, !vdot_sub_r, !vdot_mul_l, !vdot_mul_r, H.
  rewrite (vdot_comm _ m v). rnum. ring.
Qed.

Lemma refl_refl n (u m : vec R n) : vdot m m = 1 ->
  let r := vsub u (vmul_s m (2 * vdot u m)) in
  vsub r (vmul_s m (2 * vdot r m)) = u.
Proof.
  intros H r. assert (E : vdot r m = - vdot u m).
  { unfold r. rewrite vdot_sub_l, vdot_mul_l, H. rnum; ring. }
  rewrite E. unfold r. vext. rnum. ring.
Qed.

Lemma vreflect_norm n (u m : vec R n) : m <> vzero n -> vnorm (vreflect u m) = vnorm u.
Proof.
  intros H. rewrite vreflect_normalize by auto.
  pose proof (vnormalize_dot n m H) as E. rewrite vreflect_unit by auto.
  unfold vnorm, vnorm_squared. f_equal. apply refl_dot; auto.
Qed.

Lemma vreflect_invol n (u m : vec R n) :
  m <> vzero n -> vreflect (vreflect u m) m = u.
Proof.
  intros H. rewrite !vreflect_normalize by auto.
  pose proof (vnormalize_dot n m H) as E. rewrite !vreflect_unit by auto.
  apply refl_refl; auto.
Qed.

Lemma vreflect_normal n (m : vec R n) a :
  m <> vzero n -> vreflect (vmul_s m a) m = vmul_s m (- a).
Proof.
  intros H. pose proof (vnorm_pos n m H) as Hp. unfold vreflect, vnormalize.
  rewrite vdot_mul_l, vdot_mul_r, <- vnorm_sq. vext. rnum. field. lra.
Qed.

Lemma vreflect_orth n (u m : vec R n) :
  m <> vzero n -> vdot u m = 0 -> vreflect u m = u.
Proof.
  intros H E. unfold vreflect, vnormalize. rewrite vdot_mul_r, E. vext. rnum. ring.
Qed.

(** ** Interpolation stays between the endpoints *)
Lemma vlerp_between n (u v : vec R n) t i :
  0 <= t <= 1 -> (i < n)%nat ->
  Rmin (vat u i) (vat v i) <= vat (vlerp u v t) i <= Rmax (vat u i) (vat v i).
Proof.
  intros Ht Hi. rewrite vat_vlerp by auto. rnum.
  unfold Rmin, Rmax. destruct (Rle_dec (vat u i) (vat v i)); nra.
Qed.

(** ** Componentwise minimum and maximum *)
Lemma vat_vcmin n (u v : vec R n) i :
  (i < n)%nat -> vat (vcmin u v) i = Rmin (vat u i) (vat v i).
Proof. intros; unfold vcmin, vat; rewrite vget_loop_fill; auto. Qed.
Lemma vat_vcmax n (u v : vec R n) i :
  (i < n)%nat -> vat (vcmax u v) i = Rmax (vat u i) (vat v i).
Proof. intros; unfold vcmax, vat; rewrite vget_loop_fill; auto. Qed.
#[global] Hint Rewrite vat_vcmin vat_vcmax using (assumption || lia) : vat.

Lemma vcmin_comm n (u v : vec R n) : vcmin u v = vcmin v u.
Proof. vext. apply Rmin_comm. Qed.
Lemma vcmax_comm n (u v : vec R n) : vcmax u v = vcmax v u.
Proof. vext. apply Rmax_comm. Qed.
Lemma vcmin_assoc n (u v w : vec R n) : vcmin u (vcmin v w) = vcmin (vcmin u v) w.
Proof. vext. apply Rmin_assoc. Qed.
Lemma vcmax_assoc n (u v w : vec R n) : vcmax u (vcmax v w) = vcmax (vcmax u v) w.
Proof. vext. apply Rmax_assoc. Qed.
Lemma vcmin_idem n (u : vec R n) : vcmin u u = u.
Proof. vext. apply Rmin_left; lra. Qed.
Lemma vcmax_idem n (u : vec R n) : vcmax u u = u.
Proof. vext. apply Rmax_left; lra. Qed.
Lemma vcmin_absorb n (u v : vec R n) : vcmin u (vcmax u v) = u.
Proof. vext. apply Rmin_left, Rmax_l. Qed.
Lemma vcmax_absorb n (u v : vec R n) : vcmax u (vcmin u v) = u.
Proof. vext. apply Rmax_left, Rmin_l. Qed.

(** ** More facts used by the property theorems *)

Lemma vlinf_attained n (u : vec R n) :
  (0 < n)%nat -> exists i, (i < n)%nat /\ vlinf_norm u = Rabs (vat u i).
Proof.
  intros Hn. unfold vlinf_norm.
  assert (G : forall m, (0 < m <= n)%nat -> exists i, (i < m)%nat /\
    for_range m (fun i acc => Rmax acc (Rabs (vat u i))) 0 = Rabs (vat u i)).
  { induction m as [|m IH]; intros Hm; [lia|]. rewrite for_range_S.
    destruct m as [|m].
    - exists 0%nat. split; [lia|]. cbn. apply Rmax_right, Rabs_pos.
    - destruct IH as [i [Hi E]]; [lia|]. rewrite E.
      destruct (Rle_dec (Rabs (vat u i)) (Rabs (vat u (S m)))).
      + exists (S m). split; [lia|]. apply Rmax_right; auto.
      + exists i. split; [lia|]. apply Rmax_left; lra. }
  apply G; lia.
Qed.

Lemma vtry_normalize_iff n (u : vec R n) t :
  (vtry_normalize u t = None <-> vnorm u <= t) /\
  (t < vnorm u -> vtry_normalize u t = Some (vnormalize u)).
Proof.
  unfold vtry_normalize. destruct (Rle_dec (vnorm u) t); split; try split; auto;
    try discriminate; try lra; intros; contradiction.
Qed.

Lemma vproject_idem n (u w : vec R n) :
  w <> vzero n -> vproject (vproject u w) w = vproject u w.
Proof.
  intros H. pose proof (vdot_nz_pos n w H). unfold vproject, vnorm_squared.
  rewrite vdot_mul_l. f_equal. rnum. field. lra.
Qed.

Lemma sqrt_eq x y : 0 <= y -> y * y = x -> sqrt x = y.
Proof. intros Hy <-. apply sqrt_square; auto. Qed.

Lemma vnorm_34 : vnorm (v2 3 4) = 5.
Proof. apply sqrt_eq; [lra|]. vcompute; rnum; ring. Qed.

Lemma vnorm_example : vnorm (v2 3 4) = 5 /\ vdist (v2 1 1) (v2 4 5) = 5.
Proof.
  split; [apply vnorm_34|]. apply sqrt_eq; [lra|]. vcompute; rnum; ring.
Qed.

(** A norm gives a metric. *)
Lemma norm_metric n (N : vec R n -> R) :
  (forall u, 0 <= N u) -> (forall u, N u = 0 <-> u = vzero n) ->
  (forall u a, N (vmul_s u a) = N u * Rabs a) -> (forall u v, N (vadd u v) <= N u + N v) ->
  forall u v w, 0 <= norm_metric_distance N u v /\ (norm_metric_distance N u v = 0 <-> u = v) /\
    norm_metric_distance N u v = norm_metric_distance N v u /\
    norm_metric_distance N u w <= norm_metric_distance N u v + norm_metric_distance N v w.
Proof.
  intros H0 Hz Hm Ht u v w. unfold norm_metric_distance. conjs.
  - apply H0.
  - rewrite Hz. split; intros E.
    + vext. assert (F : vat (vsub v u) i = 0) by (rewrite E, vat_vzero; reflexivity). rewrite vat_vsub in F by auto. rnum; lra.
    + subst. apply vsub_self.
  - replace (vsub v u) with (vmul_s (vsub u v) (-1)).
    + rewrite Hm, (Rabs_left (-1)) by lra. ring.
    + vext. rnum; ring.
  - replace (vsub w u) with (vadd (vsub v u) (vsub w v)); [apply Ht|].
    vext. rnum; ring.
Qed.

Lemma vl1_metric n (u v w : vec R n) :
  let d := @norm_metric_distance n vl1_norm in 0 <= d u v /\ (d u v = 0 <-> u = v) /\ d u v = d v u /\ d u w <= d u v + d v w.
Proof. exact (norm_metric n vl1_norm (vl1_nonneg n) (vl1_zero n) (vl1_mul n) (vl1_triangle n) u v w). Qed.
Lemma vlinf_metric n (u v w : vec R n) :
  let d := @norm_metric_distance n vlinf_norm in 0 <= d u v /\ (d u v = 0 <-> u = v) /\ d u v = d v u /\ d u w <= d u v + d v w.
Proof. exact (norm_metric n vlinf_norm (vlinf_nonneg n) (vlinf_zero n) (vlinf_mul n) (vlinf_triangle n) u v w). Qed.

Lemma vl1_linf_example : vl1_norm (v2 3 (-4)) = 7 /\ vlinf_norm (v2 3 (-4)) = 4.
Proof.
  unfold vl1_norm, vlinf_norm; cbn.
  rewrite (Rabs_pos_eq 3) by lra. rewrite (Rabs_left (-4)) by lra.
  split; [ring|]. rewrite (Rmax_right 0 3) by lra. rewrite Rmax_right by lra. ring.
Qed.

Lemma vnormalize_example :
  v2 3 4 <> vzero 2 /\ vnormalize (v2 3 4) = v2 (3 / 5) (4 / 5).
Proof.
  split.
  - vcompute; rnum. intros E; inversion E; lra.
  - unfold vnormalize. rewrite vnorm_34. vcompute; rnum. pairs ltac:(field).
Qed.

Lemma vreflect_example : vreflect (v2 1 2) (v2 0 5) = v2 1 (-2).
Proof.
  unfold vreflect, vnormalize. replace (vnorm (v2 0 5)) with 5.
  - vcompute; rnum. pairs ltac:(field).
  - symmetry. apply sqrt_eq; [lra|]. vcompute; rnum; ring.
Qed.
