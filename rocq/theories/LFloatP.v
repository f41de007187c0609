(** Floating-point scalars: the proofs of the property theorems of PFloat.v. *)

From Coq Require Import List Arith ZArith Bool Lia Reals Lra.
From Flocq Require Import Core.Core IEEE754.BinarySingleNaN.
From Verif Require Import Base Scalar Spec LBase MVector LVector MMatrix LMatrix MFloat LFloat.
Import ListNotations.

Lemma c88_commutative_scalars :
  forall (K : Type) (NK : Num K) (r c k n : nat)
    (addC : forall x y : K, nadd x y = nadd y x) (mulC : forall x y : K, nmul x y = nmul y x)
    (u v : vec K n) (s : K) (a b : mat K r c) (d : mat K c k),
    vadd u v = vadd v u /\ vcmul u v = vcmul v u /\ vdot u v = vdot v u /\ s_mul_v s u = vmul_s u s /\
    madd a b = madd b a /\ mcmul a b = mcmul b a /\ s_mul_m s a = mmul_s a s /\
    mtranspose (mtranspose a) = a /\
    mtranspose (madd a b) = madd (mtranspose a) (mtranspose b) /\
    mtranspose (mmul a d) = mmul (mtranspose d) (mtranspose a) /\
    vadd_assign u v = vadd u v /\ vsub_assign u v = vsub u v /\ vmul_assign u s = vmul_s u s /\
    vcmul_assign u v = vcmul u v /\
    madd_assign a b = madd a b /\ msub_assign a b = msub a b /\ mmul_assign a s = mmul_s a s /\
    mcmul_assign a b = mcmul a b.
Proof.
  intros. conjs.
  - exact (vadd_comm_gen _ u v addC).
  - exact (vcmul_comm_gen _ u v mulC).
  - exact (vdot_comm_gen _ u v mulC).
  - exact (s_mul_v_comm_gen _ u s mulC).
  - exact (madd_comm_gen _ _ a b addC).
  - exact (mcmul_comm_gen _ _ a b mulC).
  - exact (s_mul_m_comm_gen _ _ a s mulC).
  - mext. reflexivity.
  - mext. reflexivity.
  - exact (mtranspose_mul_gen _ _ _ a d mulC).
  - exact (vadd_assign_eq _ u v).
  - exact (vsub_assign_eq _ u v).
  - exact (vmul_assign_eq _ u s).
  - exact (vcmul_assign_eq _ u v).
  - exact (madd_assign_eq _ _ a b).
  - exact (msub_assign_eq _ _ a b).
  - exact (mmul_assign_eq _ _ a s).
  - exact (mcmul_assign_eq _ _ a b).
Qed.

Lemma c88_float_scalars :
  forall (prec emax : Z) (Hp : Prec_gt_0 prec) (He : Prec_lt_emax prec emax) (x y : binary_float prec emax),
    nadd x y = nadd y x /\ nmul x y = nmul y x /\ nsub x y = nadd x (nneg y) /\
    nneg (nneg x) = x /\ nmul (nneg x) (nneg y) = nmul x y /\ nmul x n1 = x.
Proof.
  intros. conjs; [apply fadd_comm|apply fmul_comm|apply fsub_add_neg|apply fneg_invol|apply fmul_neg_neg|apply fmul_1_r].
Qed.

Lemma c88_float_vectors :
  forall (prec emax : Z) (Hp : Prec_gt_0 prec) (He : Prec_lt_emax prec emax) (n : nat)
    (u v : vec (binary_float prec emax) n) (s : binary_float prec emax),
    vadd u v = vadd v u /\ vcmul u v = vcmul v u /\ vdot u v = vdot v u /\ s_mul_v s u = vmul_s u s /\
    vsub u v = vadd u (vneg v) /\ vneg (vneg u) = u /\ vmul_s u n1 = u /\
    vdot (vneg u) (vneg v) = vdot u v /\ vnorm_squared (vneg u) = vnorm_squared u /\
    (is_nan (vnorm_squared u) = true \/ Bsign (vnorm_squared u) = false).
Proof.
  intros. conjs.
  - apply vadd_comm_gen, fadd_comm.
  - apply vcmul_comm_gen, fmul_comm.
  - apply vdot_comm_gen, fmul_comm.
  - apply s_mul_v_comm_gen, fmul_comm.
  - vext. apply fsub_add_neg.
  - vext. apply fneg_invol.
  - vext. apply fmul_1_r.
  - rewrite !vdot_sum. apply sum_ext. intros i Hi. rewrite !vat_vneg by exact Hi. apply fmul_neg_neg.
  - unfold vnorm_squared. rewrite !vdot_sum. apply sum_ext. intros i Hi. rewrite !vat_vneg by exact Hi. apply fmul_neg_neg.
  - unfold vnorm_squared. rewrite vdot_sum. apply fsum_squares_sign.
Qed.

Lemma c88_float_matrices :
  forall (prec emax : Z) (Hp : Prec_gt_0 prec) (He : Prec_lt_emax prec emax) (r c k : nat)
    (a b : mat (binary_float prec emax) r c) (d : mat (binary_float prec emax) c k)
    (s : binary_float prec emax),
    madd a b = madd b a /\ mcmul a b = mcmul b a /\ s_mul_m s a = mmul_s a s /\
    msub a b = madd a (mneg b) /\ mneg (mneg a) = a /\ mmul_s a n1 = a /\
    mtranspose (mtranspose a) = a /\ mtranspose (mmul a d) = mmul (mtranspose d) (mtranspose a) /\
    mmul (mneg a) (mneg d) = mmul a d.
Proof.
  intros. conjs.
  - apply madd_comm_gen, fadd_comm.
  - apply mcmul_comm_gen, fmul_comm.
  - apply s_mul_m_comm_gen, fmul_comm.
  - mext. apply fsub_add_neg.
  - mext. apply fneg_invol.
  - mext. apply fmul_1_r.
  - mext. reflexivity.
  - apply mtranspose_mul_gen, fmul_comm.
  - apply mat_ext. intros j i Hj Hi. rewrite !mget_mmul by assumption. apply sum_ext. intros l Hl.
    rewrite !mget_mneg by assumption. apply fmul_neg_neg.
Qed.

Lemma c88_identity_is_exact :
  forall (prec emax : Z) (Hp : Prec_gt_0 prec) (He : Prec_lt_emax prec emax) (r c : nat)
    (a : mat (binary_float prec emax) r c),
    (forall j i, (j < c)%nat -> (i < r)%nat -> is_finite (mget a j i) = true) ->
    forall j i, (j < c)%nat -> (i < r)%nat ->
      is_finite (mget (mmul a (midentity c)) j i) = true /\
      B2R (mget (mmul a (midentity c)) j i) = B2R (mget a j i) /\
      is_finite (mget (mmul (midentity r) a) j i) = true /\
      B2R (mget (mmul (midentity r) a) j i) = B2R (mget a j i).
Proof.
  intros prec emax Hp He r c a F j i Hj Hi.
  assert (F1 : is_finite (n1 : binary_float prec emax) = true) by apply is_finite_Bone.
  assert (F0 : is_finite (n0 : binary_float prec emax) = true) by reflexivity.
  rewrite !mget_mmul by assumption.
  destruct (fsum_single c j (fun k => nmul (mget a k i) (mget (midentity c) j k))) as (G1 & V1).
  { intros k Hk. rewrite mget_midentity by assumption. unfold delta.
    destruct (Nat.eqb_spec j k) as [->|N]; [rewrite fmul_1_r; auto|].
    apply fmul_zero_r; auto. }
  { intros k Hk N. rewrite mget_midentity by assumption. unfold delta.
    destruct (Nat.eqb_spec j k) as [E|_]; [congruence|]. apply fmul_zero_r; auto. }
  destruct (fsum_single r i (fun k => nmul (mget (midentity r) k i) (mget a j k))) as (G2 & V2).
  { intros k Hk. rewrite mget_midentity by assumption. unfold delta. rewrite fmul_comm.
    destruct (Nat.eqb_spec k i) as [->|N]; [rewrite fmul_1_r; auto|].
    apply fmul_zero_r; auto. }
  { intros k Hk N. rewrite mget_midentity by assumption. unfold delta. rewrite fmul_comm.
    destruct (Nat.eqb_spec k i) as [E|_]; [congruence|]. apply fmul_zero_r; auto. }
  rewrite (proj2 (Nat.ltb_lt j c) Hj) in V1. rewrite (proj2 (Nat.ltb_lt i r) Hi) in V2.
  rewrite mget_midentity in V1 by assumption. unfold delta in V1. rewrite Nat.eqb_refl, fmul_1_r in V1.
  rewrite mget_midentity in V2 by assumption. unfold delta in V2. rewrite Nat.eqb_refl, fmul_comm, fmul_1_r in V2.
  auto.
Qed.

Lemma c88_boundary :
  (exists u v w : vec f64 1, vadd (vadd u v) w <> vadd u (vadd v w)) /\
  (exists (u v : vec f64 1) (s : f64), vmul_s (vadd u v) s <> vadd (vmul_s u s) (vmul_s v s)) /\
  (exists u : vec f64 1, vadd u (vneg u) <> vzero 1).
Proof.
  assert (D : forall x y : f64, B2SF x <> B2SF y -> v1 x <> v1 y) by (intros x y H E; injection E; intros; subst; auto).
  conjs.
  - exists (v1 (f64_of_Z (2 ^ 53))), (v1 (f64_of_Z 1)), (v1 (f64_of_Z 1)). intros E. 
    apply (f_equal (fun v : vec f64 1 => B2SF (vat v 0))) in E. vm_compute in E. discriminate E.
  - exists (v1 (f64_of_Z (2 ^ 53))), (v1 (f64_of_Z 1)), (f64_of_Z 3). intros E.
    apply (f_equal (fun v : vec f64 1 => B2SF (vat v 0))) in E. vm_compute in E. discriminate E.
  - exists (v1 (B754_infinity false)). intros E.
    apply (f_equal (fun v : vec f64 1 => B2SF (vat v 0))) in E. vm_compute in E. discriminate E.
Qed.

Lemma c88_example :
  let t := ndiv (f64_of_Z 1) (f64_of_Z 10) in
  let u := v2 t (f64_of_Z 3) in let v := v2 (nadd t t) t in
  vdot u v = vdot v u /\ vadd u v = vadd v u /\ is_finite (vdot u v) = true /\
  B2SF (nadd (nadd t t) t) <> B2SF (ndiv (f64_of_Z 3) (f64_of_Z 10)).
Proof.
  cbv zeta. conjs; [apply vdot_comm_gen; exact fmul_comm|apply vadd_comm_gen; exact fadd_comm|vm_compute; reflexivity|vm_compute; discriminate].
Qed.

Lemma funit_eq prec : @funit prec = bpow radix2 (- prec).
Proof.
  unfold funit. rewrite bpow_plus. change (bpow radix2 1) with 2%R. lra.
Qed.
Lemma ftiny_eq prec emax : @ftiny prec emax = bpow radix2 (2 - emax - prec).
Proof.
  unfold ftiny. replace (3 - emax - prec)%Z with (2 - emax - prec + 1)%Z by ring.
  rewrite bpow_plus. change (bpow radix2 1) with 2%R. lra.
Qed.

Lemma c96_dot_error :
  forall (prec emax : Z) (Hp : Prec_gt_0 prec) (He : Prec_lt_emax prec emax) (n : nat)
    (u v : vec (binary_float prec emax) n),
    is_finite (vdot u v) = true ->
    (Rabs (B2R (vdot u v) - sum n (fun i => B2R (vat u i) * B2R (vat v i)))
     <= ((1 + bpow radix2 (- prec)) ^ (n + 1) - 1) * sum n (fun i => Rabs (B2R (vat u i) * B2R (vat v i)))
        + INR n * bpow radix2 (2 - emax - prec) * (1 + bpow radix2 (- prec)) ^ n)%R.
Proof.
  intros prec emax Hp He n u v F. rewrite vdot_sum in *.
  rewrite <- funit_eq, <- ftiny_eq. rewrite Nat.add_1_r.
  exact (dot_err_bound n (vat u) (vat v) F).
Qed.

Lemma c96_matrix_vector_error :
  forall (prec emax : Z) (Hp : Prec_gt_0 prec) (He : Prec_lt_emax prec emax) (r c : nat)
    (m : mat (binary_float prec emax) r c) (v : vec (binary_float prec emax) c) (i : nat),
    (i < r)%nat -> is_finite (vat (mmulv m v) i) = true ->
    (Rabs (B2R (vat (mmulv m v) i) - sum c (fun k => B2R (mget m k i) * B2R (vat v k)))
     <= ((1 + bpow radix2 (- prec)) ^ (c + 1) - 1) * sum c (fun k => Rabs (B2R (mget m k i) * B2R (vat v k)))
        + INR c * bpow radix2 (2 - emax - prec) * (1 + bpow radix2 (- prec)) ^ c)%R.
Proof.
  intros prec emax Hp He r c m v i Hi F. rewrite vat_mmulv in * by assumption.
  rewrite <- funit_eq, <- ftiny_eq. rewrite Nat.add_1_r.
  exact (dot_err_bound c (fun k => mget m k i) (vat v) F).
Qed.

Lemma c96_matrix_product_error :
  forall (prec emax : Z) (Hp : Prec_gt_0 prec) (He : Prec_lt_emax prec emax) (r c k : nat)
    (a : mat (binary_float prec emax) r c) (b : mat (binary_float prec emax) c k) (j i : nat),
    (j < k)%nat -> (i < r)%nat -> is_finite (mget (mmul a b) j i) = true ->
    (Rabs (B2R (mget (mmul a b) j i) - sum c (fun l => B2R (mget a l i) * B2R (mget b j l)))
     <= ((1 + bpow radix2 (- prec)) ^ (c + 1) - 1) * sum c (fun l => Rabs (B2R (mget a l i) * B2R (mget b j l)))
        + INR c * bpow radix2 (2 - emax - prec) * (1 + bpow radix2 (- prec)) ^ c)%R.
Proof.
  intros prec emax Hp He r c k a b j i Hj Hi F. rewrite mget_mmul in * by assumption.
  rewrite <- funit_eq, <- ftiny_eq. rewrite Nat.add_1_r.
  exact (dot_err_bound c (fun l => mget a l i) (fun l => mget b j l) F).
Qed.

Lemma c96_finite_result_has_finite_operands :
  forall (prec emax : Z) (Hp : Prec_gt_0 prec) (He : Prec_lt_emax prec emax) (n : nat)
    (u v : vec (binary_float prec emax) n),
    is_finite (vdot u v) = true ->
    forall i, (i < n)%nat ->
      is_finite (vat u i) = true /\ is_finite (vat v i) = true /\ is_finite (nmul (vat u i) (vat v i)) = true.
Proof.
  intros prec emax Hp He n u v F i Hi. rewrite vdot_sum in F.
  pose proof (fsum_fin _ _ F i Hi) as P. destruct (ffin_mul _ _ P). auto.
Qed.

Lemma c96_f64_up_to_four :
  forall (n : nat) (u v : vec f64 n),
    (n <= 4)%nat -> is_finite (vdot u v) = true ->
    (Rabs (B2R (vdot u v) - sum n (fun i => B2R (vat u i) * B2R (vat v i)))
     <= 6 * bpow radix2 (-53) * sum n (fun i => Rabs (B2R (vat u i) * B2R (vat v i)))
        + 5 * bpow radix2 (-1075))%R.
Proof.
  intros n u v Hn F.
  pose proof (c96_dot_error 53 1024 prec64 emax64 n u v F) as H.
  change (2 - 1024 - 53)%Z with (-1075)%Z in H. change (- (53))%Z with (-53)%Z in H.
  set (e := bpow radix2 (-53)) in *. set (t := bpow radix2 (-1075)) in *.
  assert (E0 : (0 < e <= / 1024)%R).
  { split; [apply bpow_gt_0|]. replace (/ 1024)%R with (bpow radix2 (-10)) by (cbn; lra). apply bpow_le. lia. }
  assert (T0 : (0 < t)%R) by apply bpow_gt_0.
  set (A := sum n (fun i => Rabs (B2R (vat u i) * B2R (vat v i)))) in *.
  assert (A0 : (0 <= A)%R) by (apply (rsum_nonneg n); intros; apply Rabs_pos).
  eapply Rle_trans; [exact H|].
  assert (M : forall k, (k <= 5)%nat -> (1 <= (1 + e) ^ k <= (1 + e) ^ 5)%R).
  { intros k Hk. split; [apply pow_R1_Rle; lra|]. apply Rle_pow; [lra|exact Hk]. }
  assert (P5 : ((1 + e) ^ 5 <= 1 + 6 * e)%R).
  { cbn [pow]. assert (e * e <= e * / 1024)%R by (apply Rmult_le_compat_l; lra). nra. }
  destruct (M (n + 1)%nat ltac:(lia)) as [_ M1]. destruct (M n ltac:(lia)) as [M2 M3].
  assert (N4 : (0 <= INR n <= 4)%R).
  { split; [apply pos_INR|]. replace 4%R with (INR 4) by (cbn; lra). apply le_INR; exact Hn. }
  apply Rplus_le_compat.
  - apply Rmult_le_compat_r; [exact A0|lra].
  - set (p := ((1 + e) ^ n)%R) in *. replace (INR n * t * p)%R with (INR n * p * t)%R by ring.
    apply Rmult_le_compat_r; [lra|].
    assert (INR n * p <= 4 * p)%R by (apply Rmult_le_compat_r; lra). lra.
Qed.

Lemma c96_example :
  let t := ndiv (f64_of_Z 1) (f64_of_Z 10) in
  is_finite (vdot (v2 t (nadd t t)) (v2 (f64_of_Z 3) t)) = true /\
  is_finite (vdot (v2 (f64_of_Z (2 ^ 600)) t) (v2 (f64_of_Z (2 ^ 600)) t)) = false.
Proof.
  vm_compute. auto.
Qed.
