(** Proofs about [Vector::lp_norm]. *)

From Coq Require Import Arith Lia ZArith Reals Lra Psatz.
From Verif Require Import Base Scalar Spec LBase MVector LVector LVectorR LReal MMisc.
Local Open Scope R_scope.

(** Spec: the sum of the [p]-th powers of the absolute values. *)
Definition power_sum {n} (v : vec R n) (p : nat) : R := sum n (fun i => Rabs (vat v i) ^ p).

Lemma power_sum_nonneg n (v : vec R n) p : 0 <= power_sum v p.
Proof. apply sum_nonneg. intros. apply pow_le, Rabs_pos. Qed.

Lemma vlp_loop n (v : vec R n) p m : (0 <= p < 2 ^ 31)%Z -> (m <= n)%nat ->
  for_range_opt m (fun i result =>
          match rpowi (Rabs (vat v i)) (u32_as_i32 p) with
          | Some y => Some (result + y)%R
          | None => None
          end) 0%R = Some (sum m (fun i => Rabs (vat v i) ^ Z.to_nat p)).
Proof.
  intros Hp. induction m as [|m IH]; intros Hm; [reflexivity|].
  rewrite for_range_opt_S, IH by lia. unfold u32_as_i32, rpowi.
  destruct (Z.ltb_spec p (2 ^ 31)); [|lia]. destruct (Z.leb_spec 0 p); [reflexivity|lia].
Qed.
Lemma vlp_norm_eq n (v : vec R n) p : (0 <= p < 2 ^ 31)%Z ->
  vlp_norm v p = Some (rpowf (power_sum v (Z.to_nat p)) (/ IZR p)).
Proof. intros H. unfold vlp_norm. rewrite vlp_loop by (auto; lia). reflexivity. Qed.

Lemma rpowf_nonneg x y : 0 <= rpowf x y.
Proof. unfold rpowf. destruct (Req_EM_T x 0); [lra|]. apply Rlt_le, exp_pos. Qed.
Lemma rpowf_root x p : 0 <= x -> (1 <= p)%Z -> rpowf x (/ IZR p) ^ Z.to_nat p = x.
Proof.
  intros Hx Hp. unfold rpowf. destruct (Req_EM_T x 0) as [->|N].
  - apply pow_ne_zero. lia.
  - assert (0 < IZR p) by (apply IZR_lt; lia).
    rewrite <- Rpower_pow by apply exp_pos. rewrite Rpower_mult, INR_IZR_INZ, Z2Nat.id by lia.
    rewrite Rinv_l by lra. apply Rpower_1. lra.
Qed.
Lemma pow_inj x y n : (0 < n)%nat -> 0 <= x -> 0 <= y -> x ^ n = y ^ n -> x = y.
Proof.
  intros Hn Hx Hy E. destruct (Rtotal_order x y) as [L|[->|L]]; [|reflexivity|].
  - assert (x ^ n < y ^ n); [|lra]. clear E. induction n as [|[|n] IH]; [lia|simpl; lra|].
    assert (x ^ S n < y ^ S n) by (apply IH; lia). change (x * x ^ S n < y * y ^ S n).
    assert (0 <= x ^ S n) by (apply pow_le; auto). nra.
  - assert (y ^ n < x ^ n); [|lra]. clear E. induction n as [|[|n] IH]; [lia|simpl; lra|].
    assert (y ^ S n < x ^ S n) by (apply IH; lia). change (y * y ^ S n < x * x ^ S n).
    assert (0 <= y ^ S n) by (apply pow_le; auto). nra.
Qed.
Lemma pow_le_cancel x y n : (0 < n)%nat -> 0 <= x -> 0 <= y -> x ^ n <= y ^ n -> x <= y.
Proof.
  intros Hn Hx Hy E. destruct (Rle_lt_dec x y) as [|L]; auto.
  assert (y ^ n <= x ^ n) by (apply pow_incr; lra).
  assert (x = y) by (apply (pow_inj x y n); auto; lra). lra.
Qed.

(** The norm is the unique non-negative number whose [p]-th power is the power sum. *)
Lemma vlp_norm_spec n (v : vec R n) p : (1 <= p < 2 ^ 31)%Z ->
  exists a, vlp_norm v p = Some a /\ 0 <= a /\ a ^ Z.to_nat p = power_sum v (Z.to_nat p).
Proof.
  intros H. rewrite vlp_norm_eq by lia. eexists; split; [reflexivity|].
  split; [apply rpowf_nonneg|]. apply rpowf_root; [apply power_sum_nonneg|lia].
Qed.
Lemma vlp_norm_unique n (v : vec R n) p a : (1 <= p < 2 ^ 31)%Z ->
  0 <= a -> a ^ Z.to_nat p = power_sum v (Z.to_nat p) -> vlp_norm v p = Some a.
Proof.
  intros H Ha E. destruct (vlp_norm_spec n v p H) as (b & -> & Hb & Eb). f_equal.
  apply (pow_inj _ _ (Z.to_nat p)); auto; try lia. congruence.
Qed.

Lemma power_sum_zero n (v : vec R n) p : (0 < p)%nat -> power_sum v p = 0 <-> v = vzero n.
Proof.
  intros Hp. split.
  - intros H. apply vat_ext. intros i Hi. rewrite vat_vzeroR.
    pose proof (sum_nonneg_zero n _ (fun i _ => pow_le _ p (Rabs_pos (vat v i))) H i Hi) as E.
    destruct (Req_EM_T (vat v i) 0) as [|N]; auto. exfalso.
    apply (pow_nonzero (Rabs (vat v i)) p); [apply Rabs_no_R0; auto|exact E].
  - intros ->. unfold power_sum.
    refine (sum_zero_ext n (fun i => Rabs (vat (vzero n) i) ^ p) _). intros i Hi.
    rewrite vat_vzeroR, Rabs_R0. apply pow_ne_zero. lia.
Qed.

Lemma vlp_norm_zero n (v : vec R n) p : (1 <= p < 2 ^ 31)%Z ->
  vlp_norm v p = Some 0 <-> v = vzero n.
Proof.
  intros H. rewrite <- (power_sum_zero n v (Z.to_nat p)) by lia. split.
  - intros E. destruct (vlp_norm_spec n v p H) as (a & E' & _ & P). rewrite E in E'.
    injection E' as <-. rewrite <- P. apply pow_ne_zero. lia.
  - intros E. apply vlp_norm_unique; auto; [lra|]. rewrite E. apply pow_ne_zero. lia.
Qed.
Lemma vlp_norm_mul n (v : vec R n) p c a : (1 <= p < 2 ^ 31)%Z ->
  vlp_norm v p = Some a -> vlp_norm (vmul_s v c) p = Some (a * Rabs c).
Proof.
  intros H E. destruct (vlp_norm_spec n v p H) as (a' & E' & Ha & P). rewrite E in E'.
  injection E' as <-. apply vlp_norm_unique; auto.
  - apply Rmult_le_pos; auto. apply Rabs_pos.
  - rewrite Rpow_mult_distr, P. unfold power_sum.
    transitivity (sum n (fun i => Rabs (vat v i) ^ Z.to_nat p * Rabs c ^ Z.to_nat p)).
    + symmetry. exact (sum_mul_r n _ _).
    + apply sum_ext. intros i Hi. rewrite vat_vmul_s by exact Hi. rnum.
      rewrite Rabs_mult, Rpow_mult_distr. reflexivity.
Qed.
Lemma vlp_norm_1 n (v : vec R n) : vlp_norm v 1 = Some (vl1_norm v).
Proof.
  apply vlp_norm_unique; [lia|apply vl1_nonneg|]. change (Z.to_nat 1) with 1%nat. rewrite pow_1, vl1_sum.
  unfold power_sum. apply sum_ext. intros. rewrite pow_1. reflexivity.
Qed.
Lemma vlp_norm_2 n (v : vec R n) : vlp_norm v 2 = Some (vnorm v).
Proof.
  apply vlp_norm_unique; [lia|apply vnorm_nonneg|]. change (Z.to_nat 2) with 2%nat. simpl. rewrite Rmult_1_r, vnorm_sq.
  rewrite vdot_sum. unfold power_sum. apply sum_ext. intros. rnum. simpl. rewrite Rmult_1_r.
  rewrite <- Rabs_mult. symmetry. apply Rabs_right. nra.
Qed.

(** Convexity of t^p on the non-negative reals. *)
Lemma pow_diff_sign u v p : 0 <= u -> 0 <= v -> 0 <= (u - v) * (u ^ p - v ^ p).
Proof.
  intros Hu Hv. destruct (Rle_dec u v).
  - assert (u ^ p <= v ^ p) by (apply pow_incr; auto). nra.
  - assert (v ^ p <= u ^ p) by (apply pow_incr; lra). nra.
Qed.
Lemma pow_convex l u v p : 0 <= l <= 1 -> 0 <= u -> 0 <= v ->
  (l * u + (1 - l) * v) ^ p <= l * u ^ p + (1 - l) * v ^ p.
Proof.
  intros Hl Hu Hv. induction p as [|p IH]; [simpl; lra|]. cbn [pow].
  assert (0 <= l * u + (1 - l) * v) by nra.
  apply Rle_trans with ((l * u + (1 - l) * v) * (l * u ^ p + (1 - l) * v ^ p)).
  - apply Rmult_le_compat_l; auto.
  - pose proof (pow_diff_sign u v p Hu Hv). assert (0 <= l * (1 - l)) by nra. nra.
Qed.

Lemma vlp_minkowski n (x y : vec R n) p a b c : (1 <= p < 2 ^ 31)%Z ->
  vlp_norm x p = Some a -> vlp_norm y p = Some b -> vlp_norm (vadd x y) p = Some c -> c <= a + b.
Proof.
  intros H Ex Ey Es.
  destruct (vlp_norm_spec n x p H) as (a' & Ex' & Ha & Pa). rewrite Ex in Ex'. injection Ex' as <-.
  destruct (vlp_norm_spec n y p H) as (b' & Ey' & Hb & Pb). rewrite Ey in Ey'. injection Ey' as <-.
  destruct (vlp_norm_spec n (vadd x y) p H) as (c' & Es' & Hc & Pc). rewrite Es in Es'. injection Es' as <-.
  destruct (Req_EM_T a 0) as [->|Na].
  { apply vlp_norm_zero in Ex; auto. subst x. rewrite vadd_0_l in Es. rewrite Es in Ey.
    injection Ey as <-. lra. }
  destruct (Req_EM_T b 0) as [->|Nb].
  { apply vlp_norm_zero in Ey; auto. subst y. rewrite vadd_0_r in Es. rewrite Es in Ex.
    injection Ex as <-. lra. }
  set (P := Z.to_nat p) in *. assert (0 < P)%nat by (subst P; lia).
  apply (pow_le_cancel _ _ P); auto; [lra|]. rewrite Pc.
  set (l := a / (a + b)).
  assert (0 < a + b) by lra.
  assert (Hl : 0 <= l <= 1).
  { unfold l. split; [apply Rle_mult_inv_pos; lra|]. apply Rmult_le_reg_r with (a + b); [lra|].
    unfold Rdiv. rewrite Rmult_assoc, Rinv_l; lra. }
  apply Rle_trans with (sum n (fun i => (a + b) ^ P * (l / a ^ P) * Rabs (vat x i) ^ P
                                        + (a + b) ^ P * ((1 - l) / b ^ P) * Rabs (vat y i) ^ P)).
  - apply sum_le. intros i Hi. rewrite vat_vadd by exact Hi. rnum.
    apply Rle_trans with ((Rabs (vat x i) + Rabs (vat y i)) ^ P).
    { apply pow_incr. split; [apply Rabs_pos|apply Rabs_triang]. }
    pose proof (Rabs_pos (vat x i)) as X. pose proof (Rabs_pos (vat y i)) as Y.
    set (u := Rabs (vat x i)) in *. set (v := Rabs (vat y i)) in *.
    replace (u + v) with ((a + b) * (l * (u / a) + (1 - l) * (v / b)))
      by (unfold l; field; lra).
    rewrite Rpow_mult_distr.
    assert (0 <= u / a) by (apply Rle_mult_inv_pos; lra).
    assert (0 <= v / b) by (apply Rle_mult_inv_pos; lra).
    pose proof (pow_convex l (u / a) (v / b) P Hl H2 H3) as C.
    assert (0 < (a + b) ^ P) by (apply pow_lt; lra).
    apply Rle_trans with ((a + b) ^ P * (l * (u / a) ^ P + (1 - l) * (v / b) ^ P)).
    + apply Rmult_le_compat_l; lra.
    + right. unfold Rdiv. rewrite !Rpow_mult_distr, !pow_inv. ring.
  - right.
    assert (a ^ P <> 0) by (apply pow_nonzero; auto).
    assert (b ^ P <> 0) by (apply pow_nonzero; auto).
    transitivity ((a + b) ^ P * (l / a ^ P) * power_sum x P + (a + b) ^ P * ((1 - l) / b ^ P) * power_sum y P).
    + transitivity (nadd (sum n (fun i => (a + b) ^ P * (l / a ^ P) * Rabs (vat x i) ^ P))
         (sum n (fun i => (a + b) ^ P * ((1 - l) / b ^ P) * Rabs (vat y i) ^ P))).
      * exact (sum_add n _ _).
      * rnum. f_equal; exact (sum_mul_l n _ _).
    + rewrite <- Pa, <- Pb. field; auto.
Qed.

(** For p >= 2^31 the cast [p as i32] is negative and the properties fail. *)
Lemma vlp_norm_wrap_zero : vlp_norm (vzero 1 : vec R 1) (2 ^ 31) = None.
Proof.
  unfold vlp_norm, u32_as_i32, rpowi. cbn. destruct (Req_EM_T _ _) as [|N]; [reflexivity|].
  exfalso. apply N, Rabs_R0.
Qed.

Lemma vlp_norm_wrap n (v : vec R n) p m : (2 ^ 31 <= p < 2 ^ 32)%Z -> (m <= n)%nat ->
  (forall i, (i < n)%nat -> vat v i <> 0) ->
  for_range_opt m (fun i result =>
          match rpowi (Rabs (vat v i)) (u32_as_i32 p) with
          | Some y => Some (result + y)%R
          | None => None
          end) 0%R = Some (sum m (fun i => / Rabs (vat v i) ^ Z.to_nat (2 ^ 32 - p))).
Proof.
  intros Hp Hm Hv. induction m as [|m IH]; [reflexivity|].
  rewrite for_range_opt_S, IH by lia. unfold u32_as_i32, rpowi.
  destruct (Z.ltb_spec p (2 ^ 31)); [lia|]. destruct (Z.leb_spec 0 (p - 2 ^ 32)); [lia|].
  destruct (Req_EM_T _ _) as [E|N].
  - exfalso. apply (Rabs_no_R0 (vat v m)); [apply Hv; lia|exact E].
  - replace (- (p - 2 ^ 32))%Z with (2 ^ 32 - p)%Z by lia. reflexivity.
Qed.
(** At p = 2^31 the norm of the one-component vector (x) is 1/|x|. *)
Lemma vlp_norm_wrap_single x : x <> 0 -> vlp_norm (v1 x) (2 ^ 31) = Some (/ Rabs x).
Proof.
  intros Hx. unfold vlp_norm. rewrite vlp_norm_wrap.
  2: lia. 2: lia. 2: { intros i Hi. destruct i; [exact Hx|lia]. }
  f_equal.
  set (P := Z.to_nat (2 ^ 32 - 2 ^ 31)).
  assert (E : sum 1 (fun i => / Rabs (vat (v1 x) i) ^ P) = / Rabs x ^ P).
  { cbn [sum]. rnum. unfold vat. cbn. ring. }
  transitivity (rpowf (/ Rabs x ^ P) (/ IZR (2 ^ 31))); [f_equal; exact E|].
  assert (A : 0 < Rabs x) by (apply Rabs_pos_lt; auto).
  assert (0 < Rabs x ^ P) by (apply pow_lt; auto).
  assert (0 < / Rabs x ^ P) by (apply Rinv_0_lt_compat; auto).
  unfold rpowf. destruct (Req_EM_T _ _); [lra|].
  rewrite <- pow_inv. assert (0 < / Rabs x) by (apply Rinv_0_lt_compat; auto).
  rewrite <- Rpower_pow by auto. rewrite Rpower_mult. unfold P.
  rewrite INR_IZR_INZ, Z2Nat.id by lia.
  replace (IZR (2 ^ 32 - 2 ^ 31) * / IZR (2 ^ 31)) with 1; [apply Rpower_1; auto|].
  replace (2 ^ 32 - 2 ^ 31)%Z with (2 ^ 31)%Z by lia. symmetry. apply Rinv_r.
  apply not_0_IZR. lia.
Qed.
Lemma vlp_all n p (x y : vec R n) s : (1 <= p < 2 ^ 31)%Z ->
    exists a b c d : R,
      vlp_norm x p = Some a /\ vlp_norm y p = Some b /\
      vlp_norm (vadd x y) p = Some c /\ vlp_norm (vmul_s x s) p = Some d /\
      (0 <= a)%R /\ (a = 0%R <-> x = vzero n) /\ d = (a * Rabs s)%R /\ (c <= a + b)%R /\
      (a ^ Z.to_nat p = sum n (fun i => Rabs (vget 0%R x i) ^ Z.to_nat p))%R.
Proof.
  intros H. destruct (vlp_norm_spec n x p H) as (a & Ea & Ha & Pa).
  destruct (vlp_norm_spec n y p H) as (b & Eb & _).
  destruct (vlp_norm_spec n (vadd x y) p H) as (c & Ec & _).
  exists a, b, c, (a * Rabs s). rewrite (vlp_norm_mul n x p s a) by auto.
  rewrite Ea, Eb, Ec. conjs; auto.
  - rewrite <- (vlp_norm_zero n x p H), Ea. split; [intros ->; reflexivity|congruence].
  - exact (vlp_minkowski n x y p a b c H Ea Eb Ec).
Qed.
Lemma vlp_wrap_witness :
  exists p : Z, (1 <= p < 2 ^ 32)%Z /\
    vlp_norm (vzero 1) p = None /\
    vlp_norm (v1 1%R) p = Some 1%R /\
    vlp_norm (vmul_s (v1 1%R) 2%R) p = Some (/ 2)%R.
Proof.
  exists (2 ^ 31)%Z. split; [lia|]. split; [exact vlp_norm_wrap_zero|].
  rewrite vlp_norm_wrap_single by lra. rewrite Rabs_R1, Rinv_1. split; [reflexivity|].
  replace (vmul_s (v1 1) 2) with (v1 2).
  - rewrite vlp_norm_wrap_single by lra. rewrite Rabs_right by lra. reflexivity.
  - apply vat_ext. intros [|i] Hi; [|lia]. rewrite vat_vmul_s by lia. rnum. unfold vat. cbn. ring.
Qed.
Lemma vlp_example : (1 <= 3 < 2 ^ 31)%Z /\ vlp_norm (v3 3 4 5)%R 3 = Some 6%R.
Proof.
  split; [lia|]. apply vlp_norm_unique; [lia|lra|]. change (Z.to_nat 3) with 3%nat.
  unfold power_sum, vat. rnum.
  cbn. rewrite !Rabs_right by lra. ring.
Qed.
