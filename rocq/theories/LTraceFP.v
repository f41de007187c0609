(** The theorems about traces, inner products and products with a transpose in floats (C156). *)

From Coq Require Import List Arith ZArith Bool Lia Reals Lra Psatz.
From Flocq Require Import Core.Core IEEE754.BinarySingleNaN.
From Verif Require Import Base Scalar Spec SpecF SpecLibm MReal MVector MMatrix MPoint MQuat MFloat MFloatVec MSign
  LBase LVector LMatrix LFloat LFloatVec LFloatP LFloatNormP LFloatAcc LFloatExP LProjF LTrScF LSame LNormFA LAffM LTraceF.
Local Open Scope R_scope.

Theorem c156_transposed :
  forall (prec emax : Z) (Hp : Prec_gt_0 prec) (He : Prec_lt_emax prec emax) (r c k : nat)
    (a b : mat (binary_float prec emax) r c) (d : mat (binary_float prec emax) r k) (e : mat (binary_float prec emax) c r) (m : mat (binary_float prec emax) r r),
  mtr_mul a d = mmul (mtranspose a) d /\ mtr_dot a e = mdot a (mtranspose e) /\ mdot a b = mdot b a /\
  mtrace (mtranspose m) = mtrace m /\ mtrace (mtr_mul a b) = mtrace (mtr_mul b a) /\ mtranspose (mtr_mul a d) = mtr_mul d a.
Proof.
  intros. repeat split.
  - apply mat_ext. intros j i Hj Hi. rewrite mget_mtr_mul, mget_mmul by assumption. apply sum_ext. intros l Hl. rewrite mget_mtranspose by assumption. reflexivity.
  - unfold mtr_dot, mdot. apply for_range_ext. intros i x Hi. apply for_range_ext. intros j y Hj. rewrite mget_mtranspose by assumption. reflexivity.
  - unfold mdot. apply for_range_ext. intros i x Hi. apply for_range_ext. intros j y Hj. f_equal. apply fmul_comm.
  - rewrite !mtrace_sum. apply sum_ext. intros i Hi. rewrite mget_mtranspose by assumption. reflexivity.
  - rewrite !mtrace_sum. apply sum_ext. intros i Hi. rewrite !mget_mtr_mul by assumption. apply sum_ext. intros l Hl. apply fmul_comm.
  - apply mat_ext. intros j i Hj Hi. rewrite mget_mtranspose, !mget_mtr_mul by assumption. apply sum_ext. intros l Hl. apply fmul_comm.
Qed.

Theorem c156_distance_symmetric :
  forall (prec emax : Z) (Hp : Prec_gt_0 prec) (He : Prec_lt_emax prec emax) (r c n : nat)
    (a b : mat (binary_float prec emax) r c) (v w : vec (binary_float prec emax) n) (p q : quat (binary_float prec emax)),
  mdist_squared a b = mdist_squared b a /\ vdist_squared v w = vdist_squared w v /\ fvdist v w = fvdist w v /\
  pdist_squared (v : point _ n) w = pdist_squared (w : point _ n) v /\ qdist_squared p q = qdist_squared q p.
Proof.
  intros. assert (V : forall n (x y : vec (binary_float prec emax) n), vdist_squared x y = vdist_squared y x).
  { intros l x y. unfold vdist_squared, vnorm_squared, vdot. apply for_range_ext. intros i s Hi. rewrite !vat_vsub by assumption. rewrite square_swap. reflexivity. }
  split; [|split; [|split; [|split]]].
  - unfold mdist_squared, mnorm_squared, mdot. apply for_range_ext. intros i x Hi. apply for_range_ext. intros j y Hj. rewrite !mget_msub by assumption. rewrite square_swap. reflexivity.
  - apply V.
  - unfold fvdist, fvnorm. f_equal. apply V.
  - apply V.
  - apply (V 4%nat).
Qed.

Theorem c156_trace_error :
  forall (prec emax : Z) (Hp : Prec_gt_0 prec) (He : Prec_lt_emax prec emax) (n : nat) (m : mat (binary_float prec emax) n n),
  is_finite (mtrace m) = true ->
  Rabs (B2R (mtrace m) - sum n (fun i => B2R (mget m i i))) <= ((1 + bpow radix2 (- prec)) ^ n - 1) * sum n (fun i => Rabs (B2R (mget m i i))).
Proof. intros prec emax Hp He n m. rewrite mtrace_sum. exact (sum_err n (fun i => mget m i i)). Qed.

Theorem c156_inner_product_error :
  forall (prec emax : Z) (Hp : Prec_gt_0 prec) (He : Prec_lt_emax prec emax) (r c : nat) (a b : mat (binary_float prec emax) r c),
  is_finite (mdot a b) = true ->
  Rabs (B2R (mdot a b) - sum r (fun i => sum c (fun j => B2R (mget a j i) * B2R (mget b j i)))) <=
    ((1 + bpow radix2 (- prec)) ^ (r * c + 1) - 1) * sum r (fun i => sum c (fun j => Rabs (B2R (mget a j i) * B2R (mget b j i))))
    + INR (r * c) * bpow radix2 (2 - emax - prec) * (1 + bpow radix2 (- prec)) ^ (r * c).
Proof.
  intros prec emax Hp He r c a b F. unfold mdot in *. rewrite (flat_loop r c (fun i j => nmul (mget a j i) (mget b j i))) in *.
  pose proof (dot_err_bound (r * c) (fun k => mget a (k mod c)%nat (k / c)%nat) (fun k => mget b (k mod c)%nat (k / c)%nat) F) as E.
  rewrite funit_eq, ftiny_eq, <- (Nat.add_1_r (r * c)) in E.
  rewrite (flat_sum r c (fun i j => B2R (mget a j i) * B2R (mget b j i))) in E. rewrite (flat_sum r c (fun i j => Rabs (B2R (mget a j i) * B2R (mget b j i)))) in E. exact E.
Qed.

Theorem c156_norm_squared :
  forall (prec emax : Z) (Hp : Prec_gt_0 prec) (He : Prec_lt_emax prec emax) (r c : nat) (a : mat (binary_float prec emax) r c),
  (is_nan (mnorm_squared a) = true \/ Bsign (mnorm_squared a) = false) /\
  ((forall j i, (j < c)%nat -> (i < r)%nat -> is_finite (mget a j i) = true) -> mdist_squared a a = n0).
Proof.
  intros prec emax Hp He r c a. split.
  - unfold mnorm_squared, mdot. rewrite (flat_loop r c (fun i j => nmul (mget a j i) (mget a j i))). exact (fsum_squares_sign (r * c) (fun k => mget a (k mod c)%nat (k / c)%nat)).
  - intros F. unfold mdist_squared, mnorm_squared, mdot.
    assert (L : for_range r (fun i acc => for_range c (fun j acc => nadd acc (nmul (mget (msub a a) j i) (mget (msub a a) j i))) acc) n0 = for_range r (fun i acc => for_range c (fun j acc => nadd acc (n0 : binary_float prec emax)) acc) n0).
    { apply for_range_ext. intros i x Hi. apply for_range_ext. intros j y Hj. f_equal. rewrite mget_msub by assumption. apply square_self, F; assumption. }
    rewrite L, (flat_loop r c (fun _ _ => n0)). induction (r * c)%nat as [|n IH]; [reflexivity|]. cbn [sum]. rewrite IH. reflexivity.
Qed.

Theorem c156_triple :
  forall (prec emax : Z) (Hp : Prec_gt_0 prec) (He : Prec_lt_emax prec emax) (v w x : vec (binary_float prec emax) 3) (A B C : R),
  let inr t := bpow radix2 (31 - emax) <= t <= bpow radix2 (emax - 31) in let e (y : vec (binary_float prec emax) 3) i := B2R (vat y i) in
  (24 <= prec)%Z -> 0 < A -> 0 < B -> 0 < C -> inr (A * B) -> inr (A * B * C) ->
  (forall i, (i < 3)%nat -> fbnd A (vat v i) /\ fbnd B (vat w i) /\ fbnd C (vat x i)) ->
  fnear (vtriple v w x)
    (e v 0%nat * (e w 1%nat * e x 2%nat - e w 2%nat * e x 1%nat) - e v 1%nat * (e w 0%nat * e x 2%nat - e w 2%nat * e x 0%nat) + e v 2%nat * (e w 0%nat * e x 1%nat - e w 1%nat * e x 0%nat))
    (31 * bpow radix2 (- prec) * (A * B * C)).
Proof.
  intros prec emax Hp He v w x A B C inr e H24 A0 B0 C0 WAB WABC H. unfold e.
  assert (X : forall i j, (i < 3)%nat -> (j < 3)%nat -> fapp (A * B) 2 4099 (nsub (nmul (vat v i) (vat w j)) (nmul (vat v j) (vat w i))) (B2R (vat v i) * B2R (vat w j) - B2R (vat v j) * B2R (vat w i))).
  { intros i j Hi Hj. assert (M : forall i j, (i < 3)%nat -> (j < 3)%nat -> fapp (A * B) 1 1025 (nmul (vat v i) (vat w j)) (B2R (vat v i) * B2R (vat w j))).
    { intros i' j' Hi' Hj'. apply (mul_p H24 A B 1 0); try assumption; try lia; [apply fapp_leaf|]; apply H; assumption. }
    assert (H1 : (2 ^ 24 <= 2 ^ prec)%Z) by (apply Z.pow_le_mono_r; lia).
    eapply fapp_weak; [exact (wok_pos _ WAB)|exact (fapp_sub H24 _ _ _ _ _ _ _ _ _ WAB (M i j Hi Hj) (M j i Hj Hi) ltac:(lia) ltac:(lia))|lia|lia]. }
  destruct (row3 H24 (A * B) C 2 4099 0 0 _ _ _ _ _ _ _ _ (vat x 0) (vat x 1) (vat x 2) WABC (wok_pos _ WAB) C0 ltac:(lia) ltac:(lia) ltac:(lia) ltac:(lia)
    (X 1%nat 2%nat ltac:(lia) ltac:(lia)) (X 2%nat 0%nat ltac:(lia) ltac:(lia)) (X 0%nat 1%nat ltac:(lia) ltac:(lia)) (fapp_0 (A * B * C)) (proj2 (proj2 (H 0%nat ltac:(lia)))) (proj2 (proj2 (H 1%nat ltac:(lia)))) (proj2 (proj2 (H 2%nat ltac:(lia))))) as (G & _).
  pose proof (fapp_near _ _ _ 31 _ _ (wok_pos _ WABC) G ltac:(lia)) as N. destruct N as (F & N). split; [exact F|].
  refine (Rle_trans _ _ _ (Req_le _ _ _) N). apply f_equal. change (vtriple v w x) with (nadd (nadd (nadd n0 (nmul (nsub (nmul (vat v 1) (vat w 2)) (nmul (vat v 2) (vat w 1))) (vat x 0))) (nmul (nsub (nmul (vat v 2) (vat w 0)) (nmul (vat v 0) (vat w 2))) (vat x 1))) (nmul (nsub (nmul (vat v 0) (vat w 1)) (nmul (vat v 1) (vat w 0))) (vat x 2))). ring.
Qed.

Theorem c156_differs :
  let a : mat f64 2 2 := m2new (f64_of_Z (2 ^ 53)) (f64_of_Z 1) (f64_of_Z 1) (f64_of_Z 1) in let b : mat f64 2 2 := m2new n1 n1 n1 n1 in
  is_finite (mdot a b) = true /\ is_finite (mtrace (mtr_mul a b)) = true /\ B2R (mdot a b) <> B2R (mtrace (mtr_mul a b)).
Proof.
  intros a b. assert (Fa : is_finite (mdot a b) = true) by (vm_compute; reflexivity). assert (Fb : is_finite (mtrace (mtr_mul a b)) = true) by (vm_compute; reflexivity).
  split; [exact Fa|]. split; [exact Fb|]. intros E. assert (C : Beqb (mdot a b) (mtrace (mtr_mul a b)) = false) by (vm_compute; reflexivity).
  rewrite Beqb_correct in C by assumption. rewrite E in C. rewrite Req_bool_true in C by reflexivity. discriminate.
Qed.

Theorem c156_example :
  let t k : f64 := ndiv (f64_of_Z k) (f64_of_Z 10) in let a : mat f64 2 2 := m2new (t 1%Z) (f64_of_Z 2) (f64_of_Z (-3)) (t 2%Z) in
  is_finite (mtrace a) = true /\ is_finite (mdot a a) = true /\ B2R (mtrace a) <> B2R (t 3%Z) /\
  Rabs (B2R (mtrace a) - (B2R (t 1%Z) + B2R (t 2%Z))) <= bpow radix2 (-51) * (Rabs (B2R (t 1%Z)) + Rabs (B2R (t 2%Z))).
Proof.
  intros t a. assert (Fa : is_finite (mtrace a) = true) by (vm_compute; reflexivity). assert (Fb : is_finite (mdot a a) = true) by (vm_compute; reflexivity). assert (F3 : is_finite (t 3%Z) = true) by (vm_compute; reflexivity).
  split; [exact Fa|]. split; [exact Fb|]. split.
  - intros E. assert (C : Beqb (mtrace a) (t 3%Z) = false) by (vm_compute; reflexivity). rewrite Beqb_correct in C by assumption. rewrite E in C. rewrite Req_bool_true in C by reflexivity. discriminate.
  - pose proof (c156_trace_error 53 1024 _ _ 2 a Fa) as H. change (mget a 0 0) with (t 1%Z) in H. 
    assert (S : forall f : nat -> R, sum 2 f = f 0%nat + f 1%nat) by (intros f; cbv [sum nadd n0 num_R]; ring). rewrite !S in H. change (mget a 0 0) with (t 1%Z) in H. change (mget a 1 1) with (t 2%Z) in H.
    eapply Rle_trans; [exact H|]. apply Rmult_le_compat_r; [pose proof (Rabs_pos (B2R (t 1%Z))); pose proof (Rabs_pos (B2R (t 2%Z))); lra|].
    change (- (53))%Z with (-53)%Z. replace (bpow radix2 (-51)) with (4 * bpow radix2 (-53)) by (change 4 with (bpow radix2 2); rewrite <- bpow_plus; reflexivity).
    pose proof u64_small as U. nra.
Qed.
