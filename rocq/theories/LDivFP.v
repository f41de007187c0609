(** Scaling by a scalar and dividing by it in floats (C165). *)

From Coq Require Import List Arith ZArith Bool Lia Reals Lra Psatz Floats.SpecFloat.
From Flocq Require Import Core.Core IEEE754.BinarySingleNaN.
From Verif Require Import Base Scalar Spec SpecF SpecLibm MReal MVector MMatrix MPoint MComplex MQuat MFloat
  LBase LVector LMatrix LFloat LFloatVec LFloatP LTrScF LComplexFP LSame.
Local Open Scope R_scope.

Section G.
Context {prec emax : Z} {Hp : Prec_gt_0 prec} {He : Prec_lt_emax prec emax}.
Notation fl := (binary_float prec emax).
Lemma fdiv_neg_r (x y : fl) : ndiv x (nneg y) = nneg (ndiv x y).
Proof.
  apply B2SF_inj. rewrite B2SF_neg. cbn [ndiv nneg num_float numdiv_float].
  destruct x as [sx|sx| |sx mx ex Hx], y as [sy|sy| |sy my ey Hy]; try reflexivity; try (destruct sx, sy; reflexivity).
  cbn [Bopp Bdiv]. rewrite !B2SF_SF2B. destruct (SFdiv_core_binary _ _ _ _ _ _) as ((m & e) & l).
  rewrite <- round_aux_neg. f_equal. destruct sx, sy; reflexivity.
Qed.
Lemma back (s x : fl) : is_finite s = true -> B2R s <> 0 -> is_finite x = true -> Rabs (B2R x) <= bpow radix2 (emax - 2) -> B2R x * B2R s = 0 \/ bpow radix2 (2 - emax) <= Rabs (B2R x * B2R s) <= bpow radix2 (emax - 1) ->
  fnear (ndiv (nmul x s) s) (B2R x) (2 * bpow radix2 (- prec) * Rabs (B2R x)) /\ (B2R (nmul x s) = B2R x * B2R s -> B2R (ndiv (nmul x s) s) = B2R x).
Proof.
  intros Fs S0 Fx Bx H. rewrite (fmul_comm x s), (Rmult_comm (B2R x)) in *. destruct (scale_back s x Fs Fx S0 Bx) as (_ & _ & F & N & E).
  - destruct H as [->|H]; [rewrite Rabs_R0; apply bpow_ge_0|apply H].
  - destruct H as [H|H]; [left; exact H|right; apply H].
  - split; [split; assumption|exact E].
Qed.
End G.

Theorem c165_back :
  forall (prec emax : Z) (Hp : Prec_gt_0 prec) (He : Prec_lt_emax prec emax) (s : binary_float prec emax),
  let ok x := is_finite x = true /\ Rabs (B2R x) <= bpow radix2 (emax - 2) /\ (B2R x * B2R s = 0 \/ bpow radix2 (2 - emax) <= Rabs (B2R x * B2R s) <= bpow radix2 (emax - 1)) in
  let back x y := fnear y (B2R x) (2 * bpow radix2 (- prec) * Rabs (B2R x)) /\ (B2R (nmul x s) = B2R x * B2R s -> B2R y = B2R x) in
  is_finite s = true -> B2R s <> 0 ->
  (forall n (v : vec (binary_float prec emax) n) i, (i < n)%nat -> ok (vat v i) -> back (vat v i) (vat (vdiv_s (vmul_s v s) s) i)) /\
  (forall r c (m : mat (binary_float prec emax) r c) j i, (j < c)%nat -> (i < r)%nat -> ok (mget m j i) -> back (mget m j i) (mget (mdiv_s (mmul_s m s) s) j i)) /\
  (forall (q : quat (binary_float prec emax)) i, (i < 4)%nat -> ok (vat q i) -> back (vat q i) (vat (qdiv_s (qscale q s) s) i)) /\
  (forall z : complex (binary_float prec emax), (ok (re z) -> back (re z) (re (cdiv_s (cmul_s z s) s))) /\ (ok (im z) -> back (im z) (im (cdiv_s (cmul_s z s) s)))).
Proof.
  intros prec emax Hp He s ok bk Fs S0.
  assert (G : forall x, ok x -> bk x (ndiv (nmul x s) s)) by (intros x (Fx & Bx & Rx); exact (back s x Fs S0 Fx Bx Rx)).
  split; [|split; [|split]].
  - intros n v i Hi O. rewrite vat_vdiv_s, vat_vmul_s by exact Hi. apply G, O.
  - intros r c m j i Hj Hi O. rewrite mget_mdiv_s, mget_mmul_s by assumption. apply G, O.
  - intros q i Hi O. destruct q as (a & (b & (c & (d & [])))). destruct i as [|[|[|[|i]]]]; try lia; exact (G _ O).
  - intros z. split; apply G.
Qed.

Theorem c165_signs :
  forall (prec emax : Z) (Hp : Prec_gt_0 prec) (He : Prec_lt_emax prec emax) (s : binary_float prec emax),
  (forall n (v : vec (binary_float prec emax) n), vdiv_s (vneg v) s = vneg (vdiv_s v s) /\ vdiv_s v (nneg s) = vneg (vdiv_s v s) /\ vdiv_s v n1 = v /\ vdiv_assign v s = vdiv_s v s) /\
  (forall r c (m : mat (binary_float prec emax) r c), mdiv_s (mneg m) s = mneg (mdiv_s m s) /\ mdiv_s m (nneg s) = mneg (mdiv_s m s) /\ mdiv_s m n1 = m /\ mdiv_assign m s = mdiv_s m s) /\
  (forall q : quat (binary_float prec emax), qdiv_s (qneg q) s = qneg (qdiv_s q s) /\ qdiv_s q (nneg s) = qneg (qdiv_s q s) /\ qdiv_s q n1 = q /\ qdiv_assign q s = qdiv_s q s) /\
  (forall z : complex (binary_float prec emax), cdiv_s (cneg z) s = cneg (cdiv_s z s) /\ cdiv_s z (nneg s) = cneg (cdiv_s z s) /\ cdiv_s z n1 = z /\ cdiv_assign_s z s = cdiv_s z s).
Proof.
  intros prec emax Hp He s. split; [|split; [|split]].
  - intros n v. split; [|split; [|split]].
    + apply (vec_ext n0). intros i Hi. change (vat (vdiv_s (vneg v) s) i = vat (vneg (vdiv_s v s)) i). rewrite vat_vdiv_s, !vat_vneg, vat_vdiv_s by exact Hi. apply fdiv_neg_l.
    + apply (vec_ext n0). intros i Hi. change (vat (vdiv_s v (nneg s)) i = vat (vneg (vdiv_s v s)) i). rewrite vat_vneg, !vat_vdiv_s by exact Hi. apply fdiv_neg_r.
    + apply (vec_ext n0). intros i Hi. change (vat (vdiv_s v n1) i = vat v i). rewrite vat_vdiv_s by exact Hi. apply fdiv_1_r.
    + apply vdiv_assign_eq.
  - intros r c m. split; [|split; [|split]].
    + apply mat_ext. intros j i Hj Hi. rewrite mget_mdiv_s, !mget_mneg, mget_mdiv_s by assumption. apply fdiv_neg_l.
    + apply mat_ext. intros j i Hj Hi. rewrite mget_mneg, !mget_mdiv_s by assumption. apply fdiv_neg_r.
    + apply mat_ext. intros j i Hj Hi. rewrite mget_mdiv_s by assumption. apply fdiv_1_r.
    + apply mdiv_assign_eq.
  - intros (a & (b & (c & (d & [])))). split; [|split; [|split]].
    + change (v4 (ndiv (nneg a) s) (ndiv (nneg b) s) (ndiv (nneg c) s) (ndiv (nneg d) s) = v4 (nneg (ndiv a s)) (nneg (ndiv b s)) (nneg (ndiv c s)) (nneg (ndiv d s))). rewrite !fdiv_neg_l. reflexivity.
    + change (v4 (ndiv a (nneg s)) (ndiv b (nneg s)) (ndiv c (nneg s)) (ndiv d (nneg s)) = v4 (nneg (ndiv a s)) (nneg (ndiv b s)) (nneg (ndiv c s)) (nneg (ndiv d s))). rewrite !fdiv_neg_r. reflexivity.
    + change (v4 (ndiv a n1) (ndiv b n1) (ndiv c n1) (ndiv d n1) = v4 a b c d). rewrite !fdiv_1_r. reflexivity.
    + reflexivity.
  - intros (a & b). unfold cdiv_s, cneg. cbn [re im]. rewrite !fdiv_neg_l, !fdiv_neg_r, !fdiv_1_r. repeat split; reflexivity.
Qed.

Theorem c165_inverse1 :
  forall (prec emax : Z) (Hp : Prec_gt_0 prec) (He : Prec_lt_emax prec emax) (m : mat (binary_float prec emax) 1 1),
  let x := mget m 0 0 in
  (m1try_inverse m = None <-> is_finite x = true /\ B2R x = 0) /\
  (bpow radix2 (2 - emax) <= Rabs (B2R x) <= bpow radix2 (emax - 2) -> exists w, m1try_inverse m = Some w /\ fnear (mget w 0 0) (/ B2R x) (bpow radix2 (- prec) * Rabs (/ B2R x))).
Proof.
  intros prec emax Hp He m x. unfold m1try_inverse. cbv zeta. change (m1det m) with x. split.
  - destruct (nis0 x) eqn:E.
    + split; [intros _|reflexivity]. apply is0_iff in E. destruct E as (s & ->). split; reflexivity.
    + split; [discriminate|]. intros (F & Z). exfalso. destruct x as [s|s| |s mx ex b]; try discriminate F; [discriminate E|]. apply eq_0_F2R in Z. destruct s; discriminate Z.
  - intros (X1 & X2). pose proof (bpow_gt_0 radix2 (2 - emax)) as B0. assert (X0 : B2R x <> 0) by (intros X; rewrite X, Rabs_R0 in X1; lra).
    assert (E : nis0 x = false). { destruct (nis0 x) eqn:E; [|reflexivity]. exfalso. apply is0_iff in E. destruct E as (s & E). apply X0. rewrite E. reflexivity. }
    rewrite E. eexists. split; [reflexivity|]. change (fnear (ndiv n1 x) (/ B2R x) (bpow radix2 (- prec) * Rabs (/ B2R x))).
    assert (B1 : B2R (n1 : binary_float prec emax) = 1) by apply Bone_correct.
    assert (A0 := Rabs_pos_lt _ X0). assert (I : Rabs (/ B2R x) <= bpow radix2 (emax - 1)).
    { rewrite Rabs_inv. eapply Rle_trans; [apply Rinv_le_contravar; [exact B0|exact X1]|]. rewrite <- bpow_opp. apply bpow_le. lia. }
    assert (N : bpow radix2 (2 - emax) <= Rabs (/ B2R x)).
    { rewrite Rabs_inv. eapply Rle_trans; [|apply Rinv_le_contravar; [exact A0|exact X2]]. rewrite <- bpow_opp. apply bpow_le. lia. }
    destruct (div_val n1 x one_fin X0) as (F & V); [rewrite B1; unfold Rdiv; rewrite Rmult_1_l; exact I|]. rewrite B1 in V. unfold Rdiv in V. rewrite Rmult_1_l in V. split; [exact F|]. rewrite V. apply rnd_normal. exact N.
Qed.

Theorem c165_example :
  let z := f64_of_Z in let v : vec f64 2 := v2 (z 1%Z) (z 5%Z) in let s := ndiv (z 1%Z) (z 49%Z) in
  is_finite s = true /\ vat (vmul_s (vdiv_s v (z 49%Z)) (z 49%Z)) 0 <> z 1%Z /\ vat (vdiv_s (vmul_s v (z 49%Z)) (z 49%Z)) 0 = z 1%Z /\
  m1try_inverse (m1new (z 49%Z)) = Some (m1new s) /\ m1try_inverse (m1new (nneg (z 0%Z))) = None.
Proof.
  intros z v s. split; [vm_compute; reflexivity|]. split; [intros E; apply (f_equal B2SF) in E; vm_compute in E; discriminate E|]. split; [apply B2SF_inj; vm_compute; reflexivity|].
  split; [|reflexivity]. unfold m1try_inverse. cbv zeta. change (m1det (m1new (z 49%Z))) with (z 49%Z). assert (E : nis0 (z 49%Z) = false) by (vm_compute; reflexivity). rewrite E. f_equal.
Qed.
