(** Proofs of the composite statements of PRot.v. *)

From Coq Require Import List Arith Lia ZArith Reals Lra.
From Verif Require Import Base Scalar Spec SpecRot LBase MVector LVector LVectorR MMatrix LMatrix LMatrixDet
  LMatrixR LMatrixM MPoint MReal LReal MAngle MMisc MRot LRot LRotBetween LLook.
Import ListNotations.
Local Open Scope R_scope.

Lemma c51_matrix_axis (u1 u2 : vec R 3) (eps : R) : 0 <= eps -> vnorm u1 = 1 -> vnorm u2 = 1 ->
    (eps < vnorm (vcross u1 u2) ->
       exists m a t, m3rotation_between_axis_eps u1 u2 eps = Some m /\ is_rotation m /\
         mmulv m u1 = u2 /\ (forall v, mmulv m v = rodrigues a t v) /\ vnorm a = 1 /\
         vdot a u1 = 0 /\ vdot a u2 = 0 /\ 0 <= t <= PI /\ cos t = vdot u1 u2) /\
    (vnorm (vcross u1 u2) <= eps ->
       (vdot u1 u2 < 0 -> m3rotation_between_axis_eps u1 u2 eps = None) /\
       (0 <= vdot u1 u2 -> m3rotation_between_axis_eps u1 u2 eps = Some (midentity 3))).
Proof.
  intros He H1 H2. destruct (m3rotation_between_axis_spec u1 u2 eps He H1 H2) as [A B].
  split; [|exact B]. intros H. destruct (A H) as (m & a & t & E & R1 & R2 & R3 & R4 & R5 & R6 & R7 & R8).
  exists m, a, t. refine (conj E (conj R1 (conj R2 (conj _ (conj R4 (conj R5 (conj R6 (conj R7 R8)))))))).
  intros v. rewrite R3. apply m3from_axis_angle_rodrigues.
Qed.
Lemma vdot_normalize_0 n (a v : vec R n) : v <> vzero n -> vdot a (vnormalize v) = 0 -> vdot a v = 0.
Proof.
  intros N H. rewrite <- (vnormalize_back n v N), vdot_mul_r, H. apply Rmult_0_l.
Qed.
Lemma c51_matrix_vectors (v1 v2 : vec R 3) (eps : R) : 0 <= eps -> v1 <> vzero 3 -> v2 <> vzero 3 ->
    let u1 := vnormalize v1 in let u2 := vnormalize v2 in
    (eps < vnorm (vcross u1 u2) ->
       exists m a t, m3rotation_between_eps v1 v2 eps = Some m /\ is_rotation m /\
         mmulv m u1 = u2 /\ (forall v, mmulv m v = rodrigues a t v) /\ vnorm a = 1 /\
         vdot a v1 = 0 /\ vdot a v2 = 0 /\ 0 <= t <= PI /\ cos t = vdot u1 u2) /\
    (vnorm (vcross u1 u2) <= eps ->
       (vdot u1 u2 < 0 -> m3rotation_between_eps v1 v2 eps = None) /\
       (0 <= vdot u1 u2 -> m3rotation_between_eps v1 v2 eps = Some (midentity 3))).
Proof.
  intros He N1 N2 u1 u2. rewrite (m3rotation_between_axis_eq v1 v2 eps N1 N2). fold u1 u2.
  destruct (c51_matrix_axis u1 u2 eps He (vnormalize_norm 3 v1 N1) (vnormalize_norm 3 v2 N2)) as [A B].
  split; [|exact B]. intros H. destruct (A H) as (m & a & t & E & R1 & R2 & R3 & R4 & R5 & R6 & R7).
  exists m, a, t. exact (conj E (conj R1 (conj R2 (conj R3 (conj R4
    (conj (vdot_normalize_0 3 a v1 N1 R5) (conj (vdot_normalize_0 3 a v2 N2 R6) R7))))))).
Qed.
Lemma norm_of n (v : vec R n) r : 0 <= r -> vdot v v = r * r -> vnorm v = r.
Proof. intros Hr H. rewrite <- vnorm_sq in H. pose proof (vnorm_nonneg n v). nra. Qed.
Lemma c51_example :
  vnorm (v3 1 0 0) = 1 /\ vnorm (v3 0 (3/5) (4/5)) = 1 /\
  1/10 < vnorm (vcross (v3 1 0 0) (v3 0 (3/5) (4/5))).
Proof.
  split; [|split].
  - apply norm_of; [lra|]. vcompute. rnum. field.
  - apply norm_of; [lra|]. vcompute. rnum. field.
  - rewrite (norm_of 3 _ 1); [lra|lra|]. vcompute. rnum. field.
Qed.
Lemma c52_refuted : exists u1 u2 : vec R 2, vnorm u1 = 1 /\ vnorm u2 = 1 /\
    mmulv (m2rotation_between_axis u1 u2) u1 <> u2.
Proof.
  exists (v2 0 1), (v2 1 0).
  assert (A : vnorm (v2 0 1) = 1) by (apply norm_of; [lra|]; vcompute; rnum; ring).
  assert (B : vnorm (v2 1 0) = 1) by (apply norm_of; [lra|]; vcompute; rnum; ring).
  split; [exact A|]. split; [exact B|]. intros E.
  apply (proj1 (proj2 (m2rotation_between_axis_iff _ _ A B))) in E. unfold cross2 in E. cbn in E. lra.
Qed.
Lemma c52_example : vnorm (v2 1 0) = 1 /\ vnorm (v2 0 1) = 1 /\
  0 <= vat (v2 1 0) 0 * vat (v2 0 1) 1 - vat (v2 1 0) 1 * vat (v2 0 1) 0.
Proof.
  split; [|split].
  - apply norm_of; [lra|]. vcompute. rnum. ring.
  - apply norm_of; [lra|]. vcompute. rnum. ring.
  - cbn. lra.
Qed.
Lemma c57_complete (m : mat R 2 2) : is_rotation m -> exists t, - PI < t <= PI /\ m = m2from_angle t.
Proof.
  intros H. exists (ratan2 (mget m 0 1) (mget m 0 0)). split; [apply ratan2_range|apply rotation2_angle, H].
Qed.
Lemma c57_example : mmulv (m2from_angle (PI / 2)) (v2 1 0) = v2 0 1.
Proof. rewrite m2from_angle_act, cos_PI2, sin_PI2. vcompute. pairs ltac:(ring). Qed.
Lemma c58_isometry (m : mat R 3 3) (u v : vec R 3) : is_rotation m ->
    vdot (mmulv m u) (mmulv m v) = vdot u v /\ vnorm (mmulv m u) = vnorm u /\
    is_rotation (mtranspose m) /\ mmul (mtranspose m) m = midentity 3 /\
    mmul m (mtranspose m) = midentity 3.
Proof.
  intros H. pose proof (proj1 (proj1 (is_rotation3 m) H)) as O.
  exact (conj (rotation_dot 3 m u v O) (conj (rotation_norm 3 m u O)
    (conj (is_rotation_transpose m H) (conj O (left_inv_right _ _ O))))).
Qed.
Lemma c58_example : vnorm (v3 (2/3) (2/3) (1/3)) = 1.
Proof. apply norm_of; [lra|]. vcompute. rnum. field. Qed.
Lemma c59_example : euler_to_matrix (mkEuler (PI / 2) 0 (PI / 2)) = m3new 0 0 1  (-1) 0 0  0 (-1) 0.
Proof.
  unfold euler_to_matrix. cbn [eu_x eu_y eu_z]. rewrite cos_PI2, sin_PI2, cos_0, sin_0.
  unfold m3new. vcompute. pairs ltac:(ring).
Qed.
Lemma c60_range (m : mat R 3 3) :
    - (PI / 2) <= eu_y (euler_from_matrix m) <= PI / 2 /\
    - PI < eu_x (euler_from_matrix m) <= PI /\ - PI < eu_z (euler_from_matrix m) <= PI.
Proof.
  pose proof PI_RGT_0 as P0. unfold euler_from_matrix. cbv zeta.
  destruct (Req_EM_T _ 0); cbn [eu_x eu_y eu_z].
  - refine (conj (asin_bound _) (conj (ratan2_range _ _) _)). lra.
  - exact (conj (asin_bound _) (conj (ratan2_range _ _) (ratan2_range _ _))).
Qed.
Lemma c60_example : is_rotation (m3new 0 0 (-1)  0 1 0  1 0 0) /\
  - (PI / 2) < eu_y (mkEuler 3 1 (-2)) < PI / 2 /\ - PI < eu_x (mkEuler 3 1 (-2)) <= PI /\
  - PI < eu_z (mkEuler 3 1 (-2)) <= PI.
Proof.
  assert (P3 : 3 < PI) by (pose proof PI2_3_2; lra).
  cbn [eu_x eu_y eu_z]. refine (conj _ (conj (conj _ _) (conj (conj _ _) (conj _ _)))); try lra.
  apply is_rotation3. split.
  - mcompute. rnum. pairs ltac:(ring).
  - mcompute. rnum. ring.
Qed.
Lemma c61_look_at (eye target : point R 3) (up : vec R 3) : vcross up (pdiff target eye) <> vzero 3 ->
    let d := vnormalize (pdiff target eye) in
    mmulv (m3look_at_lh eye target up) d = v3 0 0 1 /\
    mmulv (m3look_at_rh eye target up) d = v3 0 0 (-1) /\
    mmulv (m3look_at_lh_inv eye target up) (v3 0 0 1) = d /\
    mmulv (m3look_at_rh_inv eye target up) (v3 0 0 (-1)) = d.
Proof.
  intros H d. destruct (m3look_to_lh_spec _ up H) as (_ & A & _ & _ & B & _).
  destruct (m3look_to_rh_spec _ up H) as (_ & A' & _ & _ & B' & _). fold d in A, A'.
  assert (C : mmulv (m3look_to_lh_inv (pdiff target eye) up) (v3 0 0 1) = d)
    by (rewrite <- A, <- mmulv_mmulv, B; apply mmulv_1).
  assert (C' : mmulv (m3look_to_rh_inv (pdiff target eye) up) (v3 0 0 (-1)) = d)
    by (rewrite <- A', <- mmulv_mmulv, B'; apply mmulv_1).
  exact (conj A (conj A' (conj C C'))).
Qed.
