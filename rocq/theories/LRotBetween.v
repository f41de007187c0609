(** rotation_between, Euler angles and viewing matrices: proofs. *)

From Coq Require Import List Arith Lia Bool Reals Lra Psatz Ring.
From Verif Require Import Base Scalar Spec SpecRot LBase MVector LVector LVectorR MMatrix LMatrix
  LMatrixDet LMatrixR LMatrixM MPoint MReal LReal MAngle MMisc LMisc MRot LRot.
Import ListNotations.
Local Open Scope R_scope.

Lemma unit_try_some n (x : vec R n) t : 0 <= t -> t < vnorm x ->
  unit_try_from_value (normed_vec n) x t = Some (vnormalize x).
Proof.
  intros Ht H. unfold unit_try_from_value, unit_try_from_value_with_norm. cbn [nm_norm_squared nm_normalize normed_vec].
  destruct (Rgt_dec (vnorm_squared x) (t * t)) as [G|G]; [reflexivity|].
  exfalso. apply G. unfold vnorm_squared. rewrite <- vnorm_sq. nra.
Qed.
Lemma unit_try_none n (x : vec R n) t : 0 <= t -> vnorm x <= t ->
  unit_try_from_value (normed_vec n) x t = None.
Proof.
  intros Ht H. unfold unit_try_from_value, unit_try_from_value_with_norm. cbn [nm_norm_squared nm_normalize normed_vec].
  destruct (Rgt_dec (vnorm_squared x) (t * t)) as [G|G]; [|reflexivity].
  exfalso. unfold vnorm_squared in G. rewrite <- vnorm_sq in G. pose proof (vnorm_nonneg _ x). nra.
Qed.
Lemma vnormalize_0_norm n : vnorm (vzero n : vec R n) = 0.
Proof. apply vnorm_zero. reflexivity. Qed.

(** Axis of the rotation: orthogonal to both vectors. *)
Lemma cross_axis_orth (u1 u2 : vec R 3) :
  vdot (vnormalize (vcross u1 u2)) u1 = 0 /\ vdot (vnormalize (vcross u1 u2)) u2 = 0.
Proof.
  unfold vnormalize. generalize (1 / vnorm (vcross u1 u2)). intros i.
  destruct3 u1; destruct3 u2. rcompute. split; ring.
Qed.

Definition between_spec (res : option (mat R 3 3)) (u1 u2 : vec R 3) (eps : R) : Prop :=
  (eps < vnorm (vcross u1 u2) ->
     exists m a t, res = Some m /\ is_rotation m /\ mmulv m u1 = u2 /\
       m = m3from_axis_angle a t /\ vnorm a = 1 /\ vdot a u1 = 0 /\ vdot a u2 = 0 /\
       0 <= t <= PI /\ cos t = vdot u1 u2) /\
  (vnorm (vcross u1 u2) <= eps ->
     (vdot u1 u2 < 0 -> res = None) /\ (0 <= vdot u1 u2 -> res = Some (midentity 3))).

Lemma unit_dot_bound (u1 u2 : vec R 3) : vnorm u1 = 1 -> vnorm u2 = 1 -> -1 <= vdot u1 u2 <= 1.
Proof.
  intros H1 H2. pose proof (cauchy_schwarz 3 u1 u2) as C. rewrite H1, H2 in C.
  unfold Rabs in C. destruct (Rcase_abs (vdot u1 u2)); lra.
Qed.

Lemma m3rotation_between_axis_spec (u1 u2 : vec R 3) eps :
  0 <= eps -> vnorm u1 = 1 -> vnorm u2 = 1 ->
  between_spec (m3rotation_between_axis_eps u1 u2 eps) u1 u2 eps.
Proof.
  intros He H1 H2. unfold between_spec, m3rotation_between_axis_eps. split.
  - intros Hc. rewrite unit_try_some by assumption.
    assert (Hz : vcross u1 u2 <> vzero 3).
    { intros E. rewrite E, vnormalize_0_norm in Hc. lra. }
    destruct (rot_between_core u1 u2 H1 H2 Hz) as [Hr Hm].
    destruct (cross_axis_orth u1 u2) as [O1 O2].
    eexists. exists (vnormalize (vcross u1 u2)), (acos (vdot u1 u2)).
    split; [reflexivity|]. split; [exact Hr|]. split; [exact Hm|]. split; [reflexivity|].
    split; [apply vnormalize_norm; exact Hz|]. split; [exact O1|]. split; [exact O2|].
    split; [apply acos_bound|apply cos_acos, unit_dot_bound; auto].
  - intros Hc. rewrite unit_try_none by assumption.
    destruct (Rlt_dec (vdot u1 u2) 0); split; intros; try reflexivity; lra.
Qed.

Lemma vtry_normalize_nz n (v : vec R n) : v <> vzero n -> vtry_normalize v 0 = Some (vnormalize v).
Proof.
  intros H. unfold vtry_normalize. destruct (Rle_dec (vnorm v) 0) as [L|L]; [|reflexivity].
  pose proof (vnorm_pos _ v H). lra.
Qed.

Lemma m3rotation_between_axis_eq (v1 v2 : vec R 3) eps : v1 <> vzero 3 -> v2 <> vzero 3 ->
  m3rotation_between_eps v1 v2 eps =
  m3rotation_between_axis_eps (vnormalize v1) (vnormalize v2) eps.
Proof.
  intros H1 H2. unfold m3rotation_between_eps. rewrite !vtry_normalize_nz by assumption. reflexivity.
Qed.

Lemma m3rotation_between_spec (v1 v2 : vec R 3) eps :
  0 <= eps -> v1 <> vzero 3 -> v2 <> vzero 3 ->
  between_spec (m3rotation_between_eps v1 v2 eps) (vnormalize v1) (vnormalize v2) eps.
Proof.
  intros He H1 H2. rewrite m3rotation_between_axis_eq by assumption.
  apply m3rotation_between_axis_spec; auto; apply vnormalize_norm; auto.
Qed.

(** With threshold zero the only failure is the antiparallel case. *)
Lemma m3rotation_between_axis_exact (u1 u2 : vec R 3) :
  vnorm u1 = 1 -> vnorm u2 = 1 ->
  (u2 <> vneg u1 ->
     exists m, m3rotation_between_axis_eps u1 u2 0 = Some m /\ is_rotation m /\ mmulv m u1 = u2) /\
  (u2 = vneg u1 -> m3rotation_between_axis_eps u1 u2 0 = None).
Proof.
  intros H1 H2. destruct (m3rotation_between_axis_spec u1 u2 0 (Rle_refl 0) H1 H2) as [A B].
  pose proof (vnorm_nonneg _ (vcross u1 u2)) as P.
  assert (Z : ~ 0 < vnorm (vcross u1 u2) -> vcross u1 u2 = vzero 3).
  { intros. apply vnorm_zero. lra. }
  split.
  - intros Hn. destruct (Rlt_dec 0 (vnorm (vcross u1 u2))) as [G|G].
    + destruct (A G) as (m & a & t & E & Hr & Hm & _). exists m. auto.
    + destruct (cross_zero_unit u1 u2 H1 H2 (Z G)) as [E D].
      destruct (Rlt_dec (vdot u1 u2) 0) as [L|L].
      * exfalso. apply Hn. rewrite E. replace (vdot u1 u2) with (-1) by nra.
        destruct3 u1. rcompute. pairs ltac:(ring).
      * exists (midentity 3). split; [apply B; lra|]. split; [apply is_rotation_identity|].
        rewrite mmulv_1. rewrite E. replace (vdot u1 u2) with 1 by nra.
        rewrite vmul_s_1R. reflexivity.
  - intros E. assert (C : vcross u1 u2 = vzero 3).
    { rewrite E. destruct3 u1. rcompute. pairs ltac:(ring). }
    apply B; [rewrite C, vnormalize_0_norm; lra|]. rewrite E, vdot_neg_r.
    apply unit_norm_iff in H1. rewrite H1. rnum. lra.
Qed.
Lemma m3rotation_between_zero (v1 v2 : vec R 3) eps :
  v1 = vzero 3 \/ v2 = vzero 3 -> m3rotation_between_eps v1 v2 eps = Some (midentity 3).
Proof.
  intros H. unfold m3rotation_between_eps.
  assert (N : forall v : vec R 3, v = vzero 3 -> vtry_normalize v 0 = None).
  { intros v ->. unfold vtry_normalize. rewrite vnormalize_0_norm. destruct (Rle_dec 0 0); [reflexivity|lra]. }
  destruct H as [H|H]; rewrite (N _ H); [reflexivity|].
  destruct (vtry_normalize v1 0); reflexivity.
Qed.

(** ** Matrix2x2::rotation_between_axis *)
Lemma m2rotation_between_axis_eq (u1 u2 : vec R 2) : vnorm u1 = 1 -> vnorm u2 = 1 ->
  m2rotation_between_axis u1 u2 =
  m2new (vdot u1 u2) (sqrt (1 - vdot u1 u2 * vdot u1 u2))
        (- sqrt (1 - vdot u1 u2 * vdot u1 u2)) (vdot u1 u2).
Proof.
  intros H1 H2. unfold m2rotation_between_axis. cbv zeta.
  pose proof (cauchy_schwarz 2 u1 u2) as C. rewrite H1, H2 in C.
  assert (B : -1 <= vdot u1 u2 <= 1) by (unfold Rabs in C; destruct (Rcase_abs (vdot u1 u2)); lra).
  set (d := vdot u1 u2) in *. assert (P : 0 <= 1 - d * d) by nra.
  destruct (ratan2_spec d (sqrt (1 - d * d))) as [E1 E2].
  rewrite sqrt_sq_pos in E1, E2 by exact P.
  replace (d * d + (1 - d * d)) with 1 in E1, E2 by ring. rewrite sqrt_1 in E1, E2.
  unfold m2from_angle. cbv zeta.
  replace (cos (ratan2 (sqrt (1 - d * d)) d)) with d by lra.
  replace (sin (ratan2 (sqrt (1 - d * d)) d)) with (sqrt (1 - d * d)) by lra. reflexivity.
Qed.
(** Signed area of the parallelogram of u1, u2. *)
Definition cross2 (u1 u2 : vec R 2) : R := vat u1 0 * vat u2 1 - vat u1 1 * vat u2 0.

Lemma unit2 (a : vec R 2) : vnorm a = 1 -> vat a 0 * vat a 0 + vat a 1 * vat a 1 = 1.
Proof. rewrite unit_norm_iff. destruct2 a. mcompute. rnum. lra. Qed.
Lemma cross2_sq (u1 u2 : vec R 2) : vnorm u1 = 1 -> vnorm u2 = 1 ->
  1 - vdot u1 u2 * vdot u1 u2 = cross2 u1 u2 * cross2 u1 u2.
Proof.
  intros H1 H2. apply unit2 in H1. apply unit2 in H2. revert H1 H2. unfold cross2.
  destruct2 u1; destruct2 u2. rcompute. intros H1 H2.
  assert (E1 : x * x = 1 - y * y) by lra. assert (E2 : x0 * x0 = 1 - y0 * y0) by lra.
  ring [E1 E2].
Qed.
Lemma m2rotation_between_axis_iff (u1 u2 : vec R 2) : vnorm u1 = 1 -> vnorm u2 = 1 ->
  is_rotation (m2rotation_between_axis u1 u2) /\
  (mmulv (m2rotation_between_axis u1 u2) u1 = u2 <-> 0 <= cross2 u1 u2).
Proof.
  intros H1 H2. split; [apply m2from_angle_rot|].
  rewrite m2rotation_between_axis_eq by assumption. rewrite (cross2_sq u1 u2 H1 H2).
  pose proof (cross2_sq u1 u2 H1 H2) as Q.
  apply unit2 in H1. apply unit2 in H2. revert H1 H2 Q. unfold cross2.
  destruct2 u1; destruct2 u2. rcompute. intros H1 H2 Q.
  set (k := x * y0 - y * x0) in *. set (d := 0 + x * x0 + y * y0) in *.
  assert (E1 : x * x = 1 - y * y) by lra.
  assert (M : v2 (d * x - k * y) (k * x + d * y) = v2 x0 y0).
  { unfold d, k, v2. pairs ltac:(ring [E1]). }
  unfold v2 in M. injection M as M1 M2.
  split.
  - intros E. injection E as A1 A2. pose proof (sqrt_pos (k * k)) as Sp.
    assert (S2 : sqrt (k * k) * sqrt (k * k) = k * k) by (apply sqrt_sqrt; nra).
    assert (F : (sqrt (k * k) - k) * y = 0 /\ (sqrt (k * k) - k) * x = 0) by (split; lra).
    assert (G : sqrt (k * k) = k).
    { destruct F as [F1 F2].
      assert (sqrt (k * k) - k = (sqrt (k * k) - k) * (x * x + y * y)) by (replace (x * x + y * y) with 1 by lra; ring).
      nra. }
    lra.
  - intros Hk. rewrite sqrt_square by exact Hk. pairs ltac:(lra).
Qed.
Lemma m2rotation_between_nz (v1 v2 : vec R 2) : v1 <> vzero 2 -> v2 <> vzero 2 ->
  m2rotation_between v1 v2 = m2rotation_between_axis (vnormalize v1) (vnormalize v2).
Proof.
  intros H1 H2. unfold m2rotation_between.
  rewrite !unit_try_some by (try lra; apply vnorm_pos; auto). reflexivity.
Qed.
