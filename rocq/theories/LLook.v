(** Euler angles and viewing matrices: proofs. *)

From Coq Require Import List Arith Lia Bool Reals Lra Psatz Ring.
From Verif Require Import Base Scalar Spec SpecRot LBase MVector LVector LVectorR MMatrix LMatrix
  LMatrixDet LMatrixR LMatrixM MPoint MReal LReal MAngle MMisc LMisc MRot LRot LRotBetween.
Import ListNotations.
Local Open Scope R_scope.

(** ** Euler angles *)
Lemma euler_product e :
  euler_to_matrix e =
  mmul (mmul (m3from_angle_x (eu_x e)) (m3from_angle_y (eu_y e))) (m3from_angle_z (eu_z e)).
Proof. destruct e. rcompute. pairs ltac:(ring). Qed.
Lemma v3_unit_norms : vnorm (v3_unit_x : vec R 3) = 1 /\ vnorm (v3_unit_y : vec R 3) = 1 /\
  vnorm (v3_unit_z : vec R 3) = 1.
Proof. rewrite !unit_norm_iff. rcompute. conjs; ring. Qed.
Lemma m3from_angle_rot t :
  is_rotation (m3from_angle_x t) /\ is_rotation (m3from_angle_y t) /\ is_rotation (m3from_angle_z t).
Proof.
  rewrite m3from_angle_x_axis, m3from_angle_y_axis, m3from_angle_z_axis.
  destruct v3_unit_norms as (A & B & C). conjs; apply m3from_axis_angle_rot; assumption.
Qed.
Lemma euler_rot e : is_rotation (euler_to_matrix e).
Proof.
  rewrite euler_product. apply is_rotation_mul; [apply is_rotation_mul|].
  - exact (proj1 (m3from_angle_rot (eu_x e))).
  - exact (proj1 (proj2 (m3from_angle_rot (eu_y e)))).
  - exact (proj2 (proj2 (m3from_angle_rot (eu_z e)))).
Qed.
Lemma euler_affine e : euler_to_affine_matrix e = membed (euler_to_matrix e).
Proof. reflexivity. Qed.

Lemma sin_asin_bound g : -1 <= g <= 1 -> sin (asin g) = g /\ cos (asin g) = sqrt (1 - g * g).
Proof. intros H. split; [apply sin_asin; exact H|]. rewrite cos_asin by exact H. reflexivity. Qed.

Lemma sq_zero x : x * x = 0 -> x = 0.
Proof. intros H. nra. Qed.

Lemma euler_from_matrix_inv (m : mat R 3 3) :
  is_rotation m -> euler_to_matrix (euler_from_matrix m) = m.
Proof.
  mdestruct3 m. intros H. apply (rotation_eqs m00 m01 m02 m10 m11 m12 m20 m21 m22) in H.
  destruct H as ((C1 & C2 & C3 & C4 & C5 & C6) & (R1 & R2 & R3 & R4 & R5 & R6) &
                 (K1 & K2 & K3 & K4 & K5 & K6 & K7 & K8 & K9)).
  unfold euler_from_matrix. cbv [mget mget_d vget fst snd].
  assert (B : -1 <= m20 <= 1) by nra.
  destruct (sin_asin_bound m20 B) as [Sy Cy].
  assert (P : 0 <= 1 - m20 * m20) by nra.
  pose proof (sqrt_pos (1 - m20 * m20)) as Q. pose proof (sqrt_sq_pos _ P) as QQ.
  destruct (Req_EM_T (Rabs (cos (asin m20))) 0) as [Z|Z].
  - (* gimbal lock *)
    assert (Z' : sqrt (1 - m20 * m20) = 0).
    { rewrite <- Cy. destruct (Req_dec (cos (asin m20)) 0) as [E|E]; [exact E|].
      apply Rabs_no_R0 in E. contradiction. }
    rewrite Z' in QQ. assert (G : m20 * m20 = 1) by lra.
    assert (A : m00 * m00 + m10 * m10 = 0) by lra. destruct (sumsq_zero _ _ A) as [A1 A2].
    assert (A' : m21 * m21 + m22 * m22 = 0) by lra. destruct (sumsq_zero _ _ A') as [A3 A4].
    destruct (ratan2_spec m11 m12) as [E1 E2].
    replace (m11 * m11 + m12 * m12) with 1 in E1, E2 by (rewrite <- C2; rewrite A2; ring).
    rewrite sqrt_1 in E1, E2.
    cbv [euler_to_matrix eu_x eu_y eu_z]. rewrite Sy, Cy, Z', sin_0, cos_0.
    replace (cos (ratan2 m12 m11)) with m11 by lra. replace (sin (ratan2 m12 m11)) with m12 by lra.
    subst m00 m10 m21 m22. rcompute. pairs ltac:(lra).
  - assert (Z' : sqrt (1 - m20 * m20) <> 0).
    { intros E. apply Z. rewrite Cy, E. apply Rabs_R0. }
    set (c := sqrt (1 - m20 * m20)) in *.
    destruct (ratan2_spec m00 (- m10)) as [P1 P2].
    replace (m00 * m00 + - m10 * - m10) with (1 - m20 * m20) in P1, P2 by lra.
    fold c in P1, P2.
    destruct (ratan2_spec m22 (- m21)) as [S1 S2].
    replace (m22 * m22 + - m21 * - m21) with (1 - m20 * m20) in S1, S2 by lra.
    fold c in S1, S2.
    cbv [euler_to_matrix eu_x eu_y eu_z]. rewrite Sy, Cy. fold c.
    revert P1 P2 S1 S2.
    generalize (cos (ratan2 (- m10) m00)) (sin (ratan2 (- m10) m00))
               (cos (ratan2 (- m21) m22)) (sin (ratan2 (- m21) m22)).
    intros cp sp cr sr P1 P2 S1 S2.
    assert (CC : c * c = 1 - m20 * m20) by exact QQ.
    assert (canc : forall x y, c * c * x = c * c * y -> x = y).
    { intros x y E. apply (Rmult_eq_reg_l (c * c)); [exact E|]. nra. }
    rcompute. pairs ltac:(idtac).
    + lra.
    + apply canc. transitivity ((c * cr) * (c * sp) + (c * cp) * m20 * (c * sr)); [ring|].
      rewrite P1, P2, S1, S2, CC.
      assert (T : m20 * m12 = m20 * (m20 * m01 - m21 * m00)) by (f_equal; exact K6). lra.
    + apply canc. transitivity ((c * sp) * (c * sr) - (c * cp) * (c * cr) * m20); [ring|].
      rewrite P1, P2, S1, S2, CC.
      assert (T : m20 * m11 = m20 * (m22 * m00 - m20 * m02)) by (f_equal; exact K5). lra.
    + lra.
    + apply canc. transitivity ((c * cp) * (c * cr) - m20 * (c * sp) * (c * sr)); [ring|].
      rewrite P1, P2, S1, S2, CC.
      assert (T : m20 * m02 = m20 * (m10 * m21 - m11 * m20)) by (f_equal; exact K3). lra.
    + apply canc. transitivity ((c * cp) * (c * sr) + (c * cr) * m20 * (c * sp)); [ring|].
      rewrite P1, P2, S1, S2, CC.
      assert (T : m20 * m01 = m20 * (m12 * m20 - m10 * m22)) by (f_equal; exact K2). lra.
    + lra.
    + lra.
Qed.

Lemma euler_roundtrip e :
  - (PI / 2) < eu_y e < PI / 2 -> - PI < eu_x e <= PI -> - PI < eu_z e <= PI ->
  euler_from_matrix (euler_to_matrix e) = e.
Proof.
  destruct e as [x y z]. cbn [eu_x eu_y eu_z]. intros Hy Hx Hz.
  unfold euler_from_matrix. cbv [euler_to_matrix eu_x eu_y eu_z m3new mget mget_d vget v3 fst snd].
  rewrite asin_sin by lra.
  assert (C : 0 < cos y) by (apply cos_gt_0; lra).
  destruct (Req_EM_T (Rabs (cos y)) 0) as [Z|Z].
  { exfalso. rewrite Rabs_right in Z; lra. }
  replace (- (- cos y * sin z)) with (cos y * sin z) by ring.
  replace (- (- cos y * sin x)) with (cos y * sin x) by ring.
  rewrite !ratan2_polar by lra. reflexivity.
Qed.

(** ** Viewing *)
Definition look_ok (z up : vec R 3) : Prop := vnorm z = 1 /\ vcross up z <> vzero 3.

Lemma look_frame (z up : vec R 3) : look_ok z up ->
  vnorm (look_x z up) = 1 /\ vdot (look_x z up) z = 0 /\ vdot (look_x z up) up = 0 /\
  look_y z up = vcross z (look_x z up) /\
  vdot (look_y z up) up = vnorm (vcross up z) /\ 0 < vnorm (vcross up z).
Proof.
  intros [Hz Hc]. set (n := vnorm (vcross up z)). assert (Pn : 0 < n) by (apply vnorm_pos; exact Hc).
  assert (Ux : vnorm (look_x z up) = 1) by (apply vnormalize_norm; exact Hc).
  assert (Oz : vdot (look_x z up) z = 0 /\ vdot (look_x z up) up = 0).
  { unfold look_x, vnormalize. generalize (1 / vnorm (vcross up z)). intros i.
    destruct3 z; destruct3 up. rcompute. split; ring. }
  destruct Oz as [Oz Ou].
  assert (Uy : vnorm (vcross z (look_x z up)) = 1).
  { apply unit_norm_iff. rewrite vcross_lagrange. rewrite vdot_comm in Oz. rewrite Oz.
    apply unit_norm_iff in Hz. apply unit_norm_iff in Ux. rewrite Hz, Ux. rnum. ring. }
  assert (Ey : look_y z up = vcross z (look_x z up)).
  { unfold look_y. apply vnormalize_unit. exact Uy. }
  split; [exact Ux|]. split; [exact Oz|]. split; [exact Ou|]. split; [exact Ey|]. split; [|exact Pn].
  rewrite Ey.
  transitivity (vdot (look_x z up) (vcross up z)).
  { generalize (look_x z up). intros x. destruct3 x; destruct3 z; destruct3 up. rcompute. ring. }
  unfold look_x, vnormalize. rewrite vdot_mul_l, <- vnorm_sq. fold n. rnum. field. lra.
Qed.

Lemma m3look_rows_act (x y z v : vec R 3) :
  mmulv (m3look_rows x y z) v = v3 (vdot x v) (vdot y v) (vdot z v).
Proof. destruct3 x; destruct3 y; destruct3 z; destruct3 v. rcompute. pairs ltac:(ring). Qed.

Lemma frame_rows_rot (x y z : vec R 3) :
  vdot x x = 1 -> vdot z z = 1 -> vdot x z = 0 -> y = vcross z x ->
  is_rotation (m3look_rows x y z).
Proof.
  intros Hx Hz Oxz Ey.
  assert (Hy : vdot y y = 1).
  { rewrite Ey, vcross_lagrange, (vdot_comm _ z x), Oxz, Hx, Hz. rnum. ring. }
  assert (Oyx : vdot y x = 0 /\ vdot y z = 0).
  { rewrite Ey. clear. destruct3 x; destruct3 z. rcompute. split; ring. }
  destruct Oyx as [Oyx Oyz].
  assert (D : m3det (m3look_rows x y z) = vdot y (vcross z x)).
  { clear. destruct3 x; destruct3 y; destruct3 z. rcompute. ring. }
  rewrite is_rotation3. split; [|rewrite D, <- Ey; exact Hy].
  apply left_inv_right. revert Hx Hy Hz Oxz Oyx Oyz. clear.
  destruct3 x; destruct3 y; destruct3 z. rcompute. intros. pairs ltac:(lra).
Qed.
Lemma look_rows_rot (z up : vec R 3) : look_ok z up ->
  is_rotation (m3look_rows (look_x z up) (look_y z up) z).
Proof.
  intros H. destruct (look_frame z up H) as (Ux & Oz & Ou & Ey & _). destruct H as [Hz _].
  apply frame_rows_rot; try (apply unit_norm_iff; assumption); assumption.
Qed.

Lemma look_ok_normalize (d up : vec R 3) : vcross up d <> vzero 3 -> look_ok (vnormalize d) up.
Proof.
  intros H.
  assert (Hd : d <> vzero 3).
  { intros ->. apply H. destruct3 up. rcompute. pairs ltac:(ring). }
  pose proof (vnorm_pos _ _ Hd) as P.
  split; [apply vnormalize_norm; exact Hd|]. intros E. apply H.
  rewrite <- (vnormalize_back _ d Hd), vcross_mul_r, E.
  rcompute. pairs ltac:(ring).
Qed.
Lemma look_ok_neg (z up : vec R 3) : look_ok z up -> look_ok (vneg z) up.
Proof.
  intros [A B]. split; [rewrite vnorm_neg; exact A|]. intros E. apply B.
  revert E. destruct3 z; destruct3 up. rcompute. intros E. injection E as E1 E2 E3. pairs ltac:(lra).
Qed.
Lemma vnormalize_neg n (d : vec R n) : vnormalize (vneg d) = vneg (vnormalize d).
Proof.
  unfold vnormalize. rewrite vnorm_neg.
  vext. rnum. ring.
Qed.

Lemma look_rows_spec (z up : vec R 3) : look_ok z up ->
  let m := m3look_rows (look_x z up) (look_y z up) z in
  is_rotation m /\ mmulv m z = v3 0 0 1 /\
  vat (mmulv m up) 0 = 0 /\ 0 < vat (mmulv m up) 1 /\
  mmul (mtranspose m) m = midentity 3 /\ mmul m (mtranspose m) = midentity 3.
Proof.
  intros H m. pose proof (look_rows_rot z up H) as R0. fold m in R0.
  destruct (look_frame z up H) as (Ux & Oz & Ou & Ey & Yu & Pu). destruct H as [Hz _].
  assert (T := proj1 (proj1 (is_rotation3 m) R0)).
  split; [exact R0|]. split.
  { unfold m. rewrite m3look_rows_act, Oz. apply unit_norm_iff in Hz. rewrite Hz.
    rewrite Ey, vdot_comm, vcross_orth_l. reflexivity. }
  split. { unfold m. rewrite m3look_rows_act. cbn. exact Ou. }
  split. { unfold m. rewrite m3look_rows_act. change (0 < vdot (look_y z up) up). rewrite Yu. exact Pu. }
  split; [exact T|]. apply left_inv_right. exact T.
Qed.

Lemma m3look_to_lh_spec (d up : vec R 3) : vcross up d <> vzero 3 ->
  let m := m3look_to_lh d up in
  is_rotation m /\ mmulv m (vnormalize d) = v3 0 0 1 /\
  vat (mmulv m up) 0 = 0 /\ 0 < vat (mmulv m up) 1 /\
  mmul (m3look_to_lh_inv d up) m = midentity 3 /\ mmul m (m3look_to_lh_inv d up) = midentity 3.
Proof. intros H. exact (look_rows_spec _ _ (look_ok_normalize d up H)). Qed.
Lemma m3look_to_rh_spec (d up : vec R 3) : vcross up d <> vzero 3 ->
  let m := m3look_to_rh d up in
  is_rotation m /\ mmulv m (vnormalize d) = v3 0 0 (-1) /\
  vat (mmulv m up) 0 = 0 /\ 0 < vat (mmulv m up) 1 /\
  mmul (m3look_to_rh_inv d up) m = midentity 3 /\ mmul m (m3look_to_rh_inv d up) = midentity 3.
Proof.
  intros H m.
  destruct (look_rows_spec _ _ (look_ok_neg _ _ (look_ok_normalize d up H))) as (A & B & C).
  split; [exact A|]. split; [|exact C].
  rewrite <- (vneg_neg _ (vnormalize d)), mmulv_neg. unfold m, m3look_to_rh. rewrite B.
  rcompute. pairs ltac:(ring).
Qed.

(** 4x4 *)
Lemma m4look_rows_act (x y z : vec R 3) (eye p : point R 3) :
  mmulv (m4look_rows x y z eye) (pto_homogeneous p) =
  pto_homogeneous (mmulv (m3look_rows x y z) (pdiff p eye)).
Proof.
  destruct3 x; destruct3 y; destruct3 z; destruct3 eye; destruct3 p.
  cbv [pto_homogeneous]. rcompute. pairs ltac:(ring).
Qed.
Lemma m4look_rows_vec (x y z : vec R 3) (eye : point R 3) (v : vec R 3) :
  mmulv (m4look_rows x y z eye) (vto_homogeneous v) =
  vto_homogeneous (mmulv (m3look_rows x y z) v).
Proof.
  destruct3 x; destruct3 y; destruct3 z; destruct3 eye; destruct3 v.
  cbv [vto_homogeneous]. rcompute. pairs ltac:(ring).
Qed.
Lemma m4look_to_lh_point eye d up p :
  mmulv (m4look_to_lh eye d up) (pto_homogeneous p) =
  pto_homogeneous (mmulv (m3look_to_lh d up) (pdiff p eye)).
Proof. apply m4look_rows_act. Qed.
Lemma m4look_to_rh_point eye d up p :
  mmulv (m4look_to_rh eye d up) (pto_homogeneous p) =
  pto_homogeneous (mmulv (m3look_to_rh d up) (pdiff p eye)).
Proof. unfold m4look_to_rh, m3look_to_rh. rewrite vnormalize_neg. apply m4look_rows_act. Qed.
Lemma m4look_to_vec eye d up v :
  mmulv (m4look_to_lh eye d up) (vto_homogeneous v) = vto_homogeneous (mmulv (m3look_to_lh d up) v) /\
  mmulv (m4look_to_rh eye d up) (vto_homogeneous v) = vto_homogeneous (mmulv (m3look_to_rh d up) v).
Proof.
  split; [apply m4look_rows_vec|].
  unfold m4look_to_rh, m3look_to_rh. rewrite vnormalize_neg. apply m4look_rows_vec.
Qed.
Lemma m4look_to_eye eye d up :
  mmulv (m4look_to_lh eye d up) (pto_homogeneous eye) = v4 0 0 0 1 /\
  mmulv (m4look_to_rh eye d up) (pto_homogeneous eye) = v4 0 0 0 1.
Proof.
  rewrite m4look_to_lh_point, m4look_to_rh_point.
  assert (E : pdiff eye eye = vzero 3) by (destruct3 eye; rcompute; pairs ltac:(ring)).
  rewrite E, !mmulv_0. split; reflexivity.
Qed.
Lemma m4look_at_target (eye target : point R 3) (up : vec R 3) :
  vcross up (pdiff target eye) <> vzero 3 ->
  mmulv (m4look_at_lh eye target up) (pto_homogeneous eye) = v4 0 0 0 1 /\
  mmulv (m4look_at_lh eye target up) (pto_homogeneous target) = v4 0 0 (pdist target eye) 1 /\
  mmulv (m4look_at_rh eye target up) (pto_homogeneous eye) = v4 0 0 0 1 /\
  mmulv (m4look_at_rh eye target up) (pto_homogeneous target) = v4 0 0 (- pdist target eye) 1.
Proof.
  intros H. unfold m4look_at_lh, m4look_at_rh.
  destruct (m4look_to_eye eye (pdiff target eye) up) as [A B].
  set (d := pdiff target eye) in *.
  assert (Hd : d <> vzero 3).
  { intros E. apply H. rewrite E. destruct3 up. rcompute. pairs ltac:(ring). }
  destruct (m3look_to_lh_spec d up H) as (_ & L & _).
  destruct (m3look_to_rh_spec d up H) as (_ & R0 & _).
  split; [exact A|]. split; [|split; [exact B|]].
  - rewrite m4look_to_lh_point. fold d. rewrite <- (vnormalize_back _ d Hd) at 2.
    rewrite mmulv_mul_s, L. change (pdist target eye) with (vnorm d).
    generalize (vnorm d). intros k. cbv [pto_homogeneous]. rcompute. pairs ltac:(ring).
  - rewrite m4look_to_rh_point. fold d. rewrite <- (vnormalize_back _ d Hd) at 2.
    rewrite mmulv_mul_s, R0. change (pdist target eye) with (vnorm d).
    generalize (vnorm d). intros k. cbv [pto_homogeneous]. rcompute. pairs ltac:(ring).
Qed.

(** The 4x4 inverses. *)
Lemma m4look_inv_mul (x y z : vec R 3) (eye : point R 3) :
  mmul (mtranspose (m3look_rows x y z)) (m3look_rows x y z) = midentity 3 ->
  let r := mmulv (m3look_rows x y z) eye in
  (mmul (m4look_cols x y z eye) (m4look_rows x y z eye) = midentity 4 <-> r = eye) /\
  mmulv (m4look_cols x y z eye) (v4 0 0 0 1) = pto_homogeneous r /\
  (forall v : vec R 3, mmulv (m4look_cols x y z eye) (vto_homogeneous v) =
     vto_homogeneous (mmulv (mtranspose (m3look_rows x y z)) v)) /\
  mmul (m4look_cols x y z (porigin 3)) (m4look_rows x y z (porigin 3)) = midentity 4.
Proof.
  intros H r. unfold r. clear r.
  assert (Hr : mmulv (mtranspose (m3look_rows x y z)) (mmulv (m3look_rows x y z) eye) = eye).
  { rewrite <- mmulv_mmulv, H. apply mmulv_1. }
  split; [|split; [|split]].
  - revert H Hr. destruct3 x; destruct3 y; destruct3 z; destruct3 eye. rcompute. intros H Hr.
    injection H as H1 H2 H3 H4 H5 H6 H7 H8 H9. injection Hr as E1 E2 E3.
    split.
    + intros E. injection E; intros. pairs ltac:(lra).
    + intros E. injection E; intros. pairs ltac:(lra).
  - destruct3 x; destruct3 y; destruct3 z; destruct3 eye. cbv [pto_homogeneous]. rcompute. pairs ltac:(ring).
  - intros v. destruct3 x; destruct3 y; destruct3 z; destruct3 eye; destruct3 v.
    cbv [vto_homogeneous]. rcompute. pairs ltac:(ring).
  - revert H. clear. destruct3 x; destruct3 y; destruct3 z. rcompute. intros H.
    injection H as H1 H2 H3 H4 H5 H6 H7 H8 H9. pairs ltac:(lra).
Qed.
Lemma m4look_to_lh_inv_spec (eye : point R 3) (d up : vec R 3) : vcross up d <> vzero 3 ->
  (mmul (m4look_to_lh_inv eye d up) (m4look_to_lh eye d up) = midentity 4
     <-> mmulv (m3look_to_lh d up) eye = eye) /\
  mmulv (m4look_to_lh_inv eye d up) (v4 0 0 0 1) = pto_homogeneous (mmulv (m3look_to_lh d up) eye) /\
  (forall v : vec R 3, mmulv (m4look_to_lh_inv eye d up) (vto_homogeneous v) =
     vto_homogeneous (mmulv (m3look_to_lh_inv d up) v)) /\
  mmul (m4look_to_lh_inv (porigin 3) d up) (m4look_to_lh (porigin 3) d up) = midentity 4.
Proof.
  intros H. destruct (m3look_to_lh_spec d up H) as (_ & _ & _ & _ & I & _).
  exact (m4look_inv_mul _ _ _ eye I).
Qed.
Lemma m4look_to_rh_inv_spec (eye : point R 3) (d up : vec R 3) : vcross up d <> vzero 3 ->
  (mmul (m4look_to_rh_inv eye d up) (m4look_to_rh eye d up) = midentity 4
     <-> mmulv (m3look_to_rh d up) eye = eye) /\
  mmulv (m4look_to_rh_inv eye d up) (v4 0 0 0 1) = pto_homogeneous (mmulv (m3look_to_rh d up) eye) /\
  (forall v : vec R 3, mmulv (m4look_to_rh_inv eye d up) (vto_homogeneous v) =
     vto_homogeneous (mmulv (m3look_to_rh_inv d up) v)) /\
  mmul (m4look_to_rh_inv (porigin 3) d up) (m4look_to_rh (porigin 3) d up) = midentity 4.
Proof.
  intros H. destruct (m3look_to_rh_spec d up H) as (_ & _ & _ & _ & I & _).
  unfold m4look_to_rh_inv, m4look_to_rh. rewrite vnormalize_neg.
  exact (m4look_inv_mul _ _ _ eye I).
Qed.

(** Looking along x from (1, 2, 3). *)
Lemma look_example_matrix :
  m3look_to_lh (v3 1 0 0) (v3 0 1 0) = m3new 0 0 1  0 1 0  (-1) 0 0.
Proof.
  unfold m3look_to_lh. rewrite (vnormalize_unit 3 (v3 1 0 0)) by (apply unit_norm_iff; rcompute; ring).
  unfold look_y, look_x.
  assert (E : vcross (v3 0 1 0) (v3 1 0 0) = v3 0 0 (-1)) by (rcompute; pairs ltac:(ring)).
  rewrite E, (vnormalize_unit 3 (v3 0 0 (-1))) by (apply unit_norm_iff; rcompute; ring).
  assert (E' : vcross (v3 1 0 0) (v3 0 0 (-1)) = v3 0 1 0) by (rcompute; pairs ltac:(ring)).
  rewrite E', (vnormalize_unit 3 (v3 0 1 0)) by (apply unit_norm_iff; rcompute; ring).
  rcompute. pairs ltac:(ring).
Qed.
Lemma look_cross_example : vcross (v3 0 1 0) (v3 1 0 0) <> (vzero 3 : vec R 3).
Proof. rcompute. intros E. injection E as E. lra. Qed.
Lemma m4look_inv_refuted :
  exists (eye : point R 3) (d up : vec R 3), vcross up d <> vzero 3 /\
    mmul (m4look_to_lh_inv eye d up) (m4look_to_lh eye d up) <> midentity 4 /\
    mmulv (m4look_to_lh_inv eye d up) (v4 0 0 0 1) <> pto_homogeneous eye.
Proof.
  exists (v3 1 2 3), (v3 1 0 0), (v3 0 1 0). split; [exact look_cross_example|].
  destruct (m4look_to_lh_inv_spec (v3 1 2 3) _ _ look_cross_example) as (A & B & _).
  rewrite A, B, look_example_matrix. cbv [pto_homogeneous]. rcompute.
  split; intros E; injection E; intros; lra.
Qed.
