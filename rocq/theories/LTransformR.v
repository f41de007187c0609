(** Transforms: proofs over R. *)

From Coq Require Import List Arith Lia Bool Reals Lra Psatz Ring.
From Verif Require Import Base Scalar Spec SpecRot LBase MVector LVector LVectorR MMatrix LMatrix
  LMatrixDet LMatrixR LMatrixM MPoint MReal LReal MAngle MMisc LMisc MRot LRot LRotBetween LLook LRotP
  MQuat LQuat LQuatR MTransform LTransform LTransformF.
Import ListNotations.
Local Open Scope R_scope.

(** ** Orthonormal columns imply orthonormal rows, in every dimension *)
Lemma orth_rows n (m : mat R n n) :
  mmul (mtranspose m) m = midentity n -> mmul m (mtranspose m) = midentity n.
Proof.
  intros H. set (P := mmul m (mtranspose m)). set (D := msub (midentity n) P).
  assert (PP : mmul P P = P).
  { unfold P. rewrite mmul_assoc, <- (mmul_assoc _ _ _ _ (mtranspose m) m), H, mmul_1_l. reflexivity. }
  assert (PT : mtranspose P = P).
  { unfold P. rewrite mtranspose_mul, mtranspose_invol. reflexivity. }
  assert (DT : mtranspose D = D).
  { unfold D. rewrite mtranspose_sub, mtranspose_identity, PT. reflexivity. }
  assert (DD : mmul D D = D).
  { unfold D. rewrite !msub_def, mmul_add_l, !mmul_add_r, !mmul_1_l, mmul_1_r.
    assert (N : mmul (mneg P) (mneg P) = P).
    { rewrite <- !mmul_s_neg, mmul_mul_s_l, mmul_mul_s_r, PP. mext. rnum. ring. }
    rewrite N. mext. rnum. ring. }
  assert (T : mnorm_squared D = 0).
  { unfold mnorm_squared. rewrite mdot_trace, DT, DD. unfold D.
    rewrite msub_def, mtrace_add, <- mmul_s_neg, mtrace_mul_s.
    unfold P. rewrite mtrace_mmul, H. rnum. ring. }
  assert (Z : D = mzero n n).
  { apply mnorm_zero. unfold mnorm. rewrite T. apply sqrt_0. }
  apply mat_ext. intros j i Hj Hi.
  assert (E : mget D j i = 0) by (rewrite Z; apply mget_zeroR).
  unfold D in E. rewrite mget_msub in E by auto. revert E. fold P. rnum. lra.
Qed.
Lemma orth_pair n (m : mat R n n) : orthonormal_columns m ->
  mmul (mtranspose m) m = midentity n /\ mmul m (mtranspose m) = midentity n.
Proof.
  intros H. apply orthonormal_iff in H. split; [exact H|apply orth_rows; exact H].
Qed.
Lemma orth_inverse n (m : mat R n n) : orthonormal_columns m -> orthonormal_columns (mtranspose m).
Proof.
  intros H. apply orthonormal_iff. rewrite mtranspose_invol. apply orth_pair. exact H.
Qed.
Lemma orth_mul n (a b : mat R n n) :
  orthonormal_columns a -> orthonormal_columns b -> orthonormal_columns (mmul a b).
Proof.
  rewrite !orthonormal_iff. intros A B. rewrite mtranspose_mul, mmul_assoc.
  rewrite <- (mmul_assoc _ _ _ _ (mtranspose a) a b), A, mmul_1_l. exact B.
Qed.
Lemma orth_identity n : orthonormal_columns (midentity n : mat R n n).
Proof. apply orthonormal_iff. rewrite mtranspose_identity, mmul_1_l. reflexivity. Qed.

(** ** C53 *)
Lemma rot2_between_axis (a b : vec R 2) : vnorm a = 1 -> vnorm b = 1 ->
  is_rotation (rot2rotation_between_axis a b) /\
  rot_apply_vector (rot2rotation_between_axis a b) a = b.
Proof.
  intros H1 H2. split; [apply m2from_angle_rot|].
  pose proof (cross2_sq a b H1 H2) as Q.
  unfold rot2rotation_between_axis, rot2from_angle, rot_apply_vector, cross2 in *. cbv zeta.
  destruct (ratan2_spec (vdot a b) (vat a 0 * vat b 1 - vat a 1 * vat b 0)) as [C S].
  rewrite <- Q in C, S.
  replace (vdot a b * vdot a b + (1 - vdot a b * vdot a b)) with 1 in C, S by ring.
  rewrite sqrt_1, Rmult_1_l in C, S. unfold m2from_angle. rewrite C, S.
  apply unit2 in H1. revert H1. clear. destruct2 a; destruct2 b. rcompute. intros H1.
  assert (E : x * x = 1 - y * y) by lra. pairs ltac:(ring [E]).
Qed.
Lemma rot2_between_nz (a b : vec R 2) : a <> vzero 2 -> b <> vzero 2 ->
  rot2rotation_between a b = rot2rotation_between_axis (vnormalize a) (vnormalize b) /\
  iso2rotation_between a b = iso2rotation_between_axis (vnormalize a) (vnormalize b).
Proof.
  intros A B. unfold rot2rotation_between, iso2rotation_between.
  rewrite !unit_try_some; [split; reflexivity|lra|apply vnorm_pos; exact B|lra|apply vnorm_pos; exact A].
Qed.
Lemma rot2_between (a b : vec R 2) : a <> vzero 2 -> b <> vzero 2 ->
  is_rotation (rot2rotation_between a b) /\
  vmul_s (rot_apply_vector (rot2rotation_between a b) a) (vnorm b) = vmul_s b (vnorm a).
Proof.
  intros A B. destruct (rot2_between_nz a b A B) as [E _]. rewrite E.
  destruct (rot2_between_axis (vnormalize a) (vnormalize b)) as [R M];
    [apply vnormalize_norm; exact A|apply vnormalize_norm; exact B|].
  split; [exact R|].
  assert (Pa : 0 < vnorm a) by (apply vnorm_pos; exact A).
  assert (Pb : 0 < vnorm b) by (apply vnorm_pos; exact B).
  assert (Ea : a = vmul_s (vnormalize a) (vnorm a)).
  { unfold vnormalize. vext. rnum. field. lra. }
  assert (Eb : b = vmul_s (vnormalize b) (vnorm b)).
  { unfold vnormalize. vext. rnum. field. lra. }
  revert M. generalize (rot2rotation_between_axis (vnormalize a) (vnormalize b)). intros r M.
  unfold rot_apply_vector in *.
  transitivity (vmul_s (mmulv r (vmul_s (vnormalize a) (vnorm a))) (vnorm b)); [rewrite <- Ea; reflexivity|].
  rewrite mmulv_mul_s, M. rewrite Eb at 3. vext. rnum. ring.
Qed.
Lemma rot2_between_zero (a b : vec R 2) : a = vzero 2 \/ b = vzero 2 ->
  rot2rotation_between a b = rot_identity 2 /\ iso2rotation_between a b = iso_identity 2.
Proof.
  intros H. unfold rot2rotation_between, iso2rotation_between.
  assert (Z : unit_try_from_value (normed_vec 2) (vzero 2) 0 = None).
  { apply unit_try_none; [lra|]. rewrite vnormalize_0_norm. lra. }
  destruct H as [-> | ->]; rewrite Z; [split; reflexivity|].
  destruct (unit_try_from_value (normed_vec 2) a 0); split; reflexivity.
Qed.

(** ** C70 *)
Lemma cos_sin_eq_mod a b : cos a = cos b -> sin a = sin b -> exists k : Z, a = b + 2 * IZR k * PI.
Proof.
  intros C S.
  assert (S0 : sin (a - b) = 0) by (rewrite sin_minus, C, S; ring).
  assert (C0 : cos (a - b) = 1).
  { rewrite cos_minus, C, S. pose proof (sin2_cos2 b) as Q. unfold Rsqr in Q. lra. }
  destruct (sin_eq_0_0 _ S0) as [k K].
  destruct (Z.Even_or_Odd k) as [[j J]|[j J]].
  - exists j. rewrite J, mult_IZR in K. lra.
  - exfalso. rewrite K, J, plus_IZR, mult_IZR in C0.
    replace ((2 * IZR j + 1) * PI) with (PI + 2 * IZR j * PI) in C0 by ring.
    rewrite (proj1 (cs_period PI j)), cos_PI in C0. lra.
Qed.
Lemma rot2_angle_of t : exists k : Z, rot2angle (rot2from_angle t) = t + 2 * IZR k * PI.
Proof.
  unfold rot2angle, rot2from_angle.
  destruct (ratan2_spec (cos t) (sin t)) as [C S].
  pose proof (sin2_cos2 t) as Q. unfold Rsqr in Q.
  replace (cos t * cos t + sin t * sin t) with 1 in C, S by lra.
  rewrite sqrt_1, Rmult_1_l in C, S.
  change (mget (m2from_angle t) 0 1) with (sin t). change (mget (m2from_angle t) 0 0) with (cos t).
  apply cos_sin_eq_mod; lra.
Qed.
Lemma rot2_angle_range r : - PI < rot2angle r <= PI.
Proof. apply ratan2_range. Qed.
Lemma rot2_angle_back r : is_rotation r -> rot2from_angle (rot2angle r) = r.
Proof.
  intros H. symmetry. exact (rotation2_angle r H).
Qed.
Lemma rot2_angle_in t : - PI < t <= PI -> rot2angle (rot2from_angle t) = t.
Proof.
  intros H. unfold rot2angle, rot2from_angle.
  change (mget (m2from_angle t) 0 1) with (sin t). change (mget (m2from_angle t) 0 0) with (cos t).
  rewrite <- (Rmult_1_l (sin t)), <- (Rmult_1_l (cos t)). apply ratan2_polar; lra.
Qed.

(** Euler's theorem: every rotation of space turns about some axis by an angle in [0, pi]. *)
Lemma vnorm_nz_unit n (v : vec R n) k : vnorm v = k -> 0 < k -> vnorm (vdiv_s v k) = 1.
Proof.
  intros E H. replace (vdiv_s v k) with (vnormalize v) by (unfold vnormalize; rewrite E; vext; rnum; field; lra).
  apply vnormalize_norm. intros Z. rewrite Z, vnormalize_0_norm in E. lra.
Qed.
Lemma quat_axis_angle (s : R) (v : vec R 3) : s * s + vdot v v = 1 -> 0 <= s ->
  exists a t, vnorm a = 1 /\ 0 <= t <= PI /\ qfrom_parts s v = qfrom_axis_angle a t.
Proof.
  intros H Hs. pose proof PI_RGT_0 as HPI.
  pose proof (vnorm_sq _ v) as N. pose proof (vnorm_nonneg _ v) as P.
  assert (B : -1 <= s <= 1) by (split; [lra|nra]).
  exists (if Req_EM_T (vnorm v) 0 then v3_unit_x else vdiv_s v (vnorm v)), (2 * acos s).
  assert (A : 0 <= acos s <= PI / 2).
  { pose proof (acos_bound s). split; [lra|].
    destruct (Rle_or_lt (acos s) (PI / 2)) as [G|G]; [exact G|exfalso].
    assert (C : cos (acos s) < 0) by (apply cos_lt_0; lra). rewrite cos_acos in C by exact B. lra. }
  assert (S : sin (acos s) = vnorm v).
  { rewrite sin_acos by exact B. replace (1 - s²) with (vnorm v * vnorm v) by (unfold Rsqr; lra).
    apply sqrt_square. exact P. }
  assert (G : qfrom_parts s v =
    qfrom_axis_angle (if Req_EM_T (vnorm v) 0 then v3_unit_x else vdiv_s v (vnorm v)) (2 * acos s)).
  { unfold qfrom_axis_angle. cbv zeta. replace (2 * acos s * (1 / (1 + 1))) with (acos s) by field.
    rewrite S, cos_acos by exact B. f_equal. destruct (Req_EM_T (vnorm v) 0) as [E|E].
    - rewrite E. apply vnorm_zero in E. rewrite E. vcompute. rnum. pairs ltac:(ring).
    - vext. rnum. field. exact E. }
  split; [|split; [lra|exact G]].
  destruct (Req_EM_T (vnorm v) 0) as [E|E].
  - apply unit_norm_iff. vcompute. rnum. ring.
  - apply vnorm_nz_unit; [reflexivity|lra].
Qed.
Lemma rotation_axis_angle r : is_rotation r ->
  exists a t, vnorm a = 1 /\ 0 <= t <= PI /\ r = rot3from_axis_angle a t.
Proof.
  intros H. destruct (qfrom_matrix_spec r H) as [U M]. set (q := qfrom_matrix r) in *.
  assert (X : exists q', qnorm_squared q' = 1 /\ 0 <= qscalar q' /\ qto_matrix q' = r).
  { apply qnorm_unit_iff in U. destruct (Rle_or_lt 0 (qscalar q)) as [G|G].
    - exists q. auto.
    - exists (qneg q). rewrite qnorm_squared_neg, qto_matrix_neg. split; [exact U|split; [|exact M]].
      revert G. clear. destruct4 q. qrcompute. lra. }
  destruct X as (p & Up & Sp & Mp).
  destruct (quat_axis_angle (qscalar p) (qvector p)) as (a & t & Ua & Rt & E).
  { rewrite <- Up. etransitivity; [symmetry; exact (qnorm_squared_parts (qscalar p) (qvector p))|]. rewrite <- quat_parts. reflexivity. }
  { exact Sp. }
  exists a, t. split; [exact Ua|split; [exact Rt|]]. rewrite <- Mp, (quat_parts p), E.
  apply qfrom_axis_angle_matrix. exact Ua.
Qed.

Lemma axis_angle_entries (a : vec R 3) t : vnorm a = 1 ->
  mget (m3from_axis_angle a t) 0 0 + mget (m3from_axis_angle a t) 1 1 + mget (m3from_axis_angle a t) 2 2 =
    1 + 2 * cos t /\
  v3 (mget (m3from_axis_angle a t) 1 2 - mget (m3from_axis_angle a t) 2 1)
     (mget (m3from_axis_angle a t) 2 0 - mget (m3from_axis_angle a t) 0 2)
     (mget (m3from_axis_angle a t) 0 1 - mget (m3from_axis_angle a t) 1 0) = vmul_s a (2 * sin t).
Proof.
  intros H. apply unit_norm_iff in H. revert H. unfold m3from_axis_angle. cbv zeta.
  generalize (cos t) (sin t). intros c s. destruct3 a. rcompute. intros H. split.
  - assert (E : x * x = 1 - y * y - z * z) by lra. ring [E].
  - pairs ltac:(ring).
Qed.
Lemma rot3angle_of (a : vec R 3) t : vnorm a = 1 -> 0 <= t <= PI -> rot3angle (rot3from_axis_angle a t) = t.
Proof.
  intros U H. unfold rot3angle, rot3from_axis_angle. cbv zeta.
  rewrite (proj1 (axis_angle_entries a t U)).
  replace ((1 + 2 * cos t - 1) / 2) with (cos t) by field. apply acos_cos. exact H.
Qed.
Lemma rot3axis_norm (a : vec R 3) t : vnorm a = 1 -> 0 <= t <= PI -> vnorm (vmul_s a (2 * sin t)) = 2 * sin t.
Proof.
  intros U H. assert (S : 0 <= sin t) by (apply sin_ge_0; lra).
  rewrite vnorm_mul, U, Rmult_1_l, Rabs_pos_eq; lra.
Qed.
Lemma rot3axis_of (a : vec R 3) t eps : vnorm a = 1 -> 0 <= t <= PI -> 0 <= eps ->
  (eps < 2 * sin t -> rot3axis_eps (rot3from_axis_angle a t) eps = Some a) /\
  (2 * sin t <= eps -> rot3axis_eps (rot3from_axis_angle a t) eps = None).
Proof.
  intros U H He. pose proof (rot3axis_norm a t U H) as N.
  unfold rot3axis_eps, rot3from_axis_angle. cbv zeta.
  rewrite (proj2 (axis_angle_entries a t U)). split; intros G.
  - rewrite unit_try_some by (rewrite ?N; lra). f_equal. unfold vnormalize. rewrite N.
    vext. rnum. field. intros Z. rewrite Z in G. lra.
  - apply unit_try_none; [exact He|rewrite N; exact G].
Qed.
Lemma rot3angle_spec r : is_rotation r ->
  0 <= rot3angle r <= PI /\ mget r 0 0 + mget r 1 1 + mget r 2 2 = 1 + 2 * cos (rot3angle r).
Proof.
  intros H. destruct (rotation_axis_angle r H) as (a & t & U & T & ->).
  rewrite rot3angle_of by assumption. split; [exact T|]. apply axis_angle_entries. exact U.
Qed.
Lemma axis_angle_fixes (a : vec R 3) t : vnorm a = 1 -> mmulv (m3from_axis_angle a t) a = a.
Proof.
  intros H. apply unit_norm_iff in H. revert H. unfold m3from_axis_angle. cbv zeta.
  generalize (cos t) (sin t). intros c s. destruct3 a. rcompute. intros H.
  assert (E : x * x = 1 - y * y - z * z) by lra. pairs ltac:(ring [E]).
Qed.
Lemma rot3axis_spec r eps : is_rotation r -> 0 <= eps ->
  (forall a, rot3axis_eps r eps = Some a ->
     vnorm a = 1 /\ rot_apply_vector r a = a /\ rot3from_axis_angle a (rot3angle r) = r) /\
  (rot3axis_eps r eps = None <-> 2 * sin (rot3angle r) <= eps) /\
  rot3axis_angle_eps r eps = match rot3axis_eps r eps with Some a => Some (a, rot3angle r) | None => None end.
Proof.
  intros H He. destruct (rotation_axis_angle r H) as (a & t & U & T & ->).
  rewrite rot3angle_of by assumption.
  destruct (rot3axis_of a t eps U T He) as [A B].
  conjs.
  - intros a' E. destruct (Rlt_or_le eps (2 * sin t)) as [G|G].
    + rewrite (A G) in E. injection E as <-.
      split; [exact U|split; [|reflexivity]].
      apply axis_angle_fixes. exact U.
    + rewrite (B G) in E. discriminate.
  - split; [|exact B]. intros E. destruct (Rlt_or_le eps (2 * sin t)) as [G|G]; [|exact G].
    rewrite (A G) in E. discriminate.
  - unfold rot3axis_angle_eps. rewrite rot3angle_of by assumption.
    destruct (rot3axis_eps _ _); reflexivity.
Qed.

(** ** C63 *)
Lemma view_apply (eye : point R 3) (r : rotation R 3) (p : point R 3) (v : vec R 3) :
  iso_apply_point (iso3view eye r) p = mmulv r (pdiff p eye) /\
  iso_apply_vector (iso3view eye r) v = mmulv r v.
Proof.
  unfold iso_apply_point, iso_apply_vector, iso3view, iso_from_parts, tr_apply_point, rot_apply_point,
    rot_apply_vector, tr_from_vector, pfrom_vector, pto_vector, padd; cbn [iso_translation iso_rotation].
  split; [|reflexivity].
  mdestruct3 r. destruct3 eye. destruct3 p. cbv [pdiff pneg porigin]. rcompute. pairs ltac:(ring).
Qed.
Lemma view_inverse (eye : point R 3) (r : rotation R 3) : is_rotation r ->
  iso_inverse (iso3view eye r) = iso_from_parts (tr_from_vector eye) (mtranspose r) /\
  (iso3view eye (mtranspose r) = iso_inverse (iso3view eye r) <-> mmulv r eye = vneg eye).
Proof.
  intros H. apply is_rotation3 in H. destruct H as [O D].
  assert (T : mmulv (mtranspose r) (mmulv r eye) = eye) by (rewrite <- mmulv_mmulv, O; apply mmulv_1).
  assert (E : forall m : mat R 3 3, pdiff (rot_apply_point m (pneg eye)) (porigin 3) = vneg (mmulv m eye)).
  { intros m. clear. mdestruct3 m. destruct3 eye.
    cbv [rot_apply_point pdiff pneg porigin pto_vector pfrom_vector]. rcompute. pairs ltac:(ring). }
  assert (I : iso_inverse (iso3view eye r) = iso_from_parts (tr_from_vector eye) (mtranspose r)).
  { apply iso_ext; [|reflexivity].
    change (mmulv (mtranspose r) (vneg (pdiff (rot_apply_point r (pneg eye)) (porigin 3))) = eye).
    rewrite E, !mmulv_neg, T. vext. rnum. ring. }
  split; [exact I|]. rewrite I. split.
  - intros G. apply (f_equal iso_translation) in G.
    change (pdiff (rot_apply_point (mtranspose r) (pneg eye)) (porigin 3) = eye) in G.
    rewrite E in G.
    assert (O' : mmul r (mtranspose r) = midentity 3) by (apply orth_rows; exact O).
    rewrite <- G at 1. rewrite mmulv_neg, <- mmulv_mmulv, O', mmulv_1. reflexivity.
  - intros G. apply iso_ext; [|reflexivity].
    change (pdiff (rot_apply_point (mtranspose r) (pneg eye)) (porigin 3) = eye).
    rewrite E, <- mmulv_neg, <- G. exact T.
Qed.

Lemma view_matrix_lh (eye : point R 3) (d up : vec R 3) :
  iso_to_affine_matrix (iso3look_to_lh eye d up) = m4look_to_lh eye d up /\
  iso_to_affine_matrix (iso3look_to_rh eye d up) = m4look_to_rh eye d up.
Proof.
  assert (G : forall m r, (forall p, mmulv m (pto_homogeneous p) = pto_homogeneous (mmulv r (pdiff p eye))) ->
             (forall v, mmulv m (vto_homogeneous v) = vto_homogeneous (mmulv r v)) ->
             iso_to_affine_matrix (iso3view eye r) = m).
  { intros m r P V. apply mmulv_ext_h. intros v w. rewrite iso_affine_act.
    assert (S : vextend v w = vadd (vmul_s (pto_homogeneous (porigin 3)) w) (vto_homogeneous v)).
    { destruct3 v. cbv [pto_homogeneous vto_homogeneous porigin]. rcompute. pairs ltac:(ring). }
    rewrite S, mmulv_add, mmulv_mul_s, P, V. clear.
    mdestruct3 r. destruct3 v. destruct3 eye.
    cbv [iso3view iso_from_parts iso_rotation iso_translation tr_from_vector rot_apply_point pdiff pneg
         porigin pto_vector pfrom_vector pto_homogeneous vto_homogeneous]. rcompute. pairs ltac:(ring). }
  split; apply G; intros.
  - apply m4look_to_lh_point.
  - exact (proj1 (m4look_to_vec eye d up v)).
  - apply m4look_to_rh_point.
  - exact (proj2 (m4look_to_vec eye d up v)).
Qed.

(** ** C68 *)
Lemma unit_from_value_unit n (u : vec R n) : vnorm u = 1 -> unit_from_value (normed_vec n) u = u.
Proof.
  intros H. etransitivity; [|apply vnormalize_unit; exact H]. reflexivity.
Qed.
Lemma sh2_act (f : shear R 2) (v : vec R 2) w :
  vnorm (sh_direction f) = 1 -> vnorm (sh_normal f) = 1 ->
  mmulv (sh2to_affine_matrix f) (vextend v w) =
  vextend (vadd v (vmul_s (sh_direction f) (sh_factor f *
    (vdot (sh_normal f) v - vdot (sh_normal f) (sh_origin f) * w)))) w.
Proof.
  intros D N. unfold sh2to_affine_matrix. cbv zeta. rewrite !unit_from_value_unit by assumption.
  rewrite m3from_affine_shear_act. reflexivity.
Qed.
Lemma sh3_act (f : shear R 3) (v : vec R 3) w :
  vnorm (sh_direction f) = 1 -> vnorm (sh_normal f) = 1 ->
  mmulv (sh3to_affine_matrix f) (vextend v w) =
  vextend (vadd v (vmul_s (sh_direction f) (sh_factor f *
    (vdot (sh_normal f) v - vdot (sh_normal f) (sh_origin f) * w)))) w.
Proof.
  intros D N. unfold sh3to_affine_matrix. cbv zeta. rewrite !unit_from_value_unit by assumption.
  rewrite m4from_affine_shear_act. reflexivity.
Qed.
Lemma sh_form_point n (f : shear R n) (p : point R n) :
  vadd (p : vec R n) (vmul_s (sh_direction f) (sh_factor f *
    (vdot (sh_normal f) p - vdot (sh_normal f) (sh_origin f) * 1))) = sh_apply_point f p.
Proof.
  unfold sh_apply_point, padd, pdiff. rewrite vdot_sub_l.
  rewrite (vdot_comm n (sh_normal f) p), (vdot_comm n (sh_normal f) (sh_origin f)).
  f_equal. f_equal. rnum. ring.
Qed.
Lemma sh_form_vector n (f : shear R n) (v : vec R n) : vnorm (sh_direction f) = 1 ->
  (vadd v (vmul_s (sh_direction f) (sh_factor f *
    (vdot (sh_normal f) v - vdot (sh_normal f) (sh_origin f) * 0))) = sh_apply_vector f v <->
  sh_factor f * vdot (sh_origin f : vec R n) (sh_normal f) = 0).
Proof.
  intros U. unfold sh_apply_vector, pto_vector. cbv zeta. rewrite vdot_sub_l.
  rewrite (vdot_comm n (sh_normal f) v), (vdot_comm n (sh_normal f) (sh_origin f)). rnum.
  set (d := sh_direction f) in *. set (k := sh_factor f). set (a := vdot v (sh_normal f)).
  set (b := vdot (sh_origin f : vec R n) (sh_normal f)). split.
  - intros E. assert (Z : vmul_s d (k * b) = vzero n).
    { transitivity (vsub (vadd v (vmul_s d (k * (a - b * 0)))) (vadd v (vmul_s d (k * (a - b))))).
      - vext. rnum. ring.
      - rewrite E. vext. rnum. ring. }
    apply vnorm_zero in Z. rewrite vnorm_mul, U, Rmult_1_l in Z.
    destruct (Req_dec (k * b) 0) as [G|G]; [exact G|]. apply Rabs_no_R0 in G. contradiction.
  - intros Z. f_equal. f_equal. replace (k * (a - b)) with (k * a - k * b) by ring. rewrite Z. ring.
Qed.

(** ** C67: without orthogonality the inverse is not an inverse *)
Lemma sh_undo_iff n (f : shear R n) :
  sh_factor f <> 0 -> vnorm (sh_direction f) = 1 -> vnorm (sh_normal f) = 1 ->
  ((forall p, sh_inverse_apply_point f (sh_apply_point f p) = p) <->
   vdot (sh_direction f) (sh_normal f) = 0).
Proof.
  intros F D N. split.
  - intros H. specialize (H (vadd (sh_origin f) (sh_normal f))). rewrite sh_point_error in H.
    match type of H with psub _ (vmul_s _ ?k) = _ => remember k as c eqn:Ec end.
    assert (Z : vmul_s (sh_direction f) c = vzero n).
    { transitivity (vsub (vadd (sh_origin f) (sh_normal f)) (psub (vadd (sh_origin f) (sh_normal f)) (vmul_s (sh_direction f) c))).
      - unfold psub. vext. rnum. ring.
      - rewrite H. vext. rnum. ring. }
    apply vnorm_zero in Z. rewrite vnorm_mul, D, Rmult_1_l in Z.
    destruct (Req_dec c 0) as [G|G]; [|apply Rabs_no_R0 in G; contradiction].
    assert (E : vdot (pdiff (vadd (sh_origin f) (sh_normal f)) (sh_origin f)) (sh_normal f) = 1).
    { unfold pdiff. rewrite vdot_sub_l, vdot_add_l. apply unit_norm_iff in N. revert N. rnum. lra. }
    rewrite Ec, E in G. revert G. rnum. intros G.
    apply Rmult_integral in G. destruct G as [G|G]; [|exact G].
    exfalso. apply F. nra.
  - intros H p. apply sh_undo; [exact p|exact H].
Qed.

(** ** C73 *)
Lemma mabs_diff_eq_spec r c (a b t : mat R r c) :
  mabs_diff_eq a b t = true <->
  forall j i, (j < c)%nat -> (i < r)%nat -> Rabs (mget a j i - mget b j i) <= mget t j i.
Proof. apply mabs_diff_spec. Qed.
Lemma mabs_diff_all_eq_spec r c (a b : mat R r c) t :
  mabs_diff_all_eq a b t = true <->
  forall j i, (j < c)%nat -> (i < r)%nat -> Rabs (mget a j i - mget b j i) <= t.
Proof.
  assert (E : forall j i, (j < c)%nat -> (i < r)%nat ->
              mget (vfill c (vfill r t) : mat R r c) j i = t).
  { intros j i Hj Hi. unfold mget, mget_d. rewrite !vget_vfill by auto. reflexivity. }
  unfold mabs_diff_all_eq. etransitivity; [apply mabs_diff_spec|].
  split; intros H j i Hj Hi; specialize (H j i Hj Hi); rewrite E in * by auto; exact H.
Qed.
