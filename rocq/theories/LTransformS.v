(** Transforms: matrices representing maps, entrywise descriptions, examples. *)

From Coq Require Import List Arith Lia Bool Ring Field Reals Lra ZArith Qcanon.
From Verif Require Import Base Scalar Spec SpecRot SpecTransform LBase MVector LVector LVectorR MMatrix LMatrix
  LMatrixDet LMatrixM MPoint MReal MAngle LMisc MRot LRot LLook MQuat LQuatR MTransform LTransform LTransformF LTransformR.
Import ListNotations.
Local Open Scope nat_scope.

Section Ring.
Variables (K : Type) (NK : Num K) (LK : RingLaws K).
Local Open Scope num_scope.
Add Ring KringS : (@ring_laws K NK LK).

Lemma rep_ext n (m : mat K (S n) (S n)) (fp fv gp gv : vec K n -> vec K n) :
  (forall p, gp p = fp p) -> (forall v, gv v = fv v) -> represents m gp gv -> represents m fp fv.
Proof.
  intros E F [A B]. split; intros x; [rewrite A, E|rewrite B, F]; reflexivity.
Qed.
Lemma rep_split n (v : vec K n) w :
  vextend v w = vadd (vmul_s (vextend (vzero n) 1) w) (vextend v 0).
Proof.
  apply vat_ext. intros i Hi. rewrite vat_vadd, vat_vmul_s, !vat_vextend by lia.
  destruct (Nat.eqb_spec i n); [ring|]. rewrite vat_vzero. ring.
Qed.
Lemma rep_unique n (m m' : mat K (S n) (S n)) (fp fv : vec K n -> vec K n) :
  represents m fp fv -> represents m' fp fv -> m = m'.
Proof.
  intros [A B] [A' B']. apply mmulv_ext_h. intros v w. rewrite rep_split, !mmulv_add, !mmulv_mul_s.
  change (vzero n) with (vzero n : vec K n). rewrite A, A', B, B'. reflexivity.
Qed.
Lemma rep_mul n (m m' : mat K (S n) (S n)) (fp fv gp gv : vec K n -> vec K n) :
  represents m fp fv -> represents m' gp gv ->
  represents (mmul m m') (fun p => fp (gp p)) (fun v => fv (gv v)).
Proof.
  intros [A B] [A' B']. split; intros x; rewrite mmulv_mmulv; [rewrite A', A|rewrite B', B]; reflexivity.
Qed.
Lemma rep_identity n : represents (midentity (S n)) (fun p : vec K n => p) (fun v => v).
Proof. split; intros; apply mmulv_1. Qed.

Lemma rep_translation n (t : translation K n) :
  represents (tr_to_affine_matrix t) (tr_apply_point t) (tr_apply_vector t).
Proof.
  split; intros x; rewrite tr_affine_act; f_equal; unfold tr_apply_point, tr_apply_vector, padd; vext; ring.
Qed.
Lemma rep_scale n (s : scale K n) :
  represents (sc_to_affine_matrix s) (sc_apply_point s) (sc_apply_vector s).
Proof. split; intros x; exact (sc_affine_act n s x _). Qed.
Lemma rep_rotation n (r : rotation K n) :
  represents (rot_to_affine_matrix r) (rot_apply_point r) (rot_apply_vector r).
Proof. split; intros x; exact (rot_affine_act n r x _). Qed.
Lemma rep_isometry n (f : isometry K n) :
  represents (iso_to_affine_matrix f) (iso_apply_point f) (iso_apply_vector f).
Proof.
  split; intros x; rewrite iso_affine_act; f_equal;
  unfold iso_apply_point, iso_apply_vector, tr_apply_point, rot_apply_point, rot_apply_vector, padd,
    pto_vector, pfrom_vector; vext; ring.
Qed.
Lemma rep_similarity n (f : similarity K n) :
  represents (sim_to_affine_matrix f) (sim_apply_point f) (sim_apply_vector f).
Proof.
  split; intros x; rewrite sim_affine_act; f_equal;
  unfold sim_apply_point, sim_apply_vector, iso_apply_point, iso_apply_vector, tr_apply_point,
    rot_apply_point, rot_apply_vector, padd, pmul_s, pto_vector, pfrom_vector; rewrite mmulv_mul_s; vext; ring.
Qed.
Lemma rep_re2 (f : reflection K 2) :
  represents (re2to_affine_matrix f) (re_apply_point f) (re_apply_vector f).
Proof.
  split; intros x; rewrite re2_act; f_equal; unfold re_apply_point, re_apply_vector, psub, pdiff;
  rewrite ?vdot_sub_l; vext; ring.
Qed.
Lemma rep_re3 (f : reflection K 3) :
  represents (re3to_affine_matrix f) (re_apply_point f) (re_apply_vector f).
Proof.
  split; intros x; rewrite re3_act; f_equal; unfold re_apply_point, re_apply_vector, psub, pdiff;
  rewrite ?vdot_sub_l; vext; ring.
Qed.
Lemma rep_products n (s t : translation K n) (s' t' : scale K n)
         (r q : rotation K n) (f g : isometry K n) (f' g' : similarity K n) :
    tr_to_affine_matrix (tr_mul s t) = mmul (tr_to_affine_matrix s) (tr_to_affine_matrix t) /\
    sc_to_affine_matrix (sc_mul s' t') = mmul (sc_to_affine_matrix s') (sc_to_affine_matrix t') /\
    rot_to_affine_matrix (rot_mul r q) = mmul (rot_to_affine_matrix r) (rot_to_affine_matrix q) /\
    iso_to_affine_matrix (iso_mul f g) = mmul (iso_to_affine_matrix f) (iso_to_affine_matrix g) /\
    sim_to_affine_matrix (sim_mul f' g') = mmul (sim_to_affine_matrix f') (sim_to_affine_matrix g') /\
    iso_to_affine_matrix (iso_identity n) = midentity (S n) /\
    sim_to_affine_matrix (sim_identity n) = midentity (S n) /\
    sim_to_affine_matrix (sim_from_isometry f) = iso_to_affine_matrix f.
Proof.
  assert (ID : forall p : vec K n, pmul_s (p : point K n) 1 = p) by (intros p; unfold pmul_s; vext; ring).
  assert (IV : forall p : vec K n, vmul_s p 1 = p) by (intros p; vext; ring).
  conjs.
  - apply (rep_unique n _ _ _ _ (rep_translation n _)).
    eapply rep_ext; [| |exact (rep_mul n _ _ _ _ _ _ (rep_translation n s) (rep_translation n t))].
    + intros p. symmetry. apply tr_apply_mul.
    + reflexivity.
  - apply (rep_unique n _ _ _ _ (rep_scale n _)).
    eapply rep_ext; [| |exact (rep_mul n _ _ _ _ _ _ (rep_scale n s') (rep_scale n t'))].
    + intros p. symmetry. exact (proj2 (sc_apply_mul n s' t' p p)).
    + intros p. symmetry. exact (proj1 (sc_apply_mul n s' t' p p)).
  - apply (rep_unique n _ _ _ _ (rep_rotation n _)).
    eapply rep_ext; [| |exact (rep_mul n _ _ _ _ _ _ (rep_rotation n r) (rep_rotation n q))].
    + intros p. symmetry. exact (rot_apply_mul n r q p).
    + intros p. symmetry. exact (rot_apply_mul n r q p).
  - apply (rep_unique n _ _ _ _ (rep_isometry n _)).
    eapply rep_ext; [| |exact (rep_mul n _ _ _ _ _ _ (rep_isometry n f) (rep_isometry n g))].
    + intros p. symmetry. exact (proj1 (iso_apply_mul n f g p p)).
    + intros p. symmetry. exact (proj2 (iso_apply_mul n f g p p)).
  - apply (rep_unique n _ _ _ _ (rep_similarity n _)).
    eapply rep_ext; [| |exact (rep_mul n _ _ _ _ _ _ (rep_similarity n f') (rep_similarity n g'))].
    + intros p. symmetry. exact (proj1 (sim_apply_mul n f' g' p p)).
    + intros p. symmetry. exact (proj2 (sim_apply_mul n f' g' p p)).
  - apply (rep_unique n _ _ _ _ (rep_isometry n _)).
    eapply rep_ext; [| |exact (rep_identity n)]; intros p; symmetry;
    [exact (proj1 (iso_apply_id n p p))|exact (proj2 (iso_apply_id n p p))].
  - apply (rep_unique n _ _ _ _ (rep_similarity n _)).
    eapply rep_ext; [| |exact (rep_identity n)]; intros p; symmetry.
    + unfold sim_apply_point, sim_identity; cbn [sim_isometry sim_scale]. rewrite ID.
      exact (proj1 (iso_apply_id n p p)).
    + unfold sim_apply_vector, sim_identity; cbn [sim_isometry sim_scale]. rewrite IV.
      exact (proj2 (iso_apply_id n p p)).
  - apply (rep_unique n _ _ _ _ (rep_similarity n _)).
    eapply rep_ext; [| |exact (rep_isometry n f)]; intros p.
    + unfold sim_apply_point, sim_from_isometry; cbn [sim_isometry sim_scale]. rewrite ID. reflexivity.
    + unfold sim_apply_vector, sim_from_isometry; cbn [sim_isometry sim_scale]. rewrite IV. reflexivity.
Qed.

Lemma re_normal_neg n (f : reflection K n) : vdot (re_normal f) (re_normal f) = 1 ->
  re_apply_vector f (re_normal f) = vneg (re_normal f).
Proof. intros H. unfold re_apply_vector. rewrite H. vext. ring. Qed.
Lemma re_vector_plane n (f : reflection K n) v : vdot v (re_normal f) = 0 -> re_apply_vector f v = v.
Proof. intros H. unfold re_apply_vector. rewrite H. vext. ring. Qed.

Lemma sh_entries n (f : shear K n) (p : point K n) : forall i, (i < n)%nat ->
  vat (sh_apply_point f p) i =
  vat p i + sh_factor f * sum n (fun k => (vat p k - vat (sh_origin f) k) * vat (sh_normal f) k) *
    vat (sh_direction f) i.
Proof.
  intros i Hi. unfold sh_apply_point, padd, pdiff.
  rewrite vat_vadd, vat_vmul_s, vdot_sum by exact Hi.
  rewrite (sum_ext n _ (fun k => (vat p k - vat (sh_origin f) k) * vat (sh_normal f) k)).
  - ring.
  - intros k Hk. rewrite vat_vsub by exact Hk. reflexivity.
Qed.
Lemma sh_constructors (s x y z : K) :
    sh_apply_point (sh2from_shear_xy s) (v2 x y) = v2 (x + s * y) y /\
    sh_apply_point (sh2from_shear_yx s) (v2 x y) = v2 x (y + s * x) /\
    sh_apply_point (sh3from_shear_xy s) (v3 x y z) = v3 (x + s * y) y z /\
    sh_apply_point (sh3from_shear_xz s) (v3 x y z) = v3 (x + s * z) y z /\
    sh_apply_point (sh3from_shear_yx s) (v3 x y z) = v3 x (y + s * x) z /\
    sh_apply_point (sh3from_shear_yz s) (v3 x y z) = v3 x (y + s * z) z /\
    sh_apply_point (sh3from_shear_zx s) (v3 x y z) = v3 x y (z + s * x) /\
    sh_apply_point (sh3from_shear_zy s) (v3 x y z) = v3 x y (z + s * y).
Proof.
  cbv [sh2from_shear_xy sh2from_shear_yx sh3from_shear_xy sh3from_shear_xz sh3from_shear_yx sh3from_shear_yz
       sh3from_shear_zx sh3from_shear_zy sh_apply_point sh_factor sh_origin sh_direction sh_normal porigin padd pdiff].
  conjs; vcompute; pairs ltac:(ring).
Qed.

Lemma iso_entries n (f : isometry K n) (p : point K n) : forall i, (i < n)%nat ->
  vat (iso_apply_point f p) i =
  sum n (fun k => mget (iso_rotation f) k i * vat p k) + vat (iso_translation f) i.
Proof.
  intros i Hi. unfold iso_apply_point, tr_apply_point, rot_apply_point, padd, pfrom_vector, pto_vector.
  rewrite vat_vadd, vat_mmulv by exact Hi. reflexivity.
Qed.
Lemma sim_entries n (f : similarity K n) (p : point K n) (v : vec K n) (k : isometry K n) :
  (forall i, (i < n)%nat -> vat (sim_apply_point f p) i =
     sim_scale f * sum n (fun j => mget (iso_rotation (sim_isometry f)) j i * vat p j) +
     vat (iso_translation (sim_isometry f)) i) /\
  sim_apply_vector f v = vmul_s (mmulv (iso_rotation (sim_isometry f)) v) (sim_scale f) /\
  sim_apply_point (sim_from_isometry k) p = iso_apply_point k p /\
  sim_apply_point (sim_identity n) p = p.
Proof.
  assert (ID : pmul_s p 1 = p) by (unfold pmul_s; vext; ring).
  conjs.
  - intros i Hi. unfold sim_apply_point. rewrite iso_entries by exact Hi.
    rewrite <- sum_mul_l. f_equal. apply sum_ext. intros j Hj. unfold pmul_s.
    rewrite vat_vmul_s by exact Hj. ring.
  - unfold sim_apply_vector, iso_apply_vector, rot_apply_vector. apply mmulv_mul_s.
  - unfold sim_apply_point, sim_from_isometry; cbn [sim_isometry sim_scale]. rewrite ID. reflexivity.
  - unfold sim_apply_point, sim_identity; cbn [sim_isometry sim_scale]. rewrite ID.
    exact (proj1 (iso_apply_id n p p)).
Qed.

Lemma tf_vector_entries n (f : transform K n) (v : vec K n) : forall i, (i < n)%nat ->
  vat (tf_apply_vector f v) i = sum n (fun k => mget f k i * vat v k).
Proof.
  intros i Hi. unfold tf_apply_vector. rewrite vat_vcontract, vat_mmulv by lia. cbn [sum].
  rewrite extend_last. transitivity (sum n (fun k => mget f k i * vat (vextend v 0) k)); [ring|].
  apply sum_ext. intros k Hk. rewrite vat_vextend by lia. destruct (Nat.eqb_spec k n); [lia|reflexivity].
Qed.
Lemma tf_weight_zero n (g : transform K n) (v : vec K n) :
  (forall j, (j < n)%nat -> mget g j n = 0) -> vat (mmulv g (vextend v 0)) n = 0.
Proof.
  intros H. rewrite vat_mmulv by lia. cbn [sum]. rewrite extend_last.
  rewrite (sum_ext n _ (fun _ => 0)).
  - rewrite sum_zero. ring.
  - intros k Hk. rewrite H by exact Hk. ring.
Qed.
End Ring.

Section Fld.
Variables (K : Type) (NK : Num K) (ND : NumDiv K) (FK : FieldLaws K).
#[local] Instance rl_of_fieldS : RingLaws K := field_ring.
Lemma rep_tf_point n (m : mat K (S n) (S n)) fp fv : represents m fp fv ->
  forall p, tf_apply_point m p = Some (fp p).
Proof. intros [A B] p. apply tf_point_affine. apply A. Qed.
Lemma rep_tf_vector n (m : mat K (S n) (S n)) fp fv : represents m fp fv ->
  forall v, tf_apply_vector m v = fv v.
Proof. intros [A B] v. eapply tf_vector_affine. apply B. Qed.
Lemma tf_inverse_points (f : transform K 2) (p q : point K 2) (f3 : transform K 3) (p3 q3 : point K 3) :
    (m3det f <> n0 -> exists h, tf2try_inverse f = Some h /\ tf2inverse f = Some h /\
       mmul f h = midentity 3 /\ mmul h f = midentity 3 /\
       (tf_apply_point f p = Some q -> tf2inverse_apply_point f q = Some (Some p) /\
                                       tf_apply_point h q = Some p)) /\
    (m3det f = n0 -> tf2try_inverse f = None /\ tf2inverse_apply_point f q = None) /\
    (m4det f3 <> n0 -> exists h, tf3try_inverse f3 = Some h /\ tf3inverse f3 = Some h /\
       mmul f3 h = midentity 4 /\ mmul h f3 = midentity 4 /\
       (tf_apply_point f3 p3 = Some q3 -> tf3inverse_apply_point f3 q3 = Some (Some p3) /\
                                          tf_apply_point h q3 = Some p3)) /\
    (m4det f3 = n0 -> tf3try_inverse f3 = None /\ tf3inverse_apply_point f3 q3 = None).
Proof.
  conjs.
  - intros D. destruct (m3try_inverse f) as [h|] eqn:E; [|apply m3try_inverse_none in E; contradiction].
    destruct (m3try_inverse_some f h E) as [A B]. exists h.
    refine (conj E (conj E (conj A (conj B _)))). intros H.
    pose proof (tf_undo_point 2 f h p q B H) as G. split; [|exact G].
    unfold tf2inverse_apply_point, tf2try_inverse. rewrite E. cbn [option_map]. f_equal. exact G.
  - intros D. apply m3try_inverse_none in D. split; [exact D|].
    unfold tf2inverse_apply_point, tf2try_inverse. rewrite D. reflexivity.
  - intros D. destruct (m4try_inverse f3) as [h|] eqn:E; [|apply m4try_inverse_none in E; contradiction].
    destruct (m4try_inverse_some f3 h E) as [A B]. exists h.
    refine (conj E (conj E (conj A (conj B _)))). intros H.
    pose proof (tf_undo_point 3 f3 h p3 q3 B H) as G. split; [|exact G].
    unfold tf3inverse_apply_point, tf3try_inverse. rewrite E. cbn [option_map]. f_equal. exact G.
  - intros D. apply m4try_inverse_none in D. split; [exact D|].
    unfold tf3inverse_apply_point, tf3try_inverse. rewrite D. reflexivity.
Qed.
End Fld.

(** The matrix with last row [(1, 0, 1)]: the weight of a vector becomes its x coordinate. *)
Lemma tf_vectors_refuted :
  exists (f g : transform Qc 2) (v : vec Qc 2),
    tf_apply_vector (tf_mul f g) v <> tf_apply_vector f (tf_apply_vector g v) /\
    m3det g <> 0%Qc /\
    tf2inverse_apply_vector g (tf_apply_vector g v) <> Some v.
Proof.
  exists (m3new 1 0 0 0 1 0 (1+1) 0 1)%Qc, (m3new 1 0 1 0 1 0 (1+1) 0 1)%Qc, (v2 1 0)%Qc.
  conjs; intros H; vm_compute in H; discriminate.
Qed.
Lemma tf_example :
  tf_apply_point (m3new 1 0 0 0 1 1 0 0 1)%Qc (v2 (Q2Qc (QArith_base.Qmake 6 1)) (Q2Qc (QArith_base.Qmake 2 1)))%Qc =
  Some (v2 (Q2Qc (QArith_base.Qmake 2 1)) (Q2Qc (QArith_base.Qmake 2 3)))%Qc /\
  tf_apply_point (m3new 1 0 0 0 1 1 0 0 1)%Qc (v2 (Q2Qc (QArith_base.Qmake 6 1)) (-(1)))%Qc = None.
Proof.
  split; vm_compute; [|reflexivity].
  f_equal. f_equal. apply Qc_is_canon; reflexivity.
Qed.

Local Open Scope R_scope.
Lemma sh_form_diff n (f : shear R n) (p q : point R n) :
  pdiff (sh_apply_point f p) (sh_apply_point f q) =
  vadd (pdiff p q) (vmul_s (sh_direction f) (sh_factor f *
    (vdot (sh_normal f) (pdiff p q) - vdot (sh_normal f) (sh_origin f) * 0))).
Proof.
  unfold sh_apply_point, padd, pdiff.
  rewrite (vdot_comm n (sh_normal f) (vsub p q)), !vdot_sub_l. vext. rnum. ring.
Qed.
Lemma is_rotation2_mul (a b : mat R 2 2) : is_rotation a -> is_rotation b -> is_rotation (mmul a b).
Proof.
  intros A B. rewrite (rotation2_angle a A), (rotation2_angle b B).
  rewrite m2from_angle_add. apply m2from_angle_rot.
Qed.
Lemma is_rotation2_transpose (a : mat R 2 2) : is_rotation a -> is_rotation (mtranspose a).
Proof.
  intros A. rewrite (rotation2_angle a A). generalize (ratan2 (mget a 0 1) (mget a 0 0)). intros t.
  replace (mtranspose (m2from_angle t)) with (m2from_angle (- t)); [apply m2from_angle_rot|].
  unfold m2from_angle. rewrite cos_neg, sin_neg. rcompute. pairs ltac:(ring).
Qed.
Lemma rot_constructors (t : R) (a : vec R 3) (q : quat R) (e : euler) (r s : rotation R 3) (r2 s2 : rotation R 2) :
    is_rotation (rot2from_angle t) /\
    (vnorm a = 1 -> is_rotation (rot3from_axis_angle a t)) /\
    (q <> qzero -> is_rotation (rot3from_quaternion q)) /\
    is_rotation (rot3from_euler_angles e) /\
    (is_rotation r -> is_rotation s -> is_rotation (rot_mul r s) /\ is_rotation (rot_inverse r)) /\
    (is_rotation r2 -> is_rotation s2 -> is_rotation (rot_mul r2 s2) /\ is_rotation (rot_inverse r2)) /\
    rot3from_angle_x t = m3from_angle_x t /\ rot3from_angle_y t = m3from_angle_y t /\
    rot3from_angle_z t = m3from_angle_z t.
Proof.
  refine (conj (m2from_angle_rot t) (conj (m3from_axis_angle_rot a t) (conj (qto_matrix_rot q)
    (conj (euler_rot e) (conj _ (conj _ (conj _ (conj _ _)))))))).
  - intros A B. exact (conj (is_rotation_mul r s A B) (is_rotation_transpose r A)).
  - intros A B. exact (conj (is_rotation2_mul r2 s2 A B) (is_rotation2_transpose r2 A)).
  - symmetry. apply m3from_angle_x_axis.
  - symmetry. apply m3from_angle_y_axis.
  - symmetry. apply m3from_angle_z_axis.
Qed.
