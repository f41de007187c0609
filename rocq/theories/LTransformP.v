(** Transforms: the proofs of the property theorems of PTransform.v, assembled from the lemmas. *)

From Coq Require Import List Arith Lia Bool Reals Lra Psatz Ring ZArith Qcanon.
From Verif Require Import Base Scalar Spec SpecRot SpecTransform LBase MVector LVector LVectorR MMatrix LMatrix
  LMatrixDet LMatrixR LMatrixM MPoint MReal LReal MAngle MMisc LMisc MRot LRot LRotBetween LLook LRotP
  MQuat LQuat LQuatR MTransform LTransform LTransformF LTransformR LTransformS.
Import ListNotations.
Local Open Scope R_scope.

Lemma c53_rotation2_between_axis :
  forall u1 u2 : vec R 2, vnorm u1 = 1 -> vnorm u2 = 1 ->
    is_rotation (rot2rotation_between_axis u1 u2) /\
    rot_apply_vector (rot2rotation_between_axis u1 u2) u1 = u2 /\
    iso_apply_vector (iso2rotation_between_axis u1 u2) u1 = u2 /\
    iso_apply_point (iso2rotation_between_axis u1 u2) u1 = u2.
Proof.
  intros a b A B. destruct (rot2_between_axis a b A B) as [R M].
  conjs; [exact R|exact M|exact M|].
  change (padd (rot_apply_point (rot2rotation_between_axis a b) a) (vzero 2) = b).
  change (rot_apply_point (rot2rotation_between_axis a b) a) with
    (rot_apply_vector (rot2rotation_between_axis a b) a).
  rewrite M. unfold padd. vext. rnum. ring.
Qed.

Lemma c53_rotation2_between :
  forall v1 v2 : vec R 2,
    (v1 <> vzero 2 -> v2 <> vzero 2 ->
       is_rotation (rot2rotation_between v1 v2) /\
       vmul_s (rot_apply_vector (rot2rotation_between v1 v2) v1) (vnorm v2) = vmul_s v2 (vnorm v1) /\
       iso_rotation (iso2rotation_between v1 v2) = rot2rotation_between v1 v2 /\
       iso_translation (iso2rotation_between v1 v2) = vzero 2) /\
    (v1 = vzero 2 \/ v2 = vzero 2 ->
       rot2rotation_between v1 v2 = midentity 2 /\ iso2rotation_between v1 v2 = iso_identity 2).
Proof.
  intros a b. split.
  - intros A B. destruct (rot2_between a b A B) as [R M]. destruct (rot2_between_nz a b A B) as [E1 E2].
    conjs; [exact R|exact M|rewrite E1, E2; reflexivity|rewrite E2; reflexivity].
  - exact (rot2_between_zero a b).
Qed.

Lemma c53_rotation3_between :
  forall u1 u2 : vec R 3, vnorm u1 = 1 -> vnorm u2 = 1 ->
    (u2 <> vneg u1 -> exists r f,
       rot3rotation_between_axis_eps u1 u2 0 = Some r /\ is_rotation r /\ rot_apply_vector r u1 = u2 /\
       iso3rotation_between_axis_eps u1 u2 0 = Some f /\ iso_apply_vector f u1 = u2 /\
       iso_translation f = vzero 3) /\
    (u2 = vneg u1 ->
       rot3rotation_between_axis_eps u1 u2 0 = None /\ iso3rotation_between_axis_eps u1 u2 0 = None).
Proof.
  intros a b A B. destruct (qrotation_between_axis_exact a b A B) as [S N]. split.
  - intros H. destruct (S H) as (q & E & U & M). exists (qto_matrix q), (iso_from_parts (tr_identity 3) (qto_matrix q)).
    unfold iso3rotation_between_axis_eps, rot3rotation_between_axis_eps. rewrite E.
    conjs; [reflexivity| |exact M|reflexivity|exact M|reflexivity].
    apply qto_matrix_rot. intros Z. apply qnorm_unit_iff in U. rewrite Z in U. revert U. clear.
    qrcompute. lra.
  - intros H. unfold iso3rotation_between_axis_eps, rot3rotation_between_axis_eps. rewrite (N H). split; reflexivity.
Qed.

Lemma c53_example :
  vnorm (v2 1 0) = 1 /\ vnorm (v2 (3/5) (4/5)) = 1 /\ v2 3 4 <> (vzero 2 : vec R 2) /\
  v3 0 1 0 <> vneg (v3 1 0 0 : vec R 3).
Proof.
  conjs.
  - apply unit_norm_iff. rcompute. ring.
  - apply unit_norm_iff. rcompute. field.
  - intros E. apply (f_equal (fun v => vat v 0)) in E. revert E. rcompute. lra.
  - intros E. apply (f_equal (fun v => vat v 1)) in E. revert E. rcompute. lra.
Qed.

Lemma c60_rotation3_euler :
  forall (r : rotation R 3) (e : euler),
    (is_rotation r -> rot3from_euler_angles (rot3euler_angles r) = r) /\
    (- (PI / 2) < eu_y e < PI / 2 -> - PI < eu_x e <= PI -> - PI < eu_z e <= PI ->
       rot3euler_angles (rot3from_euler_angles e) = e).
Proof.
  assert (E : forall r, rot3euler_angles r = euler_from_matrix r).
  { intros r. unfold rot3euler_angles, euler_from_matrix. cbv zeta.
    destruct (Req_EM_T _ _); reflexivity. }
  intros r e. rewrite !E. split; [exact (euler_from_matrix_inv r)|exact (euler_roundtrip e)].
Qed.

Lemma c43_rotation3_quaternion :
  forall (r : rotation R 3), is_rotation r ->
    qnorm (rot3to_quaternion r) = 1 /\ rot3from_quaternion (rot3to_quaternion r) = r.
Proof.
  exact qfrom_matrix_spec.
Qed.

Lemma c63_look_isometry :
  forall (eye p : point R 3) (d up v : vec R 3),
    iso_apply_point (iso3look_to_lh eye d up) p = mmulv (m3look_to_lh d up) (pdiff p eye) /\
    iso_apply_point (iso3look_to_rh eye d up) p = mmulv (m3look_to_rh d up) (pdiff p eye) /\
    iso_apply_vector (iso3look_to_lh eye d up) v = mmulv (m3look_to_lh d up) v /\
    iso_apply_vector (iso3look_to_rh eye d up) v = mmulv (m3look_to_rh d up) v /\
    iso_to_affine_matrix (iso3look_to_lh eye d up) = m4look_to_lh eye d up /\
    iso_to_affine_matrix (iso3look_to_rh eye d up) = m4look_to_rh eye d up /\
    iso_apply_point (iso3look_to_lh eye d up) eye = vzero 3 /\
    iso_apply_point (iso3look_to_rh eye d up) eye = vzero 3 /\
    iso3look_at_lh eye p up = iso3look_to_lh eye (pdiff p eye) up /\
    iso3look_at_rh eye p up = iso3look_to_rh eye (pdiff p eye) up.
Proof.
  intros eye p d up v.
  assert (Z : pdiff eye eye = vzero 3) by (unfold pdiff; vext; rnum; ring).
  pose proof (view_matrix_lh eye d up) as [M1 M2].
  refine (conj (proj1 (view_apply eye _ p v)) (conj (proj1 (view_apply eye _ p v))
    (conj (proj2 (view_apply eye _ p v)) (conj (proj2 (view_apply eye _ p v)) (conj M1 (conj M2
    (conj _ (conj _ (conj eq_refl eq_refl))))))))).
  - etransitivity; [exact (proj1 (view_apply eye _ eye v))|]. rewrite Z. apply mmulv_0.
  - etransitivity; [exact (proj1 (view_apply eye _ eye v))|]. rewrite Z. apply mmulv_0.
Qed.

Lemma c63_look_inverse_partial :
  forall (eye target : point R 3) (d up : vec R 3), vcross up d <> vzero 3 ->
    (iso3look_to_lh_inv eye d up = iso_inverse (iso3look_to_lh eye d up) <->
       mmulv (m3look_to_lh d up) eye = vneg eye) /\
    (iso3look_to_rh_inv eye d up = iso_inverse (iso3look_to_rh eye d up) <->
       mmulv (m3look_to_rh d up) eye = vneg eye) /\
    iso_inverse (iso3look_to_lh eye d up) = iso_from_parts eye (m3look_to_lh_inv d up) /\
    iso_inverse (iso3look_to_rh eye d up) = iso_from_parts eye (m3look_to_rh_inv d up) /\
    iso_rotation (iso3look_to_lh_inv eye d up) = m3look_to_lh_inv d up /\
    iso_rotation (iso3look_to_rh_inv eye d up) = m3look_to_rh_inv d up /\
    iso_translation (iso3look_to_lh_inv eye d up) = vneg (mmulv (m3look_to_lh_inv d up) eye) /\
    iso_translation (iso3look_to_rh_inv eye d up) = vneg (mmulv (m3look_to_rh_inv d up) eye) /\
    iso3look_at_lh_inv eye target up = iso3look_to_lh_inv eye (pdiff target eye) up /\
    iso3look_at_rh_inv eye target up = iso3look_to_rh_inv eye (pdiff target eye) up /\
    sim3look_to_lh_inv eye d up = sim_from_isometry (iso3look_to_lh_inv eye d up) /\
    sim3look_to_rh_inv eye d up = sim_from_isometry (iso3look_to_rh_inv eye d up).
Proof.
  intros eye target d up H.
  destruct (m3look_to_lh_spec d up H) as (R1 & _). destruct (m3look_to_rh_spec d up H) as (R2 & _).
  destruct (view_inverse eye _ R1) as [I1 J1]. destruct (view_inverse eye _ R2) as [I2 J2].
  assert (E : forall m : mat R 3 3, pdiff (rot_apply_point m (pneg eye)) (porigin 3) = vneg (mmulv m eye)).
  { intros m. clear. mdestruct3 m. destruct3 eye.
    cbv [rot_apply_point pdiff pneg porigin pto_vector pfrom_vector]. rcompute. pairs ltac:(ring). }
  exact (conj J1 (conj J2 (conj I1 (conj I2 (conj eq_refl (conj eq_refl (conj (E _) (conj (E _)
    (conj eq_refl (conj eq_refl (conj eq_refl eq_refl))))))))))).
Qed.

Lemma c63_look_inverse_refuted :
  exists (eye : point R 3) (d up : vec R 3), vcross up d <> vzero 3 /\
    iso3look_to_lh_inv eye d up <> iso_inverse (iso3look_to_lh eye d up) /\
    iso_apply_point (iso3look_to_lh_inv eye d up) (iso_apply_point (iso3look_to_lh eye d up) eye) <> eye.
Proof.
  exists (v3 1 2 3), (v3 1 0 0), (v3 0 1 0). split; [exact look_cross_example|].
  destruct (m3look_to_lh_spec _ _ look_cross_example) as (R1 & _).
  destruct (view_inverse (v3 1 2 3) _ R1) as [_ J]. split.
  - intros G. apply J in G. rewrite look_example_matrix in G.
    apply (f_equal (fun v => vat v 1)) in G. revert G. rcompute. lra.
  - unfold iso3look_to_lh_inv, iso3look_to_lh.
    rewrite (proj1 (view_apply _ _ _ (v3 0 0 0))).
    rewrite (proj1 (view_apply (v3 1 2 3) _ _ (v3 0 0 0))).
    unfold rot3look_to_lh_inv, rot3look_to_lh, m3look_to_lh_inv. rewrite look_example_matrix.
    intros G. apply (f_equal (fun v => vat v 1)) in G. revert G. rcompute. lra.
Qed.

Lemma c64_translations :
  forall (K : Type) (NK : Num K) (LK : RingLaws K) (n : nat) (s t r : translation K n)
         (p q : point K n) (u v : vec K n),
    (forall i, (i < n)%nat -> vat (tr_apply_point t p) i = nadd (vat p i) (vat t i)) /\
    tr_apply_vector t v = v /\ tr_inverse_apply_vector t v = v /\
    tr_apply_point (tr_mul s t) p = tr_apply_point s (tr_apply_point t p) /\
    tr_mul r (tr_mul s t) = tr_mul (tr_mul r s) t /\ tr_mul s t = tr_mul t s /\
    tr_mul (tr_identity n) t = t /\ tr_apply_point (tr_identity n) p = p /\
    tr_mul t (tr_inverse t) = tr_identity n /\ tr_inverse_mut t = tr_inverse t /\
    tr_inverse_apply_point t (tr_apply_point t p) = p /\
    tr_apply_point t (tr_inverse_apply_point t p) = p /\
    tr_inverse_apply_point t p = tr_apply_point (tr_inverse t) p /\
    tr_apply_point (tr_between_points p q) p = q /\
    tr_apply_point (tr_between_vectors u v) u = v.
Proof.
  intros. destruct (tr_inv_apply n t p) as (I1 & I2 & I3). destruct (tr_between n p q u v) as [B1 B2].
  refine (conj _ (conj eq_refl (conj eq_refl (conj (tr_apply_mul n s t p) (conj (tr_mul_assoc n r s t)
    (conj (tr_mul_comm n s t) (conj (tr_mul_id n t) (conj (tr_apply_id n p) (conj (tr_mul_inv n t)
    (conj (tr_inverse_mut_eq n t) (conj I1 (conj I2 (conj I3 (conj B1 B2)))))))))))))).
  intros i Hi. exact (vat_vadd n p t i Hi).
Qed.

Lemma c64_translation_matrix :
  forall (K : Type) (NK : Num K) (ND : NumDiv K) (FK : FieldLaws K) (n : nat) (s t : translation K n)
         (p : point K n) (v : vec K n),
    represents (tr_to_affine_matrix t) (tr_apply_point t) (tr_apply_vector t) /\
    tf_apply_point (tr_to_transform t) p = Some (tr_apply_point t p) /\
    tf_apply_vector (tr_to_transform t) v = tr_apply_vector t v /\
    tr_to_affine_matrix (tr_mul s t) = mmul (tr_to_affine_matrix s) (tr_to_affine_matrix t) /\
    tr_to_affine_matrix (tr_identity n) = midentity (S n).
Proof.
  intros. pose (LK := (field_ring : RingLaws K)).
  pose proof (rep_translation K NK LK n) as R.
  conjs; [exact (R t)|exact (rep_tf_point _ _ _ _ _ _ _ _ (R t) p)|exact (rep_tf_vector _ _ _ _ _ _ (R t) v)| |].
  - apply (rep_unique K NK LK n _ _ (tr_apply_point (tr_mul s t)) (fun v => v) (R _)).
    eapply rep_ext; [| |exact (rep_mul K NK LK n _ _ _ _ _ _ (R s) (R t))].
    + intros. symmetry. apply tr_apply_mul.
    + reflexivity.
  - apply (rep_unique K NK LK n _ _ (tr_apply_point (tr_identity n)) (fun v => v) (R _)).
    eapply rep_ext; [| |exact (rep_identity K NK LK n)].
    + intros. symmetry. apply tr_apply_id.
    + reflexivity.
Qed.

Lemma c64_example :
  tr_apply_point (tr_mul (v2 1 2) (v2 3 4))%Z (v2 10 20)%Z = (v2 14 26)%Z /\
  tr_apply_point (tr_between_points (v2 1 2) (v2 7 5))%Z (v2 1 2)%Z = (v2 7 5)%Z.
Proof.
  split; reflexivity.
Qed.

Lemma c65_scales :
  forall (K : Type) (NK : Num K) (LK : RingLaws K) (n : nat) (s t : scale K n) (c : K)
         (v : vec K n) (p : point K n),
    (forall i, (i < n)%nat -> vat (sc_apply_vector s v) i = nmul (vat s i) (vat v i) /\
                              vat (sc_apply_point s p) i = nmul (vat s i) (vat p i) /\
                              vat (sc_apply_vector (sc_from_scale n c) v) i = nmul c (vat v i) /\
                              vat (sc_mul s t) i = nmul (vat s i) (vat t i)) /\
    sc_apply_vector (sc_mul s t) v = sc_apply_vector s (sc_apply_vector t v) /\
    sc_apply_point (sc_mul s t) p = sc_apply_point s (sc_apply_point t p) /\
    sc_apply_vector (sc_identity n) v = v /\ sc_apply_point (sc_identity n) p = p /\
    mmulv (sc_to_matrix s) v = sc_apply_vector s v.
Proof.
  intros. destruct (sc_apply_mul n s t v p) as [A1 A2]. destruct (sc_identity_apply n v p) as [I1 I2].
  assert (G : forall (a b : vec K n) i, (i < n)%nat -> vat (sc_apply_vector (a : scale K n) b) i = nmul (vat a i) (vat b i)).
  { intros a b i Hi. exact (vget_loop_fill n0 n (fun i => nmul (vat a i) (vat b i)) (vzero n) i Hi). }
  refine (conj _ (conj A1 (conj A2 (conj I1 (conj I2 (sc_matrix_act n s v)))))).
  intros i Hi. refine (conj (G s v i Hi) (conj (G s p i Hi) (conj _ (sc_entries n s t i Hi)))).
  rewrite G by exact Hi. f_equal. exact (vget_vfill n0 n c i Hi).
Qed.

Lemma c65_scale_inverse :
  forall (K : Type) (NK : Num K) (ND : NumDiv K) (FK : FieldLaws K) (n : nat) (s t : scale K n)
         (v : vec K n) (p : point K n),
    ((forall i, (i < n)%nat -> vat s i <> n0) ->
       sc_inverse_apply_vector s (sc_apply_vector s v) = v /\
       sc_apply_vector s (sc_inverse_apply_vector s v) = v /\
       sc_inverse_apply_point s (sc_apply_point s p) = p /\
       sc_apply_point s (sc_inverse_apply_point s p) = p /\
       sc_inverse_apply_vector s v = sc_apply_vector (sc_inverse s) v /\
       sc_inverse_apply_point s p = sc_apply_point (sc_inverse s) p /\
       sc_mul s (sc_inverse s) = sc_identity n) /\
    represents (sc_to_affine_matrix s) (sc_apply_point s) (sc_apply_vector s) /\
    tf_apply_point (sc_to_transform s) p = Some (sc_apply_point s p) /\
    tf_apply_vector (sc_to_transform s) v = sc_apply_vector s v /\
    sc_to_affine_matrix (sc_mul s t) = mmul (sc_to_affine_matrix s) (sc_to_affine_matrix t).
Proof.
  intros. pose (LK := (field_ring : RingLaws K)).
  pose proof (rep_scale K NK LK n) as R.
  refine (conj _ (conj (R s) (conj (rep_tf_point _ _ _ _ _ _ _ _ (R s) p)
    (conj (rep_tf_vector _ _ _ _ _ _ (R s) v) _)))).
  - intros H. destruct (sc_undo_vector n s v H) as (A & B & C & D).
    destruct (sc_undo_vector n s p H) as (A' & B' & C' & _).
    exact (conj A (conj B (conj A' (conj B' (conj C (conj C' D)))))).
  - apply (rep_unique K NK LK n _ _ (sc_apply_point (sc_mul s t)) (sc_apply_vector (sc_mul s t)) (R _)).
    eapply rep_ext; [| |exact (rep_mul K NK LK n _ _ _ _ _ _ (R s) (R t))].
    + intros x. symmetry. exact (proj2 (sc_apply_mul n s t x x)).
    + intros x. symmetry. exact (proj1 (sc_apply_mul n s t x x)).
Qed.

Lemma c65_example :
  (forall i, (i < 2)%nat -> vat (v2 2 4 : vec R 2) i <> 0) /\
  sc_apply_vector (v2 2 4)%Z (v2 10 20)%Z = (v2 20 80)%Z.
Proof.
  split; [|reflexivity]. intros [|[|i]] Hi; try lia; cbn; lra.
Qed.

Lemma c66_reflections :
  forall (K : Type) (NK : Num K) (LK : RingLaws K) (n : nat) (f : reflection K n)
         (p q : point K n) (u v : vec K n),
    vdot (re_normal f) (re_normal f) = n1 ->
    re_apply_point f (re_apply_point f p) = p /\ re_apply_vector f (re_apply_vector f v) = v /\
    re_inverse_apply_point f (re_apply_point f p) = p /\
    re_inverse_apply_vector f (re_apply_vector f v) = v /\
    re_apply_point (re_inverse f) (re_apply_point f p) = p /\
    vdot (re_apply_vector f u) (re_apply_vector f v) = vdot u v /\
    pdiff (re_apply_point f p) (re_apply_point f q) = re_apply_vector f (pdiff p q) /\
    vdot (pdiff (re_apply_point f p) (re_bias f)) (re_normal f) =
      nneg (vdot (pdiff p (re_bias f)) (re_normal f)) /\
    (exists c, pdiff (re_apply_point f p) p = vmul_s (re_normal f) c) /\
    re_apply_vector f (re_normal f) = vneg (re_normal f) /\
    (vdot v (re_normal f) = n0 -> re_apply_vector f v = v) /\
    (vdot (pdiff p (re_bias f)) (re_normal f) = n0 -> re_apply_point f p = p).
Proof.
  intros K NK LK n f p q u v H.
  pose proof (re_point_twice n f p H) as A. pose proof (re_vector_twice n f v H) as B.
  refine (conj A (conj B (conj A (conj B (conj A (conj (re_dot n f u v H) (conj (re_point_vector n f p q)
    (conj (re_flip n f p H) (conj (re_normal_dir n f p) (conj _ (conj _ (re_plane n f p)))))))))))).
  - exact (re_normal_neg K NK LK n f H).
  - exact (re_vector_plane K NK LK n f v).
Qed.

Lemma c66_reflection_distance :
  forall (n : nat) (f : reflection R n) (p q : point R n) (v : vec R n),
    vnorm (re_normal f) = 1 ->
    pdist (re_apply_point f p) (re_apply_point f q) = pdist p q /\
    vnorm (re_apply_vector f v) = vnorm v /\
    (re_apply_point f p = p <-> vdot (pdiff p (re_bias f)) (re_normal f) = 0).
Proof.
  intros n f p q v H. assert (N := proj1 (unit_norm_iff n (re_normal f)) H).
  assert (V : forall u, vnorm (re_apply_vector f u) = vnorm u).
  { intros u. unfold vnorm, vnorm_squared. f_equal. exact (re_dot n f u u N). }
  conjs.
  - rewrite !pdist_diff, re_point_vector. apply V.
  - apply V.
  - split.
    + intros E. pose proof (re_flip n f p N) as F. rewrite E in F. revert F. rnum. lra.
    + exact (re_plane n f p).
Qed.

Lemma c66_reflection_matrix :
  forall (f : reflection R 2) (g : reflection R 3),
    represents (re2to_affine_matrix f) (re_apply_point f) (re_apply_vector f) /\
    represents (re3to_affine_matrix g) (re_apply_point g) (re_apply_vector g) /\
    (forall p, tf_apply_point (re2to_transform f) p = Some (re_apply_point f p)) /\
    (forall v, tf_apply_vector (re2to_transform f) v = re_apply_vector f v) /\
    (forall p, tf_apply_point (re3to_transform g) p = Some (re_apply_point g p)) /\
    (forall v, tf_apply_vector (re3to_transform g) v = re_apply_vector g v).
Proof.
  intros f g.
  pose proof (rep_re2 R _ _ f) as A. pose proof (rep_re3 R _ _ g) as B.
  exact (conj A (conj B (conj (fun p => rep_tf_point _ _ _ _ _ _ _ _ A p)
    (conj (fun v => rep_tf_vector _ _ _ _ _ _ A v)
    (conj (fun p => rep_tf_point _ _ _ _ _ _ _ _ B p) (fun v => rep_tf_vector _ _ _ _ _ _ B v)))))).
Qed.

Lemma c66_example :
  vdot (v2 0 1)%Z (v2 0 1)%Z = 1%Z /\
  re_apply_point (mkReflection (v2 0 1) (v2 5 3))%Z (v2 7 10)%Z = (v2 7 (-4))%Z.
Proof.
  split; reflexivity.
Qed.

Lemma c67_shears :
  forall (K : Type) (NK : Num K) (LK : RingLaws K) (n : nat) (f : shear K n) (p : point K n) (v : vec K n),
    (forall i, (i < n)%nat ->
       vat (sh_apply_point f p) i =
       nadd (vat p i) (nmul (nmul (sh_factor f)
         (sum n (fun k => nmul (nsub (vat p k) (vat (sh_origin f) k)) (vat (sh_normal f) k))))
         (vat (sh_direction f) i))) /\
    (vdot (sh_direction f) (sh_normal f) = n0 ->
       sh_inverse_apply_point f (sh_apply_point f p) = p /\
       sh_apply_point f (sh_inverse_apply_point f p) = p /\
       sh_inverse_apply_vector f (sh_apply_vector f v) = v /\
       sh_apply_vector f (sh_inverse_apply_vector f v) = v /\
       vdot (pdiff (sh_apply_point f p) (sh_origin f)) (sh_normal f) =
         vdot (pdiff p (sh_origin f)) (sh_normal f)) /\
    sh_apply_point (sh_inverse f) p = sh_inverse_apply_point f p /\
    sh_apply_vector (sh_inverse f) v = sh_inverse_apply_vector f v /\
    (vdot (pdiff p (sh_origin f)) (sh_normal f) = n0 -> sh_apply_point f p = p).
Proof.
  intros K NK LK n f p v. destruct (sh_inverse_eq n f p v) as [E1 E2].
  refine (conj _ (conj _ (conj E1 (conj E2 (sh_plane n f p))))).
  - exact (sh_entries K NK LK n f p).
  - intros H. destruct (sh_undo n f p v H) as (A & B & C & D).
    exact (conj A (conj B (conj C (conj D (sh_keep n f p H))))).
Qed.

Lemma c67_shear_identity :
  forall (K : Type) (NK : Num K) (LK : RingLaws K) (n : nat),
    (forall f : shear K n, sh_identity n = Some f ->
       (forall p, sh_apply_point f p = p) /\ (forall v, sh_apply_vector f v = v)) /\
    ((sh_identity n : option (shear K n)) = None <-> n = 0%nat).
Proof.
  intros K NK LK n. split; [exact (sh_identity_some n)|exact (sh_identity_none n)].
Qed.

Lemma c67_shear_inverse_iff :
  forall (n : nat) (f : shear R n),
    sh_factor f <> 0 -> vnorm (sh_direction f) = 1 -> vnorm (sh_normal f) = 1 ->
    ((forall p, sh_inverse_apply_point f (sh_apply_point f p) = p) <->
     vdot (sh_direction f) (sh_normal f) = 0).
Proof.
  exact sh_undo_iff.
Qed.

Lemma c67_shear_constructors :
  forall (K : Type) (NK : Num K) (LK : RingLaws K) (s x y z : K),
    sh_apply_point (sh2from_shear_xy s) (v2 x y) = v2 (nadd x (nmul s y)) y /\
    sh_apply_point (sh2from_shear_yx s) (v2 x y) = v2 x (nadd y (nmul s x)) /\
    sh_apply_point (sh3from_shear_xy s) (v3 x y z) = v3 (nadd x (nmul s y)) y z /\
    sh_apply_point (sh3from_shear_xz s) (v3 x y z) = v3 (nadd x (nmul s z)) y z /\
    sh_apply_point (sh3from_shear_yx s) (v3 x y z) = v3 x (nadd y (nmul s x)) z /\
    sh_apply_point (sh3from_shear_yz s) (v3 x y z) = v3 x (nadd y (nmul s z)) z /\
    sh_apply_point (sh3from_shear_zx s) (v3 x y z) = v3 x y (nadd z (nmul s x)) /\
    sh_apply_point (sh3from_shear_zy s) (v3 x y z) = v3 x y (nadd z (nmul s y)).
Proof.
  exact sh_constructors.
Qed.

Lemma c67_example :
  vdot (v2 1 0)%Z (v2 0 1)%Z = 0%Z /\
  sh_apply_point (mkShear 3 (v2 0 1) (v2 1 0) (v2 0 1))%Z (v2 5 4)%Z = (v2 14 4)%Z.
Proof.
  split; reflexivity.
Qed.

Lemma c68_shear_matrix_partial :
  forall (f : shear R 2) (g : shear R 3),
    vnorm (sh_direction f) = 1 -> vnorm (sh_normal f) = 1 ->
    vnorm (sh_direction g) = 1 -> vnorm (sh_normal g) = 1 ->
    (forall p, tf_apply_point (sh2to_transform f) p = Some (sh_apply_point f p)) /\
    (forall p, tf_apply_point (sh3to_transform g) p = Some (sh_apply_point g p)) /\
    (forall v, tf_apply_vector (sh2to_transform f) v = sh_apply_vector f v <->
               sh_factor f * vdot (sh_origin f : vec R 2) (sh_normal f) = 0) /\
    (forall v, tf_apply_vector (sh3to_transform g) v = sh_apply_vector g v <->
               sh_factor g * vdot (sh_origin g : vec R 3) (sh_normal g) = 0) /\
    (forall p q, pdiff (sh_apply_point f p) (sh_apply_point f q) =
                 tf_apply_vector (sh2to_transform f) (pdiff p q)) /\
    (forall p q, pdiff (sh_apply_point g p) (sh_apply_point g q) =
                 tf_apply_vector (sh3to_transform g) (pdiff p q)).
Proof.
  intros f g Df Nf Dg Ng.
  assert (V2 : forall v, tf_apply_vector (sh2to_transform f) v =
     vadd v (vmul_s (sh_direction f) (sh_factor f * (vdot (sh_normal f) v - vdot (sh_normal f) (sh_origin f) * 0)))).
  { intros v. eapply tf_vector_affine. exact (sh2_act f v 0 Df Nf). }
  assert (V3 : forall v, tf_apply_vector (sh3to_transform g) v =
     vadd v (vmul_s (sh_direction g) (sh_factor g * (vdot (sh_normal g) v - vdot (sh_normal g) (sh_origin g) * 0)))).
  { intros v. eapply tf_vector_affine. exact (sh3_act g v 0 Dg Ng). }
  conjs.
  - intros p. apply tf_point_affine. etransitivity; [exact (sh2_act f p 1 Df Nf)|].
    f_equal. apply sh_form_point.
  - intros p. apply tf_point_affine. etransitivity; [exact (sh3_act g p 1 Dg Ng)|].
    f_equal. apply sh_form_point.
  - intros v. rewrite V2. apply sh_form_vector. exact Df.
  - intros v. rewrite V3. apply sh_form_vector. exact Dg.
  - intros p q. rewrite V2. apply sh_form_diff.
  - intros p q. rewrite V3. apply sh_form_diff.
Qed.

Lemma c68_shear_vector_refuted :
  exists (f : shear R 2) (v : vec R 2),
    vnorm (sh_direction f) = 1 /\ vnorm (sh_normal f) = 1 /\ vdot (sh_direction f) (sh_normal f) = 0 /\
    tf_apply_vector (sh2to_transform f) v <> sh_apply_vector f v /\
    sh_apply_vector f (vzero 2) <> vzero 2.
Proof.
  assert (A : vnorm (v2 1 0) = 1) by (apply unit_norm_iff; rcompute; ring).
  assert (B : vnorm (v2 0 1) = 1) by (apply unit_norm_iff; rcompute; ring).
  exists (mkShear 1 (v2 0 1) (v2 1 0) (v2 0 1)), (v2 0 0). cbn [sh_direction sh_normal].
  conjs; [exact A|exact B|rcompute; ring| |].
  - intros E. revert E. unfold sh2to_transform, tf_from_matrix.
    rewrite (tf_vector_affine 2 _ _ _ 0
      (sh2_act (mkShear 1 (v2 0 1) (v2 1 0) (v2 0 1)) (v2 0 0) 0 A B)).
    intros E. apply sh_form_vector in E; [|exact A]. revert E.
    cbn [sh_direction sh_normal sh_factor sh_origin]. rcompute. lra.
  - intros E. apply (f_equal (fun v => vat v 0)) in E. revert E.
    cbv [sh_apply_vector sh_direction sh_normal sh_factor sh_origin pto_vector]. rcompute. lra.
Qed.

Lemma c69_rotations :
  forall (n : nat) (r s : rotation R n) (u v : vec R n) (p q : point R n),
    (forall i, (i < n)%nat -> vat (rot_apply_vector r v) i = sum n (fun k => mget r k i * vat v k)) /\
    rot_apply_vector (rot_mul r s) v = rot_apply_vector r (rot_apply_vector s v) /\
    rot_apply_point (rot_mul r s) p = rot_apply_point r (rot_apply_point s p) /\
    rot_apply_point r p = rot_apply_vector r p /\
    rot_inverse_apply_vector r v = rot_apply_vector (rot_inverse r) v /\
    rot_inverse_apply_point r p = rot_apply_point (rot_inverse r) p /\
    rot_inverse_mut r = Some (rot_inverse r) /\
    rot_apply_vector (rot_identity n) v = v /\
    (orthonormal_columns r ->
       rot_inverse_apply_vector r (rot_apply_vector r v) = v /\
       rot_apply_vector r (rot_inverse_apply_vector r v) = v /\
       rot_inverse_apply_point r (rot_apply_point r p) = p /\
       rot_apply_point r (rot_inverse_apply_point r p) = p /\
       rot_mul (rot_inverse r) r = rot_identity n /\ rot_mul r (rot_inverse r) = rot_identity n /\
       vdot (rot_apply_vector r u) (rot_apply_vector r v) = vdot u v /\
       vnorm (rot_apply_vector r v) = vnorm v /\
       pdist (rot_apply_point r p) (rot_apply_point r q) = pdist p q /\
       orthonormal_columns (rot_inverse r) /\
       (orthonormal_columns s -> orthonormal_columns (rot_mul r s))).
Proof.
  intros n r s u v p q.
  refine (conj _ (conj (rot_apply_mul n r s v) (conj (rot_apply_mul n r s p) (conj eq_refl
    (conj eq_refl (conj eq_refl (conj (rot_inverse_mut_eq n r) (conj (mmulv_1 n v) _)))))))).
  - intros i Hi. exact (vat_mmulv n n r v i Hi).
  - intros H. destruct (orth_pair n r H) as [A B].
    refine (conj (rot_undo n r v A) (conj (rot_undo' n r v B) (conj (rot_undo n r p A)
      (conj (rot_undo' n r p B) (conj A (conj B (conj (rotation_dot n r u v A) (conj (rotation_norm n r v A)
      (conj _ (conj (orth_inverse n r H) (orth_mul n r s H))))))))))).
    rewrite !pdist_diff. etransitivity; [|exact (rotation_norm n r (pdiff p q) A)].
    f_equal. symmetry. exact (mmulv_sub n n r p q).
Qed.

Lemma c69_rotation_constructors :
  forall (t : R) (a : vec R 3) (q : quat R) (e : euler) (r s : rotation R 3) (r2 s2 : rotation R 2),
    is_rotation (rot2from_angle t) /\
    (vnorm a = 1 -> is_rotation (rot3from_axis_angle a t)) /\
    (q <> qzero -> is_rotation (rot3from_quaternion q)) /\
    is_rotation (rot3from_euler_angles e) /\
    (is_rotation r -> is_rotation s -> is_rotation (rot_mul r s) /\ is_rotation (rot_inverse r)) /\
    (is_rotation r2 -> is_rotation s2 -> is_rotation (rot_mul r2 s2) /\ is_rotation (rot_inverse r2)) /\
    rot3from_angle_x t = m3from_angle_x t /\ rot3from_angle_y t = m3from_angle_y t /\
    rot3from_angle_z t = m3from_angle_z t.
Proof.
  exact rot_constructors.
Qed.

Lemma c69_example :
  orthonormal_columns (m2new 0 1 (-1) 0 : mat R 2 2).
Proof.
  apply orthonormal_iff. mcompute. rnum. pairs ltac:(ring).
Qed.

Lemma c70_rotation2_angle :
  forall (t : R) (r : rotation R 2),
    (exists k : Z, rot2angle (rot2from_angle t) = t + 2 * IZR k * PI) /\
    - PI < rot2angle r <= PI /\
    (- PI < t <= PI -> rot2angle (rot2from_angle t) = t) /\
    (is_rotation r -> rot2from_angle (rot2angle r) = r).
Proof.
  intros t r. exact (conj (rot2_angle_of t) (conj (rot2_angle_range r) (conj (rot2_angle_in t) (rot2_angle_back r)))).
Qed.

Lemma c70_rotation3_euler_theorem :
  forall r : rotation R 3, is_rotation r ->
    exists a t, vnorm a = 1 /\ 0 <= t <= PI /\ r = rot3from_axis_angle a t.
Proof.
  exact rotation_axis_angle.
Qed.

Lemma c70_rotation3_angle :
  forall (r : rotation R 3) (a : vec R 3) (t : R),
    (vnorm a = 1 -> 0 <= t <= PI -> rot3angle (rot3from_axis_angle a t) = t) /\
    (is_rotation r -> 0 <= rot3angle r <= PI /\
       mget r 0 0 + mget r 1 1 + mget r 2 2 = 1 + 2 * cos (rot3angle r)).
Proof.
  intros r a t. exact (conj (rot3angle_of a t) (rot3angle_spec r)).
Qed.

Lemma c70_rotation3_axis :
  forall (r : rotation R 3) (eps : R), is_rotation r -> 0 <= eps ->
    (forall a, rot3axis_eps r eps = Some a ->
       vnorm a = 1 /\ rot_apply_vector r a = a /\ rot3from_axis_angle a (rot3angle r) = r) /\
    (rot3axis_eps r eps = None <-> 2 * sin (rot3angle r) <= eps) /\
    rot3axis_angle_eps r eps = match rot3axis_eps r eps with Some a => Some (a, rot3angle r) | None => None end.
Proof.
  exact rot3axis_spec.
Qed.

Lemma c70_rotation3_axis_angle_roundtrip :
  forall (a : vec R 3) (t eps : R), vnorm a = 1 -> 0 <= t <= PI -> 0 <= eps -> eps < 2 * sin t ->
    rot3axis_angle_eps (rot3from_axis_angle a t) eps = Some (a, t).
Proof.
  intros a t eps U T E S. unfold rot3axis_angle_eps.
  rewrite (proj1 (rot3axis_of a t eps U T E) S), rot3angle_of by assumption. reflexivity.
Qed.

Lemma c70_example :
  vnorm (v3 0 0 1) = 1 /\ 0 <= PI / 2 <= PI /\ 1 < 2 * sin (PI / 2).
Proof.
  pose proof PI_RGT_0. conjs; [apply unit_norm_iff; rcompute; ring|lra|lra|rewrite sin_PI2; lra].
Qed.

Lemma c71_isometry_composition :
  forall (K : Type) (NK : Num K) (LK : RingLaws K) (n : nat) (f g h : isometry K n) (p q : point K n) (v : vec K n),
    (forall i, (i < n)%nat -> vat (iso_apply_point f p) i =
       nadd (sum n (fun k => nmul (mget (iso_rotation f) k i) (vat p k))) (vat (iso_translation f) i)) /\
    iso_apply_vector f v = mmulv (iso_rotation f) v /\
    iso_apply_point (iso_mul f g) p = iso_apply_point f (iso_apply_point g p) /\
    iso_apply_vector (iso_mul f g) v = iso_apply_vector f (iso_apply_vector g v) /\
    iso_mul f (iso_mul g h) = iso_mul (iso_mul f g) h /\
    iso_mul (iso_identity n) f = f /\ iso_mul f (iso_identity n) = f /\
    iso_apply_point (iso_identity n) p = p /\ iso_apply_vector (iso_identity n) v = v /\
    iso_inverse_mut f = Some (iso_inverse f) /\
    iso_inverse_apply_point f p = iso_apply_point (iso_inverse f) p /\
    iso_inverse_apply_vector f v = iso_apply_vector (iso_inverse f) v /\
    pdiff (iso_apply_point f p) (iso_apply_point f q) = iso_apply_vector f (pdiff p q).
Proof.
  intros. destruct (iso_apply_mul n f g p v) as [A1 A2]. destruct (iso_mul_id n f) as [B1 B2].
  destruct (iso_apply_id n p v) as [C1 C2]. destruct (iso_inverse_apply_eq n f p v) as [D1 D2].
  refine (conj _ (conj eq_refl (conj A1 (conj A2 (conj (iso_mul_assoc n f g h) (conj B1 (conj B2 (conj C1
    (conj C2 (conj (iso_inverse_mut_eq n f) (conj D1 (conj D2 (iso_diff n f p q))))))))))))).
  exact (iso_entries K NK n f p).
Qed.

Lemma c71_isometry_group :
  forall (n : nat) (f g : isometry R n) (p q : point R n) (u v : vec R n),
    orthonormal_columns (iso_rotation f) ->
    iso_mul (iso_inverse f) f = iso_identity n /\ iso_mul f (iso_inverse f) = iso_identity n /\
    iso_inverse_apply_point f (iso_apply_point f p) = p /\
    iso_apply_point f (iso_inverse_apply_point f p) = p /\
    iso_inverse_apply_vector f (iso_apply_vector f v) = v /\
    iso_apply_vector f (iso_inverse_apply_vector f v) = v /\
    pdist (iso_apply_point f p) (iso_apply_point f q) = pdist p q /\
    vdot (iso_apply_vector f u) (iso_apply_vector f v) = vdot u v /\
    orthonormal_columns (iso_rotation (iso_inverse f)) /\
    (orthonormal_columns (iso_rotation g) -> orthonormal_columns (iso_rotation (iso_mul f g))).
Proof.
  intros n f g p q u v H. destruct (orth_pair n _ H) as [A B].
  pose proof (iso_inverse_l n f A) as L. pose proof (iso_inverse_r n f B) as R'.
  assert (P : forall (a b : isometry R n) x, iso_mul a b = iso_identity n -> iso_apply_point a (iso_apply_point b x) = x).
  { intros a b x E. rewrite <- (proj1 (iso_apply_mul n a b x x)), E. exact (proj1 (iso_apply_id n x x)). }
  assert (V : forall (a b : isometry R n) x, iso_mul a b = iso_identity n -> iso_apply_vector a (iso_apply_vector b x) = x).
  { intros a b x E. rewrite <- (proj2 (iso_apply_mul n a b x x)), E. exact (proj2 (iso_apply_id n x x)). }
  refine (conj L (conj R' (conj _ (conj _ (conj _ (conj _ (conj _ (conj _ (conj _ _))))))))).
  - rewrite (proj1 (iso_inverse_apply_eq n f _ v)). apply P. exact L.
  - rewrite (proj1 (iso_inverse_apply_eq n f _ v)). apply P. exact R'.
  - rewrite (proj2 (iso_inverse_apply_eq n f p _)). apply V. exact L.
  - rewrite (proj2 (iso_inverse_apply_eq n f p _)). apply V. exact R'.
  - rewrite !pdist_diff, iso_diff. exact (rotation_norm n _ (pdiff p q) A).
  - exact (rotation_dot n _ u v A).
  - exact (orth_inverse n _ H).
  - exact (orth_mul n _ _ H).
Qed.

Lemma c71_example :
  orthonormal_columns (iso_rotation (mkIsometry (v2 1 2) (m2new 0 1 (-1) 0)) : mat R 2 2) /\
  iso_apply_point (mkIsometry (v2 1 2) (m2new 0 1 (-1) 0))%Z (v2 3 4)%Z = (v2 (-3) 5)%Z.
Proof.
  split; [|reflexivity]. apply orthonormal_iff. cbn [iso_rotation]. mcompute. rnum. pairs ltac:(ring).
Qed.

Lemma c72_mixed_products :
  forall (K : Type) (NK : Num K) (LK : RingLaws K) (n : nat) (r s : rotation K n) (t u : translation K n)
         (f : isometry K n),
    rot_mul_tr r t = iso_mul (iso_from_rotation r) (iso_from_translation t) /\
    tr_mul_rot t r = iso_mul (iso_from_translation t) (iso_from_rotation r) /\
    iso_mul_tr f t = iso_mul f (iso_from_translation t) /\
    tr_mul_iso t f = iso_mul (iso_from_translation t) f /\
    iso_mul_rot f r = iso_mul f (iso_from_rotation r) /\
    rot_mul_iso r f = iso_mul (iso_from_rotation r) f /\
    iso_mul (iso_from_translation t) (iso_from_translation u) = iso_from_translation (tr_mul t u) /\
    iso_mul (iso_from_rotation r) (iso_from_rotation s) = iso_from_rotation (rot_mul r s).
Proof.
  intros K NK LK n r s t u f. exact (mixed_products n r s t u f).
Qed.

Lemma c72_mixed_products_on_points :
  forall (K : Type) (NK : Num K) (LK : RingLaws K) (n : nat) (r : rotation K n) (t : translation K n)
         (f : isometry K n) (p : point K n) (v : vec K n),
    iso_apply_point (rot_mul_tr r t) p = rot_apply_point r (tr_apply_point t p) /\
    iso_apply_point (tr_mul_rot t r) p = tr_apply_point t (rot_apply_point r p) /\
    iso_apply_point (iso_mul_tr f t) p = iso_apply_point f (tr_apply_point t p) /\
    iso_apply_point (tr_mul_iso t f) p = tr_apply_point t (iso_apply_point f p) /\
    iso_apply_point (iso_mul_rot f r) p = iso_apply_point f (rot_apply_point r p) /\
    iso_apply_point (rot_mul_iso r f) p = rot_apply_point r (iso_apply_point f p) /\
    iso_apply_vector (rot_mul_tr r t) v = rot_apply_vector r v /\
    iso_apply_vector (tr_mul_rot t r) v = rot_apply_vector r v /\
    iso_apply_vector (iso_mul_tr f t) v = iso_apply_vector f v /\
    iso_apply_vector (tr_mul_iso t f) v = iso_apply_vector f v /\
    iso_apply_vector (iso_mul_rot f r) v = iso_apply_vector f (rot_apply_vector r v) /\
    iso_apply_vector (rot_mul_iso r f) v = rot_apply_vector r (iso_apply_vector f v) /\
    iso_apply_point (iso_from_rotation r) p = rot_apply_point r p /\
    iso_apply_point (iso_from_translation t) p = tr_apply_point t p.
Proof.
  intros K NK LK n r t f p v. destruct (mixed_points n r t f p) as (A & B & C & D & E & F).
  destruct (iso_from_apply n r t p v) as (G1 & G2 & _).
  exact (conj A (conj B (conj C (conj D (conj E (conj F (conj eq_refl (conj eq_refl (conj eq_refl (conj eq_refl
    (conj (mmulv_mmulv n n n _ _ v) (conj (mmulv_mmulv n n n _ _ v) (conj G1 G2))))))))))))).
Qed.

Lemma c72_example :
  iso_apply_point (rot_mul_tr (m2new 0 1 (-1) 0) (v2 1 2))%Z (v2 10 20)%Z = (v2 (-22) 11)%Z.
Proof.
  reflexivity.
Qed.

Lemma c73_isometry_approx_eq_partial :
  forall (n : nat) (f g t : isometry R n) (f' g' t' : similarity R n) (e : R),
    (iso_abs_diff_eq f g t = true <->
       (forall j i, (j < n)%nat -> (i < n)%nat ->
          Rabs (mget (iso_rotation f) j i - mget (iso_rotation g) j i) <= mget (iso_rotation t) j i) /\
       (forall i, (i < n)%nat ->
          Rabs (vat (iso_translation f) i - vat (iso_translation g) i) <= vat (iso_translation t) i)) /\
    (iso_abs_diff_all_eq f g e = true <->
       (forall j i, (j < n)%nat -> (i < n)%nat ->
          Rabs (mget (iso_rotation f) j i - mget (iso_rotation g) j i) <= e)) /\
    (sim_abs_diff_eq f' g' t' = true <->
       iso_abs_diff_eq (sim_isometry f') (sim_isometry g') (sim_isometry t') = true /\
       Rabs (sim_scale f' - sim_scale g') <= sim_scale t') /\
    (sim_abs_diff_all_eq f' g' e = true <->
       (forall j i, (j < n)%nat -> (i < n)%nat ->
          Rabs (mget (iso_rotation (sim_isometry f')) j i - mget (iso_rotation (sim_isometry g')) j i) <= e) /\
       (forall i, (i < n)%nat ->
          Rabs (vat (iso_translation (sim_isometry f')) i - vat (iso_translation (sim_isometry g')) i) <= e) /\
       Rabs (sim_scale f' - sim_scale g') <= e).
Proof.
  intros n f g t f' g' t' e.
  assert (A : forall f g t : isometry R n, iso_abs_diff_eq f g t = true <->
       (forall j i, (j < n)%nat -> (i < n)%nat ->
          Rabs (mget (iso_rotation f) j i - mget (iso_rotation g) j i) <= mget (iso_rotation t) j i) /\
       (forall i, (i < n)%nat ->
          Rabs (vat (iso_translation f) i - vat (iso_translation g) i) <= vat (iso_translation t) i)).
  { intros. unfold iso_abs_diff_eq. rewrite andb_true_iff, mabs_diff_eq_spec, vabs_diff_eq_spec. tauto. }
  refine (conj (A f g t) (conj (mabs_diff_all_eq_spec n n _ _ e) (conj _ _))).
  - unfold sim_abs_diff_eq. rewrite andb_true_iff, rabs_diff_eq_spec. unfold iso_abs_diff_eq. tauto.
  - unfold sim_abs_diff_all_eq.
    rewrite !andb_true_iff, rabs_diff_eq_spec, vabs_diff_all_eq_spec, mabs_diff_all_eq_spec. tauto.
Qed.

Lemma c73_isometry_approx_eq_refuted :
  exists (f g : isometry R 3) (e : R),
    iso_abs_diff_all_eq f g e = true /\ e = 1 / 1000 /\
    Rabs (vat (iso_translation f) 0 - vat (iso_translation g) 0) = 1000.
Proof.
  exists (mkIsometry (v3 1000 0 0) (midentity 3)), (mkIsometry (v3 0 0 0) (midentity 3)), (1/1000).
  split; [|split; [reflexivity|]].
  - unfold iso_abs_diff_all_eq. cbn [iso_rotation]. apply mabs_diff_all_eq_spec. intros.
    rewrite Rminus_diag_eq by reflexivity. rewrite Rabs_R0. lra.
  - cbn. rewrite Rabs_pos_eq; lra.
Qed.

Lemma c74_similarity_composition :
  forall (K : Type) (NK : Num K) (LK : RingLaws K) (n : nat) (f g h : similarity K n) (k : isometry K n)
         (p q : point K n) (v : vec K n),
    (forall i, (i < n)%nat -> vat (sim_apply_point f p) i =
       nadd (nmul (sim_scale f) (sum n (fun j => nmul (mget (iso_rotation (sim_isometry f)) j i) (vat p j))))
            (vat (iso_translation (sim_isometry f)) i)) /\
    sim_apply_vector f v = vmul_s (mmulv (iso_rotation (sim_isometry f)) v) (sim_scale f) /\
    sim_apply_point (sim_mul f g) p = sim_apply_point f (sim_apply_point g p) /\
    sim_apply_vector (sim_mul f g) v = sim_apply_vector f (sim_apply_vector g v) /\
    sim_mul f (sim_mul g h) = sim_mul (sim_mul f g) h /\
    sim_mul (sim_identity n) f = f /\ sim_mul f (sim_identity n) = f /\
    sim_mul_iso f k = sim_mul f (sim_from_isometry k) /\
    sim_apply_point (sim_from_isometry k) p = iso_apply_point k p /\
    sim_apply_point (sim_identity n) p = p /\
    pdiff (sim_apply_point f p) (sim_apply_point f q) = sim_apply_vector f (pdiff p q).
Proof.
  intros. destruct (sim_apply_mul n f g p v) as [A1 A2]. destruct (sim_mul_id n f) as [B1 B2].
  destruct (sim_entries K NK LK n f p v k) as (E1 & E2 & E3 & E4).
  exact (conj E1 (conj E2 (conj A1 (conj A2 (conj (sim_mul_assoc n f g h) (conj B1 (conj B2
    (conj (proj1 (sim_mul_iso_eq n f k p)) (conj E3 (conj E4 (sim_diff n f p q))))))))))).
Qed.

Lemma c74_similarity_inverse :
  forall (n : nat) (f : similarity R n) (p q : point R n) (v : vec R n),
    sim_scale f <> 0 -> orthonormal_columns (iso_rotation (sim_isometry f)) ->
    sim_inverse_apply_point f (sim_apply_point f p) = p /\
    sim_apply_point f (sim_inverse_apply_point f p) = p /\
    sim_inverse_apply_vector f (sim_apply_vector f v) = v /\
    sim_apply_vector f (sim_inverse_apply_vector f v) = v /\
    (exists g, sim_inverse f = Some g /\ sim_inverse_mut f = Some g /\
       sim_apply_point g p = sim_inverse_apply_point f p /\
       sim_apply_vector g v = sim_inverse_apply_vector f v /\
       sim_mul g f = sim_identity n /\ sim_mul f g = sim_identity n) /\
    pdist (sim_apply_point f p) (sim_apply_point f q) = Rabs (sim_scale f) * pdist p q /\
    vnorm (sim_apply_vector f v) = Rabs (sim_scale f) * vnorm v.
Proof.
  intros n f p q v S H. destruct (orth_pair n _ H) as [A B]. change (sim_scale f <> (n0 : R)) in S.
  destruct (sim_undo n f p v S A) as [U1 U2]. destruct (sim_undo' n f p v S B) as [V1 V2].
  destruct (sim_inverse_eq n f) as [I1 I2]. destruct (sim_inv_apply n f p v S) as [J1 J2].
  destruct (sim_inv_mul n f S) as [M1 M2].
  assert (N : forall u, vnorm (sim_apply_vector f u) = Rabs (sim_scale f) * vnorm u).
  { intros u. unfold sim_apply_vector, iso_apply_vector, rot_apply_vector.
    rewrite (rotation_norm n _ _ A), vnorm_mul. ring. }
  refine (conj U1 (conj V1 (conj U2 (conj V2 (conj _ (conj _ (N v))))))).
  - exists (sim_inv n f). exact (conj I1 (conj I2 (conj J1 (conj J2 (conj (M1 A) (M2 B)))))).
  - rewrite !pdist_diff, sim_diff. apply N.
Qed.

Lemma c74_example :
  sim_scale (mkSimilarity (mkIsometry (v2 1 2) (midentity 2)) 3) <> 0 /\
  orthonormal_columns (midentity 2 : mat R 2 2) /\
  sim_apply_point (mkSimilarity (mkIsometry (v2 1 2) (m2new 0 1 (-1) 0)) 3)%Z (v2 10 20)%Z = (v2 (-59) 32)%Z.
Proof.
  conjs; [cbn; lra|apply orth_identity|reflexivity].
Qed.

Lemma c75_transform_points :
  forall (K : Type) (NK : Num K) (ND : NumDiv K) (FK : FieldLaws K) (n : nat) (f g : transform K n)
         (p q : point K n) (v : vec K n),
    (tf_apply_point f p = None <-> vat (mmulv f (vextend (p : vec K n) n1)) n = n0) /\
    (tf_apply_point f p = Some q <->
       exists w, w <> n0 /\ mmulv f (vextend (p : vec K n) n1) = vmul_s (vextend (q : vec K n) n1) w) /\
    (tf_apply_point g p = Some q -> tf_apply_point (tf_mul f g) p = tf_apply_point f q) /\
    tf_apply_point (tf_identity n) p = Some p /\ tf_apply_vector (tf_identity n) v = v.
Proof.
  intros. destruct (tf_identity_apply n p v) as [A B].
  exact (conj (tf_point_none n f p) (conj (tf_point_some n f p q) (conj (tf_mul_point n f g p q) (conj A B)))).
Qed.

Lemma c75_transform_inverse_points :
  forall (K : Type) (NK : Num K) (ND : NumDiv K) (FK : FieldLaws K)
         (f : transform K 2) (p q : point K 2) (f3 : transform K 3) (p3 q3 : point K 3),
    (m3det f <> n0 -> exists h, tf2try_inverse f = Some h /\ tf2inverse f = Some h /\
       mmul f h = midentity 3 /\ mmul h f = midentity 3 /\
       (tf_apply_point f p = Some q -> tf2inverse_apply_point f q = Some (Some p) /\
                                       tf_apply_point h q = Some p)) /\
    (m3det f = n0 -> tf2try_inverse f = None /\ tf2inverse_apply_point f q = None) /\
    (m4det f3 <> n0 -> exists h, tf3try_inverse f3 = Some h /\ tf3inverse f3 = Some h /\
       mmul f3 h = midentity 4 /\ mmul h f3 = midentity 4 /\
       (tf_apply_point f3 p3 = Some q3 -> tf3inverse_apply_point f3 q3 = Some (Some p3) /\
                                          tf_apply_point h q3 = Some p3)) /\
    (m4det f3 = n0 -> tf3try_inverse f3 = None /\ tf3inverse_apply_point f3 q3 = None).
Proof.
  exact tf_inverse_points.
Qed.

Lemma c75_transform_vectors_partial :
  forall (K : Type) (NK : Num K) (ND : NumDiv K) (FK : FieldLaws K) (n : nat) (f g : transform K n) (v : vec K n),
    (forall i, (i < n)%nat -> vat (tf_apply_vector f v) i = sum n (fun k => nmul (mget f k i) (vat v k))) /\
    (vat (mmulv g (vextend v n0)) n = n0 ->
       tf_apply_vector (tf_mul f g) v = tf_apply_vector f (tf_apply_vector g v) /\
       (mmul f g = midentity (S n) -> tf_apply_vector f (tf_apply_vector g v) = v)) /\
    ((forall j, (j < n)%nat -> mget g j n = n0) -> vat (mmulv g (vextend v n0)) n = n0).
Proof.
  intros K NK ND FK n f g v. pose (LK := (field_ring : RingLaws K)).
  refine (conj (tf_vector_entries K NK LK n f v) (conj _ (tf_weight_zero K NK LK n g v))).
  intros H. refine (conj (tf_mul_vector n f g v H) _).
  intros I. exact (tf_undo_vector n g f v I H).
Qed.

Lemma c75_transform_vectors_refuted :
  exists (f g : transform Qc 2) (v : vec Qc 2),
    tf_apply_vector (tf_mul f g) v <> tf_apply_vector f (tf_apply_vector g v) /\
    m3det g <> 0%Qc /\
    tf2inverse_apply_vector g (tf_apply_vector g v) <> Some v.
Proof.
  exact tf_vectors_refuted.
Qed.

Lemma c75_example :
  tf_apply_point (m3new 1 0 0 0 1 1 0 0 1)%Qc (v2 (Q2Qc (QArith_base.Qmake 6 1)) (Q2Qc (QArith_base.Qmake 2 1)))%Qc =
  Some (v2 (Q2Qc (QArith_base.Qmake 2 1)) (Q2Qc (QArith_base.Qmake 2 3)))%Qc /\
  tf_apply_point (m3new 1 0 0 0 1 1 0 0 1)%Qc (v2 (Q2Qc (QArith_base.Qmake 6 1)) (-(1)))%Qc = None.
Proof.
  exact tf_example.
Qed.

Lemma c76_affine_matrices :
  forall (K : Type) (NK : Num K) (LK : RingLaws K) (n : nat) (t : translation K n) (s : scale K n)
         (r : rotation K n) (f : isometry K n) (g : similarity K n),
    represents (tr_to_affine_matrix t) (tr_apply_point t) (tr_apply_vector t) /\
    represents (sc_to_affine_matrix s) (sc_apply_point s) (sc_apply_vector s) /\
    represents (rot_to_affine_matrix r) (rot_apply_point r) (rot_apply_vector r) /\
    represents (iso_to_affine_matrix f) (iso_apply_point f) (iso_apply_vector f) /\
    represents (sim_to_affine_matrix g) (sim_apply_point g) (sim_apply_vector g).
Proof.
  intros K NK LK n t s r f g.
  exact (conj (rep_translation K NK LK n t) (conj (rep_scale K NK LK n s) (conj (rep_rotation K NK LK n r)
    (conj (rep_isometry K NK LK n f) (rep_similarity K NK LK n g))))).
Qed.

Lemma c76_representation :
  forall (K : Type) (NK : Num K) (LK : RingLaws K) (n : nat) (m m' : mat K (S n) (S n))
         (fp fv gp gv : vec K n -> vec K n),
    (represents m fp fv -> represents m' fp fv -> m = m') /\
    (represents m fp fv -> represents m' gp gv ->
       represents (mmul m m') (fun p => fp (gp p)) (fun v => fv (gv v))).
Proof.
  intros K NK LK n m m' fp fv gp gv.
  exact (conj (rep_unique K NK LK n m m' fp fv) (rep_mul K NK LK n m m' fp fv gp gv)).
Qed.

Lemma c76_products :
  forall (K : Type) (NK : Num K) (LK : RingLaws K) (n : nat) (s t : translation K n) (s' t' : scale K n)
         (r q : rotation K n) (f g : isometry K n) (f' g' : similarity K n),
    tr_to_affine_matrix (tr_mul s t) = mmul (tr_to_affine_matrix s) (tr_to_affine_matrix t) /\
    sc_to_affine_matrix (sc_mul s' t') = mmul (sc_to_affine_matrix s') (sc_to_affine_matrix t') /\
    rot_to_affine_matrix (rot_mul r q) = mmul (rot_to_affine_matrix r) (rot_to_affine_matrix q) /\
    iso_to_affine_matrix (iso_mul f g) = mmul (iso_to_affine_matrix f) (iso_to_affine_matrix g) /\
    sim_to_affine_matrix (sim_mul f' g') = mmul (sim_to_affine_matrix f') (sim_to_affine_matrix g') /\
    iso_to_affine_matrix (iso_identity n) = midentity (S n) /\
    sim_to_affine_matrix (sim_identity n) = midentity (S n) /\
    sim_to_affine_matrix (sim_from_isometry f) = iso_to_affine_matrix f.
Proof.
  exact rep_products.
Qed.

Lemma c76_transforms :
  forall (K : Type) (NK : Num K) (ND : NumDiv K) (FK : FieldLaws K) (n : nat) (r : rotation K n)
         (f : isometry K n) (g : similarity K n) (p : point K n) (v : vec K n),
    tf_apply_point (rot_to_transform r) p = Some (rot_apply_point r p) /\
    tf_apply_vector (rot_to_transform r) v = rot_apply_vector r v /\
    tf_apply_point (iso_to_transform f) p = Some (iso_apply_point f p) /\
    tf_apply_vector (iso_to_transform f) v = iso_apply_vector f v /\
    tf_apply_point (sim_to_transform g) p = Some (sim_apply_point g p) /\
    tf_apply_vector (sim_to_transform g) v = sim_apply_vector g v.
Proof.
  intros K NK ND FK n r f g p v. pose (LK := (field_ring : RingLaws K)).
  pose proof (rep_rotation K NK LK n r) as A. pose proof (rep_isometry K NK LK n f) as B.
  pose proof (rep_similarity K NK LK n g) as C.
  exact (conj (rep_tf_point _ _ _ _ _ _ _ _ A p) (conj (rep_tf_vector _ _ _ _ _ _ A v)
    (conj (rep_tf_point _ _ _ _ _ _ _ _ B p) (conj (rep_tf_vector _ _ _ _ _ _ B v)
    (conj (rep_tf_point _ _ _ _ _ _ _ _ C p) (rep_tf_vector _ _ _ _ _ _ C v)))))).
Qed.

Lemma c76_example :
  mmulv (sim_to_affine_matrix (mkSimilarity (mkIsometry (v2 1 2) (m2new 0 1 (-1) 0)) 3))%Z (v3 10 20 1)%Z
  = (v3 (-59) 32 1)%Z.
Proof.
  reflexivity.
Qed.
