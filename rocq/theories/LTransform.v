(** Transforms: proofs that hold over every commutative ring (or field), in every dimension. *)

From Coq Require Import List Arith Lia Bool Ring Field.
From Verif Require Import Base Scalar Spec LBase MVector LVector MMatrix LMatrix LMatrixDet LMatrixM
  MPoint LMisc MTransform.
Import ListNotations.
Local Open Scope nat_scope.

Section Ring.
Context {K : Type} {NK : Num K} {LK : RingLaws K}.
Local Open Scope num_scope.
Add Ring KringT : (@ring_laws K NK LK).

(** ** The affine column *)
Lemma mget_last_column n k (t : vec K n) (m : mat K (S n) (S n)) j i :
  (k <= n)%nat -> (j < S n)%nat -> (i < S n)%nat ->
  mget (for_range k (fun r acc => mset acc n r (vat t r)) m) j i =
  if (Nat.eqb j n && Nat.ltb i k)%bool then vat t i else mget m j i.
Proof.
  intros Hk Hj Hi. induction k as [|k IH].
  - cbn [for_range fold_left seq]. rewrite andb_false_r. reflexivity.
  - rewrite for_range_S, mget_mset, IH by lia.
    destruct (Nat.eqb_spec j n); cbn [andb]; [|reflexivity].
    destruct (Nat.eqb_spec i k).
    + subst i. destruct (Nat.ltb_spec k (S k)); [reflexivity|lia].
    + destruct (Nat.ltb_spec i k), (Nat.ltb_spec i (S k)); try reflexivity; lia.
Qed.

(** Action of the matrix with linear block [a] and last column [t]. *)
Lemma affine_act n (a : mat K n n) (t v : vec K n) w :
  mmulv (for_range n (fun r acc => mset acc n r (vat t r)) (membed a : mat K (S n) (S n)))
        (vextend v w) = vextend (vadd (mmulv a v) (vmul_s t w)) w.
Proof.
  apply vat_ext. intros i Hi. rewrite vat_mmulv by lia. cbn [sum].
  rewrite mget_last_column, extend_last by lia. rewrite Nat.eqb_refl. cbn [andb].
  rewrite (sum_ext n _ (fun k => (if Nat.ltb i n then mget a k i else 0) * vat v k)).
  2:{ intros k Hk. rewrite mget_last_column, extend_init by lia.
      destruct (Nat.eqb_spec k n); [lia|]. cbn [andb].
      rewrite mget_membed by lia. destruct (Nat.ltb_spec k n); [|lia]. cbn [andb].
      destruct (Nat.ltb_spec i n); [reflexivity|]. unfold delta.
      destruct (Nat.eqb_spec k i); [lia|reflexivity]. }
  destruct (Nat.ltb_spec i n) as [L|L].
  - rewrite extend_init, vat_vadd, vat_vmul_s, vat_mmulv by auto. reflexivity.
  - assert (i = n) by lia. subst i. rewrite extend_last, mget_membed by lia.
    rewrite Nat.ltb_irrefl. cbn [andb]. unfold delta. rewrite Nat.eqb_refl.
    rewrite sum_zero_ext; [ring|]. intros k Hk. ring.
Qed.
Lemma rot_affine_act n (a : mat K n n) (v : vec K n) w :
  mmulv (membed a : mat K (S n) (S n)) (vextend v w) = vextend (mmulv a v) w.
Proof.
  apply vat_ext. intros i Hi. rewrite vat_mmulv by lia. cbn [sum].
  rewrite extend_last. rewrite mget_membed by lia. rewrite Nat.ltb_irrefl. cbn [andb].
  rewrite (sum_ext n _ (fun k => (if Nat.ltb i n then mget a k i else 0) * vat v k)).
  2:{ intros k Hk. rewrite extend_init, mget_membed by lia.
      destruct (Nat.ltb_spec k n); [|lia]. cbn [andb].
      destruct (Nat.ltb_spec i n); [reflexivity|]. unfold delta.
      destruct (Nat.eqb_spec k i); [lia|reflexivity]. }
  destruct (Nat.ltb_spec i n) as [L|L].
  - rewrite extend_init, vat_mmulv by auto. unfold delta.
    destruct (Nat.eqb_spec n i); [lia|]. ring.
  - assert (i = n) by lia. subst i. rewrite extend_last. unfold delta. rewrite Nat.eqb_refl.
    rewrite sum_zero_ext; [ring|]. intros k Hk. ring.
Qed.

Lemma tr_affine_eq n (t : translation K n) : tr_to_affine_matrix t = mfrom_affine_translation t.
Proof.
  unfold tr_to_affine_matrix, mfrom_affine_translation. replace (S n - 1)%nat with n by lia.
  reflexivity.
Qed.
Lemma tr_affine_act n (t : translation K n) v w :
  mmulv (tr_to_affine_matrix t) (vextend v w) = vextend (vadd v (vmul_s t w)) w.
Proof. rewrite tr_affine_eq. apply mfrom_affine_translation_act. Qed.
Lemma iso_affine_act n (f : isometry K n) v w :
  mmulv (iso_to_affine_matrix f) (vextend v w) =
  vextend (vadd (mmulv (iso_rotation f) v) (vmul_s (iso_translation f) w)) w.
Proof. apply affine_act. Qed.
Lemma mmulv_mmul_s n (a : mat K n n) s (v : vec K n) :
  mmulv (mmul_s a s) v = vmul_s (mmulv a v) s.
Proof.
  apply vat_ext. intros i Hi. rewrite vat_vmul_s, !vat_mmulv, <- sum_mul_r by auto.
  apply sum_ext. intros k Hk. rewrite mget_mmul_s by auto. ring.
Qed.
Lemma sim_affine_act n (f : similarity K n) v w :
  mmulv (sim_to_affine_matrix f) (vextend v w) =
  vextend (vadd (vmul_s (mmulv (iso_rotation (sim_isometry f)) v) (sim_scale f))
                (vmul_s (iso_translation (sim_isometry f)) w)) w.
Proof.
  unfold sim_to_affine_matrix. rewrite affine_act. rewrite mmulv_mmul_s. reflexivity.
Qed.

(** ** Translations *)
Lemma tr_apply_mul n (s t : translation K n) (p : point K n) :
  tr_apply_point (tr_mul s t) p = tr_apply_point s (tr_apply_point t p).
Proof. unfold tr_apply_point, tr_mul, tr_from_vector, padd. vext. ring. Qed.
Lemma tr_mul_assoc n (r s t : translation K n) : tr_mul r (tr_mul s t) = tr_mul (tr_mul r s) t.
Proof. unfold tr_mul, tr_from_vector. apply vadd_assoc. Qed.
Lemma tr_mul_comm n (s t : translation K n) : tr_mul s t = tr_mul t s.
Proof. apply vadd_comm. Qed.
Lemma tr_mul_id n (t : translation K n) : tr_mul (tr_identity n) t = t.
Proof. apply vadd_0_l. Qed.
Lemma tr_mul_inv n (t : translation K n) : tr_mul t (tr_inverse t) = tr_identity n.
Proof. apply vadd_neg_r. Qed.
Lemma tr_inverse_mut_eq n (t : translation K n) : tr_inverse_mut t = tr_inverse t.
Proof. apply vneg_mut_eq. Qed.
Lemma tr_inv_apply n (t : translation K n) (p : point K n) :
  tr_inverse_apply_point t (tr_apply_point t p) = p /\
  tr_apply_point t (tr_inverse_apply_point t p) = p /\
  tr_inverse_apply_point t p = tr_apply_point (tr_inverse t) p.
Proof.
  unfold tr_inverse_apply_point, tr_apply_point, tr_inverse, padd, psub. conjs; vext; ring.
Qed.
Lemma tr_between n (p q : point K n) (u v : vec K n) :
  tr_apply_point (tr_between_points p q) p = q /\
  tr_apply_point (tr_between_vectors u v) (pfrom_vector u) = pfrom_vector v.
Proof.
  unfold tr_apply_point, tr_between_points, tr_between_vectors, tr_from_vector, padd, pdiff,
    pfrom_vector. conjs; vext; ring.
Qed.
Lemma tr_apply_id n (p : point K n) : tr_apply_point (tr_identity n) p = p.
Proof. apply vadd_0_r. Qed.

(** ** Scales *)
Lemma sc_apply_vector_eq n (s : scale K n) v : sc_apply_vector s v = vcmul s v.
Proof.
  apply vat_ext. intros i Hi. etransitivity; [|symmetry; exact (vat_vcmul n s v i Hi)].
  exact (vget_loop_fill 0 n (fun i => vat s i * vat v i) (vzero n) i Hi).
Qed.
Lemma sc_apply_point_eq n (s : scale K n) p : sc_apply_point s p = vcmul s p.
Proof. apply sc_apply_vector_eq. Qed.
Lemma sc_apply_mul n (s t : scale K n) (v : vec K n) (p : point K n) :
  sc_apply_vector (sc_mul s t) v = sc_apply_vector s (sc_apply_vector t v) /\
  sc_apply_point (sc_mul s t) p = sc_apply_point s (sc_apply_point t p).
Proof.
  assert (A : forall v, sc_apply_vector (sc_mul s t) v = sc_apply_vector s (sc_apply_vector t v)).
  { intros u. etransitivity; [exact (sc_apply_vector_eq n (vcmul s t) u)|].
    etransitivity; [symmetry; exact (vcmul_assoc n s t u)|].
    etransitivity; [|symmetry; exact (sc_apply_vector_eq n s (sc_apply_vector t u))].
    f_equal. }
  split; [exact (A v)|exact (A p)].
Qed.
Lemma sc_entries n (s t : scale K n) i : (i < n)%nat -> vat (sc_mul s t) i = vat s i * vat t i.
Proof. intros Hi. exact (vat_vcmul n s t i Hi). Qed.
Lemma sc_identity_apply n (v : vec K n) (p : point K n) :
  sc_apply_vector (sc_identity n) v = v /\ sc_apply_point (sc_identity n) p = p.
Proof.
  assert (A : forall v, sc_apply_vector (sc_identity n) v = v).
  { intros u. rewrite sc_apply_vector_eq. unfold sc_identity, sc_from_scale.
    rewrite vcmul_comm. apply vcmul_ones. }
  split; [exact (A v)|exact (A p)].
Qed.
Lemma sc_matrix_act n (s : scale K n) v : mmulv (sc_to_matrix s) v = sc_apply_vector s v.
Proof.
  unfold sc_to_matrix. rewrite mfrom_diagonal_eq_scale, sc_apply_vector_eq.
  apply mfrom_nonuniform_scale_act.
Qed.
Lemma sc_affine_act n (s : scale K n) (v : vec K n) w :
  mmulv (sc_to_affine_matrix s) (vextend v w) = vextend (sc_apply_vector s v) w.
Proof. rewrite sc_apply_vector_eq. apply mfrom_affine_nonuniform_scale_act. Qed.

(** ** Rotations *)
Lemma rot_inverse_mut_eq n (r : rotation K n) : rot_inverse_mut r = Some (rot_inverse r).
Proof. apply mtranspose_mut_eq. Qed.
Lemma rot_apply_mul n (r s : rotation K n) (v : vec K n) :
  rot_apply_vector (rot_mul r s) v = rot_apply_vector r (rot_apply_vector s v).
Proof. apply mmulv_mmulv. Qed.
Lemma rot_undo n (r : rotation K n) (v : vec K n) :
  mmul (mtranspose r) r = midentity n -> rot_inverse_apply_vector r (rot_apply_vector r v) = v.
Proof.
  intros H. unfold rot_inverse_apply_vector, rot_apply_vector, rot_inverse.
  rewrite <- mmulv_mmulv, H. apply mmulv_1.
Qed.
Lemma rot_undo' n (r : rotation K n) (v : vec K n) :
  mmul r (mtranspose r) = midentity n -> rot_apply_vector r (rot_inverse_apply_vector r v) = v.
Proof.
  intros H. unfold rot_inverse_apply_vector, rot_apply_vector, rot_inverse.
  rewrite <- mmulv_mmulv, H. apply mmulv_1.
Qed.

(** ** Reflections *)
Lemma re_vector_twice n (f : reflection K n) (v : vec K n) : vdot (re_normal f) (re_normal f) = 1 ->
  re_apply_vector f (re_apply_vector f v) = v.
Proof.
  intros H. unfold re_apply_vector. rewrite vdot_sub_l, vdot_mul_l, H. vext. ring.
Qed.
Lemma re_point_vector n (f : reflection K n) (p q : point K n) :
  pdiff (re_apply_point f p) (re_apply_point f q) = re_apply_vector f (pdiff p q).
Proof.
  unfold re_apply_point, re_apply_vector, pdiff, psub.
  rewrite !vdot_sub_l. vext. ring.
Qed.
Lemma re_point_twice n (f : reflection K n) (p : point K n) : vdot (re_normal f) (re_normal f) = 1 ->
  re_apply_point f (re_apply_point f p) = p.
Proof.
  intros H. unfold re_apply_point, psub, pdiff.
  rewrite ?vdot_sub_l, ?vdot_mul_l, ?vdot_sub_l, ?H. vext. ring.
Qed.
Lemma re_dot n (f : reflection K n) (u v : vec K n) : vdot (re_normal f) (re_normal f) = 1 ->
  vdot (re_apply_vector f u) (re_apply_vector f v) = vdot u v.
Proof.
  intros H. unfold re_apply_vector.
  rewrite !vdot_sub_l, !vdot_sub_r, !vdot_mul_l, !vdot_mul_r, H, (vdot_comm n (re_normal f) v). ring.
Qed.
Lemma re_flip n (f : reflection K n) (p : point K n) : vdot (re_normal f) (re_normal f) = 1 ->
  vdot (pdiff (re_apply_point f p) (re_bias f)) (re_normal f) =
  - vdot (pdiff p (re_bias f)) (re_normal f).
Proof.
  intros H. unfold re_apply_point, psub, pdiff.
  rewrite ?vdot_sub_l, ?vdot_mul_l, ?vdot_sub_l, ?H. ring.
Qed.
Lemma re_plane n (f : reflection K n) (p : point K n) :
  vdot (pdiff p (re_bias f)) (re_normal f) = 0 -> re_apply_point f p = p.
Proof. intros H. unfold re_apply_point. rewrite H. unfold psub. vext. ring. Qed.
Lemma re_normal_dir n (f : reflection K n) (p : point K n) :
  exists c, pdiff (re_apply_point f p) p = vmul_s (re_normal f) c.
Proof.
  exists (- (vdot (pdiff p (re_bias f)) (re_normal f) * (1 + 1))).
  unfold re_apply_point, pdiff, psub. vext. ring.
Qed.
Lemma re2_act (f : reflection K 2) (v : vec K 2) w :
  mmulv (re2to_affine_matrix f) (vextend v w) =
  vextend (vsub v (vmul_s (re_normal f) ((1 + 1) * (vdot v (re_normal f) -
                     vdot (re_bias f : vec K 2) (re_normal f) * w)))) w.
Proof.
  unfold re2to_affine_matrix. rewrite m3from_affine_reflection_act. reflexivity.
Qed.
Lemma re3_act (f : reflection K 3) (v : vec K 3) w :
  mmulv (re3to_affine_matrix f) (vextend v w) =
  vextend (vsub v (vmul_s (re_normal f) ((1 + 1) * (vdot v (re_normal f) -
                     vdot (re_bias f : vec K 3) (re_normal f) * w)))) w.
Proof.
  unfold re3to_affine_matrix. rewrite m4from_affine_reflection_act. reflexivity.
Qed.

(** ** Shears *)
Lemma sh_point_error n (f : shear K n) (p : point K n) :
  sh_inverse_apply_point f (sh_apply_point f p) =
  psub p (vmul_s (sh_direction f)
    (sh_factor f * sh_factor f * vdot (pdiff p (sh_origin f)) (sh_normal f) *
     vdot (sh_direction f) (sh_normal f))).
Proof.
  unfold sh_inverse_apply_point, sh_apply_point, padd, psub, pdiff.
  rewrite ?vdot_sub_l, ?vdot_add_l, ?vdot_mul_l, ?vdot_sub_l. vext. ring.
Qed.
Lemma sh_vector_error n (f : shear K n) (v : vec K n) :
  sh_inverse_apply_vector f (sh_apply_vector f v) =
  vsub v (vmul_s (sh_direction f)
    (sh_factor f * sh_factor f * vdot (vsub v (sh_origin f)) (sh_normal f) *
     vdot (sh_direction f) (sh_normal f))).
Proof. exact (sh_point_error n f v). Qed.
Lemma sh_undo n (f : shear K n) (p : point K n) (v : vec K n) :
  vdot (sh_direction f) (sh_normal f) = 0 ->
  sh_inverse_apply_point f (sh_apply_point f p) = p /\
  sh_apply_point f (sh_inverse_apply_point f p) = p /\
  sh_inverse_apply_vector f (sh_apply_vector f v) = v /\
  sh_apply_vector f (sh_inverse_apply_vector f v) = v.
Proof.
  intros H.
  assert (A : forall q, sh_inverse_apply_point f (sh_apply_point f q) = q).
  { intros q. rewrite sh_point_error, H. unfold psub. vext. ring. }
  assert (B : forall q, sh_apply_point f (sh_inverse_apply_point f q) = q).
  { intros q. unfold sh_inverse_apply_point, sh_apply_point, padd, psub, pdiff.
    rewrite ?vdot_sub_l, ?vdot_mul_l, ?vdot_sub_l, ?H. vext. ring. }
  conjs; [apply A|apply B|exact (A v)|exact (B v)].
Qed.
Lemma sh_inverse_eq n (f : shear K n) (p : point K n) (v : vec K n) :
  sh_apply_point (sh_inverse f) p = sh_inverse_apply_point f p /\
  sh_apply_vector (sh_inverse f) v = sh_inverse_apply_vector f v.
Proof.
  unfold sh_apply_point, sh_inverse_apply_point, sh_apply_vector, sh_inverse_apply_vector,
    sh_inverse, padd, psub; cbn [sh_factor sh_origin sh_direction sh_normal].
  split; vext; ring.
Qed.
Lemma sh_plane n (f : shear K n) (p : point K n) :
  vdot (pdiff p (sh_origin f)) (sh_normal f) = 0 -> sh_apply_point f p = p.
Proof. intros H. unfold sh_apply_point. rewrite H. unfold padd. vext. ring. Qed.
Lemma sh_keep n (f : shear K n) (p : point K n) : vdot (sh_direction f) (sh_normal f) = 0 ->
  vdot (pdiff (sh_apply_point f p) (sh_origin f)) (sh_normal f) =
  vdot (pdiff p (sh_origin f)) (sh_normal f).
Proof.
  intros H. unfold sh_apply_point, padd, pdiff. rewrite !vdot_sub_l, vdot_add_l, vdot_mul_l, H. ring.
Qed.
Lemma sh_identity_some n (f : shear K n) : sh_identity n = Some f ->
  (forall p, sh_apply_point f p = p) /\ (forall v, sh_apply_vector f v = v).
Proof.
  unfold sh_identity, vassign. destruct (Nat.ltb 0 n); [|discriminate].
  destruct (Nat.ltb (n - 1) n); [|discriminate]. intros H. injection H as <-.
  unfold sh_apply_point, sh_apply_vector, padd; cbn [sh_factor sh_origin sh_direction sh_normal].
  split; intros; vext; ring.
Qed.
Lemma sh_identity_none n : (sh_identity n : option (shear K n)) = None <-> n = 0%nat.
Proof.
  unfold sh_identity, vassign. destruct n as [|n]; [cbn; tauto|].
  destruct (Nat.ltb_spec 0 (S n)); [|lia]. destruct (Nat.ltb_spec (S n - 1) (S n)); [|lia].
  split; discriminate.
Qed.

(** ** Isometries *)
Lemma iso_inverse_mut_eq n (f : isometry K n) : iso_inverse_mut f = Some (iso_inverse f).
Proof.
  unfold iso_inverse_mut, rot_inverse_mut. rewrite mtranspose_mut_eq, tr_inverse_mut_eq. reflexivity.
Qed.
Lemma iso_ext n (f g : isometry K n) :
  iso_translation f = iso_translation g -> iso_rotation f = iso_rotation g -> f = g.
Proof. destruct f, g. cbn. intros -> ->. reflexivity. Qed.
Lemma iso_mul_assoc n (f g h : isometry K n) : iso_mul f (iso_mul g h) = iso_mul (iso_mul f g) h.
Proof.
  apply iso_ext; cbn [iso_mul iso_from_parts iso_translation iso_rotation].
  - unfold tr_from_vector, rot_apply_vector, rot_mul. rewrite mmulv_add, mmulv_mmulv. apply vadd_assoc.
  - unfold rot_mul. symmetry. apply mmul_assoc.
Qed.
Lemma iso_mul_id n (f : isometry K n) :
  iso_mul (iso_identity n) f = f /\ iso_mul f (iso_identity n) = f.
Proof.
  unfold iso_mul, iso_identity, iso_from_parts, tr_from_vector, rot_apply_vector, rot_mul,
    rot_identity, tr_identity; split; apply iso_ext; cbn [iso_translation iso_rotation].
  - rewrite mmulv_1. apply vadd_0_l.
  - apply mmul_1_l.
  - rewrite mmulv_0. apply vadd_0_r.
  - apply mmul_1_r.
Qed.
Lemma iso_apply_mul n (f g : isometry K n) (p : point K n) (v : vec K n) :
  iso_apply_point (iso_mul f g) p = iso_apply_point f (iso_apply_point g p) /\
  iso_apply_vector (iso_mul f g) v = iso_apply_vector f (iso_apply_vector g v).
Proof.
  unfold iso_apply_point, iso_apply_vector, iso_mul, iso_from_parts, tr_from_vector, tr_apply_point,
    rot_apply_point, rot_apply_vector, rot_mul, pfrom_vector, pto_vector, padd;
  cbn [iso_translation iso_rotation].
  rewrite !mmulv_mmulv. split; [|reflexivity].
  rewrite mmulv_add. vext. ring.
Qed.
Lemma iso_apply_id n (p : point K n) (v : vec K n) :
  iso_apply_point (iso_identity n) p = p /\ iso_apply_vector (iso_identity n) v = v.
Proof.
  unfold iso_apply_point, iso_apply_vector, iso_identity, tr_apply_point, rot_apply_point,
    rot_apply_vector, rot_identity, tr_identity, pfrom_vector, pto_vector, padd;
  cbn [iso_translation iso_rotation].
  rewrite !mmulv_1. split; [apply vadd_0_r|reflexivity].
Qed.
Lemma iso_inverse_apply_eq n (f : isometry K n) (p : point K n) (v : vec K n) :
  iso_inverse_apply_point f p = iso_apply_point (iso_inverse f) p /\
  iso_inverse_apply_vector f v = iso_apply_vector (iso_inverse f) v.
Proof.
  unfold iso_inverse_apply_point, iso_inverse_apply_vector, iso_inverse, iso_apply_point,
    iso_apply_vector, iso_from_parts, tr_from_vector, tr_apply_point, rot_apply_point,
    rot_apply_vector, rot_inverse_apply_point, rot_inverse_apply_vector, pfrom_vector,
    pto_vector, padd, psub; cbn [iso_translation iso_rotation].
  split; [|reflexivity]. rewrite mmulv_sub, mmulv_neg. vext. ring.
Qed.
Lemma iso_inverse_l n (f : isometry K n) :
  mmul (mtranspose (iso_rotation f)) (iso_rotation f) = midentity n ->
  iso_mul (iso_inverse f) f = iso_identity n.
Proof.
  intros H. unfold iso_mul, iso_inverse, iso_identity, iso_from_parts, tr_from_vector,
    rot_apply_vector, rot_mul, rot_identity, tr_identity, rot_inverse; apply iso_ext;
    cbn [iso_translation iso_rotation]; [|exact H].
  rewrite mmulv_neg. vext. ring.
Qed.
Lemma iso_inverse_r n (f : isometry K n) :
  mmul (iso_rotation f) (mtranspose (iso_rotation f)) = midentity n ->
  iso_mul f (iso_inverse f) = iso_identity n.
Proof.
  intros H. unfold iso_mul, iso_inverse, iso_identity, iso_from_parts, tr_from_vector,
    rot_apply_vector, rot_mul, rot_identity, tr_identity, rot_inverse; apply iso_ext;
    cbn [iso_translation iso_rotation]; [|exact H].
  rewrite <- mmulv_mmulv, H, mmulv_1. vext. ring.
Qed.
Lemma iso_diff n (f : isometry K n) (p q : point K n) :
  pdiff (iso_apply_point f p) (iso_apply_point f q) = iso_apply_vector f (pdiff p q).
Proof.
  unfold iso_apply_point, iso_apply_vector, tr_apply_point, rot_apply_point, rot_apply_vector,
    pfrom_vector, pto_vector, padd, pdiff. rewrite mmulv_sub. vext. ring.
Qed.

(** ** Mixed products *)
Lemma mixed_products n (r s : rotation K n) (t u : translation K n) (f : isometry K n) :
  rot_mul_tr r t = iso_mul (iso_from_rotation r) (iso_from_translation t) /\
  tr_mul_rot t r = iso_mul (iso_from_translation t) (iso_from_rotation r) /\
  iso_mul_tr f t = iso_mul f (iso_from_translation t) /\
  tr_mul_iso t f = iso_mul (iso_from_translation t) f /\
  iso_mul_rot f r = iso_mul f (iso_from_rotation r) /\
  rot_mul_iso r f = iso_mul (iso_from_rotation r) f /\
  iso_mul (iso_from_translation t) (iso_from_translation u) = iso_from_translation (tr_mul t u) /\
  iso_mul (iso_from_rotation r) (iso_from_rotation s) = iso_from_rotation (rot_mul r s).
Proof.
  unfold rot_mul_tr, tr_mul_rot, iso_mul_tr, tr_mul_iso, iso_mul_rot, rot_mul_iso, iso_mul,
    iso_from_rotation, iso_from_translation, iso_from_parts, tr_from_vector, rot_apply_vector,
    rot_mul, rot_identity, tr_identity, tr_mul, tr_from_vector.
  conjs; apply iso_ext; cbn [iso_translation iso_rotation];
    rewrite ?mmulv_0, ?mmulv_1, ?mmul_1_l, ?mmul_1_r, ?vadd_0_l, ?vadd_0_r; reflexivity.
Qed.
Lemma mixed_points n (r : rotation K n) (t : translation K n) (f : isometry K n) (p : point K n) :
  iso_apply_point (rot_mul_tr r t) p = rot_apply_point r (tr_apply_point t p) /\
  iso_apply_point (tr_mul_rot t r) p = tr_apply_point t (rot_apply_point r p) /\
  iso_apply_point (iso_mul_tr f t) p = iso_apply_point f (tr_apply_point t p) /\
  iso_apply_point (tr_mul_iso t f) p = tr_apply_point t (iso_apply_point f p) /\
  iso_apply_point (iso_mul_rot f r) p = iso_apply_point f (rot_apply_point r p) /\
  iso_apply_point (rot_mul_iso r f) p = rot_apply_point r (iso_apply_point f p).
Proof.
  unfold rot_mul_tr, tr_mul_rot, iso_mul_tr, tr_mul_iso, iso_mul_rot, rot_mul_iso,
    iso_from_parts, tr_from_vector, rot_apply_vector, rot_mul, tr_mul, tr_from_vector,
    iso_apply_point, tr_apply_point, rot_apply_point, pfrom_vector, pto_vector, padd;
  cbn [iso_translation iso_rotation].
  rewrite ?mmulv_add, ?mmulv_mmulv. conjs; vext; try ring; reflexivity.
Qed.
Lemma iso_from_apply n (r : rotation K n) (t : translation K n) (p : point K n) (v : vec K n) :
  iso_apply_point (iso_from_rotation r) p = rot_apply_point r p /\
  iso_apply_point (iso_from_translation t) p = tr_apply_point t p /\
  iso_apply_vector (iso_from_rotation r) v = rot_apply_vector r v /\
  iso_apply_vector (iso_from_translation t) v = tr_apply_vector t v.
Proof.
  unfold iso_apply_point, iso_apply_vector, iso_from_rotation, iso_from_translation, iso_from_parts,
    tr_apply_point, tr_apply_vector, rot_apply_point, rot_apply_vector, rot_identity, tr_identity,
    pfrom_vector, pto_vector, padd; cbn [iso_translation iso_rotation].
  rewrite !mmulv_1. conjs; try reflexivity; apply vadd_0_r.
Qed.

(** ** Similarities *)
Lemma sim_ext n (f g : similarity K n) :
  iso_translation (sim_isometry f) = iso_translation (sim_isometry g) ->
  iso_rotation (sim_isometry f) = iso_rotation (sim_isometry g) -> sim_scale f = sim_scale g -> f = g.
Proof.
  destruct f as [i s], g as [i' s']. cbn. intros A B ->. f_equal. apply iso_ext; auto.
Qed.
Ltac simunf := unfold sim_mul, sim_mul_iso, sim_from_parts, iso_from_parts, tr_from_vector,
  rot_apply_vector, rot_mul, sim_apply_point, sim_apply_vector, iso_apply_point, iso_apply_vector,
  tr_apply_point, rot_apply_point, rot_apply_vector, pfrom_vector, pto_vector, padd, pmul_s,
  sim_identity, iso_identity, tr_identity, rot_identity, sim_from_isometry, sim_from_scale in *;
  cbn [sim_isometry sim_scale iso_translation iso_rotation] in *.
Lemma sim_mul_assoc n (f g h : similarity K n) : sim_mul f (sim_mul g h) = sim_mul (sim_mul f g) h.
Proof.
  apply sim_ext; simunf.
  - rewrite mmulv_add, mmulv_mmulv, mmulv_mul_s. vext. ring.
  - symmetry. apply mmul_assoc.
  - ring.
Qed.
Lemma sim_mul_id n (f : similarity K n) :
  sim_mul (sim_identity n) f = f /\ sim_mul f (sim_identity n) = f.
Proof.
  split; apply sim_ext; simunf.
  - rewrite mmulv_1. vext. ring.
  - apply mmul_1_l.
  - ring.
  - rewrite mmulv_0. vext. ring.
  - apply mmul_1_r.
  - ring.
Qed.
Lemma sim_apply_mul n (f g : similarity K n) (p : point K n) (v : vec K n) :
  sim_apply_point (sim_mul f g) p = sim_apply_point f (sim_apply_point g p) /\
  sim_apply_vector (sim_mul f g) v = sim_apply_vector f (sim_apply_vector g v).
Proof.
  simunf. rewrite !mmulv_mul_s, !mmulv_mmulv, mmulv_add, !mmulv_mul_s. split; vext; ring.
Qed.
Lemma sim_mul_iso_eq n (f : similarity K n) (g : isometry K n) (p : point K n) :
  sim_mul_iso f g = sim_mul f (sim_from_isometry g) /\
  sim_apply_point (sim_mul_iso f g) p = sim_apply_point f (iso_apply_point g p).
Proof.
  split.
  - apply sim_ext; simunf; try reflexivity. ring.
  - simunf. rewrite !mmulv_mul_s, mmulv_mmulv, !mmulv_add. vext; ring.
Qed.
Lemma sim_diff n (f : similarity K n) (p q : point K n) :
  pdiff (sim_apply_point f p) (sim_apply_point f q) = sim_apply_vector f (pdiff p q).
Proof.
  unfold sim_apply_point, sim_apply_vector. rewrite iso_diff. f_equal.
  unfold pmul_s, pdiff. vext. ring.
Qed.

End Ring.
