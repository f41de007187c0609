(** Transforms: proofs over every field. *)

From Coq Require Import List Arith Lia Bool Ring Field.
From Verif Require Import Base Scalar Spec LBase MVector LVector MMatrix LMatrix LMatrixDet LMatrixM
  MPoint LMisc MTransform LTransform.
Import ListNotations.
Local Open Scope nat_scope.

Section Fld.
Context {K : Type} {NK : Num K} {ND : NumDiv K} {FK : FieldLaws K}.
Local Open Scope num_scope.
#[local] Instance rl_of_fieldT : RingLaws K := field_ring.
Add Field KfieldT : (@field_th K NK ND FK).

Ltac fld H := rewrite ?(ndiv_ninv _ _ H); field; exact H.

(** ** Scales *)
Lemma vat_sc_inverse n (s : scale K n) i : (i < n)%nat -> vat (sc_inverse s) i = 1 / vat s i.
Proof. intros Hi. exact (vget_loop_fill 0 n (fun i => 1 / vat s i) (vzero n) i Hi). Qed.
Lemma vat_sc_inverse_apply n (s : scale K n) (v : vec K n) i : (i < n)%nat ->
  vat (sc_inverse_apply_vector s v) i = vat v i / vat s i.
Proof. intros Hi. exact (vget_loop_fill 0 n (fun i => vat v i / vat s i) (vzero n) i Hi). Qed.
Lemma vat_sc_apply n (s : scale K n) (v : vec K n) i : (i < n)%nat ->
  vat (sc_apply_vector s v) i = vat s i * vat v i.
Proof. intros Hi. rewrite sc_apply_vector_eq. apply vat_vcmul; exact Hi. Qed.
Lemma sc_undo_vector n (s : scale K n) (v : vec K n) : (forall i, (i < n)%nat -> vat s i <> 0) ->
  sc_inverse_apply_vector s (sc_apply_vector s v) = v /\
  sc_apply_vector s (sc_inverse_apply_vector s v) = v /\
  sc_inverse_apply_vector s v = sc_apply_vector (sc_inverse s) v /\
  sc_mul s (sc_inverse s) = sc_identity n.
Proof.
  intros H. conjs.
  - apply vat_ext. intros i Hi. rewrite vat_sc_inverse_apply, vat_sc_apply by auto.
    fld (H i Hi).
  - apply vat_ext. intros i Hi. rewrite vat_sc_apply, vat_sc_inverse_apply by auto.
    fld (H i Hi).
  - apply vat_ext. intros i Hi. rewrite vat_sc_apply, vat_sc_inverse_apply, vat_sc_inverse by auto.
    fld (H i Hi).
  - apply vat_ext. intros i Hi. etransitivity; [exact (vat_vcmul n s (sc_inverse s) i Hi)|].
    rewrite vat_sc_inverse by auto. etransitivity; [|symmetry; exact (vat_fill n 1 i Hi)].
    fld (H i Hi).
Qed.

(** ** Applying affine matrices to points *)
Lemma tf_point_affine n (m : transform K n) (p q : point K n) :
  mmulv m (vextend (p : vec K n) 1) = vextend q 1 -> tf_apply_point m p = Some q.
Proof.
  intros H. unfold tf_apply_point, pto_homogeneous. rewrite H. apply pfrom_to_homogeneous.
Qed.
Lemma tf_vector_affine n (m : transform K n) (v u : vec K n) w :
  mmulv m (vextend v 0) = vextend u w -> tf_apply_vector m v = u.
Proof. intros H. unfold tf_apply_vector. rewrite H. apply contract_extend. Qed.

(** ** General transforms *)
Lemma tf_point_none n (f : transform K n) (p : point K n) :
  tf_apply_point f p = None <-> vat (mmulv f (pto_homogeneous p)) n = 0.
Proof. apply pfrom_homogeneous_none. Qed.
Lemma tf_point_some n (f : transform K n) (p q : point K n) :
  tf_apply_point f p = Some q <->
  (exists w, w <> 0 /\ mmulv f (pto_homogeneous p) = vmul_s (pto_homogeneous q) w).
Proof.
  unfold tf_apply_point. set (h := mmulv f (pto_homogeneous p)). split.
  - intros E. assert (W : vat h n <> 0).
    { intros Z. apply pfrom_homogeneous_none in Z. congruence. }
    exists (vat h n). split; [exact W|].
    destruct (pfrom_homogeneous_some n h W) as (q' & E' & Hq). rewrite E in E'. injection E' as <-.
    apply vat_ext. intros i Hi. rewrite vat_vmul_s by auto. unfold pto_homogeneous.
    destruct (Nat.eq_dec i n) as [->|].
    + rewrite extend_last. ring.
    + rewrite extend_init by lia. symmetry. apply Hq. lia.
  - intros (w & W & E). rewrite E, pfrom_homogeneous_scale by exact W. apply pfrom_to_homogeneous.
Qed.
Lemma tf_mul_point n (f g : transform K n) (p q : point K n) :
  tf_apply_point g p = Some q -> tf_apply_point (tf_mul f g) p = tf_apply_point f q.
Proof.
  intros H. apply tf_point_some in H. destruct H as (w & W & E).
  unfold tf_apply_point, tf_mul. rewrite mmulv_mmulv, E, mmulv_mul_s.
  apply pfrom_homogeneous_scale. exact W.
Qed.
Lemma tf_mul_vector n (f g : transform K n) (v : vec K n) :
  vat (mmulv g (vextend v 0)) n = 0 ->
  tf_apply_vector (tf_mul f g) v = tf_apply_vector f (tf_apply_vector g v).
Proof.
  intros H. unfold tf_apply_vector, tf_mul. rewrite mmulv_mmulv. do 2 f_equal.
  rewrite <- (extend_contract n (mmulv g (vextend v 0))) at 1. rewrite H. reflexivity.
Qed.
Lemma tf_identity_apply n (p : point K n) (v : vec K n) :
  tf_apply_point (tf_identity n) p = Some p /\ tf_apply_vector (tf_identity n) v = v.
Proof.
  unfold tf_apply_point, tf_apply_vector, tf_identity. rewrite !mmulv_1.
  split; [apply pfrom_to_homogeneous|apply contract_extend].
Qed.
Lemma tf_undo_point n (f g : transform K n) (p q : point K n) :
  mmul g f = midentity (S n) -> tf_apply_point f p = Some q -> tf_apply_point g q = Some p.
Proof.
  intros I H. rewrite <- (tf_mul_point n g f p q H). unfold tf_mul. rewrite I.
  exact (proj1 (tf_identity_apply n p p)).
Qed.
Lemma tf_undo_vector n (f g : transform K n) (v : vec K n) :
  mmul g f = midentity (S n) -> vat (mmulv f (vextend v 0)) n = 0 ->
  tf_apply_vector g (tf_apply_vector f v) = v.
Proof.
  intros I H. rewrite <- (tf_mul_vector n g f v H). unfold tf_mul. rewrite I.
  exact (proj2 (tf_identity_apply n v v)).
Qed.

(** ** Similarities *)
Lemma pmul_div n (p : point K n) s : s <> 0 -> pdiv_s (pmul_s p s) s = p /\ pmul_s (pdiv_s p s) s = p.
Proof.
  intros H. unfold pdiv_s, pmul_s. split; vext; fld H.
Qed.
Lemma sim_undo n (f : similarity K n) (p : point K n) (v : vec K n) :
  sim_scale f <> 0 ->
  mmul (mtranspose (iso_rotation (sim_isometry f))) (iso_rotation (sim_isometry f)) = midentity n ->
  sim_inverse_apply_point f (sim_apply_point f p) = p /\
  sim_inverse_apply_vector f (sim_apply_vector f v) = v.
Proof.
  intros H O. unfold sim_inverse_apply_point, sim_apply_point, sim_inverse_apply_vector,
    sim_apply_vector. pose proof (iso_inverse_l n _ O) as L.
  destruct (iso_inverse_apply_eq n (sim_isometry f)
    (iso_apply_point (sim_isometry f) (pmul_s p (sim_scale f)))
    (iso_apply_vector (sim_isometry f) (vmul_s v (sim_scale f)))) as [E1 E2].
  rewrite E1, E2.
  destruct (iso_apply_mul n (iso_inverse (sim_isometry f)) (sim_isometry f)
    (pmul_s p (sim_scale f)) (vmul_s v (sim_scale f))) as [F1 F2].
  rewrite <- F1, <- F2, L.
  destruct (iso_apply_id n (pmul_s p (sim_scale f)) (vmul_s v (sim_scale f))) as [G1 G2].
  rewrite G1, G2. split; [apply (pmul_div n p _ H)|exact (proj1 (pmul_div n v _ H))].
Qed.
Lemma sim_undo' n (f : similarity K n) (p : point K n) (v : vec K n) :
  sim_scale f <> 0 ->
  mmul (iso_rotation (sim_isometry f)) (mtranspose (iso_rotation (sim_isometry f))) = midentity n ->
  sim_apply_point f (sim_inverse_apply_point f p) = p /\
  sim_apply_vector f (sim_inverse_apply_vector f v) = v.
Proof.
  intros H O. unfold sim_inverse_apply_point, sim_apply_point, sim_inverse_apply_vector,
    sim_apply_vector. pose proof (iso_inverse_r n _ O) as L.
  assert (A : forall q, pmul_s (pdiv_s (n:=n) q (sim_scale f)) (sim_scale f) = q)
    by (intros q; apply (pmul_div n q _ H)).
  rewrite (A (iso_inverse_apply_point (sim_isometry f) p)).
  assert (B : vmul_s (vdiv_s (iso_inverse_apply_vector (sim_isometry f) v) (sim_scale f)) (sim_scale f)
              = iso_inverse_apply_vector (sim_isometry f) v) by exact (A _).
  rewrite B.
  destruct (iso_inverse_apply_eq n (sim_isometry f) p v) as [E1 E2]. rewrite E1, E2.
  destruct (iso_apply_mul n (sim_isometry f) (iso_inverse (sim_isometry f)) p v) as [F1 F2].
  rewrite <- F1, <- F2, L. apply iso_apply_id.
Qed.
Definition sim_inv n (f : similarity K n) : similarity K n :=
  mkSimilarity (mkIsometry (vmul_s (iso_translation (iso_inverse (sim_isometry f))) (1 / sim_scale f))
                           (iso_rotation (iso_inverse (sim_isometry f)))) (1 / sim_scale f).
Lemma sim_inverse_eq n (f : similarity K n) :
  sim_inverse f = Some (sim_inv n f) /\ sim_inverse_mut f = Some (sim_inv n f).
Proof.
  assert (E : sim_inverse_mut f = Some (sim_inv n f)).
  { unfold sim_inverse_mut. rewrite iso_inverse_mut_eq. rewrite vmul_assign_eq. reflexivity. }
  split; exact E.
Qed.
Lemma sim_inv_apply n (f : similarity K n) (p : point K n) (v : vec K n) :
  sim_scale f <> 0 ->
  sim_apply_point (sim_inv n f) p = sim_inverse_apply_point f p /\
  sim_apply_vector (sim_inv n f) v = sim_inverse_apply_vector f v.
Proof.
  intros H. unfold sim_inv, sim_inverse_apply_point, sim_inverse_apply_vector.
  destruct (iso_inverse_apply_eq n (sim_isometry f) p v) as [E1 E2]. rewrite E1, E2.
  unfold sim_apply_point, sim_apply_vector, iso_apply_point, iso_apply_vector, tr_apply_point,
    rot_apply_point, rot_apply_vector, pfrom_vector, pto_vector, padd, pmul_s, pdiv_s;
  cbn [sim_isometry sim_scale iso_translation iso_rotation].
  rewrite !mmulv_mul_s. split; vext; fld H.
Qed.
Lemma sim_inv_mul n (f : similarity K n) :
  sim_scale f <> 0 ->
  (mmul (mtranspose (iso_rotation (sim_isometry f))) (iso_rotation (sim_isometry f)) = midentity n ->
   sim_mul (sim_inv n f) f = sim_identity n) /\
  (mmul (iso_rotation (sim_isometry f)) (mtranspose (iso_rotation (sim_isometry f))) = midentity n ->
   sim_mul f (sim_inv n f) = sim_identity n).
Proof.
  intros H. unfold sim_mul, sim_mul_iso, sim_inv, sim_identity, iso_identity, sim_from_parts,
    iso_inverse, iso_from_parts, tr_from_vector, rot_apply_vector, rot_mul, rot_identity,
    tr_identity, rot_inverse; cbn [sim_isometry sim_scale iso_translation iso_rotation].
  split; intros O; apply sim_ext; cbn [sim_isometry sim_scale iso_translation iso_rotation].
  - rewrite mmulv_neg. vext. fld H.
  - exact O.
  - fld H.
  - rewrite mmulv_mul_s, <- mmulv_mmulv, O, mmulv_1. vext. fld H.
  - exact O.
  - fld H.
Qed.
End Fld.
