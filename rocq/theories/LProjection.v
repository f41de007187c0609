(** Lemmas about the projection matrices. *)

From Coq Require Import List Arith Lia Bool Reals Lra Psatz Ring Field.
From Verif Require Import Base Scalar Spec SpecProjection LBase MVector LVector LVectorR MMatrix LMatrix
  LMatrixDet MPoint MReal LReal MMisc LMisc LQuat MTransform LTransform MProjection.
Import ListNotations.

Section Field.
Context {K : Type} {NK : Num K} {ND : NumDiv K} {FK : FieldLaws K}.
Local Open Scope num_scope.
#[local] Instance rl_of_fieldP : RingLaws K := field_ring.
Add Ring Kring : (@ring_laws K NK field_ring).
Add Field Kf : (@field_th K NK ND FK).

Lemma fmul_neq (x y : K) : x <> 0 -> y <> 0 -> x * y <> 0.
Proof.
  intros Hx Hy E. apply Hx. transitivity (x * y * ninv y); [field; exact Hy|]. rewrite E. ring.
Qed.
Lemma finv_neq (x : K) : x <> 0 -> ninv x <> 0.
Proof.
  intros Hx E. apply (@field_one_neq_zero K NK ND FK). transitivity (ninv x * x); [field; exact Hx|].
  rewrite E. ring.
Qed.
Lemma fdiv_eq (x y z : K) : y <> 0 -> z * y = x -> x / y = z.
Proof. intros Hy <-. rewrite ndiv_ninv by exact Hy. field. exact Hy. Qed.
Lemma fneq_eq (x y : K) : x = y -> y <> 0 -> x <> 0.
Proof. intros ->. auto. Qed.

(** ** Perspective *)
Section Persp.
Variables l r b t n f : K.
Hypothesis H2 : 1 + 1 <> 0 :> K.
Hypothesis Hlr : r + l <> 0.
Hypothesis Hbt : t + b <> 0.
Hypothesis Hn : n <> 0.
Hypothesis Hf : f <> 0.
Hypothesis Hfn : f - n <> 0.
Notation M := (persp_new l r b t n f).

Lemma persp_lr : r - (- l) = r + l. Proof. ring. Qed.
Lemma persp_bt : t - (- b) = t + b. Proof. ring. Qed.

Lemma persp_00 : mget M 0 0 = (1 + 1) * n * ninv (r + l).
Proof. cbv [persp_new m4from_perspective]. mcompute. rewrite persp_lr. apply ndiv_ninv. exact Hlr. Qed.
Lemma persp_11 : mget M 1 1 = (1 + 1) * n * ninv (t + b).
Proof. cbv [persp_new m4from_perspective]. mcompute. rewrite persp_bt. apply ndiv_ninv. exact Hbt. Qed.
Lemma persp_20 : mget M 2 0 = (r - l) * ninv (r + l).
Proof.
  cbv [persp_new m4from_perspective]. mcompute. rewrite persp_lr, ndiv_ninv by exact Hlr. ring.
Qed.
Lemma persp_21 : mget M 2 1 = (t - b) * ninv (t + b).
Proof.
  cbv [persp_new m4from_perspective]. mcompute. rewrite persp_bt, ndiv_ninv by exact Hbt. ring.
Qed.
Lemma persp_22 : mget M 2 2 = - (f + n) * ninv (f - n).
Proof. cbv [persp_new m4from_perspective]. mcompute. apply ndiv_ninv. exact Hfn. Qed.
Lemma persp_32 : mget M 3 2 = - ((1 + 1) * f * n) * ninv (f - n).
Proof. cbv [persp_new m4from_perspective]. mcompute. apply ndiv_ninv. exact Hfn. Qed.
Lemma persp_shape :
  M = m4new (mget M 0 0) 0 0 0  0 (mget M 1 1) 0 0  (mget M 2 0) (mget M 2 1) (mget M 2 2) (- (1))
            0 0 (mget M 3 2) 0.
Proof. reflexivity. Qed.

Lemma persp_aspect_spec : persp_aspect_ratio M = (r + l) / (t + b).
Proof.
  unfold persp_aspect_ratio. rewrite persp_00, persp_11.
  rewrite (ndiv_ninv (r + l)) by exact Hbt.
  apply fdiv_eq; [repeat apply fmul_neq; auto using finv_neq|]. field. auto.
Qed.

Lemma persp_ratio_nf : (- mget M 2 2 + 1) / (- mget M 2 2 - 1) = f * ninv n.
Proof.
  rewrite persp_22. apply fdiv_eq.
  - apply (fneq_eq _ ((1 + 1) * n * ninv (f - n))); [field; exact Hfn|].
    repeat apply fmul_neq; auto using finv_neq.
  - field. auto.
Qed.
Lemma persp_near_spec : persp_near M = n.
Proof.
  unfold persp_near. rewrite persp_ratio_nf, persp_32.
  rewrite ndiv_ninv by (repeat apply fmul_neq; auto using finv_neq). field. auto.
Qed.
Lemma persp_far_spec : persp_far M = f.
Proof.
  unfold persp_far. rewrite persp_ratio_nf, persp_32. rewrite ndiv_ninv by exact H2. field. auto.
Qed.

Section LR.
Hypothesis Hl : l <> 0.
Lemma persp_ratio_lr : (mget M 2 0 + 1) / (- mget M 2 0 + 1) = r * ninv l.
Proof.
  rewrite persp_20. apply fdiv_eq.
  - apply (fneq_eq _ ((1 + 1) * l * ninv (r + l))); [field; exact Hlr|].
    repeat apply fmul_neq; auto using finv_neq.
  - field. auto.
Qed.
Lemma persp_ratio_lr1 : r * ninv l + 1 = (r + l) * ninv l. Proof. field. exact Hl. Qed.
Lemma persp_right_spec : persp_right M = r.
Proof.
  unfold persp_right. rewrite persp_ratio_lr, persp_ratio_lr1, persp_near_spec, persp_00.
  rewrite (ndiv_ninv 1) by (repeat apply fmul_neq; auto using finv_neq).
  rewrite (ndiv_ninv (r * ninv l)) by (repeat apply fmul_neq; auto using finv_neq). field. auto.
Qed.
Lemma persp_left_spec : persp_left M = l.
Proof.
  unfold persp_left. rewrite persp_ratio_lr, persp_ratio_lr1, persp_near_spec, persp_00.
  rewrite !(ndiv_ninv 1) by (repeat apply fmul_neq; auto using finv_neq). field. auto.
Qed.
End LR.

Section BT.
Hypothesis Hb : b <> 0.
Lemma persp_ratio_bt : (mget M 2 1 + 1) / (- mget M 2 1 + 1) = t * ninv b.
Proof.
  rewrite persp_21. apply fdiv_eq.
  - apply (fneq_eq _ ((1 + 1) * b * ninv (t + b))); [field; exact Hbt|].
    repeat apply fmul_neq; auto using finv_neq.
  - field. auto.
Qed.
Lemma persp_ratio_bt1 : t * ninv b + 1 = (t + b) * ninv b. Proof. field. exact Hb. Qed.
Lemma persp_top_spec : persp_top M = t.
Proof.
  unfold persp_top. rewrite persp_ratio_bt, persp_ratio_bt1, persp_near_spec, persp_11.
  rewrite (ndiv_ninv 1) by (repeat apply fmul_neq; auto using finv_neq).
  rewrite (ndiv_ninv (t * ninv b)) by (repeat apply fmul_neq; auto using finv_neq). field. auto.
Qed.
Lemma persp_bottom_spec : persp_bottom M = b.
Proof.
  unfold persp_bottom. rewrite persp_ratio_bt, persp_ratio_bt1, persp_near_spec, persp_11.
  rewrite !(ndiv_ninv 1) by (repeat apply fmul_neq; auto using finv_neq). field. auto.
Qed.
End BT.

(** The image of a point under the matrix. *)
Definition persp_image (p : vec K 3) : vec K 3 :=
  v3 (((1 + 1) * n * vat p 0 + (r - l) * vat p 2) * ninv (r + l) * ninv (- vat p 2))
     (((1 + 1) * n * vat p 1 + (t - b) * vat p 2) * ninv (t + b) * ninv (- vat p 2))
     ((- (f + n) * vat p 2 - (1 + 1) * f * n) * ninv (f - n) * ninv (- vat p 2)).

Lemma persp_mul (x y z : K) :
  mmulv M (vextend ((x, (y, (z, tt))) : vec K 3) 1) =
  v4 (((1 + 1) * n * x + (r - l) * z) * ninv (r + l)) (((1 + 1) * n * y + (t - b) * z) * ninv (t + b))
     ((- (f + n) * z - (1 + 1) * f * n) * ninv (f - n)) (- z).
Proof.
  rewrite persp_shape, persp_00, persp_11, persp_20, persp_21, persp_22, persp_32.
  mcompute. pairs ltac:(ring).
Qed.

Lemma fneg_neq (x : K) : x <> 0 -> - x <> 0.
Proof. intros Hx E. apply Hx. transitivity (- - x); [ring|]. rewrite E. ring. Qed.

Lemma persp_projects_iff (p q : vec K 3) : projects_to M p q <-> vat p 2 <> 0 /\ q = persp_image p.
Proof.
  destruct3 p. destruct3 q. unfold projects_to. rewrite persp_mul. split.
  - intros (w & Hw & E). vcompute. injection E as E0 E1 E2 E3.
    assert (Ew : w = - z). { transitivity (1 * w); [ring|symmetry; exact E3]. } subst w.
    assert (Hz : z <> 0) by (intros ->; apply Hw; ring). split; [exact Hz|].
    unfold persp_image. mcompute. rewrite E0, E1, E2.
    pairs ltac:(field; repeat split; assumption).
  - intros [Hz E]. unfold persp_image in E. vcompute. injection E as -> -> ->.
    pose proof (fneg_neq _ Hz) as Hw. exists (- z). split; [exact Hw|].
    pairs ltac:(first [ring | field; auto]).
Qed.

Lemma persp_project_vector_spec (p : vec K 3) : vat p 2 <> 0 -> projects_to M p (persp_project_vector M p).
Proof.
  intros Hz. apply persp_projects_iff. split; [exact Hz|].
  destruct3 p. unfold persp_project_vector. rewrite persp_mul. unfold persp_image. mcompute.
  pose proof (fneg_neq _ Hz) as Hw. rewrite !(ndiv_ninv 1) by exact Hw.
  pairs ltac:(ring).
Qed.

Lemma persp_project_point_spec (p : vec K 3) : vat p 2 <> 0 ->
  persp_project_point M p = v3 (vat (persp_image p) 0) (vat (persp_image p) 1 + (t - b) / (t + b)) (vat (persp_image p) 2).
Proof.
  intros Hz. pose proof (fneg_neq _ Hz) as Hw. unfold persp_project_point.
  replace (mget M 3 1) with (0 : K) by reflexivity.
  rewrite persp_00, persp_11, persp_20, persp_22, persp_32.
  rewrite (ndiv_ninv (t - b)) by exact Hbt. rewrite (ndiv_ninv (- (1))) by exact Hz.
  destruct3 p. unfold persp_image. mcompute. pairs ltac:(field; auto).
Qed.

Definition persp_preimage (q : vec K 3) : vec K 3 :=
  v3 (((r + l) * vat q 0 + (r - l)) * f * ninv (f + n - (f - n) * vat q 2))
     (((t + b) * vat q 1 + (t - b)) * f * ninv (f + n - (f - n) * vat q 2))
     (- ((1 + 1) * f * n) * ninv (f + n - (f - n) * vat q 2)).

Lemma persp_image_depth (p : vec K 3) : vat p 2 <> 0 ->
  f + n - (f - n) * vat (persp_image p) 2 = - ((1 + 1) * f * n) * ninv (vat p 2).
Proof.
  intros Hz. destruct3 p. unfold persp_image. mcompute. field. split; [exact Hz|]. 
  split; [apply fneg_neq; exact Hz|exact Hfn].
Qed.
Lemma persp_image_depth_neq (p : vec K 3) : vat p 2 <> 0 ->
  f + n - (f - n) * vat (persp_image p) 2 <> 0.
Proof.
  intros Hz. rewrite persp_image_depth by exact Hz.
  assert (H2fn : (1 + 1) * f * n <> 0) by (repeat apply fmul_neq; assumption).
  apply fmul_neq; [apply fneg_neq; exact H2fn|apply finv_neq; exact Hz].
Qed.

Lemma persp_preimage_image (p : vec K 3) : vat p 2 <> 0 -> persp_preimage (persp_image p) = p.
Proof.
  intros Hz. pose proof (persp_image_depth p Hz) as E. pose proof (fneg_neq _ Hz) as Hw.
  assert (H2fn : (1 + 1) * f * n <> 0) by (repeat apply fmul_neq; assumption).
  pose proof (fneg_neq _ H2fn) as Hm.
  unfold persp_preimage. rewrite E. destruct3 p. unfold persp_image. mcompute.
  pairs ltac:(field; repeat split; assumption).
Qed.

Lemma persp_image_preimage (q : vec K 3) : f + n - (f - n) * vat q 2 <> 0 ->
  projects_to M (persp_preimage q) q.
Proof.
  intros Hd. apply persp_projects_iff.
  assert (H2fn : (1 + 1) * f * n <> 0) by (repeat apply fmul_neq; assumption).
  pose proof (fneg_neq _ H2fn) as Hm. pose proof (fneg_neq _ Hm) as Hmm.
  destruct3 q. unfold persp_image, persp_preimage. mcompute.
  split; [apply fmul_neq; [exact Hm|apply finv_neq; exact Hd]|].
  pairs ltac:(field; repeat split; assumption).
Qed.

Section Unproject.
Hypothesis Hl : l <> 0.
Hypothesis Hb : b <> 0.

Lemma persp_unproject_of (q : vec K 3) : f + n - (f - n) * vat q 2 <> 0 ->
  persp_unproject_point M q = persp_preimage q.
Proof.
  intros Hd. unfold persp_unproject_point, persp_preimage.
  rewrite persp_right_spec, persp_left_spec, persp_top_spec, persp_bottom_spec, persp_near_spec,
    persp_far_spec by assumption.
  assert (H2n : (1 + 1) * n <> 0) by (apply fmul_neq; assumption).
  assert (H2fn : (1 + 1) * f * n <> 0) by (repeat apply fmul_neq; assumption).
  rewrite !(ndiv_ninv _ _ H2n), !(ndiv_ninv _ _ H2fn).
  destruct3 q. mcompute.
  assert (Hw : (n - f) * ninv ((1 + 1) * f * n) * z + (f + n) * ninv ((1 + 1) * f * n) <> 0).
  { apply (fneq_eq _ ((f + n - (f - n) * z) * ninv ((1 + 1) * f * n))); [ring|].
    apply fmul_neq; [exact Hd|]. apply finv_neq. exact H2fn. }
  rewrite !(ndiv_ninv _ _ Hw).
  assert (Ew : ninv ((n - f) * ninv ((1 + 1) * f * n) * z + (f + n) * ninv ((1 + 1) * f * n)) =
               (1 + 1) * f * n * ninv (f + n - (f - n) * z)).
  { transitivity (ninv ((f + n - (f - n) * z) * ninv ((1 + 1) * f * n))); [f_equal; ring|].
    field. repeat split; assumption. }
  rewrite Ew. pairs ltac:(field; repeat split; assumption).
Qed.

Lemma persp_unproject_image (p : vec K 3) : vat p 2 <> 0 ->
  persp_unproject_point M (persp_image p) = p.
Proof.
  intros Hz. rewrite persp_unproject_of by (apply persp_image_depth_neq; exact Hz).
  apply persp_preimage_image. exact Hz.
Qed.

Lemma persp_project_unproject (q : vec K 3) : f + n - (f - n) * vat q 2 <> 0 ->
  projects_to M (persp_unproject_point M q) q.
Proof. intros Hd. rewrite persp_unproject_of by exact Hd. apply persp_image_preimage. exact Hd. Qed.
End Unproject.
End Persp.

(** ** Orthographic *)
Section Ortho.
Variables l r b t n f : K.
Hypothesis H2 : 1 + 1 <> 0 :> K.
Hypothesis Hlr : r + l <> 0.
Hypothesis Hbt : t + b <> 0.
Hypothesis Hfn : f - n <> 0.
Notation M := (ortho_new l r b t n f).

Lemma ortho_00 : mget M 0 0 = (1 + 1) * ninv (r + l).
Proof. cbv [ortho_new m4from_orthographic]. mcompute. rewrite persp_lr. apply ndiv_ninv. exact Hlr. Qed.
Lemma ortho_11 : mget M 1 1 = (1 + 1) * ninv (t + b).
Proof. cbv [ortho_new m4from_orthographic]. mcompute. rewrite persp_bt. apply ndiv_ninv. exact Hbt. Qed.
Lemma ortho_22 : mget M 2 2 = - (1 + 1) * ninv (f - n).
Proof. cbv [ortho_new m4from_orthographic]. mcompute. apply ndiv_ninv. exact Hfn. Qed.
Lemma ortho_30 : mget M 3 0 = - (r - l) * ninv (r + l).
Proof.
  cbv [ortho_new m4from_orthographic]. mcompute. rewrite persp_lr, ndiv_ninv by exact Hlr. ring.
Qed.
Lemma ortho_31 : mget M 3 1 = - (t - b) * ninv (t + b).
Proof.
  cbv [ortho_new m4from_orthographic]. mcompute. rewrite persp_bt, ndiv_ninv by exact Hbt. ring.
Qed.
Lemma ortho_32 : mget M 3 2 = - (f + n) * ninv (f - n).
Proof. cbv [ortho_new m4from_orthographic]. mcompute. apply ndiv_ninv. exact Hfn. Qed.
Lemma ortho_shape :
  M = m4new (mget M 0 0) 0 0 0  0 (mget M 1 1) 0 0  0 0 (mget M 2 2) 0
            (mget M 3 0) (mget M 3 1) (mget M 3 2) 1.
Proof. reflexivity. Qed.

Section NF.
Hypothesis Hn : n <> 0.
Lemma ortho_ratio_nf : (- mget M 3 2 + 1) / (- mget M 3 2 - 1) = f * ninv n.
Proof.
  rewrite ortho_32. apply fdiv_eq.
  - apply (fneq_eq _ ((1 + 1) * n * ninv (f - n))); [field; exact Hfn|].
    repeat apply fmul_neq; auto using finv_neq.
  - field. auto.
Qed.
Lemma ortho_ratio_nf1 : f * ninv n - 1 = (f - n) * ninv n. Proof. field. exact Hn. Qed.
Lemma ortho_22_neq : - (1 + 1) * ninv (f - n) <> 0.
Proof. apply fmul_neq; [apply fneg_neq; exact H2|apply finv_neq; exact Hfn]. Qed.
Lemma ortho_near_spec : ortho_near M = n.
Proof.
  pose proof (fneg_neq _ H2) as Hm.
  unfold ortho_near. rewrite ortho_ratio_nf, ortho_ratio_nf1, ortho_22.
  rewrite (ndiv_ninv 1 (- (1 + 1) * _)) by exact ortho_22_neq.
  rewrite (ndiv_ninv 1) by (repeat apply fmul_neq; auto using finv_neq).
  field. repeat split; assumption.
Qed.
Lemma ortho_far_spec : ortho_far M = f.
Proof.
  pose proof (fneg_neq _ H2) as Hm.
  unfold ortho_far. rewrite ortho_ratio_nf, ortho_ratio_nf1, ortho_22.
  rewrite (ndiv_ninv 1 (- (1 + 1) * _)) by exact ortho_22_neq.
  rewrite (ndiv_ninv (f * ninv n)) by (repeat apply fmul_neq; auto using finv_neq).
  field. repeat split; assumption.
Qed.
End NF.

Section LR.
Hypothesis Hl : l <> 0.
Lemma ortho_ratio_lr : (- mget M 3 0 + 1) / (mget M 3 0 + 1) = r * ninv l.
Proof.
  rewrite ortho_30. apply fdiv_eq.
  - apply (fneq_eq _ ((1 + 1) * l * ninv (r + l))); [field; exact Hlr|].
    repeat apply fmul_neq; auto using finv_neq.
  - field. auto.
Qed.
Lemma ortho_right_spec : ortho_right M = r.
Proof.
  unfold ortho_right. rewrite ortho_ratio_lr, (persp_ratio_lr1 l r Hl), ortho_00.
  rewrite (ndiv_ninv 1) by (repeat apply fmul_neq; auto using finv_neq).
  rewrite (ndiv_ninv (r * ninv l)) by (repeat apply fmul_neq; auto using finv_neq). field. auto.
Qed.
Lemma ortho_left_spec : ortho_left M = l.
Proof.
  unfold ortho_left. rewrite ortho_ratio_lr, (persp_ratio_lr1 l r Hl), ortho_00.
  rewrite !(ndiv_ninv 1) by (repeat apply fmul_neq; auto using finv_neq). field. auto.
Qed.
End LR.

Section BT.
Hypothesis Hb : b <> 0.
Lemma ortho_ratio_bt : (- mget M 3 1 + 1) / (mget M 3 1 + 1) = t * ninv b.
Proof.
  rewrite ortho_31. apply fdiv_eq.
  - apply (fneq_eq _ ((1 + 1) * b * ninv (t + b))); [field; exact Hbt|].
    repeat apply fmul_neq; auto using finv_neq.
  - field. auto.
Qed.
Lemma ortho_top_spec : ortho_top M = t.
Proof.
  unfold ortho_top. rewrite ortho_ratio_bt, (persp_ratio_lr1 b t Hb), ortho_11.
  rewrite (ndiv_ninv 1) by (repeat apply fmul_neq; auto using finv_neq).
  rewrite (ndiv_ninv (t * ninv b)) by (repeat apply fmul_neq; auto using finv_neq). field. auto.
Qed.
Lemma ortho_bottom_spec : ortho_bottom M = b.
Proof.
  unfold ortho_bottom. rewrite ortho_ratio_bt, (persp_ratio_lr1 b t Hb), ortho_11.
  rewrite !(ndiv_ninv 1) by (repeat apply fmul_neq; auto using finv_neq). field. auto.
Qed.
End BT.

Definition ortho_image (p : vec K 3) : vec K 3 :=
  v3 (((1 + 1) * vat p 0 - (r - l)) * ninv (r + l))
     (((1 + 1) * vat p 1 - (t - b)) * ninv (t + b))
     ((- (1 + 1) * vat p 2 - (f + n)) * ninv (f - n)).

Lemma ortho_project_point_image (p : vec K 3) : ortho_project_point M p = ortho_image p.
Proof.
  unfold ortho_project_point. rewrite ortho_00, ortho_11, ortho_22, ortho_30, ortho_31, ortho_32.
  unfold ortho_image. destruct3 p. mcompute. pairs ltac:(ring).
Qed.

Lemma ortho_represents :
  (forall p : vec K 3, mmulv M (vextend p 1) = vextend (ortho_project_point M p) 1) /\
  (forall v : vec K 3, mmulv M (vextend v 0) = vextend (ortho_project_vector M v) 0).
Proof.
  cbv [ortho_project_point ortho_project_vector ortho_new m4from_orthographic].
  split; intros p; destruct3 p; mcompute; pairs ltac:(ring).
Qed.

Section Unproject.
Hypothesis Hl : l <> 0.
Hypothesis Hb : b <> 0.
Hypothesis Hn : n <> 0.
Lemma ortho_unproject_image (p : vec K 3) :
  ortho_unproject_point M (ortho_image p) = p /\ ortho_image (ortho_unproject_point M p) = p.
Proof.
  unfold ortho_unproject_point.
  rewrite ortho_right_spec, ortho_left_spec, ortho_top_spec, ortho_bottom_spec, ortho_near_spec,
    ortho_far_spec by assumption.
  rewrite !(ndiv_ninv _ _ H2). unfold ortho_image. destruct3 p. mcompute.
  split; pairs ltac:(field; repeat split; assumption).
Qed.
Lemma ortho_unproject_vector_inv (v : vec K 3) :
  ortho_unproject_vector M (ortho_project_vector M v) = v /\
  ortho_project_vector M (ortho_unproject_vector M v) = v.
Proof.
  unfold ortho_unproject_vector, ortho_project_vector.
  rewrite ortho_right_spec, ortho_left_spec, ortho_top_spec, ortho_bottom_spec, ortho_near_spec,
    ortho_far_spec by assumption.
  rewrite !(ndiv_ninv _ _ H2), ortho_00, ortho_11, ortho_22. destruct3 v. mcompute.
  split; pairs ltac:(field; repeat split; assumption).
Qed.
End Unproject.
End Ortho.

(** The second coordinate of [project_point]. *)
Lemma project_point_eq (q0 q1 q2 t b : K) : t + b <> 0 ->
  v3 q0 (q1 + (t - b) / (t + b)) q2 = v3 q0 q1 q2 -> t = b.
Proof.
  intros H E. injection E as E. rewrite ndiv_ninv in E by exact H.
  transitivity ((q1 + (t - b) * ninv (t + b) - q1) * (t + b) + b); [field; exact H|].
  rewrite E. ring.
Qed.
Lemma project_point_same (q : vec K 3) (b : K) : b + b <> 0 ->
  v3 (vat q 0) (vat q 1 + (b - b) / (b + b)) (vat q 2) = q.
Proof.
  intros H. rewrite ndiv_ninv by exact H. destruct3 q. vcompute. pairs ltac:(field; exact H).
Qed.
End Field.

(** ** Over the reals *)
Local Open Scope R_scope.

Lemma two_neq_R : (n1 + n1)%N_ <> n0 :> R.
Proof. rnum. lra. Qed.

Lemma rdiv_cube a c : 0 < c -> (-1 <= a / c <= 1 <-> - c <= a <= c).
Proof.
  intros Hc. assert (E : a = a / c * c) by (field; lra). remember (a / c) as k.
  split; intros [A B]; split; nra.
Qed.
Lemma rdiv_cube_neg a c : c < 0 -> (-1 <= a / c <= 1 <-> c <= a <= - c).
Proof.
  intros Hc. assert (E : a = a / c * c) by (field; lra). remember (a / c) as k.
  split; intros [A B]; split; nra.
Qed.

Section R.
Variables l r b t n f : R.
Hypothesis Hlr : 0 < r + l.
Hypothesis Hbt : 0 < t + b.
Hypothesis Hnf : 0 < n < f.
Notation M := (persp_new l r b t n f).

Lemma rlr : (r + l)%N_ <> n0. Proof. rnum. lra. Qed.
Lemma rbt : (t + b)%N_ <> n0. Proof. rnum. lra. Qed.
Lemma rn : n <> (n0 : R). Proof. rnum. lra. Qed.
Lemma rf : f <> (n0 : R). Proof. rnum. lra. Qed.
Lemma rfn : (f - n)%N_ <> n0. Proof. rnum. lra. Qed.

Lemma persp_image_R (p : vec R 3) : vat p 2 <> 0 ->
  persp_image l r b t n f p =
  v3 ((2 * n * vat p 0 - (r - l) * (- vat p 2)) / ((r + l) * (- vat p 2)))
     ((2 * n * vat p 1 - (t - b) * (- vat p 2)) / ((t + b) * (- vat p 2)))
     (((f + n) * (- vat p 2) - 2 * f * n) / ((f - n) * (- vat p 2))).
Proof.
  intros Hz. destruct3 p. unfold persp_image, ninv. vcompute. rnum.
  pairs ltac:(field; repeat split; lra).
Qed.

Lemma persp_projects_R (p q : vec R 3) : projects_to M p q -> vat p 2 <> 0 /\
  vat q 0 = (2 * n * vat p 0 - (r - l) * (- vat p 2)) / ((r + l) * (- vat p 2)) /\
  vat q 1 = (2 * n * vat p 1 - (t - b) * (- vat p 2)) / ((t + b) * (- vat p 2)) /\
  vat q 2 = ((f + n) * (- vat p 2) - 2 * f * n) / ((f - n) * (- vat p 2)).
Proof.
  intros H. apply (persp_projects_iff l r b t n f rlr rbt rfn) in H. destruct H as [Hz ->].
  rewrite (persp_image_R p Hz). split; [exact Hz|]. repeat split.
Qed.

Lemma persp_cube_iff (p q : vec R 3) : projects_to M p q -> in_frustum l r b t n f p <-> in_cube q.
Proof.
  intros H. destruct (persp_projects_R p q H) as (Hz & E0 & E1 & E2).
  unfold in_frustum, in_cube. rewrite E0, E1, E2. cbv zeta.
  remember (- vat p 2) as d. assert (Hd : d <> 0) by lra.
  destruct (Rtotal_order d 0) as [D|[D|D]]; [|contradiction|].
  - split; [intros [A _]; lra|]. intros (_ & _ & C).
    rewrite rdiv_cube_neg in C by nra. destruct C as [C1 C2]. exfalso. nra.
  - rewrite !rdiv_cube by nra. split.
    + intros ((A1 & A2) & (B1 & B2) & (C1 & C2)). repeat split; nra.
    + intros ((A1 & A2) & (B1 & B2) & (C1 & C2)). repeat split; nra.
Qed.

Lemma persp_bijection (q : vec R 3) : in_cube q -> exists p, in_frustum l r b t n f p /\ projects_to M p q /\
  forall p', projects_to M p' q -> p' = p.
Proof.
  intros C. assert (Hd : (f + n - (f - n) * vat q 2)%N_ <> n0).
  { destruct C as (_ & _ & [C1 C2]). rnum. nra. }
  pose proof (persp_image_preimage l r b t n f two_neq_R rlr rbt rn rf rfn q Hd) as P.
  exists (persp_preimage l r b t n f q). split; [|split; [exact P|]].
  - apply (persp_cube_iff _ q P). exact C.
  - intros p' H. apply (persp_projects_iff l r b t n f rlr rbt rfn) in H. destruct H as [Hz ->].
    symmetry. exact (persp_preimage_image l r b t n f two_neq_R rlr rbt rn rf rfn p' Hz).
Qed.

Lemma persp_corner bx by_ bz :
  projects_to M (frustum_corner l r b t n f bx by_ bz) (cube_corner bx by_ bz).
Proof.
  apply (persp_projects_iff l r b t n f rlr rbt rfn).
  assert (Z : vat (frustum_corner l r b t n f bx by_ bz) 2 <> 0).
  { destruct bz; unfold frustum_corner, plane; vcompute; lra. }
  split; [exact Z|]. rewrite persp_image_R by exact Z. clear Z.
  unfold frustum_corner, cube_corner, side, unit_side, plane. vcompute.
  destruct bx, by_, bz; pairs ltac:(field; repeat split; lra).
Qed.

Lemma persp_depth (p1 p2 q1 q2 : vec R 3) : projects_to M p1 q1 -> projects_to M p2 q2 ->
  0 < - vat p1 2 < - vat p2 2 -> vat q1 2 < vat q2 2.
Proof.
  intros H1 H2 Hd. destruct (persp_projects_R p1 q1 H1) as (Z1 & _ & _ & ->).
  destruct (persp_projects_R p2 q2 H2) as (Z2 & _ & _ & ->).
  remember (- vat p1 2) as d1. remember (- vat p2 2) as d2.
  assert (E : ((f + n) * d2 - 2 * f * n) / ((f - n) * d2) - ((f + n) * d1 - 2 * f * n) / ((f - n) * d1) =
    2 * f * n * (d2 - d1) / ((f - n) * d1 * d2)) by (field; lra).
  assert (0 < 2 * f * n * (d2 - d1) / ((f - n) * d1 * d2)).
  { apply Rdiv_lt_0_compat; repeat apply Rmult_lt_0_compat; lra. }
  lra.
Qed.

Lemma persp_planes (p q : vec R 3) : projects_to M p q ->
  (- vat p 2 = n <-> vat q 2 = -1) /\ (- vat p 2 = f <-> vat q 2 = 1).
Proof.
  intros H. destruct (persp_projects_R p q H) as (Z & _ & _ & ->).
  remember (- vat p 2) as d. assert (Hd : d <> 0) by lra.
  assert (Hfd : (f - n) * d <> 0) by (apply Rmult_integral_contrapositive; lra).
  set (k := ((f + n) * d - 2 * f * n) / ((f - n) * d)).
  assert (E : k * ((f - n) * d) = (f + n) * d - 2 * f * n) by (unfold k; field; lra).
  clearbody k. split; split; intros A.
  - subst d. rewrite A in *. nra.
  - subst k. nra.
  - subst d. rewrite A in *. nra.
  - subst k. nra.
Qed.

(** ** Orthographic *)
Lemma ortho_image_R (p : vec R 3) :
  ortho_image l r b t n f p =
  v3 ((2 * vat p 0 - (r - l)) / (r + l)) ((2 * vat p 1 - (t - b)) / (t + b))
     ((2 * (- vat p 2) - (f + n)) / (f - n)).
Proof.
  destruct3 p. unfold ortho_image, ninv. vcompute. rnum. pairs ltac:(field; lra).
Qed.
End R.

(** ** Field of view *)
Lemma atan_tan_shift x : PI / 2 < x < 3 * (PI / 2) -> atan (tan x) = x - PI.
Proof.
  intros H. replace (tan x) with (tan (x - PI)).
  - apply atan_tan. lra.
  - unfold tan. rewrite sin_minus, cos_minus, sin_PI, cos_PI.
    assert (cos x < 0). { apply cos_lt_0; lra. }
    field. lra.
Qed.

Lemma fov_angle_range x y : 0 < x + y -> 0 < atan x + atan y < PI.
Proof.
  intros H. pose proof (atan_bound x). pose proof (atan_bound y). pose proof PI_RGT_0.
  assert (A : atan (- y) < atan x) by (apply atan_increasing; lra). rewrite atan_opp in A. lra.
Qed.

Lemma fov_cos x y : exists k, 0 < k /\ cos (atan x + atan y) = k * (1 - x * y) /\
  sin (atan x + atan y) = k * (x + y).
Proof.
  pose proof (atan_bound x) as Bx. pose proof (atan_bound y) as By.
  assert (Cx : 0 < cos (atan x)) by (apply cos_gt_0; lra).
  assert (Cy : 0 < cos (atan y)) by (apply cos_gt_0; lra).
  assert (Sx : sin (atan x) = x * cos (atan x)).
  { rewrite <- (tan_atan x) at 2. unfold tan. field. lra. }
  assert (Sy : sin (atan y) = y * cos (atan y)).
  { rewrite <- (tan_atan y) at 2. unfold tan. field. lra. }
  exists (cos (atan x) * cos (atan y)). split; [apply Rmult_lt_0_compat; assumption|].
  rewrite cos_plus, sin_plus, Sx, Sy. split; ring.
Qed.

Lemma ratan_quot_fov x y c : 0 < x + y -> 0 < c ->
  ratan_quot (c * (x + y)) (c * (1 - x * y)) =
  Some (if Rle_dec (atan x + atan y) (PI / 2) then atan x + atan y else atan x + atan y - PI).
Proof.
  intros H Hc. destruct (fov_cos x y) as (k & Hk & C & S). pose proof (fov_angle_range x y H) as A.
  pose proof PI_RGT_0 as HP. set (th := atan x + atan y) in *.
  unfold ratan_quot. destruct (Req_EM_T (c * (1 - x * y)) 0) as [E|E].
  - assert (E1 : 1 - x * y = 0). { apply Rmult_integral in E. destruct E; lra. }
    rewrite E1, Rmult_0_r in C. destruct (Rlt_dec 0 (c * (x + y))) as [_|N]; [|exfalso; apply N; nra].
    assert (T : th = PI / 2).
    { destruct (Rtotal_order th (PI / 2)) as [L|[L|L]]; [|exact L|]; exfalso.
      - assert (0 < cos th) by (apply cos_gt_0; lra). lra.
      - assert (cos th < 0) by (apply cos_lt_0; lra). lra. }
    destruct (Rle_dec th (PI / 2)); [f_equal; lra|lra].
  - assert (E1 : 1 - x * y <> 0) by (intros E1; apply E; rewrite E1; ring).
    assert (T : (c * (x + y)) / (c * (1 - x * y)) = tan th).
    { unfold tan. rewrite C, S. field. repeat split; lra. }
    rewrite T. assert (Cn : cos th <> 0).
    { rewrite C. apply Rmult_integral_contrapositive. split; lra. }
    f_equal. destruct (Rle_dec th (PI / 2)) as [L|L].
    + assert (th <> PI / 2) by (intros L'; apply Cn; rewrite L'; apply cos_PI2).
      apply atan_tan. lra.
    + apply atan_tan_shift. lra.
Qed.

Lemma persp_vfov_spec l r b t n f : 0 < t + b -> 0 < n ->
  persp_vfov (persp_new l r b t n f) =
  Some (let th := atan (t / n) + atan (b / n) in if Rle_dec th (PI / 2) then th else th - PI).
Proof.
  intros Hbt Hn. cbv zeta. unfold persp_vfov.
  assert (Hb : (t + b)%N_ <> n0) by (rnum; lra).
  rewrite persp_11, persp_21 by exact Hb.
  assert (P : 0 < 4 * n * n / ((t + b) * (t + b))).
  { apply Rdiv_lt_0_compat; repeat apply Rmult_lt_0_compat; lra. }
  rewrite <- (ratan_quot_fov (t / n) (b / n) (4 * n * n / ((t + b) * (t + b)))).
  - f_equal; unfold ninv; rnum; field; lra.
  - assert (0 < (t + b) / n) by (apply Rdiv_lt_0_compat; lra).
    replace (t / n + b / n) with ((t + b) / n) by (field; lra). assumption.
  - exact P.
Qed.

Lemma tan_half_pos vfov : 0 < vfov < PI -> 0 < tan (vfov / 2).
Proof. intros H. apply tan_gt_0; lra. Qed.

Lemma persp_from_vfov_eq vfov aspect near far : 0 < vfov < PI -> 0 < aspect -> 0 < near ->
  persp_from_vfov vfov aspect near far =
  persp_new (aspect * near * tan (vfov / 2)) (aspect * near * tan (vfov / 2))
            (near * tan (vfov / 2)) (near * tan (vfov / 2)) near far.
Proof.
  intros Hv Ha Hn. pose proof (tan_half_pos vfov Hv) as T. remember (tan (vfov / 2)) as tt0.
  unfold persp_from_vfov, m4from_perspective_vfov, persp_new, m4from_perspective. rewrite <- Heqtt0.
  assert (P1 : 0 < tt0 * near) by nra. assert (P2 : 0 < aspect * near * tt0) by nra.
  mcompute. rnum.
  pairs ltac:(field; repeat split; nra).
Qed.
