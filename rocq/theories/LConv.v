(** Proofs of the theorems of PConv.v: convenience forms of operations, and distances in floats. *)

From Coq Require Import List Arith ZArith Bool Lia Reals Lra Psatz.
From Flocq Require Import Core.Core Relative IEEE754.BinarySingleNaN.
From Verif Require Import Base Scalar Spec SpecF SpecRigid LBase MVector LVector LVectorR MPoint MMatrix LMatrix LMatrixDet LMatrixM MComplex LComplex LComplexR MRot MQuat MMisc LMisc MTransform MProjection MFloat MFloatVec LFloat LFloatP LTrScF LDriftM LNormF LTransform LProjection LDegF LBetwQ.
From Verif Require LMatrixR.
Local Open Scope num_scope.

Lemma c141_inverse : forall (K : Type) (NK : Num K) (DK : NumDiv K) (FK : FieldLaws K),
  (forall m w : mat K 1 1, m1inverse m = Some w <-> mmul m w = midentity 1) /\
  (forall m w : mat K 2 2, m2inverse m = Some w <-> mmul m w = midentity 2) /\
  (forall m w : mat K 3 3, m3inverse m = Some w <-> mmul m w = midentity 3) /\
  (forall m w : mat K 4 4, m4inverse m = Some w <-> mmul m w = midentity 4).
Proof.
  intros. conjs; intros m w; split; intros H;
  [apply (m1try_inverse_some m w H)|exact (m1inverse_complete m w H)|apply (m2try_inverse_some m w H)|exact (m2inverse_complete m w H)
  |apply (m3try_inverse_some m w H)|exact (m3inverse_complete m w H)|apply (m4try_inverse_some m w H)|exact (m4inverse_complete m w H)].
Qed.

Section Ring.
Context {K : Type} {NK : Num K} {RK : RingLaws K}.
Add Ring Kring141 : (@ring_laws K NK RK).
Lemma sub_zero (x : K) : x - 0 = x.
Proof. ring. Qed.
End Ring.

Lemma c141_shear : forall (K : Type) (NK : Num K) (RK : RingLaws K) (n : nat) (factor : K) (direction normal : vec K n) (p : point K n) (i : nat), (i < n)%nat ->
  vat (sh_apply_point (sh_from_shear factor direction normal) p) i = vat p i + vat direction i * (factor * sum n (fun j => vat p j * vat normal j)) /\
  vat (sh_apply_vector (sh_from_shear factor direction normal) (p : vec K n)) i = vat p i + vat direction i * (factor * sum n (fun j => vat p j * vat normal j)).
Proof.
  intros K NK RK n factor direction normal p i Hi.
  assert (E : forall o : vec K n, o = vzero n -> vdot (vsub p o) normal = sum n (fun j => vat p j * vat normal j)).
  { intros o ->. rewrite vdot_sum. apply sum_ext. intros j Hj. rewrite vat_vsub by exact Hj. rewrite vat_vzero by exact Hj. f_equal. apply sub_zero. }
  split.
  - unfold sh_apply_point, sh_from_shear. cbn [sh_factor sh_origin sh_direction sh_normal]. unfold padd, pdiff. rewrite vat_vadd, vat_vmul_s by exact Hi. rewrite E by reflexivity. reflexivity.
  - unfold sh_apply_vector, sh_from_shear. cbn [sh_factor sh_origin sh_direction sh_normal]. rewrite vat_vadd, vat_vmul_s by exact Hi. rewrite E by reflexivity. reflexivity.
Qed.

Lemma c141_orthographic : forall (K : Type) (NK : Num K) (DK : NumDiv K) (FK : FieldLaws K) (left right bottom top near far : K) (p : point K 3) (v : vec K 3),
  let m := ortho_new left right bottom top near far in
  tf_apply_point (ortho_to_transform m) p = Some (ortho_project_point m p) /\ tf_apply_vector (ortho_to_transform m) v = ortho_project_vector m v.
Proof.
  intros K NK DK FK left right bottom top near far p v m. destruct (@ortho_represents K NK DK FK left right bottom top near far) as (A & B). split.
  - unfold tf_apply_point, ortho_to_transform, tf_from_matrix. unfold pto_homogeneous. unfold m. rewrite A. apply (@pfrom_to_homogeneous K NK DK FK 3).
  - unfold tf_apply_vector, ortho_to_transform, tf_from_matrix. unfold m. rewrite B. apply contract_extend.
Qed.
Local Open Scope R_scope.

Lemma c141_scale : forall (n : nat) (u : vec R n) (s : R),
  (forall i, (i < n)%nat -> vat (vscale u s) i = vat u i * s /\ (s <> 0 -> vat (vunscale u s) i = vat u i / s)) /\
  (s <> 0 -> vunscale (vscale u s) s = u /\ vscale (vunscale u s) s = u) /\ vnorm (vscale u s) = Rabs s * vnorm u.
Proof.
  intros n u s. split; [|split].
  - intros i Hi. unfold vscale, vunscale. rewrite !vat_vmul_s by exact Hi. rnum. split; [reflexivity|]. intros S. field. exact S.
  - intros S. split; vext; unfold vscale, vunscale; rewrite !vat_vmul_s by auto; rnum; field; exact S.
  - unfold vscale. rewrite vnorm_mul. ring.
Qed.

Lemma c141_from_angle : forall a b : R,
  cfrom_angle a = mkC (cos a) (sin a) /\ cnorm (cfrom_angle a) = 1 /\ cfrom_angle (a + b) = cmul (cfrom_angle a) (cfrom_angle b) /\ (- PI < a <= PI -> carg (cfrom_angle a) = a).
Proof.
  intros a b. split; [unfold cfrom_angle, cfrom_polar; f_equal; ring|]. split; [|split].
  - unfold cnorm, cfrom_angle, cfrom_polar, cmodulus_squared. rnum. cbn [re im]. pose proof (sin2_cos2 a) as S. unfold Rsqr in S. match goal with |- sqrt ?x = 1 => replace x with 1 by (transitivity (sin a * sin a + cos a * cos a); [symmetry; exact S|ring]) end. apply sqrt_1.
  - unfold cfrom_angle, cfrom_polar, cmul. cbn. rewrite cos_plus, sin_plus. f_equal; ring.
  - intros A. pose proof (cpolar_from_polar 1 a ltac:(lra) A) as E. unfold cpolar in E. injection E as _ E. exact E.
Qed.

Lemma c141_comparison : forall p q t : quat R, qabs_diff_eq p q t = true <-> forall i, (i < 4)%nat -> Rabs (vat (p : vec R 4) i - vat (q : vec R 4) i) <= vat (t : vec R 4) i.
Proof. intros p q t. exact (vabs_diff_eq_spec 4 p q t). Qed.

(** *** Distances in floats *)
Lemma len_lip n (f g : nat -> R) e : 0 <= e -> (forall i, (i < n)%nat -> Rabs (f i - g i) <= e * Rabs (g i)) -> Rabs (rlength n f - rlength n g) <= e * rlength n g.
Proof.
  intros E H. change (rlength n f) with (fnrm n f). change (rlength n g) with (fnrm n g).
  assert (T : fnrm n (fun i => f i - g i) <= e * fnrm n g).
  { unfold fnrm. rewrite <- (sqrt_square e) by exact E. rewrite <- sqrt_mult_alt by (apply Rmult_le_pos; exact E). apply sqrt_le_1_alt. rewrite <- LMatrixR.sum_mul_lR. apply rsum_le.
    intros i Hi. specialize (H i Hi). replace (e * e * (g i * g i)) with ((e * Rabs (g i)) * (e * Rabs (g i))).
    - cbv beta. rnum. rewrite <- (Rabs_pos_eq ((f i - g i) * (f i - g i))) by apply Rle_0_sqr. rewrite Rabs_mult. apply Rmult_le_compat; try apply Rabs_pos; exact H.
    - replace (e * Rabs (g i) * (e * Rabs (g i))) with (e * e * (Rabs (g i) * Rabs (g i))) by ring. rewrite <- Rabs_mult. rewrite (Rabs_pos_eq (g i * g i)) by apply Rle_0_sqr. reflexivity. }
  apply Rabs_le. split.
  - pose proof (fnrm_tri n f (fun i => - (f i - g i))) as P. assert (Q : fnrm n (fun i => f i + - (f i - g i)) = fnrm n g) by (apply fnrm_ext; intros; ring).
    assert (Q2 : fnrm n (fun i => - (f i - g i)) = fnrm n (fun i => f i - g i)) by (unfold fnrm; f_equal; apply sum_ext; intros; rnum; ring). lra.
  - pose proof (fnrm_tri n g (fun i => f i - g i)) as P. assert (Q : fnrm n (fun i => g i + (f i - g i)) = fnrm n f) by (apply fnrm_ext; intros; ring). lra.
Qed.

Lemma c141_distance : forall (prec emax : Z) (Hp : Prec_gt_0 prec) (He : Prec_lt_emax prec emax) (n : nat) (k : Z) (a b : vec (binary_float prec emax) n),
  let u := bpow radix2 (- prec) in let r := rlength n (fun i => fval a i - fval b i) in
  (24 <= prec)%Z -> (n <= 4)%nat -> (0 <= k)%Z -> (2 * k + 33 <= emax)%Z ->
  (forall i, (i < n)%nat -> is_finite (vat a i) = true /\ is_finite (vat b i) = true) -> bpow radix2 (- k) <= r <= bpow radix2 k ->
  fnear (fvdist a b) r (10 * u * r).
Proof.
  intros prec emax Hp He n k a b u r H24 Hn Hk Hr F (R1 & R2). set (w := vsub a b).
  assert (U : 0 < u <= / 16777216) by (split; [apply bpow_gt_0|apply (bpow_le radix2 (- prec) (-24)); lia]).
  assert (P : forall i, (i < n)%nat -> is_finite (vat w i) = true /\ Rabs (fval w i - (fval a i - fval b i)) <= u * Rabs (fval a i - fval b i)).
  { intros i Hi. destruct (F i Hi) as (Fa & Fb). unfold w, fval. rewrite vat_vsub by exact Hi.
    destruct (sub_val (vat a i) (vat b i) Fa Fb) as (A & _ & C); [|split; assumption].
    eapply Rle_trans; [apply (fnrm_comp n (fun i => fval a i - fval b i) i Hi)|]. apply (Rle_trans _ _ _ R2). apply bpow_le. lia. }
  assert (LL : Rabs (rlength n (fval w) - r) <= u * r) by (apply len_lip; [lra|intros i Hi; apply (P i Hi)]).
  pose proof (bpow_gt_0 radix2 (- k)) as B0. apply Rabs_le_inv in LL. destruct LL as (L1 & L2). assert (u * r <= / 2 * r) by (apply Rmult_le_compat_r; lra).
  destruct (c97_any prec emax Hp He n (k + 1) w H24 Hn ltac:(lia) ltac:(lia) (fun i Hi => proj1 (P i Hi))) as ((FN & EN) & _).
  { split.
    - replace (- (k + 1))%Z with (-1 + - k)%Z by lia. rewrite bpow_plus. change (bpow radix2 (-1)) with (/ 2). lra.
    - rewrite bpow_plus. change (bpow radix2 1) with 2. lra. }
  split; [exact FN|]. change (fvdist a b) with (fvnorm w). fold u in EN.
  assert (V : 8 * u * rlength n (fval w) <= 8 * u * (r + u * r)) by (apply Rmult_le_compat_l; lra).
  assert (u * (u * r) <= / 16777216 * (u * r)) by (apply Rmult_le_compat_r; [apply Rmult_le_pos; lra|lra]).
  replace (B2R (fvnorm w) - r) with ((B2R (fvnorm w) - rlength n (fval w)) + (rlength n (fval w) - r)) by ring.
  eapply Rle_trans; [apply Rabs_triang|]. assert (Rabs (rlength n (fval w) - r) <= u * r) by (apply Rabs_le; lra). assert (0 <= u * r) by (apply Rmult_le_pos; lra). lra.
Qed.

Lemma c141_example :
  let a : vec f64 3 := v3 (f64_of_Z 4) (f64_of_Z 4) n0 in let b : vec f64 3 := v3 (f64_of_Z 1) n0 n0 in
  (forall i, (i < 3)%nat -> is_finite (vat a i) = true /\ is_finite (vat b i) = true) /\ rlength 3 (fun i => fval a i - fval b i) = 5 /\
  fvdist a b = f64_of_Z 5 /\
  m2inverse (m2new 2 1 1 1 : mat R 2 2) = Some (m2new 1 (-1) (-1) 2) /\
  sh_apply_point (sh_from_shear 2 (v2 1 0) (v2 0 1)) (v2 3 4 : point R 2) = v2 11 4.
Proof.
  intros a b. split; [|split; [|split; [|split]]].
  - intros [|[|[|i]]] Hi; try lia; split; vm_compute; reflexivity.
  - unfold rlength. assert (E4 : B2R (f64_of_Z 4) = 4) by exact (zval 4 ltac:(lia)). assert (E1 : B2R (f64_of_Z 1) = 1) by exact (zval 1 ltac:(lia)).
    change (sqrt (0 + (B2R (f64_of_Z 4) - B2R (f64_of_Z 1)) * (B2R (f64_of_Z 4) - B2R (f64_of_Z 1)) + (B2R (f64_of_Z 4) - 0) * (B2R (f64_of_Z 4) - 0) + (0 - 0) * (0 - 0)) = 5).
    rewrite E4, E1. replace (0 + (4 - 1) * (4 - 1) + (4 - 0) * (4 - 0) + (0 - 0) * (0 - 0)) with (5 * 5) by ring. apply sqrt_square. lra.
  - apply B2SF_inj. vm_compute. reflexivity.
  - apply (proj1 (proj2 (c141_inverse R _ _ _))). mcompute. rnum. pairs ltac:(ring).
  - apply vat_ext. intros i Hi. rewrite (proj1 (c141_shear R _ _ 2 2 _ _ _ i Hi)). destruct i as [|[|i]]; [| |lia]; vcompute; rnum; cbn [sum]; rnum; ring.
Qed.
