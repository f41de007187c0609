(** Convenience functions: the proofs of the property theorems of PRest.v. *)

From Coq Require Import List Arith ZArith Bool Lia Reals Lra Qcanon.
From Verif Require Import Base Scalar Spec SpecRot SpecTransform SpecProjection LBase MVector LVector LVectorR MMatrix LMatrix LMatrixDet
  LMatrixR MPoint MReal MMisc MRot MComplex LComplex LComplexR MQuat LQuat LQuatR LRot LRotBetween LRotP LLook MTransform
  LTransform LTransformR LTransformP MProjection LProjection LProjectionP.
Import ListNotations.
Local Open Scope nat_scope.

Section RestRing.
Context {K : Type} {NK : Num K} {LK : RingLaws K}.
Add Ring Kring_rest : (@ring_laws K NK LK).
Local Open Scope num_scope.

Lemma c99r (z w : complex K) (s a b : K) :
  cadd_assign z w = cadd z w /\ csub_assign z w = csub z w /\
  cadd_assign_s z s = cadd z (cfrom_real s) /\ csub_assign_s z s = csub z (cfrom_real s) /\
  cmul_assign_s z s = cmul z (cfrom_real s) /\ cscale z s = cmul z (cfrom_real s) /\
  csquared (mkC a b) = mkC (a * a - b * b) (a * b + a * b) /\
  ccubed (mkC a b) = mkC (a * a * a - (1 + 1 + 1) * (a * b * b)) ((1 + 1 + 1) * (a * a * b) - b * b * b) /\
  csub_assign (cadd_assign z w) w = z.
Proof. conjs; cext; ring. Qed.
End RestRing.

Section RestField.
Context {K : Type} {NK : Num K} {ND : NumDiv K} {FK : FieldLaws K}.
#[local] Instance rl_of_fieldRest : RingLaws K := field_ring.
Add Field Kfield_rest : (@field_th K NK ND FK).
Local Open Scope num_scope.

Lemma c99f (z : complex K) (q : quat K) (s : K) :
  s <> 0 ->
  cdiv_assign_s (cmul_assign_s z s) s = z /\ cmul_s (cunscale z s) s = z /\ cunscale (cmul_s z s) s = z /\
  cdiv_assign_s z s = cmul z (cfrom_real (1 / s)) /\
  qdiv_assign q s = qdiv_s q s /\ qscale (qdiv_s q s) s = q /\ qdiv_assign (qscale q s) s = q.
Proof.
  intros S. conjs.
  1-4: cext; rewrite !ndiv_ninv by exact S; field; exact S.
  all: destruct4 q; qcompute; rewrite ?ndiv_ninv by exact S; pairs ltac:(field; exact S).
Qed.

Lemma c99h (q : quat K) : 1 + 1 <> 0 :> K -> qadd (qhalf q) (qhalf q) = q.
Proof. intros S. destruct4 q. unfold qhalf, one_half. qcompute. rewrite !ndiv_ninv by exact S. pairs ltac:(field; exact S). Qed.

Lemma nis0_iff (x : K) : nis0 x = true <-> x = 0. Proof. exact (field_is0 x). Qed.

Lemma self_neg_zero (x : K) : 1 + 1 <> 0 :> K -> x = - x -> x = 0.
Proof.
  intros S H. assert (E : (1 + 1) * x = 0) by (transitivity (x + x); [ring|rewrite H at 2; ring]).
  transitivity ((1 + 1) * x * ninv (1 + 1)); [field; exact S|]. rewrite E. ring.
Qed.

Lemma c100c (z : complex K) :
  (cis_zero z = true <-> z = czero) /\
  (cis_real z = true <-> exists x, z = cfrom_real x) /\
  (cis_imaginary z = true <-> exists x, z = cfrom_imaginary x) /\
  (1 + 1 <> 0 :> K -> (cis_real z = true <-> cconj z = z) /\ (cis_imaginary z = true <-> cconj z = cneg z)).
Proof.
  destruct z as [a b]. unfold cis_zero, cis_real, cis_imaginary. cbn. rewrite andb_true_iff, !nis0_iff.
  conjs.
  - split; [intros [-> ->]; reflexivity|]. intros H. injection H as -> ->. auto.
  - split; [intros ->; exists a; reflexivity|]. intros [x H]. injection H as _ ->. reflexivity.
  - split; [intros ->; exists b; reflexivity|]. intros [x H]. injection H as -> _. reflexivity.
  - intros S. split; split.
    + intros ->. cext; ring.
    + intros H. injection H as H. apply self_neg_zero; [exact S|]. symmetry. exact H.
    + intros ->. cext; ring.
    + intros H. injection H as H. apply self_neg_zero; [exact S|]. exact H.
Qed.

Lemma c100q (q : quat K) :
  (qis_zero q = true <-> q = qzero) /\
  (qis_identity q = true <-> forall p, qmul q p = p) /\
  (qis_pure q = true <-> exists v, q = qfrom_pure v) /\
  (qis_real q = true <-> exists x, q = qfrom_real x) /\
  (1 + 1 <> 0 :> K ->
     (qis_pure q = true <-> qconj q = qneg q) /\ (qis_real q = true <-> forall p, qmul q p = qmul p q)).
Proof.
  assert (Z : qis_zero q = true <-> q = qzero).
  { unfold qis_zero, vis_zero. destruct4 q. cbn. rewrite !andb_true_iff, !nis0_iff. unfold qzero, qnew, v4.
    split; [intros [[[-> ->] ->] ->]; reflexivity|]. intros H. injection H as -> -> -> ->. auto. }
  assert (R : qis_real q = true <-> exists x, q = qfrom_real x).
  { unfold qis_real, vis_zero. destruct4 q. cbn. rewrite !andb_true_iff, !nis0_iff. unfold qfrom_real. qcompute. split.
    - intros [[-> ->] ->]. eexists. reflexivity.
    - intros [t H]. injection H as -> -> -> ->. auto. }
  assert (P : qis_pure q = true <-> exists v, q = qfrom_pure v).
  { unfold qis_pure. destruct4 q. cbn. rewrite nis0_iff. unfold qfrom_pure. qcompute. split.
    - intros ->. match goal with |- exists v, (_, (?a, (?b, (?c, tt)))) = _ => exists (v3 a b c) end. reflexivity.
    - intros [v H]. injection H as -> _. reflexivity. }
  split; [exact Z|]. split; [|split; [exact P|split; [exact R|]]].
  - unfold qis_identity, vis_zero. cbn [for_range]. split.
    + destruct4 q. cbn. rewrite !andb_true_iff, !nis0_iff. intros [A [[-> ->] ->]] p. destruct4 p.
      match type of A with ?x - 1 = 0 => assert (E : x = 1) by (transitivity (x - 1 + 1); [ring|rewrite A; ring]) end.
      rewrite E. qcompute. pairs ltac:(ring).
    + intros H. specialize (H qidentity). revert H. destruct4 q. qcompute. intros H. injection H as H1 H2 H3 H4.
      cbn. rewrite !andb_true_iff, !nis0_iff. conjs; try reflexivity.
      * etransitivity; [|etransitivity; [exact (f_equal (fun t => t - 1) H1)|ring]]. ring.
      * etransitivity; [|exact H2]. ring.
      * etransitivity; [|exact H3]. ring.
      * etransitivity; [|exact H4]. ring.
  - intros S. split.
    + unfold qis_pure. destruct4 q. cbn. rewrite nis0_iff. qcompute. split.
      * intros ->. pairs ltac:(ring).
      * intros H. injection H as H. apply self_neg_zero; assumption.
    + rewrite R. split.
      * intros [x ->] p. unfold qfrom_real. destruct4 p. qcompute. pairs ltac:(ring).
      * intros H. apply R. unfold qis_real, vis_zero. pose proof (H qunit_x) as HX. pose proof (H qunit_y) as HY. revert HX HY. clear H Z R P.
        destruct4 q. cbn. rewrite !andb_true_iff, !nis0_iff. qcompute. intros HX HY.
        injection HX as _ _ X2 X3. injection HY as _ Y1 _ Y3.
        conjs; try reflexivity; apply self_neg_zero; try exact S.
        -- etransitivity; [|etransitivity; [exact Y3|]]; ring.
        -- etransitivity; [|etransitivity; [exact (eq_sym X3)|]]; ring.
        -- etransitivity; [|etransitivity; [exact X2|]]; ring.
Qed.
End RestField.

Lemma c99_complex_in_place :
  forall (K : Type) (NK : Num K) (LK : RingLaws K) (z w : complex K) (s a b : K),
    (cadd_assign z w = cadd z w /\ csub_assign z w = csub z w /\
     cadd_assign_s z s = cadd z (cfrom_real s) /\ csub_assign_s z s = csub z (cfrom_real s) /\
     cmul_assign_s z s = cmul z (cfrom_real s) /\ cscale z s = cmul z (cfrom_real s) /\
     csquared (mkC a b) = mkC (a * a - b * b) (a * b + a * b) /\
     ccubed (mkC a b) = mkC (a * a * a - (1 + 1 + 1) * (a * b * b)) ((1 + 1 + 1) * (a * a * b) - b * b * b) /\
     csub_assign (cadd_assign z w) w = z)%N_.
Proof.
  intros K NK LK. exact c99r.
Qed.

Lemma c99_scalar_division :
  forall (K : Type) (NK : Num K) (ND : NumDiv K) (FK : FieldLaws K) (z : complex K) (q : quat K) (s : K),
    s <> n0 ->
    cdiv_assign_s (cmul_assign_s z s) s = z /\ cmul_s (cunscale z s) s = z /\ cunscale (cmul_s z s) s = z /\
    cdiv_assign_s z s = cmul z (cfrom_real (ndiv n1 s)) /\
    qdiv_assign q s = qdiv_s q s /\ qscale (qdiv_s q s) s = q /\ qdiv_assign (qscale q s) s = q.
Proof.
  intros K NK ND FK. exact c99f.
Qed.

Lemma c99_half :
  forall (K : Type) (NK : Num K) (ND : NumDiv K) (FK : FieldLaws K) (q : quat K),
    nadd n1 n1 <> n0 :> K -> qadd (qhalf q) (qhalf q) = q.
Proof.
  intros K NK ND FK. exact c99h.
Qed.

Lemma c99_complex_map :
  forall (A B C : Type) (f : A -> B) (g : B -> C) (z : complex A),
    re (cmap f z) = f (re z) /\ im (cmap f z) = f (im z) /\
    cmap g (cmap f z) = cmap (fun x => g (f x)) z /\ cmap (fun x => x) z = z.
Proof.
  intros A B C f g [a b]. repeat split.
Qed.

Lemma c99_example :
  (csquared (mkC 3 4) = mkC (-7) 24 /\ ccubed (mkC 1 2) = mkC (-11) (-2))%Z /\
  (nadd n1 n1 <> n0 :> Qc).
Proof.
  repeat split; discriminate.
Qed.

Lemma c100_complex_predicates :
  forall (K : Type) (NK : Num K) (ND : NumDiv K) (FK : FieldLaws K) (z : complex K),
    (cis_zero z = true <-> z = czero) /\
    (cis_real z = true <-> exists x, z = cfrom_real x) /\
    (cis_imaginary z = true <-> exists x, z = cfrom_imaginary x) /\
    (nadd n1 n1 <> n0 :> K ->
       (cis_real z = true <-> cconj z = z) /\ (cis_imaginary z = true <-> cconj z = cneg z)).
Proof.
  intros K NK ND FK. exact c100c.
Qed.

Lemma c100_quaternion_predicates :
  forall (K : Type) (NK : Num K) (ND : NumDiv K) (FK : FieldLaws K) (q : quat K),
    (qis_zero q = true <-> q = qzero) /\
    (qis_identity q = true <-> forall p, qmul q p = p) /\
    (qis_pure q = true <-> exists v, q = qfrom_pure v) /\
    (qis_real q = true <-> exists x, q = qfrom_real x) /\
    (nadd n1 n1 <> n0 :> K ->
       (qis_pure q = true <-> qconj q = qneg q) /\ (qis_real q = true <-> forall p, qmul q p = qmul p q)).
Proof.
  intros K NK ND FK. exact c100q.
Qed.

Lemma c100_example :
  (nadd n1 n1 <> n0 :> Qc) /\ cis_real (mkC (1 + 1) 0)%Qc = true /\ cis_real (mkC 0 1)%Qc = false /\
  qis_pure (qnew 0 1 0 1)%Qc = true /\ qis_real (qnew 0 1 0 1)%Qc = false.
Proof.
  split; [discriminate|]. vm_compute. auto.
Qed.

Section RestCon.
Context {K : Type} {NK : Num K} {LK : RingLaws K}.
Add Ring Kring_restc : (@ring_laws K NK LK).
Local Open Scope num_scope.

Lemma c101u (i : nat) (v2' : vec K 2) (v4' : vec K 4) (a b c d : K) :
  vat (v2_unit_x : vec K 2) i = delta 0%nat i /\ vat (v2_unit_y : vec K 2) i = delta 1%nat i /\
  vat (v3_unit_x : vec K 3) i = delta 0%nat i /\ vat (v3_unit_y : vec K 3) i = delta 1%nat i /\
  vat (v3_unit_z : vec K 3) i = delta 2%nat i /\
  vat (v4_unit_x : vec K 4) i = delta 0%nat i /\ vat (v4_unit_y : vec K 4) i = delta 1%nat i /\
  vat (v4_unit_z : vec K 4) i = delta 2%nat i /\ vat (v4_unit_w : vec K 4) i = delta 3%nat i /\
  vdot v2' v2_unit_x = vat v2' 0%nat /\ vdot v2' v2_unit_y = vat v2' 1%nat /\
  vdot v4' v4_unit_x = vat v4' 0%nat /\ vdot v4' v4_unit_y = vat v4' 1%nat /\
  vdot v4' v4_unit_z = vat v4' 2%nat /\ vdot v4' v4_unit_w = vat v4' 3%nat /\
  v3_from_v4 (v4 a b c d) = v3 a b c.
Proof.
  conjs; try (do 5 (destruct i as [|i]; [reflexivity|]); reflexivity).
  1-2: destruct2 v2'; vcompute; ring.
  all: destruct4 v4'; vcompute; ring.
Qed.

Lemma c101d (n : nat) (a : K) (d v : vec K n) (i j : nat) :
  (i < n)%nat -> (j < n)%nat ->
  vat (mmulv (mfrom_diagonal d) v) i = vat d i * vat v i /\
  mmulv (mfrom_diagonal_value n a) v = vmul_s v a /\
  mget (mfrom_fill n n a) j i = a /\ mget (mfrom_diagonal d) j i = vat d i * delta j i.
Proof.
  intros Hi Hj. conjs.
  - autorewrite with mat vat; try assumption. rewrite (sum_ext n _ (fun k => vat d k * vat v k * delta k i)).
    + exact (sum_delta_r n i (fun k => vat d k * vat v k) Hi).
    + intros k Hk. autorewrite with mat; try assumption. unfold delta. destruct (Nat.eqb_spec k i) as [->|N]; ring.
  - mvext.
    rewrite (sum_ext n _ (fun k => vat v k * a * delta k i0)).
    + exact (sum_delta_r n i0 (fun k => vat v k * a) Hi0).
    + intros k Hk. autorewrite with mat; try assumption. unfold delta. destruct (Nat.eqb_spec k i0) as [->|N]; ring.
  - autorewrite with mat; try assumption. reflexivity.
  - autorewrite with mat; try assumption. unfold delta. destruct (Nat.eqb_spec j i) as [->|N]; ring.
Qed.
End RestCon.

Section RestNum.
Context {K : Type} {NK : Num K} {LK : RingLaws K}.
Add Ring Kring_restn : (@ring_laws K NK LK).
Lemma c101n (a x y z : K) (w : complex K) (q : quat K) (v : vec K 4) (i : nat) :
  cfrom_imaginary x = cmul (cfrom_real x) (mkC n0 n1) /\ cmul (cfrom_imaginary x) (cfrom_imaginary y) = cfrom_real (nneg (nmul x y)) /\
  cmul cunit_re w = w /\
  vat (qfrom_vector v : vec K 4) i = vat v i /\ (i < 4 -> vat (qfrom_fill a : vec K 4) i = a) /\
  tr_apply_point (tr_new2 x y) (v2 a z) = v2 (nadd a x) (nadd z y) /\
  tr_apply_point (tr_new3 x y z) (v3 a a a) = v3 (nadd a x) (nadd a y) (nadd a z) /\
  sc_apply_point (sc_new2 x y) (v2 a z) = v2 (nmul a x) (nmul z y) /\
  sc_apply_point (sc_new3 x y z) (v3 a a a) = v3 (nmul a x) (nmul a y) (nmul a z).
Proof.
  conjs.
  1-3: cext; ring.
  - reflexivity.
  - intros H. do 4 (destruct i as [|i]; [reflexivity|]). lia.
  - unfold tr_apply_point, tr_new2, padd. vcompute. pairs ltac:(ring).
  - unfold tr_apply_point, tr_new3, padd. vcompute. pairs ltac:(ring).
  - unfold sc_apply_point, sc_new2. vcompute. pairs ltac:(ring).
  - unfold sc_apply_point, sc_new3. vcompute. pairs ltac:(ring).
Qed.
End RestNum.

Section RestReal.
Local Open Scope R_scope.
Lemma cdistance_eq (x y : complex R) :
  cdistance x y = sqrt ((re x - re y) * (re x - re y) + (im x - im y) * (im x - im y)).
Proof. unfold cdistance, cnorm, cmodulus_squared. cbn. rnum. reflexivity. Qed.

Lemma c102c (x y z : complex R) (s : R) :
  cdistance x y = sqrt ((re x - re y) * (re x - re y) + (im x - im y) * (im x - im y)) /\
  0 <= cdistance x y /\ (cdistance x y = 0 <-> x = y) /\ cdistance x y = cdistance y x /\
  cdistance x z <= cdistance x y + cdistance y z /\
  0 <= cl1_norm x /\ (cl1_norm x = 0 <-> x = czero) /\ cl1_norm (cmul_s x s) = cl1_norm x * Rabs s /\
  cl1_norm (cadd x y) <= cl1_norm x + cl1_norm y /\
  cnorm x <= cl1_norm x <= sqrt 2 * cnorm x.
Proof.
  conjs.
  - apply cdistance_eq.
  - apply cnorm_nonneg.
  - unfold cdistance. rewrite cnorm_zero. split.
    + intros H. destruct x as [a b], y as [a' b']. injection H as H1 H2. revert H1 H2. cbn. rnum. intros H1 H2.
      apply complex_eq; cbn; lra.
    + intros ->. cext; rnum; ring.
  - rewrite !cdistance_eq. f_equal. ring.
  - unfold cdistance. replace (csub x z) with (cadd (csub x y) (csub y z)) by (cext; rnum; ring). apply cnorm_triangle.
  - unfold cl1_norm. pose proof (Rabs_pos (re x)). pose proof (Rabs_pos (im x)). lra.
  - unfold cl1_norm. pose proof (Rabs_pos (re x)). pose proof (Rabs_pos (im x)). split.
    + intros E. assert (A : Rabs (re x) = 0) by lra. assert (B : Rabs (im x) = 0) by lra.
      apply complex_eq; cbn; rnum; [revert A|revert B]; unfold Rabs; destruct (Rcase_abs _); lra.
    + intros ->. cbn. rnum. rewrite Rabs_R0. lra.
  - unfold cl1_norm. cbn. rnum. rewrite !Rabs_mult. ring.
  - unfold cl1_norm. cbn. rnum. pose proof (Rabs_triang (re x) (re y)). pose proof (Rabs_triang (im x) (im y)). lra.
  - apply Rsqr_incr_0_var; [|unfold cl1_norm; pose proof (Rabs_pos (re x)); pose proof (Rabs_pos (im x)); lra].
    unfold Rsqr. rewrite cnorm_sq. unfold cmodulus_squared, cl1_norm. rnum.
    pose proof (Rabs_pos (re x)) as A. pose proof (Rabs_pos (im x)) as B.
    assert (E1 : re x * re x = Rabs (re x) * Rabs (re x)) by (exact (Rsqr_abs (re x))).
    assert (E2 : im x * im x = Rabs (im x) * Rabs (im x)) by (exact (Rsqr_abs (im x))).
    rewrite E1, E2. nra.
  - apply Rsqr_incr_0_var; [|apply Rmult_le_pos; [apply sqrt_pos|apply cnorm_nonneg]].
    unfold Rsqr. replace (sqrt 2 * cnorm x * (sqrt 2 * cnorm x)) with ((sqrt 2 * sqrt 2) * (cnorm x * cnorm x)) by ring.
    rewrite sqrt_sqrt by lra. rewrite cnorm_sq. unfold cmodulus_squared, cl1_norm. rnum.
    assert (E1 : re x * re x = Rabs (re x) * Rabs (re x)) by (exact (Rsqr_abs (re x))).
    assert (E2 : im x * im x = Rabs (im x) * Rabs (im x)) by (exact (Rsqr_abs (im x))).
    rewrite E1, E2. pose proof (Rle_0_sqr (Rabs (re x) - Rabs (im x))) as H. unfold Rsqr in H. lra.
Qed.

Lemma c102q (p q r : quat R) (s : R) :
  qdist_squared p q = sum 4 (fun i => (vat (p : vec R 4) i - vat (q : vec R 4) i) * (vat (p : vec R 4) i - vat (q : vec R 4) i)) /\
  qdist p q * qdist p q = qdist_squared p q /\
  0 <= qdist p q /\ (qdist p q = 0 <-> p = q) /\ qdist p q = qdist q p /\
  qdist p r <= qdist p q + qdist q r /\
  ql1_norm q = sum 4 (fun i => Rabs (vat (q : vec R 4) i)) /\ (ql1_norm q = 0 <-> q = qzero) /\
  ql1_norm (qscale q s) = ql1_norm q * Rabs s /\
  ql1_norm (qadd p q) <= ql1_norm p + ql1_norm q.
Proof.
  conjs.
  - destruct4 p; destruct4 q. cbn [sum]. qcompute. rnum. ring.
  - exact (vdist_sq 4 p q).
  - exact (vdist_nonneg 4 p q).
  - exact (vdist_zero 4 p q).
  - exact (vdist_sym 4 p q).
  - exact (vdist_triangle 4 p q r).
  - exact (vl1_sum 4 q).
  - exact (vl1_zero 4 q).
  - transitivity (vl1_norm (vmul_s (q : vec R 4) s)); [|exact (vl1_mul 4 q s)]. destruct4 q. reflexivity.
  - apply Rle_trans with (vl1_norm (vadd (p : vec R 4) q)); [|exact (vl1_triangle 4 p q)]. right. destruct4 p; destruct4 q. reflexivity.
Qed.

Lemma c102p (n : nat) (p q : point R n) :
  pdot p q = sum n (fun i => vat p i * vat q i) /\ pnorm_squared p = sum n (fun i => vat p i * vat p i) /\
  0 <= pnorm p /\ pnorm p * pnorm p = pnorm_squared p /\ pnorm p = pdist p (porigin n) /\
  pdist p q = vnorm (pdiff p q) /\ pdist_squared p q = vnorm_squared (pdiff p q) /\
  (pnorm p = 0 <-> p = porigin n).
Proof.
  conjs.
  - exact (vdot_sum n p q).
  - exact (vdot_sum n p p).
  - exact (vnorm_nonneg n p).
  - exact (vnorm_sq n p).
  - unfold pnorm, pdist, vdist. f_equal. unfold porigin. vext. rnum. ring.
  - reflexivity.
  - reflexivity.
  - exact (vnorm_zero n p).
Qed.

Lemma c102m (r c : nat) (a b : mat R r c) :
  mdist_squared a b = sum r (fun i => sum c (fun j => (mget a j i - mget b j i) * (mget a j i - mget b j i))) /\
  mdist a b * mdist a b = mdist_squared a b /\ (mdist_squared a b = 0 <-> a = b).
Proof.
  assert (S : mdist a b * mdist a b = mdist_squared a b) by exact (mnorm_sq r c (msub a b)).
  conjs.
  - unfold mdist_squared, mnorm_squared. rewrite mdot_sum. apply sum_ext. intros i Hi. apply sum_ext. intros j Hj.
    autorewrite with mat. reflexivity.
  - exact S.
  - split; intros E; [rewrite E in S; apply mdist_zero; destruct (Rmult_integral _ _ S); assumption|].
    apply mdist_zero in E. rewrite <- S, E. ring.
Qed.
End RestReal.

Lemma c101_standard_basis :
  forall (K : Type) (NK : Num K) (LK : RingLaws K) (i : nat) (u : vec K 2) (v : vec K 4) (a b c d : K),
    vat (v2_unit_x : vec K 2) i = delta 0 i /\ vat (v2_unit_y : vec K 2) i = delta 1 i /\
    vat (v3_unit_x : vec K 3) i = delta 0 i /\ vat (v3_unit_y : vec K 3) i = delta 1 i /\
    vat (v3_unit_z : vec K 3) i = delta 2 i /\
    vat (v4_unit_x : vec K 4) i = delta 0 i /\ vat (v4_unit_y : vec K 4) i = delta 1 i /\
    vat (v4_unit_z : vec K 4) i = delta 2 i /\ vat (v4_unit_w : vec K 4) i = delta 3 i /\
    vdot u v2_unit_x = vat u 0 /\ vdot u v2_unit_y = vat u 1 /\
    vdot v v4_unit_x = vat v 0 /\ vdot v v4_unit_y = vat v 1 /\
    vdot v v4_unit_z = vat v 2 /\ vdot v v4_unit_w = vat v 3 /\
    v3_from_v4 (v4 a b c d) = v3 a b c.
Proof.
  intros K NK LK. exact c101u.
Qed.

Lemma c101_diagonal_matrices :
  forall (K : Type) (NK : Num K) (LK : RingLaws K) (n : nat) (a : K) (d v : vec K n) (i j : nat),
    i < n -> j < n ->
    vat (mmulv (mfrom_diagonal d) v) i = nmul (vat d i) (vat v i) /\
    mmulv (mfrom_diagonal_value n a) v = vmul_s v a /\
    mget (mfrom_fill n n a) j i = a /\ mget (mfrom_diagonal d) j i = nmul (vat d i) (delta j i).
Proof.
  intros K NK LK. exact c101d.
Qed.

Lemma c101_numbers_and_transforms :
  forall (K : Type) (NK : Num K) (LK : RingLaws K) (a x y z : K) (w : complex K) (q : quat K) (v : vec K 4) (i : nat),
    cfrom_imaginary x = cmul (cfrom_real x) (mkC n0 n1) /\ cmul (cfrom_imaginary x) (cfrom_imaginary y) = cfrom_real (nneg (nmul x y)) /\
    cmul cunit_re w = w /\
    vat (qfrom_vector v : vec K 4) i = vat v i /\ (i < 4 -> vat (qfrom_fill a : vec K 4) i = a) /\
    tr_apply_point (tr_new2 x y) (v2 a z) = v2 (nadd a x) (nadd z y) /\
    tr_apply_point (tr_new3 x y z) (v3 a a a) = v3 (nadd a x) (nadd a y) (nadd a z) /\
    sc_apply_point (sc_new2 x y) (v2 a z) = v2 (nmul a x) (nmul z y) /\
    sc_apply_point (sc_new3 x y z) (v3 a a a) = v3 (nmul a x) (nmul a y) (nmul a z).
Proof.
  intros K NK LK. exact c101n.
Qed.

Lemma c101_zero_euler_angles :
  euler_to_matrix euler_zero = midentity 3.
Proof.
  unfold euler_zero, euler_to_matrix. cbn [eu_x eu_y eu_z]. rewrite cos_0, sin_0. mcompute. rnum. pairs ltac:(ring).
Qed.

Lemma c101_example :
  mmulv (mfrom_diagonal (v3 2 3 5))%Z (v3 1 10 100)%Z = (v3 2 30 500)%Z.
Proof.
  reflexivity.
Qed.

Lemma c102_complex_metric :
  forall (x y z : complex R) (s : R),
    (cdistance x y = sqrt ((re x - re y) * (re x - re y) + (im x - im y) * (im x - im y)) /\
     0 <= cdistance x y /\ (cdistance x y = 0 <-> x = y) /\ cdistance x y = cdistance y x /\
     cdistance x z <= cdistance x y + cdistance y z /\
     0 <= cl1_norm x /\ (cl1_norm x = 0 <-> x = czero) /\ cl1_norm (cmul_s x s) = cl1_norm x * Rabs s /\
     cl1_norm (cadd x y) <= cl1_norm x + cl1_norm y /\
     cnorm x <= cl1_norm x <= sqrt 2 * cnorm x)%R.
Proof.
  exact c102c.
Qed.

Lemma c102_quaternion_metric :
  forall (p q r : quat R) (s : R),
    (qdist_squared p q = sum 4 (fun i => (vat (p : vec R 4) i - vat (q : vec R 4) i) * (vat (p : vec R 4) i - vat (q : vec R 4) i)) /\
     qdist p q * qdist p q = qdist_squared p q /\
     0 <= qdist p q /\ (qdist p q = 0 <-> p = q) /\ qdist p q = qdist q p /\
     qdist p r <= qdist p q + qdist q r /\
     ql1_norm q = sum 4 (fun i => Rabs (vat (q : vec R 4) i)) /\ (ql1_norm q = 0 <-> q = qzero) /\
     ql1_norm (qscale q s) = ql1_norm q * Rabs s /\
     ql1_norm (qadd p q) <= ql1_norm p + ql1_norm q)%R.
Proof.
  exact c102q.
Qed.

Lemma c102_point_metric :
  forall (n : nat) (p q : point R n),
    (pdot p q = sum n (fun i => vat p i * vat q i) /\ pnorm_squared p = sum n (fun i => vat p i * vat p i) /\
     0 <= pnorm p /\ pnorm p * pnorm p = pnorm_squared p /\ pnorm p = pdist p (porigin n) /\
     pdist p q = vnorm (pdiff p q) /\ pdist_squared p q = vnorm_squared (pdiff p q) /\
     (pnorm p = 0 <-> p = porigin n))%R.
Proof.
  exact c102p.
Qed.

Lemma c102_matrix_distance :
  forall (r c : nat) (a b : mat R r c),
    (mdist_squared a b = sum r (fun i => sum c (fun j => (mget a j i - mget b j i) * (mget a j i - mget b j i))) /\
     mdist a b * mdist a b = mdist_squared a b /\ (mdist_squared a b = 0 <-> a = b))%R.
Proof.
  exact c102m.
Qed.

Lemma c102_example :
  (cdistance (mkC 1 2) (mkC 4 6) = 5 /\ cl1_norm (mkC 3 (-4)) = 7 /\ pdist (v2 1 2) (v2 4 6) = 5)%R.
Proof.
  conjs.
  - unfold cdistance, cnorm, cmodulus_squared. cbn. rnum. replace ((1 - 4) * (1 - 4) + (2 - 6) * (2 - 6))%R with (5 * 5)%R by ring.
    apply sqrt_square. lra.
  - unfold cl1_norm. cbn. unfold Rabs. repeat destruct (Rcase_abs _); lra.
  - unfold pdist, vdist, vnorm. replace (vnorm_squared (vsub (v2 1 2) (v2 4 6)))%R with (5 * 5)%R by (vcompute; rnum; ring).
    apply sqrt_square. lra.
Qed.

Section RestSim.
Context {K : Type} {NK : Num K} {LK : RingLaws K}.
Add Ring Kring_rests : (@ring_laws K NK LK).
Lemma c103s (n : nat) (t : translation K n) (r : rotation K n) (s : K) (p : point K n) (v : vec K n) :
  sim_apply_point (sim_from_parts t r s) p = vadd (mmulv r (vmul_s p s)) t /\
  sim_apply_vector (sim_from_parts t r s) v = mmulv r (vmul_s v s) /\
  sim_apply_point (sim_from_rotation r) p = mmulv r p /\
  sim_apply_point (sim_from_scale n s) p = vmul_s p s /\ sim_apply_vector (sim_from_scale n s) v = vmul_s v s /\
  sim_apply_point (sim_from_translation t) p = vadd p t /\ sim_apply_vector (sim_from_translation t) v = v.
Proof.
  assert (Z : forall w : vec K n, vadd w (vzero n) = w) by (intros w; vext; ring).
  assert (O : forall w : vec K n, vmul_s w n1 = w) by (intros w; vext; ring).
  unfold sim_apply_point, sim_apply_vector, sim_from_parts, sim_from_rotation, sim_from_scale, sim_from_translation,
    iso_from_rotation, iso_from_translation, iso_identity, iso_from_parts, iso_apply_point, iso_apply_vector, tr_apply_point,
    rot_apply_point, rot_apply_vector, pfrom_vector, pto_vector, padd, pmul_s, tr_identity, rot_identity.
  cbn [sim_isometry sim_scale iso_translation iso_rotation].
  rewrite ?Z, ?O, ?mmulv_1. conjs; reflexivity.
Qed.
End RestSim.

Section RestView.
Local Open Scope R_scope.
Lemma sim_from_isometry_apply (f : isometry R 3) p : sim_apply_point (sim_from_isometry f) p = iso_apply_point f p.
Proof.
  unfold sim_apply_point, sim_from_isometry. cbn [sim_isometry sim_scale]. unfold pmul_s. f_equal. vext. rnum. ring.
Qed.

Lemma look_at_target3 (eye target : point R 3) (up : vec R 3) :
  vcross up (pdiff target eye) <> vzero 3 ->
  mmulv (m3look_to_lh (pdiff target eye) up) (pdiff target eye) = v3 0 0 (pdist target eye) /\
  mmulv (m3look_to_rh (pdiff target eye) up) (pdiff target eye) = v3 0 0 (- pdist target eye).
Proof.
  intros H. set (d := pdiff target eye) in *.
  assert (Hd : d <> vzero 3).
  { intros E. apply H. rewrite E. destruct3 up. vcompute. rnum. pairs ltac:(ring). }
  destruct (m3look_to_lh_spec d up H) as (_ & L & _). destruct (m3look_to_rh_spec d up H) as (_ & R0 & _).
  assert (E : forall m : mat R 3 3, mmulv m d = vmul_s (mmulv m (vnormalize d)) (vnorm d)).
  { intros m. rewrite <- mmulv_mul_s, vnormalize_back by exact Hd. reflexivity. }
  change (pdist target eye) with (vnorm d). rewrite !E, L, R0.
  split; vcompute; rnum; pairs ltac:(ring).
Qed.

Lemma c104v :
  forall (eye target p : point R 3) (up : vec R 3),
    let d := pdiff target eye in
    vcross up d <> vzero 3 ->
    sim_apply_point (sim3look_to_lh eye d up) p = mmulv (m3look_to_lh d up) (pdiff p eye) /\
    sim_apply_point (sim3look_to_rh eye d up) p = mmulv (m3look_to_rh d up) (pdiff p eye) /\
    sim_apply_point (sim3look_at_lh eye target up) eye = vzero 3 /\
    sim_apply_point (sim3look_at_rh eye target up) eye = vzero 3 /\
    sim_apply_point (sim3look_at_lh eye target up) target = v3 0 0 (pdist target eye) /\
    sim_apply_point (sim3look_at_rh eye target up) target = v3 0 0 (- pdist target eye) /\
    iso_apply_point (iso3look_at_lh eye target up) target = v3 0 0 (pdist target eye) /\
    iso_apply_point (iso3look_at_rh eye target up) target = v3 0 0 (- pdist target eye).
Proof.
  intros eye target p up d H. destruct (look_at_target3 eye target up H) as [L R0].
  destruct (c63_look_isometry eye p d up d) as (A & B & _ & _ & _ & _ & E & F & _).
  destruct (c63_look_isometry eye target d up d) as (A' & B' & _ & _ & _ & _ & _ & _ & G & G').
  unfold sim3look_to_lh, sim3look_to_rh, sim3look_at_lh, sim3look_at_rh. rewrite !sim_from_isometry_apply.
  rewrite G, G'. fold d. rewrite A', B'. fold d in L, R0.
  conjs; assumption.
Qed.

Lemma c104q :
  forall (eye target : point R 3) (up : vec R 3),
    let d := pdiff target eye in
    vcross up d <> vzero 3 ->
    qnorm (qlook_at_lh eye target up) = 1 /\ qnorm (qlook_at_rh eye target up) = 1 /\
    mmulv (qto_matrix (qlook_at_lh eye target up)) (vnormalize d) = v3 0 0 1 /\
    mmulv (qto_matrix (qlook_at_rh eye target up)) (vnormalize d) = v3 0 0 (-1) /\
    mmulv (qto_matrix (qlook_at_lh_inv eye target up)) (v3 0 0 1) = vnormalize d /\
    mmulv (qto_matrix (qlook_at_rh_inv eye target up)) (v3 0 0 (-1)) = vnormalize d.
Proof.
  intros eye target up d H. destruct (qlook_spec d up H) as (A & B & C & D & E & F).
  destruct (c61_look_at eye target up H) as (L & R0 & Li & Ri).
  change (qlook_at_lh eye target up) with (qlook_to_lh d up). change (qlook_at_rh eye target up) with (qlook_to_rh d up).
  change (qlook_at_lh_inv eye target up) with (qlook_to_lh_inv d up). change (qlook_at_rh_inv eye target up) with (qlook_to_rh_inv d up).
  rewrite B, D, E, F. conjs; assumption.
Qed.

Lemma unit_between_norm v eps : 0 <= eps -> eps < vnorm (v : vec R 3) -> v <> vzero 3.
Proof. intros E H Z. rewrite Z, vnormalize_0_norm in H. lra. Qed.

Lemma c105b :
  forall (v1 v2 : vec R 3) (eps : R),
    0 <= eps -> eps < vnorm v1 -> eps < vnorm v2 ->
    let u1 := vnormalize v1 in let u2 := vnormalize v2 in
    (eps < vnorm (vcross u1 u2) -> exists r f,
       rot3rotation_between_eps v1 v2 eps = Some r /\ is_rotation r /\ rot_apply_vector r u1 = u2 /\
       iso3rotation_between_eps v1 v2 eps = Some f /\ iso_apply_vector f u1 = u2 /\ iso_translation f = vzero 3) /\
    (vnorm (vcross u1 u2) <= eps ->
       (vdot u1 u2 < 0 -> rot3rotation_between_eps v1 v2 eps = None /\ iso3rotation_between_eps v1 v2 eps = None) /\
       (0 <= vdot u1 u2 -> exists r f,
          rot3rotation_between_eps v1 v2 eps = Some r /\ iso3rotation_between_eps v1 v2 eps = Some f /\
          (forall v, rot_apply_vector r v = v) /\ (forall v, iso_apply_point f v = v))).
Proof.
  intros v1 v2 eps He H1 H2 u1 u2.
  pose proof (unit_between_norm v1 eps He H1) as Z1. pose proof (unit_between_norm v2 eps He H2) as Z2.
  destruct (qrotation_between_spec v1 v2 eps He Z1 Z2) as [A B].
  destruct (qrotation_between_axis_spec u1 u2 eps He (vnormalize_norm _ _ Z1) (vnormalize_norm _ _ Z2)) as [A' B'].
  unfold iso3rotation_between_eps. rewrite !unit_try_some by assumption. fold u1 u2.
  unfold rot3rotation_between_eps, iso3rotation_between_axis_eps, rot3rotation_between_axis_eps.
  fold u1 u2 in A, B. split.
  - intros H. destruct (A H) as (q & _ & _ & E & U & M & _). destruct (A' H) as (q' & _ & _ & E' & U' & M' & _).
    rewrite E, E'. do 2 eexists. split; [reflexivity|].
    conjs; [ |exact M|reflexivity|exact M'|reflexivity].
    apply qto_matrix_rot. intros Z. apply qnorm_unit_iff in U. rewrite Z in U. revert U. clear. qrcompute. lra.
  - intros H. destruct (B H) as [B1 B2]. destruct (B' H) as [B1' B2']. split.
    + intros N. rewrite (B1 N), (B1' N). split; reflexivity.
    + intros P. rewrite (B2 P), (B2' P).
      assert (I : rot3from_quaternion qidentity = midentity 3).
      { unfold rot3from_quaternion. qrcompute. pairs ltac:(field). }
      do 2 eexists. split; [reflexivity|]. split; [reflexivity|]. split.
      * intros v. unfold rot_apply_vector. rewrite I. apply mmulv_1.
      * intros v. unfold iso_apply_point, rot_apply_point, tr_apply_point, pfrom_vector, pto_vector, padd.
        cbn [iso_translation iso_rotation iso_from_parts]. rewrite I, mmulv_1. unfold tr_identity. vext. rnum. ring.
Qed.
End RestView.

Section RestTf.
Context {K : Type} {NK : Num K} {ND : NumDiv K} {FK : FieldLaws K}.
#[local] Instance rl_of_fieldRestT : RingLaws K := field_ring.
Lemma c105t (f : transform K 3) (v : vec K 3) :
  (m4det f = n0 -> tf3inverse_apply_vector f v = None) /\
  (m4det f <> n0 -> vat (mmulv f (vextend v n0)) 3 = n0 -> tf3inverse_apply_vector f (tf_apply_vector f v) = Some v).
Proof.
  unfold tf3inverse_apply_vector, tf3try_inverse. split.
  - intros D. apply m4try_inverse_none in D. rewrite D. reflexivity.
  - intros D W. destruct (m4try_inverse f) as [h|] eqn:E; [|apply m4try_inverse_none in E; contradiction].
    cbn. f_equal. destruct (m4try_inverse_some _ _ E) as [_ I].
    destruct (c75_transform_vectors_partial K NK ND FK 3 h f v) as (_ & G & _). apply (G W). exact I.
Qed.
Lemma tf_apply_point_mul n (f g : transform K n) p q :
  tf_apply_point g p = Some q -> tf_apply_point (tf_mul f g) p = tf_apply_point f q.
Proof. destruct (c75_transform_points K NK ND FK n f g p q (vzero n)) as (_ & _ & H & _). exact H. Qed.
End RestTf.

Lemma c103_isometry_constructors :
  forall (axis d p v : vec R 3) (angle : R),
    vnorm axis = 1%R ->
    iso_apply_point (iso3from_axis_angle_translation axis angle d) p = vadd (rodrigues axis angle p) d /\
    iso_apply_vector (iso3from_axis_angle_translation axis angle d) v = rodrigues axis angle v /\
    iso_apply_point (iso3from_axis_angle axis angle) p = rodrigues axis angle p /\
    iso_apply_vector (iso3from_axis_angle axis angle) v = rodrigues axis angle v /\
    iso_apply_point (iso3from_angle_x angle) p = rodrigues (v3 1 0 0)%R angle p /\
    iso_apply_point (iso3from_angle_y angle) p = rodrigues (v3 0 1 0)%R angle p /\
    iso_apply_point (iso3from_angle_z angle) p = rodrigues (v3 0 0 1)%R angle p /\
    pdist (iso_apply_point (iso3from_axis_angle_translation axis angle d) p)
          (iso_apply_point (iso3from_axis_angle_translation axis angle d) v) = pdist p v.
Proof.
  intros axis d p v angle H.
  assert (Z : forall w : vec R 3, vadd w (vzero 3) = w) by (intros w; vext; rnum; ring).
  unfold iso_apply_point, iso_apply_vector, iso3from_axis_angle_translation, iso3from_axis_angle, iso3from_angle_x,
    iso3from_angle_y, iso3from_angle_z, tr_apply_point, rot_apply_point, rot_apply_vector, pfrom_vector, pto_vector, padd.
  unfold rot3from_angle_x, rot3from_angle_y, rot3from_angle_z, rot3from_axis_angle, tr_from_vector. cbn [iso_translation iso_rotation iso_from_parts].
  unfold tr_identity. rewrite !Z, !m3from_axis_angle_rodrigues. conjs; try reflexivity.
  rewrite <- !m3from_axis_angle_rodrigues. unfold pdist, vdist.
  transitivity (vnorm (mmulv (m3from_axis_angle axis angle) (vsub p v))).
  - f_equal. rewrite mmulv_sub. vext. rnum. ring.
  - apply (c58_isometry (m3from_axis_angle axis angle) (vsub p v) (vsub p v)). apply m3from_axis_angle_rot. exact H.
Qed.

Lemma c103_isometry2_constructors :
  forall (d : vec R 2) (x y angle : R),
    (iso_apply_point (iso2from_angle_translation angle d) (v2 x y) =
       v2 (x * cos angle - y * sin angle + vat d 0) (x * sin angle + y * cos angle + vat d 1) /\
     iso_apply_vector (iso2from_angle_translation angle d) (v2 x y) =
       v2 (x * cos angle - y * sin angle) (x * sin angle + y * cos angle) /\
     iso_apply_point (iso2from_angle angle) (v2 x y) =
       v2 (x * cos angle - y * sin angle) (x * sin angle + y * cos angle))%R.
Proof.
  intros d x y angle. destruct2 d.
  conjs; unfold iso_apply_point, iso_apply_vector, iso2from_angle_translation, iso2from_angle, tr_apply_point, rot_apply_point,
    rot_apply_vector, pfrom_vector, pto_vector, padd, rot2from_angle, tr_from_vector, tr_identity;
    cbn [iso_translation iso_rotation iso_from_parts]; rcompute; pairs ltac:(ring).
Qed.

Lemma c103_similarity_constructors :
  forall (K : Type) (NK : Num K) (LK : RingLaws K) (n : nat) (t : translation K n) (r : rotation K n) (s : K) (p : point K n) (v : vec K n),
    sim_apply_point (sim_from_parts t r s) p = vadd (mmulv r (vmul_s p s)) t /\
    sim_apply_vector (sim_from_parts t r s) v = mmulv r (vmul_s v s) /\
    sim_apply_point (sim_from_rotation r) p = mmulv r p /\
    sim_apply_point (sim_from_scale n s) p = vmul_s p s /\ sim_apply_vector (sim_from_scale n s) v = vmul_s v s /\
    sim_apply_point (sim_from_translation t) p = vadd p t /\ sim_apply_vector (sim_from_translation t) v = v.
Proof.
  intros K NK LK. exact c103s.
Qed.

Lemma c103_example :
  vnorm (v3 (2/3) (2/3) (1/3))%R = 1%R.
Proof.
  exact c58_example.
Qed.

Lemma c104_viewing_similarities :
  forall (eye target p : point R 3) (up : vec R 3),
    let d := pdiff target eye in
    vcross up d <> vzero 3 ->
    sim_apply_point (sim3look_to_lh eye d up) p = mmulv (m3look_to_lh d up) (pdiff p eye) /\
    sim_apply_point (sim3look_to_rh eye d up) p = mmulv (m3look_to_rh d up) (pdiff p eye) /\
    sim_apply_point (sim3look_at_lh eye target up) eye = vzero 3 /\
    sim_apply_point (sim3look_at_rh eye target up) eye = vzero 3 /\
    sim_apply_point (sim3look_at_lh eye target up) target = (v3 0 0 (pdist target eye))%R /\
    sim_apply_point (sim3look_at_rh eye target up) target = (v3 0 0 (- pdist target eye))%R /\
    iso_apply_point (iso3look_at_lh eye target up) target = (v3 0 0 (pdist target eye))%R /\
    iso_apply_point (iso3look_at_rh eye target up) target = (v3 0 0 (- pdist target eye))%R.
Proof.
  exact c104v.
Qed.

Lemma c104_viewing_quaternions :
  forall (eye target : point R 3) (up : vec R 3),
    let d := pdiff target eye in
    vcross up d <> vzero 3 ->
    qnorm (qlook_at_lh eye target up) = 1%R /\ qnorm (qlook_at_rh eye target up) = 1%R /\
    mmulv (qto_matrix (qlook_at_lh eye target up)) (vnormalize d) = (v3 0 0 1)%R /\
    mmulv (qto_matrix (qlook_at_rh eye target up)) (vnormalize d) = (v3 0 0 (-1))%R /\
    mmulv (qto_matrix (qlook_at_lh_inv eye target up)) (v3 0 0 1)%R = vnormalize d /\
    mmulv (qto_matrix (qlook_at_rh_inv eye target up)) (v3 0 0 (-1))%R = vnormalize d.
Proof.
  exact c104q.
Qed.

Lemma c104_look_at_is_look_to :
  forall (eye target : point R 3) (up : vec R 3),
    let d := pdiff target eye in
    m4look_at_lh_inv eye target up = m4look_to_lh_inv eye d up /\
    m4look_at_rh_inv eye target up = m4look_to_rh_inv eye d up /\
    sim3look_at_lh_inv eye target up = sim3look_to_lh_inv eye d up /\
    sim3look_at_rh_inv eye target up = sim3look_to_rh_inv eye d up.
Proof.
  intros. repeat split.
Qed.

Lemma c104_example :
  vcross (v3 0 1 0)%R (pdiff (v3 4 2 3) (v3 1 2 3))%R <> vzero 3.
Proof.
  intros E. apply (f_equal (fun v => vat v 2)) in E. revert E. unfold pdiff. vcompute. rnum. lra.
Qed.

Lemma c105_shear_composition :
  forall (f g : shear R 2) (f' g' : shear R 3) (p : point R 2) (p' : point R 3),
    vnorm (sh_direction f) = 1%R -> vnorm (sh_normal f) = 1%R -> vnorm (sh_direction g) = 1%R -> vnorm (sh_normal g) = 1%R ->
    vnorm (sh_direction f') = 1%R -> vnorm (sh_normal f') = 1%R -> vnorm (sh_direction g') = 1%R -> vnorm (sh_normal g') = 1%R ->
    tf_apply_point (sh2mul f g) p = Some (sh_apply_point f (sh_apply_point g p)) /\
    tf_apply_point (sh3mul f' g') p' = Some (sh_apply_point f' (sh_apply_point g' p')).
Proof.
  intros f g f' g' p p' H1 H2 H3 H4 H1' H2' H3' H4'.
  destruct (c68_shear_matrix_partial f f' H1 H2 H1' H2') as (F & F' & _).
  destruct (c68_shear_matrix_partial g g' H3 H4 H3' H4') as (G & G' & _).
  split.
  - unfold sh2mul. rewrite (tf_apply_point_mul _ _ _ _ _ (G p)). apply F.
  - unfold sh3mul. rewrite (tf_apply_point_mul _ _ _ _ _ (G' p')). apply F'.
Qed.

Lemma c105_transform_inverse_vector :
  forall (K : Type) (NK : Num K) (ND : NumDiv K) (FK : FieldLaws K) (f : transform K 3) (v : vec K 3),
    (m4det f = n0 -> tf3inverse_apply_vector f v = None) /\
    (m4det f <> n0 -> vat (mmulv f (vextend v n0)) 3 = n0 -> tf3inverse_apply_vector f (tf_apply_vector f v) = Some v).
Proof.
  exact @c105t.
Qed.

Lemma c105_rotation_between :
  forall (v1 v2 : vec R 3) (eps : R),
    (0 <= eps)%R -> (eps < vnorm v1)%R -> (eps < vnorm v2)%R ->
    let u1 := vnormalize v1 in let u2 := vnormalize v2 in
    ((eps < vnorm (vcross u1 u2))%R -> exists r f,
       rot3rotation_between_eps v1 v2 eps = Some r /\ is_rotation r /\ rot_apply_vector r u1 = u2 /\
       iso3rotation_between_eps v1 v2 eps = Some f /\ iso_apply_vector f u1 = u2 /\ iso_translation f = vzero 3) /\
    ((vnorm (vcross u1 u2) <= eps)%R ->
       ((vdot u1 u2 < 0)%R -> rot3rotation_between_eps v1 v2 eps = None /\ iso3rotation_between_eps v1 v2 eps = None) /\
       ((0 <= vdot u1 u2)%R -> exists r f,
          rot3rotation_between_eps v1 v2 eps = Some r /\ iso3rotation_between_eps v1 v2 eps = Some f /\
          (forall v, rot_apply_vector r v = v) /\ (forall v, iso_apply_point f v = v))).
Proof.
  exact c105b.
Qed.

Lemma c105_example :
  vnorm (v2 1 0)%R = 1%R /\ vnorm (v2 (3/5) (4/5))%R = 1%R.
Proof.
  destruct c53_example as (A & B & _). auto.
Qed.

Lemma c106_projection_axes :
  forall (left right bottom top near far : R),
    (0 < right + left -> 0 < top + bottom -> 0 < near < far ->
     let '((xlo, xhi), (ylo, yhi), (zlo, zhi)) := proj_clip_ndc_bounds in
     let P := projects_to (m4from_perspective left right bottom top near far) in
     let O := fun p q => ortho_project_point (ortho_new left right bottom top near far) p = q in
     P (frustum_corner left right bottom top near far false false false) (v3 xlo ylo zlo) /\
     P (frustum_corner left right bottom top near far true true true) (v3 xhi yhi zhi) /\
     O (box_corner left right bottom top near far false false false) (v3 xlo ylo zlo) /\
     O (box_corner left right bottom top near far true true true) (v3 xhi yhi zhi) /\
     vadd (vmul_s proj_clip_unit_right xlo) (vadd (vmul_s proj_clip_unit_up ylo) (vmul_s proj_clip_unit_depth zlo)) = v3 xlo ylo zlo /\
     proj_clip_unit_gaze = (proj_clip_unit_depth : vec R 3) /\
     (forall d, in_frustum left right bottom top near far (vmul_s proj_view_unit_gaze d) -> 0 < d) /\
     proj_view_unit_gaze = vneg (proj_view_unit_depth : vec R 3) /\
     vcross proj_view_unit_right proj_view_unit_up = (proj_view_unit_depth : vec R 3))%R.
Proof.
  intros left right bottom top near far H1 H2 H3. cbv beta iota zeta delta [proj_clip_ndc_bounds].
  pose proof (c77_perspective_corners left right bottom top near far H1 H2 H3) as C.
  destruct (proj2 c83_orthographic left right bottom top near far H1 H2 ltac:(lra)) as (_ & _ & D & _).
  conjs.
  - exact (C false false false).
  - exact (C true true true).
  - exact (D false false false).
  - exact (D true true true).
  - unfold proj_clip_unit_right, proj_clip_unit_up, proj_clip_unit_depth. vext. do 3 (destruct i as [|i]; [cbn; rnum; ring|]). lia.
  - reflexivity.
  - intros d [F _]. revert F. unfold proj_view_unit_gaze. vcompute. rnum. lra.
  - reflexivity.
  - unfold proj_view_unit_right, proj_view_unit_up, proj_view_unit_depth. vcompute. rnum. pairs ltac:(ring).
Qed.

Lemma c106_example :
  (0 < 3 + 1 /\ 0 < 2 + 1 /\ 0 < 1 < 4 /\ in_frustum 1 3 1 2 1 4 (vmul_s proj_view_unit_gaze 2))%R.
Proof.
  unfold in_frustum, proj_view_unit_gaze. vcompute. rnum. lra.
Qed.
