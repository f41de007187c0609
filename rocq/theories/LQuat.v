(** Quaternion algebra over a commutative ring or a field. *)

From Coq Require Import List Arith Lia Bool Ring Field Setoid Reals.
From Verif Require Import Base Scalar Spec LBase MVector LVector MMatrix LMatrix LMatrixDet MMisc
  MQuat.
Import ListNotations.
Local Open Scope nat_scope.

Ltac qcompute := cbv [
  quat qnew qfrom_parts qfrom_vector qfrom_fill qscalar qvector qunit_s qunit_x qunit_y qunit_z
  qzero qidentity qfrom_real qfrom_pure qdot qnorm_squared qdist_squared qconj qconj_mut qneg qadd
  qsub qscale s_mul_q qmul qadd_assign qsub_assign qscale_assign qsquared qlerp qdiv_s qdiv_assign
  qhalf qinner qouter qproject qreject qto_matrix qto_matrix_mut qto_affine_matrix
  qto_affine_matrix_mut vdist_squared vadd_assign vsub_assign vmul_assign vdiv_assign vdiv_s
  one_half
  vat vget vset vfill vmap for_range fold_left seq fst snd v1 v2 v3 v4
  vzero vfrom_fill vdot vcmul vneg_mut vnorm_squared vadd vsub vneg vmul_s
  s_mul_v vlerp vextend vto_homogeneous vcontract vcross vtriple v3_from_v4
  v3_unit_x v3_unit_y v3_unit_z v2_unit_x v2_unit_y v4_unit_x v4_unit_y v4_unit_z v4_unit_w
  Nat.sub mget mget_d mset mset_d mcol mloop mzero mfrom_fill mtranspose mcmul mdot mtr_mul
  mtr_dot madd msub mneg mmul_s s_mul_m dot_array_col mmulv mmul mlerp midentity
  mfrom_diagonal mtrace mnorm_squared mfrom_scale mfrom_nonuniform_scale mfrom_affine_scale
  mfrom_affine_nonuniform_scale mfrom_affine_translation membed m1new m2new m3new m4new
  m1det m2det m3det m4det m2shear_xy m2shear_yx m2from_shear m3shear_xy m3shear_xz m3shear_yx
  m3shear_yz m3shear_zx m3shear_zy m3from_shear m3affine_shear_xy m3affine_shear_yx
  m3from_affine_shear m4affine_shear_xy m4affine_shear_xz m4affine_shear_yx m4affine_shear_yz
  m4affine_shear_zx m4affine_shear_zy m4from_affine_shear m2from_reflection
  m3from_affine_reflection m3from_reflection m4from_affine_reflection m3cross_matrix
  ].
Ltac qext := apply vec_ext with (d := n0).

Lemma vec4_eq {A} (a b c d a' b' c' d' : A) :
  a = a' -> b = b' -> c = c' -> d = d' -> v4 a b c d = v4 a' b' c' d'.
Proof. intros; subst; reflexivity. Qed.

Section QuatRing.
Context {K : Type} {NK : Num K} {LK : RingLaws K}.
Local Open Scope num_scope.
Add Ring Kring : (@ring_laws K NK LK).
Implicit Types p q r : quat K.

Ltac qring := qcompute; pairs ltac:(ring).

Lemma quat_eta q : q = qnew (vat (q : vec K 4) 0) (vat (q : vec K 4) 1)
                            (vat (q : vec K 4) 2) (vat (q : vec K 4) 3).
Proof. destruct q as [a [b [c [d []]]]]; reflexivity. Qed.
Lemma quat_parts q : q = qfrom_parts (qscalar q) (qvector q).
Proof. destruct q as [a [b [c [d []]]]]; reflexivity. Qed.
Lemma qscalar_parts (s : K) v : qscalar (qfrom_parts s v) = s.
Proof. reflexivity. Qed.
Lemma qvector_parts (s : K) v : qvector (qfrom_parts s v) = v.
Proof. destruct v as [a [b [c []]]]; reflexivity. Qed.
Lemma quat_ext p q : qscalar p = qscalar q -> qvector p = qvector q -> p = q.
Proof. intros Hs Hv. rewrite (quat_parts p), (quat_parts q), Hs, Hv. reflexivity. Qed.

Lemma qadd_comm p q : qadd p q = qadd q p.
Proof. destruct4 p; destruct4 q. qring. Qed.
Lemma qadd_assoc p q r : qadd p (qadd q r) = qadd (qadd p q) r.
Proof. destruct4 p; destruct4 q; destruct4 r. qring. Qed.
Lemma qadd_0_r p : qadd p qzero = p.
Proof. destruct4 p. qring. Qed.
Lemma qadd_neg_r p : qadd p (qneg p) = qzero.
Proof. destruct4 p. qring. Qed.
Lemma qsub_def p q : qsub p q = qadd p (qneg q).
Proof. destruct4 p; destruct4 q. qring. Qed.
Lemma qscale_mul p a : qscale p a = qmul p (qfrom_real a).
Proof. destruct4 p. qring. Qed.
Lemma s_mul_q_eq p a : s_mul_q a p = qscale p a.
Proof. destruct4 p. qring. Qed.
Lemma qreal_mul p a : qmul (qfrom_real a) p = qscale p a.
Proof. destruct4 p. qring. Qed.
Lemma qmul_assoc p q r : qmul p (qmul q r) = qmul (qmul p q) r.
Proof. destruct4 p; destruct4 q; destruct4 r. qring. Qed.
Lemma qmul_1_l p : qmul qidentity p = p.
Proof. destruct4 p. qring. Qed.
Lemma qmul_1_r p : qmul p qidentity = p.
Proof. destruct4 p. qring. Qed.
Lemma qmul_0_l p : qmul qzero p = qzero.
Proof. destruct4 p. qring. Qed.
Lemma qmul_0_r p : qmul p qzero = qzero.
Proof. destruct4 p. qring. Qed.
Lemma qmul_add_l p q r : qmul (qadd p q) r = qadd (qmul p r) (qmul q r).
Proof. destruct4 p; destruct4 q; destruct4 r. qring. Qed.
Lemma qmul_add_r p q r : qmul p (qadd q r) = qadd (qmul p q) (qmul p r).
Proof. destruct4 p; destruct4 q; destruct4 r. qring. Qed.
Lemma qmul_neg_l p q : qmul (qneg p) q = qneg (qmul p q).
Proof. destruct4 p; destruct4 q. qring. Qed.
Lemma qmul_neg_r p q : qmul p (qneg q) = qneg (qmul p q).
Proof. destruct4 p; destruct4 q. qring. Qed.
Lemma qmul_scale_l p q a : qmul (qscale p a) q = qscale (qmul p q) a.
Proof. destruct4 p; destruct4 q. qring. Qed.
Lemma qmul_scale_r p q a : qmul p (qscale q a) = qscale (qmul p q) a.
Proof. destruct4 p; destruct4 q. qring. Qed.
Lemma qscale_scale p a b : qscale (qscale p a) b = qscale p (a * b).
Proof. destruct4 p. qring. Qed.
Lemma qscale_1 p : qscale p 1 = p.
Proof. destruct4 p. qring. Qed.
Lemma qscale_add p q a : qscale (qadd p q) a = qadd (qscale p a) (qscale q a).
Proof. destruct4 p; destruct4 q. qring. Qed.
Lemma qscale_add_s p a b : qscale p (a + b) = qadd (qscale p a) (qscale p b).
Proof. destruct4 p. qring. Qed.
Lemma qneg_neg p : qneg (qneg p) = p.
Proof. destruct4 p. qring. Qed.

Lemma qmul_table :
  qmul qunit_x qunit_x = qneg (qidentity : quat K) /\
  qmul qunit_y qunit_y = qneg (qidentity : quat K) /\
  qmul qunit_z qunit_z = qneg (qidentity : quat K) /\
  qmul qunit_x qunit_y = (qunit_z : quat K) /\ qmul qunit_y qunit_x = qneg (qunit_z : quat K) /\
  qmul qunit_y qunit_z = (qunit_x : quat K) /\ qmul qunit_z qunit_y = qneg (qunit_x : quat K) /\
  qmul qunit_z qunit_x = (qunit_y : quat K) /\ qmul qunit_x qunit_z = qneg (qunit_y : quat K) /\
  qmul (qmul qunit_x qunit_y) qunit_z = qneg (qidentity : quat K).
Proof. conjs; qring. Qed.
Lemma quat_basis q :
  q = qadd (qadd (qadd (qscale qunit_s (vat (q : vec K 4) 0)) (qscale qunit_x (vat (q : vec K 4) 1)))
            (qscale qunit_y (vat (q : vec K 4) 2))) (qscale qunit_z (vat (q : vec K 4) 3)).
Proof. destruct4 q. qring. Qed.

Lemma qconj_conj q : qconj (qconj q) = q.
Proof. destruct4 q. qring. Qed.
Lemma qconj_mul p q : qconj (qmul p q) = qmul (qconj q) (qconj p).
Proof. destruct4 p; destruct4 q. qring. Qed.
Lemma qconj_add p q : qconj (qadd p q) = qadd (qconj p) (qconj q).
Proof. destruct4 p; destruct4 q. qring. Qed.
Lemma qconj_scale q a : qconj (qscale q a) = qscale (qconj q) a.
Proof. destruct4 q. qring. Qed.
Lemma qconj_mut_eq q : qconj_mut q = qconj q.
Proof. destruct4 q. reflexivity. Qed.
Lemma qconj_identity : qconj qidentity = (qidentity : quat K).
Proof. qring. Qed.
Lemma qmul_conj_r q : qmul q (qconj q) = qfrom_real (qnorm_squared q).
Proof. destruct4 q. qring. Qed.
Lemma qmul_conj_l q : qmul (qconj q) q = qfrom_real (qnorm_squared q).
Proof. destruct4 q. qring. Qed.
Lemma qnorm_squared_mul p q : qnorm_squared (qmul p q) = qnorm_squared p * qnorm_squared q.
Proof. destruct4 p; destruct4 q. qcompute. ring. Qed.
Lemma qnorm_squared_conj q : qnorm_squared (qconj q) = qnorm_squared q.
Proof. destruct4 q. qcompute. ring. Qed.
Lemma qnorm_squared_neg q : qnorm_squared (qneg q) = qnorm_squared q.
Proof. destruct4 q. qcompute. ring. Qed.
Lemma qnorm_squared_scale q a : qnorm_squared (qscale q a) = qnorm_squared q * (a * a).
Proof. destruct4 q. qcompute. ring. Qed.
Lemma qnorm_squared_parts s (v : vec K 3) : qnorm_squared (qfrom_parts s v) = s * s + vdot v v.
Proof. destruct v as [a [b [c []]]]. qcompute. ring. Qed.
Lemma qnorm_squared_identity : qnorm_squared (qidentity : quat K) = 1.
Proof. qcompute. ring. Qed.
Lemma qnorm_squared_entries q : qnorm_squared q =
  vat (q : vec K 4) 0 * vat (q : vec K 4) 0 + vat (q : vec K 4) 1 * vat (q : vec K 4) 1 +
  vat (q : vec K 4) 2 * vat (q : vec K 4) 2 + vat (q : vec K 4) 3 * vat (q : vec K 4) 3.
Proof. destruct4 q. qcompute. ring. Qed.

Lemma qmul_commutator p q :
  qsub (qmul p q) (qmul q p) =
  qfrom_pure (vmul_s (vcross (qvector p) (qvector q)) (1 + 1)).
Proof. destruct4 p; destruct4 q. qring. Qed.
Lemma qsub_zero p q : qsub p q = qzero <-> p = q.
Proof.
  split.
  - intros H. rewrite <- (qadd_0_r q), <- H. destruct4 p; destruct4 q. qring.
  - intros ->. destruct4 q. qring.
Qed.
Lemma qmul_comm_cross p q : (vcross (qvector p) (qvector q) = vzero 3) -> qmul p q = qmul q p.
Proof.
  intros H. apply qsub_zero. rewrite qmul_commutator, H. qring.
Qed.
Lemma qdot_conj p q : qadd (qmul p (qconj q)) (qmul q (qconj p)) = qfrom_real (qdot p q + qdot p q).
Proof. destruct4 p; destruct4 q. qring. Qed.
Lemma qadd_assign_eq p q : qadd_assign p q = qadd p q.
Proof. destruct4 p; destruct4 q. reflexivity. Qed.
Lemma qsub_assign_eq p q : qsub_assign p q = qsub p q.
Proof. destruct4 p; destruct4 q. reflexivity. Qed.
Lemma qscale_assign_eq p a : qscale_assign p a = qscale p a.
Proof. destruct4 p. reflexivity. Qed.
Lemma qlerp_affine p q t : qlerp p q t = qadd (qscale p (1 - t)) (qscale q t).
Proof. destruct4 p; destruct4 q. qring. Qed.
Lemma qlerp_vlerp p q t : qlerp p q t = vlerp (p : vec K 4) q t.
Proof. destruct4 p; destruct4 q. qring. Qed.

(** The sandwich product in vector form. *)
Lemma sandwich_vec q (v : vec K 3) :
  qmul (qmul q (qfrom_pure v)) (qconj q) =
  qfrom_pure (vadd (vadd (vmul_s v (qscalar q * qscalar q - vdot (qvector q) (qvector q)))
                         (vmul_s (qvector q) ((1 + 1) * vdot (qvector q) v)))
                   (vmul_s (vcross (qvector q) v) ((1 + 1) * qscalar q))).
Proof. destruct4 q; destruct3 v. qring. Qed.
End QuatRing.

Section QuatField.
Context {K : Type} {NK : Num K} {ND : NumDiv K} {FK : FieldLaws K}.
Local Open Scope num_scope.
#[local] Instance rl_of_fieldQ : RingLaws K := field_ring.
Add Field Kf : (@field_th K NK ND FK).
Implicit Types p q r : quat K.

Lemma qmul_comm_iff p q : (1 + 1 <> 0 :> K) ->
  (qmul p q = qmul q p <-> vcross (qvector p) (qvector q) = vzero 3).
Proof.
  intros H2. split; [|apply qmul_comm_cross]. intros H. apply qsub_zero in H.
  rewrite qmul_commutator in H. revert H. generalize (vcross (qvector p) (qvector q)).
  intros v. destruct3 v. intros H. revert H. qcompute. intros H.
  injection H as Hx Hy Hz.
  assert (C : forall a, a * (1 + 1) = 0 -> a = 0).
  { intros a Ha. destruct (field_integral a (1 + 1) Ha); [auto|contradiction]. }
  rewrite (C _ Hx), (C _ Hy), (C _ Hz). reflexivity.
Qed.

Lemma qdiv_s_scale q a : a <> 0 -> qdiv_s q a = qscale q (ninv a).
Proof. intros H. destruct4 q. qcompute. rewrite !ndiv_ninv by exact H. reflexivity. Qed.
Lemma qdiv_assign_eq q a : qdiv_assign q a = qdiv_s q a.
Proof. destruct4 q. reflexivity. Qed.

Lemma qinv_r q : qnorm_squared q <> 0 ->
  qmul q (qdiv_s (qconj q) (qnorm_squared q)) = qidentity.
Proof.
  intros H. rewrite qdiv_s_scale by exact H. rewrite qmul_scale_r, qmul_conj_r.
  generalize dependent (qnorm_squared q). intros n Hn. qcompute. pairs ltac:(idtac); try ring.
  rewrite <- (ninv_l n Hn). ring.
Qed.
Lemma qinv_l q : qnorm_squared q <> 0 ->
  qmul (qdiv_s (qconj q) (qnorm_squared q)) q = qidentity.
Proof.
  intros H. rewrite qdiv_s_scale by exact H. rewrite qmul_scale_l, qmul_conj_l.
  generalize dependent (qnorm_squared q). intros n Hn. qcompute. pairs ltac:(idtac); try ring.
  rewrite <- (ninv_l n Hn). ring.
Qed.

Lemma qinverse_unique q r r' : qmul q r = qidentity -> qmul r' q = qidentity -> r = r'.
Proof.
  intros H H'. rewrite <- (qmul_1_l r), <- H', <- qmul_assoc, H, qmul_1_r. reflexivity.
Qed.

Ltac nz H := repeat split; first [assumption | let E := fresh in intros E; apply H;
  match type of E with ?l = _ => transitivity l; [ring | exact E] end].
Ltac qfield H := rewrite !ndiv_ninv by exact H; pairs ltac:(field; nz H).

Lemma qto_matrix_act q (v : vec K 3) : qnorm_squared q <> 0 ->
  qmul (qmul q (qfrom_pure v)) (qdiv_s (qconj q) (qnorm_squared q)) =
  qfrom_pure (mmulv (qto_matrix q) v).
Proof.
  intros H. destruct4 q; destruct3 v. revert H. qcompute. intros H. qfield H.
Qed.
Lemma qto_matrix_vec q (v : vec K 3) : qnorm_squared q <> 0 ->
  mmulv (qto_matrix q) v =
  qvector (qmul (qmul q (qfrom_pure v)) (qdiv_s (qconj q) (qnorm_squared q))).
Proof.
  intros H. rewrite qto_matrix_act by exact H. unfold qfrom_pure. rewrite qvector_parts. reflexivity.
Qed.
Lemma qto_matrix_orth q : qnorm_squared q <> 0 ->
  mmul (mtranspose (qto_matrix q)) (qto_matrix q) = midentity 3.
Proof. intros H. destruct4 q. revert H. qcompute. intros H. qfield H. Qed.
Lemma qto_matrix_orth' q : qnorm_squared q <> 0 ->
  mmul (qto_matrix q) (mtranspose (qto_matrix q)) = midentity 3.
Proof. intros H. destruct4 q. revert H. qcompute. intros H. qfield H. Qed.
Lemma qto_matrix_det q : qnorm_squared q <> 0 -> m3det (qto_matrix q) = 1.
Proof.
  intros H. destruct4 q. revert H. qcompute. intros H.
  rewrite !ndiv_ninv by exact H. field; nz H.
Qed.
Lemma qto_matrix_conj q : qto_matrix (qconj q) = mtranspose (qto_matrix q).
Proof.
  assert (E := qnorm_squared_conj q). unfold qto_matrix. cbv zeta. rewrite E.
  generalize ((1 + 1) / qnorm_squared q). intros s. destruct4 q. qcompute. pairs ltac:(ring).
Qed.
Lemma qto_matrix_neg q : qto_matrix (qneg q) = qto_matrix q.
Proof.
  assert (E := qnorm_squared_neg q). unfold qto_matrix. cbv zeta. rewrite E.
  generalize ((1 + 1) / qnorm_squared q). intros s. destruct4 q. qcompute. pairs ltac:(ring).
Qed.
Lemma qto_matrix_mul p q : qnorm_squared p <> 0 -> qnorm_squared q <> 0 ->
  qto_matrix (qmul p q) = mmul (qto_matrix p) (qto_matrix q).
Proof.
  intros Hp Hq.
  assert (Hpq : qnorm_squared (qmul p q) <> 0).
  { rewrite qnorm_squared_mul. intros E. destruct (field_integral _ _ E); contradiction. }
  apply mmulv_ext. intros v. rewrite mmulv_mmulv. rewrite qto_matrix_vec by exact Hpq.
  rewrite (qto_matrix_vec p) by exact Hp.
  rewrite <- qto_matrix_act by exact Hq. f_equal.
  assert (I : qdiv_s (qconj (qmul p q)) (qnorm_squared (qmul p q)) =
              qmul (qdiv_s (qconj q) (qnorm_squared q)) (qdiv_s (qconj p) (qnorm_squared p))).
  { apply (qinverse_unique (qmul p q)); [apply qinv_r; exact Hpq|].
    rewrite !qmul_assoc. rewrite <- (qmul_assoc (qdiv_s (qconj q) (qnorm_squared q))).
    rewrite qinv_l by exact Hp. rewrite qmul_1_r. apply qinv_l; exact Hq. }
  rewrite I. rewrite !qmul_assoc. reflexivity.
Qed.
Lemma qto_matrix_scale q a : qnorm_squared q <> 0 -> a <> 0 -> qto_matrix (qscale q a) = qto_matrix q.
Proof.
  intros H Ha.
  assert (H' : qnorm_squared (qscale q a) <> 0).
  { rewrite qnorm_squared_scale. intros E. destruct (field_integral _ _ E) as [|E']; [contradiction|].
    destruct (field_integral _ _ E'); contradiction. }
  unfold qto_matrix; cbv zeta. revert H'. rewrite qnorm_squared_scale. intros H'.
  rewrite !ndiv_ninv by assumption.
  revert H H'. generalize (qnorm_squared q). intros n H H'.
  destruct4 q. qcompute. pairs ltac:(field; repeat split; auto).
Qed.
Lemma qto_matrix_mut_eq q m : qto_matrix_mut q m = qto_matrix q.
Proof. unfold qto_matrix_mut, qto_matrix. cbv zeta. mdestruct3 m. destruct4 q. reflexivity. Qed.
Lemma qto_affine_matrix_eq q : qto_affine_matrix q = membed (qto_matrix q).
Proof. unfold qto_affine_matrix, qto_matrix. cbv zeta. destruct4 q. reflexivity. Qed.
Lemma qto_affine_matrix_mut_eq q m : qto_affine_matrix_mut q m = qto_affine_matrix q.
Proof. unfold qto_affine_matrix_mut, qto_affine_matrix. cbv zeta. mdestruct4 m. destruct4 q. reflexivity. Qed.
Lemma qto_matrix_identity : qto_matrix (qidentity : quat K) = midentity 3.
Proof.
  assert (H : qnorm_squared (qidentity : quat K) <> 0).
  { rewrite qnorm_squared_identity. exact field_one_neq_zero. }
  apply mmulv_ext. intros v. rewrite qto_matrix_vec by exact H. rewrite mmulv_1, qmul_1_l.
  rewrite qconj_identity, qdiv_s_scale by exact H. rewrite qnorm_squared_identity in *.
  rewrite qmul_scale_r, qmul_1_r.
  assert (E : ninv (1 : K) = 1). { transitivity (ninv (1 : K) * 1); [ring | exact (ninv_l 1 H)]. }
  rewrite E, qscale_1. unfold qfrom_pure. apply qvector_parts.
Qed.

(** Inner and outer products, projection. *)
Lemma qinner_outer p q : (1 + 1 <> 0 :> K) -> qadd (qinner p q) (qouter p q) = qmul p q.
Proof. intros H. destruct4 p; destruct4 q. qcompute. qfield H. Qed.
Lemma qinner_twice p q : (1 + 1 <> 0 :> K) -> qadd (qinner p q) (qinner p q) = qadd (qmul p q) (qmul q p).
Proof. intros H. destruct4 p; destruct4 q. qcompute. qfield H. Qed.
Lemma qouter_twice p q : (1 + 1 <> 0 :> K) -> qadd (qouter p q) (qouter p q) = qsub (qmul p q) (qmul q p).
Proof. intros H. destruct4 p; destruct4 q. qcompute. qfield H. Qed.
Lemma qouter_cross p q : (1 + 1 <> 0 :> K) -> qouter p q = qfrom_pure (vcross (qvector p) (qvector q)).
Proof. intros H. destruct4 p; destruct4 q. qcompute. qfield H. Qed.
Lemma qinner_comm p q : qinner p q = qinner q p.
Proof. unfold qinner. rewrite qadd_comm. reflexivity. Qed.
Lemma qouter_anti p q : (1 + 1 <> 0 :> K) -> qouter p q = qneg (qouter q p).
Proof. intros H. destruct4 p; destruct4 q. qcompute. qfield H. Qed.
Lemma qproject_reject p q : qadd (qproject p q) (qreject p q) = p.
Proof.
  unfold qreject. rewrite qsub_def, qadd_assoc. rewrite (qadd_comm (qproject p q)).
  rewrite <- qadd_assoc, qadd_neg_r, qadd_0_r. reflexivity.
Qed.
Lemma qreject_orth p q : qnorm_squared q <> 0 -> qdot (qreject p q) q = 0.
Proof.
  intros H. destruct4 p; destruct4 q. revert H. qcompute. intros H.
  rewrite !ndiv_ninv by exact H. field; nz H.
Qed.
Lemma qproject_parallel p q : qproject p q = qscale q (qdot p q / qnorm_squared q).
Proof. reflexivity. Qed.
Lemma qproject_self q : qnorm_squared q <> 0 -> qproject q q = q.
Proof.
  intros H. unfold qproject. replace (qdot q q) with (qnorm_squared q) by reflexivity.
  rewrite ndiv_ninv by exact H. assert (E : qnorm_squared q * ninv (qnorm_squared q) = 1).
  { rewrite <- (ninv_l _ H). ring. }
  rewrite E. apply qscale_1.
Qed.
Lemma qhalf_twice q : (1 + 1 <> 0 :> K) -> qadd (qhalf q) (qhalf q) = q.
Proof. intros H. destruct4 q. qcompute. qfield H. Qed.

Lemma qis_zero_iff q : qis_zero q = true <-> q = qzero.
Proof.
  unfold qis_zero. destruct4 q. cbv [vis_zero for_range fold_left seq vat vget fst snd qzero qnew v4].
  rewrite !andb_true_iff. rewrite !field_is0. split.
  - intros [[[[_ ->] ->] ->] ->]. reflexivity.
  - intros H. injection H as -> -> -> ->. auto.
Qed.
End QuatField.
