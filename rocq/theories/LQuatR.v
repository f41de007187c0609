(** Quaternions over R: norms, inverses, rotations, conversion to and from matrices. *)

From Coq Require Import List Arith Lia Bool Reals Lra Psatz Ring.
From Verif Require Import Base Scalar Spec SpecRot LBase MVector LVector LVectorR MMatrix LMatrix
  LMatrixDet LMatrixR LMatrixM MPoint MReal LReal MAngle MMisc LMisc MRot LRot LRotBetween LLook
  MQuat LQuat.
Import ListNotations.
Local Open Scope R_scope.

Ltac qrcompute := qcompute; rnum.

(** ** Norms *)
Lemma qnorm_sq q : qnorm q * qnorm q = qnorm_squared q.
Proof. exact (vnorm_sq 4 q). Qed.
Lemma qnorm_nonneg q : 0 <= qnorm q.
Proof. exact (vnorm_nonneg 4 q). Qed.
Lemma qnorm_zero q : qnorm q = 0 <-> q = qzero.
Proof. exact (vnorm_zero 4 q). Qed.
Lemma qnorm_pos q : q <> qzero -> 0 < qnorm q.
Proof. exact (vnorm_pos 4 q). Qed.
Lemma qns_nonneg (q : quat R) : 0 <= qnorm_squared q.
Proof. rewrite <- qnorm_sq. pose proof (qnorm_nonneg q). nra. Qed.
Lemma qns_zero (q : quat R) : qnorm_squared q = 0 <-> q = qzero.
Proof. rewrite <- qnorm_sq, <- qnorm_zero. split; nra. Qed.
Lemma qns_nz (q : quat R) : q <> qzero -> qnorm_squared q <> 0.
Proof. intros H E. apply H, qns_zero, E. Qed.
Lemma qnorm_unit_iff q : qnorm q = 1 <-> qnorm_squared q = 1.
Proof. rewrite <- qnorm_sq. pose proof (qnorm_nonneg q). split; nra. Qed.
Lemma qnorm_by_sq q r : 0 <= r -> qnorm_squared q = r * r -> qnorm q = r.
Proof. intros Hr H. rewrite <- qnorm_sq in H. pose proof (qnorm_nonneg q). nra. Qed.
Lemma qnorm_mul p q : qnorm (qmul p q) = qnorm p * qnorm q.
Proof.
  pose proof (qnorm_nonneg p). pose proof (qnorm_nonneg q).
  apply qnorm_by_sq; [nra|]. rewrite qnorm_squared_mul, <- !qnorm_sq. rnum. ring.
Qed.
Lemma qnorm_conj q : qnorm (qconj q) = qnorm q.
Proof. apply qnorm_by_sq; [apply qnorm_nonneg|]. rewrite qnorm_squared_conj, qnorm_sq. reflexivity. Qed.
Lemma qnorm_neg q : qnorm (qneg q) = qnorm q.
Proof. apply qnorm_by_sq; [apply qnorm_nonneg|]. rewrite qnorm_squared_neg, qnorm_sq. reflexivity. Qed.
Lemma qnorm_scale q a : qnorm (qscale q a) = qnorm q * Rabs a.
Proof.
  apply qnorm_by_sq. { pose proof (qnorm_nonneg q). pose proof (Rabs_pos a). nra. }
  rewrite qnorm_squared_scale, <- qnorm_sq. rnum.
  assert (E : Rabs a * Rabs a = a * a) by (rewrite <- Rabs_mult; apply Rabs_right; nra).
  transitivity (qnorm q * qnorm q * (Rabs a * Rabs a)); [rewrite E; ring|ring].
Qed.
Lemma qnorm_real a : qnorm (qfrom_real a) = Rabs a.
Proof.
  apply qnorm_by_sq; [apply Rabs_pos|].
  rewrite <- Rabs_mult, Rabs_right by nra. qrcompute. ring.
Qed.
Lemma qnorm_identity : qnorm qidentity = 1.
Proof. apply qnorm_unit_iff. exact qnorm_squared_identity. Qed.
Lemma qns_parts (q : quat R) :
  qnorm_squared q = qscalar q * qscalar q + vnorm (qvector q) * vnorm (qvector q).
Proof. rewrite vnorm_sq. rewrite (quat_parts q) at 1. rewrite qnorm_squared_parts; reflexivity. Qed.
Lemma qmul_zero (p q : quat R) : qmul p q = qzero <-> p = qzero \/ q = qzero.
Proof.
  rewrite <- !qnorm_zero, qnorm_mul. split.
  - intros H. apply Rmult_integral. exact H.
  - intros [-> | ->]; ring.
Qed.
Lemma qadd_norm p q : qnorm (qadd p q) <= qnorm p + qnorm q.
Proof.
  pose proof (vnorm_triangle 4 p q) as H. unfold qnorm.
  replace (qadd p q : vec R 4) with (vadd (p : vec R 4) q); [exact H|].
  destruct4 p; destruct4 q. reflexivity.
Qed.

(** ** Inverse and division *)
Lemma qtry_inverse_none q eps : 0 <= eps -> (qtry_inverse_eps q eps = None <-> qnorm q <= eps).
Proof.
  intros He. unfold qtry_inverse_eps. cbv zeta. rewrite <- (qnorm_sq q).
  pose proof (qnorm_nonneg q) as P.
  destruct (Rle_dec (qnorm q * qnorm q) (eps * eps)) as [L|L].
  - split; [intros _|reflexivity]. nra.
  - split; [discriminate|]. intros. exfalso. apply L. nra.
Qed.
Lemma qtry_inverse_val q eps : 0 <= eps -> eps < qnorm q ->
  qtry_inverse_eps q eps = Some (qdiv_s (qconj q) (qnorm_squared q)).
Proof.
  intros He H. destruct (qtry_inverse_eps q eps) eqn:E.
  - revert E. unfold qtry_inverse_eps. cbv zeta. destruct (Rle_dec _ _); congruence.
  - exfalso. apply qtry_inverse_none in E; lra.
Qed.
Lemma qtry_inverse_inv q r eps : 0 <= eps -> qtry_inverse_eps q eps = Some r ->
  eps < qnorm q /\ r = qdiv_s (qconj q) (qnorm_squared q).
Proof.
  intros He H. destruct (Rle_dec (qnorm q) eps) as [L|L].
  - apply qtry_inverse_none in L; [congruence|exact He].
  - rewrite qtry_inverse_val in H by lra. split; [lra|congruence].
Qed.
Lemma qnorm_gt_ns q eps : 0 <= eps -> eps < qnorm q -> qnorm_squared q <> 0.
Proof. intros He H. rewrite <- qnorm_sq. nra. Qed.
Lemma qtry_inverse_some q r eps : 0 <= eps -> qtry_inverse_eps q eps = Some r ->
  qmul q r = qidentity /\ qmul r q = qidentity.
Proof.
  intros He H. apply qtry_inverse_inv in H; [|exact He]. destruct H as [H ->].
  pose proof (qnorm_gt_ns q eps He H). split; [apply qinv_r|apply qinv_l]; assumption.
Qed.
Lemma qinverse_norm q r eps : 0 <= eps -> qtry_inverse_eps q eps = Some r -> qnorm r * qnorm q = 1.
Proof.
  intros He H. rewrite <- qnorm_mul. destruct (qtry_inverse_some _ _ _ He H) as [_ ->]. exact qnorm_identity.
Qed.
Lemma qinverse_unit q eps : 0 <= eps < 1 -> qnorm q = 1 -> qtry_inverse_eps q eps = Some (qconj q).
Proof.
  intros He H. rewrite qtry_inverse_val by lra. apply qnorm_unit_iff in H. rewrite H. f_equal.
  destruct4 q. clear. qrcompute. pairs ltac:(field).
Qed.
Lemma qinverse_mul p q p' q' r eps : 0 <= eps ->
  qtry_inverse_eps p eps = Some p' -> qtry_inverse_eps q eps = Some q' ->
  qtry_inverse_eps (qmul p q) eps = Some r -> r = qmul q' p'.
Proof.
  intros He Hp Hq Hr.
  destruct (qtry_inverse_some _ _ _ He Hp) as [P1 P2].
  destruct (qtry_inverse_some _ _ _ He Hq) as [Q1 Q2].
  destruct (qtry_inverse_some _ _ _ He Hr) as [R1 R2].
  apply (qinverse_unique (qmul p q)); [exact R1|].
  rewrite <- qmul_assoc, (qmul_assoc p' p q), P2, qmul_1_l. exact Q2.
Qed.
Lemma qinverse_mul_0 p q : p <> qzero -> q <> qzero ->
  exists p' q', qtry_inverse_eps p 0 = Some p' /\ qtry_inverse_eps q 0 = Some q' /\
    qtry_inverse_eps (qmul p q) 0 = Some (qmul q' p').
Proof.
  intros Hp Hq. apply qnorm_pos in Hp. apply qnorm_pos in Hq.
  assert (Hpq : 0 < qnorm (qmul p q)) by (rewrite qnorm_mul; nra).
  pose proof (qtry_inverse_val p 0 ltac:(lra) Hp) as Ep.
  pose proof (qtry_inverse_val q 0 ltac:(lra) Hq) as Eq.
  pose proof (qtry_inverse_val (qmul p q) 0 ltac:(lra) Hpq) as Er.
  eexists. eexists. split; [exact Ep|]. split; [exact Eq|].
  rewrite Er. f_equal. apply (qinverse_mul p q _ _ _ 0 ltac:(lra) Ep Eq Er).
Qed.
Lemma qdiv_left_spec q l eps : 0 <= eps ->
  (qdiv_left_eps q l eps = None <-> qnorm l <= eps) /\
  (forall x, qdiv_left_eps q l eps = Some x -> qmul l x = q /\ forall y, qmul l y = q -> y = x).
Proof.
  intros He. unfold qdiv_left_eps. split.
  - rewrite <- qtry_inverse_none by exact He. destruct (qtry_inverse_eps l eps); split; congruence.
  - intros x. destruct (qtry_inverse_eps l eps) as [i|] eqn:E; [|discriminate].
    intros X. injection X as <-. destruct (qtry_inverse_some _ _ _ He E) as [A B]. split.
    + rewrite qmul_assoc, A, qmul_1_l. reflexivity.
    + intros y <-. rewrite qmul_assoc, B, qmul_1_l. reflexivity.
Qed.
Lemma qdiv_right_spec q r eps : 0 <= eps ->
  (qdiv_right_eps q r eps = None <-> qnorm r <= eps) /\
  (forall x, qdiv_right_eps q r eps = Some x -> qmul x r = q /\ forall y, qmul y r = q -> y = x).
Proof.
  intros He. unfold qdiv_right_eps. split.
  - rewrite <- qtry_inverse_none by exact He. destruct (qtry_inverse_eps r eps); split; congruence.
  - intros x. destruct (qtry_inverse_eps r eps) as [i|] eqn:E; [|discriminate].
    intros X. injection X as <-. destruct (qtry_inverse_some _ _ _ He E) as [A B]. split.
    + rewrite <- qmul_assoc, B, qmul_1_r. reflexivity.
    + intros y <-. rewrite <- qmul_assoc, A, qmul_1_r. reflexivity.
Qed.

(** is_invertible *)
Lemma qis_invertible_iff q eps : 0 <= eps -> (qis_invertible_eps q eps = true <-> eps <= qnorm q).
Proof.
  intros He. unfold qis_invertible_eps. rewrite <- (qnorm_sq q). pose proof (qnorm_nonneg q).
  destruct (Rge_dec _ _) as [G|G]; split; intros; try reflexivity; try discriminate; try nra.
Qed.
Lemma qis_invertible_try q eps : 0 <= eps -> qnorm q <> eps ->
  (qis_invertible_eps q eps = true <-> exists r, qtry_inverse_eps q eps = Some r).
Proof.
  intros He N. rewrite qis_invertible_iff by exact He. split.
  - intros L. eexists. apply qtry_inverse_val; lra.
  - intros [r E]. apply qtry_inverse_inv in E; lra.
Qed.
Lemma qis_invertible_boundary q eps : 0 <= eps -> qnorm q = eps ->
  qis_invertible_eps q eps = true /\ qtry_inverse_eps q eps = None.
Proof.
  intros He N. split; [apply qis_invertible_iff; lra|apply qtry_inverse_none; lra].
Qed.
Lemma qboundary_exists eps : 0 <= eps -> qnorm (qfrom_real eps) = eps.
Proof. intros. rewrite qnorm_real. apply Rabs_right. lra. Qed.

(** ** Rotations *)
Lemma qto_matrix_rot (q : quat R) : q <> qzero -> is_rotation (qto_matrix q).
Proof.
  intros H. apply qns_nz in H. apply is_rotation3. split; [apply qto_matrix_orth; exact H|].
  exact (qto_matrix_det q H).
Qed.

Lemma half_angle t : let h := t * (1 / (1 + 1)) in
  cos t = cos h * cos h - sin h * sin h /\ sin t = 2 * sin h * cos h /\
  cos h * cos h = 1 - sin h * sin h.
Proof.
  intros h. replace t with (h + h) by (unfold h; field).
  rewrite cos_plus, sin_plus. pose proof (sin2_cos2R h). split; [ring|]. split; [ring|lra].
Qed.
Lemma qfrom_axis_angle_unit (a : vec R 3) t : vnorm a = 1 -> qnorm (qfrom_axis_angle a t) = 1.
Proof.
  intros H. apply qnorm_unit_iff. apply unit_norm_iff in H. unfold qfrom_axis_angle. cbv zeta.
  rewrite qnorm_squared_parts, vdot_mul_l, vdot_mul_r, H. rnum.
  destruct (half_angle t) as (_ & _ & E). cbv zeta in E. rewrite E. ring.
Qed.
Lemma qto_matrix_unit s x y z : s * s + x * x + y * y + z * z = 1 ->
  qto_matrix (qnew s x y z : quat R) =
  m3new (1 - 2 * y * y - 2 * z * z) (2 * x * y + 2 * s * z) (2 * x * z - 2 * s * y)
        (2 * x * y - 2 * s * z) (1 - 2 * x * x - 2 * z * z) (2 * y * z + 2 * s * x)
        (2 * x * z + 2 * s * y) (2 * y * z - 2 * s * x) (1 - 2 * x * x - 2 * y * y).
Proof.
  intros H. assert (E : qnorm_squared (qnew s x y z : quat R) = 1) by (qrcompute; lra).
  unfold qto_matrix. cbv zeta. rewrite E. qrcompute. pairs ltac:(field).
Qed.
Lemma qfrom_axis_angle_matrix (a : vec R 3) t : vnorm a = 1 ->
  qto_matrix (qfrom_axis_angle a t) = m3from_axis_angle a t.
Proof.
  intros H. pose proof (qfrom_axis_angle_unit a t H) as U. apply qnorm_unit_iff in U.
  apply unit_norm_iff in H. revert U H.
  unfold qfrom_axis_angle, m3from_axis_angle. cbv zeta. destruct (half_angle t) as (C & S & E). cbv zeta in *.
  rewrite C, S. revert E. clear C S. generalize (cos (t * (1 / (1 + 1)))) (sin (t * (1 / (1 + 1)))). intros c s E.
  destruct3 a. intros U H. unfold qfrom_parts. rewrite qto_matrix_unit.
  - revert H. clear U. rcompute. intros H. assert (X : x * x = 1 - y * y - z * z) by lra.
    pairs ltac:(ring [E X]).
  - revert U. qrcompute. lra.
Qed.
Lemma qfrom_axis_angle_add (a : vec R 3) s t : vnorm a = 1 ->
  qmul (qfrom_axis_angle a s) (qfrom_axis_angle a t) = qfrom_axis_angle a (s + t).
Proof.
  intros H. apply unit_norm_iff in H. unfold qfrom_axis_angle. cbv zeta.
  replace ((s + t) * (1 / (1 + 1))) with (s * (1 / (1 + 1)) + t * (1 / (1 + 1))) by field.
  rewrite cos_plus, sin_plus. revert H. destruct3 a. qrcompute. intros H.
  assert (X : x * x = 1 - y * y - z * z) by lra. pairs ltac:(ring [X]).
Qed.
Lemma qfrom_axis_angle_0 (a : vec R 3) : qfrom_axis_angle a 0 = qidentity.
Proof.
  unfold qfrom_axis_angle. cbv zeta. replace (0 * (1 / (1 + 1))) with 0 by ring.
  rewrite cos_0, sin_0. destruct3 a. qrcompute. pairs ltac:(ring).
Qed.
Lemma qfrom_axis_angle_neg (a : vec R 3) t : qfrom_axis_angle a (- t) = qconj (qfrom_axis_angle a t).
Proof.
  unfold qfrom_axis_angle. cbv zeta. replace (- t * (1 / (1 + 1))) with (- (t * (1 / (1 + 1)))) by ring.
  rewrite cos_neg, sin_neg. destruct3 a. qrcompute. pairs ltac:(ring).
Qed.
Lemma qfrom_axis_angle_2pi (a : vec R 3) t : qfrom_axis_angle a (t + 2 * PI) = qneg (qfrom_axis_angle a t).
Proof.
  unfold qfrom_axis_angle. cbv zeta.
  replace ((t + 2 * PI) * (1 / (1 + 1))) with (t * (1 / (1 + 1)) + PI) by field.
  rewrite neg_cos, neg_sin. destruct3 a. qrcompute. pairs ltac:(ring).
Qed.

(** ** from_matrix *)
Section Outer.
Variables a b c d e f g h k : R.
Let m := m3new a b c d e f g h k.
Definition quat_outer (s x y z : R) : Prop :=
  4 * (s * s) = 1 + a + e + k /\ 4 * (s * x) = f - h /\ 4 * (s * y) = g - c /\ 4 * (s * z) = b - d /\
  4 * (x * x) = 1 + a - e - k /\ 4 * (y * y) = 1 - a + e - k /\ 4 * (z * z) = 1 - a - e + k /\
  4 * (x * y) = b + d /\ 4 * (x * z) = c + g /\ 4 * (y * z) = f + h.
Lemma outer_matrix s x y z : quat_outer s x y z ->
  s * s + x * x + y * y + z * z = 1 /\ qto_matrix (qnew s x y z : quat R) = m.
Proof.
  intros (H1 & H2 & H3 & H4 & H5 & H6 & H7 & H8 & H9 & H10).
  assert (U : s * s + x * x + y * y + z * z = 1) by lra. split; [exact U|].
  rewrite qto_matrix_unit by exact U. unfold m, m3new, v3. pairs ltac:(lra).
Qed.
End Outer.

Lemma outer_of_unit s x y z : s * s + x * x + y * y + z * z = 1 ->
  forall a b c d e f g h k, qto_matrix (qnew s x y z : quat R) = m3new a b c d e f g h k ->
  quat_outer a b c d e f g h k s x y z.
Proof.
  intros U a b c d e f g h k. rewrite qto_matrix_unit by exact U. unfold m3new, v3.
  intros E. injection E as <- <- <- <- <- <- <- <- <-. unfold quat_outer. conjs; lra.
Qed.

Lemma half_sqrt P : 0 < P -> let r := sqrt P in r <> 0 /\
  4 * ((1 / (1 + 1) * r) * (1 / (1 + 1) * r)) = P /\
  (forall x, 4 * ((1 / (1 + 1) * r) * (x * (1 / (1 + 1) / r))) = x) /\
  (forall x y z, x * y = P * z -> 4 * ((x * (1 / (1 + 1) / r)) * (y * (1 / (1 + 1) / r))) = z).
Proof.
  intros HP r. pose proof (sqrt_lt_R0 P HP) as Hr. fold r in Hr.
  assert (S : r * r = P) by (apply sqrt_sq_pos; lra).
  split; [lra|]. split; [rewrite <- S; field|]. split; [intros; field; lra|].
  intros x y z E. transitivity (x * y / (r * r)); [field; lra|]. rewrite E, S. field. lra.
Qed.

Lemma qfrom_matrix_outer a b c d e f g h k :
  is_rotation (m3new a b c d e f g h k) ->
  exists s x y z, qfrom_matrix (m3new a b c d e f g h k) = qnew s x y z /\
    quat_outer a b c d e f g h k s x y z.
Proof.
  intros H. apply rotation_eqs in H.
  destruct H as ((C1 & C2 & C3 & C4 & C5 & C6) & (R1 & R2 & R3 & R4 & R5 & R6) &
                 (K1 & K2 & K3 & K4 & K5 & K6 & K7 & K8 & K9)).
  assert (T : mtrace (m3new a b c d e f g h k) = a + e + k) by (mcompute; rnum; ring).
  unfold qfrom_matrix. cbv zeta. rewrite T. cbv [mget mget_d vget m3new v3 fst snd].
  unfold quat_outer.
  destruct (Rge_dec (a + e + k) 0) as [G|G].
  - destruct (half_sqrt (1 + (a + e + k)) ltac:(lra)) as (N & A & B & D).
    do 4 eexists. split; [reflexivity|]. conjs;
      first [rewrite A; lra | rewrite B; lra | apply D; lra].
  - assert (L : a + e + k < 0) by lra. clear G.
    destruct (Rgt_dec a e) as [G1|G1]; [destruct (Rgt_dec a k) as [G2|G2]|].
    + destruct (half_sqrt (a - e - k + 1) ltac:(lra)) as (N & A & B & D).
      do 4 eexists. split; [reflexivity|]. conjs;
      first [rewrite A; lra | rewrite B; lra | rewrite Rmult_comm with (r1 := _ * (1 / (1 + 1) / _)); rewrite B; lra | apply D; lra].
    + destruct (Rgt_dec e k) as [G3|G3].
      * destruct (half_sqrt (e - a - k + 1) ltac:(lra)) as (N & A & B & D).
        do 4 eexists. split; [reflexivity|]. conjs;
      first [rewrite A; lra | rewrite B; lra | rewrite Rmult_comm with (r1 := _ * (1 / (1 + 1) / _)); rewrite B; lra | apply D; lra].
      * destruct (half_sqrt (k - a - e + 1) ltac:(lra)) as (N & A & B & D).
        do 4 eexists. split; [reflexivity|]. conjs;
      first [rewrite A; lra | rewrite B; lra | rewrite Rmult_comm with (r1 := _ * (1 / (1 + 1) / _)); rewrite B; lra | apply D; lra].
    + destruct (Rgt_dec e k) as [G3|G3].
      * destruct (half_sqrt (e - a - k + 1) ltac:(lra)) as (N & A & B & D).
        do 4 eexists. split; [reflexivity|]. conjs;
      first [rewrite A; lra | rewrite B; lra | rewrite Rmult_comm with (r1 := _ * (1 / (1 + 1) / _)); rewrite B; lra | apply D; lra].
      * destruct (half_sqrt (k - a - e + 1) ltac:(lra)) as (N & A & B & D).
        do 4 eexists. split; [reflexivity|]. conjs;
      first [rewrite A; lra | rewrite B; lra | rewrite Rmult_comm with (r1 := _ * (1 / (1 + 1) / _)); rewrite B; lra | apply D; lra].
Qed.

Lemma qfrom_matrix_spec (m : mat R 3 3) : is_rotation m ->
  qnorm (qfrom_matrix m) = 1 /\ qto_matrix (qfrom_matrix m) = m.
Proof.
  mdestruct3 m. intros H.
  destruct (qfrom_matrix_outer _ _ _ _ _ _ _ _ _ H) as (s & x & y & z & E & O).
  apply outer_matrix in O. destruct O as [U M]. change (m00, (m01, (m02, tt)), _) with
    (m3new m00 m01 m02 m10 m11 m12 m20 m21 m22). rewrite E. split; [|exact M].
  apply qnorm_unit_iff. qrcompute. lra.
Qed.

Lemma outer_sign s x y z s' x' y' z' a b c d e f g h k :
  quat_outer a b c d e f g h k s x y z -> quat_outer a b c d e f g h k s' x' y' z' ->
  (qnew s' x' y' z' : quat R) = qnew s x y z \/ (qnew s' x' y' z' : quat R) = qneg (qnew s x y z).
Proof.
  intros O O'. destruct (outer_matrix _ _ _ _ _ _ _ _ _ _ _ _ _ O) as [U _].
  destruct (outer_matrix _ _ _ _ _ _ _ _ _ _ _ _ _ O') as [U' _].
  destruct O as (H1 & H2 & H3 & H4 & H5 & H6 & H7 & H8 & H9 & H10).
  destruct O' as (G1 & G2 & G3 & G4 & G5 & G6 & G7 & G8 & G9 & G10).
  set (p := s * s' + x * x' + y * y' + z * z').
  assert (P : p * p = 1).
  { transitivity ((s*s)*(s'*s') + (x*x)*(x'*x') + (y*y)*(y'*y') + (z*z)*(z'*z')
      + 2*((s*x)*(s'*x') + (s*y)*(s'*y') + (s*z)*(s'*z') + (x*y)*(x'*y') + (x*z)*(x'*z') + (y*z)*(y'*z')));
      [unfold p; ring|].
    replace (s'*s') with (s*s) by lra. replace (x'*x') with (x*x) by lra. replace (y'*y') with (y*y) by lra.
    replace (z'*z') with (z*z) by lra. replace (s'*x') with (s*x) by lra. replace (s'*y') with (s*y) by lra.
    replace (s'*z') with (s*z) by lra. replace (x'*y') with (x*y) by lra. replace (x'*z') with (x*z) by lra.
    replace (y'*z') with (y*z) by lra.
    transitivity ((s*s+x*x+y*y+z*z)*(s*s+x*x+y*y+z*z)); [ring|]. rewrite U. ring. }
  assert (D : p = 1 \/ p = -1) by (assert ((p - 1) * (p + 1) = 0) by lra; destruct (Rmult_integral _ _ H); lra).
  unfold p in *. clear p P H1 H2 H3 H4 H5 H6 H7 H8 H9 H10 G1 G2 G3 G4 G5 G6 G7 G8 G9 G10.
  destruct D as [D|D]; [left|right].
  - assert (Z : (s'-s)*(s'-s) + ((x'-x)*(x'-x) + ((y'-y)*(y'-y) + (z'-z)*(z'-z))) = 0) by lra.
    assert (F1 := Rle_0_sqr (s'-s)). assert (F2 := Rle_0_sqr (x'-x)).
    assert (F3 := Rle_0_sqr (y'-y)). assert (F4 := Rle_0_sqr (z'-z)). unfold Rsqr in *.
    qrcompute. pairs ltac:(apply Rminus_diag_uniq, sq_zero; lra).
  - assert (Z : (s'+s)*(s'+s) + ((x'+x)*(x'+x) + ((y'+y)*(y'+y) + (z'+z)*(z'+z))) = 0) by lra.
    assert (F1 := Rle_0_sqr (s'+s)). assert (F2 := Rle_0_sqr (x'+x)).
    assert (F3 := Rle_0_sqr (y'+y)). assert (F4 := Rle_0_sqr (z'+z)). unfold Rsqr in *.
    assert (Q : forall u v, (u + v) * (u + v) = 0 -> u = - v) by (intros u v E; apply sq_zero in E; lra).
    qrcompute. pairs ltac:(apply Q; lra).
Qed.
Lemma qdouble_cover (p q : quat R) : qnorm p = 1 -> qnorm q = 1 ->
  (qto_matrix p = qto_matrix q <-> p = q \/ p = qneg q).
Proof.
  intros Hp Hq. split.
  - apply qnorm_unit_iff in Hp. apply qnorm_unit_iff in Hq. revert Hp Hq.
    rewrite (quat_eta p), (quat_eta q).
    generalize (vat (p : vec R 4) 0) (vat (p : vec R 4) 1) (vat (p : vec R 4) 2) (vat (p : vec R 4) 3)
      (vat (q : vec R 4) 0) (vat (q : vec R 4) 1) (vat (q : vec R 4) 2) (vat (q : vec R 4) 3).
    intros s x y z s' x' y' z' U U' E.
    assert (V : s * s + x * x + y * y + z * z = 1) by (revert U; qrcompute; lra).
    assert (V' : s' * s' + x' * x' + y' * y' + z' * z' = 1) by (revert U'; qrcompute; lra).
    pose proof (qto_matrix_unit _ _ _ _ V) as M. pose proof M as M'. rewrite E in M'.
    apply outer_of_unit in M; [|exact V]. apply outer_of_unit in M'; [|exact V'].
    exact (outer_sign _ _ _ _ _ _ _ _ _ _ _ _ _ _ _ _ _ M' M).
  - intros [-> | ->]; [reflexivity|apply qto_matrix_neg].
Qed.
Lemma qfrom_to_matrix (q : quat R) : qnorm q = 1 ->
  qfrom_matrix (qto_matrix q) = q \/ qfrom_matrix (qto_matrix q) = qneg q.
Proof.
  intros H. assert (N : q <> qzero) by (intros E; apply qnorm_zero in E; lra).
  destruct (qfrom_matrix_spec _ (qto_matrix_rot q N)) as [U M].
  apply qdouble_cover; assumption.
Qed.

(** ** rotation_between *)
Definition qbetween_spec (res : option (quat R)) (u1 u2 : vec R 3) (eps : R) : Prop :=
  (eps < vnorm (vcross u1 u2) ->
     exists q a t, res = Some q /\ qnorm q = 1 /\ mmulv (qto_matrix q) u1 = u2 /\
       q = qfrom_axis_angle a t /\ vnorm a = 1 /\ vdot a u1 = 0 /\ vdot a u2 = 0 /\
       0 <= t <= PI /\ cos t = vdot u1 u2) /\
  (vnorm (vcross u1 u2) <= eps ->
     (vdot u1 u2 < 0 -> res = None) /\ (0 <= vdot u1 u2 -> res = Some qidentity)).

Lemma cross_dot_unit (u1 u2 : vec R 3) : vnorm u1 = 1 -> vnorm u2 = 1 ->
  vnorm (vcross u1 u2) * vnorm (vcross u1 u2) = 1 - vdot u1 u2 * vdot u1 u2.
Proof.
  intros H1 H2. apply unit_norm_iff in H1. apply unit_norm_iff in H2.
  rewrite vnorm_sq, vcross_lagrange, H1, H2. rnum. ring.
Qed.
Lemma qrotation_between_axis_spec (u1 u2 : vec R 3) eps :
  0 <= eps -> vnorm u1 = 1 -> vnorm u2 = 1 ->
  qbetween_spec (qrotation_between_axis_eps u1 u2 eps) u1 u2 eps.
Proof.
  intros He H1 H2. unfold qbetween_spec, qrotation_between_axis_eps. split.
  - intros Hc. rewrite unit_try_some by assumption.
    assert (Hz : vcross u1 u2 <> vzero 3).
    { intros E. rewrite E, vnormalize_0_norm in Hc. lra. }
    pose proof (cross_dot_unit u1 u2 H1 H2) as L.
    destruct (Rle_dec (vdot u1 u2) (-1)) as [B|B]; [exfalso; nra|].
    destruct (Rge_dec (vdot u1 u2) 1) as [B'|B']; [exfalso; nra|].
    destruct (rot_between_core u1 u2 H1 H2 Hz) as [Hr Hm].
    destruct (cross_axis_orth u1 u2) as [O1 O2].
    pose proof (vnormalize_norm _ _ Hz) as Ha.
    eexists. exists (vnormalize (vcross u1 u2)), (acos (vdot u1 u2)).
    split; [reflexivity|]. split; [apply qfrom_axis_angle_unit; exact Ha|].
    split; [rewrite qfrom_axis_angle_matrix by exact Ha; exact Hm|]. split; [reflexivity|].
    split; [exact Ha|]. split; [exact O1|]. split; [exact O2|].
    split; [apply acos_bound|apply cos_acos, unit_dot_bound; auto].
  - intros Hc. rewrite unit_try_none by assumption.
    destruct (Rlt_dec (vdot u1 u2) 0); split; intros; try reflexivity; lra.
Qed.
Lemma qrotation_between_spec (v1 v2 : vec R 3) eps :
  0 <= eps -> v1 <> vzero 3 -> v2 <> vzero 3 ->
  qbetween_spec (qrotation_between_eps v1 v2 eps) (vnormalize v1) (vnormalize v2) eps.
Proof.
  intros He H1 H2. unfold qrotation_between_eps.
  rewrite !unit_try_some by (try lra; apply vnorm_pos; assumption).
  apply qrotation_between_axis_spec; try assumption; apply vnormalize_norm; assumption.
Qed.
(** With threshold zero the result exists exactly when the directions are not opposite. *)
Lemma qrotation_between_axis_exact (u1 u2 : vec R 3) : vnorm u1 = 1 -> vnorm u2 = 1 ->
  (u2 <> vneg u1 -> exists q, qrotation_between_axis_eps u1 u2 0 = Some q /\ qnorm q = 1 /\
                              mmulv (qto_matrix q) u1 = u2) /\
  (u2 = vneg u1 -> qrotation_between_axis_eps u1 u2 0 = None).
Proof.
  intros H1 H2. destruct (qrotation_between_axis_spec u1 u2 0 ltac:(lra) H1 H2) as [A B].
  pose proof (vnorm_nonneg _ (vcross u1 u2)) as P. split.
  - intros N. destruct (Rlt_dec 0 (vnorm (vcross u1 u2))) as [L|L].
    + destruct (A L) as (q & a & t & E & U & M & _). exists q. auto.
    + assert (Z : vnorm (vcross u1 u2) = 0) by lra. destruct (B ltac:(lra)) as [_ B2].
      apply vnorm_zero in Z. destruct (cross_zero_unit u1 u2 H1 H2 Z) as [E S].
      assert (D : vdot u1 u2 = 1 \/ vdot u1 u2 = -1).
      { assert (T : (vdot u1 u2 - 1) * (vdot u1 u2 + 1) = 0) by lra. destruct (Rmult_integral _ _ T); lra. }
      destruct D as [D|D].
      * exists qidentity. split; [apply B2; lra|]. split; [apply qnorm_identity|].
        rewrite qto_matrix_identity, mmulv_1. rewrite E, D. destruct3 u1. rcompute. pairs ltac:(ring).
      * exfalso. apply N. rewrite E, D. destruct3 u1. rcompute. pairs ltac:(ring).
  - intros E.
    assert (D : vdot u1 u2 = -1).
    { rewrite E, vdot_neg_r. apply unit_norm_iff in H1. rewrite H1. reflexivity. }
    pose proof (cross_dot_unit u1 u2 H1 H2) as L. rewrite D in L.
    apply B; nra.
Qed.

(** Viewing quaternions *)
Lemma qlook_spec (d up : vec R 3) : vcross up d <> vzero 3 ->
  qnorm (qlook_to_lh d up) = 1 /\ qto_matrix (qlook_to_lh d up) = m3look_to_lh d up /\
  qnorm (qlook_to_rh d up) = 1 /\ qto_matrix (qlook_to_rh d up) = m3look_to_rh d up /\
  qto_matrix (qlook_to_lh_inv d up) = mtranspose (m3look_to_lh d up) /\
  qto_matrix (qlook_to_rh_inv d up) = mtranspose (m3look_to_rh d up).
Proof.
  intros H. destruct (m3look_to_lh_spec d up H) as (L & _). destruct (m3look_to_rh_spec d up H) as (R0 & _).
  pose proof (is_rotation_transpose _ L) as L'. pose proof (is_rotation_transpose _ R0) as R'.
  destruct (qfrom_matrix_spec _ L) as [A B]. destruct (qfrom_matrix_spec _ R0) as [C D].
  destruct (qfrom_matrix_spec _ L') as [A' B']. destruct (qfrom_matrix_spec _ R') as [C' D'].
  exact (conj A (conj B (conj C (conj D (conj B' D'))))).
Qed.

(** Euler angles of a quaternion *)
Lemma euler_from_quat_matrix (q : quat R) : q <> qzero ->
  euler_to_matrix (euler_from_quat q) = qto_matrix q.
Proof. intros H. apply euler_from_matrix_inv, qto_matrix_rot, H. Qed.
