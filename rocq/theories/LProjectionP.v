(** Projections: the proofs of the property theorems of PProjection.v. *)

From Coq Require Import List Arith Lia Bool Reals Lra Psatz Ring Field ZArith Qcanon.
From Verif Require Import Base Scalar Spec SpecProjection SpecTransform LBase MVector LVector LVectorR MMatrix
  LMatrix LMatrixDet MPoint MReal LReal MMisc LMisc LQuat MTransform LTransform MFloat MProjection LProjection.
Import ListNotations.
Local Open Scope R_scope.

Lemma c77_perspective_frustum :
  forall (left right bottom top near far : R),
    0 < right + left -> 0 < top + bottom -> 0 < near < far ->
    (forall p : vec R 3,
       (vat p 2 <> 0 <-> exists q, projects_to (m4from_perspective left right bottom top near far) p q)) /\
    (forall p q q' : vec R 3,
       projects_to (m4from_perspective left right bottom top near far) p q ->
       projects_to (m4from_perspective left right bottom top near far) p q' -> q = q') /\
    (forall p q : vec R 3,
       projects_to (m4from_perspective left right bottom top near far) p q ->
       (in_frustum left right bottom top near far p <-> in_cube q)).
Proof.
  intros l r b t n f Hlr Hbt Hnf. change (m4from_perspective l r b t n f) with (persp_new l r b t n f).
  pose proof (persp_projects_iff l r b t n f (rlr l r Hlr) (rbt b t Hbt) (rfn n f Hnf)) as I.
  split; [|split].
  - intros p. split.
    + intros Hz. eexists. apply I. split; [exact Hz|reflexivity].
    + intros [q H]. apply I in H. exact (proj1 H).
  - intros p q q' H H'. apply I in H, H'. destruct H as [_ ->], H' as [_ ->]. reflexivity.
  - intros p q H. exact (persp_cube_iff l r b t n f Hlr Hbt Hnf p q H).
Qed.

Lemma c77_perspective_bijection :
  forall (left right bottom top near far : R),
    0 < right + left -> 0 < top + bottom -> 0 < near < far ->
    forall q : vec R 3, in_cube q ->
    exists p : vec R 3, in_frustum left right bottom top near far p /\
      projects_to (m4from_perspective left right bottom top near far) p q /\
      forall p', projects_to (m4from_perspective left right bottom top near far) p' q -> p' = p.
Proof.
  intros l r b t n f Hlr Hbt Hnf q C. exact (persp_bijection l r b t n f Hlr Hbt Hnf q C).
Qed.

Lemma c77_perspective_corners :
  forall (left right bottom top near far : R),
    0 < right + left -> 0 < top + bottom -> 0 < near < far ->
    forall bx by_ bz : bool,
    projects_to (m4from_perspective left right bottom top near far)
      (frustum_corner left right bottom top near far bx by_ bz) (cube_corner bx by_ bz).
Proof.
  intros l r b t n f Hlr Hbt Hnf bx by_ bz. exact (persp_corner l r b t n f Hlr Hbt Hnf bx by_ bz).
Qed.

Lemma c77_perspective_depth :
  forall (left right bottom top near far : R),
    0 < right + left -> 0 < top + bottom -> 0 < near < far ->
    (forall p1 p2 q1 q2 : vec R 3,
       projects_to (m4from_perspective left right bottom top near far) p1 q1 ->
       projects_to (m4from_perspective left right bottom top near far) p2 q2 ->
       0 < - vat p1 2 < - vat p2 2 -> vat q1 2 < vat q2 2) /\
    (forall p q : vec R 3, projects_to (m4from_perspective left right bottom top near far) p q ->
       (- vat p 2 = near <-> vat q 2 = -1) /\ (- vat p 2 = far <-> vat q 2 = 1)).
Proof.
  intros l r b t n f Hlr Hbt Hnf. split.
  - intros p1 p2 q1 q2 H1 H2 D. exact (persp_depth l r b t n f Hlr Hbt Hnf p1 p2 q1 q2 H1 H2 D).
  - intros p q H. exact (persp_planes l r b t n f Hlr Hbt Hnf p q H).
Qed.

Lemma c77_example :
  in_frustum 1 3 1 1 1 5 (v3 4 1 (-2)) /\ ~ in_frustum 1 3 1 1 1 5 (v3 4 3 (-2)) /\
  projects_to (m4from_perspective 1 3 1 1 1 5) (v3 4 1 (-2)) (v3 (1/2) (1/2) (1/4)).
Proof.
  split; [|split].
  - unfold in_frustum. vcompute. lra.
  - unfold in_frustum. vcompute. lra.
  - exists 2. split; [rnum; lra|]. cbv [m4from_perspective]. mcompute. rnum. pairs ltac:(field).
Qed.

Lemma c78_perspective_params_partial :
  forall (K : Type) (NK : Num K) (ND : NumDiv K), FieldLaws K ->
  forall left right bottom top near far : K,
    (n1 + n1)%N_ <> n0 :> K -> (right + left)%N_ <> n0 -> (top + bottom)%N_ <> n0 ->
    near <> n0 -> far <> n0 -> (far - near)%N_ <> n0 ->
    let m := persp_new left right bottom top near far in
    persp_near m = near /\ persp_far m = far /\
    persp_aspect_ratio m = ((right + left) / (top + bottom))%N_ /\
    (left <> n0 -> persp_right m = right /\ persp_left m = left) /\
    (bottom <> n0 -> persp_top m = top /\ persp_bottom m = bottom).
Proof.
  intros K NK ND FK l r b t n f H2 Hlr Hbt Hn Hf Hfn m. unfold m. repeat split.
  - apply persp_near_spec; assumption.
  - apply persp_far_spec; assumption.
  - apply persp_aspect_spec; assumption.
  - apply persp_right_spec; assumption.
  - apply persp_left_spec; assumption.
  - apply persp_top_spec; assumption.
  - apply persp_bottom_spec; assumption.
Qed.

Lemma c78_perspective_params_refuted :
  exists left right bottom top near far : f64,
    (left, right, bottom, top, near, far) =
      (f64_of_Z 0, f64_of_Z 1, f64_of_Z 1, f64_of_Z 1, f64_of_Z 1, f64_of_Z 2) /\
    f64_is_nan (persp_right (persp_new left right bottom top near far)) = true /\
    f64_is_nan (persp_top (persp_new bottom top left right near far)) = true.
Proof.
  exists (f64_of_Z 0), (f64_of_Z 1), (f64_of_Z 1), (f64_of_Z 1), (f64_of_Z 1), (f64_of_Z 2).
  split; [reflexivity|]. split; vm_compute; reflexivity.
Qed.

Lemma c78_example :
  let m := persp_new 1 3 1 1 1 5 in
  persp_near m = 1 /\ persp_far m = 5 /\ persp_aspect_ratio m = 2 /\ persp_right m = 3 /\
  persp_left m = 1 /\ persp_top m = 1 /\ persp_bottom m = 1.
Proof.
  cbv zeta. pose proof two_neq_R as H2.
  edestruct (c78_perspective_params_partial R _ _ _ 1 3 1 1 1 5 H2) as (A & B & C & D & E);
    [rnum; lra..|].
  rewrite A, B, C. destruct D as [-> ->]; [rnum; lra|]. destruct E as [-> ->]; [rnum; lra|].
  rnum. repeat split. field.
Qed.

Lemma c79_project_point_partial :
  forall (K : Type) (NK : Num K) (ND : NumDiv K), FieldLaws K ->
  forall left right bottom top near far : K,
    (right + left)%N_ <> n0 -> (top + bottom)%N_ <> n0 -> (far - near)%N_ <> n0 ->
    let m := persp_new left right bottom top near far in
    forall p : vec K 3, vat p 2 <> n0 ->
    exists q : vec K 3, projects_to m p q /\
      persp_project_vector m p = q /\
      tf_apply_point (persp_to_transform m) p = Some q /\
      persp_project_point m p =
        v3 (vat q 0) (vat q 1 + (top - bottom) / (top + bottom))%N_ (vat q 2) /\
      (persp_project_point m p = q <-> top = bottom).
Proof.
  intros K NK ND FK l r b t n f Hlr Hbt Hfn m p Hz.
  pose proof (persp_projects_iff l r b t n f Hlr Hbt Hfn) as I.
  pose proof (persp_project_vector_spec l r b t n f Hlr Hbt Hfn p Hz) as V.
  pose proof (persp_project_point_spec l r b t n f Hlr Hbt Hfn p Hz) as P.
  pose proof (proj2 (proj1 (I p (persp_project_vector m p)) V)) as Ev.
  exists (persp_project_vector m p). split; [exact V|]. split; [reflexivity|].
  fold m in P. rewrite <- Ev in P. split; [|split; [exact P|]].
  - unfold tf_apply_point, persp_to_transform, tf_from_matrix.
    destruct V as (w & Hw & E). fold m in E.
    assert (W : vat (mmulv m (pto_homogeneous p)) 3 = w).
    { unfold pto_homogeneous. rewrite E. rewrite vat_vmul_s by lia.
      rewrite vat_vextend by lia. pose proof (@ring_laws K NK field_ring) as RT.
      exact (Rmul_1_l RT w). }
    apply pfrom_homogeneous_unique; [rewrite W; exact Hw|].
    rewrite W. intros i Hi. unfold pto_homogeneous. rewrite E, vat_vmul_s, vat_vextend by lia.
    destruct (Nat.eqb_spec i 3); [lia|reflexivity].
  - rewrite P. split.
    + intros E. destruct (persp_project_vector m p) as [q0 [q1 [q2 []]]]; exact (project_point_eq q0 q1 q2 t b Hbt E).
    + intros ->. exact (project_point_same _ _ Hbt).
Qed.

Lemma c79_project_point_refuted :
  exists (left right bottom top near far : R) (p q : vec R 3),
    0 < left /\ 0 < right /\ 0 < bottom /\ 0 < top /\ 0 < near < far /\
    in_frustum left right bottom top near far p /\
    projects_to (persp_new left right bottom top near far) p q /\
    persp_project_point (persp_new left right bottom top near far) p <> q.
Proof.
  exists 1, 1, 1, 3, 1, 5, (v3 0 0 (-2)), (v3 0 (-1/2) (1/4)).
  do 5 (split; [lra|]). split; [unfold in_frustum; vcompute; lra|].
  split.
  - exists 2. split; [rnum; lra|]. cbv [persp_new m4from_perspective]. mcompute. rnum. pairs ltac:(field).
  - cbv [persp_project_point persp_new m4from_perspective]. mcompute. rnum. intros E.
    injection E as E0 E1 E2. lra.
Qed.

Lemma c79_example :
  persp_project_point (persp_new 1 3 1 1 1 5) (v3 4 1 (-2)) = v3 (1/2) (1/2) (1/4).
Proof.
  cbv [persp_project_point persp_new m4from_perspective]. mcompute. rnum. pairs ltac:(field).
Qed.

Lemma c80_unproject_partial :
  forall (K : Type) (NK : Num K) (ND : NumDiv K), FieldLaws K ->
  forall left right bottom top near far : K,
    (n1 + n1)%N_ <> n0 :> K -> (right + left)%N_ <> n0 -> (top + bottom)%N_ <> n0 ->
    near <> n0 -> far <> n0 -> (far - near)%N_ <> n0 -> left <> n0 -> bottom <> n0 ->
    let m := persp_new left right bottom top near far in
    (forall p q : vec K 3, projects_to m p q ->
       persp_unproject_point m q = p /\ persp_unproject_vector m q = p) /\
    (forall q : vec K 3, (far + near - (far - near) * vat q 2)%N_ <> n0 ->
       projects_to m (persp_unproject_point m q) q) /\
    (forall p : vec K 3, vat p 2 <> n0 ->
       persp_unproject_vector m (persp_project_vector m p) = p /\
       (top = bottom -> persp_unproject_point m (persp_project_point m p) = p)).
Proof.
  intros K NK ND FK l r b t n f H2 Hlr Hbt Hn Hf Hfn Hl Hb m.
  assert (U : forall p q : vec K 3, projects_to m p q -> persp_unproject_point m q = p).
  { intros p q H. apply (persp_projects_iff l r b t n f Hlr Hbt Hfn) in H. destruct H as [Hz ->].
    exact (persp_unproject_image l r b t n f H2 Hlr Hbt Hn Hf Hfn Hl Hb p Hz). }
  split; [|split].
  - intros p q H. split; exact (U p q H).
  - intros q Hd. exact (persp_project_unproject l r b t n f H2 Hlr Hbt Hn Hf Hfn Hl Hb q Hd).
  - intros p Hz. split.
    + apply U. exact (persp_project_vector_spec l r b t n f Hlr Hbt Hfn p Hz).
    + intros E. destruct (c79_project_point_partial K NK ND FK l r b t n f Hlr Hbt Hfn p Hz)
        as (q & H & _ & _ & _ & I). apply I in E. fold m in E. rewrite E. exact (U p q H).
Qed.

Lemma c80_unproject_refuted :
  exists (left right bottom top near far : R) (p : vec R 3),
    0 < left /\ 0 < right /\ 0 < bottom /\ 0 < top /\ 0 < near < far /\
    in_frustum left right bottom top near far p /\
    persp_unproject_point (persp_new left right bottom top near far)
      (persp_project_point (persp_new left right bottom top near far) p) <> p.
Proof.
  exists 1, 1, 1, 3, 1, 5, (v3 0 0 (-2)).
  do 5 (split; [lra|]). split; [unfold in_frustum; vcompute; lra|].
  rewrite (persp_unproject_of 1 1 1 3 1 5 two_neq_R); try (rnum; lra).
  - unfold persp_preimage. cbv [persp_project_point persp_new m4from_perspective ninv]. mcompute. rnum.
    intros E. injection E as E0 E1 E2.
    match type of E1 with ?a = _ => assert (A : a = 2) by field end. lra.
  - cbv [persp_project_point persp_new m4from_perspective]. mcompute. rnum. lra.
Qed.

Lemma c80_example :
  persp_unproject_point (persp_new 1 3 1 1 1 5) (persp_project_point (persp_new 1 3 1 1 1 5) (v3 4 1 (-2)))
  = v3 4 1 (-2).
Proof.
  apply (c80_unproject_partial R _ _ _ 1 3 1 1 1 5 two_neq_R); try (rnum; lra).
  vcompute. rnum. lra.
Qed.

Lemma c81_vfov_partial :
  forall left right bottom top near far : R,
    0 < top + bottom -> 0 < near ->
    let angle := atan (top / near) + atan (bottom / near) in
    0 < angle < PI /\
    (angle <= PI / 2 -> persp_vfov (persp_new left right bottom top near far) = Some angle) /\
    (PI / 2 < angle -> persp_vfov (persp_new left right bottom top near far) = Some (angle - PI)).
Proof.
  intros l r b t n f Hbt Hn. cbv zeta. rewrite (persp_vfov_spec l r b t n f Hbt Hn). cbv zeta.
  split.
  - apply fov_angle_range. assert (0 < (t + b) / n) by (apply Rdiv_lt_0_compat; lra).
    replace (t / n + b / n) with ((t + b) / n) by (field; lra). assumption.
  - split; intros H; destruct (Rle_dec _ _) as [L|L]; try reflexivity; lra.
Qed.

Lemma c81_from_vfov_partial :
  forall vfov aspect_ratio near far : R, 0 < vfov < PI -> 0 < aspect_ratio -> 0 < near ->
    (vfov <= PI / 2 -> persp_vfov (persp_from_vfov vfov aspect_ratio near far) = Some vfov) /\
    (PI / 2 < vfov -> persp_vfov (persp_from_vfov vfov aspect_ratio near far) = Some (vfov - PI)).
Proof.
  intros v a n f Hv Ha Hn. rewrite (persp_from_vfov_eq v a n f Hv Ha Hn).
  pose proof (tan_half_pos v Hv) as T.
  assert (T0 : 0 < n * tan (v / 2) + n * tan (v / 2)) by nra.
  destruct (c81_vfov_partial (a * n * tan (v / 2)) (a * n * tan (v / 2)) (n * tan (v / 2)) (n * tan (v / 2))
    n f T0 Hn) as (_ & A & B).
  assert (E : atan (n * tan (v / 2) / n) + atan (n * tan (v / 2) / n) = v).
  { replace (n * tan (v / 2) / n) with (tan (v / 2)) by (field; lra).
    rewrite atan_tan by lra. lra. }
  rewrite E in A, B. split; assumption.
Qed.

Lemma c81_from_vfov_refuted :
  exists vfov aspect_ratio near far : R, 0 < vfov < PI /\ 0 < aspect_ratio /\ 0 < near < far /\
    persp_vfov (persp_from_vfov vfov aspect_ratio near far) <> Some vfov.
Proof.
  pose proof PI_RGT_0. exists (3 * (PI / 4)), 1, 1, 2.
  do 3 (split; [lra|]).
  destruct (c81_from_vfov_partial (3 * (PI / 4)) 1 1 2) as [_ E]; try lra.
  rewrite E by lra. intros X. injection X as X. lra.
Qed.

Lemma c81_example :
  persp_vfov (persp_from_vfov (PI / 2) (4/3) 1 100) = Some (PI / 2) /\
  persp_vfov (persp_from_vfov (2 * (PI / 3)) (4/3) 1 100) = Some (- (PI / 3)).
Proof.
  pose proof PI_RGT_0. split.
  - apply c81_from_vfov_partial; lra.
  - replace (- (PI / 3)) with (2 * (PI / 3) - PI) by lra. apply c81_from_vfov_partial; lra.
Qed.

Lemma c82_perspective_vfov :
  forall vfov aspect_ratio near far : R, 0 < vfov < PI -> 0 < aspect_ratio -> 0 < near ->
    let half_height := near * tan (vfov / 2) in
    let half_width := aspect_ratio * near * tan (vfov / 2) in
    m4from_perspective_vfov vfov aspect_ratio near far =
      m4from_perspective half_width half_width half_height half_height near far /\
    persp_aspect_ratio (persp_from_vfov vfov aspect_ratio near far) = aspect_ratio.
Proof.
  intros v a n f Hv Ha Hn. cbv zeta. split; [exact (persp_from_vfov_eq v a n f Hv Ha Hn)|].
  rewrite (persp_from_vfov_eq v a n f Hv Ha Hn). pose proof (tan_half_pos v Hv) as T.
  remember (tan (v / 2)) as k.
  assert (0 < n * k) by nra. assert (0 < a * n * k) by nra.
  rewrite persp_aspect_spec; try exact two_neq_R; rnum; try lra. field. repeat split; lra.
Qed.

Lemma c82_example :
  m4from_perspective_vfov (PI / 2) 2 1 5 = m4from_perspective 2 2 1 1 1 5.
Proof.
  pose proof PI_RGT_0.
  destruct (c82_perspective_vfov (PI / 2) 2 1 5) as [E _]; try lra.
  rewrite E. replace (PI / 2 / 2) with (PI / 4) by lra. rewrite tan_PI4. f_equal; ring.
Qed.

Lemma c83_orthographic :
  (forall (K : Type) (NK : Num K) (ND : NumDiv K), FieldLaws K ->
   forall left right bottom top near far : K,
   represents (m4from_orthographic left right bottom top near far)
     (ortho_project_point (ortho_new left right bottom top near far))
     (ortho_project_vector (ortho_new left right bottom top near far))) /\
  (forall left right bottom top near far : R,
     0 < right + left -> 0 < top + bottom -> 0 < far - near ->
     let m := ortho_new left right bottom top near far in
     (forall p : vec R 3, in_box left right bottom top near far p <-> in_cube (ortho_project_point m p)) /\
     (forall q : vec R 3, exists p : vec R 3, ortho_project_point m p = q /\
        forall p', ortho_project_point m p' = q -> p' = p) /\
     (forall bx by_ bz : bool,
        ortho_project_point m (box_corner left right bottom top near far bx by_ bz) = cube_corner bx by_ bz) /\
     (forall p1 p2 : vec R 3, - vat p1 2 < - vat p2 2 ->
        vat (ortho_project_point m p1) 2 < vat (ortho_project_point m p2) 2)).
Proof.
  split.
  - intros K NK ND FK l r b t n f. exact (ortho_represents l r b t n f).
  - intros l r b t n f Hlr Hbt Hfn m.
    assert (P : forall p, ortho_project_point m p =
      v3 ((2 * vat p 0 - (r - l)) / (r + l)) ((2 * vat p 1 - (t - b)) / (t + b))
         ((2 * (- vat p 2) - (f + n)) / (f - n))).
    { intros p. unfold m. rewrite ortho_project_point_image by (rnum; lra).
      destruct3 p. unfold ortho_image, ninv. vcompute. rnum. pairs ltac:(field; lra). }
    split; [|split; [|split]].
    + intros p. rewrite P. unfold in_box, in_cube. vcompute. rewrite !rdiv_cube by lra. lra.
    + intros q. exists (v3 (((r + l) * vat q 0 + (r - l)) / 2) (((t + b) * vat q 1 + (t - b)) / 2)
        (- (((f - n) * vat q 2 + (f + n)) / 2))).
      split.
      * rewrite P. destruct3 q. vcompute. pairs ltac:(field; lra).
      * intros p' <-. rewrite P. destruct3 p'. vcompute. pairs ltac:(field; lra).
    + intros bx by_ bz. rewrite P. unfold box_corner, cube_corner, side, unit_side, plane. vcompute.
      destruct bx, by_, bz; pairs ltac:(field; lra).
    + intros p1 p2 D. rewrite !P. unfold v3. vcompute. apply Rmult_lt_compat_r; [|lra].
      apply Rinv_0_lt_compat. lra.
Qed.

Lemma c83_example :
  ortho_project_point (ortho_new 1 3 1 1 0 4) (v3 2 (1/2) (-1)) = v3 (1/2) (1/2) (-1/2).
Proof.
  cbv [ortho_project_point ortho_new m4from_orthographic]. mcompute. rnum. pairs ltac:(field).
Qed.

Lemma c84_orthographic_params_partial :
  forall (K : Type) (NK : Num K) (ND : NumDiv K), FieldLaws K ->
  forall left right bottom top near far : K,
    (n1 + n1)%N_ <> n0 :> K -> (right + left)%N_ <> n0 -> (top + bottom)%N_ <> n0 ->
    (far - near)%N_ <> n0 ->
    let m := ortho_new left right bottom top near far in
    (near <> n0 -> ortho_near m = near /\ ortho_far m = far) /\
    (left <> n0 -> ortho_right m = right /\ ortho_left m = left) /\
    (bottom <> n0 -> ortho_top m = top /\ ortho_bottom m = bottom).
Proof.
  intros K NK ND FK l r b t n f H2 Hlr Hbt Hfn m. unfold m. repeat split.
  - apply ortho_near_spec; assumption.
  - apply ortho_far_spec; assumption.
  - apply ortho_right_spec; assumption.
  - apply ortho_left_spec; assumption.
  - apply ortho_top_spec; assumption.
  - apply ortho_bottom_spec; assumption.
Qed.

Lemma c84_orthographic_params_refuted :
  exists left right bottom top near far : f64,
    (left, right, bottom, top, near, far) =
      (f64_of_Z 0, f64_of_Z 1, f64_of_Z 0, f64_of_Z 1, f64_of_Z 0, f64_of_Z 1) /\
    f64_is_nan (ortho_far (ortho_new left right bottom top near far)) = true /\
    f64_is_nan (ortho_right (ortho_new left right bottom top near far)) = true /\
    f64_is_nan (ortho_top (ortho_new left right bottom top near far)) = true.
Proof.
  exists (f64_of_Z 0), (f64_of_Z 1), (f64_of_Z 0), (f64_of_Z 1), (f64_of_Z 0), (f64_of_Z 1).
  split; [reflexivity|]. repeat split; vm_compute; reflexivity.
Qed.

Lemma c84_example :
  let m := ortho_new 1 3 1 2 1 5 in
  ortho_near m = 1 /\ ortho_far m = 5 /\ ortho_right m = 3 /\ ortho_left m = 1 /\
  ortho_top m = 2 /\ ortho_bottom m = 1.
Proof.
  cbv zeta. edestruct (c84_orthographic_params_partial R _ _ _ 1 3 1 2 1 5 two_neq_R) as (A & B & C);
    [rnum; lra..|].
  destruct A as [-> ->]; [rnum; lra|]. destruct B as [-> ->]; [rnum; lra|].
  destruct C as [-> ->]; [rnum; lra|]. repeat split.
Qed.

Lemma c85_orthographic_unproject_partial :
  forall (K : Type) (NK : Num K) (ND : NumDiv K), FieldLaws K ->
  forall left right bottom top near far : K,
    (n1 + n1)%N_ <> n0 :> K -> (right + left)%N_ <> n0 -> (top + bottom)%N_ <> n0 ->
    (far - near)%N_ <> n0 -> near <> n0 -> left <> n0 -> bottom <> n0 ->
    let m := ortho_new left right bottom top near far in
    forall p : vec K 3,
      ortho_unproject_point m (ortho_project_point m p) = p /\
      ortho_project_point m (ortho_unproject_point m p) = p /\
      ortho_unproject_vector m (ortho_project_vector m p) = p /\
      ortho_project_vector m (ortho_unproject_vector m p) = p.
Proof.
  intros K NK ND FK l r b t n f H2 Hlr Hbt Hfn Hn Hl Hb m p. unfold m.
  destruct (ortho_unproject_image l r b t n f H2 Hlr Hbt Hfn Hl Hb Hn p) as [A B].
  destruct (ortho_unproject_vector_inv l r b t n f H2 Hlr Hbt Hfn Hl Hb Hn p) as [C D].
  rewrite !ortho_project_point_image by assumption. repeat split; assumption.
Qed.

Lemma c85_orthographic_unproject_refuted :
  exists (left right bottom top near far : f64) (p : vec f64 3),
    (left, right, bottom, top, near, far) =
      (f64_of_Z 1, f64_of_Z 1, f64_of_Z 1, f64_of_Z 1, f64_of_Z 0, f64_of_Z 1) /\
    p = v3 (f64_of_Z 0) (f64_of_Z 0) (f64_of_Z (-1)) /\
    let m := ortho_new left right bottom top near far in
    f64_is_nan (vat (ortho_unproject_point m (ortho_project_point m p)) 2) = true.
Proof.
  exists (f64_of_Z 1), (f64_of_Z 1), (f64_of_Z 1), (f64_of_Z 1), (f64_of_Z 0), (f64_of_Z 1),
    (v3 (f64_of_Z 0) (f64_of_Z 0) (f64_of_Z (-1))).
  split; [reflexivity|]. split; [reflexivity|]. vm_compute. reflexivity.
Qed.

Lemma c85_example :
  ortho_unproject_point (ortho_new 1 3 1 2 1 5) (ortho_project_point (ortho_new 1 3 1 2 1 5) (v3 2 1 (-3)))
  = v3 2 1 (-3).
Proof.
  apply (c85_orthographic_unproject_partial R _ _ _ 1 3 1 2 1 5 two_neq_R); rnum; lra.
Qed.
