(** Proofs about points, angles, [Unit], clamp/copysign, Lp norms, approximate comparison and
    swizzles. *)

From Coq Require Import List Arith Lia ZArith Bool Ring Field Reals Lra Psatz String Ascii.
From Verif Require Import Base Scalar Spec LBase MVector LVector LVectorR MPoint MReal LReal MAngle
  MComplex LComplex LComplexR MMisc.
Import ListNotations.
Local Open Scope nat_scope.

(** ** Points *)
Section PointRing.
Context {K : Type} {NK : Num K} {LK : RingLaws K}.
Local Open Scope num_scope.
Add Ring Kring : (@ring_laws K NK LK).

Lemma padd_diff n (p q : point K n) : padd p (pdiff q p) = q.
Proof. unfold padd, pdiff. vext; ring. Qed.
Lemma padd_assoc n (p : point K n) (u v : vec K n) : padd (padd p u) v = padd p (vadd u v).
Proof. unfold padd. vext; ring. Qed.
Lemma padd_0 n (p : point K n) : padd p (vzero n) = p.
Proof. unfold padd. apply vadd_0_r. Qed.
Lemma psub_neg n (p : point K n) (v : vec K n) : psub p v = padd p (vneg v).
Proof. apply vsub_def. Qed.
Lemma pdiff_add n (p : point K n) (v : vec K n) : pdiff (padd p v) p = v.
Proof. unfold padd, pdiff. vext; ring. Qed.
Lemma pdiff_chain n (p q r : point K n) : vadd (pdiff p q) (pdiff q r) = pdiff p r.
Proof. unfold pdiff. vext; ring. Qed.
Lemma pdiff_zero n (p q : point K n) : pdiff p q = vzero n <-> p = q.
Proof.
  split; intros H.
  - rewrite <- (padd_diff n q p), H. apply padd_0.
  - subst. apply vsub_self.
Qed.
End PointRing.

Lemma pextend_vextend {K} {NK : Num K} n (p : point K n) a : pextend p a = vextend p a.
Proof. reflexivity. Qed.
Lemma pcontract_vcontract {K} {NK : Num K} n (p : point K (S n)) : pcontract p = vcontract p.
Proof. unfold pcontract, vcontract. replace (S n - 1) with n by lia. reflexivity. Qed.

Section PointField.
Context {K : Type} {NK : Num K} {ND : NumDiv K} {FK : FieldLaws K}.
Local Open Scope num_scope.
#[local] Instance rl_of_fieldP : RingLaws K := field_ring.
Add Field KfieldP : (@field_th K NK ND FK).

Lemma pfrom_homogeneous_none n (h : vec K (S n)) : pfrom_homogeneous h = None <-> vat h n = 0.
Proof.
  unfold pfrom_homogeneous. destruct (nis0 (vat h n)) eqn:E; cbn [negb].
  - apply nis0_true in E. tauto.
  - apply nis0_false in E. split; [discriminate|tauto].
Qed.
Lemma pfrom_homogeneous_some n (h : vec K (S n)) :
  vat h n <> 0 -> exists p, pfrom_homogeneous h = Some p /\
    (forall i, (i < n)%nat -> vat p i * vat h n = vat h i).
Proof.
  intros H. unfold pfrom_homogeneous. rewrite nis0_neq by exact H. cbn [negb].
  eexists; split; [reflexivity|]. intros i Hi. unfold vat at 1. unfold porigin.
  rewrite (vget_loop_fill 0 n (fun i => vat h i / vat h n)) by exact Hi.
  apply field_div_mul; auto.
Qed.
Lemma pfrom_homogeneous_unique n (h : vec K (S n)) p :
  vat h n <> 0 -> (forall i, (i < n)%nat -> vat p i * vat h n = vat h i) ->
  pfrom_homogeneous h = Some p.
Proof.
  intros H Hp. destruct (pfrom_homogeneous_some n h H) as (q & -> & Hq). f_equal.
  apply vat_ext. intros i Hi. apply (field_mul_cancel _ _ (vat h n)); auto.
  rewrite Hq, Hp; auto.
Qed.
Lemma pfrom_to_homogeneous n (p : point K n) : pfrom_homogeneous (pto_homogeneous p) = Some p.
Proof.
  unfold pto_homogeneous. apply pfrom_homogeneous_unique.
  - rewrite extend_last. apply field_one_neq_zero.
  - intros i Hi. rewrite extend_last, extend_init by exact Hi. ring.
Qed.
Lemma pfrom_homogeneous_scale n (h : vec K (S n)) (w : K) :
  w <> 0 -> pfrom_homogeneous (vmul_s h w) = pfrom_homogeneous h.
Proof.
  intros Hw. destruct (nis0 (vat h n)) eqn:E.
  - apply nis0_true in E. rewrite (proj2 (pfrom_homogeneous_none n h) E).
    apply pfrom_homogeneous_none. rewrite vat_vmul_s by lia. rewrite E. ring.
  - apply nis0_false in E. destruct (pfrom_homogeneous_some n h E) as (p & -> & Hp).
    apply pfrom_homogeneous_unique.
    + rewrite vat_vmul_s by lia. intros X. destruct (field_integral _ _ X); auto.
    + intros i Hi. rewrite !vat_vmul_s by lia. rewrite <- (Hp i Hi). ring.
Qed.
End PointField.

Local Open Scope R_scope.

(** ** Angles *)
Lemma rtrunc_spec x :
  exists k : Z, rtrunc x = IZR k /\ (0 <= x -> IZR k <= x < IZR k + 1) /\
    (x < 0 -> IZR k - 1 < x <= IZR k).
Proof.
  unfold rtrunc. destruct (Rle_dec 0 x).
  - exists (Int_part x). pose proof (base_Int_part x). split; [reflexivity|]. split; intros; lra.
  - exists (- Int_part (- x))%Z. rewrite opp_IZR. pose proof (base_Int_part (- x)).
    split; [reflexivity|]. split; intros; lra.
Qed.

Section AngleL.
Variable T : R.
Hypothesis HT : 0 < T.

Lemma rrem_spec x :
  exists k : Z, rrem x T = x + IZR k * T /\ (0 <= x -> 0 <= rrem x T < T) /\
    (x < 0 -> - T < rrem x T <= 0).
Proof.
  destruct (rtrunc_spec (x / T)) as (k & E & P & N). exists (- k)%Z. rewrite opp_IZR.
  unfold rrem. rewrite E. split; [ring|].
  assert (X : x = x / T * T) by (field; lra). set (q := x / T) in *. split; intros H.
  - assert (0 <= q) by (apply Rmult_le_reg_r with T; lra). specialize (P H0). rewrite X at 1 2.
    split; nra.
  - assert (q < 0) by (apply Rmult_lt_reg_r with T; lra). specialize (N H0). rewrite X at 1 2.
    split; nra.
Qed.

Lemma angle_normalize_spec a :
  0 <= angle_normalize T a < T /\ exists k : Z, angle_normalize T a = a + IZR k * T.
Proof.
  unfold angle_normalize. destruct (rrem_spec a) as (k & E & P & N).
  destruct (Rle_dec 0 a) as [H|H].
  - specialize (P H). destruct (Rlt_dec (rrem a T) 0); [lra|]. split; [lra|eauto].
  - specialize (N ltac:(lra)). destruct (Rlt_dec (rrem a T) 0).
    + split; [lra|]. exists (k + 1)%Z. rewrite plus_IZR, E. ring.
    + split; [lra|eauto].
Qed.
Lemma congruent_unique lo a b (k : Z) : lo <= a < lo + T -> lo <= b < lo + T -> a = b + IZR k * T -> a = b.
Proof.
  intros Ha Hb E. destruct (Z.eq_dec k 0) as [->|Hk]; [lra|].
  destruct (Z_lt_le_dec k 0).
  - assert (IZR k <= -1) by (apply IZR_le; lia). nra.
  - assert (1 <= IZR k) by (apply IZR_le; lia). nra.
Qed.
Lemma congruent_unique' lo a b (k : Z) : lo < a <= lo + T -> lo < b <= lo + T -> a = b + IZR k * T -> a = b.
Proof.
  intros Ha Hb E. destruct (Z.eq_dec k 0) as [->|Hk]; [lra|].
  destruct (Z_lt_le_dec k 0).
  - assert (IZR k <= -1) by (apply IZR_le; lia). nra.
  - assert (1 <= IZR k) by (apply IZR_le; lia). nra.
Qed.
Lemma angle_normalize_unique a b (k : Z) :
  0 <= b < T -> b = a + IZR k * T -> angle_normalize T a = b.
Proof.
  intros Hb E. destruct (angle_normalize_spec a) as (R & k' & E').
  apply (congruent_unique 0 _ _ (k' - k)%Z); try lra. rewrite minus_IZR, E', E. ring.
Qed.
Lemma angle_normalize_idem a : angle_normalize T (angle_normalize T a) = angle_normalize T a.
Proof.
  destruct (angle_normalize_spec a) as (R & _). apply (angle_normalize_unique _ _ 0%Z); auto. ring.
Qed.
Lemma angle_normalize_id a : 0 <= a < T -> angle_normalize T a = a.
Proof. intros H. apply (angle_normalize_unique _ _ 0%Z); auto. ring. Qed.
Lemma angle_normalize_signed_spec a :
  - (T / 2) < angle_normalize_signed T a <= T / 2 /\
  exists k : Z, angle_normalize_signed T a = a + IZR k * T.
Proof.
  unfold angle_normalize_signed, full_turn_div_2. destruct (angle_normalize_spec a) as (R & k & E).
  destruct (Rgt_dec _ _).
  - split; [lra|]. exists (k - 1)%Z. rewrite minus_IZR, E. ring.
  - split; [lra|eauto].
Qed.
Lemma angle_normalize_signed_unique a b (k : Z) :
  - (T / 2) < b <= T / 2 -> b = a + IZR k * T -> angle_normalize_signed T a = b.
Proof.
  intros Hb E. destruct (angle_normalize_signed_spec a) as (R & k' & E').
  apply (congruent_unique' (- (T / 2)) _ _ (k' - k)%Z); try lra. rewrite minus_IZR, E', E. ring.
Qed.
Lemma angle_normalize_signed_idem a :
  angle_normalize_signed T (angle_normalize_signed T a) = angle_normalize_signed T a.
Proof.
  destruct (angle_normalize_signed_spec a) as (R & _).
  apply (angle_normalize_signed_unique _ _ 0%Z); auto. ring.
Qed.

Lemma angle_opposite_spec a : exists k : Z, angle_opposite T a = a + T / 2 + IZR k * T.
Proof. destruct (angle_normalize_spec (a + T / 2)) as (_ & k & E). exists k. exact E. Qed.
Lemma angle_opposite_range a : 0 <= angle_opposite T a < T.
Proof. apply (angle_normalize_spec (a + T / 2)). Qed.
Lemma angle_opposite_invol a : angle_opposite T (angle_opposite T a) = angle_normalize T a.
Proof.
  destruct (angle_opposite_spec a) as (k & E). destruct (angle_opposite_spec (angle_opposite T a)) as (k2 & E2).
  symmetry. apply (angle_normalize_unique _ _ (k + k2 + 1)%Z).
  - apply angle_opposite_range.
  - rewrite E2, E, !plus_IZR. field.
Qed.
Lemma angle_bisect_spec a b :
  0 <= angle_bisect T a b < T /\ exists k : Z, angle_bisect T a b = (a + b) / 2 + IZR k * T.
Proof.
  unfold angle_bisect. destruct (angle_normalize_spec ((b - a) * (1 / 2) + a)) as (R & k & E).
  split; [exact R|]. exists k. rewrite E. field.
Qed.
Lemma angle_bisect_sym a b : angle_bisect T a b = angle_bisect T b a.
Proof. unfold angle_bisect. f_equal. field. Qed.
End AngleL.

Lemma deg_rad_inv d : rad_to_deg (deg_to_rad d) = d.
Proof. unfold rad_to_deg, deg_to_rad. field. pose proof PI_RGT_0; lra. Qed.
Lemma rad_deg_inv r : deg_to_rad (rad_to_deg r) = r.
Proof. unfold rad_to_deg, deg_to_rad. field. pose proof PI_RGT_0; lra. Qed.
Lemma deg_to_rad_congr a k : deg_to_rad (a + IZR k * deg_full_turn) = deg_to_rad a + IZR k * rad_full_turn.
Proof. unfold deg_to_rad, deg_full_turn, rad_full_turn. field. Qed.
Lemma rad_full_pos : 0 < rad_full_turn.
Proof. unfold rad_full_turn. pose proof PI_RGT_0; lra. Qed.
Lemma deg_full_pos : 0 < deg_full_turn.
Proof. unfold deg_full_turn; lra. Qed.
Lemma normalize_conversion d :
  deg_to_rad (angle_normalize deg_full_turn d) = angle_normalize rad_full_turn (deg_to_rad d).
Proof.
  destruct (angle_normalize_spec _ deg_full_pos d) as (R & k & E).
  symmetry. apply (angle_normalize_unique _ rad_full_pos _ _ k).
  - unfold deg_to_rad, rad_full_turn, deg_full_turn in *. pose proof PI_RGT_0. split; nra.
  - rewrite E. apply deg_to_rad_congr.
Qed.
Lemma normalize_signed_conversion d :
  deg_to_rad (angle_normalize_signed deg_full_turn d) =
  angle_normalize_signed rad_full_turn (deg_to_rad d).
Proof.
  destruct (angle_normalize_signed_spec _ deg_full_pos d) as (R & k & E).
  symmetry. apply (angle_normalize_signed_unique _ rad_full_pos _ _ k).
  - unfold deg_to_rad, rad_full_turn, deg_full_turn in *. pose proof PI_RGT_0. split; nra.
  - rewrite E. apply deg_to_rad_congr.
Qed.
Lemma sin_normalize a :
  sin (angle_normalize rad_full_turn a) = sin a /\ cos (angle_normalize rad_full_turn a) = cos a.
Proof.
  destruct (angle_normalize_spec _ rad_full_pos a) as (_ & k & ->). unfold rad_full_turn.
  replace (a + IZR k * (2 * PI)) with (a + 2 * IZR k * PI) by ring.
  destruct (Z_le_gt_dec 0 k) as [H|H].
  - rewrite <- (Z2Nat.id k) by lia. rewrite <- INR_IZR_INZ. rewrite sin_period, cos_period. auto.
  - set (n := Z.to_nat (- k)). assert (E : IZR k = - INR n).
    { unfold n. rewrite INR_IZR_INZ, Z2Nat.id by lia. rewrite opp_IZR. ring. }
    rewrite E. rewrite <- (sin_period (a + 2 * - INR n * PI) n), <- (cos_period (a + 2 * - INR n * PI) n).
    replace (a + 2 * - INR n * PI + 2 * INR n * PI) with a by ring. auto.
Qed.

(** ** Unit *)
Definition normed_ok {T} (N : normed T) (zero : T) (scale : T -> R -> T) : Prop :=
  (forall x, 0 <= nm_norm N x) /\ (forall x, nm_norm N x * nm_norm N x = nm_norm_squared N x) /\
  (forall x, nm_norm N x = 0 <-> x = zero) /\
  (forall x, x <> zero -> nm_norm N (nm_normalize N x) = 1 /\ scale (nm_normalize N x) (nm_norm N x) = x).

Lemma normed_vec_ok n : normed_ok (normed_vec n) (vzero n) vmul_s.
Proof.
  split; [apply vnorm_nonneg|]. split; [apply vnorm_sq|]. split; [apply vnorm_zero|].
  intros x Hx. cbn. assert (H : vnorm x <> 0) by (rewrite vnorm_zero; auto).
  pose proof (vnorm_nonneg n x). unfold vnormalize. split.
  - rewrite vnorm_mul, Rabs_right.
    + field; auto.
    + apply Rle_ge, Rlt_le. unfold Rdiv. rewrite Rmult_1_l. apply Rinv_0_lt_compat; lra.
  - rewrite vmul_s_assoc. rnum. replace (1 / vnorm x * vnorm x) with 1 by (field; auto).
    apply vmul_s_1R.
Qed.
Lemma normed_complex_ok : normed_ok normed_complex czero cscale.
Proof.
  split; [apply cnorm_nonneg|]. split; [apply cnorm_sq|]. split; [apply cnorm_zero|].
  intros x Hx. exact (proj1 (cnormalize_all x 0) Hx).
Qed.

Lemma unit_from_value_spec {T} (N : normed T) zero scale x :
  normed_ok N zero scale -> x <> zero ->
  nm_norm N (unit_from_value N x) = 1 /\ scale (unit_from_value N x) (nm_norm N x) = x /\
  unit_from_value_with_norm N x = (unit_from_value N x, nm_norm N x).
Proof.
  intros (_ & _ & _ & H) Hx. destruct (H x Hx). unfold unit_from_value, unit_from_value_with_norm.
  cbn. auto.
Qed.
Lemma unit_try_from_value_spec {T} (N : normed T) zero scale x t :
  normed_ok N zero scale -> 0 <= t ->
  (unit_try_from_value N x t = None <-> nm_norm N x <= t) /\
  (unit_try_from_value_with_norm N x t = None <-> nm_norm N x <= t) /\
  (forall u, unit_try_from_value N x t = Some u ->
     nm_norm N u = 1 /\ scale u (nm_norm N x) = x) /\
  (forall u r, unit_try_from_value_with_norm N x t = Some (u, r) ->
     nm_norm N u = 1 /\ scale u (nm_norm N x) = x /\ r = nm_norm N x).
Proof.
  intros (P & S & Z & H) Ht. unfold unit_try_from_value, unit_try_from_value_with_norm.
  pose proof (P x) as Px. pose proof (S x) as Sx. specialize (Z x).
  destruct (Rgt_dec (nm_norm_squared N x) (t * t)) as [G|G].
  - assert (L : t < nm_norm N x) by nra.
    assert (Hx : x <> zero) by (rewrite <- Z; lra).
    assert (E : sqrt (nm_norm_squared N x) = nm_norm N x) by (rewrite <- Sx; apply sqrt_square; auto).
    split; [split; [discriminate|lra]|]. split; [split; [discriminate|lra]|].
    split; [intros u [= <-]; auto|].
    intros u r [= <- <-]. destruct (H x Hx). auto.
  - assert (L : nm_norm N x <= t) by nra.
    split; [tauto|]. split; [tauto|]. split; intros; discriminate.
Qed.

(** ** Clamp and copysign *)
Lemma float_clamp_spec x lo hi : lo <= hi ->
  lo <= float_clamp x lo hi <= hi /\ (lo <= x <= hi -> float_clamp x lo hi = x) /\
  (forall y, lo <= y <= hi -> Rabs (x - float_clamp x lo hi) <= Rabs (x - y)).
Proof.
  intros H. unfold float_clamp. destruct (Rlt_dec x lo); [|destruct (Rgt_dec x hi)].
  - split; [lra|]. split; [lra|]. intros y Hy. rewrite !Rabs_left1; lra.
  - split; [lra|]. split; [lra|]. intros y Hy. rewrite !Rabs_right; lra.
  - split; [lra|]. split; [lra|]. intros y Hy. rewrite Rminus_diag_eq by reflexivity.
    rewrite Rabs_R0. apply Rabs_pos.
Qed.
Lemma float_clamp_idem x lo hi : lo <= hi ->
  float_clamp (float_clamp x lo hi) lo hi = float_clamp x lo hi.
Proof. intros H. destruct (float_clamp_spec x lo hi H) as (R & _). apply float_clamp_spec; auto. Qed.
Lemma float_clamp_mono x y lo hi : lo <= hi -> x <= y -> float_clamp x lo hi <= float_clamp y lo hi.
Proof.
  intros H L. unfold float_clamp.
  destruct (Rlt_dec x lo), (Rlt_dec y lo), (Rgt_dec x hi), (Rgt_dec y hi); lra.
Qed.
Lemma float_clamp_inverted x lo hi : hi < lo ->
  float_clamp x lo hi = lo \/ float_clamp x lo hi = hi.
Proof. intros H. unfold float_clamp. destruct (Rlt_dec x lo), (Rgt_dec x hi); auto; lra. Qed.

Local Open Scope Z_scope.
Lemma int_clamp_none x lo hi : int_clamp x lo hi = None <-> hi < lo.
Proof. unfold int_clamp. destruct (Z.leb_spec lo hi); split; try discriminate; auto; lia. Qed.
Lemma int_clamp_some x lo hi : lo <= hi ->
  exists y, int_clamp x lo hi = Some y /\ lo <= y <= hi /\ (lo <= x <= hi -> y = x) /\
    (forall z, lo <= z <= hi -> Z.abs (x - y) <= Z.abs (x - z)).
Proof.
  intros H. unfold int_clamp. destruct (Z.leb_spec lo hi); [|lia]. eexists; split; [reflexivity|].
  destruct (Z.ltb_spec x lo); [|destruct (Z.ltb_spec hi x)]; repeat split; intros; lia.
Qed.
Lemma checked_spec w x y : checked w x = Some y <-> y = x /\ - 2 ^ (w - 1) <= x < 2 ^ (w - 1).
Proof.
  unfold checked, in_range. destruct (Z.leb_spec (- 2 ^ (w - 1)) x), (Z.ltb_spec x (2 ^ (w - 1)));
  cbn [andb]; split; intros H1; try discriminate; try lia;
  [injection H1; intros; subst; lia | destruct H1; congruence].
Qed.
(** For representable arguments, [copysign] succeeds except on the minimum value, and then has
    the magnitude of the first and the sign of the second argument. *)
Lemma int_copysign_spec w x s : 1 < w -> - 2 ^ (w - 1) <= x < 2 ^ (w - 1) ->
  (int_copysign w x s = None <-> x = - 2 ^ (w - 1)) /\
  (forall y, int_copysign w x s = Some y ->
     Z.abs y = Z.abs x /\ (0 <= s -> 0 <= y) /\ (s < 0 -> y <= 0)).
Proof.
  intros Hw Hx. assert (0 < 2 ^ (w - 1)) by (apply Z.pow_pos_nonneg; lia).
  unfold int_copysign. rewrite Z.geb_leb.
  destruct (checked w (Z.abs x)) as [a|] eqn:E.
  - apply checked_spec in E. destruct E as [-> E].
    assert (E2 : checked w (- Z.abs x) = Some (- Z.abs x)) by (apply checked_spec; lia).
    rewrite E2. destruct (Z.leb_spec 0 s); (split; [split; [discriminate|lia]|]);
    intros y [= <-]; lia.
  - assert (N : x = - 2 ^ (w - 1)).
    { destruct (Z.eq_dec x (- 2 ^ (w - 1))); auto.
      assert (checked w (Z.abs x) = Some (Z.abs x)) by (apply checked_spec; lia). congruence. }
    destruct (Z.leb 0 s); (split; [tauto|]); intros; discriminate.
Qed.
Local Close Scope Z_scope.

(** ** Approximate comparison *)
Lemma rabs_diff_eq_spec x y t : rabs_diff_eq x y t = true <-> Rabs (x - y) <= t.
Proof. unfold rabs_diff_eq. destruct (Rle_dec _ _); split; auto; discriminate. Qed.
Lemma vabs_diff_eq_spec n (u v t : vec R n) :
  vabs_diff_eq u v t = true <-> forall i, (i < n)%nat -> Rabs (vat u i - vat v i) <= vat t i.
Proof.
  unfold vabs_diff_eq. rewrite for_range_andb.
  split; intros H i Hi; specialize (H i Hi); apply rabs_diff_eq_spec; auto.
Qed.
Lemma vabs_diff_all_eq_spec n (u v : vec R n) t :
  vabs_diff_all_eq u v t = true <-> forall i, (i < n)%nat -> Rabs (vat u i - vat v i) <= t.
Proof.
  unfold vabs_diff_all_eq. rewrite for_range_andb.
  split; intros H i Hi; specialize (H i Hi); apply rabs_diff_eq_spec; auto.
Qed.
Lemma vabs_diff_eq_refl n (u t : vec R n) :
  (forall i, (i < n)%nat -> 0 <= vat t i) -> vabs_diff_eq u u t = true.
Proof.
  intros H. apply vabs_diff_eq_spec. intros i Hi. rewrite Rminus_diag_eq, Rabs_R0 by reflexivity.
  auto.
Qed.
Lemma vabs_diff_eq_sym n (u v t : vec R n) : vabs_diff_eq u v t = vabs_diff_eq v u t.
Proof.
  apply eq_true_iff_eq. rewrite !vabs_diff_eq_spec.
  split; intros H i Hi; rewrite Rabs_minus_sym; auto.
Qed.
Lemma vabs_diff_eq_mono n (u v t t' : vec R n) :
  (forall i, (i < n)%nat -> vat t i <= vat t' i) ->
  vabs_diff_eq u v t = true -> vabs_diff_eq u v t' = true.
Proof.
  rewrite !vabs_diff_eq_spec. intros H H1 i Hi. specialize (H i Hi). specialize (H1 i Hi). lra.
Qed.
Lemma vabs_diff_eq_triangle n (u v w t t' : vec R n) :
  vabs_diff_eq u v t = true -> vabs_diff_eq v w t' = true ->
  vabs_diff_eq u w (vadd t t') = true.
Proof.
  rewrite !vabs_diff_eq_spec. intros H H1 i Hi. specialize (H i Hi). specialize (H1 i Hi).
  rewrite vat_vadd by exact Hi. rnum.
  replace (vat u i - vat w i) with ((vat u i - vat v i) + (vat v i - vat w i)) by ring.
  eapply Rle_trans; [apply Rabs_triang|]. lra.
Qed.
Lemma vabs_diff_eq_zero n (u v : vec R n) : vabs_diff_eq u v (vzero n) = true <-> u = v.
Proof.
  rewrite vabs_diff_eq_spec. split.
  - intros H. apply vat_ext. intros i Hi. specialize (H i Hi). rewrite vat_vzeroR in H.
    apply Rminus_diag_uniq. pose proof (Rle_abs (vat u i - vat v i)).
    pose proof (Rle_abs (- (vat u i - vat v i))) as G. rewrite Rabs_Ropp in G. lra.
  - intros -> i Hi. rewrite vat_vzeroR, Rminus_diag_eq, Rabs_R0 by reflexivity. lra.
Qed.
Lemma vabs_diff_all_eq_fill n (u v : vec R n) t :
  vabs_diff_all_eq u v t = vabs_diff_eq u v (vfrom_fill n t).
Proof.
  apply eq_true_iff_eq. rewrite vabs_diff_eq_spec, vabs_diff_all_eq_spec.
  split; intros H i Hi; specialize (H i Hi); rewrite vat_fill in *; auto.
Qed.

(** ** Swizzles *)
Definition letter_index (c : ascii) : option nat :=
  if Ascii.eqb c "x"%char then Some 0%nat else if Ascii.eqb c "y"%char then Some 1%nat
  else if Ascii.eqb c "z"%char then Some 2%nat else if Ascii.eqb c "w"%char then Some 3%nat else None.
Definition spelled {A} (d : A) (name : string) {n} (v : vec A n) : list (option A) :=
  map (fun c => match letter_index c with
                | Some i => if (i <? n)%nat then Some (vget d v i) else None
                | None => None
                end) (list_ascii_of_string name).

(** All words of length [k] over the first [n] letters. *)
Fixpoint words (n k : nat) : list string :=
  match k with
  | O => [EmptyString]
  | S k' => flat_map (fun c => map (String c) (words n k'))
              (firstn n ["x"; "y"; "z"; "w"]%char)
  end.

Definition swz_ok (s : swizzle) : bool :=
  ((List.length (swz_idx s) =? swz_out s) && (String.length (swz_name s) =? swz_out s) &&
   forallb (fun i => i <? swz_in s) (swz_idx s) &&
   if list_eq_dec (fun a b : option nat => ltac:(decide equality; apply Nat.eq_dec))
        (map letter_index (list_ascii_of_string (swz_name s))) (map Some (swz_idx s))
   then true else false)%nat.

Lemma swz_ok_spec {A} (d : A) s : swz_ok s = true ->
  List.length (swz_idx s) = swz_out s /\
  forall v : vec A (swz_in s), map Some (swizzle_run d s v) = spelled d (swz_name s) v.
Proof.
  unfold swz_ok. rewrite !andb_true_iff. intros [[[H1 _] H2] H3].
  apply Nat.eqb_eq in H1. split; [exact H1|]. intros v. unfold swizzle_run, spelled.
  destruct (list_eq_dec _ _ _) as [E|]; [|discriminate]. clear H3.
  rewrite forallb_forall in H2. rewrite map_map.
  revert E H2. generalize (list_ascii_of_string (swz_name s)) as l. clear H1.
  induction (swz_idx s) as [|i idx IH]; intros [|c l] E H2; try discriminate; [reflexivity|].
  cbn [map] in E |- *. injection E as E1 E2. rewrite E1.
  assert (L : (i <? swz_in s)%nat = true) by (apply H2; left; reflexivity). rewrite L.
  f_equal. apply IH; auto. intros x Hx; apply H2; right; auto.
Qed.

Lemma vector_swizzles_ok : forallb swz_ok vector_swizzles = true.
Proof. vm_compute. reflexivity. Qed.
Lemma point_swizzles_ok : forallb swz_ok point_swizzles = true.
Proof. vm_compute. reflexivity. Qed.

Definition has_swizzle (tbl : list swizzle) (n : nat) (w : string) : bool :=
  existsb (fun s => (swz_in s =? n)%nat && String.eqb (swz_name s) w) tbl.
Lemma has_swizzle_spec tbl n w : has_swizzle tbl n w = true ->
  exists s, In s tbl /\ swz_in s = n /\ swz_name s = w.
Proof.
  unfold has_swizzle. rewrite existsb_exists. intros (s & Hs & E). rewrite andb_true_iff in E.
  destruct E as [E1 E2]. apply Nat.eqb_eq in E1. apply String.eqb_eq in E2. eauto.
Qed.
Lemma vector_swizzles_complete n k w :
  (1 <= n <= 4 -> 1 <= k <= n -> In w (words n k) ->
   exists s, In s vector_swizzles /\ swz_in s = n /\ swz_name s = w)%nat.
Proof.
  intros Hn Hk Hw. apply has_swizzle_spec.
  assert (G : (forallb (fun n => forallb (fun k => (n <? k) ||
     forallb (has_swizzle vector_swizzles n) (words n k)) (seq 1 4)) (seq 1 4) = true)%nat)
    by (vm_compute; reflexivity).
  rewrite forallb_forall in G. specialize (G n ltac:(apply in_seq; lia)).
  rewrite forallb_forall in G. specialize (G k ltac:(apply in_seq; lia)).
  apply orb_true_iff in G. destruct G as [G|G]; [apply Nat.ltb_lt in G; lia|].
  rewrite forallb_forall in G. auto.
Qed.
Lemma point_swizzles_complete n k w :
  (1 <= n <= 3 -> 1 <= k <= n -> In w (words n k) ->
   exists s, In s point_swizzles /\ swz_in s = n /\ swz_name s = w)%nat.
Proof.
  intros Hn Hk Hw. apply has_swizzle_spec.
  assert (G : (forallb (fun n => forallb (fun k => (n <? k) ||
     forallb (has_swizzle point_swizzles n) (words n k)) (seq 1 3)) (seq 1 3) = true)%nat)
    by (vm_compute; reflexivity).
  rewrite forallb_forall in G. specialize (G n ltac:(apply in_seq; lia)).
  rewrite forallb_forall in G. specialize (G k ltac:(apply in_seq; lia)).
  apply orb_true_iff in G. destruct G as [G|G]; [apply Nat.ltb_lt in G; lia|].
  rewrite forallb_forall in G. auto.
Qed.
Lemma swizzles_spell {A} (d : A) (s : swizzle) :
  In s vector_swizzles \/ In s point_swizzles ->
  List.length (swz_idx s) = swz_out s /\
  forall v : vec A (swz_in s), map Some (swizzle_run d s v) = spelled d (swz_name s) v.
Proof.
  intros [H|H]; apply swz_ok_spec.
  - pose proof vector_swizzles_ok as G. rewrite forallb_forall in G. auto.
  - pose proof point_swizzles_ok as G. rewrite forallb_forall in G. auto.
Qed.

(** ** Statements assembled for the property files *)
From Verif Require Import MMatrix LMatrix.

Lemma unit_vec_all n (x : vec R n) t :
  (x <> vzero n -> vnorm (unit_from_value (normed_vec n) x) = 1 /\
     vmul_s (unit_from_value (normed_vec n) x) (vnorm x) = x /\
     unit_from_value_with_norm (normed_vec n) x = (unit_from_value (normed_vec n) x, vnorm x)) /\
  (0 <= t ->
   (unit_try_from_value (normed_vec n) x t = None <-> vnorm x <= t) /\
   (unit_try_from_value_with_norm (normed_vec n) x t = None <-> vnorm x <= t) /\
   (forall u, unit_try_from_value (normed_vec n) x t = Some u ->
      vnorm u = 1 /\ vmul_s u (vnorm x) = x) /\
   (forall u r, unit_try_from_value_with_norm (normed_vec n) x t = Some (u, r) ->
      vnorm u = 1 /\ vmul_s u (vnorm x) = x /\ r = vnorm x)).
Proof.
  split; intros H.
  - exact (unit_from_value_spec _ _ _ x (normed_vec_ok n) H).
  - exact (unit_try_from_value_spec _ _ _ x t (normed_vec_ok n) H).
Qed.
Lemma unit_complex_all (x : complex R) t :
  (x <> mkC 0 0 -> cnorm (unit_from_value normed_complex x) = 1 /\
     cscale (unit_from_value normed_complex x) (cnorm x) = x /\
     unit_from_value_with_norm normed_complex x = (unit_from_value normed_complex x, cnorm x)) /\
  (0 <= t ->
   (unit_try_from_value normed_complex x t = None <-> cnorm x <= t) /\
   (unit_try_from_value_with_norm normed_complex x t = None <-> cnorm x <= t) /\
   (forall u, unit_try_from_value normed_complex x t = Some u ->
      cnorm u = 1 /\ cscale u (cnorm x) = x) /\
   (forall u r, unit_try_from_value_with_norm normed_complex x t = Some (u, r) ->
      cnorm u = 1 /\ cscale u (cnorm x) = x /\ r = cnorm x)).
Proof.
  split; intros H.
  - exact (unit_from_value_spec _ _ _ x normed_complex_ok H).
  - exact (unit_try_from_value_spec _ _ _ x t normed_complex_ok H).
Qed.

Section MatrixApprox.
Variables r c : nat.
Implicit Types a b m t : mat R r c.
Lemma mabs_diff_spec a b t :
  mcmp_all rabs_diff_eq 0 0 a b t = true <->
  forall j i, (j < c)%nat -> (i < r)%nat -> Rabs (mget a j i - mget b j i) <= mget t j i.
Proof.
  rewrite mcmp_all_spec. split; intros H j i Hj Hi; specialize (H j i Hj Hi);
  apply rabs_diff_eq_spec; exact H.
Qed.
Lemma mabs_diff_refl a t :
  (forall j i, (j < c)%nat -> (i < r)%nat -> 0 <= mget t j i) -> mcmp_all rabs_diff_eq 0 0 a a t = true.
Proof.
  intros H. apply mabs_diff_spec. intros. rewrite Rminus_diag_eq, Rabs_R0 by reflexivity. auto.
Qed.
Lemma mabs_diff_sym a b t : mcmp_all rabs_diff_eq 0 0 a b t = mcmp_all rabs_diff_eq 0 0 b a t.
Proof.
  apply eq_true_iff_eq. rewrite !mabs_diff_spec.
  split; intros H j i Hj Hi; rewrite Rabs_minus_sym; auto.
Qed.
Lemma mabs_diff_mono a b t t' :
  (forall j i, (j < c)%nat -> (i < r)%nat -> mget t j i <= mget t' j i) ->
  mcmp_all rabs_diff_eq 0 0 a b t = true -> mcmp_all rabs_diff_eq 0 0 a b t' = true.
Proof.
  rewrite !mabs_diff_spec. intros H H1 j i Hj Hi. specialize (H j i Hj Hi).
  specialize (H1 j i Hj Hi). lra.
Qed.
End MatrixApprox.

Lemma normalize_450 : angle_normalize 360 450 = 90 /\ angle_normalize 360 (-90) = 270 /\
  angle_normalize_signed 360 270 = -90 /\ angle_opposite 360 270 = 90 /\
  angle_bisect 360 30 90 = 60.
Proof.
  repeat split.
  - apply (angle_normalize_unique 360 ltac:(lra) _ _ (-1)%Z); lra.
  - apply (angle_normalize_unique 360 ltac:(lra) _ _ 1%Z); lra.
  - apply (angle_normalize_signed_unique 360 ltac:(lra) _ _ (-1)%Z); lra.
  - apply (angle_normalize_unique 360 ltac:(lra) _ _ (-1)%Z); unfold full_turn_div_2; lra.
  - apply (angle_normalize_unique 360 ltac:(lra) _ _ 0%Z); lra.
Qed.
Lemma normalize_unique_in_range T a : 0 < T ->
  forall b (k : Z), 0 <= b < T -> b = a + IZR k * T -> b = angle_normalize T a.
Proof. intros HT b k Hb E. symmetry. exact (angle_normalize_unique T HT a b k Hb E). Qed.
Lemma normalize_signed_unique_in_range T a : 0 < T ->
  forall b (k : Z), - (T / 2) < b <= T / 2 -> b = a + IZR k * T -> b = angle_normalize_signed T a.
Proof. intros HT b k Hb E. symmetry. exact (angle_normalize_signed_unique T HT a b k Hb E). Qed.
Lemma conversion_basic d e r s c :
    rad_to_deg (deg_to_rad d) = d /\ deg_to_rad (rad_to_deg r) = r /\
    deg_to_rad (d + e) = deg_to_rad d + deg_to_rad e /\
    rad_to_deg (r + s) = rad_to_deg r + rad_to_deg s /\
    deg_to_rad (c * d) = c * deg_to_rad d /\ rad_to_deg (c * r) = c * rad_to_deg r /\
    deg_to_rad 180 = PI /\ rad_to_deg PI = 180 /\ deg_to_rad deg_full_turn = rad_full_turn.
Proof.
  pose proof PI_RGT_0. conjs; try apply deg_rad_inv; try apply rad_deg_inv;
  unfold deg_to_rad, rad_to_deg, deg_full_turn, rad_full_turn; field; lra.
Qed.
Lemma conversion_trig d r y x :
    deg_sin d = rad_sin (deg_to_rad d) /\ deg_cos d = rad_cos (deg_to_rad d) /\
    deg_tan d = rad_tan (deg_to_rad d) /\
    deg_sin (rad_to_deg r) = rad_sin r /\ deg_cos (rad_to_deg r) = rad_cos r /\
    deg_tan (rad_to_deg r) = rad_tan r /\
    deg_to_rad (deg_asin x) = rad_asin x /\ deg_to_rad (deg_acos x) = rad_acos x /\
    deg_to_rad (deg_atan x) = rad_atan x /\ deg_to_rad (deg_atan2 y x) = rad_atan2 y x /\
    deg_sin 90 = 1 /\ deg_cos 180 = -1 /\ deg_tan 45 = 1.
Proof.
  assert (E : forall d, d * (PI / 180) = d / 180 * PI) by (intros; field).
  unfold deg_sin, deg_cos, deg_tan, deg_asin, deg_acos, deg_atan, deg_atan2.
  rewrite !rad_deg_inv. conjs; try reflexivity; unfold deg_to_rad, rad_sin, rad_cos, rad_tan;
  rewrite E.
  - replace (90 / 180 * PI) with (PI / 2) by field. apply sin_PI2.
  - replace (180 / 180 * PI) with PI by field. apply cos_PI.
  - replace (45 / 180 * PI) with (PI / 4) by field. apply tan_PI4.
Qed.
Lemma turn_fractions T :
  2 * full_turn_div_2 T = T /\ 4 * full_turn_div_4 T = T /\ 6 * full_turn_div_6 T = T /\
  8 * full_turn_div_8 T = T.
Proof. unfold full_turn_div_2, full_turn_div_4, full_turn_div_6, full_turn_div_8. conjs; field. Qed.
Lemma normalize_trig a :
  rad_sin (angle_normalize rad_full_turn a) = rad_sin a /\
  rad_cos (angle_normalize rad_full_turn a) = rad_cos a /\
  deg_sin (angle_normalize deg_full_turn a) = deg_sin a /\
  deg_cos (angle_normalize deg_full_turn a) = deg_cos a.
Proof.
  unfold deg_sin, deg_cos. rewrite normalize_conversion. unfold rad_sin, rad_cos.
  destruct (sin_normalize a), (sin_normalize (deg_to_rad a)). auto.
Qed.
Lemma rad_pythagoras r :
  rad_sin r * rad_sin r + rad_cos r * rad_cos r = 1 /\
  (rad_sin r <> 0 -> rad_csc r * rad_sin r = 1) /\
  (rad_cos r <> 0 -> rad_sec r * rad_cos r = 1 /\ rad_tan r * rad_cos r = rad_sin r) /\
  (rad_sin r <> 0 -> rad_cos r <> 0 -> rad_cot r * rad_sin r = rad_cos r).
Proof.
  unfold rad_csc, rad_sec, rad_cot, rad_tan, rad_sin, rad_cos, tan. split; [|conjs; intros].
  - pose proof (sin2_cos2 r) as H. unfold Rsqr in H. exact H.
  - field; auto.
  - split; field; auto.
  - field. split; auto.
Qed.
Lemma angle_opposite_invol_range T : 0 < T ->
  forall a, 0 <= a < T -> angle_opposite T (angle_opposite T a) = a.
Proof.
  intros HT a Ha. rewrite angle_opposite_invol by exact HT. apply angle_normalize_id; auto.
Qed.
Lemma pdist_diff n (p q : point R n) : pdist p q = vnorm (pdiff p q).
Proof. reflexivity. Qed.
Lemma pdist_add n (p : point R n) (v : vec R n) : pdist (padd p v) p = vnorm v.
Proof. rewrite pdist_diff, pdiff_add. reflexivity. Qed.
Lemma point_homogeneous_example :
  pfrom_homogeneous (v4 2 4 6 2)%R <> None /\ vget 0%R (v4 2 4 6 2)%R 3 <> 0%R.
Proof.
  assert (H : vget 0%R (v4 2 4 6 2)%R 3 <> 0%R) by (cbn; lra).
  split; [|exact H]. intros E. apply H. exact (proj1 (pfrom_homogeneous_none 3 _) E).
Qed.
Lemma unit_example :
  exists u, unit_try_from_value (normed_vec 2) (v2 3 4) 1 = Some u /\ vnorm (v2 3 4) = 5.
Proof.
  destruct (unit_try_from_value (normed_vec 2) (v2 3 4) 1) as [u|] eqn:E.
  - exists u. split; [reflexivity|exact vnorm_34].
  - exfalso. apply (proj1 (proj2 (unit_vec_all 2 (v2 3 4) 1) ltac:(lra))) in E.
    rewrite vnorm_34 in E. lra.
Qed.
Lemma copysign_witness :
  exists w x s : Z, (1 < w /\ - 2 ^ (w - 1) <= x < 2 ^ (w - 1) /\ x < 0 /\ s < 0)%Z /\
    int_copysign w x s = None.
Proof. exists 32%Z, (- 2 ^ 31)%Z, (-1)%Z. split; [lia|reflexivity]. Qed.
Lemma clamp_example :
  int_copysign 32 5 (-2) = Some (-5)%Z /\ int_clamp 12 0 10 = Some 10%Z /\
  int_clamp 12 10 0 = None /\ float_clamp 12 0 10 = 10.
Proof.
  repeat split. unfold float_clamp. destruct (Rlt_dec 12 0); [lra|].
  destruct (Rgt_dec 12 10); [reflexivity|lra].
Qed.
Lemma abs_diff_example :
  vabs_diff_all_eq (v2 1 2) (v2 1.5 2) 0.5 = true /\ vabs_diff_all_eq (v2 1 2) (v2 2 2) 0.5 = false.
Proof.
  split.
  - apply vabs_diff_all_eq_spec. intros [|[|i]] Hi; try lia; unfold vat; cbn; apply Rabs_le; lra.
  - destruct (vabs_diff_all_eq _ _ _) eqn:E; auto. exfalso.
    pose proof (proj1 (vabs_diff_all_eq_spec 2 _ _ _) E 0%nat ltac:(lia)) as H. unfold vat in H.
    cbn in H. rewrite Rabs_left in H; lra.
Qed.
Lemma spelled_example :
  spelled 0%Z "wzyx" (v4 1 2 3 4)%Z = [Some 4; Some 3; Some 2; Some 1]%Z /\
  In "wzyx"%string (words 4 4).
Proof.
  split; [reflexivity|].
  assert (E : existsb (String.eqb "wzyx") (words 4 4) = true) by (vm_compute; reflexivity).
  apply existsb_exists in E. destruct E as (x & Hx & E). apply String.eqb_eq in E. subst. exact Hx.
Qed.
