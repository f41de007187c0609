(** Properties of points, angles, [Unit], clamp/copysign, Lp norms, approximate comparison and
    swizzles: C05/C07 (points), C09, C15, C54-C56, C86, C87, C90, C91. *)

From Coq Require Import List Arith Lia ZArith Reals Lra String Ascii.
From Verif Require Import Base Scalar Spec LBase MVector LVector LVectorR MMatrix MPoint MReal
  MAngle MComplex MMisc LMisc LLp.
Import ListNotations.
Local Open Scope nat_scope.

(** ** C05 (points) *)
Theorem C05_point_homogeneous :
  forall (K : Type) (NK : Num K) (ND : NumDiv K) (FK : FieldLaws K) (n : nat) (p : point K n)
         (h : vec K (S n)) (w : K),
    pfrom_homogeneous (pto_homogeneous p) = Some p /\
    (pfrom_homogeneous h = None <-> vget n0 h n = n0) /\
    (w <> n0 -> pfrom_homogeneous (vmul_s h w) = pfrom_homogeneous h).
Proof.
  intros. conjs;
  [exact (pfrom_to_homogeneous n p) | exact (pfrom_homogeneous_none n h)
  | exact (pfrom_homogeneous_scale n h w)].
Qed.
Print Assumptions C05_point_homogeneous.

(** What the conversion returns: each coordinate times the last one is the input coordinate. *)
Theorem C05_point_from_homogeneous_value :
  forall (K : Type) (NK : Num K) (ND : NumDiv K) (FK : FieldLaws K) (n : nat) (h : vec K (S n)),
    vget n0 h n <> n0 ->
    exists p, pfrom_homogeneous h = Some p /\
              forall i, i < n -> nmul (vget n0 p i) (vget n0 h n) = vget n0 h i.
Proof. exact (fun K NK ND FK n h => pfrom_homogeneous_some n h). Qed.
Print Assumptions C05_point_from_homogeneous_value.

Theorem C05_point_extend_contract :
  forall (K : Type) (NK : Num K) (n : nat) (p : point K n) (q : point K (S n)) (a : K),
    pcontract (pextend p a) = p /\ vget n0 (pextend p a) n = a /\
    pextend (pcontract q) (vget n0 q n) = q.
Proof.
  intros. rewrite !pcontract_vcontract, !pextend_vextend.
  exact (conj (contract_extend n p a) (conj (extend_last n p a) (extend_contract n q))).
Qed.
Print Assumptions C05_point_extend_contract.

Example C05_point_example :
  pfrom_homogeneous (v4 2 4 6 2)%R <> None /\ vget 0%R (v4 2 4 6 2)%R 3 <> 0%R.
Proof. exact point_homogeneous_example. Qed.

(** ** C07 (points) *)
Theorem C07_point_distance :
  forall (n : nat) (p q r : point R n) (v : vec R n),
    (0 <= pdist p q)%R /\ (pdist p q = 0%R <-> p = q) /\ pdist p q = pdist q p /\
    (pdist p r <= pdist p q + pdist q r)%R /\
    pdist p q = vnorm (pdiff p q) /\ pdist (padd p v) p = vnorm v /\
    (pdist p q * pdist p q = pdist_squared p q)%R.
Proof.
  intros. conjs;
  [exact (vdist_nonneg n p q) | exact (vdist_zero n p q) | exact (vdist_sym n p q)
  | exact (vdist_triangle n p q r) | exact (pdist_diff n p q) | exact (pdist_add n p v)
  | exact (vdist_sq n p q)].
Qed.
Print Assumptions C07_point_distance.

Example C07_point_example : pdist (v2 1 1)%R (v2 4 5)%R = 5%R.
Proof. exact (proj2 vnorm_example). Qed.

(** ** C09 *)

(** Holds for every [p] below 2^31.  Missing: 2^31 <= p < 2^32, where it is false (next theorem). *)
Theorem C09_lp_norm_partial :
  forall (n : nat) (p : Z) (x y : vec R n) (s : R), (1 <= p < 2 ^ 31)%Z ->
    exists a b c d : R,
      vlp_norm x p = Some a /\ vlp_norm y p = Some b /\
      vlp_norm (vadd x y) p = Some c /\ vlp_norm (vmul_s x s) p = Some d /\
      (0 <= a)%R /\ (a = 0%R <-> x = vzero n) /\ d = (a * Rabs s)%R /\ (c <= a + b)%R /\
      (a ^ Z.to_nat p = sum n (fun i => Rabs (vget 0%R x i) ^ Z.to_nat p))%R.
Proof. exact vlp_all. Qed.
Print Assumptions C09_lp_norm_partial.

Theorem C09_lp_norm_1_2 :
  forall (n : nat) (x : vec R n),
    vlp_norm x 1 = Some (vl1_norm x) /\ vlp_norm x 2 = Some (vnorm x).
Proof. intros. exact (conj (vlp_norm_1 n x) (vlp_norm_2 n x)). Qed.
Print Assumptions C09_lp_norm_1_2.

(** With p = 2^31 the exponent wraps to -2^31: the norm of the zero vector is infinite and the
    norm is not homogeneous (doubling the vector halves the result). *)
Theorem C09_lp_norm_refuted :
  exists p : Z, (1 <= p < 2 ^ 32)%Z /\
    vlp_norm (vzero 1) p = None /\
    vlp_norm (v1 1%R) p = Some 1%R /\
    vlp_norm (vmul_s (v1 1%R) 2%R) p = Some (/ 2)%R.
Proof. exact vlp_wrap_witness. Qed.
Print Assumptions C09_lp_norm_refuted.

Example C09_example : (1 <= 3 < 2 ^ 31)%Z /\ vlp_norm (v3 3 4 5)%R 3 = Some 6%R.
Proof. exact vlp_example. Qed.

(** ** C15 *)
Theorem C15_point_affine_laws :
  forall (K : Type) (NK : Num K) (LK : RingLaws K) (n : nat) (p q r : point K n) (u v : vec K n),
    padd p (pdiff q p) = q /\ padd (padd p u) v = padd p (vadd u v) /\ padd p (vzero n) = p /\
    psub p v = padd p (vneg v) /\ pdiff (padd p v) p = v /\
    vadd (pdiff p q) (pdiff q r) = pdiff p r /\ (pdiff p q = vzero n <-> p = q) /\
    pto_vector (pfrom_vector v) = v /\ pfrom_vector (pto_vector p) = p.
Proof.
  intros. conjs;
  [exact (padd_diff n p q) | exact (padd_assoc n p u v) | exact (padd_0 n p)
  | exact (psub_neg n p v) | exact (pdiff_add n p v) | exact (pdiff_chain n p q r)
  | exact (pdiff_zero n p q) | exact eq_refl | exact eq_refl].
Qed.
Print Assumptions C15_point_affine_laws.

Theorem C15_point_in_place :
  forall (K : Type) (NK : Num K) (n : nat) (p : point K n) (v : vec K n) (s : K),
    padd_assign p v = padd p v /\ psub_assign p v = psub p v /\ pmul_assign p s = pmul_s p s.
Proof.
  intros. exact (conj (vadd_assign_eq n p v) (conj (vsub_assign_eq n p v) (vmul_assign_eq n p s))).
Qed.
Print Assumptions C15_point_in_place.

Example C15_example :
  padd (v2 1 2)%Z (pdiff (v2 7 9)%Z (v2 1 2)%Z) = (v2 7 9)%Z /\
  psub (v2 1 2)%Z (v2 3 5)%Z = (v2 (-2) (-3))%Z.
Proof. split; reflexivity. Qed.

Local Open Scope R_scope.

(** ** C54 *)
Theorem C54_normalize :
  forall T a : R, 0 < T ->
    0 <= angle_normalize T a < T /\
    (exists k : Z, angle_normalize T a = a + IZR k * T) /\
    (forall b (k : Z), 0 <= b < T -> b = a + IZR k * T -> b = angle_normalize T a) /\
    angle_normalize T (angle_normalize T a) = angle_normalize T a.
Proof.
  intros T a HT. exact (conj (proj1 (angle_normalize_spec T HT a))
    (conj (proj2 (angle_normalize_spec T HT a))
    (conj (normalize_unique_in_range T a HT)
    (angle_normalize_idem T HT a)))).
Qed.
Print Assumptions C54_normalize.

Theorem C54_normalize_signed :
  forall T a : R, 0 < T ->
    - (T / 2) < angle_normalize_signed T a <= T / 2 /\
    (exists k : Z, angle_normalize_signed T a = a + IZR k * T) /\
    (forall b (k : Z), - (T / 2) < b <= T / 2 -> b = a + IZR k * T ->
       b = angle_normalize_signed T a) /\
    angle_normalize_signed T (angle_normalize_signed T a) = angle_normalize_signed T a.
Proof.
  intros T a HT. exact (conj (proj1 (angle_normalize_signed_spec T HT a))
    (conj (proj2 (angle_normalize_signed_spec T HT a))
    (conj (normalize_signed_unique_in_range T a HT)
    (angle_normalize_signed_idem T HT a)))).
Qed.
Print Assumptions C54_normalize_signed.

(** Both units have a positive full turn, and normalizing keeps the trigonometric functions. *)
Theorem C54_units :
  0 < rad_full_turn /\ 0 < deg_full_turn /\
  forall a : R,
    rad_sin (angle_normalize rad_full_turn a) = rad_sin a /\
    rad_cos (angle_normalize rad_full_turn a) = rad_cos a /\
    deg_sin (angle_normalize deg_full_turn a) = deg_sin a /\
    deg_cos (angle_normalize deg_full_turn a) = deg_cos a.
Proof. exact (conj rad_full_pos (conj deg_full_pos normalize_trig)). Qed.
Print Assumptions C54_units.

Example C54_C55_example :
  angle_normalize 360 450 = 90 /\ angle_normalize 360 (-90) = 270 /\
  angle_normalize_signed 360 270 = -90 /\ angle_opposite 360 270 = 90 /\
  angle_bisect 360 30 90 = 60.
Proof. exact normalize_450. Qed.

(** ** C55 *)
Theorem C55_opposite :
  forall T a : R, 0 < T ->
    0 <= angle_opposite T a < T /\
    (exists k : Z, angle_opposite T a = a + T / 2 + IZR k * T) /\
    (0 <= a < T -> angle_opposite T (angle_opposite T a) = a).
Proof.
  intros T a HT. exact (conj (angle_opposite_range T HT a)
    (conj (angle_opposite_spec T HT a)
    (angle_opposite_invol_range T HT a))).
Qed.
Print Assumptions C55_opposite.

Theorem C55_bisect :
  forall T a b : R, 0 < T ->
    0 <= angle_bisect T a b < T /\
    (exists k : Z, angle_bisect T a b = (a + b) / 2 + IZR k * T) /\
    angle_bisect T a b = angle_bisect T b a.
Proof.
  intros T a b HT. exact (conj (proj1 (angle_bisect_spec T HT a b))
    (conj (proj2 (angle_bisect_spec T HT a b))
    (angle_bisect_sym T a b))).
Qed.
Print Assumptions C55_bisect.

(** ** C56 *)
Theorem C56_conversions :
  forall d e r s c : R,
    rad_to_deg (deg_to_rad d) = d /\ deg_to_rad (rad_to_deg r) = r /\
    deg_to_rad (d + e) = deg_to_rad d + deg_to_rad e /\
    rad_to_deg (r + s) = rad_to_deg r + rad_to_deg s /\
    deg_to_rad (c * d) = c * deg_to_rad d /\ rad_to_deg (c * r) = c * rad_to_deg r /\
    deg_to_rad 180 = PI /\ rad_to_deg PI = 180 /\ deg_to_rad deg_full_turn = rad_full_turn.
Proof. exact conversion_basic. Qed.
Print Assumptions C56_conversions.

Theorem C56_trigonometry_independent_of_unit :
  forall d r y x : R,
    deg_sin d = rad_sin (deg_to_rad d) /\ deg_cos d = rad_cos (deg_to_rad d) /\
    deg_tan d = rad_tan (deg_to_rad d) /\
    deg_sin (rad_to_deg r) = rad_sin r /\ deg_cos (rad_to_deg r) = rad_cos r /\
    deg_tan (rad_to_deg r) = rad_tan r /\
    deg_to_rad (deg_asin x) = rad_asin x /\ deg_to_rad (deg_acos x) = rad_acos x /\
    deg_to_rad (deg_atan x) = rad_atan x /\ deg_to_rad (deg_atan2 y x) = rad_atan2 y x /\
    deg_sin 90 = 1 /\ deg_cos 180 = -1 /\ deg_tan 45 = 1.
Proof. exact conversion_trig. Qed.
Print Assumptions C56_trigonometry_independent_of_unit.

Theorem C56_trigonometric_identities :
  forall r : R,
    rad_sin r * rad_sin r + rad_cos r * rad_cos r = 1 /\
    (rad_sin r <> 0 -> rad_csc r * rad_sin r = 1) /\
    (rad_cos r <> 0 -> rad_sec r * rad_cos r = 1 /\ rad_tan r * rad_cos r = rad_sin r) /\
    (rad_sin r <> 0 -> rad_cos r <> 0 -> rad_cot r * rad_sin r = rad_cos r).
Proof. exact rad_pythagoras. Qed.
Print Assumptions C56_trigonometric_identities.

Theorem C56_normalization_commutes :
  forall d : R,
    deg_to_rad (angle_normalize deg_full_turn d) = angle_normalize rad_full_turn (deg_to_rad d) /\
    deg_to_rad (angle_normalize_signed deg_full_turn d) =
      angle_normalize_signed rad_full_turn (deg_to_rad d).
Proof. intros. exact (conj (normalize_conversion d) (normalize_signed_conversion d)). Qed.
Print Assumptions C56_normalization_commutes.

Theorem C56_turn_fractions :
  forall T : R,
    2 * full_turn_div_2 T = T /\ 4 * full_turn_div_4 T = T /\ 6 * full_turn_div_6 T = T /\
    8 * full_turn_div_8 T = T.
Proof. exact turn_fractions. Qed.
Print Assumptions C56_turn_fractions.

(** ** C86 *)
Theorem C86_unit_vector :
  forall (n : nat) (x : vec R n) (t : R),
    (x <> vzero n -> vnorm (unit_from_value (normed_vec n) x) = 1 /\
       vmul_s (unit_from_value (normed_vec n) x) (vnorm x) = x /\
       unit_from_value_with_norm (normed_vec n) x = (unit_from_value (normed_vec n) x, vnorm x)) /\
    (0 <= t ->
     (unit_try_from_value (normed_vec n) x t = None <-> vnorm x <= t) /\
     (unit_try_from_value_with_norm (normed_vec n) x t = None <-> vnorm x <= t) /\
     (forall u, unit_try_from_value (normed_vec n) x t = Some u ->
        vnorm u = 1 /\ vmul_s u (vnorm x) = x) /\
     (forall u r, unit_try_from_value_with_norm (normed_vec n) x t = Some (u, r) ->
        vnorm u = 1 /\ vmul_s u (vnorm x) = x /\ r = vnorm x)).
Proof. exact unit_vec_all. Qed.
Print Assumptions C86_unit_vector.

Theorem C86_unit_complex :
  forall (x : complex R) (t : R),
    (x <> mkC 0 0 -> cnorm (unit_from_value normed_complex x) = 1 /\
       cscale (unit_from_value normed_complex x) (cnorm x) = x /\
       unit_from_value_with_norm normed_complex x = (unit_from_value normed_complex x, cnorm x)) /\
    (0 <= t ->
     (unit_try_from_value normed_complex x t = None <-> cnorm x <= t) /\
     (unit_try_from_value_with_norm normed_complex x t = None <-> cnorm x <= t) /\
     (forall u, unit_try_from_value normed_complex x t = Some u ->
        cnorm u = 1 /\ cscale u (cnorm x) = x) /\
     (forall u r, unit_try_from_value_with_norm normed_complex x t = Some (u, r) ->
        cnorm u = 1 /\ cscale u (cnorm x) = x /\ r = cnorm x)).
Proof. exact unit_complex_all. Qed.
Print Assumptions C86_unit_complex.

Example C86_example :
  exists u, unit_try_from_value (normed_vec 2) (v2 3 4) 1 = Some u /\ vnorm (v2 3 4) = 5.
Proof. exact unit_example. Qed.

(** ** C87 *)
Theorem C87_float_clamp :
  forall x y lo hi : R, lo <= hi ->
    lo <= float_clamp x lo hi <= hi /\
    (forall z, lo <= z <= hi -> Rabs (x - float_clamp x lo hi) <= Rabs (x - z)) /\
    float_clamp (float_clamp x lo hi) lo hi = float_clamp x lo hi /\
    (x <= y -> float_clamp x lo hi <= float_clamp y lo hi).
Proof.
  intros x y lo hi H. exact (conj (proj1 (float_clamp_spec x lo hi H))
    (conj (proj2 (proj2 (float_clamp_spec x lo hi H)))
    (conj (float_clamp_idem x lo hi H)
    (float_clamp_mono x y lo hi H)))).
Qed.
Print Assumptions C87_float_clamp.

Theorem C87_int_clamp :
  forall x lo hi : Z,
    (int_clamp x lo hi = None <-> (hi < lo)%Z) /\
    ((lo <= hi)%Z ->
     exists y, int_clamp x lo hi = Some y /\ (lo <= y <= hi)%Z /\ ((lo <= x <= hi)%Z -> y = x) /\
       (forall z, (lo <= z <= hi)%Z -> (Z.abs (x - y) <= Z.abs (x - z))%Z)).
Proof. intros. exact (conj (int_clamp_none x lo hi) (int_clamp_some x lo hi)). Qed.
Print Assumptions C87_int_clamp.

(** Full claim: [copysign] of any two representable integers is the representable integer with
    the magnitude of the first and the sign of the second.  Missing: the minimum value. *)
Theorem C87_int_copysign_partial :
  forall w x s : Z, (1 < w)%Z -> (- 2 ^ (w - 1) <= x < 2 ^ (w - 1))%Z ->
    (int_copysign w x s = None <-> x = - 2 ^ (w - 1))%Z /\
    (forall y, int_copysign w x s = Some y ->
       Z.abs y = Z.abs x /\ (0 <= s -> 0 <= y)%Z /\ (s < 0 -> y <= 0)%Z).
Proof. exact int_copysign_spec. Qed.
Print Assumptions C87_int_copysign_partial.

(** [i32::MIN] with a negative sign: the answer [i32::MIN] is representable, but the
    intermediate absolute value overflows. *)
Theorem C87_int_copysign_refuted :
  exists w x s : Z, (1 < w /\ - 2 ^ (w - 1) <= x < 2 ^ (w - 1) /\ x < 0 /\ s < 0)%Z /\
    int_copysign w x s = None.
Proof. exact copysign_witness. Qed.
Print Assumptions C87_int_copysign_refuted.

Example C87_example :
  int_copysign 32 5 (-2) = Some (-5)%Z /\ int_clamp 12 0 10 = Some 10%Z /\
  int_clamp 12 10 0 = None /\ float_clamp 12 0 10 = 10.
Proof. exact clamp_example. Qed.

(** ** C90 *)
Theorem C90_vector_abs_diff :
  forall (n : nat) (u v w t t' : vec R n) (s : R),
    (vabs_diff_eq u v t = true <->
       forall i, (i < n)%nat -> Rabs (vget 0 u i - vget 0 v i) <= vget 0 t i) /\
    (vabs_diff_all_eq u v s = true <->
       forall i, (i < n)%nat -> Rabs (vget 0 u i - vget 0 v i) <= s) /\
    ((forall i, (i < n)%nat -> 0 <= vget 0 t i) -> vabs_diff_eq u u t = true) /\
    vabs_diff_eq u v t = vabs_diff_eq v u t /\
    ((forall i, (i < n)%nat -> vget 0 t i <= vget 0 t' i) ->
       vabs_diff_eq u v t = true -> vabs_diff_eq u v t' = true) /\
    (vabs_diff_eq u v t = true -> vabs_diff_eq v w t' = true ->
       vabs_diff_eq u w (vadd t t') = true) /\
    (vabs_diff_eq u v (vzero n) = true <-> u = v) /\
    vabs_diff_all_eq u v s = vabs_diff_eq u v (vfrom_fill n s).
Proof.
  intros. conjs;
  [exact (vabs_diff_eq_spec n u v t) | exact (vabs_diff_all_eq_spec n u v s)
  | exact (vabs_diff_eq_refl n u t) | exact (vabs_diff_eq_sym n u v t)
  | exact (vabs_diff_eq_mono n u v t t') | exact (vabs_diff_eq_triangle n u v w t t')
  | exact (vabs_diff_eq_zero n u v) | exact (vabs_diff_all_eq_fill n u v s)].
Qed.
Print Assumptions C90_vector_abs_diff.

Theorem C90_matrix_abs_diff :
  forall (r c : nat) (a b t t' : mat R r c),
    (mcmp_all rabs_diff_eq 0 0 a b t = true <->
       forall j i, (j < c)%nat -> (i < r)%nat ->
         Rabs (mget_d 0 a j i - mget_d 0 b j i) <= mget_d 0 t j i) /\
    ((forall j i, (j < c)%nat -> (i < r)%nat -> 0 <= mget_d 0 t j i) ->
       mcmp_all rabs_diff_eq 0 0 a a t = true) /\
    mcmp_all rabs_diff_eq 0 0 a b t = mcmp_all rabs_diff_eq 0 0 b a t /\
    ((forall j i, (j < c)%nat -> (i < r)%nat -> mget_d 0 t j i <= mget_d 0 t' j i) ->
       mcmp_all rabs_diff_eq 0 0 a b t = true -> mcmp_all rabs_diff_eq 0 0 a b t' = true).
Proof.
  intros. conjs;
  [exact (mabs_diff_spec r c a b t) | exact (mabs_diff_refl r c a t)
  | exact (mabs_diff_sym r c a b t) | exact (mabs_diff_mono r c a b t t')].
Qed.
Print Assumptions C90_matrix_abs_diff.

Example C90_example :
  vabs_diff_all_eq (v2 1 2) (v2 1.5 2) 0.5 = true /\ vabs_diff_all_eq (v2 1 2) (v2 2 2) 0.5 = false.
Proof. exact abs_diff_example. Qed.

(** ** C91 *)

(** Every entry of the two tables returns exactly the components its name spells (letters
    outside the vector would show up as [None] on the right). *)
Theorem C91_swizzles_return_spelled_components :
  forall (A : Type) (d : A) (s : swizzle),
    In s vector_swizzles \/ In s point_swizzles ->
    List.length (swz_idx s) = swz_out s /\
    forall v : vec A (swz_in s), map Some (swizzle_run d s v) = spelled d (swz_name s) v.
Proof. exact (fun A d s => swizzles_spell d s). Qed.
Print Assumptions C91_swizzles_return_spelled_components.

(** And every word of length at most the dimension over the coordinate letters is there. *)
Theorem C91_swizzles_complete :
  forall (n k : nat) (w : string),
    ((1 <= n <= 4)%nat -> (1 <= k <= n)%nat -> In w (words n k) ->
       exists s, In s vector_swizzles /\ swz_in s = n /\ swz_name s = w) /\
    ((1 <= n <= 3)%nat -> (1 <= k <= n)%nat -> In w (words n k) ->
       exists s, In s point_swizzles /\ swz_in s = n /\ swz_name s = w).
Proof. intros. exact (conj (vector_swizzles_complete n k w) (point_swizzles_complete n k w)). Qed.
Print Assumptions C91_swizzles_complete.

Example C91_example :
  spelled 0%Z "wzyx" (v4 1 2 3 4)%Z = [Some 4; Some 3; Some 2; Some 1]%Z /\
  In "wzyx"%string (words 4 4).
Proof. exact spelled_example. Qed.
