(** Rounding errors of rotation matrices and quaternions in floats. *)

From Coq Require Import List Arith ZArith Lia Reals Lra Psatz.
From Flocq Require Import Core.Core IEEE754.BinarySingleNaN.
From Verif Require Import Base Scalar Spec SpecF LBase MVector MMatrix MQuat LVector LMatrix LQuat MFloat LFloat LFloatP LFloatVec
  LFloatEx LFloatAcc LFloatExP LProjF.
Local Open Scope R_scope.

Section RotF.
Context {prec emax : Z} {Hprec : Prec_gt_0 prec} {Hemax : Prec_lt_emax prec emax}.
Notation fl := (binary_float prec emax).
Hypothesis H24 : (24 <= prec)%Z.

(** ** The matrix of a quaternion *)
Section Q.
Variables (k : Z) (V : R) (w x y z : fl).
Notation W := (B2R w). Notation X := (B2R x). Notation Y := (B2R y). Notation Z_ := (B2R z).
Hypothesis k0 : (0 <= k)%Z.
Hypothesis Hk : (2 * k + 31 <= emax)%Z.
Hypothesis HV : rb k V.
Hypothesis VV : V * V = W * W + X * X + Y * Y + Z_ * Z_.
Hypothesis Fw : is_finite w = true.
Hypothesis Fx : is_finite x = true.
Hypothesis Fy : is_finite y = true.
Hypothesis Fz : is_finite z = true.

Lemma sq_le_abs a b : 0 < b -> a * a <= b * b -> Rabs a <= b.
Proof. intros B H. apply Rabs_le. split; nra. Qed.

Lemma q_leaf (t : fl) : is_finite t = true -> B2R t * B2R t <= V * V -> fapp V 1 0 t (B2R t).
Proof. intros F H. apply fapp_leafV; [exact F|]. apply sq_le_abs; [exact (rb_pos _ _ HV)|exact H]. Qed.

Lemma q_leaves : fapp V 1 0 w W /\ fapp V 1 0 x X /\ fapp V 1 0 y Y /\ fapp V 1 0 z Z_.
Proof. repeat split; try (apply q_leaf; [assumption|nra]). Qed.

Lemma wok_V : @wok emax V.
Proof. apply (rb_wok k); [lia|exact HV]. Qed.
Lemma wok_VV : @wok emax (V * V).
Proof. apply (rb_wok (k + k)); [lia|]. apply rb_mul; exact HV. Qed.
Lemma wok_1' : @wok emax 1.
Proof. apply (rb_wok 0); [lia|]. apply rb_1. Qed.

Lemma q_norm2 : fapp (V * V) 1 8200 (nadd (nadd (nadd (nadd n0 (nmul w w)) (nmul x x)) (nmul y y)) (nmul z z))
  (0 + W * W + X * X + Y * Y + Z_ * Z_).
Proof.
  destruct q_leaves as (Lw & Lx & Ly & Lz). pose proof wok_VV as OK. pose proof (rb_pos _ _ HV) as V0.
  pose proof (pow24 H24) as P24.
  assert (SQ : forall t : fl, fapp V 1 0 t (B2R t) -> fapp (V * V) 1 1025 (nmul t t) (B2R t * B2R t)).
  { intros t Lt. apply (fapp_mul2 H24 V V 1 1 0 0); try assumption; lia. }
  apply (fapp_addC H24 (V * V) 1 1 1 6150 1025); try assumption; try lia.
  - apply (fapp_addC H24 (V * V) 1 1 1 4100 1025); try assumption; try lia.
    + apply (fapp_addC H24 (V * V) 1 1 1 2050 1025); try assumption; try lia.
      * apply (fapp_addC H24 (V * V) 0 1 1 0 1025); try assumption; try lia.
        -- apply fapp_0.
        -- apply SQ. exact Lw.
        -- rewrite Rabs_pos_eq; nra.
      * apply SQ. exact Lx.
      * rewrite Rabs_pos_eq; nra.
    + apply SQ. exact Ly.
    + rewrite Rabs_pos_eq; nra.
  - apply SQ. exact Lz.
  - rewrite Rabs_pos_eq; nra.
Qed.

Variable n2 : fl.
Hypothesis Hn2 : fapp (V * V) 1 8200 n2 (V * V).

Lemma q_s : fapp (1 / (V * V)) 2 34849 (ndiv (nadd n1 n1) n2) (2 / (V * V)).
Proof.
  pose proof (rb_pos _ _ HV) as V0. pose proof (pow24 H24) as P24. assert (V2 : 0 < V * V) by (apply Rmult_lt_0_compat; assumption).
  apply (fapp_weak _ (2 * 1) _ (2 * (0 * 1 + 2 * 8200 * 1 * 1) + 1024 * (2 * 1) + 1)); try lia; [apply Rdiv_lt_0_compat; lra|].
  apply (fapp_div2 H24 1 (V * V) 2 1 1 0 8200); try assumption; try lia; try lra.
  - apply (rb_wok (0 + (k + k))); [lia|]. apply rb_div; [apply rb_1|apply rb_mul; exact HV].
  - apply (fapp_2 H24).
  - rewrite Rabs_pos_eq; lra.
Qed.

Lemma q_term (a b : fl) : fapp V 1 0 a (B2R a) -> fapp V 1 0 b (B2R b) ->
  fapp 1 2 38947 (nmul (nmul (ndiv (nadd n1 n1) n2) a) b) (2 / (V * V) * B2R a * B2R b).
Proof.
  intros La Lb. pose proof (rb_pos _ _ HV) as V0. pose proof (pow24 H24) as P24.
  assert (V2 : 0 < V * V) by (apply Rmult_lt_0_compat; assumption).
  assert (RV : 0 < 1 / (V * V)) by (apply Rdiv_lt_0_compat; lra).
  apply (fapp_eq (1 / (V * V) * V * V) 1 _ _ _ (2 / (V * V) * B2R a * B2R b)); [|field; lra|reflexivity].
  apply (fapp_mul2 H24 (1 / (V * V) * V) V 2 1 36898 0); try assumption; try lia.
  - apply Rmult_lt_0_compat; assumption.
  - replace (1 / (V * V) * V * V) with 1 by (field; lra). exact wok_1'.
  - apply (fapp_mul2 H24 (1 / (V * V)) V 2 1 34849 0); try assumption; try lia; [|apply q_s].
    replace (1 / (V * V) * V) with (/ V) by (field; lra). apply (rb_wok k); [lia|]. apply rb_inv. exact HV.
Qed.

(** Diagonal and off-diagonal entries. *)
Lemma q_diag (a b : fl) : fapp V 1 0 a (B2R a) -> fapp V 1 0 b (B2R b) -> B2R a * B2R a + B2R b * B2R b <= V * V ->
  fapp 1 1 79944 (nsub (nsub n1 (nmul (nmul (ndiv (nadd n1 n1) n2) a) a)) (nmul (nmul (ndiv (nadd n1 n1) n2) b) b))
    (1 - 2 / (V * V) * B2R a * B2R a - 2 / (V * V) * B2R b * B2R b).
Proof.
  intros La Lb HL. pose proof (rb_pos _ _ HV) as V0. pose proof (pow24 H24) as P24.
  assert (V2 : 0 < V * V) by (apply Rmult_lt_0_compat; assumption).
  set (i := 2 / (V * V)). assert (HI : i * (V * V) = 2) by (unfold i; field; lra).
  assert (I0 : 0 < i) by (unfold i; apply Rdiv_lt_0_compat; lra).
  assert (A0 : 0 <= i * B2R a * B2R a) by (rewrite Rmult_assoc; apply Rmult_le_pos; [lra|apply Rle_0_sqr]).
  assert (B0 : 0 <= i * B2R b * B2R b) by (rewrite Rmult_assoc; apply Rmult_le_pos; [lra|apply Rle_0_sqr]).
  assert (S : i * B2R a * B2R a + i * B2R b * B2R b <= 2).
  { rewrite <- HI. replace (i * B2R a * B2R a + i * B2R b * B2R b) with (i * (B2R a * B2R a + B2R b * B2R b)) by ring.
    apply Rmult_le_compat_l; lra. }
  apply (fapp_subC H24 1 1 2 1 39972 38947); try lia.
  - exact wok_1'.
  - apply (fapp_subC H24 1 1 2 1 0 38947); try lia.
    + exact wok_1'.
    + apply fapp_1.
    + apply q_term; assumption.
    + apply Rabs_le. fold i. lra.
  - apply q_term; assumption.
  - apply Rabs_le. fold i. lra.
Qed.

Lemma q_offp (a b c d : fl) : fapp V 1 0 a (B2R a) -> fapp V 1 0 b (B2R b) -> fapp V 1 0 c (B2R c) -> fapp V 1 0 d (B2R d) ->
  B2R a * B2R a + B2R b * B2R b + B2R c * B2R c + B2R d * B2R d <= V * V ->
  fapp 1 1 78919 (nadd (nmul (nmul (ndiv (nadd n1 n1) n2) a) b) (nmul (nmul (ndiv (nadd n1 n1) n2) c) d))
    (2 / (V * V) * B2R a * B2R b + 2 / (V * V) * B2R c * B2R d) /\
  fapp 1 1 78919 (nsub (nmul (nmul (ndiv (nadd n1 n1) n2) a) b) (nmul (nmul (ndiv (nadd n1 n1) n2) c) d))
    (2 / (V * V) * B2R a * B2R b - 2 / (V * V) * B2R c * B2R d).
Proof.
  intros La Lb Lc Ld HL. pose proof (rb_pos _ _ HV) as V0. pose proof (pow24 H24) as P24.
  assert (V2 : 0 < V * V) by (apply Rmult_lt_0_compat; assumption).
  set (i := 2 / (V * V)). assert (HI : i * (V * V) = 2) by (unfold i; field; lra).
  assert (I0 : 0 < i) by (unfold i; apply Rdiv_lt_0_compat; lra).
  assert (A : forall e, Rabs e <= V * V / 2 -> Rabs (i * e) <= 1 * 1).
  { intros e H. rewrite Rabs_mult, (Rabs_pos_eq i) by lra. apply Rle_trans with (i * (V * V / 2)); [apply Rmult_le_compat_l; lra|lra]. }
  assert (B : forall a b c d : R, a * a + b * b + c * c + d * d <= V * V -> Rabs (a * b + c * d) <= V * V / 2 /\ Rabs (a * b - c * d) <= V * V / 2).
  { clear. intros a b c d H.
    pose proof (Rle_0_sqr (a + b)). pose proof (Rle_0_sqr (a - b)). pose proof (Rle_0_sqr (c + d)). pose proof (Rle_0_sqr (c - d)).
    unfold Rsqr in *. split; apply Rabs_le; split; lra. }
  destruct (B _ _ _ _ HL) as (B1 & B2).
  split.
  - apply (fapp_addC H24 1 2 2 1 38947 38947); try lia; [exact wok_1'|apply q_term; assumption|apply q_term; assumption|].
    replace (i * B2R a * B2R b + i * B2R c * B2R d) with (i * (B2R a * B2R b + B2R c * B2R d)) by ring.
    apply A. exact B1.
  - apply (fapp_subC H24 1 2 2 1 38947 38947); try lia; [exact wok_1'|apply q_term; assumption|apply q_term; assumption|].
    replace (i * B2R a * B2R b - i * B2R c * B2R d) with (i * (B2R a * B2R b - B2R c * B2R d)) by ring.
    apply A. exact B2.
Qed.
End Q.

(** ** The matrix of an axis and an angle: leaves of magnitude at most 9/8 *)
Section A.
Hypothesis H34 : (34 <= emax)%Z.
Notation V := (9 / 8).
Notation leaf t := (fapp V 1 0 t (B2R t)).
Variables (s c : fl).
Hypothesis Ls : leaf s.
Hypothesis Lc : leaf c.

Lemma rb_V : rb 1 V.
Proof. split; cbn; lra. Qed.
Lemma a_one : fapp V 1 0 (n1 : fl) 1.
Proof. apply (fapp_up 1); [apply fapp_1|lra|lia|lia]. Qed.
Lemma a_k : fapp V 2 2049 (nsub n1 c) (1 - B2R c).
Proof.
  pose proof (pow24 H24) as P24. apply (fapp_sub H24 V 1 1 0 0); try lia.
  - apply (rb_wok 1); [lia|exact rb_V].
  - exact a_one.
  - exact Lc.
Qed.
Lemma a_kab (a b : fl) : leaf a -> leaf b ->
  fapp (V * V * V) 2 6147 (nmul (nmul (nsub n1 c) a) b) ((1 - B2R c) * B2R a * B2R b).
Proof.
  intros La Lb. pose proof (pow24 H24) as P24. pose proof rb_V as RV.
  apply (fapp_mul2 H24 (V * V) V 2 1 4098 0); try assumption; try lia; try lra.
  - apply (rb_wok (1 + 1 + 1)); [lia|]. repeat apply rb_mul; exact RV.
  - apply (fapp_mul2 H24 V V 2 1 2049 0); try assumption; try lia; try lra.
    + apply (rb_wok (1 + 1)); [lia|]. apply rb_mul; exact RV.
    + exact a_k.
Qed.
Lemma a_sc (a : fl) : leaf a -> fapp (V * V) 1 1025 (nmul s a) (B2R s * B2R a).
Proof.
  intros La. pose proof (pow24 H24) as P24. pose proof rb_V as RV.
  apply (fapp_mul2 H24 V V 1 1 0 0); try assumption; try lia; try lra.
  apply (rb_wok (1 + 1)); [lia|]. apply rb_mul; exact RV.
Qed.
Lemma a_wok3 : @wok emax (V * V * V).
Proof. pose proof rb_V as RV. apply (rb_wok (1 + 1 + 1)); [lia|]. repeat apply rb_mul; exact RV. Qed.

Lemma a_near e (x : fl) r : fapp (V * V * V) 3 e x r -> (0 <= e <= 10245)%Z -> fnear x r (15 * bpow radix2 (- prec)).
Proof.
  intros (F & _ & E) He. split; [exact F|]. eapply Rle_trans; [exact E|]. pose proof (bpow_gt_0 radix2 (- prec)).
  destruct He as (e0 & e1). apply IZR_le in e0, e1. nra.
Qed.
Lemma a_diag (a : fl) : leaf a ->
  fnear (nadd (nmul (nmul (nsub n1 c) a) a) c) ((1 - B2R c) * B2R a * B2R a + B2R c) (15 * bpow radix2 (- prec)).
Proof.
  intros La. pose proof (pow24 H24) as P24. apply (a_near (6147 + 0 + 1024 * (2 + 1) + 1)); [|lia].
  apply (fapp_add H24 _ 2 1); try lia; [exact a_wok3|apply a_kab; assumption|].
  apply (fapp_up V); [exact Lc|lra|lia|lia].
Qed.
Lemma a_off (a b d : fl) : leaf a -> leaf b -> leaf d ->
  fnear (nadd (nmul (nmul (nsub n1 c) a) b) (nmul s d)) ((1 - B2R c) * B2R a * B2R b + B2R s * B2R d) (15 * bpow radix2 (- prec)) /\
  fnear (nsub (nmul (nmul (nsub n1 c) a) b) (nmul s d)) ((1 - B2R c) * B2R a * B2R b - B2R s * B2R d) (15 * bpow radix2 (- prec)).
Proof.
  intros La Lb Ld. pose proof (pow24 H24) as P24.
  assert (U : fapp (V * V * V) 1 1025 (nmul s d) (B2R s * B2R d)) by (apply (fapp_up (V * V)); [apply a_sc; exact Ld|lra|lia|lia]).
  split; apply (a_near (6147 + 1025 + 1024 * (2 + 1) + 1)); try lia.
  - apply (fapp_add H24 _ 2 1); try lia; [exact a_wok3|apply a_kab; assumption|exact U].
  - apply (fapp_sub H24 _ 2 1); try lia; [exact a_wok3|apply a_kab; assumption|exact U].
Qed.
Lemma a_mul (a : fl) : leaf a -> fnear (nmul s a) (B2R s * B2R a) (2 * bpow radix2 (- prec)).
Proof.
  intros La. destruct (a_sc a La) as (F & _ & E). split; [exact F|]. eapply Rle_trans; [exact E|].
  pose proof (bpow_gt_0 radix2 (- prec)). nra.
Qed.
End A.
End RotF.

(** ** Perturbation of the exact formulas *)
Section Real.
Variable d : R.
Hypothesis d0 : 0 <= d.

Lemma prod_pert x y a b : Rabs (x - a) <= d -> Rabs (y - b) <= d -> Rabs (x * y - a * b) <= d * (Rabs a + Rabs b) + d * d.
Proof.
  intros HX HY. replace (x * y - a * b) with ((x - a) * b + a * (y - b) + (x - a) * (y - b)) by ring.
  eapply Rle_trans; [apply Rabs_triang|]. eapply Rle_trans; [apply Rplus_le_compat_r, Rabs_triang|].
  rewrite !Rabs_mult. pose proof (Rabs_pos a). pose proof (Rabs_pos b).
  assert (Rabs (x - a) * Rabs b <= d * Rabs b) by (apply Rmult_le_compat_r; assumption).
  assert (Rabs a * Rabs (y - b) <= Rabs a * d) by (apply Rmult_le_compat_l; assumption).
  assert (Rabs (x - a) * Rabs (y - b) <= d * d) by (apply Rmult_le_compat; try apply Rabs_pos; assumption).
  lra.
Qed.

Hypothesis d8 : d <= / 8.

(** (1 - c) x y near (1 - C) a b. *)
Lemma kxy_pert c C x y a b : Rabs (c - C) <= d -> Rabs (x - a) <= d -> Rabs (y - b) <= d ->
  Rabs C <= 1 -> Rabs a <= 1 -> Rabs b <= 1 -> Rabs ((1 - c) * x * y - (1 - C) * a * b) <= 6 * d - 3 / 8 * d.
Proof.
  intros Hc Hx Hy HC Ha Hb.
  pose proof (prod_pert x y a b Hx Hy) as P.
  assert (P' : Rabs (x * y - a * b) <= 17 / 8 * d) by nra.
  assert (XY : Rabs (x * y) <= 1 + 17 / 64).
  { replace (x * y) with ((x * y - a * b) + a * b) by ring. eapply Rle_trans; [apply Rabs_triang|].
    rewrite (Rabs_mult a b). pose proof (Rabs_pos a). pose proof (Rabs_pos b).
    assert (Rabs a * Rabs b <= 1 * 1) by (apply Rmult_le_compat; assumption). lra. }
  replace ((1 - c) * x * y - (1 - C) * a * b) with ((C - c) * (x * y) + (1 - C) * (x * y - a * b)) by ring.
  eapply Rle_trans; [apply Rabs_triang|]. rewrite (Rabs_mult (C - c)), (Rabs_mult (1 - C)), (Rabs_minus_sym C c).
  assert (K : Rabs (1 - C) <= 2) by (apply Rabs_le; apply Rabs_le_inv in HC; lra).
  assert (Rabs (c - C) * Rabs (x * y) <= d * (1 + 17 / 64)) by (apply Rmult_le_compat; try apply Rabs_pos; assumption).
  assert (Rabs (1 - C) * Rabs (x * y - a * b) <= 2 * (17 / 8 * d)) by (apply Rmult_le_compat; try apply Rabs_pos; assumption).
  lra.
Qed.
Lemma sz_pert s S z e : Rabs (s - S) <= d -> Rabs (z - e) <= d -> Rabs S <= 1 -> Rabs e <= 1 -> Rabs (s * z - S * e) <= 17 / 8 * d.
Proof. intros Hs Hz HS He. pose proof (prod_pert s z S e Hs Hz). nra. Qed.

Lemma tri2 a b c e1 e2 : Rabs (a - b) <= e1 -> Rabs (b - c) <= e2 -> Rabs (a - c) <= e1 + e2.
Proof. intros H1 H2. replace (a - c) with ((a - b) + (b - c)) by ring. eapply Rle_trans; [apply Rabs_triang|]. lra. Qed.

Lemma off_pert c C s S x y z a b e : Rabs (c - C) <= d -> Rabs (s - S) <= d -> Rabs (x - a) <= d -> Rabs (y - b) <= d -> Rabs (z - e) <= d ->
  Rabs C <= 1 -> Rabs S <= 1 -> Rabs a <= 1 -> Rabs b <= 1 -> Rabs e <= 1 ->
  Rabs (((1 - c) * x * y + s * z) - ((1 - C) * a * b + S * e)) <= 8 * d /\
  Rabs (((1 - c) * x * y - s * z) - ((1 - C) * a * b - S * e)) <= 8 * d.
Proof.
  intros. pose proof (kxy_pert c C x y a b ltac:(assumption) ltac:(assumption) ltac:(assumption) ltac:(assumption) ltac:(assumption) ltac:(assumption)) as P.
  pose proof (sz_pert s S z e ltac:(assumption) ltac:(assumption) ltac:(assumption) ltac:(assumption)) as Q.
  apply Rabs_le_inv in P, Q. split; apply Rabs_le; lra.
Qed.
Lemma diag_pert c C x a : Rabs (c - C) <= d -> Rabs (x - a) <= d -> Rabs C <= 1 -> Rabs a <= 1 ->
  Rabs (((1 - c) * x * x + c) - ((1 - C) * a * a + C)) <= 8 * d.
Proof.
  intros Hc Hx HC Ha. pose proof (kxy_pert c C x x a a Hc Hx Hx HC Ha Ha) as P. apply Rabs_le_inv in P. apply Rabs_le_inv in Hc.
  apply Rabs_le. lra.
Qed.

(** A quotient of two quadratic forms of a quaternion near a unit quaternion. *)
Lemma quot_pert P N P' : Rabs (P - P') <= 17 / 4 * d -> Rabs P' <= 1 -> d <= / 16 -> Rabs (N - 1) <= 17 / 4 * d -> Rabs (P / N - P') <= 12 * d.
Proof.
  intros HP HP' d16 HN. apply Rabs_le_inv in HN. assert (N0 : 47 / 64 <= N) by lra.
  replace (P / N - P') with ((P - P' - P' * (N - 1)) / N) by (field; lra).
  unfold Rdiv. rewrite Rabs_mult, Rabs_inv, (Rabs_pos_eq N) by lra.
  assert (A : Rabs (P - P' - P' * (N - 1)) <= 17 / 2 * d).
  { eapply Rle_trans; [apply Rabs_triang|]. rewrite Rabs_Ropp, Rabs_mult.
    assert (Rabs P' * Rabs (N - 1) <= 1 * (17 / 4 * d)) by (apply Rmult_le_compat; try apply Rabs_pos; [assumption|apply Rabs_le; lra]). lra. }
  apply (Rmult_le_reg_r N); [lra|]. rewrite Rmult_assoc, Rinv_l, Rmult_1_r by lra. nra.
Qed.
Lemma Rabs_mult_self x : Rabs x * Rabs x = x * x.
Proof. rewrite <- Rabs_mult. apply Rabs_pos_eq. apply Rle_0_sqr. Qed.
Lemma sum4_abs a b c e : a * a + b * b + c * c + e * e = 1 -> Rabs a + Rabs b + Rabs c + Rabs e <= 2.
Proof.
  intros H. rewrite <- (Rabs_mult_self a), <- (Rabs_mult_self b), <- (Rabs_mult_self c), <- (Rabs_mult_self e) in H.
  pose proof (Rabs_pos a). pose proof (Rabs_pos b). pose proof (Rabs_pos c). pose proof (Rabs_pos e).
  set (p := Rabs a) in *. set (q := Rabs b) in *. set (r := Rabs c) in *. set (t := Rabs e) in *.
  pose proof (Rle_0_sqr (p - / 2)). pose proof (Rle_0_sqr (q - / 2)). pose proof (Rle_0_sqr (r - / 2)). pose proof (Rle_0_sqr (t - / 2)).
  unfold Rsqr in *. lra.
Qed.
End Real.
