(** Proofs of the theorems of PCplxF.v. *)

From Coq Require Import List Arith ZArith Bool Lia Reals Lra Psatz.
From Flocq Require Import Core.Core Relative Mult_error IEEE754.BinarySingleNaN.
From Verif Require Import Base Scalar Spec SpecF SpecRigid SpecCplx SpecCR LBase MVector LVector MFloat LFloat LFloatP MFloatVec LFloatVec LFloatNormP MComplex MSign MComplexF
  LTrScF LRigidF LNormF LLibmP LSlerpS LSlerpW LDegF LDegFP LArc LArcN LComplexHP LComplexLP LCplxF.
Local Open Scope R_scope.

Section F.
Context {prec emax : Z} {Hp : Prec_gt_0 prec} {He : Prec_lt_emax prec emax}.
Notation fl := (binary_float prec emax).
Notation u := (bpow radix2 (- prec)).
Notation tiny := (bpow radix2 (2 - emax - prec)).

Lemma zero_add (y : fl) : y <> B754_zero true -> nadd n0 y = y.
Proof. destruct y as [[]|[]| |[] m e E]; intros H; try reflexivity. contradiction H. reflexivity. Qed.
Lemma square_sign (x : fl) : nmul x x <> B754_zero true.
Proof.
  intros E. destruct x as [s|s| |s m e H]; try (destruct s; discriminate E); try discriminate E.
  pose proof (Bmult_correct prec emax Hp He mode_NE (B754_finite s m e H) (B754_finite s m e H)) as C.
  change (Bmult mode_NE (B754_finite s m e H) (B754_finite s m e H)) with (nmul (B754_finite s m e H) (B754_finite s m e H) : fl) in C. rewrite E in C.
  destruct Rlt_bool.
  - destruct C as (_ & _ & C). specialize (C eq_refl). cbn in C. destruct s; discriminate C.
  - cbn in C. discriminate C.
Qed.
Lemma cnorm_vnorm (z : complex fl) : fc_norm z = fvnorm (v2 (re z) (im z)).
Proof.
  unfold fc_norm, fvnorm, vnorm_squared, cmodulus_squared, vdot, for_range. cbn -[nadd nmul n0].
  f_equal. f_equal. symmetry. apply zero_add, square_sign.
Qed.

Lemma cnorm_near (z : complex fl) k : (24 <= prec)%Z -> (0 <= k)%Z -> (2 * k + 31 <= emax)%Z -> cis_finite z = true ->
  let r := sqrt (B2R (re z) * B2R (re z) + B2R (im z) * B2R (im z)) in
  bpow radix2 (- k) <= r <= bpow radix2 k -> fnear (fc_norm z) r (8 * u * r).
Proof.
  intros H24 K0 K F r B. apply andb_prop in F. rewrite cnorm_vnorm.
  assert (RL : rlength 2 (fval (v2 (re z) (im z))) = r) .
  { unfold rlength, r. apply f_equal. change (0 + B2R (re z) * B2R (re z) + B2R (im z) * B2R (im z) = B2R (re z) * B2R (re z) + B2R (im z) * B2R (im z)). ring. }
  rewrite <- RL. apply (c97_any prec emax Hp He 2 k (v2 (re z) (im z)) H24 ltac:(lia) K0 K).
  - intros [|[|i]] Hi; try lia; [exact (proj1 F)|exact (proj2 F)].
  - rewrite RL. exact B.
Qed.

Lemma nis0_R (x : fl) : nis0 x = true -> B2R x = 0.
Proof. destruct x as [s|s| |s m e H]; intros E; try reflexivity. destruct s; discriminate E. Qed.

(** *** Products: exp, sin, cos, sinh, cosh *)
Variable L : libm fl.
Variable d : R.
Hypothesis D : u <= d <= / 64.
Notation big := (bpow radix2 (emax - 2)).

Lemma unit_le g x : -1 <= g <= 1 -> Rabs x <= big -> Rabs (x * g) <= big.
Proof.
  intros G X. rewrite Rabs_mult. pose proof (Rabs_pos x). assert (Rabs g <= 1) by (apply Rabs_le; lra).
  apply Rle_trans with (Rabs x * 1); [apply Rmult_le_compat_l; assumption|lra].
Qed.

Lemma exp_near (z : complex fl) : lib_at d exp (m_exp L) (re z) -> lib_at d cos (m_cos L) (im z) -> lib_at d sin (m_sin L) (im z) -> exp (B2R (re z)) <= big ->
  fnear (re (fc_exp L z)) (exp (B2R (re z)) * cos (B2R (im z))) (4 * d * Rabs (exp (B2R (re z)) * cos (B2R (im z))) + tiny) /\
  fnear (im (fc_exp L z)) (exp (B2R (re z)) * sin (B2R (im z))) (4 * d * Rabs (exp (B2R (re z)) * sin (B2R (im z))) + tiny).
Proof.
  intros E C S B. pose proof (exp_pos (B2R (re z))) as P. assert (Rabs (exp (B2R (re z))) <= big) by (rewrite Rabs_pos_eq by lra; exact B).
  split; apply (mul_rel _ _ _ _ d D); try assumption; apply unit_le; try assumption; [apply COS_bound|apply SIN_bound].
Qed.

Lemma cosh_ge1 x : 1 <= cosh x.
Proof.
  unfold cosh. rewrite exp_Ropp. pose proof (exp_pos x) as P. set (e := exp x) in *. assert (E : 0 < / e) by (apply Rinv_0_lt_compat, P).
  assert (Q : 0 <= (e - 1) * (e - 1) * / e) by (apply Rmult_le_pos; [apply Rle_0_sqr|lra]). replace ((e - 1) * (e - 1) * / e) with (e - 2 + / e) in Q by (field; lra). lra.
Qed.
Lemma sinh_le x : Rabs (sinh x) <= cosh x.
Proof. unfold sinh, cosh. pose proof (exp_pos x). pose proof (exp_pos (- x)). apply Rabs_le. lra. Qed.
Lemma cosh_even x : cosh (- x) = cosh x. Proof. unfold cosh. rewrite Ropp_involutive. lra. Qed.
Lemma sinh_odd x : sinh (- x) = - sinh x. Proof. unfold sinh. rewrite Ropp_involutive. lra. Qed.

Lemma cosh_near (z : complex fl) : cis_finite z = true -> lib_at d cosh (m_cosh L) (re z) -> lib_at d sinh (m_sinh L) (re z) ->
  lib_at d cos (m_cos L) (im z) -> lib_at d sin (m_sin L) (im z) -> cosh (B2R (re z)) <= big ->
  (fnear (re (fc_cosh L z)) (cosh (B2R (re z)) * cos (B2R (im z))) (4 * d * Rabs (cosh (B2R (re z)) * cos (B2R (im z))) + tiny) /\
   fnear (im (fc_cosh L z)) (sinh (B2R (re z)) * sin (B2R (im z))) (4 * d * Rabs (sinh (B2R (re z)) * sin (B2R (im z))) + tiny)) /\
  (fnear (re (fc_sinh L z)) (sinh (B2R (re z)) * cos (B2R (im z))) (4 * d * Rabs (sinh (B2R (re z)) * cos (B2R (im z))) + tiny) /\
   fnear (im (fc_sinh L z)) (cosh (B2R (re z)) * sin (B2R (im z))) (4 * d * Rabs (cosh (B2R (re z)) * sin (B2R (im z))) + tiny)).
Proof.
  intros F A B C S M. apply andb_prop in F. destruct F as (Fr & Fi). pose proof (cosh_ge1 (B2R (re z))) as P. pose proof (sinh_le (B2R (re z))) as Q.
  assert (MA : Rabs (cosh (B2R (re z))) <= big) by (rewrite Rabs_pos_eq by lra; exact M). assert (MB : Rabs (sinh (B2R (re z))) <= big) by lra.
  assert (G : forall (x y : fl) v w, fnear x v (d * Rabs v) -> fnear y w (d * Rabs w) -> Rabs v <= big -> -1 <= w <= 1 ->
    fnear (nmul x y) (v * w) (4 * d * Rabs (v * w) + tiny)).
  { intros x y v w X Y V W. apply (mul_rel _ _ _ _ d D X Y). apply unit_le; assumption. }
  assert (T : 0 < tiny) by apply bpow_gt_0.
  split.
  - unfold fc_cosh. rewrite Fr, Fi. cbn [negb andb]. rewrite !andb_false_r.
    destruct (nis0 (re z)) eqn:Zr; [destruct (nis0 (im z)) eqn:Zi|]; cbn [andb re im]; rewrite ?andb_false_r; cbn [re im].
    + assert (Vr : B2R (re z) = 0) by (apply nis0_R; assumption). assert (Vi : B2R (im z) = 0) by (apply nis0_R; assumption).
      rewrite Vr, Vi, cos_0, sin_0, cosh_0, sinh_0. split; split.
      * apply is_finite_Bone.
      * change (n1 : fl) with (Bone : fl). rewrite Bone_correct, Rmult_1_l, Rminus_diag_eq, Rabs_R0 by reflexivity. rewrite Rabs_R1. pose proof (bpow_gt_0 radix2 (- prec)). lra.
      * exact Fi.
      * rewrite Vi, Rmult_0_l, Rminus_diag_eq, Rabs_R0 by reflexivity. lra.
    + split; apply G; try assumption; [apply COS_bound|apply SIN_bound].
    + split; apply G; try assumption; [apply COS_bound|apply SIN_bound].
  - unfold fc_sinh. rewrite Fr, Fi. cbn [negb andb]. rewrite !andb_false_r. cbn [re im]. split; apply G; try assumption; [apply COS_bound|apply SIN_bound].
Qed.

Lemma cos_near (z : complex fl) : cis_finite z = true -> lib_at d cosh (m_cosh L) (nneg (im z)) -> lib_at d sinh (m_sinh L) (nneg (im z)) ->
  lib_at d cos (m_cos L) (re z) -> lib_at d sin (m_sin L) (re z) -> cosh (B2R (im z)) <= big ->
  (near_rel (4 * d) (re (fc_cos L z)) (cos (B2R (re z)) * cosh (B2R (im z))) /\ near_rel (4 * d) (im (fc_cos L z)) (- (sin (B2R (re z)) * sinh (B2R (im z))))) /\
  (near_rel (4 * d) (re (fc_sin L z)) (sin (B2R (re z)) * cosh (B2R (im z))) /\ near_rel (4 * d) (im (fc_sin L z)) (cos (B2R (re z)) * sinh (B2R (im z)))).
Proof.
  intros F A B C S M. set (w := mkC (nneg (im z)) (re z)).
  assert (Fw : cis_finite w = true).
  { apply andb_prop in F. unfold cis_finite, w. cbn [re im nneg num_float]. rewrite is_finite_Bopp, (proj1 F), (proj2 F). reflexivity. }
  assert (V : B2R (re w) = - B2R (im z)) by apply B2R_Bopp.
  destruct (cosh_near w Fw A B C S) as ((P1 & P2) & (P3 & P4)); [rewrite V, cosh_even; exact M|].
  rewrite V, ?cosh_even, ?sinh_odd in *. change (im w) with (re z) in *. split; split.
  - unfold near_rel. rewrite (Rmult_comm (cos _)). exact P1.
  - unfold near_rel. replace (- (sin (B2R (re z)) * sinh (B2R (im z)))) with (- sinh (B2R (im z)) * sin (B2R (re z))) by ring. exact P2.
  - unfold near_rel. rewrite (Rmult_comm (sin _)). exact P4.
  - unfold near_rel. destruct P3 as (Q1 & Q2). change (im (fc_sin L z)) with (nneg (re (fc_sinh L w))). split; [cbn [nneg num_float]; rewrite is_finite_Bopp; exact Q1|].
    cbn [nneg num_float]. rewrite B2R_Bopp.
    replace (cos (B2R (re z)) * sinh (B2R (im z))) with (- (- sinh (B2R (im z)) * cos (B2R (re z)))) by ring.
    match goal with |- Rabs (- ?x - - ?y) <= _ => replace (- x - - y) with (- (x - y)) by ring end. rewrite !Rabs_Ropp. exact Q2.
Qed.

(** *** Quotients: tan, tanh *)
Lemma double_exact (x : fl) : is_finite x = true -> Rabs (B2R x) <= big -> is_finite (nadd x x) = true /\ B2R (nadd x x) = 2 * B2R x.
Proof.
  intros Fx B. pose proof (half_max (emax := emax)) as HM.
  destruct (add_val x x Fx Fx) as (F & E & _); [replace (B2R x + B2R x) with (2 * B2R x) by ring; rewrite Rabs_mult, (Rabs_pos_eq 2) by lra; lra|].
  split; [exact F|]. rewrite E. replace (B2R x + B2R x) with (2 * B2R x) by ring.
  apply round_generic; [apply valid_rnd_N|]. rewrite Rmult_comm. change 2 with (bpow radix2 1).
  pose proof (generic_format_B2R prec emax x) as G. revert G. generalize (B2R x). intros r G.
  change (FLT_exp (SpecFloat.emin prec emax) prec) with (FLT_exp (3 - emax - prec) prec) in G.
  apply mult_bpow_pos_exact_FLT; [exact G|lia].
Qed.

Lemma tan_parts (x y : fl) a b k : fnear x (cosh a) (d * Rabs (cosh a)) -> fnear y (cos b) (d * Rabs (cos b)) -> cosh a <= / 2 * big ->
  cosh a + 1 <= k * (cosh a + cos b) -> 0 < cosh a + cos b -> 8 * d * k <= 1 ->
  fnear (nadd x y) (cosh a + cos b) (9 / 4 * d * k * Rabs (cosh a + cos b)).
Proof.
  intros (Fx & X) (Fy & Y) M K P0 K8. pose proof (cosh_ge1 a) as CA. pose proof (COS_bound b) as CB. pose proof (half_max (emax := emax)) as HM.
  pose proof (bpow_gt_0 radix2 (- prec)) as U0. rewrite (Rabs_pos_eq (cosh a)) in X by lra.
  assert (Y1 : Rabs (B2R y - cos b) <= d) by (assert (d * Rabs (cos b) <= d * 1) by (apply Rmult_le_compat_l; [lra|apply Rabs_le; lra]); lra).
  set (S := cosh a + 1) in *. set (T := cosh a + cos b) in *. assert (TS : T <= S) by (unfold S, T; lra).
  assert (E1 : Rabs (B2R x + B2R y - T) <= d * S).
  { unfold T, S. replace (B2R x + B2R y - (cosh a + cos b)) with ((B2R x - cosh a) + (B2R y - cos b)) by ring. eapply Rle_trans; [apply Rabs_triang|]. lra. }
  assert (S1 : 1 <= S) by (unfold S; lra).
  assert (DS : 0 <= d * S <= / 64 * S) by (split; [apply Rmult_le_pos; lra|apply Rmult_le_compat_r; lra]).
  assert (B1 : Rabs (B2R x + B2R y) <= 65 / 64 * S).
  { replace (B2R x + B2R y) with (T + (B2R x + B2R y - T)) by ring. eapply Rle_trans; [apply Rabs_triang|]. rewrite (Rabs_pos_eq T) by lra. lra. }
  destruct (add_val x y Fx Fy) as (F & _ & E); [unfold S in B1; lra|]. split; [exact F|].
  replace (B2R (nadd x y) - T) with ((B2R (nadd x y) - (B2R x + B2R y)) + (B2R x + B2R y - T)) by ring. eapply Rle_trans; [apply Rabs_triang|].
  rewrite (Rabs_pos_eq T) by lra.
  assert (u * Rabs (B2R x + B2R y) <= d * (65 / 64 * S)) by (apply Rmult_le_compat; [lra|apply Rabs_pos|lra|exact B1]).
  assert (d * S <= d * (k * T)) by (apply Rmult_le_compat_l; lra). lra.
Qed.

Lemma tanh_near (z : complex fl) k : cis_finite z = true -> Rabs (B2R (re z)) <= big -> Rabs (B2R (im z)) <= big ->
  let a := 2 * B2R (re z) in let b := 2 * B2R (im z) in
  lib_at d cosh (m_cosh L) (nadd (re z) (re z)) -> lib_at d sinh (m_sinh L) (nadd (re z) (re z)) ->
  lib_at d cos (m_cos L) (nadd (im z) (im z)) -> lib_at d sin (m_sin L) (nadd (im z) (im z)) ->
  cosh a <= / 2 * big -> 0 < cosh a + cos b -> cosh a + 1 <= k * (cosh a + cos b) -> 8 * d * k <= 1 ->
  near_rel (12 * d * k) (re (fc_tanh L z)) (sinh a / (cosh a + cos b)) /\ near_rel (12 * d * k) (im (fc_tanh L z)) (sin b / (cosh a + cos b)).
Proof.
  intros F Br Bi a b A B C S M P0 K K8. apply andb_prop in F. destruct F as (Fr & Fi).
  pose proof (cosh_ge1 a) as CA. pose proof (COS_bound b) as CB. pose proof (SIN_bound b) as SB. pose proof (sinh_le a) as SA. pose proof (bpow_gt_0 radix2 (- prec)) as U0.
  destruct (double_exact _ Fr Br) as (F1 & V1). destruct (double_exact _ Fi Bi) as (F2 & V2). fold a in V1. fold b in V2.
  unfold lib_at in A, B, C, S. rewrite V1 in A, B. rewrite V2 in C, S.
  pose proof (tan_parts _ _ a b k A C M K P0 K8) as T.
  set (t := cosh a + cos b) in *.
  assert (K1 : 1 <= k) by (apply (Rmult_le_reg_r t); [exact P0|unfold t in *; lra]).
  assert (DK : d * 1 <= d * k) by (apply Rmult_le_compat_l; lra).
  assert (KB : k <= big).
  { apply Rle_trans with (bpow radix2 (prec - 3)); [|apply bpow_le; pose proof He as X; unfold Prec_lt_emax in X; lia].
    replace (bpow radix2 (prec - 3)) with (/ 8 * / u).
    - apply (Rmult_le_reg_r (8 * u)); [lra|]. replace (/ 8 * / u * (8 * u)) with 1 by (field; lra).
      assert (u * k <= d * k) by (apply Rmult_le_compat_r; lra). lra.
    - rewrite <- bpow_opp, Z.opp_involutive. change (/ 8) with (bpow radix2 (-3)). rewrite <- bpow_plus. f_equal. ring. }
  assert (Q : forall v, Rabs v <= cosh a -> Rabs (v / t) <= big).
  { intros v V. unfold Rdiv. rewrite Rabs_mult, Rabs_inv, (Rabs_pos_eq t) by lra.
    apply Rle_trans with k; [|exact KB]. apply (Rmult_le_reg_r t); [exact P0|]. rewrite Rmult_assoc, Rinv_l, Rmult_1_r by lra. lra. }
  assert (G : forall (x y : fl) v, fnear x v (d * Rabs v) -> fnear y t (9 / 4 * d * k * Rabs t) -> Rabs v <= cosh a -> near_rel (12 * d * k) (ndiv x y) (v / t)).
  { intros x y v X Y V. destruct (div_rel x y v t d (9 / 4 * d * k)) as (F & E); [exact D|split; lra|exact X|exact Y|lra|apply Q, V|].
    split; [exact F|]. eapply Rle_trans; [exact E|]. assert (5 * (9 / 4 * d * k) * Rabs (v / t) <= 12 * d * k * Rabs (v / t)); [|lra].
    apply Rmult_le_compat_r; [apply Rabs_pos|lra]. }
  assert (I : fis_infinite (re z) = false /\ is_nan (re z) = false) by (destruct (re z); try discriminate Fr; split; reflexivity).
  unfold fc_tanh. rewrite (proj1 I), (proj2 I). cbn [andb re im]. split; apply G; try assumption. apply Rabs_le. lra.
Qed.

Lemma tan_near (z : complex fl) k : cis_finite z = true -> Rabs (B2R (re z)) <= big -> Rabs (B2R (im z)) <= big ->
  let a := 2 * B2R (re z) in let b := 2 * B2R (im z) in let nb := nneg (im z) in
  lib_at d cosh (m_cosh L) (nadd nb nb) -> lib_at d sinh (m_sinh L) (nadd nb nb) ->
  lib_at d cos (m_cos L) (nadd (re z) (re z)) -> lib_at d sin (m_sin L) (nadd (re z) (re z)) ->
  cosh b <= / 2 * big -> 0 < cosh b + cos a -> cosh b + 1 <= k * (cosh b + cos a) -> 8 * d * k <= 1 ->
  near_rel (12 * d * k) (re (fc_tan L z)) (sin a / (cosh b + cos a)) /\ near_rel (12 * d * k) (im (fc_tan L z)) (sinh b / (cosh b + cos a)).
Proof.
  intros F Br Bi a b nb A B C S M P0 K K8. set (w := mkC nb (re z)).
  assert (Fw : cis_finite w = true).
  { apply andb_prop in F. unfold cis_finite, w, nb. cbn [re im nneg num_float]. rewrite is_finite_Bopp, (proj1 F), (proj2 F). reflexivity. }
  assert (V : B2R (re w) = - B2R (im z)) by apply B2R_Bopp.
  assert (V2 : 2 * B2R (re w) = - b) by (rewrite V; unfold b; ring).
  destruct (tanh_near w k Fw) as (P & Q); rewrite ?V2, ?cosh_even; try assumption.
  { rewrite V, Rabs_Ropp. exact Bi. }
  change (im w) with (re z) in P, Q. fold a in P, Q. rewrite V2, cosh_even in P, Q. rewrite sinh_odd in P. split; [exact Q|].
  destruct P as (Q1 & Q2). change (im (fc_tan L z)) with (nneg (re (fc_tanh L w))). split; [cbn [nneg num_float]; rewrite is_finite_Bopp; exact Q1|].
  cbn [nneg num_float]. rewrite B2R_Bopp. replace (sinh b / (cosh b + cos a)) with (- (- sinh b / (cosh b + cos a))) by (field; lra).
  match goal with |- Rabs (- ?x - - ?y) <= _ => replace (- x - - y) with (- (x - y)) by ring end. rewrite !Rabs_Ropp. exact Q2.
Qed.

(** *** Polar form: ln, sqrt, cbrt, powf *)
Hypothesis H24 : (24 <= prec)%Z.
Lemma u24 : 0 < u <= / 16777216. Proof. exact (u_small H24). Qed.

Lemma polar_length r phi : 0 <= r -> sqrt (r * cos phi * (r * cos phi) + r * sin phi * (r * sin phi)) = r.
Proof.
  intros H. replace (r * cos phi * (r * cos phi) + r * sin phi * (r * sin phi)) with (r * r * (Rsqr (sin phi) + Rsqr (cos phi))) by (unfold Rsqr; ring).
  rewrite sin2_cos2, Rmult_1_r. apply sqrt_square, H.
Qed.

Lemma ln_low x : 0 < x -> 1 - / x <= ln x <= x - 1.
Proof.
  intros X. assert (U : forall y, 0 < y -> ln y <= y - 1) by (intros y Y; pose proof (exp_ineq1_le (ln y)) as E; rewrite exp_ln in E by exact Y; lra).
  split; [|apply U, X]. assert (I : 0 < / x) by (apply Rinv_0_lt_compat, X). pose proof (U _ I) as E. rewrite ln_Rinv in E by exact X. lra.
Qed.
Lemma ln_near n r c : 0 < r -> 0 <= c <= / 1000 -> Rabs (n - r) <= c * r -> 0 < n /\ Rabs (ln n - ln r) <= 9 / 8 * c.
Proof.
  intros P C H. apply Rabs_le_inv in H. assert (CR : 0 <= c * r <= / 1000 * r) by (split; [apply Rmult_le_pos; lra|apply Rmult_le_compat_r; lra]).
  assert (N : 0 < n) by lra. split; [exact N|].
  assert (Q : 0 < n / r) by (apply Rdiv_lt_0_compat; assumption).
  replace (ln n) with (ln (n / r) + ln r) by (rewrite <- ln_mult by assumption; f_equal; field; lra).
  replace (ln (n / r) + ln r - ln r) with (ln (n / r)) by ring. pose proof (ln_low _ Q) as (A & B).
  assert (B1 : n / r <= 1 + c) by (apply (Rmult_le_reg_r r); [exact P|]; unfold Rdiv; rewrite Rmult_assoc, Rinv_l by lra; lra).
  assert (A1 : / (n / r) <= 1 + 9 / 8 * c).
  { replace (/ (n / r)) with (r / n) by (field; lra). apply (Rmult_le_reg_r n); [exact N|]. unfold Rdiv. rewrite Rmult_assoc, Rinv_l by lra.
    assert (0 <= c * (c * r) <= / 1000 * (c * r)) by (split; [apply Rmult_le_pos; lra|apply Rmult_le_compat_r; lra]).
    apply Rle_trans with ((1 + 9 / 8 * c) * (r - c * r)); [lra|apply Rmult_le_compat_l; lra]. }
  apply Rabs_le. lra.
Qed.

Section Polar.
Variables (z : complex fl) (r phi : R) (k : Z).
Hypothesis Fz : cis_finite z = true.
Hypothesis Ea : B2R (re z) = r * cos phi.
Hypothesis Eb : B2R (im z) = r * sin phi.
Hypothesis Hphi : - PI <= phi <= PI.
Hypothesis K0 : (0 <= k)%Z.
Hypothesis K : (2 * k + 31 <= emax)%Z.
Hypothesis Hr : bpow radix2 (- k) <= r <= bpow radix2 k.

Lemma r_pos : 0 < r. Proof. pose proof (bpow_gt_0 radix2 (- k)). lra. Qed.
Lemma norm_polar : fnear (fc_norm z) r (8 * u * r).
Proof.
  pose proof r_pos as P. pose proof (cnorm_near z k H24 K0 K Fz) as N. cbv zeta in N. rewrite Ea, Eb, polar_length in N by lra. apply N, Hr.
Qed.

Lemma ln_polar : lib_at d ln (m_ln L) (fc_norm z) -> fnear (re (fc_ln L z)) (ln r) (d * Rabs (ln r) + 10 * u).
Proof.
  intros (F & E). pose proof u24 as U. pose proof r_pos as P. destruct norm_polar as (_ & N).
  destruct (ln_near (B2R (fc_norm z)) r (8 * u) P ltac:(lra) N) as (_ & LN). split; [exact F|]. change (re (fc_ln L z)) with (m_ln L (fc_norm z)).
  set (n := B2R (fc_norm z)) in *.
  replace (B2R (m_ln L (fc_norm z)) - ln r) with ((B2R (m_ln L (fc_norm z)) - ln n) + (ln n - ln r)) by ring. eapply Rle_trans; [apply Rabs_triang|].
  assert (B : Rabs (ln n) <= Rabs (ln r) + 9 / 8 * (8 * u)) by (replace (ln n) with (ln r + (ln n - ln r)) by ring; eapply Rle_trans; [apply Rabs_triang|lra]).
  assert (d * Rabs (ln n) <= d * (Rabs (ln r) + 9 / 8 * (8 * u))) by (apply Rmult_le_compat_l; lra).
  assert (d * u <= / 64 * u) by (apply Rmult_le_compat_r; lra). lra.
Qed.

Lemma tiny_small : 0 < tiny <= u * bpow radix2 (- k).
Proof. split; [apply bpow_gt_0|]. rewrite <- bpow_plus. apply bpow_le. lia. Qed.

(** Angle divided by 2 or 3. *)
Lemma angle_div (c : fl) (m : R) : is_finite c = true -> B2R c = m -> 2 <= m -> fnear (fc_arg L z) phi (d * Rabs phi) ->
  fnear (ndiv (fc_arg L z) c) (phi / m) (4 * d).
Proof.
  intros Fc Ec Hm (F & E). pose proof u24 as U. pose proof PI_digits as PD.
  assert (B : Rabs phi <= 22 / 7) by (apply Rabs_le; lra).
  assert (DB : d * Rabs phi <= d * (22 / 7)) by (apply Rmult_le_compat_l; lra).
  set (f := B2R (fc_arg L z)) in *.
  assert (FB : Rabs f <= 7 / 2) by (replace f with (phi + (f - phi)) by ring; eapply Rle_trans; [apply Rabs_triang|lra]).
  assert (I : 0 < / m <= / 2) by (split; [apply Rinv_0_lt_compat; lra|apply Rinv_le; lra]).
  assert (Q : Rabs (f / m) <= 7 / 4).
  { unfold Rdiv. rewrite Rabs_mult, (Rabs_pos_eq (/ m)) by lra. apply Rle_trans with (7 / 2 * / 2); [apply Rmult_le_compat; [apply Rabs_pos|lra|exact FB|lra]|lra]. }
  assert (Q2 : Rabs (f / m - phi / m) <= 11 / 7 * d).
  { replace (f / m - phi / m) with ((f - phi) * / m) by (field; lra). rewrite Rabs_mult, (Rabs_pos_eq (/ m)) by lra.
    apply Rle_trans with (d * (22 / 7) * / 2); [apply Rmult_le_compat; [apply Rabs_pos|lra|lra|lra]|lra]. }
  destruct (div_val (fc_arg L z) c F) as (Fq & Eq); rewrite ?Ec; [lra| |].
  { fold f. apply Rle_trans with (bpow radix2 1); [change (bpow radix2 1) with 2; lra|apply bpow_le; lia]. }
  split; [exact Fq|]. rewrite Eq, Ec. fold f. pose proof (rnd_rel (prec := prec) (emax := emax) (f / m)) as RR. set (q := f / m) in *.
  set (rq := round radix2 (FLT_exp (3 - emax - prec) prec) ZnearestE q) in *.
  assert (u * Rabs q <= u * (7 / 4)) by (apply Rmult_le_compat_l; lra). pose proof tiny_small as T.
  assert (bpow radix2 (- k) <= 1) by (apply (bpow_le radix2 (- k) 0); lia).
  assert (u * bpow radix2 (- k) <= u * 1) by (apply Rmult_le_compat_l; lra).
  assert (T2 : tiny <= u * / 8).
  { change (/ 8) with (bpow radix2 (-3)). rewrite <- bpow_plus. apply bpow_le. lia. }
  replace (rq - phi / m) with ((rq - q) + (q - phi / m)) by ring. eapply Rle_trans; [apply Rabs_triang|]. lra.
Qed.

Lemma root_near (x c : fl) (m p : R) : is_finite c = true -> B2R c = m -> 2 <= m -> fnear (fc_arg L z) phi (d * Rabs phi) ->
  let t := ndiv (fc_arg L z) c in
  lib_at d cos (m_cos L) t -> lib_at d sin (m_sin L) t -> d <= / 1000 -> bpow radix2 (- k) <= p <= bpow radix2 k -> fnear x p (10 * d * p) ->
  fnear (nmul x (m_cos L t)) (p * cos (phi / m)) (21 * d * p) /\ fnear (nmul x (m_sin L t)) (p * sin (phi / m)) (21 * d * p).
Proof.
  intros Fc Ec Hm A t C S D2 P X. pose proof u24 as U. pose proof tiny_small as T.
  destruct (angle_div c m Fc Ec Hm A) as (Ft & Et). fold t in Ft, Et.
  assert (P0 : 0 < p) by (pose proof (bpow_gt_0 radix2 (- k)); lra).
  assert (PB : 0 <= p <= bpow radix2 (emax - 3)) by (split; [lra|]; apply Rle_trans with (bpow radix2 k); [lra|apply bpow_le; lia]).
  assert (TP : tiny <= d * p) by (eapply Rle_trans; [apply T|]; apply Rmult_le_compat; try lra; apply bpow_ge_0).
  assert (UP : u * p <= d * p) by (apply Rmult_le_compat_r; lra).
  assert (W : forall (y : fl) v e f, fnear y v e -> e <= f -> fnear y v f) by (intros y v e f (F & E) H; split; [exact F|lra]).
  split.
  - eapply W; [apply (polar_near x (m_cos L t) p (cos (phi / m)) (10 * d) (d + 4 * d)); [lra|exact X|exact PB|apply COS_bound|lra|lra|]|].
    + apply (lib_shift cos); [exact cos_lip|exact COS_bound|lra|exact C|exact Et].
    + lra.
  - eapply W; [apply (polar_near x (m_sin L t) p (sin (phi / m)) (10 * d) (d + 4 * d)); [lra|exact X|exact PB|apply SIN_bound|lra|lra|]|].
    + apply (lib_shift sin); [exact sin_lip|exact SIN_bound|lra|exact S|exact Et].
    + lra.
Qed.

(** The radius of the square root and of the cube root. *)
Lemma sqrt_range : bpow radix2 (- k) <= sqrt r <= bpow radix2 k.
Proof.
  pose proof r_pos as P. assert (S : 0 <= sqrt r) by apply sqrt_pos. pose proof (sqrt_sqrt r ltac:(lra)) as E.
  assert (A : bpow radix2 (- k) <= 1) by (apply (bpow_le radix2 (- k) 0); lia). assert (B : 1 <= bpow radix2 k) by (apply (bpow_le radix2 0 k); lia).
  pose proof (bpow_gt_0 radix2 (- k)) as A0. split.
  - destruct (Rle_or_lt (bpow radix2 (- k)) (sqrt r)) as [H|H]; [exact H|]. exfalso.
    assert (sqrt r * sqrt r <= 1 * sqrt r) by (apply Rmult_le_compat_r; lra). lra.
  - destruct (Rle_or_lt (sqrt r) (bpow radix2 k)) as [H|H]; [exact H|]. exfalso.
    assert (1 * sqrt r < sqrt r * sqrt r) by (apply Rmult_lt_compat_r; lra). lra.
Qed.
Lemma sqrt_radius : fnear (fsqrt (fc_norm z)) (sqrt r) (10 * d * sqrt r).
Proof.
  pose proof u24 as U. pose proof r_pos as P. pose proof tiny_small as T. destruct norm_polar as (F & N). pose proof sqrt_range as SR.
  assert (UR : 8 * u * r <= / 2 * r) by (apply Rmult_le_compat_r; lra).
  assert (N0 : 0 < B2R (fc_norm z)) by (apply Rabs_le_inv in N; lra).
  destruct (sqrt_R (fc_norm z)) as (Fs & Es); [split; [apply pos_sg; assumption|apply fin_nn_nan, F]|exact F|]. split; [exact Fs|]. rewrite Es.
  pose proof (sq_root_near (B2R (fc_norm z)) r (8 * u) P (Rlt_le _ _ N0) N) as S. assert (S0 : 0 < sqrt r) by (apply sqrt_lt_R0, P).
  pose proof (rnd_near (prec := prec) (emax := emax) (sqrt (B2R (fc_norm z))) (sqrt r) (8 * u)) as RN. rewrite (Rabs_pos_eq (sqrt r)) in RN by lra.
  eapply Rle_trans; [apply RN; [lra|lra|exact S]|].
  assert (tiny <= / 2 * u * sqrt r).
  { apply Rle_trans with (/ 2 * u * bpow radix2 (- k)); [|apply Rmult_le_compat_l; lra].
    change (/ 2) with (bpow radix2 (-1)). rewrite <- !bpow_plus. apply bpow_le. lia. }
  assert (u * sqrt r <= d * sqrt r) by (apply Rmult_le_compat_r; lra). lra.
Qed.

Lemma sqrt_polar : fnear (fc_arg L z) phi (d * Rabs phi) ->
  let t := ndiv (fc_arg L z) (nadd n1 n1) in lib_at d cos (m_cos L) t -> lib_at d sin (m_sin L) t -> d <= / 1000 ->
  fnear (re (fc_sqrt L z)) (sqrt r * cos (phi / 2)) (21 * d * sqrt r) /\ fnear (im (fc_sqrt L z)) (sqrt r * sin (phi / 2)) (21 * d * sqrt r).
Proof.
  intros A t C S D2. destruct (@two_val prec emax _ _) as (F2 & V2).
  exact (root_near (fsqrt (fc_norm z)) (nadd n1 n1) 2 (sqrt r) F2 V2 ltac:(lra) A C S D2 sqrt_range sqrt_radius).
Qed.

Lemma three_val : is_finite (nadd (nadd n1 n1) n1 : fl) = true /\ B2R (nadd (nadd n1 n1) n1 : fl) = 3.
Proof.
  destruct (@two_val prec emax _ _) as (F2 & V2).
  assert (F1 : is_finite (n1 : fl) = true /\ B2R (n1 : fl) = 1) by (split; [apply is_finite_Bone|apply Bone_correct]). destruct F1 as (F1 & V1).
  change (B2R (nadd n1 n1 : fl) = 2) in V2. change (is_finite (nadd n1 n1 : fl) = true) in F2.
  assert (G : round radix2 (FLT_exp (3 - emax - prec) prec) ZnearestE 3 = 3).
  { apply round_generic; [apply valid_rnd_N|]. apply generic_format_FLT. exists (Float radix2 3 0); [unfold F2R; cbn [Fnum Fexp]; change (bpow radix2 0) with 1; lra| |cbn [Fexp]; lia].
    cbn [Fnum]. apply Z.lt_le_trans with (2 ^ 2)%Z; [reflexivity|]. apply (Z.pow_le_mono_r 2); lia. }
  destruct (add_val (nadd n1 n1 : fl) n1 F2 F1) as (F3 & V3 & _).
  - rewrite V1, V2. apply Rle_trans with (bpow radix2 2); [rewrite Rabs_pos_eq by lra; change (bpow radix2 2) with 4; lra|apply bpow_le; lia].
  - split; [exact F3|]. etransitivity; [exact V3|]. rewrite V1, V2. replace (2 + 1) with 3 by ring. exact G.
Qed.

Lemma cube_root_pow x : 0 < x -> 0 < Rpower x (/ 3) /\ Rpower x (/ 3) ^ 3 = x.
Proof.
  intros X. split; [apply exp_pos|]. rewrite <- Rpower_pow by apply exp_pos. rewrite Rpower_mult. replace (/ 3 * INR 3) with 1 by (cbn; lra). apply Rpower_1, X.
Qed.
Lemma cbrt_range : bpow radix2 (- k) <= Rpower r (/ 3) <= bpow radix2 k.
Proof.
  pose proof r_pos as P. destruct (cube_root_pow r P) as (C0 & C3). set (c := Rpower r (/ 3)) in *.
  assert (A : bpow radix2 (- k) <= 1) by (apply (bpow_le radix2 (- k) 0); lia). assert (B : 1 <= bpow radix2 k) by (apply (bpow_le radix2 0 k); lia).
  split.
  - destruct (Rle_or_lt (bpow radix2 (- k)) c) as [H|H]; [exact H|]. exfalso.
    assert (c * c <= 1 * 1) by (apply Rmult_le_compat; lra). assert (c * c * c <= 1 * c) by (apply Rmult_le_compat_r; lra). assert (c ^ 3 = c * c * c) by ring. lra.
  - destruct (Rle_or_lt c (bpow radix2 k)) as [H|H]; [exact H|]. exfalso.
    assert (1 * 1 <= c * c) by (apply Rmult_le_compat; lra). assert (1 * c <= c * c * c) by (apply Rmult_le_compat_r; lra). assert (c ^ 3 = c * c * c) by ring. lra.
Qed.
Lemma cbrt_radius : lib_at d (fun x => Rpower x (/ 3)) (m_cbrt L) (fc_norm z) -> fnear (m_cbrt L (fc_norm z)) (Rpower r (/ 3)) (10 * d * Rpower r (/ 3)).
Proof.
  intros (F & E). pose proof u24 as U. pose proof r_pos as P. destruct norm_polar as (_ & N).
  assert (UR : 8 * u * r <= / 2 * r) by (apply Rmult_le_compat_r; lra).
  assert (N0 : 0 < B2R (fc_norm z)) by (apply Rabs_le_inv in N; lra). split; [exact F|].
  destruct (cube_root_pow r P) as (C0 & C3). destruct (cube_root_pow _ N0) as (D0 & D3). cbv beta in E.
  set (n := Rpower (B2R (fc_norm z)) (/ 3)) in *. set (c := Rpower r (/ 3)) in *.
  assert (CN : Rabs (n - c) <= 8 * u * c) by (apply cube_root_near; [lra|exact C0|rewrite C3, D3; exact N]).
  rewrite (Rabs_pos_eq n) in E by lra.
  replace (B2R (m_cbrt L (fc_norm z)) - c) with ((B2R (m_cbrt L (fc_norm z)) - n) + (n - c)) by ring. eapply Rle_trans; [apply Rabs_triang|].
  assert (UC : u * c <= d * c) by (apply Rmult_le_compat_r; lra). assert (DC : d * c <= / 64 * c) by (apply Rmult_le_compat_r; lra).
  assert (NB : n <= (1 + / 8) * c) by (apply Rabs_le_inv in CN; lra).
  assert (d * n <= d * ((1 + / 8) * c)) by (apply Rmult_le_compat_l; lra). assert (0 <= d * c) by (apply Rmult_le_pos; lra). lra.
Qed.
Lemma cbrt_polar : fnear (fc_arg L z) phi (d * Rabs phi) -> lib_at d (fun x => Rpower x (/ 3)) (m_cbrt L) (fc_norm z) ->
  let t := ndiv (fc_arg L z) (nadd (nadd n1 n1) n1) in lib_at d cos (m_cos L) t -> lib_at d sin (m_sin L) t -> d <= / 1000 ->
  let p := Rpower r (/ 3) in
  fnear (re (fc_cbrt L z)) (p * cos (phi / 3)) (21 * d * p) /\ fnear (im (fc_cbrt L z)) (p * sin (phi / 3)) (21 * d * p).
Proof.
  intros A CB t C S D2 p. destruct three_val as (F3 & V3).
  exact (root_near (m_cbrt L (fc_norm z)) (nadd (nadd n1 n1) n1) 3 p F3 V3 ltac:(lra) A C S D2 cbrt_range (cbrt_radius CB)).
Qed.

(** powf. *)
Lemma exp_shift a b h : 0 <= h <= / 5 -> Rabs (a - b) <= h -> Rabs (exp a - exp b) <= 13 / 10 * h * exp b.
Proof.
  intros H E. apply Rabs_le_inv in E. pose proof (exp_pos b) as B. replace (exp a - exp b) with (exp b * (exp (a - b) - 1)) by (unfold Rminus; rewrite exp_plus, exp_Ropp; field; lra).
  rewrite Rabs_mult, (Rabs_pos_eq (exp b)) by lra. rewrite (Rmult_comm (exp b)). apply Rmult_le_compat_r; [lra|].
  set (t := a - b) in *. pose proof (exp_ineq1_le t) as L1. pose proof (exp_ineq1_le (- t)) as L2. rewrite exp_Ropp in L2. pose proof (exp_pos t) as T.
  assert (UB : exp t * (1 - t) <= 1) by (apply Rle_trans with (exp t * / exp t); [apply Rmult_le_compat_l; lra|rewrite Rinv_r by lra; lra]).
  apply Rabs_le. split; [lra|].
  apply Rmult_le_reg_r with (1 - t); [lra|]. 
  destruct (Rle_or_lt t 0) as [T0|T0].
  - assert (exp t - 1 <= 0) by (assert (exp t <= exp 0) by (destruct (Rle_lt_or_eq_dec _ _ T0) as [Q| ->]; [left; apply exp_increasing, Q|lra]); rewrite exp_0 in *; lra).
    apply Rle_trans with 0; [|apply Rmult_le_pos; lra]. assert (0 <= (1 - exp t) * (1 - t)) by (apply Rmult_le_pos; lra). lra.
  - assert (h * t <= h * / 5) by (apply Rmult_le_compat_l; lra). lra.
Qed.

Lemma powf_args (e : fl) : is_finite e = true -> fnear (fc_arg L z) phi (d * Rabs phi) -> lib_at d ln (m_ln L) (fc_norm z) ->
  let x := nmul (m_ln L (fc_norm z)) e in let t := nmul (fc_arg L z) e in
  let h := 11 * d * Rabs (B2R e) * (1 + Rabs (ln r)) + tiny in
  h <= / 5 ->
  (is_finite x = true /\ is_finite t = true) /\ Rabs (B2R x - B2R e * ln r) <= h /\ Rabs (B2R t - B2R e * phi) <= h.
Proof.
  intros Fe (Fa & A) LN x t h Hh. pose proof u24 as U. pose proof (ln_polar LN) as (Fl & LP). clear LN.
  change (re (fc_ln L z)) with (m_ln L (fc_norm z)) in Fl, LP. set (E := B2R e) in *. set (l := B2R (m_ln L (fc_norm z))) in *. set (f := B2R (fc_arg L z)) in *.
  pose proof (Rabs_pos E) as E0. pose proof (Rabs_pos (ln r)) as L0. pose proof (bpow_gt_0 radix2 (2 - emax - prec)) as T0.
  set (q := Rabs (ln r)) in *. set (ae := Rabs E) in *.
  assert (EQ : 0 <= ae * q) by (apply Rmult_le_pos; lra).
  pose proof PI_digits as PD. assert (PB : Rabs phi <= 22 / 7) by (apply Rabs_le; lra).
  assert (DB : d * Rabs phi <= d * (22 / 7)) by (apply Rmult_le_compat_l; lra).
  assert (HB : d * ae * (1 + q) <= / 55) by (unfold h in Hh; lra).
  assert (DE : 0 <= d * ae) by (apply Rmult_le_pos; lra). assert (DEQ : 0 <= d * ae * q) by (apply Rmult_le_pos; lra).
  assert (UDE : u * ae <= d * ae) by (apply Rmult_le_compat_r; lra).
  assert (UDEQ : u * (ae * q) <= d * (ae * q)) by (apply Rmult_le_compat_r; lra).
  assert (DDE : d * (d * ae) <= / 64 * (d * ae)) by (apply Rmult_le_compat_r; lra).
  assert (DDEQ : d * (d * ae * q) <= / 64 * (d * ae * q)) by (apply Rmult_le_compat_r; lra).
  assert (UU : u * (u * ae) <= / 64 * (u * ae)) by (apply Rmult_le_compat_r; [apply Rmult_le_pos; lra|lra]).
  assert (UD1 : u * (d * ae) <= / 64 * (d * ae)) by (apply Rmult_le_compat_r; lra).
  assert (UD2 : u * (d * ae * q) <= / 64 * (d * ae * q)) by (apply Rmult_le_compat_r; lra).
  (* the product with the logarithm *)
  assert (LE : Rabs (l * E - E * ln r) <= d * ae * q + 10 * (u * ae)).
  { replace (l * E - E * ln r) with ((l - ln r) * E) by ring. rewrite Rabs_mult. fold ae. apply Rle_trans with ((d * q + 10 * u) * ae); [apply Rmult_le_compat_r; assumption|lra]. }
  assert (LB : Rabs (l * E) <= ae * q + (d * ae * q + 10 * (u * ae))).
  { replace (l * E) with (E * ln r + (l * E - E * ln r)) by ring. eapply Rle_trans; [apply Rabs_triang|]. rewrite Rabs_mult. fold ae q. lra. }
  assert (AE : Rabs (f * E - E * phi) <= 22 / 7 * (d * ae)).
  { replace (f * E - E * phi) with ((f - phi) * E) by ring. rewrite Rabs_mult. fold ae. apply Rle_trans with (d * (22 / 7) * ae); [apply Rmult_le_compat_r; lra|lra]. }
  assert (AB : Rabs (f * E) <= 22 / 7 * ae + 22 / 7 * (d * ae)).
  { replace (f * E) with (E * phi + (f * E - E * phi)) by ring. eapply Rle_trans; [apply Rabs_triang|]. rewrite Rabs_mult. fold ae.
    assert (ae * Rabs phi <= ae * (22 / 7)) by (apply Rmult_le_compat_l; lra). lra. }
  assert (BIG : ae + ae * q <= bpow radix2 (prec - 5)).
  { apply (Rmult_le_reg_l u); [lra|]. rewrite <- bpow_plus. replace (- prec + (prec - 5))%Z with (-5)%Z by ring. change (bpow radix2 (-5)) with (/ 32). lra. }
  assert (BB : bpow radix2 (prec - 5) * 8 <= bpow radix2 (emax - 1)).
  { change 8 with (bpow radix2 3). rewrite <- bpow_plus. apply bpow_le. pose proof (prec_lt_emax prec emax). lia. }
  assert (B1 : 1 <= bpow radix2 (prec - 5)) by (apply (bpow_le radix2 0); lia).
  destruct (mul_val (m_ln L (fc_norm z)) e Fl Fe) as (FXm & EX); [fold l E; lra|].
  destruct (mul_val (fc_arg L z) e Fa Fe) as (FTm & ET); [fold f E; lra|].
  fold x in FXm, EX. fold t in FTm, ET. fold l E in EX. fold f E in ET.
  assert (XE : Rabs (B2R x - E * ln r) <= h).
  { rewrite EX. pose proof (rnd_rel (prec := prec) (emax := emax) (l * E)) as RR. set (rq := round radix2 (FLT_exp (3 - emax - prec) prec) ZnearestE (l * E)) in *.
    assert (u * Rabs (l * E) <= u * (ae * q + (d * ae * q + 10 * (u * ae)))) by (apply Rmult_le_compat_l; lra).
    replace (rq - E * ln r) with ((rq - l * E) + (l * E - E * ln r)) by ring. eapply Rle_trans; [apply Rabs_triang|]. unfold h. lra. }
  assert (TE : Rabs (B2R t - E * phi) <= h).
  { rewrite ET. pose proof (rnd_rel (prec := prec) (emax := emax) (f * E)) as RR. set (rq := round radix2 (FLT_exp (3 - emax - prec) prec) ZnearestE (f * E)) in *.
    assert (u * Rabs (f * E) <= u * (22 / 7 * ae + 22 / 7 * (d * ae))) by (apply Rmult_le_compat_l; lra).
    replace (rq - E * phi) with ((rq - f * E) + (f * E - E * phi)) by ring. eapply Rle_trans; [apply Rabs_triang|]. unfold h. lra. }
  exact (conj (conj FXm FTm) (conj XE TE)).
Qed.

Lemma powf_polar (e : fl) : is_finite e = true -> fnear (fc_arg L z) phi (d * Rabs phi) -> lib_at d ln (m_ln L) (fc_norm z) ->
  let x := nmul (m_ln L (fc_norm z)) e in let t := nmul (fc_arg L z) e in
  lib_at d exp (m_exp L) x -> lib_at d cos (m_cos L) t -> lib_at d sin (m_sin L) t ->
  let h := 11 * d * Rabs (B2R e) * (1 + Rabs (ln r)) + tiny in
  h <= / 5 ->
  let p := Rpower r (B2R e) in
  p <= bpow radix2 (emax - 3) ->
  fnear (re (fc_powf L z e)) (p * cos (B2R e * phi)) ((6 * d + 3 * h) * p + tiny) /\ fnear (im (fc_powf L z e)) (p * sin (B2R e * phi)) ((6 * d + 3 * h) * p + tiny).
Proof.
  intros Fe (Fa & A) LN x t (FX & X) C S h Hh p Pp. pose proof u24 as U. destruct (powf_args e Fe (conj Fa A) LN Hh) as (_ & XE & TE). fold x in XE. fold t in TE. fold h in XE, TE.
  set (E := B2R e) in *. pose proof (bpow_gt_0 radix2 (2 - emax - prec)) as T0.
  assert (H0 : 0 <= h) by (eapply Rle_trans; [apply Rabs_pos|exact XE]).
  assert (P0 : 0 < p) by apply exp_pos. assert (PE : p = exp (E * ln r)) by reflexivity.
  assert (PX : fnear (m_exp L x) p ((4 / 3 * d + 4 / 3 * h) * p)).
  { split; [exact FX|]. pose proof (exp_shift _ _ h ltac:(lra) XE) as SH. rewrite <- PE in SH.
    replace (B2R (m_exp L x) - p) with ((B2R (m_exp L x) - exp (B2R x)) + (exp (B2R x) - p)) by ring. eapply Rle_trans; [apply Rabs_triang|].
    rewrite (Rabs_pos_eq (exp (B2R x))) in X by (left; apply exp_pos).
    assert (HP : h * p <= / 5 * p) by (apply Rmult_le_compat_r; lra). assert (0 <= h * p) by (apply Rmult_le_pos; lra).
    assert (UB : exp (B2R x) <= p + 13 / 10 * h * p) by (apply Rabs_le_inv in SH; lra).
    assert (d * exp (B2R x) <= d * (p + 13 / 10 * h * p)) by (apply Rmult_le_compat_l; lra).
    assert (d * (h * p) <= / 64 * (h * p)) by (apply Rmult_le_compat_r; lra). assert (0 <= d * p) by (apply Rmult_le_pos; lra). lra. }
  assert (W : forall (y : fl) v e f, fnear y v e -> e <= f -> fnear y v f) by (intros y v e' f' (F & G) H; split; [exact F|lra]).
  assert (UP : u * p <= d * p) by (apply Rmult_le_compat_r; lra). assert (0 <= d * p) by (apply Rmult_le_pos; lra). assert (0 <= h * p) by (apply Rmult_le_pos; lra).
  split.
  - eapply W; [apply (polar_near (m_exp L x) (m_cos L t) p (cos (E * phi)) (4 / 3 * d + 4 / 3 * h) (d + h)); [lra|exact PX|lra|apply COS_bound|lra|lra|]|].
    + apply (lib_shift cos); [exact cos_lip|exact COS_bound|lra|exact C|exact TE].
    + lra.
  - eapply W; [apply (polar_near (m_exp L x) (m_sin L t) p (sin (E * phi)) (4 / 3 * d + 4 / 3 * h) (d + h)); [lra|exact PX|lra|apply SIN_bound|lra|lra|]|].
    + apply (lib_shift sin); [exact sin_lip|exact SIN_bound|lra|exact S|exact TE].
    + lra.
Qed.
End Polar.
End F.
