(** Errors as factors: the value of a float is the exact one times [exp t] with a small [t], so that the errors of products
    and quotients add up. *)

From Coq Require Import List Arith ZArith Bool Lia Reals Lra Psatz.
From Flocq Require Import Core.Core Relative IEEE754.BinarySingleNaN.
From Verif Require Import Base Scalar Spec SpecF MVector MMatrix MPoint MFloat MProjection
  LBase LVector LFloat LFloatP LFloatVec LTrScF LSlerpS LComplexHP LProjF.
Local Open Scope R_scope.

(** ** Real numbers *)
Lemma exp_pert t e : Rabs t <= e -> e < 1 -> Rabs (exp t - 1) <= e / (1 - e).
Proof.
  intros T E. apply Rabs_le_inv in T. pose proof (exp_ineq1_le t) as A. pose proof (exp_ineq1_le (- t)) as B. pose proof (exp_pos t) as P.
  assert (I : exp t * exp (- t) = 1) by (rewrite <- exp_plus, Rplus_opp_r; apply exp_0).
  assert (U : exp t <= / (1 - e)).
  { apply (Rmult_le_reg_r (1 - e)); [lra|]. rewrite Rinv_l by lra. rewrite <- I. apply Rmult_le_compat_l; lra. }
  assert (W : / (1 - e) = 1 + e / (1 - e)) by (field; lra). assert (V : e <= e / (1 - e)).
  { apply (Rmult_le_reg_r (1 - e)); [lra|]. unfold Rdiv. rewrite Rmult_assoc, Rinv_l by lra. nra. }
  apply Rabs_le. lra.
Qed.
Lemma ln_pert d r : Rabs d <= r -> r < 1 -> 0 < 1 + d /\ Rabs (ln (1 + d)) <= r / (1 - r).
Proof.
  intros D H. apply Rabs_le_inv in D. assert (P : 0 < 1 + d) by lra. split; [exact P|].
  assert (U : forall x, 0 < x -> ln x <= x - 1).
  { intros x X. pose proof (exp_ineq1_le (ln x)) as E. rewrite exp_ln in E by exact X. lra. }
  pose proof (U _ P) as A. pose proof (U (/ (1 + d)) (Rinv_0_lt_compat _ P)) as B. rewrite ln_Rinv in B by exact P.
  assert (C : / (1 + d) <= / (1 - r)) by (apply Rinv_le_contravar; lra). assert (W : / (1 - r) = 1 + r / (1 - r)) by (field; lra).
  assert (V : r <= r / (1 - r)) by (apply (Rmult_le_reg_r (1 - r)); [lra|]; unfold Rdiv; rewrite Rmult_assoc, Rinv_l by lra; nra).
  apply Rabs_le. lra.
Qed.
Lemma exp_half t : Rabs t <= / 2 -> / 2 <= exp t <= 2.
Proof.
  intros T. pose proof (exp_pert t (/ 2) T ltac:(lra)) as H. replace (/ 2 / (1 - / 2)) with 1 in H by field. apply Rabs_le_inv in H, T. pose proof (exp_ineq1_le t). lra.
Qed.

(** [y] is [z] up to a factor [exp t] with [|t| <= e]. *)
Definition by_exp (e y z : R) : Prop := exists t, Rabs t <= e /\ y = z * exp t.
Lemma by_refl z : by_exp 0 z z.
Proof. exists 0. rewrite Rabs_R0, exp_0. split; [lra|ring]. Qed.
Lemma by_weak e f y z : e <= f -> by_exp e y z -> by_exp f y z.
Proof. intros H (t & T & E). exists t. split; [lra|exact E]. Qed.
Lemma by_trans e f x y z : by_exp e x y -> by_exp f y z -> by_exp (e + f) x z.
Proof.
  intros (s & A & ->) (t & B & ->). exists (t + s). split; [eapply Rle_trans; [apply Rabs_triang|lra]|]. rewrite exp_plus. ring.
Qed.
Lemma by_mul e f x y v w : by_exp e x v -> by_exp f y w -> by_exp (e + f) (x * y) (v * w).
Proof.
  intros (s & A & ->) (t & B & ->). exists (s + t). split; [eapply Rle_trans; [apply Rabs_triang|lra]|]. rewrite exp_plus. ring.
Qed.
Lemma by_inv e x v : by_exp e x v -> by_exp e (/ x) (/ v).
Proof.
  intros (s & A & ->). exists (- s). split; [rewrite Rabs_Ropp; exact A|]. rewrite exp_Ropp.
  destruct (Req_dec v 0) as [->|V]; [rewrite Rmult_0_l, Rinv_0; ring|]. apply Rinv_mult.
Qed.
Lemma by_div e f x y v w : by_exp e x v -> by_exp f y w -> by_exp (e + f) (x / y) (v / w).
Proof. intros A B. apply by_mul; [exact A|apply by_inv; exact B]. Qed.
Lemma by_opp e x v : by_exp e x v -> by_exp e (- x) (- v).
Proof. intros (s & A & ->). exists s. split; [exact A|ring]. Qed.
Lemma by_add e x y v w : 0 <= v -> 0 <= w -> 0 < v + w -> by_exp e x v -> by_exp e y w -> by_exp e (x + y) (v + w).
Proof.
  intros V W P (s & A & ->) (t & B & ->). exists (ln ((v * exp s + w * exp t) / (v + w))).
  apply Rabs_le_inv in A, B. assert (U : forall a b, a <= b -> exp a <= exp b) by (intros a b [H| ->]; [left; apply exp_increasing; exact H|right; reflexivity]).
  pose proof (U (- e) s ltac:(lra)) as S1. pose proof (U s e ltac:(lra)) as S2. pose proof (U (- e) t ltac:(lra)) as T1. pose proof (U t e ltac:(lra)) as T2.
  assert (M1 : (v + w) * exp (- e) <= v * exp s + w * exp t) by nra. assert (M2 : v * exp s + w * exp t <= (v + w) * exp e) by nra.
  assert (Q : 0 < v * exp s + w * exp t) by (pose proof (exp_pos (- e)); nra). assert (I : 0 < / (v + w)) by (apply Rinv_0_lt_compat; exact P).
  assert (G : 0 < (v * exp s + w * exp t) / (v + w)) by (apply Rmult_lt_0_compat; assumption).
  assert (X1 : exp (- e) <= (v * exp s + w * exp t) / (v + w)).
  { apply (Rmult_le_reg_r (v + w)); [exact P|]. unfold Rdiv. rewrite Rmult_assoc, Rinv_l by lra. lra. }
  assert (X2 : (v * exp s + w * exp t) / (v + w) <= exp e).
  { apply (Rmult_le_reg_r (v + w)); [exact P|]. unfold Rdiv. rewrite Rmult_assoc, Rinv_l by lra. lra. }
  split; [|rewrite exp_ln by exact G; field; lra].
  assert (LN : forall a b, 0 < a -> a <= b -> ln a <= ln b) by (intros a b H [H1| ->]; [left; apply ln_increasing; assumption|right; reflexivity]).
  pose proof (LN _ _ (exp_pos (- e)) X1) as Y1. pose proof (LN _ _ G X2) as Y2. rewrite ln_exp in Y1, Y2. apply Rabs_le. lra.
Qed.
Lemma by_near y z r : Rabs (y - z) <= r * Rabs z -> 0 <= r <= / 16 -> by_exp (16 / 15 * r) y z.
Proof.
  intros H B. destruct (Req_dec z 0) as [->|Z].
  { rewrite Rabs_R0, Rmult_0_r, Rminus_0_r in H. assert (E : y = 0) by (destruct (Req_dec y 0) as [E|E]; [exact E|]; apply Rabs_pos_lt in E; lra). subst y.
    exists 0. rewrite Rabs_R0. split; [lra|ring]. }
  pose proof (Rabs_pos_lt z Z) as P. assert (D : Rabs (y / z - 1) <= r).
  { replace (y / z - 1) with ((y - z) / z) by (field; exact Z). unfold Rdiv. rewrite Rabs_mult, Rabs_inv. apply (Rmult_le_reg_r (Rabs z)); [exact P|]. rewrite Rmult_assoc, Rinv_l by lra. lra. }
  destruct (ln_pert _ r D ltac:(lra)) as (Q & E). exists (ln (1 + (y / z - 1))). split.
  - eapply Rle_trans; [exact E|]. apply (Rmult_le_reg_r (1 - r)); [lra|]. unfold Rdiv. rewrite Rmult_assoc, Rinv_l by lra. nra.
  - rewrite exp_ln by exact Q. field. exact Z.
Qed.
Lemma near_by e y z : by_exp e y z -> 0 <= e <= / 16 -> Rabs (y - z) <= 16 / 15 * e * Rabs z.
Proof.
  intros (t & T & ->) B. replace (z * exp t - z) with ((exp t - 1) * z) by ring. rewrite Rabs_mult. apply Rmult_le_compat_r; [apply Rabs_pos|].
  eapply Rle_trans; [apply (exp_pert t e T); lra|]. apply (Rmult_le_reg_r (1 - e)); [lra|]. unfold Rdiv. rewrite Rmult_assoc, Rinv_l by lra. nra.
Qed.
(** sharper for small [e] *)
Lemma near_by' e y z : by_exp e y z -> 0 <= e <= / 64 -> Rabs (y - z) <= 64 / 63 * e * Rabs z.
Proof.
  intros (t & T & ->) B. replace (z * exp t - z) with ((exp t - 1) * z) by ring. rewrite Rabs_mult. apply Rmult_le_compat_r; [apply Rabs_pos|].
  eapply Rle_trans; [apply (exp_pert t e T); lra|]. apply (Rmult_le_reg_r (1 - e)); [lra|]. unfold Rdiv. rewrite Rmult_assoc, Rinv_l by lra. nra.
Qed.
Lemma by_abs e y z : by_exp e y z -> e <= / 2 -> / 2 * Rabs z <= Rabs y <= 2 * Rabs z.
Proof.
  intros (t & T & ->) B. destruct (exp_half t ltac:(lra)) as (A & C). rewrite Rabs_mult, (Rabs_pos_eq (exp t)) by lra. pose proof (Rabs_pos z). nra.
Qed.
Lemma by_pos e y z : by_exp e y z -> 0 < z -> 0 < y.
Proof. intros (t & _ & ->) Z. apply Rmult_lt_0_compat; [exact Z|apply exp_pos]. Qed.

(** ** Floats *)
Section F.
Context {prec emax : Z} {Hp : Prec_gt_0 prec} {He : Prec_lt_emax prec emax}.
Notation fl := (binary_float prec emax).
Notation u := (bpow radix2 (- prec)).
Notation tiny := (bpow radix2 (2 - emax - prec)).
Notation fexp := (FLT_exp (3 - emax - prec) prec).
Notation rnd := (round radix2 fexp ZnearestE).
Notation h := (16 / 15 * u).
Hypothesis H24 : (24 <= prec)%Z.

Lemma u_small : 0 < u <= / 16777216.
Proof. split; [apply bpow_gt_0|]. apply (bpow_le radix2 (- prec) (-24)). lia. Qed.

Definition ml (e : R) (x : fl) (v : R) : Prop := is_finite x = true /\ by_exp e (B2R x) v.
(** In the middle of the exponent range. *)
Definition wk (v : R) : Prop := bpow radix2 (3 - emax) <= Rabs v <= bpow radix2 (emax - 2).

Lemma ml_leaf (x : fl) : is_finite x = true -> ml 0 x (B2R x).
Proof. intros F. split; [exact F|apply by_refl]. Qed.
Lemma ml_one : ml 0 (n1 : fl) 1.
Proof. destruct (fbone (prec := prec) (emax := emax)) as (E & F & _). split; [exact F|]. cbn [n1 num_float]. rewrite E. apply by_refl. Qed.
Lemma ml_weak e f (x : fl) v : e <= f -> ml e x v -> ml f x v.
Proof. intros H (F & B). split; [exact F|apply (by_weak e); assumption]. Qed.
Lemma ml_to e f (x : fl) v w : ml e x v -> by_exp f v w -> ml (e + f) x w.
Proof. intros (F & B) C. split; [exact F|]. exact (by_trans _ _ _ _ _ B C). Qed.
Lemma ml_eq e (x : fl) v w : ml e x v -> v = w -> ml e x w.
Proof. intros H <-. exact H. Qed.
Lemma ml_neg e (x : fl) v : ml e x v -> ml e (nneg x) (- v).
Proof.
  intros (F & B). split; [cbn [nneg num_float]; rewrite is_finite_Bopp; exact F|]. cbn [nneg num_float]. rewrite B2R_Bopp. apply by_opp. exact B.
Qed.

Lemma rnd_ml z : bpow radix2 (2 - emax) <= Rabs z -> by_exp h (rnd z) z.
Proof.
  intros Z. pose proof u_small as U.
  assert (H : Rabs (rnd z - z) <= u * Rabs z).
  { pose proof (relative_error_N_FLT radix2 (3 - emax - prec) prec Hp (fun t => negb (Z.even t)) z) as R. replace (3 - emax - prec + prec - 1)%Z with (2 - emax)%Z in R by ring. specialize (R Z).
    replace (/ 2 * bpow radix2 (- prec + 1)) with u in R; [exact R|]. rewrite bpow_plus. change (bpow radix2 1) with 2. field. }
  apply (by_weak (16 / 15 * u)); [lra|]. apply by_near; [exact H|lra].
Qed.
Lemma e_m1 : bpow radix2 (emax - 1) = 2 * bpow radix2 (emax - 2).
Proof. replace (emax - 1)%Z with (1 + (emax - 2))%Z by ring. exact (bpow_plus radix2 1 (emax - 2)). Qed.
Lemma e_2 : bpow radix2 (3 - emax) = 2 * bpow radix2 (2 - emax).
Proof. replace (3 - emax)%Z with (1 + (2 - emax))%Z by ring. exact (bpow_plus radix2 1 (2 - emax)). Qed.

Lemma mul_ml e f (x y : fl) v w : ml e x v -> ml f y w -> e + f <= / 2 -> wk (v * w) -> ml (e + f + h) (nmul x y) (v * w).
Proof.
  intros (Fx & X) (Fy & Y) E (W1 & W2). pose proof (by_mul _ _ _ _ _ _ X Y) as P. destruct (by_abs _ _ _ P E) as (A & B). pose proof e_m1 as E1. pose proof e_2 as E2.
  destruct (mul_val x y Fx Fy ltac:(lra)) as (F & V). split; [exact F|]. rewrite V. replace (e + f + h) with (h + (e + f)) by ring. apply (by_trans _ _ _ (B2R x * B2R y)); [|exact P]. apply rnd_ml. lra.
Qed.
Lemma div_ml e f (x y : fl) v w : ml e x v -> ml f y w -> e + f <= / 2 -> w <> 0 -> wk (v / w) -> ml (e + f + h) (ndiv x y) (v / w).
Proof.
  intros (Fx & X) (Fy & Y) E W (W1 & W2). pose proof (by_div _ _ _ _ _ _ X Y) as P. destruct (by_abs _ _ _ P E) as (A & B). pose proof e_m1 as E1. pose proof e_2 as E2.
  assert (YN : B2R y <> 0). { destruct Y as (t & _ & ->). pose proof (exp_pos t). apply Rmult_integral_contrapositive_currified; lra. }
  destruct (div_val x y Fx YN ltac:(lra)) as (F & V). split; [exact F|]. rewrite V. replace (e + f + h) with (h + (e + f)) by ring. apply (by_trans _ _ _ (B2R x / B2R y)); [|exact P]. apply rnd_ml. lra.
Qed.
Lemma by_round x s : Rabs (x - s) <= u * Rabs s -> by_exp h x s.
Proof. intros H. pose proof u_small as U. apply (by_weak (16 / 15 * u)); [lra|]. apply by_near; [exact H|lra]. Qed.
Lemma add_ml e (x y : fl) z : is_finite x = true -> is_finite y = true -> by_exp e (B2R x + B2R y) z -> e <= / 2 -> Rabs z <= bpow radix2 (emax - 2) -> ml (e + h) (nadd x y) z.
Proof.
  intros Fx Fy S E W. destruct (by_abs _ _ _ S E) as (A & B). pose proof e_m1 as E1. destruct (add_val x y Fx Fy ltac:(lra)) as (F & _ & H).
  split; [exact F|]. rewrite Rplus_comm. exact (by_trans _ _ _ _ _ (by_round _ _ H) S).
Qed.
Lemma sub_ml e (x y : fl) z : is_finite x = true -> is_finite y = true -> by_exp e (B2R x - B2R y) z -> e <= / 2 -> Rabs z <= bpow radix2 (emax - 2) -> ml (e + h) (nsub x y) z.
Proof.
  intros Fx Fy S E W. destruct (by_abs _ _ _ S E) as (A & B). pose proof e_m1 as E1. destruct (sub_val x y Fx Fy ltac:(lra)) as (F & _ & H).
  split; [exact F|]. rewrite Rplus_comm. exact (by_trans _ _ _ _ _ (by_round _ _ H) S).
Qed.
Lemma add_pos e (x y : fl) v w : ml e x v -> ml e y w -> 0 <= v -> 0 <= w -> 0 < v + w -> e <= / 2 -> v + w <= bpow radix2 (emax - 2) -> ml (e + h) (nadd x y) (v + w).
Proof.
  intros (Fx & X) (Fy & Y) V W P E M. apply add_ml; [exact Fx|exact Fy|apply by_add; assumption|exact E|]. rewrite Rabs_pos_eq by lra. exact M.
Qed.
Lemma two_ml : ml 0 (nadd n1 n1 : fl) 2.
Proof. destruct (two_val (prec := prec) (emax := emax)) as (F & E). split; [exact F|]. rewrite E. apply by_refl. Qed.
Lemma ml_near e (x : fl) v : ml e x v -> 0 <= e <= / 16 -> fnear x v (16 / 15 * e * Rabs v).
Proof. intros (F & B) E. split; [exact F|]. apply near_by; assumption. Qed.
Lemma ml_near' e (x : fl) v : ml e x v -> 0 <= e <= / 64 -> fnear x v (64 / 63 * e * Rabs v).
Proof. intros (F & B) E. split; [exact F|]. apply near_by'; assumption. Qed.

Lemma rb_wk a v : (a + 3 <= emax)%Z -> rb a v -> wk v.
Proof.
  intros A (H1 & H2). pose proof (bpow_gt_0 radix2 (- a)). unfold wk. rewrite Rabs_pos_eq by lra.
  split; [apply (Rle_trans _ (bpow radix2 (- a))); [apply bpow_le; lia|exact H1]|apply (Rle_trans _ (bpow radix2 a)); [exact H2|apply bpow_le; lia]].
Qed.
Lemma wk_opp v : wk v -> wk (- v).
Proof. unfold wk. rewrite Rabs_Ropp. auto. Qed.
End F.
