(** The quaternion of a float rotation matrix: rounding errors. *)

From Coq Require Import List Arith ZArith Bool Lia Reals Lra Psatz.
From Flocq Require Import Core.Core IEEE754.BinarySingleNaN.
From Verif Require Import Base Scalar Spec SpecF LBase MVector MMatrix MQuat LVector LMatrix MFloat LFloat LFloatP MFloatVec LFloatVec LTrScF LAngleFP
  LRigidF MQMatF.
Local Open Scope R_scope.

Section QMat.
Context {prec emax : Z} {Hp : Prec_gt_0 prec} {He : Prec_lt_emax prec emax}.
Notation fl := (binary_float prec emax).
Notation u := (bpow radix2 (- prec)).
Hypothesis H24 : (24 <= prec)%Z.

Lemma big16 z : Rabs z <= 16 -> Rabs z <= bpow radix2 (emax - 1).
Proof.
  intros H. eapply Rle_trans; [exact H|]. change 16 with (bpow radix2 4). apply bpow_le.
  pose proof He as Q. unfold Prec_lt_emax in Q. lia.
Qed.
Lemma tiny_u : 0 <= @ftiny prec emax <= u / 4096.
Proof.
  rewrite ftiny_eq. split; [apply bpow_ge_0|]. replace (u / 4096) with (bpow radix2 (- prec + -12)) by (rewrite bpow_plus; cbn; lra).
  apply bpow_le. pose proof He as Q. unfold Prec_lt_emax in Q. lia.
Qed.

(** One operation on approximations. *)
Lemma n_add (x y : fl) r s d f A : fnear x r d -> fnear y s f -> Rabs (B2R x + B2R y) <= A -> A <= 16 ->
  fnear (nadd x y) (r + s) (d + f + A * u).
Proof.
  intros (Fx & Ex) (Fy & Ey) HA A16. destruct (add_val x y Fx Fy ltac:(apply big16; lra)) as (F & _ & E). split; [exact F|].
  replace (B2R (nadd x y) - (r + s)) with ((B2R (nadd x y) - (B2R x + B2R y)) + ((B2R x - r) + (B2R y - s))) by ring.
  eapply Rle_trans; [apply Rabs_triang|]. assert (Rabs ((B2R x - r) + (B2R y - s)) <= d + f) by (eapply Rle_trans; [apply Rabs_triang|lra]).
  assert (u * Rabs (B2R x + B2R y) <= u * A) by (apply Rmult_le_compat_l; [apply bpow_ge_0|exact HA]). lra.
Qed.
Lemma n_neg (x : fl) r d : fnear x r d -> fnear (nneg x) (- r) d.
Proof.
  intros (F & E). split; [cbn [nneg num_float]; rewrite is_finite_Bopp; exact F|]. cbn [nneg num_float]. rewrite B2R_Bopp.
  replace (- B2R x - - r) with (- (B2R x - r)) by ring. rewrite Rabs_Ropp. exact E.
Qed.
Lemma n_sub (x y : fl) r s d f A : fnear x r d -> fnear y s f -> Rabs (B2R x - B2R y) <= A -> A <= 16 ->
  fnear (nsub x y) (r - s) (d + f + A * u).
Proof.
  intros Hx Hy HA A16. rewrite fsub_add_neg. apply n_add; [exact Hx|apply n_neg; exact Hy| |exact A16].
  cbn [nneg num_float]. rewrite B2R_Bopp. exact HA.
Qed.
Lemma n_mul (x y : fl) A : is_finite x = true -> is_finite y = true -> Rabs (B2R x * B2R y) <= A -> A <= 16 ->
  fnear (nmul x y) (B2R x * B2R y) ((A + / 4096) * u).
Proof.
  intros Fx Fy HA A16. assert (F := fmul_fin x y Fx Fy ltac:(apply big16; lra)). split; [exact F|].
  destruct (fmul_err _ _ F) as (d & e & Hd & He' & E). rewrite E. rewrite funit_eq in Hd. pose proof tiny_u as T.
  replace (B2R x * B2R y * (1 + d) + e - B2R x * B2R y) with (d * (B2R x * B2R y) + e) by ring.
  eapply Rle_trans; [apply Rabs_triang|]. rewrite Rabs_mult.
  assert (Rabs d * Rabs (B2R x * B2R y) <= u * A) by (apply Rmult_le_compat; try apply Rabs_pos; assumption). lra.
Qed.
Lemma n_div (x y : fl) A : is_finite x = true -> B2R y <> 0 -> Rabs (B2R x / B2R y) <= A -> A <= 16 ->
  fnear (ndiv x y) (B2R x / B2R y) ((A + / 4096) * u).
Proof.
  intros Fx Fy HA A16. destruct (fdiv_fin x y Fx Fy ltac:(apply big16; lra)) as (F & d & e & Hd & He' & E). split; [exact F|].
  rewrite E. rewrite funit_eq in Hd. pose proof tiny_u as T.
  replace (B2R x / B2R y * (1 + d) + e - B2R x / B2R y) with (d * (B2R x / B2R y) + e) by ring.
  eapply Rle_trans; [apply Rabs_triang|]. rewrite (Rabs_mult d).
  assert (Rabs d * Rabs (B2R x / B2R y) <= u * A) by (apply Rmult_le_compat; try apply Rabs_pos; assumption). lra.
Qed.
Lemma n_weak (x : fl) r d f : fnear x r d -> d <= f -> fnear x r f.
Proof. intros (F & E) H. split; [exact F|lra]. Qed.

Lemma half_val : is_finite (ndiv n1 (nadd n1 n1) : fl) = true /\ B2R (ndiv n1 (nadd n1 n1) : fl) = / 2.
Proof.
  destruct (@fbone prec emax Hp He) as (B1 & F1 & _). change (Bone : fl) with (n1 : fl) in B1, F1.
  assert (G : forall k, (- prec < k <= prec)%Z -> generic_format radix2 (FLT_exp (3 - emax - prec) prec) (bpow radix2 k)).
  { intros k Hk. apply generic_format_bpow. pose proof He as Q. unfold Prec_lt_emax in Q. unfold FLT_exp. lia. }
  destruct (add_val n1 n1 F1 F1) as (F2 & E2 & _); [rewrite B1; apply big16; rewrite Rabs_pos_eq; lra|].
  assert (E2' : B2R (nadd n1 n1 : fl) = 2).
  { rewrite E2, B1. replace (1 + 1) with (bpow radix2 1) by (cbn; lra). rewrite round_generic; [cbn; lra|apply valid_rnd_N|apply G; lia]. }
  destruct (div_val n1 (nadd n1 n1) F1) as (F3 & E3); [rewrite E2'; lra|rewrite E2', B1; apply big16; rewrite Rabs_pos_eq; lra|].
  split; [exact F3|]. rewrite E3, E2', B1. replace (1 / 2) with (bpow radix2 (-1)) by (cbn; lra).
  rewrite round_generic; [cbn; lra|apply valid_rnd_N|apply G; lia].
Qed.

Variable e : R.
Hypothesis He1 : 0 <= e <= / 1024.
Notation U := (e + u).

Lemma U_small : 0 < U <= / 1000.
Proof. pose proof (u_small H24). lra. Qed.

(** From the square of twice a component to the component and to the quotients. *)
Lemma component (a : R) (S : fl) : 1 - 7 * U <= 4 * (a * a) <= 4 -> fnear S (4 * (a * a)) (11 * U) ->
  let half := ndiv n1 (nadd n1 n1) : fl in
  fnear (nmul half (fsqrt S)) (Rabs a) (6 * U) /\
  fnear (ndiv half (fsqrt S)) (/ (4 * Rabs a)) (5 * U).
Proof.
  intros (A1 & A2) (FS & ES) half. pose proof U_small as HU. pose proof (u_small H24) as Hu. pose proof tiny_u as T.
  destruct half_val as (FH & EH). fold half in FH, EH. apply Rabs_le_inv in ES.
  set (b := Rabs a). assert (b0 : 0 <= b) by apply Rabs_pos.
  assert (bb : a * a = b * b) by (unfold b; rewrite <- Rabs_mult, Rabs_pos_eq by nra; reflexivity). rewrite bb in *.
  assert (b1 : 99 / 200 <= b) by nra. assert (b2 : b <= 1) by nra.
  assert (S0 : 97 / 100 <= B2R S) by lra. assert (S2 : B2R S <= 403 / 100) by lra.
  set (q := sqrt (B2R S)). assert (qq : q * q = B2R S) by (apply sqrt_sqrt; lra). assert (q0 : 0 <= q) by apply sqrt_pos.
  assert (q1 : 98 / 100 <= q) by nra. assert (q2 : q <= 201 / 100) by nra.
  assert (D : Rabs (q - 2 * b) <= 57 / 10 * U).
  { assert (P : (q - 2 * b) * (q + 2 * b) = B2R S - 4 * (b * b)) by (rewrite <- qq; ring).
    apply Rabs_le. split.
    - apply Rmult_le_reg_r with (q + 2 * b); [lra|]. rewrite P. nra.
    - apply Rmult_le_reg_r with (q + 2 * b); [lra|]. rewrite P. nra. }
  destruct (fsqrt_err S) as (d & t & Hd & Ht & E). rewrite funit_eq in Hd. fold q in E.
  assert (FQ : is_finite (fsqrt S) = true).
  { unfold fsqrt. destruct (Bsqrt_correct prec emax _ _ mode_NE S) as (_ & F & _). rewrite F.
    destruct S as [s|s| |s m ex Hm]; try discriminate FS; try reflexivity. destruct s; [|reflexivity].
    exfalso. assert (B2R (B754_finite true m ex Hm) < 0) by (apply F2R_lt_0; reflexivity). lra. }
  set (s := fsqrt S) in *.
  assert (Ds : Rabs (B2R s - 2 * b) <= 8 * U).
  { rewrite E. replace (q * (1 + d) + t - 2 * b) with ((q - 2 * b) + (d * q + t)) by ring. eapply Rle_trans; [apply Rabs_triang|].
    assert (Rabs (d * q + t) <= 202 / 100 * u).
    { eapply Rle_trans; [apply Rabs_triang|]. rewrite Rabs_mult, (Rabs_pos_eq q) by lra.
      assert (Rabs d * q <= u * (201 / 100)) by (apply Rmult_le_compat; [apply Rabs_pos|lra|exact Hd|lra]). lra. }
    lra. }
  apply Rabs_le_inv in Ds. assert (s1 : 97 / 100 <= B2R s <= 202 / 100) by lra.
  split.
  - eapply n_weak.
    + assert (M : Rabs (B2R half * B2R s) <= 102 / 100) by (rewrite EH, Rabs_pos_eq; lra).
      destruct (n_mul half s _ FH FQ M ltac:(lra)) as (F1 & E1). rewrite EH in E1, M.
      assert (X : fnear (nmul half s) b (4 * U + (102 / 100 + / 4096) * u)).
      { split; [exact F1|]. replace (B2R (nmul half s) - b) with ((B2R (nmul half s) - / 2 * B2R s) + (/ 2 * B2R s - b)) by ring.
        eapply Rle_trans; [apply Rabs_triang|]. assert (Rabs (/ 2 * B2R s - b) <= 4 * U) by (apply Rabs_le; lra). lra. }
      exact X.
    + lra.
  - eapply n_weak.
    + assert (M : Rabs (B2R half / B2R s) <= 52 / 100).
      { rewrite EH, Rabs_pos_eq by (apply Rmult_le_pos; [lra|apply Rlt_le, Rinv_0_lt_compat; lra]).
        apply Rmult_le_reg_r with (B2R s); [lra|]. unfold Rdiv. rewrite Rmult_assoc, Rinv_l, Rmult_1_r by lra. lra. }
      destruct (n_div half s _ FH ltac:(lra) M ltac:(lra)) as (F1 & E1). rewrite EH in E1.
      assert (X : fnear (ndiv half s) (/ (4 * b)) (42 / 10 * U + (52 / 100 + / 4096) * u)).
      { split; [exact F1|]. replace (B2R (ndiv half s) - / (4 * b)) with ((B2R (ndiv half s) - / 2 / B2R s) + (/ 2 / B2R s - / (4 * b))) by ring.
        eapply Rle_trans; [apply Rabs_triang|].
        assert (Rabs (/ 2 / B2R s - / (4 * b)) <= 42 / 10 * U).
        { replace (/ 2 / B2R s - / (4 * b)) with ((2 * b - B2R s) * / (4 * b * B2R s)) by (field; lra).
          assert (BS : 192 / 100 <= 4 * b * B2R s) by nra. rewrite Rabs_mult, Rabs_inv, (Rabs_pos_eq (4 * b * B2R s)) by lra.
          apply Rmult_le_reg_r with (4 * b * B2R s); [lra|]. rewrite Rmult_assoc, Rinv_l, Rmult_1_r by lra.
          apply Rle_trans with (8 * U); [apply Rabs_le; lra|]. assert (42 / 10 * U * (192 / 100) <= 42 / 10 * U * (4 * b * B2R s)) by (apply Rmult_le_compat_l; lra). lra. }
        lra. }
      exact X.
    + lra.
Qed.

Lemma quotient_near (a b : R) (N I : fl) : 1 - 7 * U <= 4 * (a * a) -> a * a + b * b <= 1 -> fnear N (4 * a * b) (5 * U) -> fnear I (/ (4 * Rabs a)) (5 * U) ->
  fnear (nmul N I) (4 * a * b / (4 * Rabs a)) (15 * U).
Proof.
  intros A1 AB (FN & EN) (FI & EI). pose proof U_small as HU. pose proof (u_small H24) as Hu.
  assert (a1 : 99 / 200 <= Rabs a).
  { assert (Rabs a * Rabs a = a * a) by (rewrite <- Rabs_mult, Rabs_pos_eq by nra; reflexivity). pose proof (Rabs_pos a). nra. }
  assert (i1 : 0 < / (4 * Rabs a) <= 51 / 100).
  { split; [apply Rinv_0_lt_compat; lra|]. apply Rmult_le_reg_r with (4 * Rabs a); [lra|]. rewrite Rinv_l by lra. lra. }
  assert (P : Rabs (4 * a * b) <= 2) by (pose proof (Rle_0_sqr (a - b)) as Q1; pose proof (Rle_0_sqr (a + b)) as Q2; unfold Rsqr in Q1, Q2; apply Rabs_le; lra).
  apply Rabs_le_inv in EI.
  assert (BI : Rabs (B2R I) <= 52 / 100) by (apply Rabs_le; lra).
  assert (D : Rabs (B2R N * B2R I - 4 * a * b / (4 * Rabs a)) <= 13 * U).
  { replace (B2R N * B2R I - 4 * a * b / (4 * Rabs a)) with ((B2R N - 4 * a * b) * B2R I + 4 * a * b * (B2R I - / (4 * Rabs a))) by (unfold Rdiv; ring).
    eapply Rle_trans; [apply Rabs_triang|]. rewrite !(Rabs_mult _ (B2R I)), (Rabs_mult (4 * a * b)).
    assert (Rabs (B2R N - 4 * a * b) * Rabs (B2R I) <= (5 * U) * (52 / 100)) by (apply Rmult_le_compat; try apply Rabs_pos; assumption).
    assert (Rabs (4 * a * b) * Rabs (B2R I - / (4 * Rabs a)) <= 2 * (5 * U)) by (apply Rmult_le_compat; try apply Rabs_pos; [exact P|apply Rabs_le; lra]). lra. }
  assert (Q : Rabs (4 * a * b / (4 * Rabs a)) <= 51 / 50).
  { unfold Rdiv. rewrite Rabs_mult, (Rabs_pos_eq (/ _)) by lra. apply Rle_trans with (2 * (51 / 100)); [apply Rmult_le_compat; try apply Rabs_pos; lra|lra]. }
  assert (M : Rabs (B2R N * B2R I) <= 11 / 10).
  { replace (B2R N * B2R I) with (4 * a * b / (4 * Rabs a) + (B2R N * B2R I - 4 * a * b / (4 * Rabs a))) by ring. eapply Rle_trans; [apply Rabs_triang|]. lra. }
  destruct (n_mul N I _ FN FI M ltac:(lra)) as (F & E). split; [exact F|].
  replace (B2R (nmul N I) - 4 * a * b / (4 * Rabs a)) with ((B2R (nmul N I) - B2R N * B2R I) + (B2R N * B2R I - 4 * a * b / (4 * Rabs a))) by ring.
  eapply Rle_trans; [apply Rabs_triang|]. lra.
Qed.

(** The matrix of a real unit quaternion (w, x, y, z): column [j], row [i]. *)
Variables w x y z : R.
Hypothesis unit1 : w * w + x * x + y * y + z * z = 1.
Variables m00 m01 m02 m10 m11 m12 m20 m21 m22 : fl.
Hypothesis h00 : fnear m00 (1 - 2 * (y * y + z * z)) e.
Hypothesis h11 : fnear m11 (1 - 2 * (x * x + z * z)) e.
Hypothesis h22 : fnear m22 (1 - 2 * (x * x + y * y)) e.
Hypothesis h01 : fnear m01 (2 * (x * y + w * z)) e.
Hypothesis h10 : fnear m10 (2 * (x * y - w * z)) e.
Hypothesis h02 : fnear m02 (2 * (x * z - w * y)) e.
Hypothesis h20 : fnear m20 (2 * (x * z + w * y)) e.
Hypothesis h12 : fnear m12 (2 * (y * z + w * x)) e.
Hypothesis h21 : fnear m21 (2 * (y * z - w * x)) e.

Lemma entry_bound (m : fl) r : fnear m r e -> -1 <= r <= 1 -> Rabs (B2R m) <= 1001 / 1000.
Proof. intros (_ & E) R. apply Rabs_le_inv in E. apply Rabs_le. lra. Qed.
Lemma two_le a b c d : a * a + b * b + c * c + d * d = 1 -> -1 <= 2 * (a * b + c * d) <= 1.
Proof.
  intros H. pose proof (Rle_0_sqr (a - b)) as Q1; pose proof (Rle_0_sqr (a + b)) as Q2; pose proof (Rle_0_sqr (c - d)) as Q3; pose proof (Rle_0_sqr (c + d)) as Q4.
  unfold Rsqr in *. lra.
Qed.
Lemma square_le a b c d : a * a + b * b + c * c + d * d = 1 -> -1 <= 1 - 2 * (a * a + b * b) <= 1.
Proof.
  intros H. pose proof (Rle_0_sqr a) as Q1; pose proof (Rle_0_sqr b) as Q2; pose proof (Rle_0_sqr c) as Q3; pose proof (Rle_0_sqr d) as Q4.
  unfold Rsqr in *. lra.
Qed.

(** Sum and difference of two entries. *)
Lemma pair_add (m n : fl) r s t : fnear m r e -> fnear n s e -> -1 <= r <= 1 -> -1 <= s <= 1 -> r + s = t -> fnear (nadd m n) t (5 * U).
Proof.
  intros Hm Hn R S <-. pose proof (entry_bound _ _ Hm R) as B1. pose proof (entry_bound _ _ Hn S) as B2. pose proof (u_small H24) as Hu.
  eapply n_weak; [apply (n_add m n r s e e (1001 / 500) Hm Hn)|lra]; [|lra]. eapply Rle_trans; [apply Rabs_triang|lra].
Qed.
Lemma pair_sub (m n : fl) r s t : fnear m r e -> fnear n s e -> -1 <= r <= 1 -> -1 <= s <= 1 -> r - s = t -> fnear (nsub m n) t (5 * U).
Proof.
  intros Hm Hn R S <-. pose proof (entry_bound _ _ Hm R) as B1. pose proof (entry_bound _ _ Hn S) as B2. pose proof (u_small H24) as Hu.
  eapply n_weak; [apply (n_sub m n r s e e (1001 / 500) Hm Hn)|lra]; [|lra]. unfold Rminus. eapply Rle_trans; [apply Rabs_triang|]. rewrite Rabs_Ropp. lra.
Qed.

Lemma trace_near : fnear (nadd (nadd (nadd n0 m00) m11) m22) (4 * (w * w) - 1) (6 * U).
Proof.
  pose proof (u_small H24) as Hu.
  pose proof (entry_bound _ _ h00 (square_le y z w x ltac:(lra))) as B0. pose proof (entry_bound _ _ h11 (square_le x z w y ltac:(lra))) as B1.
  pose proof (entry_bound _ _ h22 (square_le x y w z ltac:(lra))) as B2.
  destruct (fv_add0 m00 n0 _ (fv_self _ (proj1 h00)) ltac:(split; reflexivity)) as (_ & (F0 & E0)).
  assert (N0 : fnear (nadd n0 m00) (1 - 2 * (y * y + z * z)) e) by (split; [exact F0|]; rewrite E0; apply h00).
  assert (N1 := n_add _ _ _ _ _ _ (1001 / 500) N0 h11 ltac:(rewrite E0; eapply Rle_trans; [apply Rabs_triang|]; lra) ltac:(lra)).
  assert (B3 : Rabs (B2R (nadd (nadd n0 m00) m11)) <= 201 / 100).
  { destruct (add_val (nadd n0 m00) m11 F0 (proj1 h11)) as (_ & _ & E); [apply big16; rewrite E0; eapply Rle_trans; [apply Rabs_triang|]; lra|].
    rewrite E0 in E. assert (Rabs (B2R m00 + B2R m11) <= 1001 / 500) by (eapply Rle_trans; [apply Rabs_triang|]; lra).
    replace (B2R (nadd (nadd n0 m00) m11)) with ((B2R m00 + B2R m11) + (B2R (nadd (nadd n0 m00) m11) - (B2R m00 + B2R m11))) by ring.
    eapply Rle_trans; [apply Rabs_triang|]. assert (u * Rabs (B2R m00 + B2R m11) <= / 16777216 * (1001 / 500)) by (apply Rmult_le_compat; try apply Rabs_pos; lra). lra. }
  assert (N2 := n_add _ _ _ _ _ _ (302 / 100) N1 h22 ltac:(eapply Rle_trans; [apply Rabs_triang|]; lra) ltac:(lra)).
  destruct N2 as (F2 & E2). split; [exact F2|].
  replace (4 * (w * w) - 1) with (1 - 2 * (y * y + z * z) + (1 - 2 * (x * x + z * z)) + (1 - 2 * (x * x + y * y))) by lra. lra.
Qed.

(** a - b - c + 1. *)
Lemma diag_near (m n p : fl) r s t v : fnear m r e -> fnear n s e -> fnear p t e -> -1 <= r <= 1 -> -1 <= s <= 1 -> -1 <= t <= 1 -> r - s - t + 1 = v ->
  fnear (nadd (nsub (nsub m n) p) n1) v (11 * U).
Proof.
  intros Hm Hn Hq R S T <-. pose proof (u_small H24) as Hu. pose proof U_small as HU.
  pose proof (entry_bound _ _ Hm R) as B1. pose proof (entry_bound _ _ Hn S) as B2. pose proof (entry_bound _ _ Hq T) as B3.
  assert (N1 := n_sub m n r s e e (1001 / 500) Hm Hn ltac:(unfold Rminus; eapply Rle_trans; [apply Rabs_triang|]; rewrite Rabs_Ropp; lra) ltac:(lra)).
  assert (B4 : Rabs (B2R (nsub m n)) <= 201 / 100).
  { destruct N1 as (_ & E). apply Rabs_le_inv in E. apply Rabs_le. lra. }
  assert (N2 := n_sub _ p _ t _ e (302 / 100) N1 Hq ltac:(unfold Rminus; eapply Rle_trans; [apply Rabs_triang|]; rewrite Rabs_Ropp; lra) ltac:(lra)).
  assert (B5 : Rabs (B2R (nsub (nsub m n) p)) <= 304 / 100).
  { destruct N2 as (_ & E). apply Rabs_le_inv in E. apply Rabs_le. lra. }
  destruct (@fbone prec emax Hp He) as (E1 & F1 & _). change (Bone : fl) with (n1 : fl) in E1, F1.
  assert (N3 : fnear (n1 : fl) 1 0) by (split; [exact F1|rewrite E1, Rminus_diag_eq, Rabs_R0 by reflexivity; lra]).
  eapply n_weak; [apply (n_add _ _ _ _ _ _ (405 / 100) N2 N3)|]; [|lra|lra]. eapply Rle_trans; [apply Rabs_triang|]. rewrite E1, Rabs_R1. lra.
Qed.

Lemma signed a : a <> 0 -> exists g, (g = 1 \/ g = -1) /\ Rabs a = g * a /\ (forall b, 4 * a * b / (4 * Rabs a) = g * b).
Proof.
  intros A. destruct (Rle_lt_dec 0 a) as [P|P].
  - exists 1. split; [auto|]. rewrite Rabs_pos_eq by exact P. split; [ring|]. intros b. field. exact A.
  - exists (-1). split; [auto|]. rewrite Rabs_left by exact P. split; [ring|]. intros b. field. exact A.
Qed.

Definition around (q : quat fl) (g : R) : Prop :=
  fnear (vat (q : vec fl 4) 0) (g * w) (15 * U) /\ fnear (vat (q : vec fl 4) 1) (g * x) (15 * U) /\
  fnear (vat (q : vec fl 4) 2) (g * y) (15 * U) /\ fnear (vat (q : vec fl 4) 3) (g * z) (15 * U).

Lemma from_matrix_near : exists g, (g = 1 \/ g = -1) /\
  around (fqfrom_matrix (m3new m00 m01 m02 m10 m11 m12 m20 m21 m22)) g.
Proof.
  pose proof U_small as HU. pose proof (u_small H24) as Hu. pose proof trace_near as T.
  assert (R00 := square_le y z w x ltac:(lra)). assert (R11 := square_le x z w y ltac:(lra)). assert (R22 := square_le x y w z ltac:(lra)).
  assert (R01 := two_le x y w z ltac:(lra)). assert (R02' := two_le x z w y ltac:(lra)). assert (R12 := two_le y z w x ltac:(lra)).
  assert (R10 : -1 <= 2 * (x * y - w * z) <= 1) by (pose proof (two_le x y (- w) z ltac:(lra)); lra).
  assert (R02 : -1 <= 2 * (x * z - w * y) <= 1) by (pose proof (two_le x z (- w) y ltac:(lra)); lra).
  assert (R21 : -1 <= 2 * (y * z - w * x) <= 1) by (pose proof (two_le y z (- w) x ltac:(lra)); lra).
  assert (W0 := Rle_0_sqr w). assert (X0 := Rle_0_sqr x). assert (Y0 := Rle_0_sqr y). assert (Z0 := Rle_0_sqr z). unfold Rsqr in W0, X0, Y0, Z0.
  unfold fqfrom_matrix. cbv zeta. rewrite mtrace_sum. cbn [sum].
  change (mget (m3new m00 m01 m02 m10 m11 m12 m20 m21 m22) 0 0) with m00. change (mget (m3new m00 m01 m02 m10 m11 m12 m20 m21 m22) 1 1) with m11.
  change (mget (m3new m00 m01 m02 m10 m11 m12 m20 m21 m22) 2 2) with m22. change (mget (m3new m00 m01 m02 m10 m11 m12 m20 m21 m22) 0 1) with m01.
  change (mget (m3new m00 m01 m02 m10 m11 m12 m20 m21 m22) 1 0) with m10. change (mget (m3new m00 m01 m02 m10 m11 m12 m20 m21 m22) 0 2) with m02.
  change (mget (m3new m00 m01 m02 m10 m11 m12 m20 m21 m22) 2 0) with m20. change (mget (m3new m00 m01 m02 m10 m11 m12 m20 m21 m22) 1 2) with m12.
  change (mget (m3new m00 m01 m02 m10 m11 m12 m20 m21 m22) 2 1) with m21.
  set (tr := nadd (nadd (nadd n0 m00) m11) m22) in *. destruct T as (FT & ET). pose proof ET as ET'. apply Rabs_le_inv in ET.
  destruct (@fbone prec emax Hp He) as (E1 & F1 & _). change (Bone : fl) with (n1 : fl) in E1, F1.
  assert (nz : forall a, 1 - 7 * U <= 4 * (a * a) -> a <> 0) by (intros a A ->; lra).
  rewrite Bleb_correct by (try exact FT; reflexivity). change (B2R (n0 : fl)) with 0. destruct (Rle_bool_spec 0 (B2R tr)) as [T0|T0].
  - assert (W1 : 1 - 7 * U <= 4 * (w * w) <= 4) by lra.
    assert (S : fnear (nadd n1 tr) (4 * (w * w)) (11 * U)).
    { replace (4 * (w * w)) with (1 + (4 * (w * w) - 1)) by ring. eapply n_weak.
      - apply (n_add n1 tr 1 (4 * (w * w) - 1) 0 (6 * U) (402 / 100)); [split; [exact F1|rewrite E1, Rminus_diag_eq, Rabs_R0 by reflexivity; lra]|split; assumption| |lra].
        rewrite E1. apply Rabs_le. lra.
      - lra. }
    destruct (component w _ W1 S) as (C1 & C2). destruct (signed w (nz w (proj1 W1))) as (g & G & GA & GB).
    exists g. split; [exact G|]. unfold around. cbn [vat vget qnew v4 fst snd].
    split; [rewrite <- GA; eapply n_weak; [exact C1|lra]|]. rewrite <- !GB.
    conjs; apply quotient_near; try exact C2; try exact (proj1 W1); try lra.
    + apply (pair_sub m12 m21 _ _ _ h12 h21 R12 R21). ring.
    + apply (pair_sub m20 m02 _ _ _ h20 h02 R02' R02). ring.
    + apply (pair_sub m01 m10 _ _ _ h01 h10 R01 R10). ring.
  - assert (W1 : 4 * (w * w) <= 1 + 6 * U) by lra.
    destruct h00 as (F00 & E00), h11 as (F11 & E11), h22 as (F22 & E22). apply Rabs_le_inv in E00, E11, E22.
    assert (LT : forall a b : fl, is_finite a = true -> is_finite b = true -> Bltb a b = true -> B2R a < B2R b) by (intros a b Fa Fb L; apply (proj1 (ltbR a b Fa Fb)); exact L).
    assert (GE : forall a b : fl, is_finite a = true -> is_finite b = true -> Bltb a b = false -> B2R b <= B2R a).
    { intros a b Fa Fb L. destruct (Rle_lt_dec (B2R b) (B2R a)) as [X|X]; [exact X|]. apply (proj2 (ltbR a b Fa Fb)) in X. congruence. }
    destruct (Bltb m11 m00 && Bltb m22 m00)%bool eqn:B.
    + apply andb_true_iff in B. destruct B as (B1 & B2). apply LT in B1; [|assumption..]. apply LT in B2; [|assumption..].
      assert (A1 : 1 - 7 * U <= 4 * (x * x) <= 4) by lra.
      assert (S : fnear (nadd (nsub (nsub m00 m11) m22) n1) (4 * (x * x)) (11 * U)) by (apply (diag_near m00 m11 m22 _ _ _ _ h00 h11 h22 R00 R11 R22); lra).
      destruct (component x _ A1 S) as (C1 & C2). destruct (signed x (nz x (proj1 A1))) as (g & G & GA & GB).
      exists g. split; [exact G|]. unfold around. cbn [vat vget qnew v4 fst snd].
      assert (K : fnear (nmul (ndiv n1 (nadd n1 n1)) (fsqrt (nadd (nsub (nsub m00 m11) m22) n1))) (g * x) (15 * U)) by (rewrite <- GA; eapply n_weak; [exact C1|lra]).
      conjs; try exact K; rewrite <- GB; apply quotient_near; try exact C2; try exact (proj1 A1); try lra.
      * apply (pair_sub m12 m21 _ _ _ h12 h21 R12 R21). ring.
      * apply (pair_add m10 m01 _ _ _ h10 h01 R10 R01). ring.
      * apply (pair_add m02 m20 _ _ _ h02 h20 R02 R02'). ring.
    + assert (NB : B2R m00 <= B2R m11 \/ B2R m00 <= B2R m22).
      { apply andb_false_iff in B. destruct B as [B|B]; [left|right]; apply GE; assumption. }
      destruct (Bltb m22 m11) eqn:C.
      * apply LT in C; [|assumption..].
        assert (A1 : 1 - 7 * U <= 4 * (y * y) <= 4) by (destruct NB; lra).
        assert (S : fnear (nadd (nsub (nsub m11 m00) m22) n1) (4 * (y * y)) (11 * U)) by (apply (diag_near m11 m00 m22 _ _ _ _ h11 h00 h22 R11 R00 R22); lra).
        destruct (component y _ A1 S) as (C1 & C2). destruct (signed y (nz y (proj1 A1))) as (g & G & GA & GB).
        exists g. split; [exact G|]. unfold around. cbn [vat vget qnew v4 fst snd].
        assert (K : fnear (nmul (ndiv n1 (nadd n1 n1)) (fsqrt (nadd (nsub (nsub m11 m00) m22) n1))) (g * y) (15 * U)) by (rewrite <- GA; eapply n_weak; [exact C1|lra]).
        conjs; try exact K; rewrite <- GB; apply quotient_near; try exact C2; try exact (proj1 A1); try lra.
        -- apply (pair_sub m20 m02 _ _ _ h20 h02 R02' R02). ring.
        -- apply (pair_add m10 m01 _ _ _ h10 h01 R10 R01). ring.
        -- apply (pair_add m21 m12 _ _ _ h21 h12 R21 R12). ring.
      * apply GE in C; [|assumption..].
        assert (A1 : 1 - 7 * U <= 4 * (z * z) <= 4) by (destruct NB; lra).
        assert (S : fnear (nadd (nsub (nsub m22 m00) m11) n1) (4 * (z * z)) (11 * U)) by (apply (diag_near m22 m00 m11 _ _ _ _ h22 h00 h11 R22 R00 R11); lra).
        destruct (component z _ A1 S) as (C1 & C2). destruct (signed z (nz z (proj1 A1))) as (g & G & GA & GB).
        exists g. split; [exact G|]. unfold around. cbn [vat vget qnew v4 fst snd].
        assert (K : fnear (nmul (ndiv n1 (nadd n1 n1)) (fsqrt (nadd (nsub (nsub m22 m00) m11) n1))) (g * z) (15 * U)) by (rewrite <- GA; eapply n_weak; [exact C1|lra]).
        conjs; try exact K; rewrite <- GB; apply quotient_near; try exact C2; try exact (proj1 A1); try lra.
        -- apply (pair_sub m01 m10 _ _ _ h01 h10 R01 R10). ring.
        -- apply (pair_add m02 m20 _ _ _ h02 h20 R02 R02'). ring.
        -- apply (pair_add m21 m12 _ _ _ h21 h12 R21 R12). ring.
Qed.
End QMat.
