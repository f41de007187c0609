(** Tangents of quaternions in floats. *)

From Coq Require Import List Arith ZArith Bool Lia Reals Lra Psatz.
From Flocq Require Import Core.Core Relative IEEE754.BinarySingleNaN.
From Verif Require Import Base Scalar Spec SpecF SpecRigid SpecLook SpecCplx SpecArc SpecAng SpecQFun MReal MVector MMatrix MQuat MFloat MFloatVec MSign MComplexF MRotF MTransform MArcF MQFunF
  LBase LVector LFloat LFloatP LFloatVec LTrScF LRigidF LDriftM LNormF LLookF LSlerpS LSlerpW LDegF LArc LArcP LArcQ LComplexHP LComplexLP LCplxF LCplxFP LReal LQFunF LQFunG LQFunH.
Local Open Scope R_scope.

Lemma sinh_exp x : 0 <= x -> x * exp (- x) <= sinh x.
Proof.
  intros X. unfold sinh. assert (E : exp x = exp (- x) * exp (2 * x)) by (rewrite <- exp_plus; f_equal; ring). pose proof (exp_ineq1_le (2 * x)) as P. pose proof (exp_pos (- x)) as Q.
  assert (exp (- x) * (1 + 2 * x) <= exp x) by (rewrite E; apply Rmult_le_compat_l; lra). lra.
Qed.
Lemma coth_le x : 0 <= x -> x * cosh x <= (1 + x) * sinh x.
Proof. intros X. pose proof (sinh_exp x X) as P. replace (x * cosh x) with (x * sinh x + x * exp (- x)) by (unfold cosh, sinh; field). lra. Qed.
Lemma cosh_sinh2 x : cosh x * cosh x = 1 + sinh x * sinh x.
Proof. unfold cosh, sinh. assert (E : exp x * exp (- x) = 1) by (rewrite <- exp_plus, Rplus_opp_r; apply exp_0). nra. Qed.
Lemma sinh_self x : 0 <= x -> x <= sinh x.
Proof.
  intros X. destruct (Req_dec x 0) as [->|N]; [rewrite sinh_0; lra|]. destruct (MVT_cor2 sinh cosh 0 x ltac:(lra)) as (c & E & _); [intros; apply derivable_pt_lim_sinh|].
  rewrite sinh_0, !Rminus_0_r in E. rewrite E. pose proof (cosh_ge1 c). nra.
Qed.

Section F.
Context {prec emax : Z} {Hp : Prec_gt_0 prec} {He : Prec_lt_emax prec emax}.
Notation fl := (binary_float prec emax).
Notation u := (bpow radix2 (- prec)).
Notation tiny := (bpow radix2 (2 - emax - prec)).
Notation fexp := (FLT_exp (3 - emax - prec) prec).
Notation rnd := (round radix2 fexp ZnearestE).
Hypothesis H24 : (24 <= prec)%Z.
Variable L : libm fl.

Lemma u24 : 0 < u <= / 16777216.
Proof. split; [apply bpow_gt_0|]. apply (bpow_le radix2 (- prec) (-24)). lia. Qed.
Lemma emax2 : bpow radix2 (emax - 1) = 2 * bpow radix2 (emax - 2).
Proof. replace (emax - 1)%Z with (1 + (emax - 2))%Z by ring. exact (bpow_plus radix2 1 (emax - 2)). Qed.

(** Products and quotients of perturbed numbers. *)
Lemma mul_gen (x y : fl) v w a b : 0 <= a <= / 8 -> 0 <= b <= / 8 -> fnear x v (a * Rabs v) -> fnear y w (b * Rabs w) -> Rabs (v * w) <= bpow radix2 (emax - 2) ->
  fnear (nmul x y) (v * w) ((9 / 8 * (a + b) + 3 / 2 * u) * Rabs (v * w) + tiny).
Proof.
  intros A B (Fx & Ex) (Fy & Ey) M. pose proof u24 as U. pose proof emax2 as E2. set (P := Rabs (v * w)) in *. assert (P0 : 0 <= P) by apply Rabs_pos.
  assert (H : Rabs (B2R x * B2R y - v * w) <= 9 / 8 * (a + b) * P).
  { replace (B2R x * B2R y - v * w) with ((B2R x - v) * (B2R y - w) + (B2R x - v) * w + v * (B2R y - w)) by ring. eapply Rle_trans; [apply Rabs_triang|].
    pose proof (Rabs_triang ((B2R x - v) * (B2R y - w)) ((B2R x - v) * w)) as T. rewrite !Rabs_mult in *. pose proof (Rabs_pos v) as V0. pose proof (Rabs_pos w) as W0. unfold P in *. rewrite Rabs_mult in *.
    assert (T1 : Rabs (B2R x - v) * Rabs (B2R y - w) <= a * Rabs v * (b * Rabs w)) by (apply Rmult_le_compat; try apply Rabs_pos; assumption).
    assert (T2 : Rabs (B2R x - v) * Rabs w <= a * Rabs v * Rabs w) by (apply Rmult_le_compat_r; assumption).
    assert (T3 : Rabs v * Rabs (B2R y - w) <= Rabs v * (b * Rabs w)) by (apply Rmult_le_compat_l; assumption).
    assert (AB : a * b <= / 8 * (a + b)) by nra. assert (a * b * (Rabs v * Rabs w) <= / 8 * (a + b) * (Rabs v * Rabs w)) by (apply Rmult_le_compat_r; assumption). lra. }
  assert (X : Rabs (B2R x * B2R y) <= 2 * P) by (apply abs_near in H; fold P in H; assert (9 / 8 * (a + b) * P <= 1 * P) by (apply Rmult_le_compat_r; lra); lra).
  destruct (mul_val x y Fx Fy ltac:(lra)) as (F & E). split; [exact F|]. rewrite E. apply rnd_near; [lra|lra|exact H].
Qed.
Lemma div_gen (x y : fl) v w e b : 0 <= b <= / 8 -> fnear x v e -> fnear y w (b * Rabs w) -> w <> 0 -> Rabs v / Rabs w + 6 / 5 * ((e + b * Rabs v) / Rabs w) <= bpow radix2 (emax - 1) ->
  fnear (ndiv x y) (v / w) (6 / 5 * ((e + b * Rabs v) / Rabs w) + u * Rabs (v / w) + tiny).
Proof.
  intros B (Fx & Ex) (Fy & Ey) W M. pose proof u24 as U. pose proof (Rabs_pos_lt w W) as W0. pose proof (Rabs_pos v) as V0. assert (E0 : 0 <= e) by (pose proof (Rabs_pos (B2R x - v)); lra).
  pose proof (abs_near_low _ _ _ Ey) as Y0. assert (Y1 : 7 / 8 * Rabs w <= Rabs (B2R y)) by (assert (7 / 8 * Rabs w <= (1 - b) * Rabs w) by (apply Rmult_le_compat_r; lra); lra).
  assert (YN : B2R y <> 0) by (intros Z; rewrite Z, Rabs_R0 in Y1; lra). set (g := (e + b * Rabs v) / Rabs w) in *.
  assert (G0 : 0 <= g) by (apply Rmult_le_pos; [assert (0 <= b * Rabs v) by (apply Rmult_le_pos; lra); lra|left; apply Rinv_0_lt_compat; exact W0]).
  assert (H : Rabs (B2R x / B2R y - v / w) <= 8 / 7 * g).
  { replace (B2R x / B2R y - v / w) with (((B2R x - v) + v / w * (w - B2R y)) / B2R y) by (field; split; assumption). unfold Rdiv at 1. rewrite Rabs_mult, Rabs_inv.
    apply (Rmult_le_reg_r (Rabs (B2R y))); [lra|]. rewrite Rmult_assoc, Rinv_l by lra. rewrite Rmult_1_r.
    apply (Rle_trans _ (e + b * Rabs v)).
    - eapply Rle_trans; [apply Rabs_triang|]. rewrite Rabs_mult, (Rabs_minus_sym w). unfold Rdiv. rewrite Rabs_mult, Rabs_inv.
      assert (H2 : Rabs v * / Rabs w * Rabs (B2R y - w) <= Rabs v * / Rabs w * (b * Rabs w)) by (apply Rmult_le_compat_l; [apply Rmult_le_pos; [lra|left; apply Rinv_0_lt_compat; lra]|exact Ey]).
      replace (Rabs v * / Rabs w * (b * Rabs w)) with (b * Rabs v) in H2 by (field; lra). lra.
    - replace (e + b * Rabs v) with (8 / 7 * g * (7 / 8 * Rabs w)) by (unfold g; unfold Rdiv; field; lra). apply Rmult_le_compat_l; lra. }
  set (z := B2R x / B2R y) in *. assert (VW : Rabs (v / w) = Rabs v / Rabs w) by (unfold Rdiv; rewrite Rabs_mult, Rabs_inv; reflexivity).
  assert (X : Rabs z <= Rabs v / Rabs w + 8 / 7 * g) by (replace z with (v / w + (z - v / w)) by ring; eapply Rle_trans; [apply Rabs_triang|]; lra).
  destruct (div_val x y Fx YN) as (F & E); [fold z; lra|]. split; [exact F|]. rewrite E. fold z. pose proof (rnd_rel (prec := prec) (emax := emax) z) as Rr.
  replace (rnd z - v / w) with ((rnd z - z) + (z - v / w)) by ring. eapply Rle_trans; [apply Rabs_triang|].
  assert (u * Rabs z <= u * (Rabs v / Rabs w) + u * (8 / 7 * g)) by (rewrite <- Rmult_plus_distr_l; apply Rmult_le_compat_l; lra).
  assert (u * g <= / 16777216 * g) by (apply Rmult_le_compat_r; lra). rewrite VW. lra.
Qed.

(** *** tan *)
Section T.
Variable q : quat fl.
Notation s := (B2R (qscalar q)).
Notation v := (qvector q).
Notation n := (rlength 3 (fval v)).
Variables (d : R) (k : Z).
Notation dl := (5 / 4 * d + 16 * u * (1 + n)).
Hypothesis D0 : 0 <= d.
Hypothesis DL : dl <= / 64.
Hypothesis Fq : all_finite (q : vec fl 4).
Hypothesis Hk : (prec <= k)%Z.
Hypothesis Hr : (3 * k + 31 <= emax)%Z.
Hypothesis NK : bpow radix2 (- k) <= n.

Lemma Fqv : forall i, (i < 3)%nat -> is_finite (vat v i) = true.
Proof. intros [|[|[|i]]] Hi; try lia; [exact (Fq 1%nat ltac:(lia))|exact (Fq 2%nat ltac:(lia))|exact (Fq 3%nat ltac:(lia))]. Qed.
Lemma n_gt : 0 < n. Proof. pose proof (bpow_gt_0 radix2 (- k)). lra. Qed.
Lemma dl_u : 16 * u * (1 + n) <= / 64 /\ 0 <= d <= / 80 /\ 16 * u <= dl /\ 5 / 4 * d <= dl.
Proof. pose proof u24. pose proof n_gt. assert (0 <= u * n) by (apply Rmult_le_pos; lra). repeat split; lra. Qed.
Lemma norm_n : fnear (fvnorm v) n (8 * u * n) /\ nis0 (fvnorm v) = false.
Proof.
  pose proof u24. pose proof n_gt. destruct dl_u as (A & _). destruct (norm_any H24 v k Hk ltac:(lia) Fqv ltac:(lra) NK) as (P & _ & _ & Q). split; assumption.
Qed.
Lemma hyp_rel : lib_at d cosh (m_cosh L) (fvnorm v) -> lib_at d sinh (m_sinh L) (fvnorm v) ->
  fnear (m_cosh L (fvnorm v)) (cosh n) (dl * cosh n) /\ fnear (m_sinh L (fvnorm v)) (sinh n) (dl * sinh n).
Proof.
  intros (FC & LC) (FS & LS). destruct norm_n as ((_ & E) & _). pose proof u24 as U. pose proof n_gt as N0. pose proof (Rlt_le _ _ N0) as N00. destruct dl_u as (A & DD & _ & _).
  assert (UN0 : 0 <= u * n) by (apply Rmult_le_pos; lra). pose proof (cosh_ge1 n) as C1. pose proof (sinh_self n N00) as S1.
  assert (E2 : 8 * u * n <= / 2) by lra. pose proof (cosh_shift n (B2R (fvnorm v)) _ E E2) as P. pose proof (sinh_shift n (B2R (fvnorm v)) _ E E2) as Q. pose proof (coth_le n N00) as CT.
  assert (Q' : Rabs (sinh (B2R (fvnorm v)) - sinh n) <= 16 * u * (1 + n) * sinh n) by (assert (u * (n * cosh n) <= u * ((1 + n) * sinh n)) by (apply Rmult_le_compat_l; lra); lra).
  assert (P' : Rabs (cosh (B2R (fvnorm v)) - cosh n) <= 16 * u * (1 + n) * cosh n) by (assert (0 <= u * cosh n) by (apply Rmult_le_pos; lra); lra).
  assert (G : forall (X : fl) g h, 0 < g -> Rabs (h - g) <= 16 * u * (1 + n) * g -> is_finite X = true -> Rabs (B2R X - h) <= d * Rabs h -> fnear X g (dl * g)).
  { intros X g h G0 Hg FX EX. split; [exact FX|]. assert (HB : Rabs h <= 5 / 4 * g).
    { replace h with (g + (h - g)) by ring. eapply Rle_trans; [apply Rabs_triang|]. rewrite (Rabs_pos_eq g) by lra. assert (16 * u * (1 + n) * g <= / 64 * g) by (apply Rmult_le_compat_r; lra). lra. }
    replace (B2R X - g) with ((B2R X - h) + (h - g)) by ring. eapply Rle_trans; [apply Rabs_triang|]. assert (d * Rabs h <= d * (5 / 4 * g)) by (apply Rmult_le_compat_l; lra). lra. }
  split; [apply (G _ _ (cosh (B2R (fvnorm v))))|apply (G _ _ (sinh (B2R (fvnorm v))))]; try assumption; lra.
Qed.
Lemma lib_rel (g : R -> R) (fn : fl -> fl) x : lib_at d g fn x -> fnear (fn x) (g (B2R x)) (dl * Rabs (g (B2R x))).
Proof.
  intros (F & E). split; [exact F|]. eapply Rle_trans; [exact E|]. apply Rmult_le_compat_r; [apply Rabs_pos|]. destruct dl_u as (_ & _ & _ & H). lra.
Qed.

Lemma tan_close (tangent : fl -> fl) x y : cosh n * cosh n * (1 + n) <= bpow radix2 (emax - 3) ->
  lib_at d cos (m_cos L) (qscalar q) -> lib_at d sin (m_sin L) (qscalar q) -> lib_at d cosh (m_cosh L) (fvnorm v) -> lib_at d sinh (m_sinh L) (fvnorm v) ->
  x * (cos s * cosh n) + y * (sin s * sinh n) = sin s * cosh n -> y * (cos s * cosh n) - x * (sin s * sinh n) = cos s * sinh n ->
  fnear (vget (B754_zero false) (fqtan L tangent q : vec fl 4) 0) x (6 * dl * Rabs x + bpow radix2 (2 * k + 4 - emax - prec)) /\
  forall i, (i < 3)%nat -> near_rel (9 * dl) (vget (B754_zero false) (fqtan L tangent q : vec fl 4) (S i)) (y * rdir (fval v) i).
Proof.
  intros OV LC LS LCH LSH EX EY. destruct (hyp_rel LCH LSH) as (RC & RS). pose proof (lib_rel _ _ _ LC) as Rc. pose proof (lib_rel _ _ _ LS) as Rs. destruct norm_n as (HN & NZ).
  pose proof u24 as U. pose proof n_gt as N0. pose proof (Rlt_le _ _ N0) as N00. destruct dl_u as (UD & DD & UDL & DDL). pose proof (cosh_ge1 n) as C1. pose proof (sinh_self n N00) as S1. pose proof (cosh_sinh2 n) as CS2. pose proof (coth_le n N00) as CT.
  pose proof (COS_bound s) as CB. pose proof (SIN_bound s) as SB. pose proof (sin2_cos2 s) as SC. unfold Rsqr in SC.
  set (c := cos s) in *. set (t := sin s) in *. set (ch := cosh n) in *. set (sh := sinh n) in *. set (D := c * c + sh * sh).
  set (delta := dl) in *.
  assert (XD : x * D = c * t). { replace (x * D) with ((x * (c * ch) + y * (t * sh)) * (c * ch) - (y * (c * ch) - x * (t * sh)) * (t * sh) + x * (c * c * (1 + sh * sh - ch * ch) + sh * sh * (1 - (t * t + c * c)))) by (unfold D; ring). rewrite EX, EY, SC, CS2. replace (t * ch * (c * ch)) with (t * c * (ch * ch)) by ring. rewrite CS2. ring. }
  assert (YD : y * D = ch * sh). { replace (y * D) with ((x * (c * ch) + y * (t * sh)) * (t * sh) + (y * (c * ch) - x * (t * sh)) * (c * ch) + y * (c * c * (1 + sh * sh - ch * ch) + sh * sh * (1 - (t * t + c * c)))) by (unfold D; ring). rewrite EX, EY, SC, CS2. replace (t * ch * (t * sh) + c * sh * (c * ch)) with (ch * sh * (t * t + c * c)) by ring. rewrite SC. ring. }
  assert (CC : 0 <= c * c <= 1) by nra.
  assert (SHN : n * n <= sh * sh) by (apply Rmult_le_compat; lra). assert (DN : n * n <= D) by (unfold D; lra). assert (DC : D <= ch * ch) by (unfold D; lra).
  assert (K2 : bpow radix2 (- k) * bpow radix2 (- k) <= n * n) by (pose proof (bpow_gt_0 radix2 (- k)); apply Rmult_le_compat; lra). rewrite <- bpow_plus in K2.
  assert (D1 : 0 < D) by (assert (0 < n * n) by (apply Rmult_lt_0_compat; lra); lra).
  assert (OV1 : ch * ch <= bpow radix2 (emax - 3)) by (assert (0 <= ch * ch * n) by (apply Rmult_le_pos; [apply Rmult_le_pos|]; lra); lra).
  assert (OV2 : ch * ch * n <= bpow radix2 (emax - 3)) by (assert (0 <= ch * ch) by (apply Rmult_le_pos; lra); lra).
  assert (BB : bpow radix2 (emax - 2) = 2 * bpow radix2 (emax - 3)) by (replace (emax - 2)%Z with (1 + (emax - 3))%Z by ring; exact (bpow_plus radix2 1 (emax - 3))). pose proof emax2 as BB1. pose proof (bpow_gt_0 radix2 (emax - 3)) as BG.
  assert (SHC : sh <= ch) by (unfold sh, ch; pose proof (sinh_le_cosh n) as Q; rewrite Rabs_pos_eq in Q; [exact Q|fold sh; lra]).
  assert (B1 : 1 <= bpow radix2 (emax - 3)) by (apply (bpow_le radix2 0 (emax - 3)); lia).
  pose proof (bpow_gt_0 radix2 (2 - emax - prec)) as TY0.
  assert (TD : forall m j, (0 <= j <= 3 * k)%Z -> bpow radix2 (- j) <= m -> tiny <= / 1024 * (u * m)).
  { intros m j Hj Hm. apply (Rle_trans _ (bpow radix2 (-10) * (bpow radix2 (- prec) * bpow radix2 (- j)))); [rewrite <- !bpow_plus; apply bpow_le; lia|].
    change (bpow radix2 (-10)) with (/ 1024). apply Rmult_le_compat_l; [lra|]. apply Rmult_le_compat_l; lra. }
  assert (TDD : tiny <= / 1024 * (u * D)) by (apply (TD D (2 * k)%Z); [lia|]; replace (- (2 * k))%Z with (- k + - k)%Z by ring; lra).
  (* the denominator *)
  assert (AC : Rabs (c * c) = c * c) by (apply Rabs_pos_eq; lra). assert (SS : 0 <= sh * sh) by (apply Rmult_le_pos; lra). assert (AS : Rabs (sh * sh) = sh * sh) by (apply Rabs_pos_eq; lra).
  assert (DE : 0 <= delta <= / 8) by lra.
  assert (RS' : fnear (m_sinh L (fvnorm v)) sh (delta * Rabs sh)) by (rewrite (Rabs_pos_eq sh) by lra; exact RS). assert (RC' : fnear (m_cosh L (fvnorm v)) ch (delta * Rabs ch)) by (rewrite (Rabs_pos_eq ch) by lra; exact RC).
  destruct (mul_gen _ _ c c delta delta DE DE Rc Rc ltac:(rewrite AC; lra)) as (F1 & E1). rewrite AC in E1.
  destruct (mul_gen _ _ sh sh delta delta DE DE RS' RS' ltac:(rewrite AS; lra)) as (F2 & E2). rewrite AS in E2.
  set (c2 := nmul (m_cos L (qscalar q)) (m_cos L (qscalar q))) in *. set (s2 := nmul (m_sinh L (fvnorm v)) (m_sinh L (fvnorm v))) in *.
  assert (UDD : u * D <= / 16 * delta * D) by (apply Rmult_le_compat_r; lra). assert (DD0 : 0 <= delta * D) by (apply Rmult_le_pos; lra). assert (UD0 : 0 <= u * D) by (apply Rmult_le_pos; lra). assert (DD1 : delta * D <= / 64 * D) by (apply Rmult_le_compat_r; lra).
  assert (E3 : Rabs (B2R c2 + B2R s2 - D) <= (9 / 4 * delta + 3 / 2 * u) * D + 2 * tiny).
  { unfold D. replace (B2R c2 + B2R s2 - (c * c + sh * sh)) with ((B2R c2 - c * c) + (B2R s2 - sh * sh)) by ring. eapply Rle_trans; [apply Rabs_triang|]. lra. }
  assert (E3' : Rabs (B2R c2 + B2R s2) <= 9 / 8 * D).
  { replace (B2R c2 + B2R s2) with (D + (B2R c2 + B2R s2 - D)) by ring. eapply Rle_trans; [apply Rabs_triang|]. rewrite (Rabs_pos_eq D) by lra. lra. }
  destruct (add_val c2 s2 F1 F2 ltac:(lra)) as (F4 & _ & E4). set (den := nadd c2 s2) in *.
  assert (RD : fnear den D (5 / 2 * delta * Rabs D)).
  { split; [exact F4|]. rewrite (Rabs_pos_eq D) by lra. replace (B2R den - D) with ((B2R den - (B2R c2 + B2R s2)) + (B2R c2 + B2R s2 - D)) by ring. eapply Rle_trans; [apply Rabs_triang|].
    assert (u * Rabs (B2R c2 + B2R s2) <= u * (9 / 8 * D)) by (apply Rmult_le_compat_l; lra). lra. }
  (* the scalar part *)
  assert (Hx : x = c * t / D) by (apply (Rmult_eq_reg_r D); [|lra]; rewrite XD; field; lra).
  assert (Hy : y = ch * sh / D) by (apply (Rmult_eq_reg_r D); [|lra]; rewrite YD; field; lra).
  assert (ID : / D <= bpow radix2 (2 * k)) by (rewrite <- (Rinv_inv (bpow radix2 (2 * k))), <- bpow_opp; apply Rinv_le; [apply bpow_gt_0|]; replace (- (2 * k))%Z with (- k + - k)%Z by ring; lra).
  assert (ID0 : 0 < / D) by (apply Rinv_0_lt_compat; exact D1).
  assert (CT1 : Rabs (c * t) <= 1) by (rewrite Rabs_mult, <- (Rmult_1_l 1); apply Rmult_le_compat; try apply Rabs_pos; apply Rabs_le; lra). pose proof (Rabs_pos (c * t)) as CT0.
  destruct (mul_gen _ _ c t delta delta DE DE Rc Rs ltac:(lra)) as (F5 & E5).
  assert (TYS : tiny <= / 1024) by (apply (bpow_le radix2 _ (-10)); lia).
  assert (E5' : (9 / 8 * (delta + delta) + 3 / 2 * u) * Rabs (c * t) + tiny <= 1 * 1) by (assert (((9 / 8 * (delta + delta) + 3 / 2 * u)) * Rabs (c * t) <= / 2 * 1) by (apply Rmult_le_compat; lra); lra).
  assert (BK : bpow radix2 (2 * k) <= / 4 * bpow radix2 (emax - 1)) by (change (/ 4) with (bpow radix2 (-2)); rewrite <- bpow_plus; apply bpow_le; lia).
  assert (DCT : 0 <= delta * Rabs (c * t) <= / 64 * 1) by (split; [apply Rmult_le_pos; lra|apply Rmult_le_compat; lra]).
  split.
  - destruct (div_gen _ den (c * t) D _ (5 / 2 * delta) ltac:(lra) (conj F5 E5) RD ltac:(lra)) as (F6 & E6).
    { rewrite (Rabs_pos_eq D) by lra. unfold Rdiv. apply (Rle_trans _ (1 * / D + 6 / 5 * (2 * / D))); [|lra].
      apply Rplus_le_compat; [apply Rmult_le_compat_r; lra|]. apply Rmult_le_compat_l; [lra|]. apply Rmult_le_compat_r; lra. }
    rewrite <- Hx in E6. assert (Q : vget (B754_zero false) (fqtan L tangent q : vec fl 4) 0 = ndiv (nmul (m_cos L (qscalar q)) (m_sin L (qscalar q))) den).
    { unfold fqtan. cbv zeta. rewrite NZ. destruct q as (q0 & q1 & q2 & q3 & []). reflexivity. }
    rewrite Q. split; [exact F6|]. eapply Rle_trans; [exact E6|]. rewrite (Rabs_pos_eq D) by lra.
    assert (AX : Rabs (c * t) = Rabs x * D) by (rewrite Hx; unfold Rdiv; rewrite (Rabs_mult (c * t) (/ D)), (Rabs_pos_eq (/ D)) by lra; field; lra). rewrite AX.
    replace (((9 / 8 * (delta + delta) + 3 / 2 * u) * (Rabs x * D) + tiny + 5 / 2 * delta * (Rabs x * D)) / D) with ((19 / 4 * delta + 3 / 2 * u) * Rabs x + tiny * / D) by (field; lra).
    pose proof (Rabs_pos x) as X0. assert (u * Rabs x <= / 16 * delta * Rabs x) by (apply Rmult_le_compat_r; lra).
    assert (T2 : tiny * / D <= bpow radix2 (2 * k + 2 - emax - prec)). { replace (2 * k + 2 - emax - prec)%Z with ((2 - emax - prec) + 2 * k)%Z by ring. rewrite bpow_plus. apply Rmult_le_compat_l; lra. }
    assert (T3 : tiny <= bpow radix2 (2 * k + 2 - emax - prec)) by (apply bpow_le; pose proof Hp; unfold Prec_gt_0 in *; lia).
    assert (T4 : bpow radix2 (2 * k + 4 - emax - prec) = 4 * bpow radix2 (2 * k + 2 - emax - prec)) by (replace (2 * k + 4 - emax - prec)%Z with (2 + (2 * k + 2 - emax - prec))%Z by ring; exact (bpow_plus radix2 2 _)).
    assert (0 <= delta * Rabs x) by (apply Rmult_le_pos; lra). lra.
  - (* the vector part *)
    intros i Hi. assert (CSP : 0 < ch * sh) by (apply Rmult_lt_0_compat; lra). assert (ACS : Rabs (ch * sh) = ch * sh) by (apply Rabs_pos_eq; lra).
    assert (CSB : ch * sh <= ch * ch) by (apply Rmult_le_compat_l; lra).
    assert (CSN : n <= ch * sh) by (rewrite <- (Rmult_1_l n); apply Rmult_le_compat; lra).
    destruct (mul_gen _ _ ch sh delta delta DE DE RC' RS' ltac:(rewrite ACS; lra)) as (F7 & E7). rewrite ACS in E7.
    assert (TCS : tiny <= / 1024 * (u * (ch * sh))) by (apply (TD _ k); [pose proof Hp; unfold Prec_gt_0 in *; lia|lra]).
    assert (RA : fnear (nmul (m_cosh L (fvnorm v)) (m_sinh L (fvnorm v))) (ch * sh) (5 / 2 * delta * (ch * sh))).
    { split; [exact F7|]. eapply Rle_trans; [exact E7|]. assert (u * (ch * sh) <= / 16 * delta * (ch * sh)) by (apply Rmult_le_compat_r; lra). assert (0 <= delta * (ch * sh)) by (apply Rmult_le_pos; lra). lra. }
    assert (DNP : 0 < D * n) by (apply Rmult_lt_0_compat; lra). assert (ADN : Rabs (D * n) = D * n) by (apply Rabs_pos_eq; lra).
    assert (RN : fnear (fvnorm v) n (8 * u * Rabs n)) by (rewrite (Rabs_pos_eq n) by lra; exact HN).
    assert (DNB : D * n <= ch * ch * n) by (apply Rmult_le_compat_r; lra).
    destruct (mul_gen den (fvnorm v) D n (5 / 2 * delta) (8 * u) ltac:(lra) ltac:(lra) RD RN ltac:(rewrite ADN; lra)) as (F8 & E8). rewrite ADN in E8.
    assert (TDN : tiny <= / 1024 * (u * (D * n))).
    { apply (TD _ (3 * k)%Z); [pose proof Hp; unfold Prec_gt_0 in *; lia|]. replace (- (3 * k))%Z with (- k + - k + - k)%Z by ring. rewrite (bpow_plus _ (- k + - k)). apply Rmult_le_compat; [apply bpow_ge_0|apply bpow_ge_0|lra|lra]. }
    assert (RDN : fnear (nmul den (fvnorm v)) (D * n) (18 / 5 * delta * Rabs (D * n))).
    { split; [exact F8|]. eapply Rle_trans; [exact E8|]. rewrite ADN. assert (u * (D * n) <= / 16 * delta * (D * n)) by (apply Rmult_le_compat_r; lra). assert (0 <= delta * (D * n)) by (apply Rmult_le_pos; lra). lra. }
    set (a := ch * sh / (D * n)). assert (AP : 0 < a) by (apply Rdiv_lt_0_compat; assumption).
    assert (AL : 1 <= a * (1 + n)).
    { apply (Rmult_le_reg_r (D * n)); [exact DNP|]. replace (a * (1 + n) * (D * n)) with (ch * sh * (1 + n)) by (unfold a; field; split; lra). rewrite Rmult_1_l.
      apply (Rle_trans _ (ch * (n * ch))); [lra|]. replace (ch * sh * (1 + n)) with (ch * ((1 + n) * sh)) by ring. apply Rmult_le_compat_l; lra. }
    assert (AU : a * (n * n) <= 1 + n).
    { apply (Rmult_le_reg_r D); [exact D1|]. replace (a * (n * n) * D) with (n * ch * sh) by (unfold a; field; split; lra). apply (Rle_trans _ ((1 + n) * (sh * sh))); [|apply Rmult_le_compat_l; unfold D; lra].
      replace ((1 + n) * (sh * sh)) with ((1 + n) * sh * sh) by ring. apply Rmult_le_compat_r; lra. }
    assert (UP : u * bpow radix2 prec = 1) by (rewrite <- bpow_plus; replace (- prec + prec)%Z with 0%Z by ring; reflexivity).
    assert (N1 : 1 + n <= bpow radix2 prec) by (apply (Rmult_le_reg_l u); [lra|]; rewrite UP; lra).
    assert (AB : a <= bpow radix2 (emax - 4)).
    { apply (Rle_trans _ (bpow radix2 (prec + 2 * k))); [|apply bpow_le; lia]. apply (Rmult_le_reg_r (bpow radix2 (- k + - k))); [apply bpow_gt_0|]. rewrite <- bpow_plus. replace (prec + 2 * k + (- k + - k))%Z with prec by ring.
      apply (Rle_trans _ (a * (n * n))); [apply Rmult_le_compat_l; lra|lra]. }
    assert (AN : a * n <= bpow radix2 (emax - 4)).
    { apply (Rle_trans _ (bpow radix2 (prec + k))); [|apply bpow_le; lia]. apply (Rmult_le_reg_r (bpow radix2 (- k))); [apply bpow_gt_0|]. rewrite <- bpow_plus. replace (prec + k + - k)%Z with prec by ring.
      apply (Rle_trans _ (a * n * n)); [apply Rmult_le_compat_l; [apply Rmult_le_pos|]; lra|lra]. }
    assert (BB4 : bpow radix2 (emax - 1) = 8 * bpow radix2 (emax - 4)) by (replace (emax - 1)%Z with (3 + (emax - 4))%Z by ring; exact (bpow_plus radix2 3 (emax - 4))).
    assert (DA : 0 <= delta * a <= / 64 * a) by (split; [apply Rmult_le_pos; lra|apply Rmult_le_compat_r; lra]).
    destruct (div_gen _ (nmul den (fvnorm v)) (ch * sh) (D * n) _ (18 / 5 * delta) ltac:(lra) RA RDN ltac:(lra)) as (F9 & E9).
    { rewrite ADN, ACS. fold a. replace ((5 / 2 * delta * (ch * sh) + 18 / 5 * delta * (ch * sh)) / (D * n)) with (61 / 10 * delta * a) by (unfold a; field; split; lra). lra. }
    set (Q := ndiv (nmul (m_cosh L (fvnorm v)) (m_sinh L (fvnorm v))) (nmul den (fvnorm v))) in *.
    assert (RQ : fnear Q a (15 / 2 * delta * Rabs a)).
    { split; [exact F9|]. rewrite (Rabs_pos_eq a) by lra. eapply Rle_trans; [exact E9|]. rewrite ADN, ACS. fold a. rewrite (Rabs_pos_eq a) by lra.
      replace ((5 / 2 * delta * (ch * sh) + 18 / 5 * delta * (ch * sh)) / (D * n)) with (61 / 10 * delta * a) by (unfold a; field; split; lra).
      assert (UA : u * a <= / 16 * delta * a) by (apply Rmult_le_compat_r; lra).
      assert (TA : tiny <= u * a). { apply (Rle_trans _ (u * u)); [rewrite <- bpow_plus; apply bpow_le; lia|]. apply Rmult_le_compat_l; [lra|]. apply (Rmult_le_reg_r (1 + n)); [lra|]. lra. }
      lra. }
    assert (Fi := Fqv i Hi). pose proof (fnrm_comp 3 (fval v) i Hi) as VN. change (fnrm 3 (fval v)) with n in VN.
    destruct (mul_gen (vat v i) Q (fval v i) a 0 (15 / 2 * delta) ltac:(lra) ltac:(lra)) as (F10 & E10).
    + split; [exact Fi|]. unfold fval. rewrite Rminus_diag_eq by reflexivity. rewrite Rabs_R0. lra.
    + exact RQ.
    + rewrite Rabs_mult, (Rabs_pos_eq a) by lra. apply (Rle_trans _ (n * a)); [apply Rmult_le_compat_r; lra|lra].
    + assert (P : vget (B754_zero false) (fqtan L tangent q : vec fl 4) (S i) = nmul (vat v i) Q).
      { unfold fqtan. cbv zeta. rewrite NZ. unfold Q, den, c2, s2. destruct q as (q0 & q1 & q2 & q3 & []). destruct i as [|[|[|i]]]; try lia; reflexivity. }
      rewrite P. assert (VA : fval v i * a = y * rdir (fval v) i) by (rewrite Hy; unfold a, rdir; field; split; lra). rewrite VA in E10. split; [exact F10|]. eapply Rle_trans; [exact E10|].
      apply Rplus_le_compat_r. apply Rmult_le_compat_r; [apply Rabs_pos|]. lra.
Qed.
End T.

(** *** tanh *)
Lemma m_facts (sh c D m : R) : -1 <= c <= 1 -> D = sh * sh + c * c -> m = Rmin 1 (sqrt D) -> 0 < m ->
  m <= 1 /\ m * m <= D /\ Rabs c <= m /\ forall ch, 1 <= ch -> ch * ch = 1 + sh * sh -> Rabs (ch * sh) * m <= 2 * D.
Proof.
  intros C HD Hm M. pose proof (Rmin_l 1 (sqrt D)) as M1. pose proof (Rmin_r 1 (sqrt D)) as M2. rewrite <- Hm in M1, M2.
  assert (SS : 0 <= sh * sh) by apply Rle_0_sqr. assert (CC : 0 <= c * c) by apply Rle_0_sqr. assert (D0 : 0 <= D) by lra. pose proof (sqrt_sqrt D D0) as SQ. pose proof (sqrt_pos D) as SP.
  assert (AC : Rabs c <= sqrt D) by (rewrite <- sqrt_Rsqr_abs; apply sqrt_le_1_alt; unfold Rsqr; lra).
  split; [exact M1|]. split; [apply (Rle_trans _ (sqrt D * sqrt D)); [apply Rmult_le_compat; lra|lra]|]. split; [rewrite Hm; apply Rmin_glb; [apply Rabs_le; exact C|exact AC]|].
  intros ch C1 CH. pose proof (Rabs_pos sh) as S0. assert (S2 : Rabs sh * Rabs sh = sh * sh) by (rewrite <- Rabs_mult; apply Rabs_pos_eq; exact SS).
  rewrite Rabs_mult, (Rabs_pos_eq ch) by lra. destruct (Rle_or_lt 1 D) as [B|B].
  - apply (Rle_trans _ (ch * Rabs sh * 1)); [apply Rmult_le_compat_l; [apply Rmult_le_pos; lra|lra]|]. assert (0 <= (ch - Rabs sh) * (ch - Rabs sh)) by apply Rle_0_sqr. lra.
  - assert (AS : Rabs sh <= sqrt D) by (rewrite <- sqrt_Rsqr_abs; apply sqrt_le_1_alt; unfold Rsqr; lra). assert (C2 : ch <= 2) by nra.
    replace (2 * D) with (2 * sqrt D * sqrt D) by lra. apply Rmult_le_compat; [apply Rmult_le_pos; lra|lra| |exact M2]. apply Rmult_le_compat; lra.
Qed.

Section H.
Variable q : quat fl.
Notation s := (B2R (qscalar q)).
Notation v := (qvector q).
Notation n := (rlength 3 (fval v)).
Variables (d : R) (k : Z).
Hypothesis D0 : 0 <= d.
Hypothesis Fq : all_finite (q : vec fl 4).
Hypothesis Hk : (prec <= k)%Z.
Hypothesis Hr : (3 * k + 31 <= emax)%Z.
Hypothesis NK : bpow radix2 (- k) <= n.

Lemma tanh_close (tangenth : fl -> fl) x y : let D := sinh s * sinh s + cos n * cos n in let m := Rmin 1 (sqrt D) in let kap := d + 8 * u * (1 + n) in
  64 * kap <= m -> cosh s * cosh s * (1 + n) <= bpow radix2 (emax - 3) ->
  lib_at d cosh (m_cosh L) (qscalar q) -> lib_at d sinh (m_sinh L) (qscalar q) -> lib_at d cos (m_cos L) (fvnorm v) -> lib_at d sin (m_sin L) (fvnorm v) ->
  x * (cosh s * cos n) - y * (sinh s * sin n) = sinh s * cos n -> y * (cosh s * cos n) + x * (sinh s * sin n) = cosh s * sin n ->
  fnear (vget (B754_zero false) (fqtanh L tangenth q : vec fl 4) 0) x (9 * (kap / m) * Rabs x + bpow radix2 (prec - emax)) /\
  forall i, (i < 3)%nat -> fnear (vget (B754_zero false) (fqtanh L tangenth q : vec fl 4) (S i)) (y * rdir (fval v) i) (12 * (kap / D) + tiny).
Proof.
  intros D m kap HM OV LCH LSH LC LS EX EY. pose proof u24 as U. assert (N0 : 0 < n) by (pose proof (bpow_gt_0 radix2 (- k)); lra). assert (UN0 : 0 <= u * n) by (apply Rmult_le_pos; lra).
  assert (KU : 8 * u <= kap) by (unfold kap; lra). assert (KD : d <= kap) by (unfold kap; lra). assert (KN : 8 * (u * n) <= kap) by (unfold kap; lra). assert (K0 : 0 < kap) by lra.
  assert (M0 : 0 < m) by lra. destruct (m_facts (sinh s) (cos n) D m (COS_bound n) eq_refl eq_refl M0) as (M1 & MD & MC & MX).
  assert (DD : 0 <= d <= / 64) by lra. assert (D16 : 0 <= d <= / 16) by lra. assert (KL : kap <= / 64) by lra.
  assert (Fv : forall i, (i < 3)%nat -> is_finite (vat v i) = true) by (intros [|[|[|i]]] Hi; try lia; [exact (Fq 1%nat ltac:(lia))|exact (Fq 2%nat ltac:(lia))|exact (Fq 3%nat ltac:(lia))]).
  assert (UN : 128 * u * n <= 1) by lra. assert (Hr2 : (2 * k + 31 <= emax)%Z) by (pose proof Hp; unfold Prec_gt_0 in *; lia).
  destruct (norm_any H24 v k Hk Hr2 Fv UN NK) as (HN & _ & _ & NZ).
  destruct (trig_N L H24 d D16 v HN LC LS) as (Rc & Rs & _). rewrite Rmult_1_r in Rc, Rs.
  pose proof (cosh_ge1 s) as C1. pose proof (cosh_sinh2 s) as CS2. pose proof (COS_bound n) as CB. pose proof (SIN_bound n) as SB. pose proof (sin2_cos2 n) as SC. unfold Rsqr in SC.
  destruct LCH as (FC & RC). destruct LSH as (FS & RS). pose proof (MX (cosh s) C1 CS2) as MX'. clear MX.
  set (c := cos n) in *. set (t := sin n) in *. set (ch := cosh s) in *. set (sh := sinh s) in *.
  assert (XD : x * D = ch * sh). { replace (x * D) with ((x * (ch * c) - y * (sh * t)) * (ch * c) + (y * (ch * c) + x * (sh * t)) * (sh * t) + x * (c * c * (1 + sh * sh - ch * ch) + sh * sh * (1 - (t * t + c * c)))) by (unfold D; ring). rewrite EX, EY, SC, CS2. replace (sh * c * (ch * c) + ch * t * (sh * t)) with (ch * sh * (t * t + c * c)) by ring. rewrite SC. ring. }
  assert (YD : y * D = c * t). { replace (y * D) with ((y * (ch * c) + x * (sh * t)) * (ch * c) - (x * (ch * c) - y * (sh * t)) * (sh * t) + y * (c * c * (1 + sh * sh - ch * ch) + sh * sh * (1 - (t * t + c * c)))) by (unfold D; ring). rewrite EX, EY, SC, CS2. replace (ch * t * (ch * c)) with (t * c * (ch * ch)) by ring. rewrite CS2. ring. }
  set (tau := kap / m). assert (TM : tau * m = kap) by (unfold tau; field; lra). assert (TK : kap <= tau) by (assert (0 < / m) by (apply Rinv_0_lt_compat; exact M0); assert (1 <= / m) by (apply (Rmult_le_reg_r m); [exact M0|]; rewrite Rinv_l by lra; lra); unfold tau, Rdiv; assert (kap * 1 <= kap * / m) by (apply Rmult_le_compat_l; lra); lra).
  assert (T64 : tau <= / 64) by (apply (Rmult_le_reg_r m); [exact M0|]; lra). assert (T0 : 0 < tau) by lra.
  assert (MM : 0 < m * m) by (apply Rmult_lt_0_compat; exact M0). assert (D1 : 0 < D) by lra.
  assert (SS : 0 <= sh * sh) by apply Rle_0_sqr. assert (CC : 0 <= c * c <= 1) by nra. assert (DC : D <= ch * ch) by (unfold D; lra).
  assert (HD : D = sh * sh + c * c) by reflexivity. clearbody D. clearbody m. assert (OV1 : ch * ch <= bpow radix2 (emax - 3)) by (assert (0 <= ch * ch * n) by (apply Rmult_le_pos; [apply Rmult_le_pos|]; lra); lra).
  assert (OV2 : ch * ch * n <= bpow radix2 (emax - 3)) by (assert (0 <= ch * ch) by (apply Rmult_le_pos; lra); lra).
  assert (BB : bpow radix2 (emax - 2) = 2 * bpow radix2 (emax - 3)) by (replace (emax - 2)%Z with (1 + (emax - 3))%Z by ring; exact (bpow_plus radix2 1 (emax - 3))). pose proof emax2 as BB1. pose proof (bpow_gt_0 radix2 (emax - 3)) as BG.
  pose proof (bpow_gt_0 radix2 (2 - emax - prec)) as TY0.
  assert (UU : u * u * 262144 <= D). { apply (Rle_trans _ (m * m)); [|exact MD]. replace (u * u * 262144) with (512 * u * (512 * u)) by ring. apply Rmult_le_compat; lra. }
  assert (DL : bpow radix2 (16 - 2 * prec) <= D). { replace (16 - 2 * prec)%Z with (- prec + - prec + 16)%Z by ring. rewrite !bpow_plus. change (bpow radix2 16) with 65536. assert (0 <= u * u) by (apply Rmult_le_pos; lra). lra. }
  assert (TDD : tiny <= / 1024 * (u * D)).
  { apply (Rle_trans _ (bpow radix2 (-10) * (bpow radix2 (- prec) * bpow radix2 (16 - 2 * prec)))); [rewrite <- !bpow_plus; apply bpow_le; lia|].
    change (bpow radix2 (-10)) with (/ 1024). apply Rmult_le_compat_l; [lra|]. apply Rmult_le_compat_l; lra. }
  assert (B1 : 1 <= bpow radix2 (emax - 3)) by (apply (bpow_le radix2 0 (emax - 3)); pose proof Hp; unfold Prec_gt_0 in *; lia).
  assert (DE : 0 <= d <= / 8) by lra. assert (AS : Rabs (sh * sh) = sh * sh) by (apply Rabs_pos_eq; lra). assert (SHC : sh * sh <= ch * ch) by lra.
  (* the denominator *)
  destruct (mul_gen _ _ sh sh d d DE DE (conj FS RS) (conj FS RS) ltac:(rewrite AS; lra)) as (F2 & E2). rewrite AS in E2.
  destruct Rc as (Fc & Rc). destruct Rs as (Fs & Rs). set (hc := m_cos L (fvnorm v)) in *. set (hs := m_sin L (fvnorm v)) in *.
  assert (Rc' : Rabs (B2R hc - c) <= kap) by (unfold kap; lra). assert (Rs' : Rabs (B2R hs - t) <= kap) by (unfold kap; lra).
  assert (KM : kap <= / 64 * m) by lra. pose proof (Rabs_pos c) as AC0. pose proof (Rabs_pos (B2R hc - c)) as AH0.
  assert (C2 : Rabs (B2R hc * B2R hc - c * c) <= 129 / 64 * (tau * D)).
  { replace (B2R hc * B2R hc - c * c) with ((B2R hc - c) * (2 * c + (B2R hc - c))) by ring. rewrite Rabs_mult. apply (Rle_trans _ (kap * (129 / 64 * m))).
    - apply Rmult_le_compat; [apply Rabs_pos|apply Rabs_pos|exact Rc'|]. eapply Rle_trans; [apply Rabs_triang|]. rewrite Rabs_mult, (Rabs_pos_eq 2) by lra. lra.
    - rewrite <- TM. replace (tau * m * (129 / 64 * m)) with (129 / 64 * (tau * (m * m))) by ring. apply Rmult_le_compat_l; [lra|]. apply Rmult_le_compat_l; lra. }
  assert (TD0 : 0 <= tau * D <= / 64 * D) by (split; [apply Rmult_le_pos; lra|apply Rmult_le_compat_r; lra]). assert (UD0 : 0 <= u * D <= / 8 * tau * D) by (split; [apply Rmult_le_pos; lra|apply Rmult_le_compat_r; lra]).
  assert (CD : c * c <= D) by lra. assert (C2B : Rabs (B2R hc * B2R hc) <= 17 / 16 * D).
  { replace (B2R hc * B2R hc) with (c * c + (B2R hc * B2R hc - c * c)) by ring. eapply Rle_trans; [apply Rabs_triang|]. rewrite (Rabs_pos_eq (c * c)) by lra. lra. }
  destruct (mul_val hc hc Fc Fc ltac:(lra)) as (F1 & E1). pose proof (rnd_rel (prec := prec) (emax := emax) (B2R hc * B2R hc)) as E1'. rewrite <- E1 in E1'.
  set (c2 := nmul hc hc) in *. set (s2 := nmul (m_sinh L (qscalar q)) (m_sinh L (qscalar q))) in *.
  assert (U2 : u * Rabs (B2R hc * B2R hc) <= u * (17 / 16 * D)) by (apply Rmult_le_compat_l; lra).
  assert (E2b : (9 / 8 * (d + d) + 3 / 2 * u) * (sh * sh) <= (9 / 4 * tau + 3 / 2 * u) * D) by (apply Rmult_le_compat; lra).
  assert (E3 : Rabs (B2R s2 + B2R c2 - D) <= (9 / 4 * tau + 129 / 64 * tau + 41 / 16 * u) * D + 2 * tiny).
  { rewrite HD at 1. replace (B2R s2 + B2R c2 - (sh * sh + c * c)) with ((B2R s2 - sh * sh) + ((B2R c2 - B2R hc * B2R hc) + (B2R hc * B2R hc - c * c))) by ring. eapply Rle_trans; [apply Rabs_triang|].
    pose proof (Rabs_triang (B2R c2 - B2R hc * B2R hc) (B2R hc * B2R hc - c * c)). lra. }
  assert (E3' : Rabs (B2R s2 + B2R c2) <= 9 / 8 * D).
  { replace (B2R s2 + B2R c2) with (D + (B2R s2 + B2R c2 - D)) by ring. eapply Rle_trans; [apply Rabs_triang|]. rewrite (Rabs_pos_eq D) by lra. lra. }
  destruct (add_val s2 c2 F2 F1 ltac:(lra)) as (F4 & _ & E4). set (den := nadd s2 c2) in *.
  assert (RD : fnear den D (19 / 4 * tau * Rabs D)).
  { split; [exact F4|]. rewrite (Rabs_pos_eq D) by lra. replace (B2R den - D) with ((B2R den - (B2R s2 + B2R c2)) + (B2R s2 + B2R c2 - D)) by ring. eapply Rle_trans; [apply Rabs_triang|].
    assert (u * Rabs (B2R s2 + B2R c2) <= u * (9 / 8 * D)) by (apply Rmult_le_compat_l; lra). lra. }
  assert (Hx : x = ch * sh / D) by (apply (Rmult_eq_reg_r D); [|lra]; rewrite XD; field; lra).
  assert (Hy : y = c * t / D) by (apply (Rmult_eq_reg_r D); [|lra]; rewrite YD; field; lra).
  assert (ID0 : 0 < / D) by (apply Rinv_0_lt_compat; exact D1).
  assert (ID : / D <= bpow radix2 (2 * prec - 16)) by (rewrite <- (Rinv_inv (bpow radix2 (2 * prec - 16))), <- bpow_opp; apply Rinv_le; [apply bpow_gt_0|]; replace (- (2 * prec - 16))%Z with (16 - 2 * prec)%Z by ring; exact DL).
  assert (TYU : tiny <= / 1024 * u) by (apply (Rle_trans _ (bpow radix2 (-10) * u)); [rewrite <- bpow_plus; apply bpow_le; lia|change (bpow radix2 (-10)) with (/ 1024); lra]).
  split.
  - destruct (mul_gen _ _ ch sh d d DE DE (conj FC RC) (conj FS RS)) as (F5 & E5).
    { rewrite Rabs_mult, (Rabs_pos_eq ch) by lra. apply (Rle_trans _ (ch * ch)); [|lra]. apply Rmult_le_compat_l; [lra|]. apply sinh_le_cosh. }
    pose proof (Rabs_pos x) as X0. assert (AX : Rabs (ch * sh) = Rabs x * D) by (rewrite <- XD, Rabs_mult, (Rabs_pos_eq D) by lra; reflexivity).
    assert (XM : Rabs x * m <= 2) by (apply (Rmult_le_reg_r D); [exact D1|]; replace (Rabs x * m * D) with (Rabs x * D * m) by ring; rewrite <- AX; exact MX').
    assert (XB : Rabs x <= bpow radix2 prec). { assert (UP : u * bpow radix2 prec = 1) by (rewrite <- bpow_plus; replace (- prec + prec)%Z with 0%Z by ring; reflexivity). apply (Rmult_le_reg_l u); [lra|]. rewrite UP. assert (512 * u * Rabs x <= m * Rabs x) by (apply Rmult_le_compat_r; lra). lra. }
    assert (TX : 0 <= tau * Rabs x <= / 64 * Rabs x) by (split; [apply Rmult_le_pos; lra|apply Rmult_le_compat_r; lra]). assert (UX : 0 <= u * Rabs x <= / 8 * tau * Rabs x) by (split; [apply Rmult_le_pos; lra|apply Rmult_le_compat_r; lra]).
    assert (DX : d * Rabs x <= tau * Rabs x) by (apply Rmult_le_compat_r; lra).
    assert (T2 : tiny * / D <= bpow radix2 (prec - emax - 14)). { replace (prec - emax - 14)%Z with ((2 - emax - prec) + (2 * prec - 16))%Z by ring. rewrite bpow_plus. apply Rmult_le_compat_l; lra. }
    assert (T3 : tiny <= bpow radix2 (prec - emax - 14)) by (apply bpow_le; lia).
    assert (T4 : bpow radix2 (prec - emax) = 16384 * bpow radix2 (prec - emax - 14)) by (replace (prec - emax)%Z with (14 + (prec - emax - 14))%Z at 1 by ring; exact (bpow_plus radix2 14 _)).
    assert (Z1 : ((9 / 8 * (d + d) + 3 / 2 * u) * (Rabs x * D) + tiny + 19 / 4 * tau * (Rabs x * D)) / D = (9 / 4 * d + 19 / 4 * tau + 3 / 2 * u) * Rabs x + tiny * / D) by (field; lra).
    assert (Z2 : bpow radix2 prec <= / 16 * bpow radix2 (emax - 1)) by (change (/ 16) with (bpow radix2 (-4)); rewrite <- bpow_plus; apply bpow_le; lia).
    assert (Z3 : bpow radix2 (prec - emax - 14) <= 1) by (apply (bpow_le radix2 _ 0); lia).
    destruct (div_gen _ den (ch * sh) D _ (19 / 4 * tau) ltac:(lra) (conj F5 E5) RD ltac:(lra)) as (F6 & E6).
    { rewrite (Rabs_pos_eq D) by lra. rewrite AX, Z1. replace (Rabs x * D / D) with (Rabs x) by (field; lra). lra. }
    rewrite <- Hx in E6. assert (Q : vget (B754_zero false) (fqtanh L tangenth q : vec fl 4) 0 = ndiv (nmul (m_cosh L (qscalar q)) (m_sinh L (qscalar q))) den).
    { unfold fqtanh. cbv zeta. rewrite NZ. destruct q as (q0 & q1 & q2 & q3 & []). reflexivity. }
    rewrite Q. split; [exact F6|]. eapply Rle_trans; [exact E6|]. rewrite (Rabs_pos_eq D) by lra. rewrite AX, Z1. lra.
  - intros i Hi. pose proof (Rabs_pos t) as AT0. assert (AT : Rabs t <= 1) by (apply Rabs_le; lra).
    assert (P1 : Rabs (c * t) <= m) by (rewrite Rabs_mult, <- (Rmult_1_r m); apply Rmult_le_compat; assumption). pose proof (Rabs_pos (c * t)) as P0.
    assert (A1 : Rabs (B2R hc * B2R hs - c * t) <= 129 / 64 * kap).
    { replace (B2R hc * B2R hs - c * t) with ((B2R hc - c) * (B2R hs - t) + (B2R hc - c) * t + c * (B2R hs - t)) by ring. eapply Rle_trans; [apply Rabs_triang|].
      pose proof (Rabs_triang ((B2R hc - c) * (B2R hs - t)) ((B2R hc - c) * t)) as T. rewrite !Rabs_mult in *.
      assert (Rabs (B2R hc - c) * Rabs (B2R hs - t) <= kap * (/ 64)) by (apply Rmult_le_compat; try apply Rabs_pos; lra).
      assert (Rabs (B2R hc - c) * Rabs t <= kap * 1) by (apply Rmult_le_compat; try apply Rabs_pos; lra). assert (Rabs c * Rabs (B2R hs - t) <= 1 * kap) by (apply Rmult_le_compat; try apply Rabs_pos; lra). lra. }
    assert (A2 : Rabs (B2R hc * B2R hs) <= 17 / 16) by (replace (B2R hc * B2R hs) with (c * t + (B2R hc * B2R hs - c * t)) by ring; eapply Rle_trans; [apply Rabs_triang|]; lra).
    destruct (mul_val hc hs Fc Fs ltac:(lra)) as (F7 & E7). pose proof (rnd_rel (prec := prec) (emax := emax) (B2R hc * B2R hs)) as E7'. rewrite <- E7 in E7'.
    assert (RA : fnear (nmul hc hs) (c * t) (9 / 4 * kap)).
    { split; [exact F7|]. replace (B2R (nmul hc hs) - c * t) with ((B2R (nmul hc hs) - B2R hc * B2R hs) + (B2R hc * B2R hs - c * t)) by ring. eapply Rle_trans; [apply Rabs_triang|].
      assert (u * Rabs (B2R hc * B2R hs) <= u * (17 / 16)) by (apply Rmult_le_compat_l; lra). lra. }
    assert (DNP : 0 < D * n) by (apply Rmult_lt_0_compat; lra). assert (ADN : Rabs (D * n) = D * n) by (apply Rabs_pos_eq; lra).
    assert (RN : fnear (fvnorm v) n (8 * u * Rabs n)) by (rewrite (Rabs_pos_eq n) by lra; exact HN).
    assert (DNB : D * n <= ch * ch * n) by (apply Rmult_le_compat_r; lra).
    destruct (mul_gen den (fvnorm v) D n (19 / 4 * tau) (8 * u) ltac:(lra) ltac:(lra) RD RN ltac:(rewrite ADN; lra)) as (F8 & E8). rewrite ADN in E8.
    assert (DNL : bpow radix2 (16 - 2 * prec - k) <= D * n) by (replace (16 - 2 * prec - k)%Z with (16 - 2 * prec + - k)%Z by ring; rewrite bpow_plus; apply Rmult_le_compat; try apply bpow_ge_0; assumption).
    assert (TDN : tiny <= / 1024 * (u * (D * n))).
    { apply (Rle_trans _ (bpow radix2 (-10) * (bpow radix2 (- prec) * bpow radix2 (16 - 2 * prec - k)))); [rewrite <- !bpow_plus; apply bpow_le; lia|].
      change (bpow radix2 (-10)) with (/ 1024). apply Rmult_le_compat_l; [lra|]. apply Rmult_le_compat_l; lra. }
    assert (RDN : fnear (nmul den (fvnorm v)) (D * n) (27 / 4 * tau * Rabs (D * n))).
    { split; [exact F8|]. eapply Rle_trans; [exact E8|]. rewrite ADN. assert (u * (D * n) <= / 8 * tau * (D * n)) by (apply Rmult_le_compat_r; lra). assert (0 <= tau * (D * n)) by (apply Rmult_le_pos; lra). lra. }
    assert (IDN : 0 < / (D * n)) by (apply Rinv_0_lt_compat; exact DNP). set (w := / (D * n)) in *.
    assert (WB : w <= bpow radix2 (emax - 4)).
    { apply (Rle_trans _ (bpow radix2 (2 * prec + k - 16))); [|apply bpow_le; lia]. unfold w. rewrite <- (Rinv_inv (bpow radix2 (2 * prec + k - 16))), <- bpow_opp. apply Rinv_le; [apply bpow_gt_0|]. replace (- (2 * prec + k - 16))%Z with (16 - 2 * prec - k)%Z by ring. exact DNL. }
    assert (BB4 : bpow radix2 (emax - 1) = 8 * bpow radix2 (emax - 4)) by (replace (emax - 1)%Z with (3 + (emax - 4))%Z by ring; exact (bpow_plus radix2 3 (emax - 4))).
    assert (TP : tau * Rabs (c * t) <= kap) by (rewrite <- TM; apply Rmult_le_compat_l; lra).
    assert (KW : 0 <= kap * w <= / 64 * w) by (split; [apply Rmult_le_pos; lra|apply Rmult_le_compat_r; lra]).
    assert (NUM : (9 / 4 * kap + 27 / 4 * tau * Rabs (c * t)) / (D * n) <= 9 * (kap * w)) by (unfold Rdiv; fold w; rewrite <- Rmult_assoc; apply Rmult_le_compat_r; lra).
    assert (PW : 0 <= Rabs (c * t) / (D * n) <= w) by (unfold Rdiv; fold w; split; [apply Rmult_le_pos; lra|]; rewrite <- (Rmult_1_l w) at 2; apply Rmult_le_compat_r; lra).
    destruct (div_gen _ (nmul den (fvnorm v)) (c * t) (D * n) _ (27 / 4 * tau) ltac:(lra) RA RDN ltac:(lra)) as (F9 & E9); [rewrite ADN; lra|].
    set (Q := ndiv (nmul hc hs) (nmul den (fvnorm v))) in *. rewrite ADN in E9. set (p := c * t / (D * n)) in *.
    assert (AP : Rabs p <= w) by (unfold p, Rdiv; fold w; rewrite Rabs_mult, (Rabs_pos_eq w) by lra; rewrite <- (Rmult_1_l w) at 2; apply Rmult_le_compat_r; lra).
    assert (TW : tiny <= / 16 * (kap * w)).
    { apply (Rmult_le_reg_r (D * n)); [exact DNP|]. replace (/ 16 * (kap * w) * (D * n)) with (/ 16 * kap) by (unfold w; field; split; lra).
      apply (Rle_trans _ (tiny * bpow radix2 (emax - 3))); [apply Rmult_le_compat_l; lra|]. rewrite <- bpow_plus. replace (2 - emax - prec + (emax - 3))%Z with (-1 + - prec)%Z by ring. rewrite bpow_plus. change (bpow radix2 (-1)) with (/ 2). lra. }
    assert (UP : u * Rabs p <= / 8 * (kap * w)) by (apply (Rle_trans _ (/ 8 * kap * w)); [apply Rmult_le_compat; try apply Rabs_pos; lra|lra]).
    assert (RQ : Rabs (B2R Q - p) <= 11 * (kap * w)) by lra.
    pose proof (Fv i Hi) as Fi. pose proof (fnrm_comp 3 (fval v) i Hi) as VN. change (fnrm 3 (fval v)) with n in VN. pose proof (Rabs_pos (fval v i)) as V0.
    assert (W1 : n * w = / D) by (unfold w; field; split; lra). assert (QB : Rabs (B2R Q) <= 5 / 4 * w) by (replace (B2R Q) with (p + (B2R Q - p)) by ring; eapply Rle_trans; [apply Rabs_triang|]; lra).
    assert (VQ : Rabs (fval v i * B2R Q) <= 5 / 4 * / D) by (rewrite Rabs_mult, <- W1; replace (5 / 4 * (n * w)) with (n * (5 / 4 * w)) by ring; apply Rmult_le_compat; try apply Rabs_pos; assumption).
    assert (Z4 : bpow radix2 (2 * prec - 16) <= / 16 * bpow radix2 (emax - 1)) by (change (/ 16) with (bpow radix2 (-4)); rewrite <- bpow_plus; apply bpow_le; lia).
    destruct (mul_val (vat v i) Q Fi F9) as (F10 & E10); [unfold fval in VQ; lra|].
    assert (P : vget (B754_zero false) (fqtanh L tangenth q : vec fl 4) (S i) = nmul (vat v i) Q).
    { unfold fqtanh. cbv zeta. rewrite NZ. unfold Q, den, c2, s2, hc, hs. destruct q as (q0 & q1 & q2 & q3 & []). destruct i as [|[|[|i]]]; try lia; reflexivity. }
    rewrite P. split; [exact F10|]. rewrite E10. change (B2R (vat v i)) with (fval v i). pose proof (rnd_rel (prec := prec) (emax := emax) (fval v i * B2R Q)) as Rr.
    assert (VA : y * rdir (fval v) i = fval v i * p) by (rewrite Hy; unfold p, rdir; field; split; lra). rewrite VA.
    replace (rnd (fval v i * B2R Q) - fval v i * p) with ((rnd (fval v i * B2R Q) - fval v i * B2R Q) + fval v i * (B2R Q - p)) by ring. eapply Rle_trans; [apply Rabs_triang|]. rewrite (Rabs_mult (fval v i) (B2R Q - p)).
    assert (Y1 : Rabs (fval v i) * Rabs (B2R Q - p) <= n * (11 * (kap * w))) by (apply Rmult_le_compat; try apply Rabs_pos; assumption).
    replace (n * (11 * (kap * w))) with (11 * (kap * (n * w))) in Y1 by ring. rewrite W1 in Y1. unfold Rdiv.
    assert (Y2 : u * Rabs (fval v i * B2R Q) <= / 8 * kap * (5 / 4 * / D)) by (apply Rmult_le_compat; try apply Rabs_pos; lra). assert (0 <= kap * / D) by (apply Rmult_le_pos; lra). lra.
Qed.
End H.
End F.
