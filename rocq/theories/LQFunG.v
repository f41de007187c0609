(** Rounding errors of the exponential, trigonometric and hyperbolic functions of quaternions. *)

From Coq Require Import List Arith ZArith Bool Lia Reals Lra Psatz.
From Flocq Require Import Core.Core Relative IEEE754.BinarySingleNaN.
From Verif Require Import Base Scalar Spec SpecF SpecRigid SpecLook SpecCplx SpecArc SpecQFun MReal MVector MMatrix MQuat MFloat MFloatVec MSign MComplexF MRotF MTransform MArcF MQFunF
  LBase LVector LFloat LFloatP LFloatVec LTrScF LRigidF LDriftM LNormF LLookF LSlerpS LSlerpW LDegF LArc LArcP LArcQ LCplxF LCplxFP LQFunF.
Local Open Scope R_scope.

(** *** Real functions *)
Lemma exp_small h : 0 <= h <= / 2 -> exp h - 1 <= 2 * h.
Proof.
  intros H. assert (E : 1 - h <= exp (- h)) by (pose proof (exp_ineq1_le (- h)); lra).
  rewrite exp_Ropp in E. pose proof (exp_pos h) as P.
  assert (exp h * (1 - h) <= 1) by (apply (Rmult_le_compat_l (exp h)) in E; [rewrite Rinv_r in E; lra|lra]). nra.
Qed.
Lemma cosh_ge1 x : 1 <= cosh x.
Proof.
  unfold cosh. pose proof (exp_pos x) as P. pose proof (exp_Ropp x) as E. assert (M : exp x * exp (- x) = 1) by (rewrite E; apply Rinv_r; lra).
  pose proof (Rle_0_sqr (exp x - exp (- x))) as Q. unfold Rsqr in Q. pose proof (exp_pos (- x)) as P'. nra.
Qed.
Lemma sinh_le_cosh x : Rabs (sinh x) <= cosh x.
Proof. unfold sinh, cosh. pose proof (exp_pos x). pose proof (exp_pos (- x)). apply Rabs_le. lra. Qed.
Lemma cosh_plus a b : cosh (a + b) = cosh a * cosh b + sinh a * sinh b.
Proof. unfold cosh, sinh. replace (- (a + b)) with (- a + - b) by ring. rewrite !exp_plus. field. Qed.
Lemma sinh_plus a b : sinh (a + b) = sinh a * cosh b + cosh a * sinh b.
Proof. unfold cosh, sinh. replace (- (a + b)) with (- a + - b) by ring. rewrite !exp_plus. field. Qed.
Lemma cosh_even x : cosh (- x) = cosh x.
Proof. unfold cosh. rewrite Ropp_involutive. lra. Qed.
Lemma sinh_odd x : sinh (- x) = - sinh x.
Proof. unfold sinh. rewrite Ropp_involutive. lra. Qed.
Lemma step_small h e : Rabs h <= e -> e <= / 2 -> cosh h - 1 + Rabs (sinh h) <= 2 * e.
Proof.
  intros H E.
  assert (G : forall k, 0 <= k <= e -> cosh k - 1 + Rabs (sinh k) <= 2 * e).
  { intros k K. assert (S : 0 <= sinh k). { unfold sinh. assert (exp (- k) <= exp k) by (destruct (Req_dec k 0) as [->|N]; [rewrite Ropp_0; lra|left; apply exp_increasing; lra]). lra. }
    rewrite (Rabs_pos_eq _ S). pose proof (exp_small k ltac:(lra)). unfold cosh, sinh. lra. }
  apply Rabs_le_inv in H. destruct (Rle_or_lt 0 h) as [P|P]; [apply G; lra|].
  rewrite <- (Ropp_involutive h), cosh_even, sinh_odd, Rabs_Ropp. apply G. lra.
Qed.
Lemma cosh_shift n N e : Rabs (N - n) <= e -> e <= / 2 -> Rabs (cosh N - cosh n) <= 2 * e * cosh n.
Proof.
  intros H E. replace N with (n + (N - n)) at 1 by ring. rewrite cosh_plus. set (h := N - n) in *. pose proof (step_small h e H E) as S. pose proof (cosh_ge1 h) as C. pose proof (cosh_ge1 n) as Cn.
  replace (cosh n * cosh h + sinh n * sinh h - cosh n) with (cosh n * (cosh h - 1) + sinh n * sinh h) by ring.
  eapply Rle_trans; [apply Rabs_triang|]. rewrite !Rabs_mult, (Rabs_pos_eq (cosh n)), (Rabs_pos_eq (cosh h - 1)) by lra.
  assert (Rabs (sinh n) * Rabs (sinh h) <= cosh n * Rabs (sinh h)) by (apply Rmult_le_compat_r; [apply Rabs_pos|apply sinh_le_cosh]).
  assert (cosh n * (cosh h - 1 + Rabs (sinh h)) <= cosh n * (2 * e)) by (apply Rmult_le_compat_l; lra). lra.
Qed.
Lemma sinh_shift n N e : Rabs (N - n) <= e -> e <= / 2 -> Rabs (sinh N - sinh n) <= 2 * e * cosh n.
Proof.
  intros H E. replace N with (n + (N - n)) at 1 by ring. rewrite sinh_plus. set (h := N - n) in *. pose proof (step_small h e H E) as S. pose proof (cosh_ge1 h) as C. pose proof (cosh_ge1 n) as Cn.
  replace (sinh n * cosh h + cosh n * sinh h - sinh n) with (sinh n * (cosh h - 1) + cosh n * sinh h) by ring.
  eapply Rle_trans; [apply Rabs_triang|]. rewrite !Rabs_mult, (Rabs_pos_eq (cosh n)), (Rabs_pos_eq (cosh h - 1)) by lra.
  assert (Rabs (sinh n) * (cosh h - 1) <= cosh n * (cosh h - 1)) by (apply Rmult_le_compat_r; [lra|apply sinh_le_cosh]).
  assert (cosh n * (cosh h - 1 + Rabs (sinh h)) <= cosh n * (2 * e)) by (apply Rmult_le_compat_l; lra). lra.
Qed.
Lemma sinh_slope x : 0 <= x -> 0 <= sinh x <= 2 * x * cosh x.
Proof.
  intros X. assert (E : 1 - 2 * x <= exp (- (2 * x))) by (pose proof (exp_ineq1_le (- (2 * x))); lra).
  assert (P : exp (- x) = exp x * exp (- (2 * x))) by (rewrite <- exp_plus; f_equal; ring). pose proof (exp_pos x) as Q. pose proof (exp_pos (- x)) as Q'.
  unfold sinh, cosh. split.
  - assert (exp (- x) <= exp x) by (destruct (Req_dec x 0) as [->|N]; [rewrite Ropp_0; lra|left; apply exp_increasing; lra]). lra.
  - assert (exp x * (1 - 2 * x) <= exp (- x)) by (rewrite P; apply Rmult_le_compat_l; lra). assert (0 <= x * exp (- x)) by (apply Rmult_le_pos; lra). lra.
Qed.

Section F.
Context {prec emax : Z} {Hp : Prec_gt_0 prec} {He : Prec_lt_emax prec emax}.
Notation fl := (binary_float prec emax).
Notation u := (bpow radix2 (- prec)).
Notation tiny := (bpow radix2 (2 - emax - prec)).
Variable L : libm fl.
Hypothesis H24 : (24 <= prec)%Z.

Lemma u_le : u <= / 1024. Proof. apply (bpow_le radix2 (- prec) (-10)). lia. Qed.
Lemma tiny_le : tiny <= / 1024 * bpow radix2 (2 - emax).
Proof. replace (2 - emax - prec)%Z with (- prec + (2 - emax))%Z by ring. rewrite bpow_plus. apply Rmult_le_compat_r; [apply bpow_ge_0|exact u_le]. Qed.

Lemma dir_le (v : nat -> R) i : (i < 3)%nat -> 0 < rlength 3 v -> Rabs (rdir v i) <= 1.
Proof.
  intros Hi N. unfold rdir, Rdiv. rewrite Rabs_mult, (Rabs_pos_eq (/ _)) by (left; apply Rinv_0_lt_compat; exact N).
  apply (Rmult_le_reg_r (rlength 3 v)); [exact N|]. rewrite Rmult_assoc, Rinv_l by lra. pose proof (fnrm_comp 3 v i Hi) as K. change (fnrm 3 v) with (rlength 3 v) in K. lra.
Qed.

(** A quaternion built from a product in the scalar part and a scaled product in the vector part. *)
Lemma parts_close (v : vec fl 3) (N X C Y S : fl) x c y t m1 m2 a b : let n := rlength 3 (fval v) in
  (forall i, (i < 3)%nat -> is_finite (vat v i) = true) -> 0 <= a <= / 8 -> 0 <= b <= / 8 -> 0 < n -> tiny <= n -> 4 * u * n <= 1 -> fnear N n (8 * u * n) ->
  Rabs x <= m1 -> Rabs y <= m1 -> Rabs c <= m2 -> Rabs t <= m2 -> m1 * m2 <= bpow radix2 (emax - 7) ->
  fnear X x (a * m1) -> fnear C c (b * m2) -> fnear Y y (a * m1) -> fnear S t (b * m2) -> Rabs (B2R S) <= 3 * n * m2 ->
  qclose (qfrom_parts (nmul X C) (vmul_s v (ndiv (nmul Y S) N))) (x * c) (y * t) (fval v) ((a + 3 / 2 * b + 19 * u) * (m1 * m2) + bpow radix2 (3 - emax)).
Proof.
  intros n Fv A B N0 NT NU HN HX HY HC HT M EX EC EY ES SB. pose proof (bpow_gt_0 radix2 (- prec)) as U0. pose proof u_le as U. pose proof tiny_le as TL.
  assert (W : bpow radix2 (3 - emax) = 2 * bpow radix2 (2 - emax)) by (replace (3 - emax)%Z with (1 + (2 - emax))%Z by ring; apply bpow_plus). assert (W0 : 0 < bpow radix2 (2 - emax)) by apply bpow_gt_0.
  assert (BG : 8 * bpow radix2 (emax - 7) = bpow radix2 (emax - 4)) by (replace (emax - 4)%Z with (3 + (emax - 7))%Z by ring; symmetry; apply bpow_plus).
  assert (HE : (1 <= emax - 7)%Z).
  { pose proof He as P2. unfold Prec_lt_emax in P2. lia. }
  assert (BG1 : 2 <= bpow radix2 (emax - 7)) by (apply (bpow_le radix2 1 (emax - 7)); exact HE).
  assert (W1 : bpow radix2 (2 - emax) <= 1) by (apply (bpow_le radix2 (2 - emax) 0); lia).
  assert (M1 : 0 <= m1) by (pose proof (Rabs_pos x); lra). assert (M2 : 0 <= m2) by (pose proof (Rabs_pos c); lra). assert (MM : 0 <= m1 * m2) by (apply Rmult_le_pos; assumption).
  set (e0 := a + 3 / 2 * b + 9 / 4 * u). assert (E0 : 0 <= e0 <= 1 / 3) by (unfold e0; lra).
  assert (U8 : u <= / 64) by lra. assert (A2 : 0 <= a <= / 2) by lra. assert (B2 : 0 <= b <= / 2) by lra. assert (M' : m1 * m2 <= bpow radix2 (emax - 4)) by lra.
  pose proof (prod_abs X C x c m1 m2 a b U8 A2 B2 HX HC M' EX EC) as PX. pose proof (prod_abs Y S y t m1 m2 a b U8 A2 B2 HY HT M' EY ES) as PY. fold e0 in PX, PY.
  assert (EM : 0 <= e0 * (m1 * m2) <= 1 / 3 * (m1 * m2)) by (split; [apply Rmult_le_pos; lra|apply Rmult_le_compat_r; lra]).
  assert (UM : 0 <= u * (m1 * m2)) by (apply Rmult_le_pos; lra).
  split.
  - destruct PX as (F & E). split; [exact F|]. eapply Rle_trans; [exact E|]. unfold e0. lra.
  - intros i Hi. assert (Q : vget (B754_zero false) (qfrom_parts (nmul X C) (vmul_s v (ndiv (nmul Y S) N)) : vec fl 4) (Datatypes.S i) = nmul (vat v i) (ndiv (nmul Y S) N)).
    { rewrite <- vat_vmul_s by exact Hi. destruct i as [|[|[|i]]]; try lia; reflexivity. }
    rewrite Q. assert (BA : Rabs (B2R (nmul Y S)) <= (4 * (m1 * m2) + 1) * n).
    { destruct EY as (FY & EY), ES as (FS & ES).
      assert (BY : Rabs (B2R Y) <= 9 / 8 * m1).
      { replace (B2R Y) with (y + (B2R Y - y)) by ring. eapply Rle_trans; [apply Rabs_triang|]. assert (a * m1 <= / 8 * m1) by (apply Rmult_le_compat_r; lra). lra. }
      assert (BS : Rabs (B2R S) <= 9 / 8 * m2).
      { replace (B2R S) with (t + (B2R S - t)) by ring. eapply Rle_trans; [apply Rabs_triang|]. assert (b * m2 <= / 8 * m2) by (apply Rmult_le_compat_r; lra). lra. }
      assert (P1 : Rabs (B2R Y * B2R S) <= 9 / 8 * m1 * (9 / 8 * m2)) by (rewrite Rabs_mult; apply Rmult_le_compat; try apply Rabs_pos; assumption).
      assert (P2 : Rabs (B2R Y * B2R S) <= 9 / 8 * m1 * (3 * n * m2)) by (rewrite Rabs_mult; apply Rmult_le_compat; try apply Rabs_pos; assumption).
      pose proof (@big8 emax) as B8. eapply Rle_trans; [apply (prod_size Y S _ U8 FY FS (Rle_refl _)); lra|].
      assert (0 <= m1 * m2 * n) by (apply Rmult_le_pos; lra). lra. }
    assert (AL : Rabs (y * t) <= m1 * m2) by (rewrite Rabs_mult; apply Rmult_le_compat; try apply Rabs_pos; assumption).
    destruct (dir_scale v N (nmul Y S) (y * t) (e0 * (m1 * m2) + tiny) (4 * (m1 * m2) + 1) i ltac:(lra) Hi (Fv i Hi) N0 NU HN PY BA ltac:(lra) ltac:(lra) ltac:(lra)) as (F & E).
    split; [exact F|]. eapply Rle_trans; [exact E|].
    assert (u * Rabs (y * t) <= u * (m1 * m2)) by (apply Rmult_le_compat_l; lra).
    assert (u * (e0 * (m1 * m2)) <= u * (1 / 3 * (m1 * m2))) by (apply Rmult_le_compat_l; lra).
    assert (u * tiny <= / 1024 * tiny) by (apply Rmult_le_compat_r; [apply bpow_ge_0|exact U]). unfold e0 in *. lra.
Qed.

Section Norm.
Variable d : R.
Hypothesis D : 0 <= d <= / 16.
Variable v : vec fl 3.
Hypothesis Fv : forall i, (i < 3)%nat -> is_finite (vat v i) = true.
Notation n := (rlength 3 (fval v)).
Notation N := (fvnorm v).
Hypothesis UN : 128 * u * n <= 1.
Hypothesis HN : fnear N n (8 * u * n).

Lemma n_pos : 0 <= n. Proof. apply fnrm_pos. Qed.
Lemma N_range : 0 <= B2R N <= 129 / 128 * n.
Proof.
  destruct HN as (_ & E). apply Rabs_le_inv in E. pose proof n_pos. pose proof u_le as U. pose proof (bpow_gt_0 radix2 (- prec)) as U0.
  assert (0 <= u * n <= / 1024 * n) by (split; [apply Rmult_le_pos; lra|apply Rmult_le_compat_r; lra]). lra.
Qed.
Lemma trig_N : lib_at d cos (m_cos L) N -> lib_at d sin (m_sin L) N ->
  fnear (m_cos L N) (cos n) ((d + 8 * u * n) * 1) /\ fnear (m_sin L N) (sin n) ((d + 8 * u * n) * 1) /\ Rabs (B2R (m_sin L N)) <= 3 * n * 1.
Proof.
  intros LC LS. destruct HN as (_ & E). rewrite !Rmult_1_r. split; [|split].
  - apply (lib_shift cos); [intros; apply LDegF.cos_lip|apply COS_bound|lra|exact LC|exact E].
  - apply (lib_shift sin); [intros; apply sin_lip|apply SIN_bound|lra|exact LS|exact E].
  - destruct LS as (_ & K). apply abs_near in K. pose proof (sin_abs (B2R N)) as Q. pose proof N_range as NR. rewrite (Rabs_pos_eq (B2R N)) in Q by lra.
    pose proof (Rabs_pos (sin (B2R N))). assert ((1 + d) * Rabs (sin (B2R N)) <= (17 / 16) * Rabs (sin (B2R N))) by (apply Rmult_le_compat_r; lra). lra.
Qed.
Lemma hyp_N : lib_at d cosh (m_cosh L) N -> lib_at d sinh (m_sinh L) N ->
  fnear (m_cosh L N) (cosh n) ((9 / 8 * d + 16 * u * n) * cosh n) /\ fnear (m_sinh L N) (sinh n) ((9 / 8 * d + 16 * u * n) * cosh n) /\ Rabs (B2R (m_sinh L N)) <= 3 * n * cosh n.
Proof.
  intros (FC & LC) (FS & LS). destruct HN as (_ & E). pose proof (cosh_ge1 n) as C1. pose proof (cosh_ge1 (B2R N)) as C2. pose proof n_pos as N0. pose proof (bpow_gt_0 radix2 (- prec)) as U0.
  assert (UN0 : 0 <= u * n) by (apply Rmult_le_pos; lra).
  pose proof (cosh_shift n (B2R N) _ E ltac:(lra)) as S1. pose proof (sinh_shift n (B2R N) _ E ltac:(lra)) as S2.
  assert (UC : u * n * cosh n <= / 128 * cosh n) by (apply Rmult_le_compat_r; lra).
  assert (CN : cosh (B2R N) <= 9 / 8 * cosh n) by (apply Rabs_le_inv in S1; lra).
  assert (DC : d * cosh (B2R N) <= d * (9 / 8 * cosh n)) by (apply Rmult_le_compat_l; lra).
  split; [|split].
  - split; [exact FC|]. rewrite (Rabs_pos_eq (cosh (B2R N))) in LC by lra. replace (B2R (m_cosh L N) - cosh n) with ((B2R (m_cosh L N) - cosh (B2R N)) + (cosh (B2R N) - cosh n)) by ring.
    eapply Rle_trans; [apply Rabs_triang|]. lra.
  - split; [exact FS|]. replace (B2R (m_sinh L N) - sinh n) with ((B2R (m_sinh L N) - sinh (B2R N)) + (sinh (B2R N) - sinh n)) by ring.
    eapply Rle_trans; [apply Rabs_triang|]. assert (d * Rabs (sinh (B2R N)) <= d * cosh (B2R N)) by (apply Rmult_le_compat_l; [lra|apply sinh_le_cosh]). lra.
  - apply abs_near in LS. pose proof N_range as NR. destruct (sinh_slope (B2R N) (proj1 NR)) as (P1 & P2). rewrite (Rabs_pos_eq (sinh (B2R N))) in LS by exact P1.
    assert ((1 + d) * sinh (B2R N) <= 17 / 16 * sinh (B2R N)) by (apply Rmult_le_compat_r; lra).
    assert (B2R N * cosh (B2R N) <= 129 / 128 * n * (9 / 8 * cosh n)) by (apply Rmult_le_compat; lra).
    assert (0 <= n * cosh n) by (apply Rmult_le_pos; lra). lra.
Qed.
End Norm.

Lemma rdir_zero v i : (i < 3)%nat -> rlength 3 v = 0 -> rdir v i = 0.
Proof.
  intros Hi E. unfold rdir. rewrite E. pose proof (fnrm_comp 3 v i Hi) as K. change (fnrm 3 v) with (rlength 3 v) in K. rewrite E in K.
  destruct (Req_dec (v i) 0) as [->|Q]; [unfold Rdiv; ring|]. apply Rabs_pos_lt in Q. lra.
Qed.
Lemma norm_zero (v : vec fl 3) : (forall i, (i < 3)%nat -> is_finite (vat v i) = true) -> rlength 3 (fval v) = 0 -> is_finite (fvnorm v) = true /\ B2R (fvnorm v) = 0.
Proof.
  intros Fv E. pose proof He as P2. unfold Prec_lt_emax in P2.
  assert (Z0 : forall i, (i < 3)%nat -> (vat v i * vat v i)%N_ = (n0 : fl)).
  { intros i Hi. pose proof (fnrm_comp 3 (fval v) i Hi) as K. change (fnrm 3 (fval v)) with (rlength 3 (fval v)) in K. rewrite E in K. change (fval v i) with (B2R (vat v i)) in K.
    specialize (Fv i Hi). destruct (vat v i) as [s|s| |s m e H]; try discriminate Fv; [destruct s; reflexivity|].
    exfalso. assert (Q : B2R (B754_finite s m e H) <> 0) by (apply (F2R_neq_0 radix2); destruct s; discriminate). apply Rabs_pos_lt in Q. lra. }
  assert (Q : vnorm_squared v = n0). { rewrite vnorm2_sum. cbn [sum]. rewrite !Z0 by lia. reflexivity. }
  unfold fvnorm. rewrite Q. split; reflexivity.
Qed.
Lemma nis0_pos (x : fl) : 0 < B2R x -> nis0 x = false.
Proof. intros P. destruct (nis0 x) eqn:E; [apply nis0_R in E; lra|reflexivity]. Qed.
Lemma nis0_zero (x : fl) : is_finite x = true -> B2R x = 0 -> nis0 x = true.
Proof.
  intros F P. destruct x as [s|s| |s m e H]; try discriminate F; [destruct s; reflexivity|]. exfalso. revert P. apply (F2R_neq_0 radix2). destruct s; discriminate.
Qed.
Lemma vzero_close x v e (w : fl) y : fnear w x e -> 0 <= e -> (forall i, (i < 3)%nat -> Rabs (y * rdir v i) <= e) -> qclose (qfrom_parts w (vzero 3)) x y v e.
Proof.
  intros Hw E0 Z. split; [exact Hw|]. intros i Hi. assert (Q : vget (B754_zero false) (qfrom_parts w (vzero 3) : vec fl 4) (S i) = (n0 : fl)) by (destruct i as [|[|[|i]]]; try lia; reflexivity).
  rewrite Q. split; [reflexivity|]. change (B2R (n0 : fl)) with 0. rewrite Rminus_0_l, Rabs_Ropp. apply Z, Hi.
Qed.

Lemma exp_close (q : quat fl) d : let s := B2R (qscalar q) in let v := qvector q in let n := rlength 3 (fval v) in
  (2 * prec + 33 <= emax)%Z -> 0 <= d <= / 16 -> all_finite (q : vec fl 4) -> 128 * u * n <= 1 -> exp s <= bpow radix2 (emax - 7) ->
  lib_at d exp (m_exp L) (qscalar q) -> lib_at d cos (m_cos L) (fvnorm v) -> lib_at d sin (m_sin L) (fvnorm v) ->
  qclose (fqexp L q) (exp s * cos n) (exp s * sin n) (fval v) ((5 / 2 * d + 12 * u * n + 19 * u) * exp s + bpow radix2 (3 - emax)).
Proof.
  intros s v n Hr D Fq UN Hs LE LC LS. pose proof (bpow_gt_0 radix2 (- prec)) as U0. pose proof u_le as U. pose proof (exp_pos s) as E0. assert (N0 : 0 <= n) by apply fnrm_pos.
  assert (UN0 : 0 <= u * n) by (apply Rmult_le_pos; lra). assert (W0 : 0 < bpow radix2 (3 - emax)) by apply bpow_gt_0.
  assert (Fv : forall i, (i < 3)%nat -> is_finite (vat v i) = true) by (intros [|[|[|i]]] Hi; try lia; [exact (Fq 1%nat ltac:(lia))|exact (Fq 2%nat ltac:(lia))|exact (Fq 3%nat ltac:(lia))]).
  assert (NB : n <= bpow radix2 (prec + 1)).
  { assert (P : bpow radix2 (prec + 1) * u = 2) by (rewrite <- bpow_plus; replace (prec + 1 + - prec)%Z with 1%Z by ring; reflexivity). apply (Rmult_le_reg_r u); [exact U0|]. lra. }
  pose proof LE as (FE & EE). fold s in EE. rewrite (Rabs_pos_eq (exp s)) in EE by lra.
  unfold fqexp, fqexp_eps. cbv zeta. fold v. destruct (Bleb (vnorm_squared v) (nmul feps feps)) eqn:B.
  - pose proof (@small_branch prec emax Hp He H24 (prec + 1) ltac:(lia) ltac:(lia) 3 v ltac:(lia) Fv NB B) as SB. fold n in SB.
    assert (UE : 0 <= u * exp s) by (apply Rmult_le_pos; lra). assert (DE : 0 <= d * exp s) by (apply Rmult_le_pos; lra). assert (UNE : 0 <= u * n * exp s) by (apply Rmult_le_pos; lra).
    apply vzero_close; [split; [exact FE|]| |].
    + replace (B2R (m_exp L (qscalar q)) - exp s * cos n) with ((B2R (m_exp L (qscalar q)) - exp s) + exp s * (cos 0 - cos n)) by (rewrite cos_0; ring).
      eapply Rle_trans; [apply Rabs_triang|]. rewrite Rabs_mult, (Rabs_pos_eq (exp s)) by lra.
      assert (exp s * Rabs (cos 0 - cos n) <= exp s * (3 * u)).
      { apply Rmult_le_compat_l; [lra|]. eapply Rle_trans; [apply LDegF.cos_lip|]. rewrite Rminus_0_l, Rabs_Ropp, Rabs_pos_eq by exact N0. exact SB. }
      lra.
    + lra.
    + intros i Hi. destruct (Req_dec n 0) as [Z|NZ].
      * rewrite (rdir_zero _ i Hi Z), Rmult_0_r, Rabs_R0. lra.
      * rewrite !Rabs_mult, (Rabs_pos_eq (exp s)) by lra. assert (NP : 0 < n) by (destruct N0 as [N0|N0]; [exact N0|symmetry in N0; contradiction]). pose proof (dir_le (fval v) i Hi NP) as DL. pose proof (sin_abs n) as SA. rewrite (Rabs_pos_eq n) in SA by exact N0.
        assert (Rabs (sin n) * Rabs (rdir (fval v) i) <= 3 * u * 1) by (apply Rmult_le_compat; try apply Rabs_pos; lra).
        rewrite Rmult_assoc. assert (exp s * (Rabs (sin n) * Rabs (rdir (fval v) i)) <= exp s * (3 * u * 1)) by (apply Rmult_le_compat_l; lra). lra.
  - destruct (@large_branch prec emax Hp He H24 (prec + 1) ltac:(lia) ltac:(lia) 3 v ltac:(lia) Fv NB B) as (LB & HN). fold n in LB, HN. change (fsqrt (vnorm_squared v)) with (fvnorm v) in *.
    destruct (trig_N d D v HN LC LS) as (TC & TS & TB). fold n in TC, TS, TB.
    assert (TN : tiny <= n).
    { eapply Rle_trans; [|exact LB]. replace (u / 2) with (bpow radix2 (-1 + - prec)); [apply bpow_le; lia|]. rewrite bpow_plus. change (bpow radix2 (-1)) with (/ 2). lra. }
    assert (AE : Rabs (exp s) <= exp s) by (rewrite Rabs_pos_eq; lra).
    replace ((5 / 2 * d + 12 * u * n + 19 * u) * exp s) with ((d + 3 / 2 * (d + 8 * u * n) + 19 * u) * (exp s * 1)) by field.
    apply (parts_close v (fvnorm v) _ _ _ _ (exp s) (cos n) (exp s) (sin n) (exp s) 1 d (d + 8 * u * n)); fold n; try assumption; try lra.
    + apply Rabs_le, COS_bound.
    + apply Rabs_le, SIN_bound.
    + split; assumption.
    + split; assumption.
Qed.

Lemma norm_any (v : vec fl 3) k : let n := rlength 3 (fval v) in (prec <= k)%Z -> (2 * k + 31 <= emax)%Z -> (forall i, (i < 3)%nat -> is_finite (vat v i) = true) -> 128 * u * n <= 1 -> bpow radix2 (- k) <= n ->
  fnear (fvnorm v) n (8 * u * n) /\ tiny <= n /\ 0 < n /\ nis0 (fvnorm v) = false.
Proof.
  intros n Hk Hr Fv UN NK. pose proof (bpow_gt_0 radix2 (- prec)) as U0. pose proof u_le as U. pose proof (bpow_gt_0 radix2 (- k)) as K0.
  assert (NB : n <= bpow radix2 k).
  { apply Rle_trans with (bpow radix2 prec); [|apply bpow_le; exact Hk].
    assert (P : bpow radix2 prec * u = 1) by (rewrite <- bpow_plus; replace (prec + - prec)%Z with 0%Z by ring; reflexivity). apply (Rmult_le_reg_r u); [exact U0|]. lra. }
  assert (HN : fnear (fvnorm v) n (8 * u * n)) by (apply (c97_any prec emax Hp He 3 k v H24 ltac:(lia) ltac:(lia) Hr Fv); split; assumption).
  split; [exact HN|]. split; [|split; [lra|]].
  - eapply Rle_trans; [|exact NK]. apply bpow_le. lia.
  - apply nis0_pos. destruct HN as (_ & E). apply Rabs_le_inv in E. assert (u * n <= / 1024 * n) by (apply Rmult_le_compat_r; lra). lra.
Qed.

(** All four other functions are products of this shape. *)
Lemma product_close (q : quat fl) k (X C Y S : fl) x c y t m1 m2 a b : let v := qvector q in let n := rlength 3 (fval v) in
  (prec <= k)%Z -> (2 * k + 31 <= emax)%Z -> all_finite (q : vec fl 4) -> 128 * u * n <= 1 -> n = 0 \/ bpow radix2 (- k) <= n ->
  0 <= a <= / 8 -> 0 <= b <= / 8 -> Rabs x <= m1 -> Rabs y <= m1 -> Rabs c <= m2 -> Rabs t <= m2 -> m1 * m2 <= bpow radix2 (emax - 7) ->
  (fnear (fvnorm v) n (8 * u * n) -> fnear X x (a * m1) /\ fnear C c (b * m2) /\ fnear Y y (a * m1) /\ fnear S t (b * m2) /\ Rabs (B2R S) <= 3 * n * m2) ->
  qclose (if nis0 (fvnorm v) then qfrom_real (nmul X C) else qfrom_parts (nmul X C) (vmul_s v (ndiv (nmul Y S) (fvnorm v)))) (x * c) (y * t) (fval v)
    ((a + 3 / 2 * b + 19 * u) * (m1 * m2) + bpow radix2 (3 - emax)).
Proof.
  intros v n Hk Hr Fq UN Hn A B HX HY HC HT M H. pose proof (bpow_gt_0 radix2 (- prec)) as U0. pose proof u_le as U. assert (W0 : 0 < bpow radix2 (3 - emax)) by apply bpow_gt_0.
  assert (M1 : 0 <= m1) by (pose proof (Rabs_pos x); lra). assert (M2 : 0 <= m2) by (pose proof (Rabs_pos c); lra). assert (MM : 0 <= m1 * m2) by (apply Rmult_le_pos; assumption).
  assert (Fv : forall i, (i < 3)%nat -> is_finite (vat v i) = true) by (intros [|[|[|i]]] Hi; try lia; [exact (Fq 1%nat ltac:(lia))|exact (Fq 2%nat ltac:(lia))|exact (Fq 3%nat ltac:(lia))]).
  destruct Hn as [Z|NK].
  - destruct (norm_zero v Fv Z) as (FN & ZN). rewrite (nis0_zero _ FN ZN). assert (HN : fnear (fvnorm v) n (8 * u * n)) by (split; [exact FN|rewrite ZN, Z, Rminus_0_r, Rabs_R0; lra]).
    destruct (H HN) as (EX & EC & _). assert (BG : 8 * bpow radix2 (emax - 7) = bpow radix2 (emax - 4)) by (replace (emax - 4)%Z with (3 + (emax - 7))%Z by ring; symmetry; apply bpow_plus).
    destruct (prod_abs X C x c m1 m2 a b ltac:(lra) ltac:(lra) ltac:(lra) HX HC ltac:(lra) EX EC) as (F & E).
    assert (UM : 0 <= u * (m1 * m2)) by (apply Rmult_le_pos; lra). assert (ABM : 0 <= (a + 3 / 2 * b) * (m1 * m2)) by (apply Rmult_le_pos; lra).
    assert (TL : tiny <= bpow radix2 (3 - emax)) by (apply bpow_le; lia).
    unfold qfrom_real. apply vzero_close; [split; [exact F|]| |].
    + eapply Rle_trans; [exact E|]. lra.
    + lra.
    + intros i Hi. rewrite (rdir_zero _ i Hi Z), Rmult_0_r, Rabs_R0. lra.
  - destruct (norm_any v k Hk Hr Fv UN NK) as (HN & TN & NP & NZ). rewrite NZ. destruct (H HN) as (EX & EC & EY & ES & SB).
    apply parts_close; fold n; try assumption; lra.
Qed.

Lemma hyper_close (q : quat fl) d k : let s := B2R (qscalar q) in let v := qvector q in let n := rlength 3 (fval v) in
  (prec <= k)%Z -> (2 * k + 31 <= emax)%Z -> 0 <= d <= / 16 -> all_finite (q : vec fl 4) -> 128 * u * n <= 1 -> n = 0 \/ bpow radix2 (- k) <= n -> cosh s <= bpow radix2 (emax - 7) ->
  lib_at d cosh (m_cosh L) (qscalar q) -> lib_at d sinh (m_sinh L) (qscalar q) -> lib_at d cos (m_cos L) (fvnorm v) -> lib_at d sin (m_sin L) (fvnorm v) ->
  let e := (5 / 2 * d + 12 * u * n + 19 * u) * cosh s + bpow radix2 (3 - emax) in
  qclose (fqcosh L q) (cosh s * cos n) (sinh s * sin n) (fval v) e /\ qclose (fqsinh L q) (sinh s * cos n) (cosh s * sin n) (fval v) e.
Proof.
  intros s v n Hk Hr D Fq UN Hn Hs (FC & LC) (FS & LS) LCN LSN e. pose proof (cosh_ge1 s) as C1. pose proof (bpow_gt_0 radix2 (- prec)) as U0. assert (N0 : 0 <= n) by apply fnrm_pos. assert (UN0 : 0 <= u * n) by (apply Rmult_le_pos; lra).
  fold s in LC, LS. rewrite (Rabs_pos_eq (cosh s)) in LC by lra. pose proof (sinh_le_cosh s) as SC.
  assert (AC : Rabs (cosh s) <= cosh s) by (rewrite Rabs_pos_eq; lra).
  assert (GC : fnear (m_cosh L (qscalar q)) (cosh s) (d * cosh s)) by (split; assumption).
  assert (GS : fnear (m_sinh L (qscalar q)) (sinh s) (d * cosh s)). { split; [exact FS|]. eapply Rle_trans; [exact LS|]. apply Rmult_le_compat_l; lra. }
  unfold e. replace ((5 / 2 * d + 12 * u * n + 19 * u) * cosh s) with ((d + 3 / 2 * (d + 8 * u * n) + 19 * u) * (cosh s * 1)) by field.
  split; unfold fqcosh, fqsinh; cbv zeta; fold v; apply (product_close q k); fold v; fold n; try assumption; try lra; try (apply Rabs_le, COS_bound); try (apply Rabs_le, SIN_bound);
    intros HN; destruct (trig_N d D v HN LCN LSN) as (TC & TS & TB); fold n in TC, TS, TB; repeat split; try apply GC; try apply GS; try apply TC; try apply TS; apply TB.
Qed.

Lemma trig_close (q : quat fl) d k : let s := B2R (qscalar q) in let v := qvector q in let n := rlength 3 (fval v) in
  (prec <= k)%Z -> (2 * k + 31 <= emax)%Z -> 0 <= d <= / 18 -> all_finite (q : vec fl 4) -> 1024 * u * n <= 1 -> n = 0 \/ bpow radix2 (- k) <= n -> cosh n <= bpow radix2 (emax - 7) ->
  lib_at d cos (m_cos L) (qscalar q) -> lib_at d sin (m_sin L) (qscalar q) -> lib_at d cosh (m_cosh L) (fvnorm v) -> lib_at d sinh (m_sinh L) (fvnorm v) ->
  let e := (11 / 4 * d + 24 * u * n + 19 * u) * cosh n + bpow radix2 (3 - emax) in
  qclose (fqcos L q) (cos s * cosh n) (- sin s * sinh n) (fval v) e /\ qclose (fqsin L q) (sin s * cosh n) (cos s * sinh n) (fval v) e.
Proof.
  intros s v n Hk Hr D Fq UN Hn Hs (FC & LC) (FS & LS) LCN LSN e. pose proof (cosh_ge1 n) as C1. pose proof (bpow_gt_0 radix2 (- prec)) as U0. assert (N0 : 0 <= n) by apply fnrm_pos. assert (UN0 : 0 <= u * n) by (apply Rmult_le_pos; lra).
  fold s in LC, LS. pose proof (sinh_le_cosh n) as SC. assert (AC : Rabs (cosh n) <= cosh n) by (rewrite Rabs_pos_eq; lra).
  assert (BC : Rabs (cos s) <= 1) by (apply Rabs_le, COS_bound). assert (BS : Rabs (sin s) <= 1) by (apply Rabs_le, SIN_bound). assert (BS' : Rabs (- sin s) <= 1) by (rewrite Rabs_Ropp; exact BS).
  assert (GC : fnear (m_cos L (qscalar q)) (cos s) (d * 1)). { split; [exact FC|]. eapply Rle_trans; [exact LC|]. apply Rmult_le_compat_l; lra. }
  assert (GS : fnear (m_sin L (qscalar q)) (sin s) (d * 1)). { split; [exact FS|]. eapply Rle_trans; [exact LS|]. apply Rmult_le_compat_l; lra. }
  assert (GN : fnear (nneg (m_sin L (qscalar q))) (- sin s) (d * 1)).
  { destruct GS as (F & E). cbn [nneg num_float]. split; [rewrite is_finite_Bopp; exact F|]. rewrite B2R_Bopp. replace (- B2R (m_sin L (qscalar q)) - - sin s) with (- (B2R (m_sin L (qscalar q)) - sin s)) by ring. rewrite Rabs_Ropp. exact E. }
  assert (BN : 1 * cosh n <= bpow radix2 (emax - 7)) by lra.
  assert (ME : (d + 3 / 2 * (9 / 8 * d + 16 * u * n) + 19 * u) * (1 * cosh n) <= (11 / 4 * d + 24 * u * n + 19 * u) * cosh n) by (rewrite Rmult_1_l; apply Rmult_le_compat_r; lra).
  assert (WK : forall (w : vec fl 4) x y v0 e1 e2, e1 <= e2 -> qclose w x y v0 e1 -> qclose w x y v0 e2).
  { intros w x y v0 e1 e2 HE ((F & E) & G). split; [split; [exact F|lra]|]. intros i Hi. destruct (G i Hi) as (F' & E'). split; [exact F'|lra]. }
  unfold e. split; unfold fqcos, fqsin; cbv zeta; fold v;
    apply (WK _ _ _ _ ((d + 3 / 2 * (9 / 8 * d + 16 * u * n) + 19 * u) * (1 * cosh n) + bpow radix2 (3 - emax))); try lra; apply (product_close q k); fold v; fold n; try assumption; try lra;
    intros HN; destruct (hyp_N d ltac:(lra) v ltac:(fold n; lra) HN LCN LSN) as (TC & TS & TB); fold n in TC, TS, TB; repeat split; try apply GC; try apply GS; try apply GN; try apply TC; try apply TS; apply TB.
Qed.
End F.
