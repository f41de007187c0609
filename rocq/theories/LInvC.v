(** Square root and logarithm of a complex number known up to a relative error, in floats. *)

From Coq Require Import List Arith ZArith Bool Lia Reals Lra Psatz.
From Flocq Require Import Core.Core Relative IEEE754.BinarySingleNaN.
From Verif Require Import Base Scalar Spec SpecF SpecCplx SpecInv MReal MVector MFloat MFloatVec MComplex MComplexF
  LBase LVector LReal LFloat LFloatP LFloatVec MSign LComplexHP LTrScF LSlerpS LDegF LCplxF LCplxFP LInvA LInvB.
Local Open Scope R_scope.

Section C.
Context {prec emax : Z} {Hp : Prec_gt_0 prec} {He : Prec_lt_emax prec emax}.
Notation fl := (binary_float prec emax).
Notation u := (bpow radix2 (- prec)).
Notation tiny := (bpow radix2 (2 - emax - prec)).
Notation fexp := (FLT_exp (3 - emax - prec) prec).
Notation rnd := (round radix2 fexp ZnearestE).
Hypothesis H24 : (24 <= prec)%Z.
Variable L : libm fl.
Variable d : R.
Hypothesis Hd : u <= d <= / 65536.

Notation zx z := (B2R (re z)).
Notation zy z := (B2R (im z)).
Definition off (z : complex fl) (x y : R) : R := nm (zx z - x) (zy z - y).

Lemma nm_polar r phi : 0 < r -> nm (r * cos phi) (r * sin phi) = r.
Proof. intros P. apply polar_length. lra. Qed.
Lemma arg_at_std z : arg_at d L z -> 0 < nm (zx z) (zy z) /\ fnear (m_atan2 L (im z) (re z)) (ratan2 (zy z) (zx z)) (d * Rabs (ratan2 (zy z) (zx z))).
Proof.
  intros (r & phi & P & A & X & Y & N). rewrite X, Y, (ratan2_polar r phi P A), (nm_polar r phi P). split; assumption.
Qed.

Section Near.
Variables (z : complex fl) (x y c : R) (k : Z).
Hypothesis Fz : cis_finite z = true.
Hypothesis Hc : 0 <= c <= / 1000.
Hypothesis K0 : (0 <= k)%Z.
Hypothesis K : (2 * k + 33 <= emax)%Z.
Hypothesis Hr : bpow radix2 (- k) <= nm x y <= bpow radix2 k.
Hypothesis Hz : off z x y <= c * nm x y.

Lemma len_near : Rabs (nm (zx z) (zy z) - nm x y) <= c * nm x y.
Proof.
  apply Rabs_le. unfold off in Hz. pose proof (nm_tri x y (zx z - x) (zy z - y)) as A. replace (x + (zx z - x)) with (zx z) in A by ring. replace (y + (zy z - y)) with (zy z) in A by ring.
  pose proof (nm_tri (zx z) (zy z) (- (zx z - x)) (- (zy z - y))) as B. rewrite nm_opp in B. replace (zx z + - (zx z - x)) with x in B by ring. replace (zy z + - (zy z - y)) with y in B by ring. lra.
Qed.
Lemma len_range : bpow radix2 (- (k + 1)) <= nm (zx z) (zy z) <= bpow radix2 (k + 1).
Proof.
  pose proof len_near as N. apply Rabs_le_inv in N. assert (P : 0 <= nm x y) by apply nm_pos. assert (c * nm x y <= / 1000 * nm x y) by (apply Rmult_le_compat_r; lra).
  replace (- (k + 1))%Z with (- k + -1)%Z by ring. rewrite !bpow_plus. change (bpow radix2 (-1)) with (/ 2). change (bpow radix2 1) with 2. pose proof (bpow_gt_0 radix2 (- k)). lra.
Qed.

Lemma root_near_off : 0 < y * zy z \/ (y = 0 /\ zy z = 0) -> root_at d L z ->
  cis_finite (fc_sqrt L z) = true /\ off (fc_sqrt L z) (rt_re x y) (rt_im x y) <= (c + 31 * d) * sqrt (nm x y).
Proof.
  intros Sg (A & C & S). destruct (arg_at_std z A) as (P & A'). set (r' := nm (zx z) (zy z)) in *. destruct (polar (zx z) (zy z)) as (PX & PY). fold r' in PX, PY.
  pose proof (ratan2_range (zx z) (zy z)) as RG. pose proof len_range as LR. fold r' in LR. assert (U0 : 0 < u) by apply bpow_gt_0.
  destruct (sqrt_polar L d ltac:(lra) H24 z r' _ (k + 1) Fz PX PY ltac:(lra) ltac:(lia) ltac:(lia) LR A' C S ltac:(lra)) as ((F1 & E1) & (F2 & E2)).
  split; [unfold cis_finite; rewrite F1, F2; reflexivity|].
  pose proof (nm_pos x y) as NP. assert (N0 : 0 < nm x y) by (pose proof (bpow_gt_0 radix2 (- k)); lra).
  fold (rt_re (zx z) (zy z)) in E1. fold (rt_im (zx z) (zy z)) in E2.
  assert (T : off (fc_sqrt L z) (rt_re (zx z) (zy z)) (rt_im (zx z) (zy z)) <= 30 * d * sqrt r').
  { apply nm_le; [repeat apply Rmult_le_pos; try lra; apply sqrt_pos|]. fold (rt_re (zx z) (zy z)) in E1.
    pose proof (Rabs_pos (B2R (re (fc_sqrt L z)) - rt_re (zx z) (zy z))) as B1. pose proof (Rabs_pos (B2R (im (fc_sqrt L z)) - rt_im (zx z) (zy z))) as B2.
    pose proof (Rmult_le_compat _ _ _ _ B1 B1 E1 E1) as G1. pose proof (Rmult_le_compat _ _ _ _ B2 B2 E2 E2) as G2. rewrite abs_sq in G1, G2.
    pose proof (Rle_0_sqr (d * sqrt r')) as G3. unfold Rsqr in G3. change (ndiv (fc_arg L z) (nadd n1 n1)) with (ndiv (m_atan2 L (im z) (re z)) (nadd n1 n1)) in *. lra. }
  assert (Q : nm (rt_re (zx z) (zy z) - rt_re x y) (rt_im (zx z) (zy z) - rt_im x y) <= c * sqrt (nm x y)).
  { destruct (rt_sq x y) as (S1 & S2). destruct (rt_sq (zx z) (zy z)) as (S3 & S4).
    assert (B : 0 <= rt_im x y * rt_im (zx z) (zy z)) by (apply rt_sign; exact Sg).
    pose proof (root_pert (rt_re x y) (rt_im x y) (rt_re (zx z) (zy z)) (rt_im (zx z) (zy z)) (c * nm x y) (rt_re_pos x y) (rt_re_pos _ _) B) as RP.
    rewrite S1, S2, S3, S4, rt_nm in RP. specialize (RP Hz). assert (S0 : 0 < sqrt (nm x y)) by (apply sqrt_lt_R0; exact N0).
    apply (Rmult_le_reg_r (sqrt (nm x y))); [exact S0|]. rewrite Rmult_assoc, sqrt_sqrt by exact NP. exact RP. }
  unfold off. replace (zx (fc_sqrt L z) - rt_re x y) with ((zx (fc_sqrt L z) - rt_re (zx z) (zy z)) + (rt_re (zx z) (zy z) - rt_re x y)) by ring.
  replace (zy (fc_sqrt L z) - rt_im x y) with ((zy (fc_sqrt L z) - rt_im (zx z) (zy z)) + (rt_im (zx z) (zy z) - rt_im x y)) by ring.
  eapply Rle_trans; [apply nm_tri|]. unfold off in T.
  assert (SN : sqrt r' <= (1 + / 1000) * sqrt (nm x y)).
  { pose proof (sq_root_near r' (nm x y) c N0 ltac:(lra) len_near) as G. apply Rabs_le_inv in G. pose proof (sqrt_pos (nm x y)). assert (c * sqrt (nm x y) <= / 1000 * sqrt (nm x y)) by (apply Rmult_le_compat_r; lra). lra. }
  assert (30 * d * sqrt r' <= 30 * d * ((1 + / 1000) * sqrt (nm x y))) by (apply Rmult_le_compat_l; lra). pose proof (sqrt_pos (nm x y)). assert (0 <= d * sqrt (nm x y)) by (apply Rmult_le_pos; lra). lra.
Qed.

Lemma log_near_off : Rabs (ratan2 (zy z) (zx z) - ratan2 y x) <= 3 * (PI / 2) -> log_at d L z ->
  fnear (re (fc_ln L z)) (ln (nm x y)) (d * Rabs (ln (nm x y)) + 10 * d + 6 / 5 * c) /\
  fnear (im (fc_ln L z)) (ratan2 y x) (d * Rabs (ratan2 y x) + 6 / 5 * c).
Proof.
  intros HA (A & N). destruct (arg_at_std z A) as (P & (FA & EA)). destruct (polar (zx z) (zy z)) as (PX & PY). destruct (polar x y) as (QX & QY). pose proof len_range as LR. assert (U0 : 0 < u) by apply bpow_gt_0.
  assert (N0 : 0 < nm x y) by (pose proof (bpow_gt_0 radix2 (- k)); lra).
  destruct (polar_pert (nm x y) (ratan2 y x) (nm (zx z) (zy z)) (ratan2 (zy z) (zx z)) c N0 ltac:(lra) ltac:(lra) HA) as (E1 & E2).
  { rewrite <- PX, <- PY, <- QX, <- QY. exact Hz. }
  destruct (ln_polar L d ltac:(lra) H24 z (nm (zx z) (zy z)) _ (k + 1) Fz PX PY ltac:(lia) ltac:(lia) LR N) as (F & E).
  destruct (ln_near (nm (zx z) (zy z)) (nm x y) c N0 Hc E1) as (_ & LN).
  set (l' := ln (nm (zx z) (zy z))) in *. set (l := ln (nm x y)) in *. set (f' := ratan2 (zy z) (zx z)) in *. set (f := ratan2 y x) in *. split.
  - split; [exact F|]. replace (B2R (re (fc_ln L z)) - l) with ((B2R (re (fc_ln L z)) - l') + (l' - l)) by ring. eapply Rle_trans; [apply Rabs_triang|].
    assert (Rabs l' <= Rabs l + 9 / 8 * c) by (replace l' with (l + (l' - l)) by ring; eapply Rle_trans; [apply Rabs_triang|lra]).
    assert (d * Rabs l' <= d * (Rabs l + 9 / 8 * c)) by (apply Rmult_le_compat_l; lra). assert (d * c <= / 65536 * c) by (apply Rmult_le_compat_r; lra). lra.
  - split; [exact FA|]. change (im (fc_ln L z)) with (m_atan2 L (im z) (re z)). set (v := B2R (m_atan2 L (im z) (re z))) in *. replace (v - f) with ((v - f') + (f' - f)) by ring. eapply Rle_trans; [apply Rabs_triang|].
    assert (Rabs f' <= Rabs f + 11 / 10 * c) by (replace f' with (f + (f' - f)) by ring; eapply Rle_trans; [apply Rabs_triang|lra]).
    assert (d * Rabs f' <= d * (Rabs f + 11 / 10 * c)) by (apply Rmult_le_compat_l; lra). assert (d * c <= / 65536 * c) by (apply Rmult_le_compat_r; lra). lra.
Qed.
End Near.

(** Sums of two complex numbers. *)
Lemma cadd_off (z w : complex fl) x y x' y' e e' M : cis_finite z = true -> cis_finite w = true -> off z x y <= e -> off w x' y' <= e' ->
  nm (x + x') (y + y') + (e + e') <= M -> M <= bpow radix2 (emax - 1) ->
  cis_finite (cadd z w) = true /\ off (cadd z w) (x + x') (y + y') <= e + e' + u * M.
Proof.
  intros Fz Fw E E' HM MB. unfold cis_finite in *. apply andb_true_iff in Fz, Fw. destruct Fz as (F1 & F2), Fw as (F3 & F4).
  assert (D : nm (zx z + zx w - (x + x')) (zy z + zy w - (y + y')) <= e + e').
  { replace (zx z + zx w - (x + x')) with ((zx z - x) + (zx w - x')) by ring. replace (zy z + zy w - (y + y')) with ((zy z - y) + (zy w - y')) by ring. eapply Rle_trans; [apply nm_tri|]. unfold off in *. lra. }
  assert (S : nm (zx z + zx w) (zy z + zy w) <= M).
  { replace (zx z + zx w) with ((x + x') + (zx z + zx w - (x + x'))) by ring. replace (zy z + zy w) with ((y + y') + (zy z + zy w - (y + y'))) by ring. eapply Rle_trans; [apply nm_tri|]. lra. }
  destruct (add_val (re z) (re w) F1 F3) as (G1 & _ & R1). { pose proof (nm_x (zx z + zx w) (zy z + zy w)). lra. }
  destruct (add_val (im z) (im w) F2 F4) as (G2 & _ & R2). { pose proof (nm_y (zx z + zx w) (zy z + zy w)). lra. }
  split; [unfold cadd; cbn [re im]; rewrite G1, G2; reflexivity|]. unfold off, cadd. cbn [re im].
  set (p := B2R (nadd (re z) (re w))) in *. set (q := B2R (nadd (im z) (im w))) in *.
  replace (p - (x + x')) with ((p - (zx z + zx w)) + (zx z + zx w - (x + x'))) by ring. replace (q - (y + y')) with ((q - (zy z + zy w)) + (zy z + zy w - (y + y'))) by ring.
  eapply Rle_trans; [apply nm_tri|]. assert (U0 : 0 < u) by apply bpow_gt_0.
  assert (nm (p - (zx z + zx w)) (q - (zy z + zy w)) <= u * nm (zx z + zx w) (zy z + zy w)).
  { apply nm_le; [apply Rmult_le_pos; [lra|apply nm_pos]|]. replace (u * nm (zx z + zx w) (zy z + zy w) * (u * nm (zx z + zx w) (zy z + zy w))) with (u * u * (nm (zx z + zx w) (zy z + zy w) * nm (zx z + zx w) (zy z + zy w))) by ring. rewrite nm_sq.
    pose proof (Rmult_le_compat _ _ _ _ (Rabs_pos _) (Rabs_pos _) R1 R1) as V1. pose proof (Rmult_le_compat _ _ _ _ (Rabs_pos _) (Rabs_pos _) R2 R2) as V2.
    rewrite abs_sq in V1, V2. pose proof (abs_sq (zx z + zx w)) as V3. pose proof (abs_sq (zy z + zy w)) as V4.
    replace (u * Rabs (zx z + zx w) * (u * Rabs (zx z + zx w))) with (u * u * (Rabs (zx z + zx w) * Rabs (zx z + zx w))) in V1 by ring. replace (u * Rabs (zy z + zy w) * (u * Rabs (zy z + zy w))) with (u * u * (Rabs (zy z + zy w) * Rabs (zy z + zy w))) in V2 by ring.
    rewrite V3 in V1. rewrite V4 in V2. lra. }
  assert (u * nm (zx z + zx w) (zy z + zy w) <= u * M) by (apply Rmult_le_compat_l; lra). lra.
Qed.

(** Exact operations: doubling, products with zero, halving. *)
Lemma zero_mul (x y : fl) : is_finite x = true -> is_finite y = true -> B2R x = 0 -> is_finite (nmul x y) = true /\ B2R (nmul x y) = 0 /\ is_finite (nmul y x) = true /\ B2R (nmul y x) = 0.
Proof.
  intros Fx Fy E. assert (B : 0 <= bpow radix2 (emax - 1)) by apply bpow_ge_0.
  destruct (mul_val x y Fx Fy) as (F & V); [rewrite E, Rmult_0_l, Rabs_R0; exact B|]. destruct (mul_val y x Fy Fx) as (F' & V'); [rewrite E, Rmult_0_r, Rabs_R0; exact B|].
  rewrite V, V', E, Rmult_0_l, Rmult_0_r, round_0 by apply valid_rnd_N. auto.
Qed.
Lemma add_exact (x y : fl) : is_finite x = true -> is_finite y = true -> (B2R x = 0 \/ B2R y = 0) ->
  is_finite (nadd x y) = true /\ B2R (nadd x y) = B2R x + B2R y /\ is_finite (nsub x y) = true /\ B2R (nsub x y) = B2R x - B2R y.
Proof.
  intros Fx Fy E. assert (G : forall t : fl, rnd (B2R t) = B2R t) by (intros; apply round_generic; [apply valid_rnd_N|apply generic_format_B2R]).
  assert (GN : forall t : fl, rnd (- B2R t) = - B2R t) by (intros t; rewrite <- B2R_Bopp; apply G).
  assert (A : rnd (B2R x + B2R y) = B2R x + B2R y) by (destruct E as [E|E]; rewrite E, ?Rplus_0_l, ?Rplus_0_r; apply G).
  assert (S : rnd (B2R x - B2R y) = B2R x - B2R y) by (destruct E as [E|E]; rewrite E; [unfold Rminus; rewrite Rplus_0_l; apply GN|rewrite Rminus_0_r; apply G]).
  assert (BM : forall t : fl, Rabs (B2R t) < bpow radix2 emax) by (intros; apply abs_B2R_lt_emax).
  pose proof (Bplus_correct prec emax _ _ mode_NE x y Fx Fy) as P. change (round_mode mode_NE) with ZnearestE in P. change (SpecFloat.fexp prec emax) with fexp in P. rewrite A in P.
  rewrite Rlt_bool_true in P by (destruct E as [E|E]; rewrite E, ?Rplus_0_l, ?Rplus_0_r; apply BM). destruct P as (P1 & P2 & _).
  pose proof (Bminus_correct prec emax _ _ mode_NE x y Fx Fy) as Q. change (round_mode mode_NE) with ZnearestE in Q. change (SpecFloat.fexp prec emax) with fexp in Q. rewrite S in Q.
  rewrite Rlt_bool_true in Q by (destruct E as [E|E]; rewrite E; [unfold Rminus; rewrite Rplus_0_l, Rabs_Ropp; apply BM|rewrite Rminus_0_r; apply BM]). destruct Q as (Q1 & Q2 & _).
  auto.
Qed.
Lemma two_mul (x t : fl) : is_finite x = true -> is_finite t = true -> B2R t = 2 -> Rabs (B2R x) <= bpow radix2 (emax - 2) ->
  is_finite (nmul x t) = true /\ B2R (nmul x t) = 2 * B2R x /\ is_finite (nmul t x) = true /\ B2R (nmul t x) = 2 * B2R x.
Proof.
  intros Fx Ft Et B. pose proof (@half_max emax) as HM. destruct (double_exact x Fx B) as (_ & E).
  assert (G : rnd (2 * B2R x) = 2 * B2R x) by (rewrite <- E; apply round_generic; [apply valid_rnd_N|apply generic_format_B2R]).
  assert (B2 : Rabs (2 * B2R x) <= bpow radix2 (emax - 1)) by (rewrite Rabs_mult, (Rabs_pos_eq 2) by lra; lra).
  destruct (mul_val x t Fx Ft) as (F & V); [rewrite Et, Rmult_comm; exact B2|]. destruct (mul_val t x Ft Fx) as (F' & V'); [rewrite Et; exact B2|].
  rewrite V, V', Et. rewrite (Rmult_comm (B2R x) 2), G. auto.
Qed.
Definition two_c : complex fl := cadd cone cone.
Lemma two_c_val : is_finite (re two_c) = true /\ B2R (re two_c) = 2 /\ is_finite (im two_c) = true /\ B2R (im two_c) = 0.
Proof. destruct (@two_val prec emax _ _) as (F & V). split; [exact F|]. split; [exact V|]. split; reflexivity. Qed.

Lemma half_val (z : complex fl) : cis_finite z = true -> Rabs (zx z) <= bpow radix2 (emax - 3) -> Rabs (zy z) <= bpow radix2 (emax - 3) ->
  cis_finite (cdiv z two_c) = true /\ zx (cdiv z two_c) = rnd (zx z / 2) /\ zy (cdiv z two_c) = rnd (zy z / 2).
Proof.
  intros Fz Bx By. unfold cis_finite in *. apply andb_true_iff in Fz. destruct Fz as (F1 & F2). destruct two_c_val as (Ft & Vt & F0 & V0).
  assert (B3 : bpow radix2 (emax - 3) <= bpow radix2 (emax - 2)) by (apply bpow_le; lia).
  destruct (two_mul (re z) (re two_c) F1 Ft Vt ltac:(lra)) as (A1 & A2 & _). destruct (two_mul (im z) (re two_c) F2 Ft Vt ltac:(lra)) as (A3 & A4 & _).
  destruct (zero_mul (im two_c) (im z) F0 F2 V0) as (_ & _ & C1 & C2). destruct (zero_mul (im two_c) (re z) F0 F1 V0) as (_ & _ & C3 & C4).
  destruct (add_exact _ _ A1 C1 (or_intror C2)) as (S1 & S2 & _). destruct (add_exact _ _ A3 C3 (or_intror C4)) as (_ & _ & S3 & S4). rewrite A2, C2, Rplus_0_r in S2. rewrite A4, C4, Rminus_0_r in S4.
  assert (M2 : Rabs (B2R (re two_c)) <= bpow radix2 (emax - 2)) by (rewrite Vt, Rabs_pos_eq by lra; change 2 with (bpow radix2 1); apply bpow_le; unfold Prec_lt_emax in He; lia).
  destruct (two_mul (re two_c) (re two_c) Ft Ft Vt M2) as (D1 & D2 & _). rewrite Vt in D2.
  destruct (zero_mul (im two_c) (im two_c) F0 F0 V0) as (D3 & D4 & _). destruct (add_exact _ _ D1 D3 (or_intror D4)) as (D5 & D6 & _). rewrite D2, D4, Rplus_0_r in D6.
  assert (HB : forall v, Rabs v <= bpow radix2 (emax - 3) -> Rabs (2 * v / (2 * 2)) <= bpow radix2 (emax - 1)).
  { intros v V. replace (2 * v / (2 * 2)) with (v / 2) by field. unfold Rdiv. rewrite Rabs_mult, (Rabs_pos_eq (/ 2)) by lra. assert (bpow radix2 (emax - 3) <= bpow radix2 (emax - 1)) by (apply bpow_le; lia). pose proof (Rabs_pos v). lra. }
  destruct (div_val (nadd (nmul (re z) (re two_c)) (nmul (im z) (im two_c))) (cmodulus_squared two_c) S1) as (G1 & G2); [unfold cmodulus_squared; rewrite D6; lra|unfold cmodulus_squared; rewrite S2, D6; apply HB, Bx|].
  destruct (div_val (nsub (nmul (im z) (re two_c)) (nmul (re z) (im two_c))) (cmodulus_squared two_c) S3) as (G3 & G4); [unfold cmodulus_squared; rewrite D6; lra|unfold cmodulus_squared; rewrite S4, D6; apply HB, By|].
  unfold cdiv. cbv zeta. cbn [re im]. rewrite G1, G3. split; [reflexivity|]. rewrite G2, G4. unfold cmodulus_squared. rewrite S2, S4, D6. split; f_equal; field.
Qed.
End C.
