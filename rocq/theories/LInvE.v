(** Hyperbolic arc sine, arc cosine and hyperbolic arc tangent of a complex number in floats. *)

From Coq Require Import List Arith ZArith Bool Lia Reals Lra Psatz.
From Flocq Require Import Core.Core Relative IEEE754.BinarySingleNaN.
From Verif Require Import Base Scalar Spec SpecF SpecCplx SpecInv MReal MVector MFloat MFloatVec MSign MComplex MComplexF
  LBase LVector LReal LFloat LFloatP LFloatVec LComplexHP LComplexIP LComplexLP LTrScF LSlerpS LDegF LCplxF LCplxFP LInvA LInvB LInvC LInvD.
Local Open Scope R_scope.

Section E.
Context {prec emax : Z} {Hp : Prec_gt_0 prec} {He : Prec_lt_emax prec emax}.
Notation fl := (binary_float prec emax).
Notation u := (bpow radix2 (- prec)).
Notation tiny := (bpow radix2 (2 - emax - prec)).
Notation fexp := (FLT_exp (3 - emax - prec) prec).
Notation rnd := (round radix2 fexp ZnearestE).
Hypothesis H24 : (24 <= prec)%Z.
Variable L : libm fl.
Variable d : R.
Hypothesis Hd : u <= d <= / 65536.
Notation zx z := (B2R (re z)).
Notation zy z := (B2R (im z)).

(** Absolute error of a rounded product and of the square. *)
Lemma mul_abs_err (x y : fl) : is_finite x = true -> is_finite y = true -> Rabs (B2R x * B2R y) <= bpow radix2 (emax - 1) ->
  is_finite (nmul x y) = true /\ Rabs (B2R (nmul x y) - B2R x * B2R y) <= u * Rabs (B2R x * B2R y) + tiny.
Proof. intros Fx Fy B. destruct (mul_val x y Fx Fy B) as (F & ->). split; [exact F|apply rnd_rel]. Qed.

Lemma sq_parts (z : complex fl) : cis_finite z = true -> let a := zx z in let b := zy z in let N := 1 + a * a + b * b in
  (40 <= emax)%Z -> N <= bpow radix2 (emax - 4) ->
  cis_finite (cmul z z) = true /\ Rabs (zx (cmul z z) - (a * a - b * b)) <= 11 / 5 * u * N /\ Rabs (zy (cmul z z) - 2 * a * b) <= 11 / 5 * u * N /\
  (a * b = 0 -> zy (cmul z z) = 0) /\ (bpow radix2 (3 - emax) <= Rabs (a * b) -> 0 < a * b * zy (cmul z z)).
Proof.
  intros F a b N E40 NB. pose proof (@u_le prec H24) as U. unfold cis_finite in F. apply andb_prop in F. destruct F as (F1 & F2).
  pose proof (Rle_0_sqr a) as A2. pose proof (Rle_0_sqr b) as B2. unfold Rsqr in A2, B2.
  assert (TU : 10 * tiny <= / 100 * u). { apply Rle_trans with (bpow radix2 4 * tiny); [apply Rmult_le_compat_r; [apply bpow_ge_0|change (bpow radix2 4) with 16; lra]|]. rewrite <- bpow_plus. apply Rle_trans with (bpow radix2 (-7) * u); [rewrite <- bpow_plus; apply bpow_le; lia|apply Rmult_le_compat_r; [lra|change (bpow radix2 (-7)) with (/ 128); lra]]. }
  assert (T0 : 0 < tiny) by apply bpow_gt_0.
  assert (NB1 : 8 * N <= bpow radix2 (emax - 1)) by (replace (emax - 1)%Z with (3 + (emax - 4))%Z by ring; rewrite bpow_plus; change (bpow radix2 3) with 8; lra).
  assert (AB : 2 * Rabs (a * b) <= a * a + b * b). { rewrite Rabs_mult. pose proof (Rle_0_sqr (Rabs a - Rabs b)) as Q. unfold Rsqr in Q. pose proof (abs_sq a). pose proof (abs_sq b). lra. }
  pose proof (Rabs_pos (a * b)) as AB0. assert (N1 : 1 <= N) by (unfold N; lra).
  destruct (mul_abs_err (re z) (re z) F1 F1) as (P1 & Q1); [fold a; rewrite Rabs_pos_eq by lra; unfold N in *; lra|].
  destruct (mul_abs_err (im z) (im z) F2 F2) as (P2 & Q2); [fold b; rewrite Rabs_pos_eq by lra; unfold N in *; lra|].
  destruct (mul_abs_err (re z) (im z) F1 F2) as (P3 & Q3); [fold a b; unfold N in *; lra|].
  destruct (mul_abs_err (im z) (re z) F2 F1) as (P4 & Q4); [fold a b; rewrite Rmult_comm; unfold N in *; lra|].
  fold a in Q1. fold b in Q2. fold a b in Q3, Q4. rewrite (Rabs_pos_eq (a * a)) in Q1 by lra. rewrite (Rabs_pos_eq (b * b)) in Q2 by lra. rewrite (Rmult_comm b a) in Q4.
  assert (UA : u * (a * a) <= / 16777216 * (a * a)) by (apply Rmult_le_compat_r; lra). assert (UB : u * (b * b) <= / 16777216 * (b * b)) by (apply Rmult_le_compat_r; lra). assert (UAB : u * Rabs (a * b) <= / 16777216 * Rabs (a * b)) by (apply Rmult_le_compat_r; lra).
  assert (UN : u * N = u + u * (a * a) + u * (b * b)) by (unfold N; ring). assert (UUN : u * (u * N) <= / 16777216 * (u * N)) by (apply Rmult_le_compat_r; [apply Rmult_le_pos; lra|lra]).
  assert (UN2 : u * (2 * Rabs (a * b)) <= u * (a * a + b * b)) by (apply Rmult_le_compat_l; lra).
  assert (U1 : 0 <= u * (a * a)) by (apply Rmult_le_pos; lra). assert (U2 : 0 <= u * (b * b)) by (apply Rmult_le_pos; lra).
  set (p := B2R (nmul (re z) (re z))) in *. set (q := B2R (nmul (im z) (im z))) in *. set (v := B2R (nmul (re z) (im z))) in *. set (v' := B2R (nmul (im z) (re z))) in *.
  assert (PQ : Rabs (p - q) <= 2 * N) by (apply Rabs_le_inv in Q1, Q2; apply Rabs_le; unfold N in *; lra).
  destruct (sub_val (nmul (re z) (re z)) (nmul (im z) (im z)) P1 P2) as (P5 & _ & Q5); [fold p q; lra|]. fold p q in Q5.
  assert (VV : Rabs (v + v') <= 2 * N) by (apply Rabs_le_inv in Q3, Q4; pose proof (Rle_abs (a * b)) as L1; pose proof (Rle_abs (- (a * b))) as L2; rewrite Rabs_Ropp in L2; apply Rabs_le; unfold N in *; lra).
  destruct (add_val (nmul (re z) (im z)) (nmul (im z) (re z)) P3 P4) as (P6 & R6 & Q6); [fold v v'; lra|]. fold v v' in Q6, R6.
  assert (EV : v' = v) by (unfold v, v'; destruct (mul_val (re z) (im z) F1 F2) as (_ & ->); [fold a b; unfold N in *; lra|]; destruct (mul_val (im z) (re z) F2 F1) as (_ & ->); [fold a b; rewrite Rmult_comm; unfold N in *; lra|]; f_equal; ring).
  rewrite EV in *. unfold cmul. cbn [re im]. unfold cis_finite. cbn [re im]. rewrite P5, P6. split; [reflexivity|].
  set (mm := B2R (nsub (nmul (re z) (re z)) (nmul (im z) (im z)))) in *. set (vv := B2R (nadd (nmul (re z) (im z)) (nmul (im z) (re z)))) in *.
  split; [|split; [|split]].
  - replace (mm - (a * a - b * b)) with ((mm - (p - q)) + ((p - a * a) + - (q - b * b))) by ring. eapply Rle_trans; [apply Rabs_triang|].
    assert (Rabs (p - a * a + - (q - b * b)) <= u * (a * a) + tiny + (u * (b * b) + tiny)) by (eapply Rle_trans; [apply Rabs_triang|]; rewrite Rabs_Ropp; lra).
    assert (PQ2 : Rabs (p - q) <= (a * a + b * b) + (u * N + 2 * tiny)) by (apply Rabs_le_inv in Q1, Q2; apply Rabs_le; lra).
    assert (u * Rabs (p - q) <= u * ((a * a + b * b) + (u * N + 2 * tiny))) by (apply Rmult_le_compat_l; lra).
    assert (u * tiny <= / 16777216 * tiny) by (apply Rmult_le_compat_r; lra). lra.
  - replace (vv - 2 * a * b) with ((vv - (v + v)) + 2 * (v - a * b)) by ring. eapply Rle_trans; [apply Rabs_triang|]. rewrite (Rabs_mult 2), (Rabs_pos_eq 2) by lra.
    assert (V2 : Rabs (v + v) <= 2 * Rabs (a * b) + 2 * (u * Rabs (a * b) + tiny)).
    { replace (v + v) with (2 * (a * b) + 2 * (v - a * b)) by ring. eapply Rle_trans; [apply Rabs_triang|]. rewrite !(Rabs_mult 2), (Rabs_pos_eq 2) by lra. lra. }
    assert (u * Rabs (v + v) <= u * (2 * Rabs (a * b) + 2 * (u * Rabs (a * b) + tiny))) by (apply Rmult_le_compat_l; lra).
    assert (u * (u * Rabs (a * b)) <= / 16777216 * (u * Rabs (a * b))) by (apply Rmult_le_compat_r; [apply Rmult_le_pos; lra|lra]). assert (u * tiny <= / 16777216 * tiny) by (apply Rmult_le_compat_r; lra). assert (0 <= u * Rabs (a * b)) by (apply Rmult_le_pos; lra). lra.
  - intros Z. rewrite R6. assert (V0 : v = 0). { unfold v. destruct (mul_val (re z) (im z) F1 F2) as (_ & ->); [fold a b; rewrite Z, Rabs_R0; apply bpow_ge_0|]. fold a b. rewrite Z. apply round_0, valid_rnd_N. } rewrite V0, Rplus_0_r. apply round_0, valid_rnd_N.
  - intros BG. assert (TT : tiny <= u * Rabs (a * b)). { apply Rle_trans with (u * bpow radix2 (3 - emax)); [|apply Rmult_le_compat_l; lra]. rewrite <- bpow_plus. apply bpow_le. lia. }
    assert (P0 : 0 < Rabs (a * b)) by (pose proof (bpow_gt_0 radix2 (3 - emax)); lra).
    assert (V3 : Rabs (v - a * b) <= / 8 * Rabs (a * b)) by lra.
    assert (V2 : Rabs (v + v) <= 3 * Rabs (a * b)). { replace (v + v) with (2 * (a * b) + 2 * (v - a * b)) by ring. eapply Rle_trans; [apply Rabs_triang|]. rewrite !(Rabs_mult 2), (Rabs_pos_eq 2) by lra. lra. }
    assert (u * Rabs (v + v) <= / 16777216 * Rabs (v + v)) by (apply Rmult_le_compat_r; [apply Rabs_pos|lra]).
    assert (V4 : Rabs (vv - 2 * (a * b)) <= / 2 * Rabs (a * b)). { replace (vv - 2 * (a * b)) with ((vv - (v + v)) + 2 * (v - a * b)) by ring. eapply Rle_trans; [apply Rabs_triang|]. rewrite (Rabs_mult 2), (Rabs_pos_eq 2) by lra. lra. }
    apply Rabs_le_inv in V4. unfold Rabs in V4, P0. destruct (Rcase_abs (a * b)) as [G|G].
    + replace (a * b * vv) with ((- (a * b)) * (- vv)) by ring. apply Rmult_lt_0_compat; lra.
    + apply Rmult_lt_0_compat; lra.
Qed.

(** The square root of a number near 1 + z * z or 1 - z * z, of size N = 1 + |z|^2. *)
Section Root.
Variables (z : complex fl) (kappa : R) (k : Z).
Hypothesis Fz : cis_finite z = true.
Let a := zx z.
Let b := zy z.
Let N := 1 + a * a + b * b.
Hypothesis Kp : (prec <= k)%Z.
Hypothesis K : (2 * k + 40 <= emax)%Z.
Hypothesis NK : N <= bpow radix2 k.
Hypothesis AB : a * b = 0 \/ bpow radix2 (3 - emax) <= Rabs (a * b).
Hypothesis DK : d * kappa <= / 65536.

Lemma N_1 : 1 <= N.
Proof. unfold N. pose proof (ssq a b). lra. Qed.
Lemma z_le : nm a b <= N.
Proof. pose proof N_1. apply nm_le; [lra|]. unfold N in *. pose proof (ssq a b). nra. Qed.

Lemma root_core (s : complex fl) (x y : R) : cis_finite s = true -> N <= kappa * nm x y -> nm x y <= N -> off s x y <= 6 * u * N ->
  (0 < y * zy s \/ (y = 0 /\ zy s = 0)) -> root_at d L s ->
  cis_finite (fc_sqrt L s) = true /\ off (fc_sqrt L s) (rt_re x y) (rt_im x y) <= 37 * (d * kappa) * nm (rt_re x y) (rt_im x y) /\ 1 <= kappa.
Proof.
  intros F HK HN O Sg Rt. pose proof (@u_le prec H24) as U. pose proof N_1 as N1. pose proof (nm_pos x y) as NP.
  assert (K1 : 1 <= kappa). { destruct (Rle_or_lt 1 kappa) as [Q|Q]; [exact Q|]. exfalso. destruct NP as [NP|NP]; [|rewrite <- NP in HK; lra]. assert (kappa * nm x y < 1 * nm x y) by (apply Rmult_lt_compat_r; lra). lra. }
  assert (UK : u * kappa <= d * kappa) by (apply Rmult_le_compat_r; lra).
  assert (LOW : bpow radix2 (- k) <= nm x y).
  { assert (KU : kappa <= / 65536 * bpow radix2 prec). { apply (Rmult_le_reg_l u); [lra|]. replace (u * (/ 65536 * bpow radix2 prec)) with (/ 65536 * (u * bpow radix2 prec)) by ring. rewrite <- bpow_plus. replace (- prec + prec)%Z with 0%Z by ring. change (bpow radix2 0) with 1. lra. }
    assert (BP : bpow radix2 (- k) <= u) by (apply bpow_le; lia). destruct (Rle_or_lt u (nm x y)) as [Q|Q]; [lra|]. exfalso.
    assert (kappa * nm x y <= (/ 65536 * bpow radix2 prec) * u) by (apply Rmult_le_compat; lra). replace (/ 65536 * bpow radix2 prec * u) with (/ 65536 * (u * bpow radix2 prec)) in H by ring. rewrite <- bpow_plus in H. replace (- prec + prec)%Z with 0%Z in H by ring. change (bpow radix2 0) with 1 in H. lra. }
  assert (O' : off s x y <= 6 * (u * kappa) * nm x y). { assert (6 * u * N <= 6 * u * (kappa * nm x y)) by (apply Rmult_le_compat_l; lra). lra. }
  destruct (root_near_off H24 L d Hd s x y (6 * (u * kappa)) k F ltac:(split; [apply Rmult_le_pos; [lra|apply Rmult_le_pos; lra]|lra]) ltac:(lia) ltac:(lia) ltac:(lra) O' Sg Rt) as (FS & OS).
  split; [exact FS|]. split; [|exact K1]. rewrite rt_nm. eapply Rle_trans; [exact OS|]. apply Rmult_le_compat_r; [apply sqrt_pos|]. assert (d * 1 <= d * kappa) by (apply Rmult_le_compat_l; lra). lra.
Qed.

(** The logarithm of a sum of two numbers without cancellation. *)
Lemma log_core (v w : complex fl) (x y x' y' : R) : cis_finite v = true -> cis_finite w = true -> 1 <= kappa ->
  zx v = x -> zy v = y -> nm x y <= N -> nm x' y' <= N -> off w x' y' <= 37 * (d * kappa) * nm x' y' ->
  nm x y * nm x y + nm x' y' * nm x' y' <= nm (x + x') (y + y') * nm (x + x') (y + y') -> 1 <= nm (x + x') (y + y') ->
  forall wf, (wf = cadd v w \/ wf = cadd w v) -> log_at d L wf -> Rabs (ratan2 (zy wf) (zx wf) - ratan2 (y + y') (x + x')) <= 3 * (PI / 2) ->
  let X := ln (nm (x + x') (y + y')) in let Y := ratan2 (y + y') (x + x') in
  0 <= X /\ fnear (re (fc_ln L wf)) X (d * X + 60 * (d * kappa)) /\ fnear (im (fc_ln L wf)) Y (60 * (d * kappa)).
Proof.
  intros Fv Fw K1 Ex Ey Bv Bw O Q W1 wf Ewf Lw Aw X Y. pose proof (@u_le prec H24) as U. pose proof PI_digits as PD. pose proof N_1 as N1. pose proof He as He0. unfold Prec_lt_emax in He0.
  set (W := nm (x + x') (y + y')) in *. pose proof (nm_tri x y x' y') as T. fold W in T. pose proof (nm_pos x' y') as P'.
  assert (WW : nm x' y' <= W). { apply Rsqr_incr_0; [unfold Rsqr|exact P'|lra]. pose proof (Rle_0_sqr (nm x y)). unfold Rsqr in *. lra. }
  assert (D1 : d * 1 <= d * kappa) by (apply Rmult_le_compat_l; lra). assert (DW : 37 * (d * kappa) * nm x' y' <= 37 * (d * kappa) * W) by (apply Rmult_le_compat_l; lra).
  assert (DW2 : d * kappa * W <= / 65536 * W) by (apply Rmult_le_compat_r; lra). assert (DW0 : 0 <= d * kappa * W) by (apply Rmult_le_pos; lra).
  assert (WK : W <= bpow radix2 (k + 1)) by (rewrite bpow_plus; change (bpow radix2 1) with 2; lra).
  assert (OV : off v x y <= 0) by (unfold off; rewrite Ex, Ey, !Rminus_diag_eq, nm_0 by reflexivity; lra).
  assert (BB : 2 * W <= bpow radix2 (emax - 1)). { apply Rle_trans with (2 * bpow radix2 (k + 1)); [lra|]. change 2 with (bpow radix2 1). rewrite <- bpow_plus. apply bpow_le. lia. }
  assert (UW : u * W <= d * kappa * W) by (apply Rmult_le_compat_r; lra).
  assert (CO : cis_finite wf = true /\ off wf (x + x') (y + y') <= 39 * (d * kappa) * W).
  { destruct Ewf as [->| ->].
    - destruct (cadd_off v w x y x' y' 0 (37 * (d * kappa) * nm x' y') (2 * W) Fv Fw OV O) as (F & OO); [fold W; lra|exact BB|]. split; [exact F|lra].
    - destruct (cadd_off w v x' y' x y (37 * (d * kappa) * nm x' y') 0 (2 * W) Fw Fv O OV) as (F & OO); [rewrite (Rplus_comm x'), (Rplus_comm y'); fold W; lra|exact BB|]. split; [exact F|]. rewrite (Rplus_comm x x'), (Rplus_comm y y'). lra. }
  destruct CO as (FW & OW).
  destruct (log_near_off H24 L d Hd wf (x + x') (y + y') (39 * (d * kappa)) (k + 1) FW ltac:(lra) ltac:(lia) ltac:(lia)) as (LX & LY).
  { fold W. split; [|exact WK]. apply Rle_trans with 1; [|exact W1]. apply (bpow_le radix2 _ 0). lia. }
  { exact OW. }
  { exact Aw. }
  { exact Lw. }
  fold W in LX. change (ln W) with X in LX. change (ratan2 (y + y') (x + x')) with Y in LY.
  assert (X0 : 0 <= X) by (unfold X; pose proof (ln_low W ltac:(lra)) as (I1 & _); assert (/ W <= / 1) by (apply Rinv_le_contravar; lra); lra).
  rewrite (Rabs_pos_eq X) in LX by exact X0. pose proof (ratan2_range (x + x') (y + y')) as RG. fold Y in RG. assert (AY : Rabs Y <= 32 / 10) by (apply Rabs_le; lra). assert (DY : d * Rabs Y <= d * (32 / 10)) by (apply Rmult_le_compat_l; lra).
  split; [exact X0|]. destruct LX as (L1 & L2), LY as (L3 & L4). split; (split; [assumption|]); lra.
Qed.
End Root.
End E.
