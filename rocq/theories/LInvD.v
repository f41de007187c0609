(** Hyperbolic arc cosine of a complex number in floats. *)

From Coq Require Import List Arith ZArith Bool Lia Reals Lra Psatz.
From Flocq Require Import Core.Core Relative IEEE754.BinarySingleNaN.
From Verif Require Import Base Scalar Spec SpecF SpecCplx SpecInv MReal MVector MFloat MFloatVec MSign MComplex MComplexF
  LBase LVector LReal LFloat LFloatP LFloatVec LComplexHP LComplexLP LTrScF LSlerpS LDegF LCplxF LCplxFP LInvA LInvB LInvC.
Local Open Scope R_scope.

Lemma nm_mono x y x' y' : Rabs x <= x' -> Rabs y <= y' -> nm x y <= nm x' y'.
Proof.
  intros X Y. apply nm_le; [apply nm_pos|]. rewrite nm_sq. pose proof (Rmult_le_compat _ _ _ _ (Rabs_pos _) (Rabs_pos _) X X) as A. pose proof (Rmult_le_compat _ _ _ _ (Rabs_pos _) (Rabs_pos _) Y Y) as B. rewrite abs_sq in A, B. lra.
Qed.
Lemma nm_scale c x y : 0 <= c -> nm (c * x) (c * y) = c * nm x y.
Proof. intros C. unfold nm. replace (c * x * (c * x) + c * y * (c * y)) with (c * c * (x * x + y * y)) by ring. rewrite sqrt_mult_alt by (apply Rmult_le_pos; lra). rewrite sqrt_square by exact C. reflexivity. Qed.
Lemma nm_abs x y : nm (Rabs x) (Rabs y) = nm x y.
Proof. unfold nm. rewrite !abs_sq. reflexivity. Qed.
Lemma comp_nm e f x y a b : 0 <= a -> 0 <= b -> Rabs e <= a * Rabs x + b -> Rabs f <= a * Rabs y + b -> nm e f <= a * nm x y + 2 * b.
Proof.
  intros A B E F. eapply Rle_trans; [apply (nm_mono _ _ _ _ E F)|]. eapply Rle_trans; [apply nm_tri|]. rewrite nm_scale, nm_abs by exact A. pose proof (nm_xy b b) as N. rewrite (Rabs_pos_eq b B) in N. lra.
Qed.
Lemma nm_half x y : nm (x / 2) (y / 2) = nm x y / 2.
Proof. unfold Rdiv. rewrite (Rmult_comm x), (Rmult_comm y), nm_scale by lra. ring. Qed.
Lemma sum_root2 p q w : 0 <= p -> 0 <= q -> 0 <= w -> p * p + q * q <= w * w -> p + q <= 1415 / 1000 * w.
Proof. intros P Q W H. apply Rsqr_incr_0; [unfold Rsqr|lra|lra]. pose proof (Rle_0_sqr (p - q)). unfold Rsqr in *. nra. Qed.

Section D.
Context {prec emax : Z} {Hp : Prec_gt_0 prec} {He : Prec_lt_emax prec emax}.
Notation fl := (binary_float prec emax).
Notation u := (bpow radix2 (- prec)).
Notation tiny := (bpow radix2 (2 - emax - prec)).
Notation fexp := (FLT_exp (3 - emax - prec) prec).
Notation rnd := (round radix2 fexp ZnearestE).
Hypothesis H24 : (24 <= prec)%Z.
Variable L : libm fl.
Variable d : R.
Hypothesis Hd : u <= d <= / 65536.
Notation zx z := (B2R (re z)).
Notation zy z := (B2R (im z)).

Lemma u_le : 0 < u <= / 16777216.
Proof. split; [apply bpow_gt_0|]. change (/ 16777216) with (bpow radix2 (-24)). apply bpow_le. lia. Qed.

(** Half of a complex number whose parts are known up to a relative error. *)
Lemma half_off (z : complex fl) x y k : cis_finite z = true -> (2 * k + 40 <= emax)%Z -> bpow radix2 (1 - k) <= nm x y <= bpow radix2 k ->
  Rabs (zx z - x) <= u * Rabs x -> Rabs (zy z - y) <= u * Rabs y -> y = 0 \/ bpow radix2 (3 - emax) <= Rabs y ->
  cis_finite (cdiv z two_c) = true /\ off (cdiv z two_c) (x / 2) (y / 2) <= 3 * u * nm (x / 2) (y / 2) /\
  (0 < y / 2 * zy (cdiv z two_c) \/ (y / 2 = 0 /\ zy (cdiv z two_c) = 0)).
Proof.
  intros F K HR EX EY HB. pose proof u_le as U. pose proof (nm_x x y) as NX. pose proof (nm_y x y) as NY. pose proof He as He0. unfold Prec_lt_emax in He0.
  assert (K0 : (1 <= k)%Z). { destruct (Z_lt_le_dec k 1) as [Q|Q]; [|exact Q]. exfalso. assert (bpow radix2 k < bpow radix2 (1 - k)) by (apply bpow_lt; lia). lra. }
  assert (KB : 2 * bpow radix2 k <= bpow radix2 (emax - 3)) by (change 2 with (bpow radix2 1); rewrite <- bpow_plus; apply bpow_le; lia).
  assert (UX : u * Rabs x <= / 16777216 * Rabs x) by (apply Rmult_le_compat_r; [apply Rabs_pos|lra]). assert (UY : u * Rabs y <= / 16777216 * Rabs y) by (apply Rmult_le_compat_r; [apply Rabs_pos|lra]).
  assert (ZX : Rabs (zx z) <= (1 + u) * Rabs x) by (replace (zx z) with (x + (zx z - x)) by ring; eapply Rle_trans; [apply Rabs_triang|lra]).
  assert (ZY : Rabs (zy z) <= (1 + u) * Rabs y) by (replace (zy z) with (y + (zy z - y)) by ring; eapply Rle_trans; [apply Rabs_triang|lra]).
  pose proof (Rabs_pos x) as AX. pose proof (Rabs_pos y) as AY.
  destruct (half_val H24 z F ltac:(lra) ltac:(lra)) as (FH & HX & HY). split; [exact FH|].
  assert (G : forall v t, Rabs (v - t) <= u * Rabs t -> Rabs (rnd (v / 2) - t / 2) <= 21 / 10 * u * Rabs (t / 2) + tiny).
  { intros v t V. pose proof (rnd_rel (prec := prec) (emax := emax) (v / 2)) as RR. assert (T2 : Rabs (t / 2) = Rabs t / 2) by (unfold Rdiv; rewrite Rabs_mult, (Rabs_pos_eq (/ 2)) by lra; reflexivity). assert (V2 : Rabs (v / 2) = Rabs v / 2) by (unfold Rdiv; rewrite Rabs_mult, (Rabs_pos_eq (/ 2)) by lra; reflexivity).
    rewrite T2. rewrite V2 in RR. pose proof (Rabs_pos t) as T0. assert (B : Rabs v <= (1 + u) * Rabs t) by (replace v with (t + (v - t)) by ring; eapply Rle_trans; [apply Rabs_triang|lra]).
    assert (u * (Rabs v / 2) <= u * ((1 + u) * Rabs t / 2)) by (apply Rmult_le_compat_l; lra).
    assert (u * (u * Rabs t) <= / 16777216 * (u * Rabs t)) by (apply Rmult_le_compat_r; [apply Rmult_le_pos; lra|lra]). assert (0 <= u * Rabs t) by (apply Rmult_le_pos; lra).
    replace (rnd (v / 2) - t / 2) with ((rnd (v / 2) - v / 2) + (v - t) / 2) by field. eapply Rle_trans; [apply Rabs_triang|]. assert (VT : Rabs ((v - t) / 2) = Rabs (v - t) / 2) by (unfold Rdiv; rewrite Rabs_mult, (Rabs_pos_eq (/ 2)) by lra; reflexivity). rewrite VT. lra. }
  pose proof (G _ _ EX) as GX. pose proof (G _ _ EY) as GY. rewrite <- HX in GX. rewrite <- HY in GY.
  assert (T : 0 < tiny) by apply bpow_gt_0. split.
  - eapply Rle_trans; [apply (comp_nm _ _ (x / 2) (y / 2) (21 / 10 * u) tiny); [lra|lra|exact GX|exact GY]|].
    assert (TT : tiny <= u * / 4 * nm (x / 2) (y / 2)).
    { rewrite nm_half. apply Rle_trans with (u * / 4 * (bpow radix2 (1 - k) / 2)); [|apply Rmult_le_compat_l; lra].
      replace (bpow radix2 (1 - k) / 2) with (bpow radix2 (- k)) by (replace (1 - k)%Z with (1 + - k)%Z by ring; rewrite bpow_plus; change (bpow radix2 1) with 2; field).
      change (/ 4) with (bpow radix2 (-2)). rewrite <- !bpow_plus. apply bpow_le. lia. }
    pose proof (nm_pos (x / 2) (y / 2)). assert (0 <= u * nm (x / 2) (y / 2)) by (apply Rmult_le_pos; lra). lra.
  - destruct HB as [->|HB].
    + right. rewrite Rabs_R0, Rmult_0_r, Rminus_0_r in EY. assert (Z : zy z = 0) by (apply Rabs_le_inv in EY; lra). rewrite HY, Z. replace (0 / 2) with 0 by field. rewrite round_0 by apply valid_rnd_N. auto.
    + left. assert (T2 : Rabs (y / 2) = Rabs y / 2) by (unfold Rdiv; rewrite Rabs_mult, (Rabs_pos_eq (/ 2)) by lra; reflexivity). rewrite T2 in GY.
      assert (TT : tiny <= u * Rabs y). { apply Rle_trans with (u * bpow radix2 (3 - emax)); [|apply Rmult_le_compat_l; lra]. rewrite <- bpow_plus. apply bpow_le. lia. }
      assert (Y0 : 0 < Rabs y) by (pose proof (bpow_gt_0 radix2 (3 - emax)); lra). set (v := zy (cdiv z two_c)) in *.
      assert (GY' : Rabs (v - y / 2) <= / 4 * Rabs y) by lra. apply Rabs_le_inv in GY'. unfold Rabs in GY', Y0. destruct (Rcase_abs y) as [N|N].
      * replace (y / 2 * v) with ((- y) / 2 * (- v)) by field. apply Rmult_lt_0_compat; lra.
      * apply Rmult_lt_0_compat; lra.
Qed.

Lemma acosh_finite z : cis_finite z = true -> fc_acosh L z = cmul two_c (fc_ln L (cadd (fc_sqrt L (cdiv (cadd z cone) two_c)) (fc_sqrt L (cdiv (csub z cone) two_c)))).
Proof.
  destruct z as [x y]. unfold cis_finite, fc_acosh. cbn [re im]. intros F. apply andb_prop in F. destruct F as (Fx & Fy).
  destruct x; try discriminate Fx; destruct y; try discriminate Fy; reflexivity.
Qed.

Lemma double_c (w : complex fl) X Y e f : fnear (re w) X e -> fnear (im w) Y f -> Rabs X + e <= bpow radix2 (emax - 2) -> Rabs Y + f <= bpow radix2 (emax - 2) ->
  fnear (re (cmul two_c w)) (2 * X) (2 * e) /\ fnear (im (cmul two_c w)) (2 * Y) (2 * f).
Proof.
  intros (F1 & E1) (F2 & E2) B1 B2. destruct (@two_c_val prec emax _ _) as (Ft & Vt & F0 & V0).
  assert (C1 : Rabs (zx w) <= bpow radix2 (emax - 2)) by (replace (zx w) with (X + (zx w - X)) by ring; eapply Rle_trans; [apply Rabs_triang|lra]).
  assert (C2 : Rabs (zy w) <= bpow radix2 (emax - 2)) by (replace (zy w) with (Y + (zy w - Y)) by ring; eapply Rle_trans; [apply Rabs_triang|lra]).
  destruct (two_mul (re w) (re two_c) F1 Ft Vt C1) as (_ & _ & A1 & A2). destruct (two_mul (im w) (re two_c) F2 Ft Vt C2) as (_ & _ & A3 & A4).
  destruct (zero_mul (im two_c) (im w) F0 F2 V0) as (Z1 & Z2 & _). destruct (zero_mul (im two_c) (re w) F0 F1 V0) as (Z3 & Z4 & _).
  destruct (add_exact _ _ A1 Z1 (or_intror Z2)) as (_ & _ & S1 & S2). destruct (add_exact _ _ A3 Z3 (or_intror Z4)) as (S3 & S4 & _).
  unfold cmul. cbn [re im]. split; (split; [assumption|]).
  - rewrite S2, A2, Z2. replace (2 * zx w - 0 - 2 * X) with (2 * (zx w - X)) by ring. rewrite Rabs_mult, (Rabs_pos_eq 2) by lra. lra.
  - rewrite S4, A4, Z4. replace (2 * zy w + 0 - 2 * Y) with (2 * (zy w - Y)) by ring. rewrite Rabs_mult, (Rabs_pos_eq 2) by lra. lra.
Qed.

Lemma acosh_near (z : complex fl) (k : Z) : cis_finite z = true -> (2 * k + 40 <= emax)%Z ->
  let a := zx z in let b := zy z in
  bpow radix2 (1 - k) <= nm (a + 1) b <= bpow radix2 k -> bpow radix2 (1 - k) <= nm (a - 1) b <= bpow radix2 k -> b = 0 \/ bpow radix2 (3 - emax) <= Rabs b ->
  let s := cdiv (cadd z cone) (cadd cone cone) in let t := cdiv (csub z cone) (cadd cone cone) in
  root_at d L s -> root_at d L t -> log_at d L (cadd (fc_sqrt L s) (fc_sqrt L t)) ->
  exists X Y : R, 0 <= X /\ - PI <= Y <= PI /\ cosh X * cos Y = a /\ sinh X * sin Y = b /\
    fnear (re (fc_acosh L z)) X (d * X + 150 * d) /\ fnear (im (fc_acosh L z)) Y (150 * d).
Proof.
  intros F K a b H1 H2 HB s t Rs Rt Lw. pose proof u_le as U. pose proof He as He0. unfold Prec_lt_emax in He0. pose proof PI_digits as PD.
  assert (K0 : (1 <= k)%Z). { destruct (Z_lt_le_dec k 1) as [Q|Q]; [|exact Q]. exfalso. assert (bpow radix2 k < bpow radix2 (1 - k)) by (apply bpow_lt; lia). lra. }
  pose proof F as F'. unfold cis_finite in F'. apply andb_prop in F'. destruct F' as (F1 & F2). destruct (@fbone prec emax _ _) as (V1 & Fo & _). change (B2R (n1 : fl) = 1) in V1. change (is_finite (n1 : fl) = true) in Fo.
  pose proof (nm_x (a + 1) b) as N1. pose proof (nm_x (a - 1) b) as N2.
  assert (KB : bpow radix2 k <= bpow radix2 (emax - 1)) by (apply bpow_le; lia).
  destruct (add_val (re z) n1 F1 Fo) as (G1 & _ & R1); [rewrite V1; fold a; lra|].
  destruct (sub_val (re z) n1 F1 Fo) as (G2 & _ & R2); [rewrite V1; fold a; lra|].
  rewrite V1 in R1, R2. fold a in R1, R2.
  assert (Fz0 : is_finite (n0 : fl) = true) by reflexivity. assert (Vz0 : B2R (n0 : fl) = 0) by reflexivity.
  destruct (add_exact (im z) n0 F2 Fz0 (or_intror Vz0)) as (G3 & E3 & G4 & E4). rewrite Vz0 in E3, E4. rewrite Rplus_0_r in E3. rewrite Rminus_0_r in E4. fold b in E3, E4.
  assert (EQ : forall v : R, v = b -> Rabs (v - b) <= u * Rabs b) by (intros v ->; rewrite Rminus_diag_eq, Rabs_R0 by reflexivity; apply Rmult_le_pos; [lra|apply Rabs_pos]).
  destruct (half_off (cadd z cone) (a + 1) b k) as (Fs & Os & Ss); [unfold cis_finite, cadd, cone, cidentity; cbn [re im]; rewrite G1, G3; reflexivity|exact K|exact H1|exact R1|apply EQ; exact E3|exact HB|].
  destruct (half_off (csub z cone) (a - 1) b k) as (Ft & Ot & St); [unfold cis_finite, csub, cone, cidentity; cbn [re im]; rewrite G2, G4; reflexivity|exact K|exact H2|exact R2|apply EQ; exact E4|exact HB|].
  change (cdiv (cadd z cone) two_c) with s in Fs, Os, Ss. change (cdiv (csub z cone) two_c) with t in Ft, Ot, St.
  assert (RG : forall n, bpow radix2 (1 - k) <= n <= bpow radix2 k -> bpow radix2 (- k) <= n / 2 <= bpow radix2 k).
  { intros n Hn. replace (1 - k)%Z with (1 + - k)%Z in Hn by ring. rewrite bpow_plus in Hn. change (bpow radix2 1) with 2 in Hn. pose proof (bpow_gt_0 radix2 (- k)). lra. }
  pose proof (RG _ H1) as Q1. pose proof (RG _ H2) as Q2. rewrite <- nm_half in Q1, Q2.
  destruct (root_near_off H24 L d Hd s ((a + 1) / 2) (b / 2) (3 * u) k Fs ltac:(lra) ltac:(lia) ltac:(lia) Q1 Os Ss Rs) as (FA & OA).
  destruct (root_near_off H24 L d Hd t ((a - 1) / 2) (b / 2) (3 * u) k Ft ltac:(lra) ltac:(lia) ltac:(lia) Q2 Ot St Rt) as (FB & OB).
  set (p := rt_re ((a + 1) / 2) (b / 2)) in *. set (q := rt_im ((a + 1) / 2) (b / 2)) in *. set (m := rt_re ((a - 1) / 2) (b / 2)) in *. set (n := rt_im ((a - 1) / 2) (b / 2)) in *.
  destruct (rt_sq ((a + 1) / 2) (b / 2)) as (A1 & A2). destruct (rt_sq ((a - 1) / 2) (b / 2)) as (B1 & B2). fold p q in A1, A2. fold m n in B1, B2.
  assert (P0 : 0 <= p) by apply rt_re_pos. assert (M0 : 0 <= m) by apply rt_re_pos.
  assert (QN : 0 <= q * n). { apply rt_sign. destruct (Req_dec b 0) as [Z|Z]; [right; rewrite Z; lra|left]. replace (b / 2 * (b / 2)) with (/ 4 * (b * b)) by field. pose proof (Rsqr_pos_lt b Z). unfold Rsqr in *. lra. }
  rewrite <- (rt_nm ((a + 1) / 2) (b / 2)) in OA. rewrite <- (rt_nm ((a - 1) / 2) (b / 2)) in OB. fold p q in OA. fold m n in OB.
  pose proof (quadrant p q m n P0 M0 QN) as QD. set (w := nm (p + m) (q + n)) in *. pose proof (nm_pos p q) as NA. pose proof (nm_pos m n) as NB. pose proof (nm_pos (p + m) (q + n)) as NW. fold w in NW.
  pose proof (sum_root2 _ _ _ NA NB NW QD) as SR.
  assert (W1 : 1 <= w).
  { pose proof (nm_mul (p + m) (q + n) (p - m) (q - n)) as MM. replace ((p + m) * (p - m) - (q + n) * (q - n)) with 1 in MM by lra. replace ((p + m) * (q - n) + (q + n) * (p - m)) with 0 in MM by lra.
    assert (E : nm 1 0 = 1) by (unfold nm; replace (1 * 1 + 0 * 0) with (1 * 1) by ring; apply sqrt_square; lra). rewrite E in MM. fold w in MM.
    assert (LE : nm (p - m) (q - n) <= w). { apply nm_le; [exact NW|]. unfold w. rewrite nm_sq. pose proof (Rmult_le_pos _ _ P0 M0). lra. }
    destruct (Rle_or_lt 1 w) as [H|H]; [exact H|]. exfalso. pose proof (nm_pos (p - m) (q - n)). assert (w * nm (p - m) (q - n) <= 1 * nm (p - m) (q - n)) by (apply Rmult_le_compat_r; lra). lra. }
  assert (WK : w <= bpow radix2 (k + 1)).
  { assert (S2 : forall n0, 0 <= n0 <= bpow radix2 k -> sqrt n0 <= bpow radix2 k).
    { intros n0 Hn. pose proof (bpow_ge_0 radix2 k). assert (1 <= bpow radix2 k) by (apply (bpow_le radix2 0 k); lia). rewrite <- (sqrt_square (bpow radix2 k)) by lra. apply sqrt_le_1; [lra|apply Rmult_le_pos; lra|]. apply Rle_trans with (bpow radix2 k * 1); [lra|apply Rmult_le_compat_l; lra]. }
    assert (X1 : nm p q <= bpow radix2 k) by (unfold p, q; rewrite rt_nm; apply S2; pose proof (nm_pos ((a + 1) / 2) (b / 2)); lra).
    assert (X2 : nm m n <= bpow radix2 k) by (unfold m, n; rewrite rt_nm; apply S2; pose proof (nm_pos ((a - 1) / 2) (b / 2)); lra).
    rewrite bpow_plus. change (bpow radix2 1) with 2. pose proof (nm_tri p q m n) as T. fold w in T. lra. }
  assert (DW : forall v, 0 <= v -> (3 * u + 31 * d) * v <= 34 * d * v) by (intros v V; apply Rmult_le_compat_r; lra).
  assert (SUM : (3 * u + 31 * d) * nm p q + (3 * u + 31 * d) * nm m n <= 48111 / 1000 * d * w).
  { pose proof (DW _ NA). pose proof (DW _ NB). assert (34 * d * (nm p q + nm m n) <= 34 * d * (1415 / 1000 * w)) by (apply Rmult_le_compat_l; lra). assert (0 <= d * w) by (apply Rmult_le_pos; lra). lra. }
  assert (DD : d * w <= / 65536 * w) by (apply Rmult_le_compat_r; lra).
  destruct (cadd_off _ _ _ _ _ _ _ _ (2 * w) FA FB OA OB) as (FW & OW).
  { change (nm (p + m) (q + n)) with w. lra. }
  { apply Rle_trans with (2 * bpow radix2 (k + 1)); [lra|]. change 2 with (bpow radix2 1). rewrite <- bpow_plus. apply bpow_le. lia. }
  set (wf := cadd (fc_sqrt L s) (fc_sqrt L t)) in *.
  assert (UW : u * w <= d * w) by (apply Rmult_le_compat_r; lra). assert (DW0 : 0 <= d * w) by (apply Rmult_le_pos; lra).
  assert (OW' : off wf (p + m) (q + n) <= 51 * d * nm (p + m) (q + n)) by (change (nm (p + m) (q + n)) with w; lra).
  assert (NZ : p + m <> 0 \/ q + n <> 0).
  { destruct (Req_dec (p + m) 0) as [Z1|Z1]; [|left; exact Z1]. destruct (Req_dec (q + n) 0) as [Z2|Z2]; [|right; exact Z2]. exfalso. unfold w in W1. rewrite Z1, Z2, nm_0 in W1. lra. }
  pose proof (arg_right (p + m) (q + n) ltac:(lra) NZ) as AR. pose proof (ratan2_range (zx wf) (zy wf)) as AR'.
  destruct (log_near_off H24 L d Hd wf (p + m) (q + n) (51 * d) (k + 1) FW ltac:(lra) ltac:(lia) ltac:(lia)) as (LX & LY).
  { change (nm (p + m) (q + n)) with w. split; [|exact WK]. apply Rle_trans with 1; [|exact W1]. apply (bpow_le radix2 _ 0). lia. }
  { exact OW'. }
  { apply Rabs_le. lra. }
  { exact Lw. }
  destruct (polar (p + m) (q + n)) as (PX & PY). set (phi := ratan2 (q + n) (p + m)) in *. fold w in LX, LY, PX, PY, OW'.
  destruct (acosh_exact a b p q m n w phi ltac:(lra) A1 A2 B1 B2 PX PY) as (C1 & C2).
  assert (LN0 : 0 <= ln w <= w) by (pose proof (ln_low w ltac:(lra)) as (I1 & I2); split; [|lra]; assert (/ w <= / 1) by (apply Rinv_le_contravar; lra); lra).
  exists (2 * ln w), (2 * phi). split; [lra|]. split; [lra|]. split; [exact C1|]. split; [exact C2|].
  rewrite (acosh_finite z F). change (cadd (fc_sqrt L (cdiv (cadd z cone) two_c)) (fc_sqrt L (cdiv (csub z cone) two_c))) with wf.
  rewrite (Rabs_pos_eq (ln w)) in LX by lra. assert (AP : Rabs phi <= 16 / 10) by (apply Rabs_le; lra). assert (DP : d * Rabs phi <= d * (16 / 10)) by (apply Rmult_le_compat_l; lra). pose proof (Rabs_pos phi) as AP0.
  assert (DL : d * ln w <= / 65536 * ln w) by (apply Rmult_le_compat_r; lra). assert (DL0 : 0 <= d * ln w) by (apply Rmult_le_pos; lra). assert (DP0 : 0 <= d * Rabs phi) by (apply Rmult_le_pos; lra).
  assert (BB : 4 * bpow radix2 (k + 1) <= bpow radix2 (emax - 2)) by (change 4 with (bpow radix2 2); rewrite <- bpow_plus; apply bpow_le; lia).
  destruct (double_c (fc_ln L wf) (ln w) phi _ _ LX LY) as ((D1 & D2) & (D3 & D4)).
  { rewrite (Rabs_pos_eq (ln w)) by lra. lra. }
  { lra. }
  split; (split; [assumption|]); lra.
Qed.
End D.
