(** Proofs of the theorems of PCplxG.v. *)

From Coq Require Import List Arith ZArith Bool Lia Reals Lra Psatz.
From Flocq Require Import Core.Core Relative IEEE754.BinarySingleNaN.
From Verif Require Import Base Scalar Spec SpecF SpecCplx SpecLibm LBase MFloat LFloat LFloatP MFloatVec LFloatVec MComplex MSign MComplexF MCplxG
  LTrScF LNormF LLibmP LSlerpS LSlerpW LDegF LDegFP LCplxF LCplxFP.
Local Open Scope R_scope.

Section F.
Context {prec emax : Z} {Hp : Prec_gt_0 prec} {He : Prec_lt_emax prec emax}.
Notation fl := (binary_float prec emax).
Notation u := (bpow radix2 (- prec)).
Notation tiny := (bpow radix2 (2 - emax - prec)).
Notation rnd := (round radix2 (FLT_exp (3 - emax - prec) prec) ZnearestE).
Variable L : libm fl.
Variable d : R.
Hypothesis D : u <= d <= / 64.

Lemma weaken (y : fl) v e f : fnear y v e -> e <= f -> fnear y v f.
Proof. intros (F & E) H. split; [exact F|lra]. Qed.

(** A radius with relative error [a] and an angle with absolute error [h]. *)
Lemma polar_parts (x t : fl) (p T a h b : R) : fnear x p (a * p) -> 0 <= p <= bpow radix2 (emax - 3) -> 0 <= a <= / 2 -> 0 <= h <= / 4 ->
  Rabs (B2R t - T) <= h -> lib_at d cos (m_cos L) t -> lib_at d sin (m_sin L) t -> a + 15 / 4 * d + 3 / 2 * h <= b ->
  fnear (nmul x (m_cos L t)) (p * cos T) (b * p + tiny) /\ fnear (nmul x (m_sin L t)) (p * sin T) (b * p + tiny).
Proof.
  intros X P A H Et C S B. pose proof (bpow_gt_0 radix2 (- prec)) as U0.
  assert (W : (a + 3 / 2 * (d + h) + 9 / 4 * u) * p + tiny <= b * p + tiny) by (apply Rplus_le_compat_r, Rmult_le_compat_r; lra).
  split; (eapply weaken; [|exact W]).
  - apply polar_near; try assumption; try lra; [apply COS_bound|]. apply (lib_shift cos); [exact cos_lip|exact COS_bound|lra|exact C|exact Et].
  - apply polar_near; try assumption; try lra; [apply SIN_bound|]. apply (lib_shift sin); [exact sin_lip|exact SIN_bound|lra|exact S|exact Et].
Qed.

(** The exponential at an argument with error [h]. *)
Lemma exp_parts (w : complex fl) (X T h : R) : 0 <= h <= / 5 -> Rabs (B2R (re w) - X) <= h -> Rabs (B2R (im w) - T) <= h ->
  lib_at d exp (m_exp L) (re w) -> lib_at d cos (m_cos L) (im w) -> lib_at d sin (m_sin L) (im w) -> exp X <= bpow radix2 (emax - 3) ->
  fnear (re (fc_exp L w)) (exp X * cos T) ((6 * d + 3 * h) * exp X + tiny) /\ fnear (im (fc_exp L w)) (exp X * sin T) ((6 * d + 3 * h) * exp X + tiny).
Proof.
  intros H Ex Et (Fe & E) C S B. pose proof (bpow_gt_0 radix2 (- prec)) as U0. pose proof (exp_pos X) as P. set (p := exp X) in *.
  apply (polar_parts (m_exp L (re w)) (im w) p T (5 / 4 * d + 7 / 5 * h) h); try assumption; try lra.
  split; [exact Fe|]. pose proof (exp_shift _ _ h H Ex) as SH. fold p in SH. set (y := exp (B2R (re w))) in *.
  assert (HP : 0 <= h * p <= / 5 * p) by (split; [apply Rmult_le_pos; lra|apply Rmult_le_compat_r; lra]).
  assert (Y : Rabs y <= p + 13 / 10 * h * p) by (replace y with (p + (y - p)) by ring; eapply Rle_trans; [apply Rabs_triang|]; rewrite (Rabs_pos_eq p) by lra; lra).
  assert (DY : d * Rabs y <= d * p + / 64 * (13 / 10 * h * p)).
  { apply Rle_trans with (d * (p + 13 / 10 * h * p)); [apply Rmult_le_compat_l; lra|].
    assert (d * (h * p) <= / 64 * (h * p)) by (apply Rmult_le_compat_r; lra). lra. }
  replace (B2R (m_exp L (re w)) - p) with ((B2R (m_exp L (re w)) - y) + (y - p)) by ring. eapply Rle_trans; [apply Rabs_triang|].
  assert (0 <= d * p) by (apply Rmult_le_pos; lra). lra.
Qed.

(** *** from_angle and exp2 *)
Lemma from_angle_near (a : fl) : lib_at d cos (m_cos L) a -> lib_at d sin (m_sin L) a ->
  fnear (re (fc_from_angle L a)) (cos (B2R a)) (d * Rabs (cos (B2R a))) /\ fnear (im (fc_from_angle L a)) (sin (B2R a)) (d * Rabs (sin (B2R a))).
Proof.
  assert (G : forall (x : fl) v e, fnear x v e -> fnear (nmul n1 x) v e).
  { intros x v e (F & E). destruct (fv_mul1 x n1 (B2R x) (fv_self x F)) as (_ & (G1 & G2)); [split; [apply is_finite_Bone|apply Bone_correct]|].
    split; [exact G1|]. rewrite G2. exact E. }
  intros C S. split; apply G; assumption.
Qed.

Lemma ln2_bounds : 1 / 2 <= ln 2 <= 1.
Proof. destruct (ln_low 2 ltac:(lra)). lra. Qed.

Lemma exp2_near (exp2 : fl -> fl) (ln_2 : fl) (z : complex fl) : is_finite (im z) = true ->
  let x := B2R (re z) in let y := B2R (im z) in let t := nmul (im z) ln_2 in let h := 4 * d * Rabs y + tiny in let p := Rpower 2 x in
  fnear ln_2 (ln 2) (d * ln 2) -> lib_at d (Rpower 2) exp2 (re z) -> lib_at d cos (m_cos L) t -> lib_at d sin (m_sin L) t ->
  h <= / 4 -> p <= bpow radix2 (emax - 3) ->
  fnear (re (fc_exp2 L exp2 ln_2 z)) (p * cos (y * ln 2)) ((5 * d + 2 * h) * p + tiny) /\
  fnear (im (fc_exp2 L exp2 ln_2 z)) (p * sin (y * ln 2)) ((5 * d + 2 * h) * p + tiny).
Proof.
  intros Fi x y t h p C2 (Fe & E) C S H B. pose proof (bpow_gt_0 radix2 (- prec)) as U0. pose proof ln2_bounds as LB.
  assert (P0 : 0 < p) by apply exp_pos. assert (T0 : 0 < tiny) by apply bpow_gt_0. assert (Y0 : 0 <= Rabs y) by apply Rabs_pos.
  assert (YB : Rabs y <= bpow radix2 (emax - 2)).
  { apply Rle_trans with (bpow radix2 (prec - 4)); [|apply bpow_le; pose proof He as Q; unfold Prec_lt_emax in Q; lia].
    apply (Rmult_le_reg_l u); [exact U0|]. rewrite <- bpow_plus. replace (- prec + (prec - 4))%Z with (-4)%Z by ring. change (bpow radix2 (-4)) with (/ 16).
    assert (u * Rabs y <= d * Rabs y) by (apply Rmult_le_compat_r; lra). unfold h in H. lra. }
  assert (A : fnear t (y * ln 2) h).
  { assert (Q : Rabs (y * ln 2) <= Rabs y).
    { rewrite Rabs_mult, (Rabs_pos_eq (ln 2)) by lra. apply Rle_trans with (Rabs y * 1); [apply Rmult_le_compat_l; lra|lra]. }
    apply (weaken _ _ (4 * d * Rabs (y * ln 2) + tiny)).
    - apply (mul_rel (im z) ln_2 y (ln 2) d D).
      + split; [exact Fi|]. unfold y. rewrite Rminus_diag_eq, Rabs_R0 by reflexivity. apply Rmult_le_pos; [lra|apply Rabs_pos].
      + rewrite (Rabs_pos_eq (ln 2)) by lra. exact C2.
      + lra.
    - unfold h. assert (d * Rabs (y * ln 2) <= d * Rabs y) by (apply Rmult_le_compat_l; lra). lra. }
  assert (H0 : 0 <= h) by (unfold h; assert (0 <= d * Rabs y) by (apply Rmult_le_pos; lra); lra).
  change (fc_exp2 L exp2 ln_2 z) with (mkC (nmul (exp2 (re z)) (m_cos L t)) (nmul (exp2 (re z)) (m_sin L t))). cbn [re im].
  apply (polar_parts (exp2 (re z)) t p (y * ln 2) d h); try assumption; try lra; [|exact (proj2 A)].
  split; [exact Fe|]. fold x p in E. rewrite (Rabs_pos_eq p) in E by lra. exact E.
Qed.

(** *** Logarithms and powers *)
Hypothesis H24 : (24 <= prec)%Z.
Section Polar.
Variables (z : complex fl) (r phi : R) (k : Z).
Hypothesis Fz : cis_finite z = true.
Hypothesis Ea : B2R (re z) = r * cos phi.
Hypothesis Eb : B2R (im z) = r * sin phi.
Hypothesis Hphi : - PI <= phi <= PI.
Hypothesis K0 : (0 <= k)%Z.
Hypothesis K : (2 * k + 31 <= emax)%Z.
Hypothesis Hr : bpow radix2 (- k) <= r <= bpow radix2 k.
Hypothesis Harg : fnear (fc_arg L z) phi (d * Rabs phi).

Lemma rp : 0 < r. Proof. pose proof (bpow_gt_0 radix2 (- k)). lra. Qed.
Lemma U24 : 0 < u <= / 16777216. Proof. exact (u24 H24). Qed.
Lemma phi_bound : Rabs phi <= 22 / 7.
Proof. pose proof PI_digits. apply Rabs_le. lra. Qed.
Lemma ln_bound_k : Rabs (ln r) <= bpow radix2 k.
Proof.
  pose proof rp as P. destruct (ln_low r P) as (A & B). assert (I : / r <= bpow radix2 k).
  { rewrite <- (Ropp_involutive (/ r)). replace k with (- - k)%Z by ring. rewrite bpow_opp, Ropp_involutive. apply Rinv_le; [apply bpow_gt_0|lra]. }
  pose proof (bpow_gt_0 radix2 k). apply Rabs_le. lra.
Qed.
Lemma bpow_big : 16 * bpow radix2 k <= bpow radix2 (emax - 3).
Proof. change 16 with (bpow radix2 4). rewrite <- bpow_plus. apply bpow_le. lia. Qed.
Lemma bpow_k1 : 1 <= bpow radix2 k.
Proof. apply (bpow_le radix2 0). lia. Qed.

(** The way back from the polar form. *)
Lemma round_trip : lib_at d cos (m_cos L) (fc_arg L z) -> lib_at d sin (m_sin L) (fc_arg L z) ->
  let '(s, a) := fc_polar L z in
  fnear (re (fc_from_polar L s a)) (B2R (re z)) (17 * d * r + tiny) /\ fnear (im (fc_from_polar L s a)) (B2R (im z)) (17 * d * r + tiny).
Proof.
  intros C S. unfold fc_polar, fc_from_polar. cbn [re im]. rewrite Ea, Eb. pose proof rp as P. pose proof U24 as U. pose proof phi_bound as PB. pose proof bpow_big as BB. pose proof bpow_k1 as B1.
  assert (PD : d * Rabs phi <= d * (22 / 7)) by (apply Rmult_le_compat_l; lra). assert (0 <= d * Rabs phi) by (apply Rmult_le_pos; [lra|apply Rabs_pos]).
  apply (polar_parts (fc_norm z) (fc_arg L z) r phi (8 * u) (d * Rabs phi)); try assumption; try lra.
  - exact (norm_polar H24 z r phi k Fz Ea Eb K0 K Hr).
  - exact (proj2 Harg).
Qed.

Hypothesis Hln : lib_at d ln (m_ln L) (fc_norm z).
Lemma ln_val : fnear (m_ln L (fc_norm z)) (ln r) (d * Rabs (ln r) + 10 * u).
Proof. exact (ln_polar L d D H24 z r phi k Fz Ea Eb K0 K Hr Hln). Qed.

Lemma exp_ln_near : let w := fc_ln L z in let h := 10 * d * (1 + Rabs (ln r)) in h <= / 5 ->
  lib_at d exp (m_exp L) (re w) -> lib_at d cos (m_cos L) (im w) -> lib_at d sin (m_sin L) (im w) ->
  fnear (re (fc_exp L w)) (B2R (re z)) ((6 * d + 3 * h) * r + tiny) /\ fnear (im (fc_exp L w)) (B2R (im z)) ((6 * d + 3 * h) * r + tiny).
Proof.
  intros w h H E C S. pose proof rp as P. pose proof U24 as U. pose proof phi_bound as PB. pose proof bpow_big as BB. pose proof bpow_k1 as B1. destruct ln_val as (_ & V).
  assert (Q : 0 <= d * Rabs (ln r)) by (apply Rmult_le_pos; [lra|apply Rabs_pos]). assert (PD : d * Rabs phi <= d * (22 / 7)) by (apply Rmult_le_compat_l; lra).
  rewrite Ea, Eb. assert (X : exp (ln r) = r) by (apply exp_ln, P).
  destruct (exp_parts w (ln r) phi h) as (G1 & G2); try assumption.
  - unfold h in *; lra.
  - change (Rabs (B2R (m_ln L (fc_norm z)) - ln r) <= h). unfold h in *; lra.
  - change (Rabs (B2R (fc_arg L z) - phi) <= h). destruct Harg as (_ & A). unfold h in *; lra.
  - rewrite X. lra.
  - rewrite X in G1, G2. split; assumption.
Qed.

(** Division by a constant. *)
Lemma ln_div (c : fl) (q : R) : 1 / 2 <= q -> fnear c q (d * q) ->
  fnear (ndiv (m_ln L (fc_norm z)) c) (ln r / q) ((4 * d * Rabs (ln r) + 11 * u) / q + tiny) /\ near_rel (5 * d) (ndiv (fc_arg L z) c) (phi / q).
Proof.
  intros Q Hc. pose proof rp as P. pose proof U24 as U. pose proof phi_bound as PB. pose proof bpow_big as BB. pose proof bpow_k1 as B1. pose proof ln_bound_k as LK. destruct ln_val as (Fl & V).
  pose proof (bpow_gt_0 radix2 (emax - 3)) as M0. assert (HM : bpow radix2 (emax - 2) = 2 * bpow radix2 (emax - 3)) by (replace (emax - 2)%Z with (1 + (emax - 3))%Z by ring; apply bpow_plus).
  assert (HM1 : bpow radix2 (emax - 1) = 4 * bpow radix2 (emax - 3)) by (replace (emax - 1)%Z with (2 + (emax - 3))%Z by ring; apply bpow_plus).
  assert (IQ : 0 < / q <= 2) by (split; [apply Rinv_0_lt_compat; lra|replace 2 with (/ (1 / 2)) by lra; apply Rinv_le; lra]).
  split.
  - destruct Hc as (Fc & Ec). set (c' := B2R c) in *. set (l := B2R (m_ln L (fc_norm z))) in *. set (a := Rabs (ln r)) in *. assert (A0 : 0 <= a) by apply Rabs_pos.
    assert (DQ : d * q <= / 64 * q) by (apply Rmult_le_compat_r; lra). pose proof (Rabs_le_inv _ _ Ec) as Ec'.
    assert (C0 : 63 / 64 * q <= c') by lra. assert (CP : 0 < c') by lra.
    assert (IC : 0 < / c' <= 64 / 63 * / q).
    { split; [apply Rinv_0_lt_compat, CP|]. replace (64 / 63 * / q) with (/ (63 / 64 * q)) by (field; lra). apply Rinv_le; lra. }
    assert (DA : 0 <= d * a <= / 64 * a) by (split; [apply Rmult_le_pos; lra|apply Rmult_le_compat_r; lra]).
    assert (LA : Rabs l <= a + d * a + 10 * u) by (replace l with (ln r + (l - ln r)) by ring; eapply Rle_trans; [apply Rabs_triang|]; fold a; lra).
    assert (E1 : Rabs (l / c' - ln r / q) <= 64 / 63 * (2 * (d * a) + 10 * u) * / q).
    { replace (l / c' - ln r / q) with (((l - ln r) + ln r * ((q - c') * / q)) * / c') by (field; lra).
      rewrite Rabs_mult, (Rabs_pos_eq (/ c')) by lra.
      assert (M1 : Rabs (ln r * ((q - c') * / q)) <= d * a).
      { rewrite !Rabs_mult, (Rabs_pos_eq (/ q)), (Rabs_minus_sym q) by lra. fold a.
        apply Rle_trans with (a * (d * q * / q)); [apply Rmult_le_compat_l; [exact A0|apply Rmult_le_compat_r; lra]|]. right. field. lra. }
      apply Rle_trans with ((2 * (d * a) + 10 * u) * (64 / 63 * / q)); [|right; ring]. apply Rmult_le_compat; [apply Rabs_pos|lra| |lra].
      eapply Rle_trans; [apply Rabs_triang|]. lra. }
    assert (E2 : Rabs (l / c') <= 64 / 63 * (a + d * a + 10 * u) * / q).
    { unfold Rdiv at 1. rewrite Rabs_mult, (Rabs_pos_eq (/ c')) by lra.
      apply Rle_trans with ((a + d * a + 10 * u) * (64 / 63 * / q)); [|right; ring]. apply Rmult_le_compat; [apply Rabs_pos|lra|exact LA|lra]. }
    assert (E3 : Rabs (l / c') <= bpow radix2 (emax - 1)).
    { eapply Rle_trans; [exact E2|]. apply Rle_trans with (64 / 63 * (a + d * a + 10 * u) * 2); [apply Rmult_le_compat_l; lra|]. lra. }
    destruct (div_val (m_ln L (fc_norm z)) c Fl ltac:(fold c'; lra) E3) as (Fq & Eq). split; [exact Fq|]. rewrite Eq. fold l c'.
    pose proof (rnd_rel (prec := prec) (emax := emax) (l / c')) as RR. set (x := l / c') in *.
    replace (rnd x - ln r / q) with ((rnd x - x) + (x - ln r / q)) by ring. eapply Rle_trans; [apply Rabs_triang|].
    assert (UX : u * Rabs x <= u * (64 / 63 * (a + d * a + 10 * u) * / q)) by (apply Rmult_le_compat_l; lra).
    assert (UA : u * a <= d * a) by (apply Rmult_le_compat_r; lra). assert (UD : u * (d * a) <= / 64 * (d * a)) by (apply Rmult_le_compat_r; lra).
    assert (UU : u * u <= / 64 * u) by (apply Rmult_le_compat_r; lra).
    assert (G : (64 / 63 * (2 * (d * a) + 10 * u) + u * (64 / 63 * (a + d * a + 10 * u))) * / q <= (4 * d * a + 11 * u) * / q) by (apply Rmult_le_compat_r; lra).
    unfold Rdiv at 2. lra.
  - assert (Hq : 0 < q) by lra. refine (div_rel (fc_arg L z) c phi q d d D _ Harg _ _ _); [lra|rewrite (Rabs_pos_eq q) by lra; exact Hc|lra|].
    unfold Rdiv. rewrite Rabs_mult, (Rabs_pos_eq (/ q)) by lra. apply Rle_trans with (22 / 7 * 2); [apply Rmult_le_compat; try lra; apply Rabs_pos|]. lra.
Qed.

(** Logarithm to a base. *)
Lemma log_near (log : fl -> fl -> fl) (b : fl) : let q := ln (B2R b) in let l := ln (B2R (fc_norm z)) in q <> 0 ->
  fnear (log (fc_norm z) b) (l / q) (d * Rabs (l / q)) -> lib_at d ln (m_ln L) b -> Rabs (phi / q) <= bpow radix2 (emax - 2) ->
  fnear (re (fc_log L log z b)) (ln r / q) ((d * Rabs (ln r) + 10 * u) / Rabs q) /\ near_rel (5 * d) (im (fc_log L log z b)) (phi / q).
Proof.
  intros q l Q (F & E) Hb B. pose proof rp as P. pose proof U24 as U. destruct (norm_polar H24 z r phi k Fz Ea Eb K0 K Hr) as (_ & N).
  destruct (ln_near (B2R (fc_norm z)) r (8 * u) P ltac:(lra) N) as (_ & LN). fold l in LN.
  assert (Q0 : 0 < Rabs q) by (apply Rabs_pos_lt, Q). assert (IQ : 0 < / Rabs q) by (apply Rinv_0_lt_compat, Q0).
  split.
  - split; [exact F|]. change (re (fc_log L log z b)) with (log (fc_norm z) b). set (x := B2R (log (fc_norm z) b)) in *.
    replace (x - ln r / q) with ((x - l / q) + (l - ln r) * / q) by (field; exact Q). eapply Rle_trans; [apply Rabs_triang|].
    rewrite Rabs_mult, Rabs_inv. unfold Rdiv in E. rewrite Rabs_mult, Rabs_inv in E. set (i := / Rabs q) in *.
    assert (LB : Rabs l <= Rabs (ln r) + 9 / 8 * (8 * u)) by (replace l with (ln r + (l - ln r)) by ring; eapply Rle_trans; [apply Rabs_triang|]; lra).
    assert (DL : d * Rabs l <= d * Rabs (ln r) + / 64 * (9 * u)).
    { apply Rle_trans with (d * (Rabs (ln r) + 9 / 8 * (8 * u))); [apply Rmult_le_compat_l; lra|]. assert (d * (9 * u) <= / 64 * (9 * u)) by (apply Rmult_le_compat_r; lra). lra. }
    assert (S1 : d * Rabs l * i <= (d * Rabs (ln r) + / 64 * (9 * u)) * i) by (apply Rmult_le_compat_r; lra).
    assert (S2 : Rabs (l - ln r) * i <= 9 * u * i) by (apply Rmult_le_compat_r; lra).
    unfold Rdiv. fold i. assert (0 <= u * i) by (apply Rmult_le_pos; lra). lra.
  - exact (div_rel (fc_arg L z) (m_ln L b) phi q d d D ltac:(lra) Harg Hb Q B).
Qed.

(** Two products, added or subtracted. *)
Lemma dot_near (a b x y : fl) (v w m h1 h2 : R) : is_finite a = true -> is_finite b = true -> fnear x v h1 -> fnear y w h2 ->
  Rabs (B2R a) * (Rabs v + 4 * h1) + Rabs (B2R b) * (Rabs w + 4 * h2) <= 7 / 2 * m ->
  Rabs (B2R a) * h1 + Rabs (B2R b) * h2 <= 10 * d * m -> 0 <= m -> 0 <= h1 -> 0 <= h2 -> 8 * m <= bpow radix2 (emax - 2) ->
  fnear (nadd (nmul a x) (nmul b y)) (B2R a * v + B2R b * w) (18 * d * m + 3 * tiny) /\
  fnear (nsub (nmul a x) (nmul b y)) (B2R a * v - B2R b * w) (18 * d * m + 3 * tiny).
Proof.
  intros Fa Fb (Fx & X) (Fy & Y) M Er M0 H1 H2 B. pose proof U24 as U. assert (HM : bpow radix2 (emax - 1) = 2 * bpow radix2 (emax - 2)) by apply half_max.
  set (A := B2R a) in *. set (B' := B2R b) in *. set (p := B2R x) in *. set (q := B2R y) in *.
  assert (T0 : 0 < tiny <= / 64) by (split; [apply bpow_gt_0|change (/ 64) with (bpow radix2 (-6)); apply bpow_le; lia]).
  assert (T1 : 1 <= bpow radix2 (emax - 2)) by (apply (bpow_le radix2 0); lia).
  pose proof (Rabs_pos A) as A0. pose proof (Rabs_pos B') as B0. pose proof (Rabs_pos v) as V0. pose proof (Rabs_pos w) as W0.
  assert (PV : Rabs p <= Rabs v + h1) by (replace p with (v + (p - v)) by ring; eapply Rle_trans; [apply Rabs_triang|lra]).
  assert (QW : Rabs q <= Rabs w + h2) by (replace q with (w + (q - w)) by ring; eapply Rle_trans; [apply Rabs_triang|lra]).
  assert (AP : Rabs (A * p) <= Rabs A * (Rabs v + 4 * h1)) by (rewrite Rabs_mult; apply Rmult_le_compat_l; lra).
  assert (BQ : Rabs (B' * q) <= Rabs B' * (Rabs w + 4 * h2)) by (rewrite Rabs_mult; apply Rmult_le_compat_l; lra).
  assert (N1 : 0 <= Rabs A * (Rabs v + 4 * h1)) by (apply Rmult_le_pos; lra). assert (N2 : 0 <= Rabs B' * (Rabs w + 4 * h2)) by (apply Rmult_le_pos; lra).
  destruct (mul_val a x Fa Fx) as (F1 & E1); [fold A p; lra|]. destruct (mul_val b y Fb Fy) as (F2 & E2); [fold B' q; lra|].
  fold A p in E1. fold B' q in E2. pose proof (rnd_rel (prec := prec) (emax := emax) (A * p)) as R1. pose proof (rnd_rel (prec := prec) (emax := emax) (B' * q)) as R2.
  rewrite <- E1 in R1. rewrite <- E2 in R2. set (s := B2R (nmul a x)) in *. set (t := B2R (nmul b y)) in *.
  assert (UM : u * Rabs (A * p) + u * Rabs (B' * q) <= 7 / 2 * (u * m)) by (assert (u * (Rabs (A * p) + Rabs (B' * q)) <= u * (7 / 2 * m)) by (apply Rmult_le_compat_l; lra); lra).
  assert (UM0 : 0 <= u * m) by (apply Rmult_le_pos; lra). assert (UMs : u * m <= / 64 * m) by (apply Rmult_le_compat_r; lra). assert (UD : u * m <= d * m) by (apply Rmult_le_compat_r; lra).
  assert (SS : Rabs s <= Rabs (A * p) + (u * Rabs (A * p) + tiny)) by (replace s with (A * p + (s - A * p)) by ring; eapply Rle_trans; [apply Rabs_triang|lra]).
  assert (TT : Rabs t <= Rabs (B' * q) + (u * Rabs (B' * q) + tiny)) by (replace t with (B' * q + (t - B' * q)) by ring; eapply Rle_trans; [apply Rabs_triang|lra]).
  assert (ST : Rabs s + Rabs t <= 4 * m + 2 * tiny) by lra.
  assert (D1 : Rabs (A * p - A * v) <= Rabs A * h1) by (replace (A * p - A * v) with (A * (p - v)) by ring; rewrite Rabs_mult; apply Rmult_le_compat_l; lra).
  assert (D2 : Rabs (B' * q - B' * w) <= Rabs B' * h2) by (replace (B' * q - B' * w) with (B' * (q - w)) by ring; rewrite Rabs_mult; apply Rmult_le_compat_l; lra).
  assert (UT : u * (Rabs s + Rabs t) <= u * (4 * m + 2 * tiny)) by (apply Rmult_le_compat_l; lra).
  assert (U2 : u * tiny <= / 64 * tiny) by (apply Rmult_le_compat_r; lra).
  apply Rabs_le_inv in R1, R2, D1, D2.
  split.
  - assert (S0 : Rabs (s + t) <= Rabs s + Rabs t) by apply Rabs_triang.
    destruct (add_val (nmul a x) (nmul b y) F1 F2) as (F & _ & E); [fold s t; lra|]. split; [exact F|]. fold s t in E.
    assert (u * Rabs (s + t) <= u * (Rabs s + Rabs t)) by (apply Rmult_le_compat_l; lra). apply Rabs_le_inv in E. apply Rabs_le. lra.
  - assert (S0 : Rabs (s - t) <= Rabs s + Rabs t) by (unfold Rminus; rewrite <- (Rabs_Ropp t); apply Rabs_triang).
    destruct (sub_val (nmul a x) (nmul b y) F1 F2) as (F & _ & E); [fold s t; lra|]. split; [exact F|]. fold s t in E.
    assert (u * Rabs (s - t) <= u * (Rabs s + Rabs t)) by (apply Rmult_le_compat_l; lra). apply Rabs_le_inv in E. apply Rabs_le. lra.
Qed.

Lemma powc_args (e : complex fl) : cis_finite e = true -> let a := B2R (re e) in let b := B2R (im e) in
  let w := cmul e (fc_ln L z) in let h := 18 * d * ((Rabs a + Rabs b) * (1 + Rabs (ln r))) + 3 * tiny in h <= / 5 ->
  fnear (re w) (a * ln r - b * phi) h /\ fnear (im w) (a * phi + b * ln r) h.
Proof.
  intros F a b w h H. apply andb_prop in F. destruct F as (F1 & F2). pose proof U24 as U. pose proof phi_bound as PB. pose proof ln_val as V.
  set (q := Rabs (ln r)) in *. assert (Q0 : 0 <= q) by apply Rabs_pos. set (m := (Rabs a + Rabs b) * (1 + q)) in *.
  pose proof (Rabs_pos a) as A0. pose proof (Rabs_pos b) as B0. pose proof (Rabs_pos phi) as P0.
  assert (M0 : 0 <= m) by (apply Rmult_le_pos; lra). assert (T0 : 0 < tiny) by apply bpow_gt_0.
  assert (MB : 8 * m <= bpow radix2 (emax - 2)).
  { apply Rle_trans with (bpow radix2 (prec - 1)); [|apply bpow_le; pose proof He as Q; unfold Prec_lt_emax in Q; lia].
    apply (Rmult_le_reg_l u); [lra|]. rewrite <- bpow_plus. replace (- prec + (prec - 1))%Z with (-1)%Z by ring. change (bpow radix2 (-1)) with (/ 2).
    assert (u * m <= d * m) by (apply Rmult_le_compat_r; lra). unfold h in H. lra. }
  assert (DQ : 0 <= d * q <= / 64 * q) by (split; [apply Rmult_le_pos; lra|apply Rmult_le_compat_r; lra]).
  assert (DP : 0 <= d * Rabs phi <= d * (22 / 7)) by (split; [apply Rmult_le_pos; lra|apply Rmult_le_compat_l; lra]).
  set (h1 := d * q + 10 * u) in *. set (h2 := d * Rabs phi) in *.
  assert (K1 : q + 4 * h1 <= 7 / 2 * (1 + q)) by (unfold h1 in *; lra). assert (K2 : Rabs phi + 4 * h2 <= 7 / 2 * (1 + q)) by (unfold h2 in *; lra).
  assert (J1 : h1 <= 10 * d * (1 + q)) by (unfold h1 in *; lra). assert (J2 : h2 <= 10 * d * (1 + q)) by (unfold h2 in *; lra).
  assert (GA : forall x y X, 0 <= x -> y <= X -> x * y <= x * X) by (intros; apply Rmult_le_compat_l; assumption).
  pose proof (GA _ _ _ A0 K1). pose proof (GA _ _ _ A0 K2). pose proof (GA _ _ _ B0 K1). pose proof (GA _ _ _ B0 K2).
  pose proof (GA _ _ _ A0 J1). pose proof (GA _ _ _ A0 J2). pose proof (GA _ _ _ B0 J1). pose proof (GA _ _ _ B0 J2).
  split.
  - refine (proj2 (dot_near (re e) (im e) (m_ln L (fc_norm z)) (fc_arg L z) (ln r) phi m h1 h2 F1 F2 V Harg _ _ M0 _ _ MB)); fold a b q; unfold m; unfold h1, h2 in *; lra.
  - refine (proj1 (dot_near (re e) (im e) (fc_arg L z) (m_ln L (fc_norm z)) phi (ln r) m h2 h1 F1 F2 Harg V _ _ M0 _ _ MB)); fold a b q; unfold m; unfold h1, h2 in *; lra.
Qed.

Lemma powc_near (e : complex fl) : cis_finite e = true -> let a := B2R (re e) in let b := B2R (im e) in a <> 0 \/ b <> 0 ->
  let w := cmul e (fc_ln L z) in let h := 18 * d * ((Rabs a + Rabs b) * (1 + Rabs (ln r))) + 3 * tiny in
  let X := a * ln r - b * phi in let T := a * phi + b * ln r in
  lib_at d exp (m_exp L) (re w) -> lib_at d cos (m_cos L) (im w) -> lib_at d sin (m_sin L) (im w) -> h <= / 5 -> exp X <= bpow radix2 (emax - 3) ->
  fnear (re (fc_powc L z e)) (exp X * cos T) ((6 * d + 3 * h) * exp X + tiny) /\ fnear (im (fc_powc L z e)) (exp X * sin T) ((6 * d + 3 * h) * exp X + tiny).
Proof.
  intros F a b NZ w h X T E C S H B. assert (Z : cis_zero e = false).
  { unfold cis_zero. destruct (nis0 (re e)) eqn:Z1; [|reflexivity]. destruct (nis0 (im e)) eqn:Z2; [|reflexivity]. exfalso.
    apply nis0_R in Z1, Z2. unfold a, b in NZ. destruct NZ; contradiction. }
  destruct (powc_args e F H) as ((_ & A1) & (_ & A2)).
  assert (H0 : 0 <= h).
  { eapply Rle_trans; [|exact A1]. apply Rabs_pos. }
  unfold fc_powc. rewrite Z. apply (exp_parts w X T h); try assumption. split; assumption.
Qed.
End Polar.
End F.
