(** Hyperbolic arc tangent of a complex number in floats, and the functions obtained by turning the plane. *)

From Coq Require Import List Arith ZArith Bool Lia Reals Lra Psatz.
From Flocq Require Import Core.Core Relative IEEE754.BinarySingleNaN.
From Verif Require Import Base Scalar Spec SpecF SpecCplx SpecInv MReal MVector MFloat MFloatVec MSign MComplex MComplexF
  LBase LVector LReal LFloat LFloatP LFloatVec LComplexHP LComplexIP LComplexLP LTrScF LSlerpS LDegF LCplxF LCplxFP LInvA LInvB LInvC LInvD LInvE LInvF.
Local Open Scope R_scope.

Section E.
Context {prec emax : Z} {Hp : Prec_gt_0 prec} {He : Prec_lt_emax prec emax}.
Notation fl := (binary_float prec emax).
Notation u := (bpow radix2 (- prec)).
Notation tiny := (bpow radix2 (2 - emax - prec)).
Notation fexp := (FLT_exp (3 - emax - prec) prec).
Notation rnd := (round radix2 fexp ZnearestE).
Hypothesis H24 : (24 <= prec)%Z.
Variable L : libm fl.
Variable d : R.
Hypothesis Hd : u <= d <= / 65536.
Notation zx z := (B2R (re z)).
Notation zy z := (B2R (im z)).

Lemma ln_range r k : (0 <= k)%Z -> bpow radix2 (- k) <= r <= bpow radix2 k -> Rabs (ln r) <= bpow radix2 k.
Proof.
  intros K H. pose proof (bpow_gt_0 radix2 (- k)) as P. pose proof (ln_low r ltac:(lra)) as (A & B). assert (/ r <= / bpow radix2 (- k)) by (apply Rinv_le_contravar; lra).
  assert (E : / bpow radix2 (- k) = bpow radix2 k) by (rewrite bpow_opp, Rinv_inv; reflexivity). rewrite E in H0. apply Rabs_le. lra.
Qed.

(** The logarithm of a sum of two parts, each known up to one rounding. *)
Lemma log_shift (w : complex fl) x y k : cis_finite w = true -> (0 <= k)%Z -> (2 * k + 33 <= emax)%Z -> bpow radix2 (- k) <= nm x y <= bpow radix2 k ->
  Rabs (zx w - x) <= u * Rabs x -> zy w = y -> log_at d L w ->
  fnear (re (fc_ln L w)) (ln (nm x y)) (d * Rabs (ln (nm x y)) + 12 * d) /\ fnear (im (fc_ln L w)) (ratan2 y x) (d * Rabs (ratan2 y x) + 2 * d).
Proof.
  intros F K0 K HR EX EY Lw. pose proof (@u_le prec H24) as U. pose proof PI_RGT_0 as PI0.
  assert (O : off w x y <= u * nm x y).
  { unfold off. rewrite EY, (Rminus_diag_eq y y eq_refl). replace (u * nm x y) with (u * nm x y + 2 * 0) by ring. apply comp_nm; [lra|lra|rewrite Rplus_0_r; exact EX|rewrite Rabs_R0, Rplus_0_r; apply Rmult_le_pos; [lra|apply Rabs_pos]]. }
  assert (AA : Rabs (ratan2 (zy w) (zx w) - ratan2 y x) <= 3 * (PI / 2)).
  { destruct (arg_at_std L d w (proj1 Lw)) as (WP & _). rewrite EY in *. assert (NZw : zx w <> 0 \/ y <> 0).
    { destruct (Req_dec (zx w) 0) as [Y1|Y1]; [|left; exact Y1]. destruct (Req_dec y 0) as [Y2|Y2]; [|right; exact Y2]. exfalso. rewrite Y1, Y2, nm_0 in WP. lra. }
    assert (NZ : x <> 0 \/ y <> 0).
    { destruct (Req_dec x 0) as [Y1|Y1]; [|left; exact Y1]. destruct (Req_dec y 0) as [Y2|Y2]; [|right; exact Y2]. exfalso. rewrite Y1, Y2, nm_0 in HR. pose proof (bpow_gt_0 radix2 (- k)). lra. }
    apply Rabs_le. destruct (Rlt_or_le y 0) as [Y|Y].
    - pose proof (arg_down (zx w) y Y). pose proof (arg_down x y Y). lra.
    - pose proof (arg_up (zx w) y Y NZw). pose proof (arg_up x y Y NZ). lra. }
  destruct (log_near_off H24 L d Hd w x y u k F ltac:(lra) K0 K HR O AA Lw) as ((F1 & E1) & (F2 & E2)). split; (split; [assumption|]); lra.
Qed.

Lemma half_diff (l1 l2 : fl) v1 v2 e1 e2 M : fnear l1 v1 e1 -> fnear l2 v2 e2 -> Rabs v1 + Rabs v2 + (e1 + e2) <= M -> M <= bpow radix2 (emax - 4) ->
  is_finite (nsub l1 l2) = true /\ Rabs (B2R (nsub l1 l2)) <= 2 * M /\ Rabs (rnd (B2R (nsub l1 l2) / 2) - (v1 - v2) / 2) <= (e1 + e2) / 2 + 2 * u * M + tiny.
Proof.
  intros (F1 & E1) (F2 & E2) HM BM. pose proof (@u_le prec H24) as U. pose proof (Rabs_pos v1) as P1. pose proof (Rabs_pos v2) as P2.
  assert (B : bpow radix2 (emax - 4) <= bpow radix2 (emax - 1)) by (apply bpow_le; lia).
  assert (DD : Rabs (B2R l1 - B2R l2 - (v1 - v2)) <= e1 + e2). { replace (B2R l1 - B2R l2 - (v1 - v2)) with ((B2R l1 - v1) + - (B2R l2 - v2)) by ring. eapply Rle_trans; [apply Rabs_triang|]. rewrite Rabs_Ropp. lra. }
  assert (SZ : Rabs (B2R l1 - B2R l2) <= M). { replace (B2R l1 - B2R l2) with ((v1 + - v2) + (B2R l1 - B2R l2 - (v1 - v2))) by ring. eapply Rle_trans; [apply Rabs_triang|]. pose proof (Rabs_triang v1 (- v2)) as T. rewrite Rabs_Ropp in T. lra. }
  destruct (sub_val l1 l2 F1 F2 ltac:(lra)) as (F & _ & E). split; [exact F|]. set (v := B2R (nsub l1 l2)) in *. set (t := B2R l1 - B2R l2) in *.
  assert (M0 : 0 <= M) by (pose proof (Rabs_pos t); lra). assert (UM : u * Rabs t <= u * M) by (apply Rmult_le_compat_l; lra). assert (UM2 : u * M <= / 16777216 * M) by (apply Rmult_le_compat_r; lra).
  assert (V : Rabs v <= 2 * M) by (replace v with (t + (v - t)) by ring; eapply Rle_trans; [apply Rabs_triang|lra]). split; [exact V|].
  pose proof (rnd_rel (prec := prec) (emax := emax) (v / 2)) as RR. assert (V2 : Rabs (v / 2) <= M) by (unfold Rdiv; rewrite Rabs_mult, (Rabs_pos_eq (/ 2)) by lra; lra). assert (u * Rabs (v / 2) <= u * M) by (apply Rmult_le_compat_l; lra).
  replace (rnd (v / 2) - (v1 - v2) / 2) with ((rnd (v / 2) - v / 2) + ((v - t) / 2 + (t - (v1 - v2)) / 2)) by field.
  assert (H2 : forall a, Rabs (a / 2) = Rabs a / 2) by (intros a; unfold Rdiv; rewrite Rabs_mult, (Rabs_pos_eq (/ 2)) by lra; reflexivity).
  assert (Rabs ((v - t) / 2 + (t - (v1 - v2)) / 2) <= u * M / 2 + (e1 + e2) / 2) by (eapply Rle_trans; [apply Rabs_triang|]; rewrite !H2; lra).
  assert (0 <= u * M) by (apply Rmult_le_pos; lra). eapply Rle_trans; [apply Rabs_triang|]. lra.
Qed.

Lemma eqb_val (z w : complex fl) : cis_finite z = true -> cis_finite w = true -> (zx z <> zx w \/ zy z <> zy w) -> fc_eqb z w = false.
Proof.
  unfold cis_finite. intros F G N. apply andb_prop in F, G. destruct F as (F1 & F2), G as (G1 & G2). unfold fc_eqb. rewrite !Beqb_correct by assumption.
  destruct N as [N|N]; [rewrite (Req_bool_false _ _ N); reflexivity|rewrite (Req_bool_false _ _ N); apply andb_false_r].
Qed.

Lemma atanh_near (z : complex fl) (k : Z) : cis_finite z = true -> (0 <= k)%Z -> (2 * k + 40 <= emax)%Z ->
  let a := zx z in let b := zy z in let r := nm (1 + a) b in let t := nm (1 - a) b in
  bpow radix2 (- k) <= r <= bpow radix2 k -> bpow radix2 (- k) <= t <= bpow radix2 k ->
  log_at d L (cadd cone z) -> log_at d L (csub cone z) ->
  exists X Y : R, X = (ln r - ln t) / 2 /\ - (PI / 2) <= Y <= PI / 2 /\
    sinh X * cos Y = a * (cosh X * cos Y) - b * (sinh X * sin Y) /\ cosh X * sin Y = a * (sinh X * sin Y) + b * (cosh X * cos Y) /\
    fnear (re (fc_atanh L z)) X (3 * d * (Rabs (ln r) + Rabs (ln t)) + 13 * d) /\ fnear (im (fc_atanh L z)) Y (25 * d).
Proof.
  intros F K0 K a b r t HR HT Lr Lt. pose proof (@u_le prec H24) as U. destruct (@one_fl prec emax _ _) as (F1 & V1 & F0 & V0). pose proof He as He0. unfold Prec_lt_emax in He0. pose proof PI_digits as PD.
  pose proof F as F'. unfold cis_finite in F'. apply andb_prop in F'. destruct F' as (Fa & Fb).
  pose proof (nm_x (1 + a) b) as N1. pose proof (nm_x (1 - a) b) as N2. fold r in N1. fold t in N2. assert (KB : 16 * bpow radix2 k <= bpow radix2 (emax - 4)) by (change 16 with (bpow radix2 4); rewrite <- bpow_plus; apply bpow_le; lia).
  assert (BB : bpow radix2 (emax - 4) <= bpow radix2 (emax - 1)) by (apply bpow_le; lia). assert (BB3 : 2 * bpow radix2 (emax - 4) = bpow radix2 (emax - 3)) by (replace (emax - 3)%Z with (1 + (emax - 4))%Z by ring; rewrite bpow_plus; reflexivity). pose proof (bpow_gt_0 radix2 (- k)) as BK.
  destruct (add_val n1 (re z) F1 Fa) as (G1 & _ & R1); [rewrite V1; fold a; lra|]. rewrite V1 in R1. fold a in R1.
  destruct (sub_val n1 (re z) F1 Fa) as (G2 & _ & R2); [rewrite V1; fold a; lra|]. rewrite V1 in R2. fold a in R2.
  destruct (add_exact n0 (im z) F0 Fb (or_introl V0)) as (G3 & R3 & G4 & R4). rewrite V0 in R3, R4. rewrite Rplus_0_l in R3. rewrite Rminus_0_l in R4. fold b in R3, R4.
  assert (NT : nm (1 - a) (- b) = t) by (unfold t, nm; f_equal; ring).
  destruct (log_shift (cadd cone z) (1 + a) b k) as (P1 & P2); [unfold cis_finite, cadd, cone, cidentity; cbn [re im]; rewrite G1, G3; reflexivity|exact K0|lia|exact HR|exact R1|exact R3|exact Lr|].
  destruct (log_shift (csub cone z) (1 - a) (- b) k) as (P3 & P4); [unfold cis_finite, csub, cone, cidentity; cbn [re im]; rewrite G2, G4; reflexivity|exact K0|lia|rewrite NT; exact HT|exact R2|exact R4|exact Lt|].
  fold r in P1. rewrite NT in P3. destruct (polar (1 + a) b) as (X1 & Y1). destruct (polar (1 - a) (- b)) as (X2 & Y2). fold r in X1, Y1. rewrite NT in X2, Y2.
  assert (NZ1 : 1 + a <> 0 \/ b <> 0). { destruct (Req_dec (1 + a) 0) as [Q1|Q1]; [|left; exact Q1]. destruct (Req_dec b 0) as [Q2|Q2]; [|right; exact Q2]. exfalso. unfold r in HR. rewrite Q1, Q2, nm_0 in HR. lra. }
  assert (NZ2 : 1 - a <> 0 \/ b <> 0). { destruct (Req_dec (1 - a) 0) as [Q1|Q1]; [|left; exact Q1]. destruct (Req_dec b 0) as [Q2|Q2]; [|right; exact Q2]. exfalso. unfold t in HT. rewrite Q1, Q2, nm_0 in HT. lra. }
  set (p1 := ratan2 b (1 + a)) in *. set (p2 := ratan2 (- b) (1 - a)) in *.
  destruct (atanh_exact a b r p1 t p2 ltac:(lra) ltac:(lra) X1 Y1 X2 Y2) as (C1 & C2).
  pose proof (ratan2_range (1 + a) b) as RG1. fold p1 in RG1. pose proof (ratan2_range (1 - a) (- b)) as RG2. fold p2 in RG2.
  assert (HP1 : Rabs p1 <= 22 / 7) by (apply Rabs_le; lra). assert (HP2 : Rabs p2 <= 22 / 7) by (apply Rabs_le; lra). pose proof (Rabs_pos p1) as AP1. pose proof (Rabs_pos p2) as AP2.
  assert (DP1 : d * Rabs p1 <= d * (22 / 7)) by (apply Rmult_le_compat_l; lra). assert (DP2 : d * Rabs p2 <= d * (22 / 7)) by (apply Rmult_le_compat_l; lra).
  pose proof (ln_range r k K0 HR) as LR. pose proof (ln_range t k K0 HT) as LT. pose proof (Rabs_pos (ln r)) as AL1. pose proof (Rabs_pos (ln t)) as AL2.
  set (S := Rabs (ln r) + Rabs (ln t)) in *. assert (DS : d * S <= / 65536 * S) by (apply Rmult_le_compat_r; unfold S; lra). assert (DS0 : 0 <= d * S) by (apply Rmult_le_pos; unfold S; lra).
  assert (US : u * S <= d * S) by (apply Rmult_le_compat_r; unfold S; lra).
  assert (ES : d * Rabs (ln r) + 12 * d + (d * Rabs (ln t) + 12 * d) = d * S + 24 * d) by (unfold S; ring).
  assert (TY : tiny <= / 100 * u). { apply Rle_trans with (bpow radix2 (-7) * u); [rewrite <- bpow_plus; apply bpow_le; lia|apply Rmult_le_compat_r; [lra|change (bpow radix2 (-7)) with (/ 128); lra]]. }
  assert (KG : 1 <= bpow radix2 k) by (apply (bpow_le radix2 0 k); lia).
  destruct (half_diff _ _ _ _ _ _ (S + (d * S + 24 * d)) P1 P3) as (H1 & H2 & H3); [fold S; lra|unfold S in *; lra|].
  destruct (half_diff _ _ _ _ _ _ 7 P2 P4) as (H4 & H5 & H6); [lra|lra|].
  assert (YR : - (PI / 2) <= (p1 - p2) / 2 <= PI / 2).
  { assert (SD : r * t * sin (p1 - p2) = 2 * b). { rewrite sin_minus. transitivity ((r * sin p1) * (t * cos p2) - (r * cos p1) * (t * sin p2)); [ring|]. rewrite <- X1, <- Y1, <- X2, <- Y2. ring. }
    assert (RT : 0 < r * t) by (apply Rmult_lt_0_compat; lra). destruct (Rtotal_order b 0) as [B|[B|B]].
    - pose proof (arg_down (1 + a) b B) as Q1. fold p1 in Q1. pose proof (arg_up (1 - a) (- b) ltac:(lra) ltac:(right; lra)) as Q2. fold p2 in Q2. split; [|lra].
      destruct (Rle_or_lt (- PI) (p1 - p2)) as [G|G]; [lra|]. exfalso. assert (S0 : 0 <= sin (p1 - p2 + 2 * PI)) by (apply sin_ge_0; lra). rewrite sin_plus, cos_2PI, sin_2PI in S0. pose proof (Rmult_le_pos _ _ (Rlt_le _ _ RT) (ltac:(lra) : 0 <= sin (p1 - p2))). lra.
    - pose proof (arg_up (1 + a) b ltac:(lra) NZ1) as Q1. fold p1 in Q1. pose proof (arg_up (1 - a) (- b) ltac:(lra) ltac:(destruct NZ2; [left; lra|right; lra])) as Q2. fold p2 in Q2. lra.
    - pose proof (arg_down (1 - a) (- b) ltac:(lra)) as Q2. fold p2 in Q2. pose proof (arg_up (1 + a) b ltac:(lra) NZ1) as Q1. fold p1 in Q1. split; [lra|].
      destruct (Rle_or_lt (p1 - p2) PI) as [G|G]; [lra|]. exfalso. pose proof (sin_le_0 (p1 - p2) ltac:(lra) ltac:(lra)) as S0. pose proof (Rmult_le_pos _ _ (Rlt_le _ _ RT) (ltac:(lra) : 0 <= - sin (p1 - p2))). lra. }
  assert (EF : fc_atanh L z = cdiv (csub (fc_ln L (cadd cone z)) (fc_ln L (csub cone z))) two_c).
  { rewrite (atanh_finite L z F). rewrite !eqb_val; [reflexivity|exact F| | |exact F| |].
    - unfold cis_finite, cneg, cone, cidentity. cbn [re im nneg num_float]. rewrite !is_finite_Bopp. change (is_finite (n1 : fl) && is_finite (n0 : fl) = true). rewrite F1. reflexivity.
    - unfold cneg, cone, cidentity. cbn [re im nneg num_float]. rewrite !B2R_Bopp. change (B2R (Bone : fl)) with (B2R (n1 : fl)). rewrite V1. fold a b. destruct NZ1; [left; lra|right; intros Q; apply H; rewrite Q; change (- B2R (n0 : fl) = 0); rewrite V0; ring].
    - unfold cis_finite, cone, cidentity. cbn [re im]. rewrite F1. reflexivity.
    - unfold cone, cidentity. cbn [re im]. rewrite V1, V0. fold a b. destruct NZ2; [left; lra|right; assumption]. }
  set (D := csub (fc_ln L (cadd cone z)) (fc_ln L (csub cone z))) in *. assert (FD : cis_finite D = true) by (unfold D, cis_finite, csub; cbn [re im]; unfold csub in H1, H4; cbn [re im] in H1, H4; rewrite H1, H4; reflexivity).
  destruct (half_val H24 D FD) as (HF & HX & HY); [change (zx D) with (B2R (nsub (re (fc_ln L (cadd cone z))) (re (fc_ln L (csub cone z))))); unfold S in *; lra|change (zy D) with (B2R (nsub (im (fc_ln L (cadd cone z))) (im (fc_ln L (csub cone z))))); lra|].
  unfold cis_finite in HF. apply andb_prop in HF. destruct HF as (HF1 & HF2).
  exists ((ln r - ln t) / 2), ((p1 - p2) / 2). split; [reflexivity|]. split; [exact YR|]. split; [exact C1|]. split; [exact C2|]. rewrite EF. split; (split; [assumption|]).
  - rewrite HX. change (zx D) with (B2R (nsub (re (fc_ln L (cadd cone z))) (re (fc_ln L (csub cone z))))). eapply Rle_trans; [exact H3|]. rewrite ES.
    assert (u * (S + (d * S + 24 * d)) <= u * (1001 / 1000 * S + / 1000)) by (apply Rmult_le_compat_l; lra). lra.
  - rewrite HY. change (zy D) with (B2R (nsub (im (fc_ln L (cadd cone z))) (im (fc_ln L (csub cone z))))). eapply Rle_trans; [exact H6|]. lra.
Qed.
End E.
