(** Points taken back through perspective projections in floats: the arithmetic of unproject_point. *)

From Coq Require Import List Arith ZArith Bool Lia Reals Lra Psatz.
From Flocq Require Import Core.Core Relative IEEE754.BinarySingleNaN.
From Verif Require Import Base Scalar Spec SpecF SpecProjection MVector MMatrix MPoint MFloat MProjection
  LBase LVector LFloat LFloatP LFloatVec LTrScF LSlerpS LProjF LUnpF LUnpG LUnpH LUnpI.
Local Open Scope R_scope.

Section P.
Context {prec emax : Z} {Hp : Prec_gt_0 prec} {He : Prec_lt_emax prec emax}.
Notation fl := (binary_float prec emax).
Notation u := (bpow radix2 (- prec)).
Notation tiny := (bpow radix2 (2 - emax - prec)).
Notation h := (16 / 15 * u).
Notation two := (nadd n1 n1 : fl).
Hypothesis H24 : (24 <= prec)%Z.
Variable q : Z.
Hypothesis q0 : (0 <= q)%Z.
Hypothesis Hq : (6 * q + 31 <= emax)%Z.
Variables near far : fl.
Hypothesis Fn : is_finite near = true.
Hypothesis Ff : is_finite far = true.
Notation N := (B2R near).
Notation F := (B2R far).
Hypothesis SN : rb q N.
Hypothesis SF : rb q F.
Hypothesis NF : 2 * N <= F.
Hypothesis KU : 2048 * u * F <= N.
Notation k := (F / N).
Notation PN := (pnear near far).
Notation PF := (pfar near far).
Notation Y1 := (B2R PN).
Notation Y2 := (B2R PF).
Notation iN := (/ N).
Notation iF := (/ F).

Lemma Hq4 : (4 * q + 31 <= emax)%Z. Proof. lia. Qed.
Lemma pn_ml : ml (21 * h) PN N.
Proof. exact (pnear_ml H24 q q0 Hq4 near far Fn Ff SN SF NF KU). Qed.
Lemma pf_ml : ml ((11 / 2 * k + 21) * h) PF F.
Proof. exact (pfar_ml H24 q q0 Hq4 near far Fn Ff SN SF NF KU). Qed.
Lemma N0 : 0 < N. Proof. exact (rb_pos q N SN). Qed.
Lemma hk' : 0 < h /\ h <= / 10000000 /\ 1920 * (h * k) <= 1 /\ 2 <= k /\ k * N = F.
Proof. exact (hk H24 q near far SN NF KU). Qed.
Lemma inv_b : 0 < iN /\ 0 < iF /\ iF <= iN / 2 /\ k * iF = iN /\ bpow radix2 (- q) <= iN /\ iN <= bpow radix2 q.
Proof.
  pose proof N0 as P. assert (F0 : 0 < F) by lra. pose proof (Rinv_0_lt_compat _ P). pose proof (Rinv_0_lt_compat _ F0). destruct (rb_inv q N SN) as (A & B). repeat split; try assumption.
  - apply (Rle_trans _ (/ (2 * N))); [apply Rinv_le_contravar; lra|right; field; lra].
  - field. lra.
Qed.
Lemma pn_abs : fnear PN N (22 * h * N).
Proof. pose proof N0. destruct hk' as (H0 & H1 & _). eapply near_weak; [apply (ml_near' _ _ _ pn_ml); lra|]. rewrite Rabs_pos_eq by lra. assert (0 < h * N) by (apply Rmult_lt_0_compat; lra). lra. Qed.
Lemma pf_abs : fnear PF F (6 * h * (F * k) + 22 * h * F).
Proof.
  pose proof N0. destruct hk' as (H0 & H1 & K1 & K2 & K3). assert (0 < h * k) by (apply Rmult_lt_0_compat; lra). eapply near_weak; [apply (ml_near' _ _ _ pf_ml); lra|]. rewrite Rabs_pos_eq by lra. assert (0 < h * F) by (apply Rmult_lt_0_compat; lra). assert (0 < h * (F * k)) by (apply Rmult_lt_0_compat; [lra|apply Rmult_lt_0_compat; lra]).
  replace (64 / 63 * ((11 / 2 * k + 21) * h) * F) with (64 / 63 * (11 / 2) * (h * (F * k)) + 64 / 63 * 21 * (h * F)) by ring. lra.
Qed.
Lemma Y_b : 99 / 100 * N <= Y1 <= 101 / 100 * N /\ 99 / 100 * F <= Y2 <= 101 / 100 * F.
Proof.
  pose proof N0. destruct hk' as (H0 & H1 & K1 & K2 & K3). destruct pn_abs as (_ & A). destruct pf_abs as (_ & B). apply Rabs_le_inv in A, B.
  assert (22 * h * N <= / 100 * N) by (apply Rmult_le_compat_r; lra). assert (6 * h * (F * k) + 22 * h * F <= / 100 * F) by (replace (6 * h * (F * k) + 22 * h * F) with ((6 * (h * k) + 22 * h) * F) by ring; apply Rmult_le_compat_r; lra). lra.
Qed.
Lemma iY_b : Rabs (/ Y1 - iN) <= 64 / 63 * 21 * (h * iN) /\ Rabs (/ Y2 - iF) <= 64 / 63 * 16 * (h * iN).
Proof.
  pose proof N0. destruct hk' as (H0 & H1 & K1 & K2 & K3). destruct inv_b as (I1 & I2 & I3 & I4 & _). assert (KP : 0 < h * k) by (apply Rmult_lt_0_compat; lra). destruct pn_ml as (_ & A). destruct pf_ml as (_ & B). apply by_inv in A, B. split.
  - eapply Rle_trans; [apply (near_by' _ _ _ A); lra|]. rewrite Rabs_pos_eq by lra. right. ring.
  - eapply Rle_trans; [apply (near_by' _ _ _ B); lra|]. rewrite Rabs_pos_eq by lra. replace (64 / 63 * ((11 / 2 * k + 21) * h) * iF) with (64 / 63 * (h * (11 / 2 * (k * iF) + 21 * iF))) by ring. rewrite I4.
    rewrite (Rmult_assoc (64 / 63) 16). apply Rmult_le_compat_l; [lra|]. replace (16 * (h * iN)) with (h * (16 * iN)) by ring. apply Rmult_le_compat_l; lra.
Qed.
Definition pden : fl := nmul (nmul two PF) PN.
Definition pc2 : fl := ndiv (nsub PN PF) pden.
Definition pc3 : fl := ndiv (nadd PF PN) pden.
Lemma rb_Y : rb (q + 1) Y1 /\ rb (q + 1) Y2 /\ rb (q + 1) (Y2 - Y1) /\ rb (q + 2) (Y2 + Y1).
Proof.
  pose proof N0. destruct Y_b as ((A1 & A2) & B1 & B2). pose proof SN as (SN1 & SN2). pose proof SF as (SF1 & SF2). assert (E1 : bpow radix2 (- q) = 2 * bpow radix2 (- (q + 1))) by (replace (- q)%Z with (1 + - (q + 1))%Z by ring; exact (bpow_plus radix2 1 (- (q + 1)))).
  assert (E2 : bpow radix2 (q + 1) = 2 * bpow radix2 q) by (rewrite Z.add_comm; exact (bpow_plus radix2 1 q)). assert (E3 : bpow radix2 (q + 2) = 4 * bpow radix2 q) by (rewrite Z.add_comm; exact (bpow_plus radix2 2 q)).
  assert (E4 : bpow radix2 (- (q + 2)) <= bpow radix2 (- (q + 1))) by (apply bpow_le; lia). pose proof (bpow_gt_0 radix2 (- (q + 1))). unfold rb. lra.
Qed.
Lemma pden_ml : ml (2 * h) pden (2 * Y2 * Y1).
Proof.
  destruct rb_Y as (R1 & R2 & _). destruct hk' as (H0 & H1 & _). destruct pn_ml as (FN & _). destruct pf_ml as (FF & _). assert (RB : rb (1 + (q + 1)) (2 * Y2)) by (apply rb_mul; [exact rb_2|exact R2]).
  apply (ml_weak (0 + 0 + h + 0 + h)); [lra|]. apply (mul_ml H24); [apply (mul_ml H24); [exact two_ml|apply ml_leaf; exact FF|lra|apply (rb_wk (1 + (q + 1))); [lia|exact RB]]|apply ml_leaf; exact FN|lra|].
  apply (rb_wk (1 + (q + 1) + (q + 1))); [lia|apply rb_mul; assumption].
Qed.
Lemma rb_den : rb (2 * q + 3) (2 * Y2 * Y1).
Proof. destruct rb_Y as (R1 & R2 & _). apply (rb_weak (1 + (q + 1) + (q + 1))); [lia|]. apply rb_mul; [apply rb_mul; [exact rb_2|exact R2]|exact R1]. Qed.
Lemma big_le a v : (a + 2 <= emax)%Z -> rb a v -> Rabs v <= bpow radix2 (emax - 2).
Proof. intros A R. rewrite (Rabs_pos_eq v) by (left; exact (rb_pos _ _ R)). destruct R as (_ & R). eapply Rle_trans; [exact R|apply bpow_le; lia]. Qed.
Lemma pc2_ml : ml (4 * h) pc2 ((/ Y2 - / Y1) / 2).
Proof.
  destruct rb_Y as (R1 & R2 & R3 & _). pose proof (rb_pos _ _ R1) as P1. pose proof (rb_pos _ _ R2) as P2. destruct hk' as (H0 & H1 & _). destruct pn_ml as (FN & _). destruct pf_ml as (FF & _).
  assert (M : ml (0 + h) (nsub PN PF) (Y1 - Y2)) by (apply (sub_ml H24); [exact FN|exact FF|apply by_refl|lra|rewrite Rabs_minus_sym; apply (big_le (q + 1)); [lia|exact R3]]).
  assert (E : (Y1 - Y2) / (2 * Y2 * Y1) = (/ Y2 - / Y1) / 2) by (field; lra). pose proof (rb_pos _ _ rb_den) as PD.
  apply (ml_weak (0 + h + 2 * h + h)); [lra|]. refine (ml_eq _ _ _ _ (div_ml H24 _ _ _ _ _ _ M pden_ml _ _ _) E); [lra|lra|].
  replace ((Y1 - Y2) / (2 * Y2 * Y1)) with (- ((Y2 - Y1) / (2 * Y2 * Y1))) by (field; lra). apply wk_opp. apply (rb_wk (q + 1 + (2 * q + 3))); [lia|apply rb_div; [exact R3|exact rb_den]].
Qed.
Lemma pc3_ml : ml (4 * h) pc3 ((/ Y2 + / Y1) / 2).
Proof.
  destruct rb_Y as (R1 & R2 & _ & R3). pose proof (rb_pos _ _ R1) as P1. pose proof (rb_pos _ _ R2) as P2. destruct hk' as (H0 & H1 & _). destruct pn_ml as (FN & _). destruct pf_ml as (FF & _).
  assert (M : ml (0 + h) (nadd PF PN) (Y2 + Y1)) by (apply (add_ml H24); [exact FF|exact FN|apply by_refl|lra|apply (big_le (q + 2)); [lia|exact R3]]).
  assert (E : (Y2 + Y1) / (2 * Y2 * Y1) = (/ Y2 + / Y1) / 2) by (field; lra). pose proof (rb_pos _ _ rb_den) as PD.
  apply (ml_weak (0 + h + 2 * h + h)); [lra|]. refine (ml_eq _ _ _ _ (div_ml H24 _ _ _ _ _ _ M pden_ml _ _ _) E); [lra|lra|].
  apply (rb_wk (q + 2 + (2 * q + 3))); [lia|apply rb_div; [exact R3|exact rb_den]].
Qed.
Lemma pc_abs : fnear pc2 ((iF - iN) / 2) (22 * h * iN) /\ fnear pc3 ((iF + iN) / 2) (22 * h * iN).
Proof.
  destruct inv_b as (I1 & I2 & I3 & _). destruct iY_b as (A & B). destruct hk' as (H0 & H1 & _). set (i1 := / Y1) in *. set (i2 := / Y2) in *. assert (HN : 0 < h * iN) by (apply Rmult_lt_0_compat; lra). assert (HN2 : h * iN <= / 10000000 * iN) by (apply Rmult_le_compat_r; lra).
  apply Rabs_le_inv in A, B. set (hn := h * iN) in *. destruct (ml_near' _ _ _ pc2_ml) as (F2 & E2); [lra|]. destruct (ml_near' _ _ _ pc3_ml) as (F3 & E3); [lra|]. fold i1 i2 in E2, E3.
  assert (V2 : Rabs ((i2 - i1) / 2) <= 51 / 100 * iN) by (apply Rabs_le; lra). assert (V3 : Rabs ((i2 + i1) / 2) <= 76 / 100 * iN) by (apply Rabs_le; lra).
  assert (W2 : 64 / 63 * (4 * h) * Rabs ((i2 - i1) / 2) <= 64 / 63 * 4 * (51 / 100) * hn) by (replace (64 / 63 * 4 * (51 / 100) * hn) with (64 / 63 * (4 * h) * (51 / 100 * iN)) by (unfold hn; ring); apply Rmult_le_compat_l; lra).
  assert (W3 : 64 / 63 * (4 * h) * Rabs ((i2 + i1) / 2) <= 64 / 63 * 4 * (76 / 100) * hn) by (replace (64 / 63 * 4 * (76 / 100) * hn) with (64 / 63 * (4 * h) * (76 / 100 * iN)) by (unfold hn; ring); apply Rmult_le_compat_l; lra).
  replace (22 * h * iN) with (22 * hn) by (unfold hn; ring). split; (split; [assumption|]); apply Rabs_le.
  - assert (X : Rabs (B2R pc2 - (i2 - i1) / 2) <= 64 / 63 * 4 * (51 / 100) * hn) by lra. apply Rabs_le_inv in X. lra.
  - assert (X : Rabs (B2R pc3 - (i2 + i1) / 2) <= 64 / 63 * 4 * (76 / 100) * hn) by lra. apply Rabs_le_inv in X. lra.
Qed.
Lemma tiny_iN : tiny <= u * iN / 1000.
Proof. destruct inv_b as (_ & _ & _ & _ & I & _). apply (tiny_le q); [lia|exact I]. Qed.

Section Z.
Variable z : fl.
Hypothesis Fz : is_finite z = true.
Hypothesis ZB : Rabs (B2R z) <= 5 / 4.
Notation W := ((iF - iN) / 2 * B2R z + (iF + iN) / 2).
Definition pwt : fl := nadd (nmul pc2 z) pc3.
Lemma W_b : W <= 11 / 8 * iN /\ Rabs W <= 11 / 8 * iN.
Proof.
  destruct inv_b as (I1 & I2 & I3 & _). apply Rabs_le_inv in ZB. assert (A : - (5 / 8 * iN) <= (iF - iN) / 2 * B2R z <= 5 / 8 * iN).
  { assert (X : Rabs ((iF - iN) / 2 * B2R z) <= 1 / 2 * iN * (5 / 4)) by (rewrite Rabs_mult; apply Rmult_le_compat; try apply Rabs_pos; apply Rabs_le; lra). apply Rabs_le_inv in X. lra. }
  split; [lra|]. apply Rabs_le. lra.
Qed.
Lemma pwt_near : fnear pwt W (52 * h * iN).
Proof.
  destruct inv_b as (I1 & I2 & I3 & _ & I5 & I6). destruct hk' as (H0 & H1 & _). destruct pc_abs as (A & B). pose proof (u_small H24) as U. pose proof tiny_iN as T. assert (HN : 0 < h * iN) by (apply Rmult_lt_0_compat; lra). assert (HN2 : h * iN <= / 10000000 * iN) by (apply Rmult_le_compat_r; lra).
  assert (BI : 8 * iN <= bpow radix2 (emax - 1)) by (apply (Rle_trans _ (bpow radix2 3 * bpow radix2 q)); [change (bpow radix2 3) with 8; lra|rewrite <- bpow_plus; apply bpow_le; lia]).
  assert (UU : u * (h * iN) <= / 16777216 * (h * iN)) by (apply Rmult_le_compat_r; lra). set (hn := h * iN) in *. assert (UN : u * iN = 15 / 16 * hn) by (unfold hn; lra).
  assert (ZN : fnear z (B2R z) 0) by (split; [exact Fz|rewrite Rminus_diag_eq by reflexivity; rewrite Rabs_R0; lra]).
  assert (M : fnear (nmul pc2 z) ((iF - iN) / 2 * B2R z) (282 / 10 * hn)).
  { eapply near_weak; [apply (mul_abs pc2 z _ _ _ _ (1 / 2 * iN) (5 / 4) A ZN); [apply Rabs_le; lra|exact ZB|]|].
    - replace (22 * h * iN) with (22 * hn) by (unfold hn; ring). lra.
    - replace (22 * h * iN * (5 / 4 + 0) + 1 / 2 * iN * 0 + u * ((1 / 2 * iN + 22 * h * iN) * (5 / 4 + 0)) + tiny) with (110 / 4 * hn + 5 / 8 * (u * iN) + 110 / 4 * (u * hn) + tiny) by (unfold hn; field; pose proof N0; lra). lra. }
  eapply near_weak; [apply (add_abs _ _ _ _ _ _ (11 / 8 * iN) M B); [exact (proj2 W_b)|]|].
  - replace (22 * h * iN) with (22 * hn) by (unfold hn; ring). lra.
  - replace (22 * h * iN) with (22 * hn) by (unfold hn; ring). replace (52 * h * iN) with (52 * hn) by (unfold hn; ring). replace (u * (11 / 8 * iN + (282 / 10 * hn + 22 * hn))) with (11 / 8 * (u * iN) + 502 / 10 * (u * hn)) by (field; pose proof N0; lra). lra.
Qed.
Variable d : R.
Hypothesis d0 : 0 < d.
Hypothesis dF : d <= 5 / 4 * F.
Hypothesis dW : W = / d.
Notation Q := (d * d * iN).
Lemma d_b : d <= 11 / 8 * Q /\ 8 / 11 * N <= d /\ h * Q <= / 1536 * d /\ 0 < Q.
Proof.
  destruct inv_b as (I1 & I2 & I3 & I4 & _). destruct hk' as (H0 & H1 & K1 & K2 & K3). pose proof N0 as NP. destruct W_b as (W1 & _). rewrite dW in W1. assert (D1 : 1 <= 11 / 8 * iN * d) by (apply (Rmult_le_compat_r d) in W1; [rewrite Rinv_l in W1; lra|lra]).
  assert (QP : 0 < Q) by (apply Rmult_lt_0_compat; [apply Rmult_lt_0_compat; assumption|assumption]). split; [|split; [|split; [|exact QP]]].
  - replace (11 / 8 * Q) with (11 / 8 * iN * d * d) by ring. rewrite <- (Rmult_1_l d) at 1. apply Rmult_le_compat_r; lra.
  - apply (Rmult_le_reg_r iN); [exact I1|]. rewrite Rmult_assoc, Rinv_r by lra. lra.
  - replace (h * Q) with (h * (d * iN) * d) by ring. apply Rmult_le_compat_r; [lra|]. assert (X : d * iN <= 5 / 4 * k) by (replace (5 / 4 * k) with (5 / 4 * F * iN) by (unfold Rdiv; ring); apply Rmult_le_compat_r; lra).
    assert (h * (d * iN) <= h * (5 / 4 * k)) by (apply Rmult_le_compat_l; lra). lra.
Qed.
Definition pinv : fl := ndiv n1 pwt.
Lemma d_big : 8 * d <= bpow radix2 (emax - 1) /\ tiny <= u * d / 1000.
Proof.
  pose proof SF as (SF1 & SF2). pose proof SN as (SN1 & SN2). destruct d_b as (_ & D2 & _). pose proof N0 as NP. split.
  - apply (Rle_trans _ (bpow radix2 4 * bpow radix2 q)); [change (bpow radix2 4) with 16; lra|rewrite <- bpow_plus; apply bpow_le; lia].
  - apply (tiny_le (q + 1)); [lia|]. assert (E1 : bpow radix2 (- q) = 2 * bpow radix2 (- (q + 1))) by (replace (- q)%Z with (1 + - (q + 1))%Z by ring; exact (bpow_plus radix2 1 (- (q + 1)))). lra.
Qed.
Lemma pinv_near : fnear pinv d (59 * u * Q).
Proof.
  destruct pwt_near as (Fw & Ew). destruct inv_b as (I1 & _). destruct d_b as (D1 & D2 & D3 & D4). destruct d_big as (DB & DT). pose proof (u_small H24) as U. destruct hk' as (H0 & H1 & _).
  assert (I0 : 0 < / d) by (apply Rinv_0_lt_compat; exact d0). rewrite dW in Ew. set (w := B2R pwt) in *. assert (R1 : 52 * h * iN <= 52 / 1536 * / d).
  { apply (Rmult_le_reg_r (d * d)); [apply Rmult_lt_0_compat; assumption|]. replace (52 / 1536 * / d * (d * d)) with (52 * (/ 1536 * d)) by (field; lra). replace (52 * h * iN * (d * d)) with (52 * (h * Q)) by ring. lra. }
  assert (WL : 966 / 1000 * / d <= w) by (apply Rabs_le_inv in Ew; lra). assert (W0 : 0 < w) by lra.
  assert (X : Rabs (1 / w - d) <= 539 / 10 * (h * Q)).
  { replace (1 / w - d) with (- ((w - / d) * (d / w))) by (field; lra). rewrite Rabs_Ropp, Rabs_mult. assert (DW : 0 < d / w <= 1036 / 1000 * (d * d)).
    { split; [apply Rdiv_lt_0_compat; assumption|]. apply (Rmult_le_reg_r w); [exact W0|]. unfold Rdiv at 1. rewrite Rmult_assoc, Rinv_l, Rmult_1_r by lra. apply (Rle_trans _ (1036 / 1000 * (d * d) * (966 / 1000 * / d))); [|apply Rmult_le_compat_l; [|exact WL]].
      - replace (1036 / 1000 * (d * d) * (966 / 1000 * / d)) with (1036 / 1000 * (966 / 1000) * d) by (field; lra). lra.
      - assert (0 < d * d) by (apply Rmult_lt_0_compat; assumption). lra. }
    rewrite (Rabs_pos_eq (d / w)) by lra. apply (Rle_trans _ (52 * h * iN * (1036 / 1000 * (d * d)))); [apply Rmult_le_compat; [apply Rabs_pos|lra|exact Ew|lra]|].
    assert (0 < h * Q) by (apply Rmult_lt_0_compat; lra). replace (52 * h * iN * (1036 / 1000 * (d * d))) with (52 * (1036 / 1000) * (h * Q)) by ring. lra. }
  pose proof one_val as (F1 & E1). assert (HQ : 0 < h * Q) by (apply Rmult_lt_0_compat; lra). assert (XB : Rabs (1 / w) <= 104 / 100 * d) by (apply Rabs_le; apply Rabs_le_inv in X; lra).
  destruct (div_val (n1 : fl) pwt F1) as (Fi & Ei); [fold w; lra|fold w; rewrite E1; lra|]. split; [exact Fi|]. fold w in Ei. rewrite E1 in Ei. unfold pinv. rewrite Ei. pose proof (rnd_rel (prec := prec) (emax := emax) (1 / w)) as Y.
  match goal with |- Rabs (?r - d) <= _ => replace (r - d) with ((r - 1 / w) + (1 / w - d)) by ring end. eapply Rle_trans; [apply Rabs_triang|].
  assert (u * Rabs (1 / w) <= u * (104 / 100 * d)) by (apply Rmult_le_compat_l; lra). assert (u * d <= u * (11 / 8 * Q)) by (apply Rmult_le_compat_l; lra). assert (h * Q = 16 / 15 * (u * Q)) by ring. lra.
Qed.
Definition pdepth : fl := nmul (nneg n1) pinv.
Lemma pdepth_near : fnear pdepth (- d) (62 * u * Q).
Proof.
  pose proof pinv_near as A. destruct d_b as (D1 & D2 & D3 & D4). destruct d_big as (DB & DT). pose proof (u_small H24) as U. destruct hk' as (H0 & H1 & _). pose proof one_val as (F1 & E1).
  assert (ON : fnear (n1 : fl) 1 0) by (split; [exact F1|rewrite E1, Rminus_diag_eq by reflexivity; rewrite Rabs_R0; lra]).
  assert (UD : u * d <= u * (11 / 8 * Q)) by (apply Rmult_le_compat_l; lra). assert (UQ : u * Q <= / 1536 * d) by lra. assert (UUQ : u * (u * Q) <= / 16777216 * (u * Q)) by (apply Rmult_le_compat_r; [apply Rmult_le_pos; lra|lra]).
  apply (near_eq _ (- (1) * d)); [|ring]. eapply near_weak; [apply (mul_abs _ _ _ _ _ _ 1 d (neg_near _ _ _ ON) A); [rewrite Rabs_Ropp, Rabs_R1; lra|rewrite Rabs_pos_eq; lra|lra]|].
  replace (u * ((1 + 0) * (d + 59 * u * Q))) with (u * d + 59 * (u * (u * Q))) by ring. assert (0 < u * Q) by (apply Rmult_lt_0_compat; lra). lra.
Qed.

(** ** The sides *)
Section Side.
Variables lo hi : fl.
Hypothesis Fl : is_finite lo = true.
Hypothesis Fh : is_finite hi = true.
Notation L := (B2R lo).
Notation Hi := (B2R hi).
Hypothesis SL : rb q L.
Hypothesis SH : rb q Hi.
Notation S := (Hi + L).
Hypothesis GU : 2048 * u * (S * S) <= Hi * L.
Notation PR := (pright lo hi near PN).
Notation PL := (pleft lo hi near PN).
Notation s2 := (S * iN / 2).
Lemma s2_b : 0 < s2 /\ s2 <= bpow radix2 (2 * q) /\ tiny <= u * s2 / 1000.
Proof.
  destruct inv_b as (I1 & _ & _ & _ & I5 & I6). pose proof (rb_pos _ _ SL) as L0. pose proof (rb_pos _ _ SH) as H0. pose proof SL as (L1 & L2). pose proof SH as (H1 & H2). assert (P : 0 < S * iN) by (apply Rmult_lt_0_compat; lra). split; [lra|]. split.
  - replace (2 * q)%Z with (q + q)%Z by ring. rewrite bpow_plus. assert (S * iN <= 2 * bpow radix2 q * bpow radix2 q) by (apply Rmult_le_compat; lra). lra.
  - apply (tiny_le (2 * q)); [lia|]. replace (- (2 * q))%Z with (- q + - q)%Z by ring. rewrite bpow_plus. pose proof (bpow_gt_0 radix2 (- q)). assert (2 * bpow radix2 (- q) * bpow radix2 (- q) <= S * iN) by (apply Rmult_le_compat; lra). lra.
Qed.
Lemma den_ml : ml (22 * h) (nmul two PN) (2 * N).
Proof.
  destruct hk' as (H0 & H1 & _). apply (ml_weak (0 + 21 * h + h)); [lra|]. apply (mul_ml H24); [exact two_ml|exact pn_ml|lra|apply (rb_wk (1 + q)); [lia|apply rb_mul; [exact rb_2|exact SN]]].
Qed.
Definition pc0 : fl := ndiv (nadd PR PL) (nmul two PN).
Definition pc3s : fl := ndiv (nsub PR PL) (nmul two PN).
Lemma ends_p : ml (31 * h) (nadd PR PL) S /\ fnear (nsub PR PL) (Hi - L) (37 * h * S).
Proof. destruct (p_ends H24 q q0 Hq lo hi Fl Fh SL SH GU near PN Fn SN pn_ml) as (_ & _ & A & B). split; assumption. Qed.
Lemma pc0_near : fnear pc0 s2 (55 * (h * s2)).
Proof.
  destruct ends_p as (A & _). destruct s2_b as (P & P1 & _). destruct hk' as (H0 & H1 & _). pose proof N0 as NP. pose proof (rb_pos _ _ SL) as L0. pose proof (rb_pos _ _ SH) as H2. assert (RS : rb (q + 1) S) by (exact (rb_S q lo hi SL SH)).
  assert (E : S / (2 * N) = s2) by (field; lra). assert (HS : 0 < h * s2) by (apply Rmult_lt_0_compat; lra).
  assert (M : ml (54 * h) pc0 s2).
  { apply (ml_weak (31 * h + 22 * h + h)); [lra|]. refine (ml_eq _ _ _ _ (div_ml H24 _ _ _ _ _ _ A den_ml _ _ _) E); [lra|lra|]. apply (rb_wk (q + 1 + (1 + q))); [lia|apply rb_div; [exact RS|apply rb_mul; [exact rb_2|exact SN]]]. }
  eapply near_weak; [apply (ml_near' _ _ _ M); lra|]. rewrite Rabs_pos_eq by lra. lra.
Qed.
Lemma s2_bound m e : (2 * q + e < emax)%Z -> m <= bpow radix2 e -> m * s2 <= bpow radix2 (emax - 1).
Proof.
  intros E M. destruct s2_b as (P & P1 & _). apply (Rle_trans _ (bpow radix2 e * bpow radix2 (2 * q))); [|rewrite <- bpow_plus; apply bpow_le; lia]. apply (Rle_trans _ (bpow radix2 e * s2)); [apply Rmult_le_compat_r; lra|apply Rmult_le_compat_l; [apply bpow_ge_0|exact P1]].
Qed.
Lemma pc3s_near : fnear pc3s ((Hi - L) * iN / 2) (61 * (h * s2)).
Proof.
  destruct ends_p as (_ & A). destruct s2_b as (P & P1 & T). destruct hk' as (H0 & H1 & _). pose proof N0 as NP. pose proof (rb_pos _ _ SL) as L0. pose proof (rb_pos _ _ SH) as H2. pose proof (u_small H24) as U. destruct inv_b as (I1 & _).
  assert (HS : 0 < h * s2) by (apply Rmult_lt_0_compat; lra). assert (HH : h * (h * s2) <= / 10000000 * (h * s2)) by (apply Rmult_le_compat_r; lra).
  apply (near_eq _ ((Hi - L) / (2 * N))); [|field; lra]. eapply near_weak; [apply (div_abs _ _ _ _ _ _ S A den_ml)|].
  - lra.
  - lra.
  - apply Rabs_le. lra.
  - rewrite (Rabs_pos_eq (2 * N)) by lra. replace (2 * ((S + 37 * h * S) / (2 * N))) with ((2 + 74 * h) * s2) by (field; lra). apply (s2_bound _ 2); [lia|change (bpow radix2 2) with 4; lra].
  - rewrite (Rabs_pos_eq (2 * N)) by lra.
    replace ((37 * h * S + (64 / 63 * (22 * h) + 65 / 63 * u) * (S + 37 * h * S)) / (2 * N)) with ((37 + (64 / 63 * 22 + 65 / 63 * (15 / 16))) * (h * s2) + (64 / 63 * 22 + 65 / 63 * (15 / 16)) * 37 * (h * (h * s2))) by (field; lra). lra.
Qed.
Variable p : fl.
Hypothesis Fp : is_finite p = true.
Hypothesis PB : Rabs (B2R p) <= 5 / 4.
Notation X := ((S * B2R p + (Hi - L)) * iN / 2).
Definition pnum : fl := nadd (nmul pc0 p) pc3s.
Lemma X_b : Rabs (s2 * B2R p) <= 5 / 4 * s2 /\ Rabs ((Hi - L) * iN / 2) <= s2 /\ X = s2 * B2R p + (Hi - L) * iN / 2 /\ Rabs X <= 9 / 4 * s2.
Proof.
  destruct s2_b as (P & _). pose proof (rb_pos _ _ SL) as L0. pose proof (rb_pos _ _ SH) as H2. destruct inv_b as (I1 & _). assert (A : Rabs (s2 * B2R p) <= 5 / 4 * s2) by (rewrite Rabs_mult, (Rabs_pos_eq s2), Rmult_comm by lra; apply Rmult_le_compat_r; lra).
  assert (B : Rabs ((Hi - L) * iN / 2) <= s2). { replace ((Hi - L) * iN / 2) with ((Hi - L) * (iN / 2)) by (field; pose proof N0; lra). replace s2 with (S * (iN / 2)) by (field; pose proof N0; lra). rewrite Rabs_mult, (Rabs_pos_eq (iN / 2)) by lra. apply Rmult_le_compat_r; [lra|]. apply Rabs_le. lra. }
  assert (E : X = s2 * B2R p + (Hi - L) * iN / 2) by (field; pose proof N0; lra). split; [exact A|]. split; [exact B|]. split; [exact E|]. rewrite E. eapply Rle_trans; [apply Rabs_triang|lra].
Qed.
Lemma pnum_near : fnear pnum X (134 * (h * s2)).
Proof.
  destruct X_b as (A & B & E & EB). destruct s2_b as (P & P1 & T). destruct hk' as (H0 & H1 & _). pose proof (u_small H24) as U. rewrite E in EB |- *. assert (HS : 0 < h * s2) by (apply Rmult_lt_0_compat; lra). assert (HS2 : h * s2 <= / 10000000 * s2) by (apply Rmult_le_compat_r; lra). assert (UU : u * (h * s2) <= / 16777216 * (h * s2)) by (apply Rmult_le_compat_r; lra).
  set (hs := h * s2) in *. assert (US : u * s2 = 15 / 16 * hs) by (unfold hs; lra).
  assert (ZN : fnear p (B2R p) 0) by (split; [exact Fp|rewrite Rminus_diag_eq by reflexivity; rewrite Rabs_R0; lra]).
  assert (B3 : 8 * s2 <= bpow radix2 (emax - 1)) by (apply (s2_bound _ 3); [lia|change (bpow radix2 3) with 8; lra]).
  assert (M : fnear (nmul pc0 p) (s2 * B2R p) (70 * hs)).
  { eapply near_weak; [apply (mul_abs _ _ _ _ _ _ s2 (5 / 4) pc0_near ZN); [rewrite Rabs_pos_eq; lra|exact PB|fold hs; lra]|]. fold hs.
    replace (55 * hs * (5 / 4 + 0) + s2 * 0 + u * ((s2 + 55 * hs) * (5 / 4 + 0)) + tiny) with (275 / 4 * hs + 5 / 4 * (u * s2) + 275 / 4 * (u * hs) + tiny) by (field; pose proof N0; lra). lra. }
  eapply near_weak; [apply (add_abs _ _ _ _ _ _ (9 / 4 * s2) M pc3s_near EB); fold hs; lra|]. fold hs. replace (u * (9 / 4 * s2 + (70 * hs + 61 * hs))) with (9 / 4 * (u * s2) + 131 * (u * hs)) by ring. lra.
Qed.
Definition pside : fl := nmul pnum pinv.
Lemma pside_near : fnear pside (X * d) (170 * u * (S * (d * iN * (d * iN)))).
Proof.
  destruct X_b as (_ & _ & _ & EB). destruct s2_b as (P & P1 & T). destruct hk' as (H0 & H1 & _). pose proof (u_small H24) as U. destruct d_b as (D1 & D2 & D3 & D4). destruct d_big as (DB & DT). pose proof pnum_near as PNn. pose proof pinv_near as PI.
  assert (HS : 0 < h * s2) by (apply Rmult_lt_0_compat; lra). assert (HS2 : h * s2 <= / 10000000 * s2) by (apply Rmult_le_compat_r; lra). set (hs := h * s2) in *. set (uQ := u * Q). assert (UQ0 : 0 < uQ) by (apply Rmult_lt_0_compat; lra). assert (UQ : 59 * uQ <= 37 / 1000 * d) by (unfold uQ; lra).
  assert (SD : 0 < s2 * d) by (apply Rmult_lt_0_compat; lra). assert (BB : (9 / 4 * s2 + 134 * hs) * (d + 59 * u * Q) <= 3 * (s2 * d)).
  { replace (59 * u * Q) with (59 * uQ) by (unfold uQ; ring). apply (Rle_trans _ (23 / 10 * s2 * (11 / 10 * d))); [apply Rmult_le_compat; lra|]. lra. }
  assert (TD : tiny <= u * (s2 * d) / 1000).
  { apply (tiny_le (3 * q + 1)); [lia|]. pose proof SN as (SN1 & SN2). pose proof N0 as NP. destruct inv_b as (I1 & _ & _ & _ & I5 & _). pose proof SL as (L1 & L2). pose proof SH as (HH1 & HH2). pose proof (bpow_gt_0 radix2 (- q)) as BP.
    assert (X1 : bpow radix2 (- q) * bpow radix2 (- q) <= s2) by (assert (2 * bpow radix2 (- q) * bpow radix2 (- q) <= S * iN) by (apply Rmult_le_compat; lra); lra).
    assert (BP2 : 0 < bpow radix2 (- q) * bpow radix2 (- q)) by (apply Rmult_lt_0_compat; lra). assert (X2 : bpow radix2 (- q) * bpow radix2 (- q) * (bpow radix2 (- q) * bpow radix2 (-1)) <= s2 * d) by (apply Rmult_le_compat; change (bpow radix2 (-1)) with (/ 2); lra).
    replace (- (3 * q + 1))%Z with (- q + - q + (- q + -1))%Z by ring. rewrite !bpow_plus. exact X2. }
  assert (BD : 3 * (s2 * d) <= bpow radix2 (emax - 1)).
  { pose proof SF as (SF1 & SF2). apply (Rle_trans _ (bpow radix2 (2 * q) * (bpow radix2 2 * bpow radix2 q))).
    - replace (3 * (s2 * d)) with (s2 * (3 * d)) by ring. apply Rmult_le_compat; [lra|lra|exact P1|change (bpow radix2 2) with 4; lra].
    - rewrite <- !bpow_plus. apply bpow_le. lia. }
  eapply near_weak; [apply (mul_abs _ _ _ _ _ _ (9 / 4 * s2) d PNn PI EB); [rewrite Rabs_pos_eq; lra|lra]|].
  set (uSQ := u * (s2 * Q)). replace (170 * u * (S * (d * iN * (d * iN)))) with (340 * uSQ) by (unfold uSQ; field; pose proof N0; lra).
  assert (X1 : 9 / 4 * s2 * (59 * u * Q) = 9 / 4 * 59 * uSQ) by (unfold uSQ; ring). assert (USD : u * (s2 * d) <= 11 / 8 * uSQ) by (replace (11 / 8 * uSQ) with (u * (s2 * (11 / 8 * Q))) by (unfold uSQ; ring); apply Rmult_le_compat_l; [lra|apply Rmult_le_compat_l; lra]).
  assert (X2 : 134 * hs * (d + 59 * u * Q) <= 134 * hs * (1037 / 1000 * d)) by (replace (59 * u * Q) with (59 * uQ) by (unfold uQ; ring); apply Rmult_le_compat_l; lra).
  replace (134 * hs * (1037 / 1000 * d)) with (134 * (1037 / 1000) * (16 / 15) * (u * (s2 * d))) in X2 by (unfold hs; ring).
  assert (X3 : u * ((9 / 4 * s2 + 134 * hs) * (d + 59 * u * Q)) <= 234 / 100 * (u * (s2 * d))).
  { replace (234 / 100 * (u * (s2 * d))) with (u * (234 / 100 * (s2 * d))) by ring. apply Rmult_le_compat_l; [lra|]. replace (59 * u * Q) with (59 * uQ) by (unfold uQ; ring). apply (Rle_trans _ (2251 / 1000 * s2 * (1037 / 1000 * d))); [apply Rmult_le_compat; lra|]. lra. }
  rewrite X1. assert (0 < uSQ) by (unfold uSQ; apply Rmult_lt_0_compat; [lra|apply Rmult_lt_0_compat; lra]). lra.
Qed.
End Side.
End Z.
End P.
