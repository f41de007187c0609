(** Projecting a point in floats and taking it back. *)

From Coq Require Import List Arith ZArith Bool Lia Reals Lra Psatz.
From Flocq Require Import Core.Core Relative IEEE754.BinarySingleNaN.
From Verif Require Import Base Scalar Spec SpecF SpecProjection SpecUnp MVector MMatrix MPoint MFloat MProjection
  LBase LVector LFloat LFloatP LFloatVec LTrScF LSlerpS LProjF LProjFP LUnpF LUnpG LUnpH LUnpI LUnpJ LUnpK.
Local Open Scope R_scope.

(** ** Exact coordinates *)
Section R.
Variables N F L Hi d x u : R.
Hypothesis N0 : 0 < N.
Hypothesis NF : 2 * N <= F.
Hypothesis L0 : 0 < L.
Hypothesis H0 : 0 < Hi.
Hypothesis dB : N <= d <= F.
Hypothesis xB : - L * d <= x * N <= Hi * d.
Hypothesis U0 : 0 < u.
Hypothesis KU : 2048 * u * F <= N.
Notation iN := (/ N).
Notation iF := (/ F).
Notation S := (Hi + L).
Lemma side_in : -1 <= persp_side N L Hi d x <= 1.
Proof.
  unfold persp_side. assert (D : - L <= N * x / d <= Hi) by (split; apply (Rmult_le_reg_r d); try lra; unfold Rdiv; rewrite (Rmult_assoc (N * x)), Rinv_l by lra; lra).
  assert (E : 2 * N * x / d = 2 * (N * x / d)) by (field; lra). rewrite E. split; apply (Rmult_le_reg_r S); try lra; unfold Rdiv at 1; rewrite Rmult_assoc, Rinv_l by lra; lra.
Qed.
Lemma depth_in : -1 <= persp_depth N F d <= 1.
Proof.
  assert (E : persp_depth N F d = ((F + N) * d - 2 * F * N) / ((F - N) * d)) by (unfold persp_depth; field; lra). rewrite E. assert (P : 0 < (F - N) * d) by (apply Rmult_lt_0_compat; lra). assert (A : F * N <= F * d) by (apply Rmult_le_compat_l; lra). assert (B : N * d <= N * F) by (apply Rmult_le_compat_l; lra).
  split; apply (Rmult_le_reg_r ((F - N) * d)); try exact P; unfold Rdiv; rewrite Rmult_assoc, Rinv_l by lra; lra.
Qed.
Lemma oside_in x0 : - L <= x0 <= Hi -> -1 <= ortho_side L Hi x0 <= 1.
Proof. intros X. unfold ortho_side. split; apply (Rmult_le_reg_r S); try lra; unfold Rdiv; rewrite Rmult_assoc, Rinv_l by lra; lra. Qed.
Lemma odepth_in : -1 <= ortho_depth N F d <= 1.
Proof. unfold ortho_depth. split; apply (Rmult_le_reg_r (F - N)); try lra; unfold Rdiv; rewrite Rmult_assoc, Rinv_l by lra; lra. Qed.

Variable z : R.
Hypothesis zB : Rabs (z - persp_depth N F d) <= 72 * u.
Notation W := ((iF - iN) / 2 * z + (iF + iN) / 2).
Lemma i_b : 0 < iN /\ 0 < iF /\ iF <= iN / 2.
Proof. assert (F0 : 0 < F) by lra. split; [apply Rinv_0_lt_compat; lra|]. split; [apply Rinv_0_lt_compat; lra|]. apply (Rle_trans _ (/ (2 * N))); [apply Rinv_le_contravar; lra|right; field; lra]. Qed.
Lemma uQ_b : 0 < u * (d * iN) /\ u * (d * iN) <= / 2048 /\ 1 <= d * iN.
Proof.
  destruct i_b as (I1 & _). assert (1 <= d * iN) by (apply (Rmult_le_reg_r N); [lra|]; rewrite Rmult_assoc, Rinv_l by lra; lra). split; [apply Rmult_lt_0_compat; lra|]. split; [|assumption].
  apply (Rmult_le_reg_r N); [lra|]. replace (u * (d * iN) * N) with (u * d) by (field; lra). assert (u * d <= u * F) by (apply Rmult_le_compat_l; lra). lra.
Qed.
Lemma W_near : Rabs (W - / d) <= 36 * u * iN.
Proof.
  destruct i_b as (I1 & I2 & I3). rewrite <- (depth_back N F d _ N0 NF ltac:(lra) eq_refl). match goal with |- Rabs ?t <= _ => replace t with ((iF - iN) / 2 * (z - persp_depth N F d)) by ring end.
  rewrite Rabs_mult. replace (36 * u * iN) with (iN / 2 * (72 * u)) by (field; lra). apply Rmult_le_compat; [apply Rabs_pos|apply Rabs_pos| |exact zB]. apply Rabs_le. lra.
Qed.
Definition dz := / W.
Notation Q := (d * d * iN).
Lemma dz_b : 0 < W /\ 0 < dz <= 1018 / 1000 * d /\ dz <= 5 / 4 * F /\ Rabs (dz - d) <= 367 / 10 * u * Q /\ / dz = W.
Proof.
  destruct i_b as (I1 & I2 & I3). destruct uQ_b as (Q1 & Q2 & Q3). pose proof W_near as A. assert (D0 : 0 < / d) by (apply Rinv_0_lt_compat; lra). unfold dz. set (w := W) in *.
  assert (B : 36 * u * iN <= 36 / 2048 * / d). { apply (Rmult_le_reg_r d); [lra|]. rewrite (Rmult_assoc (36 / 2048)), Rinv_l by lra. replace (36 * u * iN * d) with (36 * (u * (d * iN))) by ring. lra. }
  assert (WL : 9824 / 10000 * / d <= w) by (apply Rabs_le_inv in A; lra). assert (W0 : 0 < w) by lra. assert (IW : 0 < / w) by (apply Rinv_0_lt_compat; exact W0).
  assert (IB : / w <= 1018 / 1000 * d). { apply (Rmult_le_reg_r w); [exact W0|]. rewrite Rinv_l by lra. apply (Rle_trans _ (1018 / 1000 * d * (9824 / 10000 * / d))); [replace (1018 / 1000 * d * (9824 / 10000 * / d)) with (1018 / 1000 * (9824 / 10000)) by (field; lra); lra|apply Rmult_le_compat_l; lra]. }
  split; [exact W0|]. split; [split; assumption|]. split; [lra|]. split; [|apply Rinv_inv].
  replace (/ w - d) with (- ((w - / d) * (d * / w))) by (field; lra). rewrite Rabs_Ropp, Rabs_mult, (Rabs_pos_eq (d * / w)) by (apply Rmult_le_pos; lra).
  apply (Rle_trans _ (36 * u * iN * (d * (1018 / 1000 * d)))); [apply Rmult_le_compat; [apply Rabs_pos|apply Rmult_le_pos; lra|exact A|apply Rmult_le_compat_l; lra]|].
  replace (36 * u * iN * (d * (1018 / 1000 * d))) with (36 * (1018 / 1000) * (u * (d * iN)) * d) by ring. replace (367 / 10 * u * Q) with (367 / 10 * (u * (d * iN)) * d) by ring. apply Rmult_le_compat_r; lra.
Qed.
Lemma Qz_b : dz * dz * iN <= 104 / 100 * Q.
Proof. destruct i_b as (I1 & _). destruct dz_b as (_ & (A1 & A2) & _). replace (104 / 100 * Q) with (104 / 100 * (d * d) * iN) by ring. apply Rmult_le_compat_r; [lra|]. assert (dz * dz <= 1018 / 1000 * d * (1018 / 1000 * d)) by (apply Rmult_le_compat; lra). assert (0 < d * d) by (apply Rmult_lt_0_compat; lra). lra. Qed.

Variable p : R.
Hypothesis pB : Rabs (p - persp_side N L Hi d x) <= 22 * u.
Lemma x_near : Rabs ((S * p + (Hi - L)) * iN / 2 * dz - x) <= 48 * u * (S * (d * iN * (d * iN))).
Proof.
  destruct i_b as (I1 & _). destruct uQ_b as (Q1 & Q2 & Q3). destruct dz_b as (_ & (A1 & A2) & _ & A3 & _). pose proof side_in as SI. assert (E : (S * persp_side N L Hi d x + (Hi - L)) * iN / 2 * d = x) by (apply side_back; [exact N0|lra|lra|reflexivity]). rewrite <- E at 1. set (p0 := persp_side N L Hi d x) in *.
  replace ((S * p + (Hi - L)) * iN / 2 * dz - (S * p0 + (Hi - L)) * iN / 2 * d) with (S * (p - p0) * (iN * dz / 2) + (S * p0 + (Hi - L)) * (iN / 2) * (dz - d)) by (field; lra). assert (S0 : 0 < S) by lra.
  eapply Rle_trans; [apply Rabs_triang|]. rewrite (Rabs_mult _ (iN * dz / 2)), (Rabs_mult _ (dz - d)), (Rabs_mult _ (p - p0)), (Rabs_mult _ (iN / 2)), (Rabs_pos_eq S), (Rabs_pos_eq (iN / 2)) by lra. assert (ID : 0 < iN * dz) by (apply Rmult_lt_0_compat; assumption). rewrite (Rabs_pos_eq (iN * dz / 2)) by lra.
  set (T := S * (d * iN * (d * iN))). assert (SDI : S * (d * iN) <= T) by (unfold T; apply Rmult_le_compat_l; [lra|]; rewrite <- (Rmult_1_l (d * iN)) at 1; apply Rmult_le_compat_r; lra).
  assert (X1 : S * Rabs (p - p0) * (iN * dz / 2) <= S * (22 * u) * (iN * (1018 / 1000 * d) / 2)).
  { apply Rmult_le_compat; [apply Rmult_le_pos; [lra|apply Rabs_pos]|lra|apply Rmult_le_compat_l; lra|]. assert (iN * dz <= iN * (1018 / 1000 * d)) by (apply Rmult_le_compat_l; lra). lra. }
  assert (SP : - S <= S * p0 <= S) by (assert (S * p0 <= S * 1) by (apply Rmult_le_compat_l; lra); assert (S * -1 <= S * p0) by (apply Rmult_le_compat_l; lra); lra).
  assert (X2 : Rabs (S * p0 + (Hi - L)) * (iN / 2) * Rabs (dz - d) <= 2 * S * (iN / 2) * (367 / 10 * u * Q)).
  { apply Rmult_le_compat; [apply Rmult_le_pos; [apply Rabs_pos|lra]|apply Rabs_pos| |exact A3]. apply Rmult_le_compat_r; [lra|]. apply Rabs_le. lra. }
  replace (S * (22 * u) * (iN * (1018 / 1000 * d) / 2)) with (11 * (1018 / 1000) * (u * (S * (d * iN)))) in X1 by (field; lra). replace (2 * S * (iN / 2) * (367 / 10 * u * Q)) with (367 / 10 * (u * T)) in X2 by (unfold T; field; lra).
  assert (u * (S * (d * iN)) <= u * T) by (apply Rmult_le_compat_l; lra). assert (0 < u * (S * (d * iN))) by (apply Rmult_lt_0_compat; [lra|apply Rmult_lt_0_compat; lra]). lra.
Qed.
End R.

Section T.
Context {prec emax : Z} {Hp : Prec_gt_0 prec} {He : Prec_lt_emax prec emax}.
Notation fl := (binary_float prec emax).
Lemma fnear_tr (x : fl) v w a b : fnear x v a -> Rabs (v - w) <= b -> fnear x w (a + b).
Proof. intros (A & B) C. split; [exact A|]. replace (B2R x - w) with ((B2R x - v) + (v - w)) by ring. eapply Rle_trans; [apply Rabs_triang|lra]. Qed.
End T.

Lemma size_sum q a b : (0 <= q)%Z -> sized q a -> sized q b -> bpow radix2 (- (q + 1)) <= b + a <= bpow radix2 (q + 1).
Proof.
  intros Q (A1 & A2) (B1 & B2). assert (E : bpow radix2 (q + 1) = 2 * bpow radix2 q) by (rewrite Z.add_comm; exact (bpow_plus radix2 1 q)). assert (bpow radix2 (- (q + 1)) <= bpow radix2 (- q)) by (apply bpow_le; lia). pose proof (bpow_gt_0 radix2 (- q)). lra.
Qed.
Lemma size_up q a : sized q a -> bpow radix2 (- (q + 1)) <= a <= bpow radix2 (q + 1).
Proof. intros (A1 & A2). assert (bpow radix2 (- (q + 1)) <= bpow radix2 (- q)) by (apply bpow_le; lia). assert (bpow radix2 q <= bpow radix2 (q + 1)) by (apply bpow_le; lia). lra. Qed.

Lemma c143_perspective_round_trip :
  forall (prec emax : Z) (Hp : Prec_gt_0 prec) (He : Prec_lt_emax prec emax) (q : Z)
    (left right bottom top near far : binary_float prec emax) (p : point (binary_float prec emax) 3),
    (24 <= prec)%Z -> (1 <= q)%Z -> (6 * q + 31 <= emax)%Z ->
    is_finite left = true -> is_finite right = true -> is_finite bottom = true -> is_finite top = true ->
    is_finite near = true -> is_finite far = true -> (forall i, (i < 3)%nat -> is_finite (vat p i) = true) ->
    let u := bpow radix2 (- prec) in
    let L := B2R left in let R := B2R right in let B := B2R bottom in let T := B2R top in
    let N := B2R near in let F := B2R far in
    let x := B2R (vat p 0) in let y := B2R (vat p 1) in let d := - B2R (vat p 2) in
    side_range prec q L R -> side_range prec q B T -> depth_range prec q N F ->
    in_frustum L R B T N F (v3 x y (- d)) ->
    let m := persp_new left right bottom top near far in
    let r := persp_unproject_point m (persp_project_point m p) in
    fnear (vat r 0) x (225 * u * (R + L) * (d / N) ^ 2) /\
    (B = T -> fnear (vat r 1) y (225 * u * (T + B) * (d / N) ^ 2)) /\
    fnear (vat r 2) (- d) (102 * u * (d * d / N)).
Proof.
  intros prec emax Hp He q left right bottom top near far p H24 Q1 Hq Fl Fr Fb Ft Fn Ff FP u L R B T N F x y d (SL & SR & G1) (SB & ST & G2) (SN & SF & NF & KU) IF m r. assert (q0 : (0 <= q)%Z) by lia.
  assert (NP : 0 < N) by exact (rb_pos q N SN). assert (LP : 0 < L) by exact (rb_pos q L SL). assert (RP : 0 < R) by exact (rb_pos q R SR). assert (BP : 0 < B) by exact (rb_pos q B SB). assert (TP : 0 < T) by exact (rb_pos q T ST). assert (U : 0 < u) by apply bpow_gt_0. assert (US : u <= / 16777216) by apply (u_small H24).
  destruct (c123_perspective_accuracy prec emax Hp He (q + 1) left right bottom top near far p H24 ltac:(lia) ltac:(lia) Fl Fr Fb Ft Fn Ff FP (Rlt_le _ _ LP) (Rlt_le _ _ RP) (Rlt_le _ _ BP) (Rlt_le _ _ TP) (size_sum q L R q0 SL SR) (size_sum q B T q0 SB ST) (size_up q N SN) (size_up q F SF) NF IF) as (A0 & A1 & A2). fold m u L R B T N F x y d in A0, A1, A2.
  unfold r. set (c := persp_project_point m p) in *. unfold m. rewrite unproj_eq. destruct (v3_at (pside near far (vat c 2) left right (vat c 0)) (pside near far (vat c 2) bottom top (vat c 1)) (pdepth near far (vat c 2))) as (-> & -> & ->).
  destruct IF as (D & X & Y). cbn [v3 vat vget fst snd] in D, X, Y. change (vat (v3 x y (- d)) 2) with (- d) in D. change (vat (v3 x y (- d)) 0) with x in X. change (vat (v3 x y (- d)) 1) with y in Y. change (vat (v3 x y (- d)) 2) with (- d) in X. change (vat (v3 x y (- d)) 2) with (- d) in Y. rewrite Ropp_involutive in D, X, Y.
  destruct A0 as (F0 & A0). destruct A2 as (F2 & A2).
  destruct (dz_b N F d u NP NF D U KU _ A2) as (W0 & (Z1 & Z2) & Z3 & Z4 & Z5). set (e := dz N F (B2R (vat c 2))) in *. pose proof (Qz_b N F d u NP NF D U KU _ A2) as QB. fold e in QB.
  assert (IN : 0 < / N) by (apply Rinv_0_lt_compat; exact NP). set (V := u * (d * d * / N)) in *. assert (VP : 0 < V) by (apply Rmult_lt_0_compat; [exact U|apply Rmult_lt_0_compat; [apply Rmult_lt_0_compat; lra|exact IN]]).
  assert (C2 : Rabs (B2R (vat c 2)) <= 5 / 4) by (pose proof (depth_in N F d NP NF D); apply Rabs_le; apply Rabs_le_inv in A2; lra).
  assert (side : forall lo hi, is_finite lo = true -> is_finite hi = true -> side_range prec q (B2R lo) (B2R hi) -> forall (pc : binary_float prec emax) x0, - B2R lo * d <= x0 * N <= B2R hi * d -> fnear pc (persp_side N (B2R lo) (B2R hi) d x0) (22 * u) ->
    fnear (pside near far (vat c 2) lo hi pc) x0 (225 * u * (B2R hi + B2R lo) * (d / N) ^ 2)).
  { intros lo hi Flo Fhi (S1 & S2 & G) pc x0 X0 (Fpc & Apc). assert (P1 : 0 < B2R lo) by exact (rb_pos q _ S1). assert (P2 : 0 < B2R hi) by exact (rb_pos q _ S2).
    assert (C : Rabs (B2R pc) <= 5 / 4) by (pose proof (side_in N F (B2R lo) (B2R hi) d x0 NP P1 P2 D X0); apply Rabs_le; apply Rabs_le_inv in Apc; lra).
    pose proof (pside_near H24 q q0 Hq near far Fn Ff SN SF NF KU (vat c 2) F2 C2 e Z1 Z3 (eq_sym Z5) lo hi Flo Fhi S1 S2 G pc Fpc C) as A. pose proof (x_near N F (B2R lo) (B2R hi) d x0 u NP NF P1 P2 D X0 U KU _ A2 _ Apc) as B0. fold e in B0.
    eapply near_weak; [exact (fnear_tr _ _ _ _ _ A B0)|]. fold u N. assert (E1 : e * / N * (e * / N) <= 104 / 100 * (d * / N * (d * / N))).
    { replace (e * / N * (e * / N)) with (e * e * / N * / N) by ring. replace (104 / 100 * (d * / N * (d * / N))) with (104 / 100 * (d * d * / N) * / N) by ring. apply Rmult_le_compat_r; lra. }
    set (S := B2R hi + B2R lo) in *. assert (E2 : u * (S * (e * / N * (e * / N))) <= u * (S * (104 / 100 * (d * / N * (d * / N))))) by (apply Rmult_le_compat_l; [lra|apply Rmult_le_compat_l; [unfold S; lra|exact E1]]).
    assert (VS : 0 < u * (S * (d * / N * (d * / N)))) by (apply Rmult_lt_0_compat; [lra|apply Rmult_lt_0_compat; [unfold S; lra|apply Rmult_lt_0_compat; apply Rmult_lt_0_compat; lra]]). replace (225 * u * S * (d / N) ^ 2) with (225 * (u * (S * (d * / N * (d * / N))))) by (field; lra). lra. }
  split; [|split].
  - apply (side left right Fl Fr (conj SL (conj SR G1)) _ _ X). split; [exact F0|exact A0].
  - intros BT. apply (side bottom top Fb Ft (conj SB (conj ST G2)) _ _ Y). destruct (A1 BT) as (F1 & E1). split; [exact F1|]. fold B T. lra.
  - assert (Z6 : Rabs (- e - - d) <= 367 / 10 * V) by (replace (- e - - d) with (- (e - d)) by ring; rewrite Rabs_Ropp; unfold V; lra).
    eapply near_weak; [exact (fnear_tr _ _ _ _ _ (pdepth_near H24 q q0 Hq near far Fn Ff SN SF NF KU (vat c 2) F2 C2 e Z1 Z3 (eq_sym Z5)) Z6)|]. fold u N.
    assert (u * (e * e * / N) <= u * (104 / 100 * (d * d * / N))) by (apply Rmult_le_compat_l; lra). replace (102 * u * (d * d / N)) with (102 * V) by (unfold V; field; lra). unfold V in *. lra.
Qed.

Lemma c143_orthographic_round_trip :
  forall (prec emax : Z) (Hp : Prec_gt_0 prec) (He : Prec_lt_emax prec emax) (q : Z)
    (left right bottom top near far : binary_float prec emax) (p : point (binary_float prec emax) 3),
    (24 <= prec)%Z -> (1 <= q)%Z -> (6 * q + 31 <= emax)%Z ->
    is_finite left = true -> is_finite right = true -> is_finite bottom = true -> is_finite top = true ->
    is_finite near = true -> is_finite far = true -> (forall i, (i < 3)%nat -> is_finite (vat p i) = true) ->
    let u := bpow radix2 (- prec) in
    let L := B2R left in let R := B2R right in let B := B2R bottom in let T := B2R top in
    let N := B2R near in let F := B2R far in
    let x := B2R (vat p 0) in let y := B2R (vat p 1) in let d := - B2R (vat p 2) in
    side_range prec q L R -> side_range prec q B T -> depth_range prec q N F ->
    in_box L R B T N F (v3 x y (- d)) ->
    let m := ortho_new left right bottom top near far in
    let r := ortho_unproject_point m (ortho_project_point m p) in
    fnear (vat r 0) x (26 * u * (R + L)) /\ fnear (vat r 1) y (26 * u * (T + B)) /\ fnear (vat r 2) (- d) (79 * u * F).
Proof.
  intros prec emax Hp He q left right bottom top near far p H24 Q1 Hq Fl Fr Fb Ft Fn Ff FP u L R B T N F x y d (SL & SR & G1) (SB & ST & G2) (SN & SF & NF & KU) IB m r. assert (q0 : (0 <= q)%Z) by lia. assert (Hq4 : (4 * q + 31 <= emax)%Z) by lia.
  assert (NP : 0 < N) by exact (rb_pos q N SN). assert (LP : 0 < L) by exact (rb_pos q L SL). assert (RP : 0 < R) by exact (rb_pos q R SR). assert (BP : 0 < B) by exact (rb_pos q B SB). assert (TP : 0 < T) by exact (rb_pos q T ST). assert (U : 0 < u) by apply bpow_gt_0. assert (US : u <= / 16777216) by apply (u_small H24).
  destruct (c123_orthographic_accuracy prec emax Hp He (q + 1) left right bottom top near far p H24 ltac:(lia) ltac:(lia) Fl Fr Fb Ft Fn Ff FP (Rlt_le _ _ LP) (Rlt_le _ _ RP) (Rlt_le _ _ BP) (Rlt_le _ _ TP) (size_sum q L R q0 SL SR) (size_sum q B T q0 SB ST) (size_up q N SN) (size_up q F SF) NF IB) as (A0 & A1 & A2). fold m u L R B T N F x y d in A0, A1, A2.
  unfold r. set (c := ortho_project_point m p) in *. unfold m. rewrite ounproj_eq. destruct (v3_at (oside left right (vat c 0)) (oside bottom top (vat c 1)) (odepth near far (vat c 2))) as (-> & -> & ->).
  destruct IB as (X & Y & D). change (vat (v3 x y (- d)) 2) with (- d) in D. change (vat (v3 x y (- d)) 0) with x in X. change (vat (v3 x y (- d)) 1) with y in Y. rewrite Ropp_involutive in D.
  assert (side : forall lo hi, is_finite lo = true -> is_finite hi = true -> side_range prec q (B2R lo) (B2R hi) -> forall (pc : binary_float prec emax) x0, - B2R lo <= x0 <= B2R hi -> fnear pc (ortho_side (B2R lo) (B2R hi) x0) (15 * u) ->
    fnear (oside lo hi pc) x0 (26 * u * (B2R hi + B2R lo))).
  { intros lo hi Flo Fhi (S1 & S2 & G) pc x0 X0 (Fpc & Apc). assert (P1 : 0 < B2R lo) by exact (rb_pos q _ S1). assert (P2 : 0 < B2R hi) by exact (rb_pos q _ S2). set (S := B2R hi + B2R lo) in *. assert (S0 : 0 < S) by (unfold S; lra).
    assert (C : Rabs (B2R pc) <= 5 / 4) by (pose proof (oside_in (B2R lo) (B2R hi) P1 P2 x0 X0); apply Rabs_le; apply Rabs_le_inv in Apc; lra).
    pose proof (oside_near H24 q q0 Hq lo hi Flo Fhi S1 S2 G pc Fpc C) as A. fold S u in A. assert (E : (S * ortho_side (B2R lo) (B2R hi) x0 + (B2R hi - B2R lo)) / 2 = x0) by (apply oside_back; [exact S0|reflexivity]).
    assert (B0 : Rabs ((S * B2R pc + (B2R hi - B2R lo)) / 2 - x0) <= 15 / 2 * (u * S)).
    { rewrite <- E. set (o := ortho_side (B2R lo) (B2R hi) x0) in *. replace ((S * B2R pc + (B2R hi - B2R lo)) / 2 - (S * o + (B2R hi - B2R lo)) / 2) with (S * (B2R pc - o) / 2) by field. unfold Rdiv. rewrite !Rabs_mult, (Rabs_pos_eq S), (Rabs_pos_eq (/ 2)) by lra. assert (S * Rabs (B2R pc - o) <= S * (15 * u)) by (apply Rmult_le_compat_l; lra). lra. }
    eapply near_weak; [exact (fnear_tr _ _ _ _ _ A B0)|]. assert (0 < u * S) by (apply Rmult_lt_0_compat; assumption). lra. }
  split; [|split].
  - exact (side left right Fl Fr (conj SL (conj SR G1)) _ _ X A0).
  - exact (side bottom top Fb Ft (conj SB (conj ST G2)) _ _ Y A1).
  - destruct A2 as (F2 & A2). pose proof (odepth_in N F d NP NF D) as OI. assert (C : Rabs (B2R (vat c 2)) <= 5 / 4) by (apply Rabs_le; apply Rabs_le_inv in A2; lra).
    assert (E : - (((F - N) * ortho_depth N F d + (F + N)) / 2) = - d) by (apply odepth_back; [exact NP|exact NF|reflexivity]). set (z := B2R (vat c 2)) in *. set (o := ortho_depth N F d) in *.
    assert (B0 : Rabs (- (((F - N) * z + (F + N)) / 2) - - d) <= 27 * (u * F)).
    { rewrite <- E. replace (- (((F - N) * z + (F + N)) / 2) - - (((F - N) * o + (F + N)) / 2)) with (- ((F - N) * (z - o) / 2)) by field. rewrite Rabs_Ropp. unfold Rdiv. rewrite !Rabs_mult, (Rabs_pos_eq (F - N)), (Rabs_pos_eq (/ 2)) by lra.
      assert ((F - N) * Rabs (z - o) <= F * (54 * u)) by (apply Rmult_le_compat; [lra|apply Rabs_pos|lra|lra]). lra. }
    eapply near_weak; [exact (fnear_tr _ _ _ _ _ (odepth_near H24 q q0 Hq4 near far Fn Ff SN SF NF KU (vat c 2) F2 C) B0)|]. fold u F. lra.
Qed.
