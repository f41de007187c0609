(** The planes read back from projections in floats: left, right, bottom and top. *)

From Coq Require Import List Arith ZArith Bool Lia Reals Lra Psatz.
From Flocq Require Import Core.Core Relative IEEE754.BinarySingleNaN.
From Verif Require Import Base Scalar Spec SpecF SpecProjection MVector MMatrix MPoint MFloat MProjection
  LBase LVector LFloat LFloatP LFloatVec LTrScF LSlerpS LProjF LUnpF LUnpG.
Local Open Scope R_scope.

(** ** Absolute errors *)
Section B.
Context {prec emax : Z} {Hp : Prec_gt_0 prec} {He : Prec_lt_emax prec emax}.
Notation fl := (binary_float prec emax).
Notation u := (bpow radix2 (- prec)).
Notation tiny := (bpow radix2 (2 - emax - prec)).

Lemma abs_le x v a V : Rabs (x - v) <= a -> Rabs v <= V -> Rabs x <= V + a.
Proof. intros A B. replace x with (v + (x - v)) by ring. eapply Rle_trans; [apply Rabs_triang|lra]. Qed.
Lemma mul_abs (x y : fl) v w a b V W : fnear x v a -> fnear y w b -> Rabs v <= V -> Rabs w <= W -> (V + a) * (W + b) <= bpow radix2 (emax - 1) ->
  fnear (nmul x y) (v * w) (a * (W + b) + V * b + u * ((V + a) * (W + b)) + tiny).
Proof.
  intros (Fx & Ex) (Fy & Ey) HV HW M. pose proof (abs_le _ _ _ _ Ex HV) as X. pose proof (abs_le _ _ _ _ Ey HW) as Y. assert (P : Rabs (B2R x * B2R y) <= (V + a) * (W + b)) by (rewrite Rabs_mult; apply Rmult_le_compat; try apply Rabs_pos; assumption).
  destruct (mul_val x y Fx Fy ltac:(lra)) as (F & E). split; [exact F|]. rewrite E. pose proof (rnd_rel (prec := prec) (emax := emax) (B2R x * B2R y)) as Q. assert (0 < u) by apply bpow_gt_0. assert (u * Rabs (B2R x * B2R y) <= u * ((V + a) * (W + b))) by (apply Rmult_le_compat_l; lra).
  match goal with |- Rabs (?r - _) <= _ => replace (r - v * w) with ((r - B2R x * B2R y) + (B2R x - v) * B2R y + v * (B2R y - w)) by ring end.
  eapply Rle_trans; [apply Rabs_triang|]. eapply Rle_trans; [apply Rplus_le_compat_r, Rabs_triang|]. rewrite (Rabs_mult (B2R x - v)), (Rabs_mult v).
  assert (Rabs (B2R x - v) * Rabs (B2R y) <= a * (W + b)) by (apply Rmult_le_compat; try apply Rabs_pos; assumption). assert (Rabs v * Rabs (B2R y - w) <= V * b) by (apply Rmult_le_compat; try apply Rabs_pos; assumption). lra.
Qed.
Lemma add_abs (x y : fl) v w a b V : fnear x v a -> fnear y w b -> Rabs (v + w) <= V -> V + (a + b) <= bpow radix2 (emax - 1) -> fnear (nadd x y) (v + w) (a + b + u * (V + (a + b))).
Proof.
  intros (Fx & Ex) (Fy & Ey) HV M. assert (D : Rabs (B2R x + B2R y - (v + w)) <= a + b) by (replace (B2R x + B2R y - (v + w)) with ((B2R x - v) + (B2R y - w)) by ring; eapply Rle_trans; [apply Rabs_triang|lra]).
  pose proof (abs_le _ _ _ _ D HV) as X. destruct (add_val x y Fx Fy ltac:(lra)) as (F & _ & E). split; [exact F|]. assert (0 < u) by apply bpow_gt_0. assert (u * Rabs (B2R x + B2R y) <= u * (V + (a + b))) by (apply Rmult_le_compat_l; lra).
  replace (B2R (nadd x y) - (v + w)) with ((B2R (nadd x y) - (B2R x + B2R y)) + (B2R x + B2R y - (v + w))) by ring. eapply Rle_trans; [apply Rabs_triang|lra].
Qed.
Lemma neg_near (x : fl) v a : fnear x v a -> fnear (nneg x) (- v) a.
Proof.
  intros (F & E). split; [cbn [nneg num_float]; rewrite is_finite_Bopp; exact F|]. cbn [nneg num_float]. rewrite B2R_Bopp. replace (- B2R x - - v) with (- (B2R x - v)) by ring. rewrite Rabs_Ropp. exact E.
Qed.
Lemma sub_abs (x y : fl) v w a b V : fnear x v a -> fnear y w b -> Rabs (v - w) <= V -> V + (a + b) <= bpow radix2 (emax - 1) -> fnear (nsub x y) (v - w) (a + b + u * (V + (a + b))).
Proof. intros X Y HV M. rewrite fsub_add_neg. unfold Rminus in *. apply add_abs; [exact X|apply neg_near; exact Y|exact HV|exact M]. Qed.
Lemma near_weak (x : fl) v a b : fnear x v a -> a <= b -> fnear x v b.
Proof. intros (F & E) H. split; [exact F|lra]. Qed.
Lemma near_eq (x : fl) v w a : fnear x v a -> v = w -> fnear x w a.
Proof. intros H <-. exact H. Qed.
(** A quotient by a number known up to a factor. *)
Lemma div_abs (x y : fl) v w a f V : fnear x v a -> ml f y w -> 0 <= f <= / 64 -> w <> 0 -> Rabs v <= V -> 2 * ((V + a) / Rabs w) <= bpow radix2 (emax - 1) ->
  fnear (ndiv x y) (v / w) ((a + (64 / 63 * f + 65 / 63 * u) * (V + a)) / Rabs w + tiny).
Proof.
  intros (Fx & Ex) (Fy & By) HF W HV M. pose proof (abs_le _ _ _ _ Ex HV) as X. assert (YN : B2R y <> 0) by (destruct By as (t & _ & ->); pose proof (exp_pos t); apply Rmult_integral_contrapositive_currified; lra).
  pose proof (Rabs_pos_lt w W) as W0. pose proof (Rinv_0_lt_compat _ W0) as WI. set (z := B2R x / w). assert (Z : Rabs z <= (V + a) / Rabs w) by (unfold z, Rdiv; rewrite Rabs_mult, Rabs_inv; apply Rmult_le_compat_r; lra).
  assert (BQ : by_exp (0 + f) (B2R x / B2R y) z) by (apply by_div; [apply by_refl|exact By]). pose proof (near_by' _ _ _ BQ ltac:(lra)) as NQ. destruct (by_abs _ _ _ BQ ltac:(lra)) as (_ & Q2).
  destruct (div_val x y Fx YN ltac:(lra)) as (F & E). split; [exact F|]. rewrite E. pose proof (rnd_rel (prec := prec) (emax := emax) (B2R x / B2R y)) as Q. set (qq := B2R x / B2R y) in *. assert (U : 0 < u) by apply bpow_gt_0.
  assert (Q3 : Rabs qq <= 65 / 63 * Rabs z). { pose proof (abs_le _ _ _ _ NQ (Rle_refl _)) as T. assert (64 / 63 * (0 + f) * Rabs z <= / 63 * Rabs z) by (apply Rmult_le_compat_r; [apply Rabs_pos|lra]). pose proof (Rabs_pos z). lra. }
  assert (Q4 : u * Rabs qq <= u * (65 / 63 * ((V + a) / Rabs w))) by (apply Rmult_le_compat_l; lra). assert (Q5 : 64 / 63 * (0 + f) * Rabs z <= 64 / 63 * f * ((V + a) / Rabs w)) by (rewrite Rplus_0_l; apply Rmult_le_compat_l; lra).
  assert (Q6 : Rabs (z - v / w) <= a / Rabs w). { unfold z. replace (B2R x / w - v / w) with ((B2R x - v) * / w) by (field; exact W). rewrite Rabs_mult, Rabs_inv. apply Rmult_le_compat_r; lra. }
  match goal with |- Rabs (?r - _) <= _ => replace (r - v / w) with ((r - qq) + (qq - z) + (z - v / w)) by ring end. eapply Rle_trans; [apply Rabs_triang|]. eapply Rle_trans; [apply Rplus_le_compat_r, Rabs_triang|].
  replace ((a + (64 / 63 * f + 65 / 63 * u) * (V + a)) / Rabs w) with (a / Rabs w + 64 / 63 * f * ((V + a) / Rabs w) + u * (65 / 63 * ((V + a) / Rabs w))) by (field; lra). lra.
Qed.
End B.

Section S.
Context {prec emax : Z} {Hp : Prec_gt_0 prec} {He : Prec_lt_emax prec emax}.
Notation fl := (binary_float prec emax).
Notation u := (bpow radix2 (- prec)).
Notation tiny := (bpow radix2 (2 - emax - prec)).
Notation h := (16 / 15 * u).
Notation two := (nadd n1 n1 : fl).
Hypothesis H24 : (24 <= prec)%Z.
Variable q : Z.
Hypothesis q0 : (0 <= q)%Z.
Hypothesis Hq : (6 * q + 31 <= emax)%Z.
Variables lo hi : fl.
Hypothesis Fl : is_finite lo = true.
Hypothesis Fh : is_finite hi = true.
Notation L := (B2R lo).
Notation Hi := (B2R hi).
Hypothesis SL : rb q L.
Hypothesis SH : rb q Hi.
Notation S := (Hi + L).
Hypothesis GU : 2048 * u * (S * S) <= Hi * L.
Notation G := (S * S / (Hi * L)).
Notation width := (nsub hi (nneg lo)).
Notation skew := (nadd hi (nneg lo)).

Lemma L_pos : 0 < L. Proof. exact (rb_pos q L SL). Qed.
Lemma H_pos : 0 < Hi. Proof. exact (rb_pos q Hi SH). Qed.
Lemma G_ge : 4 <= G.
Proof.
  pose proof L_pos. pose proof H_pos. assert (P : 0 < Hi * L) by (apply Rmult_lt_0_compat; assumption). apply (Rmult_le_reg_r (Hi * L)); [exact P|]. unfold Rdiv. rewrite Rmult_assoc, Rinv_l by lra. pose proof (Rle_0_sqr (Hi - L)) as Q. unfold Rsqr in Q. nra.
Qed.
Lemma Gh : 0 < h /\ h <= / 10000000 /\ 2048 * (h * G) <= 16 / 15.
Proof.
  pose proof (u_small H24) as U. pose proof L_pos. pose proof H_pos. assert (P : 0 < Hi * L) by (apply Rmult_lt_0_compat; assumption). split; [lra|split; [lra|]]. apply (Rmult_le_reg_r (Hi * L)); [exact P|].
  replace (2048 * (h * G) * (Hi * L)) with (16 / 15 * (2048 * u * (S * S))) by (field; lra). lra.
Qed.
Lemma G_split : S / Hi + S / L = G /\ 0 < S / Hi /\ 0 < S / L.
Proof.
  pose proof L_pos. pose proof H_pos. split; [field; lra|]. split; apply Rdiv_lt_0_compat; lra.
Qed.
Lemma rb_S : rb (q + 1) S.
Proof.
  pose proof L_pos. pose proof H_pos. pose proof (rb_weak q (q + 1) L ltac:(lia) SL) as (A1' & _). destruct SL as (A1 & A2), SH as (B1 & B2). assert (E : bpow radix2 (q + 1) = 2 * bpow radix2 q) by (rewrite Z.add_comm; exact (bpow_plus radix2 1 q)). split; lra.
Qed.
Lemma neg_lo : is_finite (nneg lo) = true /\ B2R (nneg lo) = - L.
Proof. cbn [nneg num_float]. rewrite is_finite_Bopp, B2R_Bopp. split; [exact Fl|reflexivity]. Qed.
Lemma width_ml : ml h width S.
Proof.
  destruct neg_lo as (Fm & Em). apply (ml_weak (0 + h)); [lra|]. apply (sub_ml H24); [exact Fh|exact Fm|rewrite Em; replace (Hi - - L) with S by ring; apply by_refl|lra|].
  pose proof L_pos. pose proof H_pos. destruct rb_S as (B1 & B2). rewrite Rabs_pos_eq by lra. apply (Rle_trans _ (bpow radix2 (q + 1))); [exact B2|apply bpow_le; lia].
Qed.
Lemma tiny_u : tiny <= u / 1000.
Proof. replace (2 - emax - prec)%Z with (- prec + (2 - emax))%Z by ring. rewrite bpow_plus. pose proof (bpow_gt_0 radix2 (- prec)). assert (bpow radix2 (2 - emax) <= / 1024) by (apply (bpow_le radix2 (2 - emax) (-10)); lia). assert (u * bpow radix2 (2 - emax) <= u * / 1024) by (apply Rmult_le_compat_l; lra). lra. Qed.
Lemma sum_big a v : (a <= emax - 2)%Z -> Rabs v <= bpow radix2 a -> Rabs v <= bpow radix2 (emax - 2).
Proof. intros A V. apply (Rle_trans _ (bpow radix2 a)); [exact V|apply bpow_le; lia]. Qed.
Lemma skew_by : is_finite skew = true /\ by_exp h (B2R skew) (Hi - L).
Proof.
  destruct neg_lo as (Fm & Em). pose proof L_pos. pose proof H_pos. destruct rb_S as (B1 & B2). assert (M : Rabs (B2R hi + B2R (nneg lo)) <= bpow radix2 (emax - 1)).
  { rewrite Em. apply (Rle_trans _ (bpow radix2 (q + 1))); [apply Rabs_le; lra|apply bpow_le; lia]. }
  destruct (add_val hi (nneg lo) Fh Fm M) as (F & _ & E). split; [exact F|]. rewrite Em in E. exact (by_round H24 _ _ E).
Qed.
Lemma skew_quot (y : fl) v : is_finite y = true -> by_exp h (B2R y) v -> Rabs v <= S -> fnear (ndiv y width) (v / S) (7 / 2 * u).
Proof.
  intros Fy By V. pose proof L_pos. pose proof H_pos. pose proof (u_small H24) as U. destruct rb_S as (B1 & B2). pose proof (near_by' _ _ _ By ltac:(lra)) as NY. pose proof tiny_u as T.
  assert (X : Rabs (B2R y - v) <= 64 / 63 * h * S) by (eapply Rle_trans; [exact NY|]; apply Rmult_le_compat_l; lra).
  assert (C : (S + 64 / 63 * h * S) / Rabs S = 1 + 64 / 63 * h) by (rewrite (Rabs_pos_eq S) by lra; field; lra).
  assert (B : 4 <= bpow radix2 (emax - 1)) by (apply (bpow_le radix2 2); lia).
  eapply near_weak; [apply (div_abs y width v S (64 / 63 * h * S) h S); [split; [exact Fy|exact X]|exact width_ml|lra|lra|exact V|rewrite C; lra]|].
  replace ((64 / 63 * h * S + (64 / 63 * h + 65 / 63 * u) * (S + 64 / 63 * h * S)) / Rabs S) with (64 / 63 * h + (64 / 63 * h + 65 / 63 * u) * (1 + 64 / 63 * h)) by (rewrite (Rabs_pos_eq S) by lra; field; lra). assert (u * u <= u * / 16777216) by (apply Rmult_le_compat_l; lra). lra.
Qed.

(** ** The ratio right : left *)
Section A.
Variables b b' : fl.
Hypothesis Hb : fnear b ((Hi - L) / S) (7 / 2 * u).
Hypothesis Hb' : fnear b' (- ((Hi - L) / S)) (7 / 2 * u).
Notation rt := (ndiv (nadd b n1) (nadd b' n1)).
Notation eta := ((7 / 4 * G + 3) * h).
Notation rho := (Hi / L).

Lemma one_val : is_finite (n1 : fl) = true /\ B2R (n1 : fl) = 1.
Proof. destruct (fbone (prec := prec) (emax := emax)) as (O & F & _). split; assumption. Qed.
Lemma plus_ml (c : fl) v X : 0 < X -> X <= S -> S / X <= G -> v + 1 = 2 * X / S -> fnear c v (7 / 2 * u) -> ml (7 / 4 * h * (S / X) + h) (nadd c n1) (2 * X / S).
Proof.
  intros XP XS XG E (Fc & Ec). destruct one_val as (F1 & O). pose proof L_pos. pose proof H_pos. pose proof Gh as (K0 & K1 & K2). pose proof (u_small H24) as U. assert (SX : 0 < S / X) by (apply Rdiv_lt_0_compat; lra).
  assert (hSX : h * (S / X) <= h * G) by (apply Rmult_le_compat_l; lra). assert (P : 0 < 2 * X / S) by (apply Rdiv_lt_0_compat; lra).
  apply (add_ml H24); [exact Fc|exact F1| |lra|].
  - rewrite O. set (r := 7 / 4 * u * (S / X)). apply (by_weak (16 / 15 * r)); [unfold r; lra|]. apply by_near; [|unfold r; split; [apply Rmult_le_pos; lra|lra]].
    rewrite <- E at 1. rewrite (Rabs_pos_eq (2 * X / S)) by lra. replace (B2R c + 1 - (v + 1)) with (B2R c - v) by ring. eapply Rle_trans; [exact Ec|]. unfold r. right. field. lra.
  - rewrite Rabs_pos_eq by lra. assert (2 * X / S <= 2) by (apply (Rmult_le_reg_r S); [lra|]; unfold Rdiv; rewrite Rmult_assoc, Rinv_l by lra; lra).
    apply (Rle_trans _ (bpow radix2 1)); [cbn; lra|apply bpow_le; lia].
Qed.
Lemma rt2_ml : ml eta rt rho.
Proof.
  pose proof L_pos. pose proof H_pos. destruct G_split as (GE & G1 & G2). pose proof Gh as (K0 & K1 & K2).
  assert (M1 : ml (7 / 4 * h * (S / Hi) + h) (nadd b n1) (2 * Hi / S)) by (apply (plus_ml b ((Hi - L) / S)); [lra|lra|lra|field; lra|exact Hb]).
  assert (M2 : ml (7 / 4 * h * (S / L) + h) (nadd b' n1) (2 * L / S)) by (apply (plus_ml b' (- ((Hi - L) / S))); [lra|lra|lra|field; lra|exact Hb']).
  assert (E : 2 * Hi / S / (2 * L / S) = rho) by (field; repeat split; lra). assert (GS : h * (S / Hi) + h * (S / L) = h * G) by (rewrite <- GE; ring).
  apply (ml_weak (7 / 4 * h * (S / Hi) + h + (7 / 4 * h * (S / L) + h) + h)); [lra|]. refine (ml_eq _ _ _ _ (div_ml H24 _ _ _ _ _ _ M1 M2 _ _ _) E).
  - lra.
  - assert (0 < 2 * L / S) by (apply Rdiv_lt_0_compat; lra). lra.
  - rewrite E. apply (rb_wk (q + q)); [lia|apply rb_div; assumption].
Qed.
Lemma eta2_b : 0 <= eta /\ eta <= 5 / 2 * (h * G) /\ eta <= / 700.
Proof.
  pose proof Gh as (K0 & K1 & K2). pose proof G_ge as K. assert (HK : 4 * h <= h * G) by (rewrite (Rmult_comm h G); apply Rmult_le_compat_r; lra). split; [apply Rmult_le_pos; lra|]. split; lra.
Qed.
Notation x := (B2R rt).
Lemma x2_b : Rabs (x - rho) <= 64 / 63 * eta * rho /\ 99 / 100 * rho <= x <= 101 / 100 * rho /\ 0 < rho.
Proof.
  destruct rt2_ml as (_ & B). destruct eta2_b as (E0 & _ & E3). pose proof (near_by' _ _ _ B ltac:(lra)) as NB. pose proof L_pos. pose proof H_pos. assert (K : 0 < rho) by (apply Rdiv_lt_0_compat; assumption).
  rewrite (Rabs_pos_eq rho) in NB by lra. split; [exact NB|].
  apply Rabs_le_inv in NB. assert (64 / 63 * eta * rho <= / 100 * rho) by (apply Rmult_le_compat_r; lra). lra.
Qed.
Lemma rb_x2 : rb (2 * q + 1) x /\ rb (2 * q + 2) (x + 1).
Proof.
  destruct x2_b as (_ & (X1 & X2) & K). assert (R : rb (q + q) rho) by (apply rb_div; assumption). destruct R as (R1 & R2). replace (q + q)%Z with (2 * q)%Z in * by ring.
  assert (B0 : bpow radix2 (- (2 * q)) = 2 * bpow radix2 (- (2 * q + 1))) by (replace (- (2 * q))%Z with (1 + - (2 * q + 1))%Z by ring; exact (bpow_plus radix2 1 (- (2 * q + 1)))).
  assert (B2 : bpow radix2 (2 * q + 1) = 2 * bpow radix2 (2 * q)) by (rewrite Z.add_comm; exact (bpow_plus radix2 1 (2 * q))).
  assert (B3 : bpow radix2 (2 * q + 2) = 4 * bpow radix2 (2 * q)) by (rewrite Z.add_comm; exact (bpow_plus radix2 2 (2 * q))). assert (B4 : 1 <= bpow radix2 (2 * q)) by (apply (bpow_le radix2 0); lia).
  assert (B5 : bpow radix2 (- (2 * q + 2)) <= / 4) by (apply (bpow_le radix2 _ (-2)); lia). pose proof (bpow_gt_0 radix2 (- (2 * q + 1))). unfold rb. lra.
Qed.
Notation pp := (x / (x + 1)).
Notation qq := (1 / (x + 1)).
Definition pw : fl := ndiv rt (nadd rt n1).
Definition qw : fl := ndiv n1 (nadd rt n1).
Lemma x1_ml : ml h (nadd rt n1) (x + 1).
Proof.
  destruct rt2_ml as (Fx & _). destruct one_val as (F1 & O). destruct Gh as (K0 & _). apply (ml_weak (0 + h)); [lra|]. apply (add_ml H24); [exact Fx|exact F1|rewrite O; apply by_refl|lra|].
  destruct rb_x2 as (_ & (R1 & R2)). destruct x2_b as (_ & (X1 & _) & K). rewrite Rabs_pos_eq by lra. apply (Rle_trans _ (bpow radix2 (2 * q + 2))); [exact R2|apply bpow_le; lia].
Qed.
Lemma rb_pp : rb (4 * q + 3) pp /\ rb (4 * q + 3) qq.
Proof.
  destruct rb_x2 as (R1 & R2). split; [apply (rb_weak (2 * q + 1 + (2 * q + 2))); [lia|apply rb_div; assumption]|apply (rb_weak (0 + (2 * q + 2))); [lia|apply rb_div; [exact rb_1|assumption]]].
Qed.
Lemma pw_ml : ml (2 * h) pw pp /\ ml (2 * h) qw qq.
Proof.
  destruct rt2_ml as (Fx & _). destruct Gh as (K0 & K1 & _). destruct x2_b as (_ & (X1 & _) & K). destruct rb_pp as (P1 & P2). split; (apply (ml_weak (0 + h + h)); [lra|]).
  - apply (div_ml H24); [apply ml_leaf; exact Fx|exact x1_ml|lra|lra|apply (rb_wk (4 * q + 3)); [lia|exact P1]].
  - apply (div_ml H24); [exact ml_one|exact x1_ml|lra|lra|apply (rb_wk (4 * q + 3)); [lia|exact P2]].
Qed.
Lemma pp_near : Rabs (S * pp - Hi) <= 13 / 5 * h * S /\ Rabs (S * qq - L) <= 13 / 5 * h * S /\ 0 < pp /\ 0 < qq /\ pp + qq = 1.
Proof.
  pose proof L_pos as LP. pose proof H_pos as HP. destruct x2_b as (X0 & (X1 & X2) & K). destruct eta2_b as (E0 & E1 & E2). destruct Gh as (K0 & _). set (hh := h) in *. set (y := x) in *. set (et := (7 / 4 * G + 3) * hh) in *.
  assert (PQ : y / (y + 1) + 1 / (y + 1) = 1) by (field; lra). assert (P1 : 0 < y / (y + 1)) by (apply Rdiv_lt_0_compat; lra). assert (P2 : 0 < 1 / (y + 1)) by (apply Rdiv_lt_0_compat; lra).
  assert (E : S * (y / (y + 1)) - Hi = (y - rho) * L / (y + 1)) by (field; lra). assert (B : Rabs (S * (y / (y + 1)) - Hi) <= 13 / 5 * hh * S).
  { rewrite E. unfold Rdiv at 1. rewrite !Rabs_mult, Rabs_inv, (Rabs_pos_eq L), (Rabs_pos_eq (y + 1)) by lra. apply (Rmult_le_reg_r (y + 1)); [lra|]. rewrite Rmult_assoc, Rinv_l, Rmult_1_r by lra.
    assert (T1 : Rabs (y - rho) * L <= 64 / 63 * et * rho * L) by (apply Rmult_le_compat_r; lra). replace (64 / 63 * et * rho * L) with (64 / 63 * et * Hi) in T1 by (field; lra).
    assert (T2 : 64 / 63 * et * Hi <= 64 / 63 * (5 / 2 * (hh * G)) * Hi) by (apply Rmult_le_compat_r; lra). replace (64 / 63 * (5 / 2 * (hh * G)) * Hi) with (64 / 63 * (5 / 2) * (hh * S * (S / L))) in T2 by (field; lra).
    assert (T3 : 99 / 100 * (S / L) <= y + 1) by (replace (S / L) with (rho + 1) by (field; lra); lra). assert (HS : 0 < hh * S) by (apply Rmult_lt_0_compat; lra).
    assert (T4 : hh * S * (99 / 100 * (S / L)) <= hh * S * (y + 1)) by (apply Rmult_le_compat_l; lra). assert (0 < hh * S * (y + 1)) by (apply Rmult_lt_0_compat; lra). lra. }
  split; [exact B|]. split; [|split; [exact P1|split; [exact P2|exact PQ]]]. replace (S * (1 / (y + 1)) - L) with (- (S * (y / (y + 1)) - Hi)) by (replace (1 / (y + 1)) with (1 - y / (y + 1)) by lra; ring). rewrite Rabs_Ropp. exact B.
Qed.

(** Two floats close to [S * pp] and [S * qq]: each, their sum and their difference. *)
Lemma ends (pr pl : fl) e : 0 <= e <= / 64 -> ml e pr (S * pp) -> ml e pl (S * qq) ->
  fnear pr Hi ((64 / 63 * e + 13 / 5 * h) * S) /\ fnear pl L ((64 / 63 * e + 13 / 5 * h) * S) /\ ml (e + h) (nadd pr pl) S /\ fnear (nsub pr pl) (Hi - L) ((64 / 63 * e + 63 / 10 * h) * S).
Proof.
  intros Eb (Fr & Br) (Fp & Bl). pose proof L_pos as LP. pose proof H_pos as HP. destruct pp_near as (N1 & N2 & P1 & P2 & PQ). pose proof Gh as (K0 & K1 & _). destruct rb_S as (_ & SB).
  assert (SP : 0 < S * pp) by (apply Rmult_lt_0_compat; lra). assert (SQ : 0 < S * qq) by (apply Rmult_lt_0_compat; lra). assert (SS : S * pp + S * qq = S) by (rewrite <- Rmult_plus_distr_l, PQ; ring).
  pose proof (near_by' _ _ _ Br Eb) as A1. rewrite (Rabs_pos_eq (S * pp)) in A1 by lra. pose proof (near_by' _ _ _ Bl Eb) as A2. rewrite (Rabs_pos_eq (S * qq)) in A2 by lra.
  set (sp := S * pp) in *. set (sq := S * qq) in *. set (hh := h) in *. assert (EP : 0 <= 64 / 63 * e * sp) by (apply Rmult_le_pos; lra). assert (EQ : 0 <= 64 / 63 * e * sq) by (apply Rmult_le_pos; lra).
  assert (ES : 64 / 63 * e * sp + 64 / 63 * e * sq = 64 / 63 * e * S) by (rewrite <- Rmult_plus_distr_l, SS; reflexivity).
  assert (HS : 0 < hh * S) by (apply Rmult_lt_0_compat; lra). apply Rabs_le_inv in A1, A2, N1, N2. split; [|split; [|split]].
  - split; [exact Fr|]. apply Rabs_le. lra.
  - split; [exact Fp|]. apply Rabs_le. lra.
  - apply (add_ml H24); [exact Fr|exact Fp| |lra|].
    + rewrite <- SS. apply by_add; [lra|lra|lra|exact Br|exact Bl].
    + rewrite Rabs_pos_eq by lra. apply (Rle_trans _ (bpow radix2 (q + 1))); [exact SB|apply bpow_le; lia].
  - assert (M : Rabs (B2R pr - B2R pl) <= 11 / 10 * S) by (apply Rabs_le; assert (64 / 63 * e * S <= / 63 * S) by (apply Rmult_le_compat_r; lra); assert (hh * S <= / 100 * S) by (apply Rmult_le_compat_r; lra); lra).
    destruct (sub_val pr pl Fr Fp) as (Fs & _ & Es).
    { eapply Rle_trans; [exact M|]. apply (Rle_trans _ (2 * bpow radix2 (q + 1))); [lra|]. rewrite <- (bpow_plus radix2 1 (q + 1) : bpow radix2 (1 + (q + 1)) = 2 * bpow radix2 (q + 1)). apply bpow_le. lia. }
    split; [exact Fs|]. assert (ED : u * Rabs (B2R pr - B2R pl) <= u * (11 / 10 * S)) by (apply Rmult_le_compat_l; [apply bpow_ge_0|exact M]). assert (UH : u = 15 / 16 * hh) by (unfold hh; lra). rewrite UH in ED, Es. apply Rabs_le. clear ES.
    assert (ES2 : 64 / 63 * e * sp + 64 / 63 * e * sq = 64 / 63 * e * S) by (rewrite <- Rmult_plus_distr_l, SS; reflexivity). assert (Es2 : Rabs (B2R (nsub pr pl) - (B2R pr - B2R pl)) <= 15 / 16 * hh * (11 / 10 * S)) by lra. apply Rabs_le_inv in Es2.
    assert (ND : sp - sq - (Hi - L) = 2 * (sp - Hi)) by lra. lra.
Qed.
End A.

(** ** Perspective: left and right *)
Variables near near' : fl.
Hypothesis Fn : is_finite near = true.
Notation N := (B2R near).
Hypothesis SN : rb q N.
Hypothesis HN : ml (21 * h) near' N.
Notation pb := (ndiv skew width).
Notation pc0 := (ndiv (nmul two near) width).
Lemma SL_abs : Rabs (Hi - L) <= S.
Proof. pose proof L_pos. pose proof H_pos. apply Rabs_le. lra. Qed.
Lemma pb_near : fnear pb ((Hi - L) / S) (7 / 2 * u).
Proof. destruct skew_by as (F & B). apply skew_quot; [exact F|exact B|exact SL_abs]. Qed.
Lemma pb_near' : fnear (nneg pb) (- ((Hi - L) / S)) (7 / 2 * u).
Proof. apply neg_near. exact pb_near. Qed.
Lemma ic0_ml : ml (4 * h) (ndiv n1 pc0) (S / (2 * N)).
Proof.
  pose proof L_pos. pose proof H_pos. pose proof (rb_pos _ _ SN) as NP. pose proof Gh as (K0 & K1 & _). assert (R1 : rb (1 + q) (2 * N)) by (apply rb_mul; [exact rb_2|exact SN]). pose proof rb_S as RS.
  assert (M1 : ml (0 + 0 + h) (nmul two near) (2 * N)) by (apply (mul_ml H24); [exact two_ml|apply ml_leaf; exact Fn|lra|apply (rb_wk (1 + q)); [lia|exact R1]]).
  assert (M2 : ml (0 + 0 + h + h + h) pc0 (2 * N / S)) by (apply (div_ml H24); [exact M1|exact width_ml|lra|lra|apply (rb_wk (1 + q + (q + 1))); [lia|apply rb_div; assumption]]).
  assert (E : 1 / (2 * N / S) = S / (2 * N)) by (field; lra). apply (ml_weak (0 + (0 + 0 + h + h + h) + h)); [lra|]. refine (ml_eq _ _ _ _ (div_ml H24 _ _ _ _ _ _ ml_one M2 _ _ _) E); [lra| |].
  - assert (0 < 2 * N / S) by (apply Rdiv_lt_0_compat; lra). lra.
  - rewrite E. apply (rb_wk (q + 1 + (1 + q))); [lia|apply rb_div; assumption].
Qed.
Definition pright : fl := nmul (nmul (nmul two near') (pw pb (nneg pb))) (ndiv n1 pc0).
Definition pleft : fl := nmul (nmul (nmul two near') (qw pb (nneg pb))) (ndiv n1 pc0).
Notation prt := (ndiv (nadd pb n1) (nadd (nneg pb) n1)).
Lemma pend_ml (w : fl) v : rb (4 * q + 3) v -> ml (2 * h) w v -> ml (30 * h) (nmul (nmul (nmul two near') w) (ndiv n1 pc0)) (S * v).
Proof.
  intros V W. pose proof L_pos. pose proof H_pos. pose proof (rb_pos _ _ SN) as NP. pose proof Gh as (K0 & K1 & _). assert (R1 : rb (1 + q) (2 * N)) by (apply rb_mul; [exact rb_2|exact SN]). pose proof rb_S as RS.
  assert (M1 : ml (0 + 21 * h + h) (nmul two near') (2 * N)) by (apply (mul_ml H24); [exact two_ml|exact HN|lra|apply (rb_wk (1 + q)); [lia|exact R1]]).
  assert (M2 : ml (0 + 21 * h + h + 2 * h + h) (nmul (nmul two near') w) (2 * N * v)) by (apply (mul_ml H24); [exact M1|exact W|lra|apply (rb_wk (1 + q + (4 * q + 3))); [lia|apply rb_mul; assumption]]).
  assert (E : 2 * N * v * (S / (2 * N)) = S * v) by (field; lra). apply (ml_weak (0 + 21 * h + h + 2 * h + h + 4 * h + h)); [lra|]. refine (ml_eq _ _ _ _ (mul_ml H24 _ _ _ _ _ _ M2 ic0_ml _ _) E); [lra|].
  rewrite E. apply (rb_wk (q + 1 + (4 * q + 3))); [lia|apply rb_mul; assumption].
Qed.
Lemma p_ends : fnear pright Hi (36 * u * S) /\ fnear pleft L (36 * u * S) /\ ml (31 * h) (nadd pright pleft) S /\ fnear (nsub pright pleft) (Hi - L) (37 * h * S).
Proof.
  pose proof L_pos. pose proof H_pos. destruct (pw_ml pb (nneg pb) pb_near pb_near') as (W1 & W2). destruct (rb_pp pb (nneg pb) pb_near pb_near') as (R1 & R2). pose proof Gh as (K0 & K1 & _).
  assert (HS : 0 < u * S) by (apply Rmult_lt_0_compat; [apply bpow_gt_0|lra]).
  destruct (ends pb (nneg pb) pb_near pb_near' pright pleft (30 * h) ltac:(lra) (pend_ml _ _ R1 W1) (pend_ml _ _ R2 W2)) as (A1 & A2 & A3 & A4).
  split; [apply (near_weak _ _ _ _ A1); lra|]. split; [apply (near_weak _ _ _ _ A2); lra|]. split; [apply (ml_weak (30 * h + h)); [lra|exact A3]|apply (near_weak _ _ _ _ A4); lra].
Qed.

(** ** Orthographic: left and right *)
Notation ob := (ndiv (nneg skew) width).
Notation oc0 := (ndiv two width).
Lemma ob_near' : fnear ob (- ((Hi - L) / S)) (7 / 2 * u).
Proof.
  destruct skew_by as (F & B). pose proof L_pos. pose proof H_pos. apply (near_eq _ (- (Hi - L) / S)); [|field; lra]. apply skew_quot; [cbn [nneg num_float]; rewrite is_finite_Bopp; exact F| |rewrite Rabs_Ropp; exact SL_abs].
  cbn [nneg num_float]. rewrite B2R_Bopp. apply by_opp. exact B.
Qed.
Lemma ob_near : fnear (nneg ob) ((Hi - L) / S) (7 / 2 * u).
Proof. apply (near_eq _ (- - ((Hi - L) / S))); [apply neg_near; exact ob_near'|ring]. Qed.
Lemma ioc0_ml : ml (3 * h) (ndiv n1 oc0) (S / 2).
Proof.
  pose proof L_pos. pose proof H_pos. pose proof Gh as (K0 & K1 & _). pose proof rb_S as RS.
  assert (M2 : ml (0 + h + h) oc0 (2 / S)) by (apply (div_ml H24); [exact two_ml|exact width_ml|lra|lra|apply (rb_wk (1 + (q + 1))); [lia|apply rb_div; [exact rb_2|exact RS]]]).
  assert (E : 1 / (2 / S) = S / 2) by (field; lra). apply (ml_weak (0 + (0 + h + h) + h)); [lra|]. refine (ml_eq _ _ _ _ (div_ml H24 _ _ _ _ _ _ ml_one M2 _ _ _) E); [lra| |].
  - assert (0 < 2 / S) by (apply Rdiv_lt_0_compat; lra). lra.
  - rewrite E. apply (rb_wk (q + 1 + 1)); [lia|apply rb_div; [exact RS|exact rb_2]].
Qed.
Definition oright : fl := nmul (nmul two (pw (nneg ob) ob)) (ndiv n1 oc0).
Definition oleft : fl := nmul (nmul two (qw (nneg ob) ob)) (ndiv n1 oc0).
Lemma oend_ml (w : fl) v : rb (4 * q + 3) v -> ml (2 * h) w v -> ml (7 * h) (nmul (nmul two w) (ndiv n1 oc0)) (S * v).
Proof.
  intros V W. pose proof L_pos. pose proof H_pos. pose proof Gh as (K0 & K1 & _). pose proof rb_S as RS.
  assert (M2 : ml (0 + 2 * h + h) (nmul two w) (2 * v)) by (apply (mul_ml H24); [exact two_ml|exact W|lra|apply (rb_wk (1 + (4 * q + 3))); [lia|apply rb_mul; [exact rb_2|assumption]]]).
  assert (E : 2 * v * (S / 2) = S * v) by field. apply (ml_weak (0 + 2 * h + h + 3 * h + h)); [lra|]. refine (ml_eq _ _ _ _ (mul_ml H24 _ _ _ _ _ _ M2 ioc0_ml _ _) E); [lra|].
  rewrite E. apply (rb_wk (q + 1 + (4 * q + 3))); [lia|apply rb_mul; assumption].
Qed.
Lemma o_ends : fnear oright Hi (11 * u * S) /\ fnear oleft L (11 * u * S) /\ ml (8 * h) (nadd oright oleft) S /\ fnear (nsub oright oleft) (Hi - L) (67 / 5 * h * S + h * S).
Proof.
  pose proof L_pos. pose proof H_pos. destruct (pw_ml (nneg ob) ob ob_near ob_near') as (W1 & W2). destruct (rb_pp (nneg ob) ob ob_near ob_near') as (R1 & R2). pose proof Gh as (K0 & K1 & _).
  assert (HS : 0 < u * S) by (apply Rmult_lt_0_compat; [apply bpow_gt_0|lra]).
  destruct (ends (nneg ob) ob ob_near ob_near' oright oleft (7 * h) ltac:(lra) (oend_ml _ _ R1 W1) (oend_ml _ _ R2 W2)) as (A1 & A2 & A3 & A4).
  split; [apply (near_weak _ _ _ _ A1); lra|]. split; [apply (near_weak _ _ _ _ A2); lra|]. split; [apply (ml_weak (7 * h + h)); [lra|exact A3]|apply (near_weak _ _ _ _ A4); lra].
Qed.
End S.
