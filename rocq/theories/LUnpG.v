(** The planes read back from projections in floats: near and far. *)

From Coq Require Import List Arith ZArith Bool Lia Reals Lra Psatz.
From Flocq Require Import Core.Core Relative IEEE754.BinarySingleNaN.
From Verif Require Import Base Scalar Spec SpecF SpecProjection MVector MMatrix MPoint MFloat MProjection
  LBase LVector LFloat LFloatP LFloatVec LTrScF LSlerpS LProjF LUnpF.
Local Open Scope R_scope.

Section D.
Context {prec emax : Z} {Hp : Prec_gt_0 prec} {He : Prec_lt_emax prec emax}.
Notation fl := (binary_float prec emax).
Notation u := (bpow radix2 (- prec)).
Notation tiny := (bpow radix2 (2 - emax - prec)).
Notation h := (16 / 15 * u).
Notation two := (nadd n1 n1 : fl).
Hypothesis H24 : (24 <= prec)%Z.
Variable q : Z.
Hypothesis q0 : (0 <= q)%Z.
Hypothesis Hq : (4 * q + 31 <= emax)%Z.
Variables near far : fl.
Hypothesis Fn : is_finite near = true.
Hypothesis Ff : is_finite far = true.
Notation N := (B2R near).
Notation F := (B2R far).
Hypothesis SN : rb q N.
Hypothesis SF : rb q F.
Hypothesis NF : 2 * N <= F.
Hypothesis KU : 2048 * u * F <= N.
Notation k := (F / N).
Notation A := ((F + N) / (F - N)).

Lemma N_pos : 0 < N. Proof. exact (rb_pos q N SN). Qed.
Lemma k_ge : 2 <= k.
Proof. pose proof N_pos as P. apply (Rmult_le_reg_r N); [exact P|]. unfold Rdiv. rewrite Rmult_assoc, Rinv_l by lra. lra. Qed.
Lemma k_N : k * N = F.
Proof. pose proof N_pos. field. lra. Qed.
Lemma kh : 0 < h /\ h <= / 10000000 /\ 2048 * (h * k) <= 16 / 15.
Proof.
  pose proof (u_small H24) as U. pose proof N_pos as P. split; [lra|split; [lra|]]. apply (Rmult_le_reg_r N); [exact P|]. replace (2048 * (h * k) * N) with (16 / 15 * (2048 * u * F)) by (field; lra). lra.
Qed.
Lemma rb_dif : rb q (F - N).
Proof. pose proof N_pos. destruct SN as (A1 & A2), SF as (B1 & B2). split; lra. Qed.
Lemma rb_sum : rb (q + 1) (F + N).
Proof.
  pose proof N_pos. pose proof (rb_weak q (q + 1) N ltac:(lia) SN) as (A1' & _). destruct SN as (A1 & A2), SF as (B1 & B2).
  assert (E : bpow radix2 (q + 1) = 2 * bpow radix2 q) by (rewrite Z.add_comm; exact (bpow_plus radix2 1 q)). split; lra.
Qed.
Lemma rb_2 : rb 1 2.
Proof. split; cbn; lra. Qed.
Lemma big a v : (a <= emax - 2)%Z -> 0 <= v <= bpow radix2 a -> Rabs v <= bpow radix2 (emax - 2).
Proof. intros H (V1 & V2). rewrite Rabs_pos_eq by exact V1. apply (Rle_trans _ (bpow radix2 a)); [exact V2|apply bpow_le; lia]. Qed.

Lemma dif_ml : ml h (nsub far near) (F - N).
Proof.
  apply (ml_weak (0 + h)); [lra|]. apply (sub_ml H24); [exact Ff|exact Fn|apply by_refl|lra|]. pose proof N_pos. destruct rb_dif as (B1 & B2). apply (big q); [lia|lra].
Qed.
Lemma sum_ml : ml h (nadd far near) (F + N).
Proof.
  apply (ml_weak (0 + h)); [lra|]. apply (add_ml H24); [exact Ff|exact Fn|apply by_refl|lra|]. pose proof N_pos. destruct rb_sum as (B1 & B2). apply (big (q + 1)); [lia|lra].
Qed.
Lemma quo_ml : ml (3 * h) (ndiv (nneg (nadd far near)) (nsub far near)) (- A).
Proof.
  pose proof kh as (K0 & K1 & _). pose proof N_pos. replace (- A) with (- (F + N) / (F - N)) by (field; lra). apply (ml_weak (h + h + h)); [lra|]. apply (div_ml H24); [apply ml_neg; exact sum_ml|exact dif_ml|lra|lra|].
  replace (- (F + N) / (F - N)) with (- A) by (field; lra). apply wk_opp, (rb_wk (q + 1 + q)); [lia|apply rb_div; [exact rb_sum|exact rb_dif]].
Qed.
Lemma c3_ml : ml (4 * h) (ndiv (nneg (nmul (nmul two far) near)) (nsub far near)) (- (2 * F * N / (F - N))).
Proof.
  pose proof kh as (K0 & K1 & _). pose proof N_pos. replace (- (2 * F * N / (F - N))) with (- (2 * F * N) / (F - N)) by (field; lra).
  assert (R1 : rb (1 + q) (2 * F)) by (apply rb_mul; [exact rb_2|exact SF]). assert (R2 : rb (1 + q + q) (2 * F * N)) by (apply rb_mul; [exact R1|exact SN]).
  assert (M1 : ml (0 + 0 + h) (nmul two far) (2 * F)) by (apply (mul_ml H24); [exact two_ml|apply ml_leaf; exact Ff|lra|apply (rb_wk (1 + q)); [lia|exact R1]]).
  assert (M2 : ml (0 + 0 + h + 0 + h) (nmul (nmul two far) near) (2 * F * N)) by (apply (mul_ml H24); [exact M1|apply ml_leaf; exact Fn|lra|apply (rb_wk (1 + q + q)); [lia|exact R2]]).
  apply (ml_weak (0 + 0 + h + 0 + h + h + h)); [lra|]. apply (div_ml H24); [apply ml_neg; exact M2|exact dif_ml|lra|lra|].
  replace (- (2 * F * N) / (F - N)) with (- (2 * F * N / (F - N))) by (field; lra). apply wk_opp, (rb_wk (1 + q + q + q)); [lia|apply rb_div; [exact R2|exact rb_dif]].
Qed.

(** ** The ratio far : near *)
Section A.
Variable a : fl.
Hypothesis Ha : ml (3 * h) a A.
Notation rt := (ndiv (nadd a n1) (nsub a n1)).
Notation eta := ((5 / 2 * k + 6) * h).

Lemma A_facts : 1 < A /\ A <= 3 /\ A - 1 = 2 * N / (F - N) /\ A + 1 = 2 * F / (F - N) /\ A = (A - 1) * ((k + 1) / 2).
Proof.
  pose proof N_pos as P. assert (D : 0 < F - N) by lra. assert (E1 : A - 1 = 2 * N / (F - N)) by (field; lra).
  assert (Q : 0 < 2 * N / (F - N)) by (apply Rdiv_lt_0_compat; lra). split; [lra|]. split.
  - apply (Rmult_le_reg_r (F - N)); [exact D|]. unfold Rdiv. rewrite Rmult_assoc, Rinv_l by lra. lra.
  - split; [exact E1|]. split; field; repeat split; lra.
Qed.
Lemma a1_ml : ml (4 * h) (nadd a n1) (2 * F / (F - N)).
Proof.
  pose proof kh as (K0 & K1 & _). destruct A_facts as (A1 & A3 & _ & <- & _). apply (ml_weak (3 * h + h)); [lra|]. apply (add_pos H24); [exact Ha|apply (ml_weak 0); [lra|exact ml_one]|lra|lra|lra|lra|].
  apply (Rle_trans _ (bpow radix2 2)); [cbn; lra|apply bpow_le; lia].
Qed.
Lemma a2_ml : ml (5 / 2 * k * h + h) (nsub a n1) (2 * N / (F - N)).
Proof.
  pose proof kh as (K0 & K1 & K2). pose proof k_ge as K. destruct A_facts as (A1 & A3 & <- & _ & AE). destruct Ha as (Fa & Ba). destruct (ml_one (prec := prec) (emax := emax)) as (F1 & B1).
  assert (O : B2R (n1 : fl) = 1) by (destruct (fbone (prec := prec) (emax := emax)) as (O & _); exact O).
  apply (sub_ml H24); [exact Fa|exact F1| |lra|rewrite Rabs_pos_eq by lra; apply (Rle_trans _ (bpow radix2 2)); [cbn; lra|apply bpow_le; lia]].
  rewrite O. pose proof (near_by' _ _ _ Ba ltac:(lra)) as NB. rewrite (Rabs_pos_eq A) in NB by lra.
  set (r := 64 / 63 * (3 * h) * ((k + 1) / 2)). assert (HK : 2 * h <= h * k) by (rewrite (Rmult_comm h k); apply Rmult_le_compat_r; lra).
  apply (by_weak (16 / 15 * r)); [unfold r; lra|]. apply by_near; [|unfold r; split; [apply Rmult_le_pos; lra|lra]].
  rewrite (Rabs_pos_eq (A - 1)) by lra. replace (B2R a - 1 - (A - 1)) with (B2R a - A) by ring. unfold r. rewrite Rmult_assoc, (Rmult_comm ((k + 1) / 2)), <- AE. exact NB.
Qed.
Lemma rt_ml : ml eta rt k.
Proof.
  pose proof kh as (K0 & K1 & K2). pose proof k_ge as K. pose proof N_pos as P. replace k with (2 * F / (F - N) / (2 * N / (F - N))) at 2 by (field; repeat split; lra).
  apply (ml_weak (4 * h + (5 / 2 * k * h + h) + h)); [lra|]. apply (div_ml H24); [exact a1_ml|exact a2_ml|lra| |].
  - assert (0 < 2 * N / (F - N)) by (apply Rdiv_lt_0_compat; lra). lra.
  - replace (2 * F / (F - N) / (2 * N / (F - N))) with k by (field; repeat split; lra). apply (rb_wk (q + q)); [lia|apply rb_div; assumption].
Qed.
Lemma eta_b : 0 <= eta /\ eta <= 11 / 2 * (h * k) /\ eta <= 11 * (k - 1) * h /\ eta <= / 300.
Proof.
  pose proof kh as (K0 & K1 & K2). pose proof k_ge as K. assert (HK : 2 * h <= h * k) by (rewrite (Rmult_comm h k); apply Rmult_le_compat_r; lra). split; [apply Rmult_le_pos; lra|]. split; [lra|]. split; [apply Rmult_le_compat_r; lra|lra].
Qed.
(** its value *)
Lemma x_b : Rabs (B2R rt - k) <= 64 / 63 * eta * k /\ 99 / 100 * k <= B2R rt <= 101 / 100 * k.
Proof.
  destruct rt_ml as (_ & B). destruct eta_b as (E0 & _ & _ & E3). pose proof (near_by' _ _ _ B ltac:(lra)) as NB. pose proof k_ge as K. rewrite (Rabs_pos_eq k) in NB by lra. split; [exact NB|].
  apply Rabs_le_inv in NB. assert (64 / 63 * eta * k <= / 100 * k) by (apply Rmult_le_compat_r; lra). lra.
Qed.
Lemma rb_x : rb (2 * q + 1) (B2R rt) /\ rb (2 * q + 1) (B2R rt - 1).
Proof.
  destruct x_b as (_ & X1 & X2). pose proof k_ge as K. assert (R : rb (q + q) k) by (apply rb_div; assumption). destruct R as (R1 & R2). replace (q + q)%Z with (2 * q)%Z in R2 by ring.
  assert (B1 : bpow radix2 (- (2 * q + 1)) <= / 2) by (apply (bpow_le radix2 _ (-1)); lia). assert (B2 : bpow radix2 (2 * q + 1) = 2 * bpow radix2 (2 * q)) by (rewrite Z.add_comm; exact (bpow_plus radix2 1 (2 * q))).
  unfold rb. lra.
Qed.
Lemma sub_x : ml h (nsub n1 rt) (1 - B2R rt).
Proof.
  destruct rt_ml as (Fx & _). destruct (ml_one (prec := prec) (emax := emax)) as (F1 & _). assert (O : B2R (n1 : fl) = 1) by (destruct (fbone (prec := prec) (emax := emax)) as (O & _); exact O). pose proof kh as (K0 & _).
  apply (ml_weak (0 + h)); [lra|]. apply (sub_ml H24); [exact F1|exact Fx|rewrite O; apply by_refl|lra|]. rewrite Rabs_minus_sym. destruct rb_x as (_ & (_ & R2)). destruct x_b as (_ & X1 & _). pose proof k_ge. apply (big (2 * q + 1)); [lia|lra].
Qed.
Lemma sub_x' : ml h (nsub rt n1) (B2R rt - 1).
Proof.
  destruct rt_ml as (Fx & _). destruct (ml_one (prec := prec) (emax := emax)) as (F1 & _). assert (O : B2R (n1 : fl) = 1) by (destruct (fbone (prec := prec) (emax := emax)) as (O & _); exact O). pose proof kh as (K0 & _).
  apply (ml_weak (0 + h)); [lra|]. apply (sub_ml H24); [exact Fx|exact F1|rewrite O; apply by_refl|lra|]. destruct rb_x as (_ & (_ & R2)). destruct x_b as (_ & X1 & _). pose proof k_ge. apply (big (2 * q + 1)); [lia|lra].
Qed.
(** The two ways in which the ratio enters. *)
Lemma by_less : by_exp (25 / 2 * h) ((B2R rt - 1) / B2R rt) ((k - 1) / k).
Proof.
  destruct x_b as (X0 & X1 & X2). destruct eta_b as (E0 & E1 & E2 & E3). pose proof k_ge as K. pose proof kh as (K0 & K1 & _). set (x := B2R rt) in *. set (c := k) in *. set (hh := h) in *.
  apply (by_weak (16 / 15 * (1130 / 100 * hh))); [lra|]. assert (CP : 0 < (c - 1) / c) by (apply Rdiv_lt_0_compat; lra). apply by_near; [|lra]. rewrite (Rabs_pos_eq ((c - 1) / c)) by lra.
  replace ((x - 1) / x - (c - 1) / c) with ((x - c) / (x * c)) by (field; lra). unfold Rdiv. rewrite Rabs_mult, Rabs_inv, (Rabs_pos_eq (x * c)) by nra.
  apply (Rmult_le_reg_r (x * c)); [nra|]. rewrite Rmult_assoc, Rinv_l by nra. rewrite Rmult_1_r. replace (1130 * / 100 * hh * ((c - 1) * / c) * (x * c)) with (1130 / 100 * hh * (c - 1) * x) by (field; lra).
  eapply Rle_trans; [exact X0|]. set (et := (5 / 2 * c + 6) * hh) in *. assert (P : 0 <= hh * (c - 1)) by (apply Rmult_le_pos; lra).
  assert (64 / 63 * et * c <= 64 / 63 * (11 * (c - 1) * hh) * c) by (apply Rmult_le_compat_r; lra). assert (1130 / 100 * hh * (c - 1) * (99 / 100 * c) <= 1130 / 100 * hh * (c - 1) * x) by (apply Rmult_le_compat_l; lra).
  assert (0 <= hh * (c - 1) * c) by (apply Rmult_le_pos; lra). lra.
Qed.
Lemma by_more : by_exp ((11 / 2 * k + 14) * h) (B2R rt - 1) (k - 1).
Proof.
  destruct x_b as (X0 & X1 & X2). destruct eta_b as (E0 & E1 & E2 & E3). pose proof k_ge as K. pose proof kh as (K0 & K1 & _). set (x := B2R rt) in *. set (c := k) in *. set (hh := h) in *. set (et := (5 / 2 * c + 6) * hh) in *.
  apply (by_weak (16 / 15 * (128 / 63 * et))).
  { unfold et. assert (0 <= hh * c) by (apply Rmult_le_pos; lra). lra. }
  apply by_near; [|lra]. rewrite (Rabs_pos_eq (c - 1)) by lra. replace (x - 1 - (c - 1)) with (x - c) by ring. eapply Rle_trans; [exact X0|]. assert (64 / 63 * et * c <= 64 / 63 * et * (2 * (c - 1))) by (apply Rmult_le_compat_l; lra). lra.
Qed.
End A.

(** ** Perspective: near and far *)
Notation pa := (nneg (ndiv (nneg (nadd far near)) (nsub far near))).
Notation prt := (ndiv (nadd pa n1) (nsub pa n1)).
Notation pc3 := (ndiv (nneg (nmul (nmul two far) near)) (nsub far near)).
Lemma pa_ml : ml (3 * h) pa A.
Proof. apply (ml_eq _ _ (- - A)); [apply ml_neg; exact quo_ml|ring]. Qed.

Definition pnear : fl := nmul (ndiv (nsub n1 prt) (nmul two prt)) pc3.
Definition pfar : fl := nmul (ndiv (nsub n1 prt) two) pc3.
Lemma pnear_ml : ml (21 * h) pnear N.
Proof.
  pose proof kh as (K0 & K1 & K2). pose proof N_pos as P. pose proof k_ge as K. destruct (x_b pa pa_ml) as (_ & X1 & X2). destruct (rb_x pa pa_ml) as (R1 & R2). destruct (rt_ml pa pa_ml) as (Fx & _).
  assert (M1 : ml (0 + 0 + h) (nmul two prt) (2 * B2R prt)) by (apply (mul_ml H24); [exact two_ml|apply ml_leaf; exact Fx|lra|apply (rb_wk (1 + (2 * q + 1))); [lia|apply rb_mul; [exact rb_2|exact R1]]]).
  assert (M2 : ml (h + (0 + 0 + h) + h) (ndiv (nsub n1 prt) (nmul two prt)) ((1 - B2R prt) / (2 * B2R prt))).
  { apply (div_ml H24); [exact (sub_x pa pa_ml)|exact M1|lra|lra|]. replace ((1 - B2R prt) / (2 * B2R prt)) with (- ((B2R prt - 1) / (2 * B2R prt))) by (field; lra).
    apply wk_opp, (rb_wk (2 * q + 1 + (1 + (2 * q + 1)))); [lia|apply rb_div; [exact R2|apply rb_mul; [exact rb_2|exact R1]]]. }
  assert (B : by_exp (25 / 2 * h) ((1 - B2R prt) / (2 * B2R prt)) ((1 - k) / (2 * k))).
  { replace ((1 - B2R prt) / (2 * B2R prt)) with (- (/ 2 * ((B2R prt - 1) / B2R prt))) by (field; lra). replace ((1 - k) / (2 * k)) with (- (/ 2 * ((k - 1) / k))) by (field; split; lra).
    apply by_opp. replace (25 / 2 * h) with (0 + 25 / 2 * h) by ring. apply by_mul; [apply by_refl|exact (by_less pa pa_ml)]. }
  pose proof (ml_to _ _ _ _ _ M2 B) as M3. assert (E : (1 - k) / (2 * k) * - (2 * F * N / (F - N)) = N) by (field; repeat split; lra).
  apply (ml_weak (h + (0 + 0 + h) + h + 25 / 2 * h + 4 * h + h)); [lra|]. apply (ml_eq _ _ _ _ (mul_ml H24 _ _ _ _ _ _ M3 c3_ml ltac:(lra) ltac:(rewrite E; apply (rb_wk q); [lia|exact SN])) E).
Qed.
Lemma pfar_ml : ml ((11 / 2 * k + 21) * h) pfar F.
Proof.
  pose proof kh as (K0 & K1 & K2). pose proof N_pos as P. pose proof k_ge as K. destruct (x_b pa pa_ml) as (_ & X1 & X2). destruct (rb_x pa pa_ml) as (R1 & R2).
  assert (M2 : ml (h + 0 + h) (ndiv (nsub n1 prt) two) ((1 - B2R prt) / 2)).
  { apply (div_ml H24); [exact (sub_x pa pa_ml)|exact two_ml|lra|lra|]. replace ((1 - B2R prt) / 2) with (- ((B2R prt - 1) / 2)) by field.
    apply wk_opp, (rb_wk (2 * q + 1 + 1)); [lia|apply rb_div; [exact R2|exact rb_2]]. }
  assert (B : by_exp ((11 / 2 * k + 14) * h) ((1 - B2R prt) / 2) ((1 - k) / 2)).
  { replace ((1 - B2R prt) / 2) with (- (/ 2 * (B2R prt - 1))) by field. replace ((1 - k) / 2) with (- (/ 2 * (k - 1))) by (field; lra).
    apply by_opp. replace ((11 / 2 * k + 14) * h) with (0 + (11 / 2 * k + 14) * h) by ring. apply by_mul; [apply by_refl|exact (by_more pa pa_ml)]. }
  pose proof (ml_to _ _ _ _ _ M2 B) as M3. assert (E : (1 - k) / 2 * - (2 * F * N / (F - N)) = F) by (field; repeat split; lra).
  apply (ml_weak (h + 0 + h + (11 / 2 * k + 14) * h + 4 * h + h)); [lra|]. apply (ml_eq _ _ _ _ (mul_ml H24 _ _ _ _ _ _ M3 c3_ml ltac:(lra) ltac:(rewrite E; apply (rb_wk q); [lia|exact SF])) E).
Qed.

(** ** Orthographic: near and far *)
Notation oc2 := (ndiv (nneg two) (nsub far near)).
Definition onear : fl := nmul (nmul (nneg two) (ndiv n1 (nsub prt n1))) (ndiv n1 oc2).
Definition ofar : fl := nmul (nmul (nneg two) (ndiv prt (nsub prt n1))) (ndiv n1 oc2).
Lemma ic2_ml : ml (3 * h) (ndiv n1 oc2) (- ((F - N) / 2)).
Proof.
  pose proof kh as (K0 & K1 & K2). pose proof N_pos as P.
  assert (M1 : ml (0 + h + h) oc2 (- (2) / (F - N))).
  { apply (div_ml H24); [apply ml_neg; exact two_ml|exact dif_ml|lra|lra|]. replace (- (2) / (F - N)) with (- (2 / (F - N))) by (field; lra). apply wk_opp, (rb_wk (1 + q)); [lia|apply rb_div; [exact rb_2|exact rb_dif]]. }
  replace (- ((F - N) / 2)) with (1 / (- (2) / (F - N))) by (field; lra). apply (ml_weak (0 + (0 + h + h) + h)); [lra|]. apply (div_ml H24); [exact ml_one|exact M1|lra| |].
  - replace (- (2) / (F - N)) with (- (2 / (F - N))) by (field; lra). assert (0 < 2 / (F - N)) by (apply Rdiv_lt_0_compat; lra). lra.
  - replace (1 / (- (2) / (F - N))) with (- ((F - N) / 2)) by (field; lra). apply wk_opp, (rb_wk (q + 1)); [lia|apply rb_div; [exact rb_dif|exact rb_2]].
Qed.
Lemma onear_ml : ml ((11 / 2 * k + 21) * h) onear N.
Proof.
  pose proof kh as (K0 & K1 & K2). pose proof N_pos as P. pose proof k_ge as K. destruct (x_b pa pa_ml) as (_ & X1 & X2). destruct (rb_x pa pa_ml) as (R1 & R2).
  pose proof (ml_to _ _ _ _ _ (sub_x' pa pa_ml) (by_more pa pa_ml)) as S. assert (RK : rb (q + q) k) by (apply rb_div; assumption).
  assert (RK1 : rb (2 * q + 1) (k - 1)). { destruct RK as (_ & RK2). replace (q + q)%Z with (2 * q)%Z in RK2 by ring. split; [apply (Rle_trans _ (bpow radix2 0)); [apply bpow_le; lia|cbn; lra]|apply (Rle_trans _ (bpow radix2 (2 * q))); [lra|apply bpow_le; lia]]. }
  assert (M1 : ml (0 + (h + (11 / 2 * k + 14) * h) + h) (ndiv n1 (nsub prt n1)) (1 / (k - 1))).
  { apply (div_ml H24); [exact ml_one|exact S|lra|lra|]. apply (rb_wk (0 + (2 * q + 1))); [lia|apply rb_div; [exact rb_1|exact RK1]]. }
  assert (M2 : ml (0 + (0 + (h + (11 / 2 * k + 14) * h) + h) + h) (nmul (nneg two) (ndiv n1 (nsub prt n1))) (- (2) * (1 / (k - 1)))).
  { apply (mul_ml H24); [apply ml_neg; exact two_ml|exact M1|lra|]. replace (- (2) * (1 / (k - 1))) with (- (2 * (1 / (k - 1)))) by ring. apply wk_opp, (rb_wk (1 + (0 + (2 * q + 1)))); [lia|apply rb_mul; [exact rb_2|apply rb_div; [exact rb_1|exact RK1]]]. }
  assert (E : - (2) * (1 / (k - 1)) * - ((F - N) / 2) = N) by (field; repeat split; lra).
  apply (ml_weak (0 + (0 + (h + (11 / 2 * k + 14) * h) + h) + h + 3 * h + h)); [lra|]. apply (ml_eq _ _ _ _ (mul_ml H24 _ _ _ _ _ _ M2 ic2_ml ltac:(lra) ltac:(rewrite E; apply (rb_wk q); [lia|exact SN])) E).
Qed.
Lemma ofar_ml : ml (20 * h) ofar F.
Proof.
  pose proof kh as (K0 & K1 & K2). pose proof N_pos as P. pose proof k_ge as K. destruct (x_b pa pa_ml) as (_ & X1 & X2). destruct (rb_x pa pa_ml) as (R1 & R2). destruct (rt_ml pa pa_ml) as (Fx & _).
  assert (M0 : ml (0 + h + h) (ndiv prt (nsub prt n1)) (B2R prt / (B2R prt - 1))).
  { apply (div_ml H24); [apply ml_leaf; exact Fx|exact (sub_x' pa pa_ml)|lra|lra|]. apply (rb_wk (2 * q + 1 + (2 * q + 1))); [lia|apply rb_div; assumption]. }
  assert (B : by_exp (25 / 2 * h) (B2R prt / (B2R prt - 1)) (k / (k - 1))).
  { replace (B2R prt / (B2R prt - 1)) with (/ ((B2R prt - 1) / B2R prt)) by (field; lra). replace (k / (k - 1)) with (/ ((k - 1) / k)) by (field; repeat split; lra). apply by_inv. exact (by_less pa pa_ml). }
  pose proof (ml_to _ _ _ _ _ M0 B) as M1. assert (RK : rb 1 (k / (k - 1))).
  { split; [apply (Rle_trans _ 1); [cbn; lra|]|]; (apply (Rmult_le_reg_r (k - 1)); [lra|]; unfold Rdiv at 2; try unfold Rdiv at 1; rewrite Rmult_assoc, Rinv_l by lra; cbn; lra). }
  assert (M2 : ml (0 + (0 + h + h + 25 / 2 * h) + h) (nmul (nneg two) (ndiv prt (nsub prt n1))) (- (2) * (k / (k - 1)))).
  { apply (mul_ml H24); [apply ml_neg; exact two_ml|exact M1|lra|]. replace (- (2) * (k / (k - 1))) with (- (2 * (k / (k - 1)))) by ring. apply wk_opp, (rb_wk (1 + 1)); [lia|apply rb_mul; [exact rb_2|exact RK]]. }
  assert (E : - (2) * (k / (k - 1)) * - ((F - N) / 2) = F) by (field; repeat split; lra).
  apply (ml_weak (0 + (0 + h + h + 25 / 2 * h) + h + 3 * h + h)); [lra|]. apply (ml_eq _ _ _ _ (mul_ml H24 _ _ _ _ _ _ M2 ic2_ml ltac:(lra) ltac:(rewrite E; apply (rb_wk q); [lia|exact SF])) E).
Qed.
End D.
