(** The field of view read back from the cotangent of its half, in floats. *)

From Coq Require Import List Arith ZArith Bool Lia Reals Lra Psatz.
From Flocq Require Import Core.Core Relative IEEE754.BinarySingleNaN.
From Verif Require Import Base Scalar Spec SpecF SpecUnp SpecFov MVector MMatrix MFloat MFov
  LBase LVector LFloat LFloatP LFloatVec LTrScF LSlerpS LComplexHP LAngleFP LProjF LUnpF LUnpG LFovA LFovB.
Local Open Scope R_scope.

Section C.
Context {prec emax : Z} {Hp : Prec_gt_0 prec} {He : Prec_lt_emax prec emax}.
Notation fl := (binary_float prec emax).
Notation u := (bpow radix2 (- prec)).
Notation fexp := (FLT_exp (3 - emax - prec) prec).
Notation rnd := (round radix2 fexp ZnearestE).
Notation h := (16 / 15 * u).
Notation two := (nadd n1 n1 : fl).
Notation one := (n1 : fl).
Hypothesis H24 : (24 <= prec)%Z.
Variable s : Z.
Hypothesis s1 : (1 <= s)%Z.
Hypothesis Hs : (3 * s + prec + 10 <= emax)%Z.
Variable c : fl.
Hypothesis Fc : is_finite c = true.
Hypothesis Sc : rb s (B2R c).
Notation C := (B2R c).
Notation x := (nmul c c).
Notation den := (nsub x one).
Notation num := (nmul two c).
Notation quo := (ndiv num den).
Notation k0 := ((C - / C) / 2).
Notation w0 := ((C + / C) / 2).

Lemma C_pos : 0 < C.
Proof. exact (rb_pos s _ Sc). Qed.
Lemma one_R : is_finite one = true /\ B2R one = 1.
Proof. destruct (fbone (prec := prec) (emax := emax)) as (E & F & _). split; [exact F|exact E]. Qed.
Lemma x_ml : ml h x (C * C).
Proof.
  apply (ml_weak (0 + 0 + h)); [lra|]. apply (mul_ml H24); [apply ml_leaf; exact Fc|apply ml_leaf; exact Fc|lra|]. apply (rb_wk (s + s)); [lia|apply rb_mul; exact Sc].
Qed.
Lemma x_val : B2R x = rnd (C * C) /\ Rabs (B2R x - C * C) <= u * (C * C).
Proof.
  pose proof C_pos as P. destruct (rb_mul _ _ _ _ Sc Sc) as (R1 & R2). assert (V : B2R x = rnd (C * C)).
  { apply mul_val; [exact Fc|exact Fc|]. rewrite Rabs_pos_eq by nra. eapply Rle_trans; [exact R2|apply bpow_le; lia]. }
  split; [exact V|]. rewrite V. rewrite <- (Rabs_pos_eq (C * C)) at 3 by nra. apply rnd_normal. rewrite Rabs_pos_eq by nra. eapply Rle_trans; [|exact R1]. apply bpow_le. lia.
Qed.
Lemma x_pos : 0 < B2R x.
Proof. pose proof C_pos. exact (by_pos _ _ _ (proj2 x_ml) ltac:(nra)). Qed.
Lemma x_le : B2R x <= bpow radix2 (2 * s + 1).
Proof.
  pose proof C_pos as P. pose proof (by_abs _ _ _ (proj2 x_ml) ltac:(pose proof (u_small H24); lra)) as A. destruct (rb_mul _ _ _ _ Sc Sc) as (R1 & R2).
  rewrite (Rabs_pos_eq (B2R x)), (Rabs_pos_eq (C * C)) in A by (pose proof x_pos; nra). replace (2 * s + 1)%Z with (1 + (s + s))%Z by ring. rewrite bpow_plus. change (bpow radix2 1) with 2. lra.
Qed.
Lemma big_1 : 1 <= bpow radix2 (2 * s + 1).
Proof. apply (bpow_le radix2 0). lia. Qed.
Lemma den_val : is_finite den = true /\ Rabs (B2R den - (B2R x - 1)) <= u * Rabs (B2R x - 1) /\ Rabs (B2R den) <= bpow radix2 (2 * s + 2).
Proof.
  destruct one_R as (F1 & V1). pose proof x_pos as P. pose proof x_le as L. pose proof big_1 as B. pose proof (u_small H24) as U.
  assert (A : Rabs (B2R x - 1) <= bpow radix2 (2 * s + 1)) by (apply Rabs_le; lra).
  destruct (sub_val x one (proj1 x_ml) F1) as (F & _ & E). { rewrite V1. eapply Rle_trans; [exact A|apply bpow_le; lia]. }
  rewrite V1 in E. split; [exact F|]. split; [exact E|]. replace (B2R den) with ((B2R den - (B2R x - 1)) + (B2R x - 1)) by ring. eapply Rle_trans; [apply Rabs_triang|].
  replace (2 * s + 2)%Z with (1 + (2 * s + 1))%Z by ring. rewrite bpow_plus. change (bpow radix2 1) with 2. assert (u * Rabs (B2R x - 1) <= 1 * bpow radix2 (2 * s + 1)) by (apply Rmult_le_compat; [lra|apply Rabs_pos|lra|exact A]). lra.
Qed.
Lemma den_err : Rabs (B2R den - (C * C - 1)) <= 21 / 10 * u * (C * C + 1).
Proof.
  destruct x_val as (_ & X). destruct den_val as (_ & D & _). pose proof C_pos as P. pose proof (u_small H24) as U.
  assert (A : Rabs (B2R x - 1) <= 11 / 10 * (C * C) + 1).
  { apply Rabs_le_inv in X. apply Rabs_le. assert (0 < C * C) by nra. assert (u * (C * C) <= 1 / 10 * (C * C)) by (apply Rmult_le_compat_r; lra). lra. }
  replace (B2R den - (C * C - 1)) with ((B2R den - (B2R x - 1)) + (B2R x - C * C)) by ring. eapply Rle_trans; [apply Rabs_triang|].
  assert (u * Rabs (B2R x - 1) <= u * (11 / 10 * (C * C) + 1)) by (apply Rmult_le_compat_l; lra). assert (0 < C * C) by nra. nra.
Qed.
(** The sign of the denominator. *)
Lemma den_gap : B2R x <> 1 -> u / 2 <= Rabs (B2R den) /\ 0 < B2R den * (B2R x - 1).
Proof.
  intros N. destruct den_val as (_ & D & _). pose proof (u_small H24) as U. destruct (Rtotal_order (B2R x) 1) as [L|[L|L]]; [|contradiction|].
  - pose proof (below_one H24 x L) as G. rewrite (Rabs_left (B2R x - 1)) in D by lra. apply Rabs_le_inv in D. assert (u * - (B2R x - 1) <= / 2 * - (B2R x - 1)) by (apply Rmult_le_compat_r; lra).
    assert (B2R den < 0) by lra. rewrite Rabs_left by lra. split; [lra|nra].
  - pose proof (above_one H24 x L) as G. rewrite (Rabs_pos_eq (B2R x - 1)) in D by lra. apply Rabs_le_inv in D. assert (u * (B2R x - 1) <= / 2 * (B2R x - 1)) by (apply Rmult_le_compat_r; lra).
    assert (0 < B2R den) by lra. rewrite Rabs_pos_eq by lra. split; [lra|nra].
Qed.
Lemma num_ml : ml h num (2 * C).
Proof.
  apply (ml_weak (0 + 0 + h)); [lra|]. apply (mul_ml H24); [exact two_ml|apply ml_leaf; exact Fc|lra|]. apply (rb_wk (1 + s)); [lia|apply rb_mul; [exact rb_2|exact Sc]].
Qed.

Section Q.
Hypothesis Hx : B2R x <> 1.
Lemma den_rb : rb (2 * s + prec + 2) (Rabs (B2R den)).
Proof.
  destruct (den_gap Hx) as (G & _). destruct den_val as (_ & _ & L). split.
  - eapply Rle_trans; [|exact G]. replace (u / 2) with (bpow radix2 (-1 + - prec)) by (rewrite bpow_plus; change (bpow radix2 (-1)) with (/ 2); lra). apply bpow_le. lia.
  - eapply Rle_trans; [exact L|]. apply bpow_le. lia.
Qed.
Lemma den_nz : B2R den <> 0.
Proof. destruct (den_gap Hx) as (_ & G). intros E. rewrite E in G. lra. Qed.
Lemma rb_abs a v : v <> 0 -> rb a (Rabs v) -> (a + 3 <= emax)%Z -> @wk emax v.
Proof. intros V R L. destruct (rb_wk a (Rabs v) L R) as (W1 & W2). rewrite Rabs_Rabsolu in W1, W2. split; assumption. Qed.
Lemma quo_rb0 : rb (1 + s + (2 * s + prec + 2)) (Rabs (2 * C / B2R den)).
Proof.
  unfold Rdiv. rewrite Rabs_mult, Rabs_inv. apply rb_div; [|exact den_rb]. rewrite Rabs_pos_eq by (pose proof C_pos; lra). apply rb_mul; [exact rb_2|exact Sc].
Qed.
Lemma quo_ml : ml (2 * h) quo (2 * C / B2R den).
Proof.
  pose proof C_pos as P. pose proof (u_small H24) as U. apply (ml_weak (h + 0 + h)); [lra|]. apply (div_ml H24); [exact num_ml|apply ml_leaf; apply den_val|lra|exact den_nz|].
  apply (rb_abs (1 + s + (2 * s + prec + 2))); [|exact quo_rb0|lia]. apply Rmult_integral_contrapositive. split; [lra|apply Rinv_neq_0_compat, den_nz].
Qed.
Lemma quo_rb : sized (3 * s + prec + 4) (Rabs (B2R quo)).
Proof.
  pose proof (u_small H24) as U. pose proof (by_abs _ _ _ (proj2 quo_ml) ltac:(lra)) as A. destruct quo_rb0 as (R1 & R2). split.
  - apply (Rle_trans _ (/ 2 * bpow radix2 (- (1 + s + (2 * s + prec + 2))))); [|lra]. change (/ 2) with (bpow radix2 (-1)). rewrite <- bpow_plus. apply bpow_le. lia.
  - apply (Rle_trans _ (2 * bpow radix2 (1 + s + (2 * s + prec + 2)))); [lra|]. change 2 with (bpow radix2 1) at 1. rewrite <- bpow_plus. apply bpow_le. lia.
Qed.
Lemma quo_sign : 0 < B2R quo * (B2R x - 1).
Proof.
  destruct quo_ml as (_ & t & _ & ->). destruct (den_gap Hx) as (_ & G). pose proof C_pos as P. pose proof den_nz as Z. pose proof (exp_pos t) as E.
  assert (S : 0 < B2R den * B2R den) by nra. replace (2 * C / B2R den * exp t * (B2R x - 1)) with (2 * C * exp t * (B2R den * (B2R x - 1)) / (B2R den * B2R den)) by (field; exact Z).
  apply Rdiv_lt_0_compat; [|exact S]. apply Rmult_lt_0_compat; [nra|exact G].
Qed.
Lemma quo_err : Rabs (/ B2R quo - k0) <= 5 * u * w0.
Proof.
  pose proof C_pos as P. pose proof (u_small H24) as U. pose proof (by_inv _ _ _ (proj2 quo_ml)) as B. pose proof den_nz as Z.
  replace (/ (2 * C / B2R den)) with (B2R den / (2 * C)) in B by (field; split; [exact Z|lra]). apply near_by' in B; [|lra].
  pose proof den_err as D. assert (I : 0 < / (2 * C)) by (apply Rinv_0_lt_compat; lra). assert (Cc : 0 < C * C) by nra.
  assert (D2 : Rabs (B2R den / (2 * C) - k0) <= 21 / 10 * u * w0).
  { replace (B2R den / (2 * C) - k0) with ((B2R den - (C * C - 1)) * / (2 * C)) by (field; lra). rewrite Rabs_mult, (Rabs_pos_eq (/ _)) by lra.
    replace (21 / 10 * u * w0) with (21 / 10 * u * (C * C + 1) * / (2 * C)) by (field; lra). apply Rmult_le_compat_r; lra. }
  assert (W : 0 < w0) by (assert (0 < / C) by (apply Rinv_0_lt_compat; lra); lra).
  assert (K : Rabs (B2R den / (2 * C)) <= 11 / 10 * w0).
  { replace (B2R den / (2 * C)) with ((B2R den / (2 * C) - k0) + k0) by ring. eapply Rle_trans; [apply Rabs_triang|].
    assert (Rabs k0 <= w0) by (assert (0 < / C) by (apply Rinv_0_lt_compat; lra); apply Rabs_le; lra). assert (21 / 10 * u * w0 <= 1 / 10 * w0) by (apply Rmult_le_compat_r; lra). lra. }
  replace (/ B2R quo - k0) with ((/ B2R quo - B2R den / (2 * C)) + (B2R den / (2 * C) - k0)) by ring. eapply Rle_trans; [apply Rabs_triang|].
  assert (64 / 63 * (2 * h) * Rabs (B2R den / (2 * C)) <= 64 / 63 * (2 * h) * (11 / 10 * w0)) by (apply Rmult_le_compat_l; lra). assert (0 < u * w0) by nra. nra.
Qed.
End Q.

(** The denominator zero: the quotient is plus infinity. *)
Lemma quo_inf : B2R x = 1 -> quo = B754_infinity false.
Proof.
  intros E. destruct one_R as (F1 & V1). pose proof x_pos as P. assert (X : B2R x - B2R one = 0) by lra.
  assert (D : den = B754_zero false).
  { pose proof (Bminus_correct prec emax _ _ mode_NE x one (proj1 x_ml) F1) as M. rewrite X in M. rewrite round_0 in M by apply valid_rnd_N.
    rewrite Rabs_R0, Rlt_bool_true in M by apply bpow_gt_0. destruct M as (M1 & M2 & M3). rewrite Rcompare_Eq in M3 by reflexivity.
    rewrite (pos_sign x) in M3 by lra. cbn [andb] in M3. change (Bminus mode_NE x one) with den in *. revert M1 M2 M3. generalize den. intros [b|b| |b m e G] M1 M2 M3; try discriminate M2.
    - cbn in M3. subst b. reflexivity.
    - exfalso. cbn [B2R] in M1. apply eq_0_F2R in M1. destruct b; discriminate M1. }
  rewrite D. assert (N : 0 < B2R num) by (pose proof C_pos; exact (by_pos _ _ _ (proj2 num_ml) ltac:(lra))).
  pose proof (proj1 num_ml) as FN. revert N FN. generalize num. intros [b|b| |b m e G] N FN; try discriminate FN.
  - cbn in N. lra.
  - destruct b; [|reflexivity]. exfalso. cbn [B2R] in N. assert (F2R (Float radix2 (cond_Zopp true (Zpos m)) e) < 0) by (apply F2R_lt_0; reflexivity). lra.
Qed.
Lemma inf_err : B2R x = 1 -> Rabs (0 - k0) <= 5 * u * w0.
Proof.
  intros E. destruct x_val as (_ & X). rewrite E in X. pose proof C_pos as P. pose proof (u_small H24) as U. assert (I : 0 < / (2 * C)) by (apply Rinv_0_lt_compat; lra).
  replace (0 - k0) with ((1 - C * C) * / (2 * C)) by (field; lra). rewrite Rabs_mult, (Rabs_pos_eq (/ _)) by lra.
  replace (5 * u * w0) with (5 * u * (C * C + 1) * / (2 * C)) by (field; lra). apply Rmult_le_compat_r; [lra|]. assert (0 < C * C) by nra. nra.
Qed.

(** ** The arctangent *)
Variable at_ : fl -> fl.
Variable d : R.
Hypothesis d0 : 0 <= d <= / 1000.
Hypothesis Hat : atan_within d (3 * s + prec + 4) at_.
Lemma fnear_ml (y : fl) r : fnear y r (d * Rabs r) -> ml (16 / 15 * d) y r.
Proof. intros (F & E). split; [exact F|]. apply by_near; [exact E|lra]. Qed.

Lemma fov_hi : 1 <= C -> ml (16 / 15 * d + 40 / 7 * u) (at_ quo) (2 * atan (/ C)).
Proof.
  intros L. pose proof C_pos as P. pose proof (u_small H24) as U. destruct Hat as (H1 & H2).
  assert (X : 1 <= B2R x) by (rewrite (proj1 x_val); apply (rnd_above H24); nra).
  destruct (Req_dec (B2R x) 1) as [E|E].
  - rewrite (quo_inf E). apply (ml_to _ _ _ (PI / 2)).
    + apply fnear_ml. rewrite (Rabs_pos_eq (PI / 2)) by (pose proof PI_RGT_0; lra). exact H2.
    + replace (40 / 7 * u) with (8 / 7 * (5 * u)) by field. apply read_zero; [exact P|lra|exact (inf_err E)].
  - pose proof (quo_sign E) as S. apply (ml_to _ _ _ (atan (B2R quo))).
    + apply fnear_ml. apply H1; [apply (quo_ml E)|apply (quo_rb E)].
    + replace (40 / 7 * u) with (8 / 7 * (5 * u)) by field. rewrite <- (Rinv_inv (B2R quo)). assert (0 < B2R quo) by nra.
      apply read_pos; [exact P|lra|apply Rinv_0_lt_compat; assumption|exact (quo_err E)].
Qed.
Lemma fov_lo : C < 1 -> ml (16 / 15 * d + 40 / 7 * u) (at_ quo) (- (2 * atan C)).
Proof.
  intros L. pose proof C_pos as P. pose proof (u_small H24) as U. destruct Hat as (H1 & H2).
  assert (X : B2R x < 1). { rewrite (proj1 x_val). pose proof (below_one H24 c L). apply (rnd_below H24); [nra|]. assert (C * C <= (1 - u) * (1 - u)) by nra. nra. }
  assert (E : B2R x <> 1) by lra. pose proof (quo_sign E) as S. apply (ml_to _ _ _ (atan (B2R quo))).
  - apply fnear_ml. apply H1; [apply (quo_ml E)|apply (quo_rb E)].
  - replace (40 / 7 * u) with (8 / 7 * (5 * u)) by field. rewrite <- (Rinv_inv (B2R quo)). assert (B2R quo < 0) by nra.
    apply read_neg; [exact P|lra|apply Rinv_lt_0_compat; assumption|exact (quo_err E)].
Qed.

(** The entry [m\[2\]\[1\]] is zero. *)
Lemma zero_den : nsub (nadd (nmul n0 n0) x) one = den.
Proof.
  f_equal. pose proof (proj1 x_ml) as F. pose proof x_pos as P. revert F P. generalize x. intros [b|b| |b m e G] F P; try discriminate F; [cbn in P; lra|reflexivity].
Qed.
End C.
