(** Powers of quaternions in floats. *)

From Coq Require Import List Arith ZArith Bool Lia Reals Lra Psatz.
From Flocq Require Import Core.Core Relative IEEE754.BinarySingleNaN.
From Verif Require Import Base Scalar Spec SpecF SpecRigid SpecLook SpecCplx SpecArc SpecAng SpecQFun MReal MVector MMatrix MQuat MFloat MFloatVec MSign MComplexF MRotF MTransform MArcF MQFunF
  LBase LVector LFloat LFloatP LFloatVec LTrScF LRigidF LDriftM LNormF LLookF LSlerpS LSlerpW LDegF LArc LArcP LArcQ LComplexHP LComplexLP LCplxF LCplxFP LBetw LAngF LQFunF LQFunG LQFunH LQFunI.
Local Open Scope R_scope.

(** The exponential of a vector is close to that of a vector nearby. *)
Lemma len_diff (x y : nat -> R) : Rabs (rlength 3 x - rlength 3 y) <= rlength 3 (fun i => x i - y i).
Proof.
  change (rlength 3) with (fnrm 3). apply Rabs_le. split.
  - pose proof (fnrm_tri 3 x (fun i => y i - x i)) as P. cbv beta in P. rewrite (fnrm_ext 3 (fun i => x i + (y i - x i)) y) in P by (intros; ring).
    assert (Q : fnrm 3 (fun i => y i - x i) = fnrm 3 (fun i => x i - y i)) by (unfold fnrm; f_equal; apply sum_ext; intros; change (((y i - x i) * (y i - x i)) = ((x i - y i) * (x i - y i))); ring). lra.
  - pose proof (fnrm_tri 3 y (fun i => x i - y i)) as P. cbv beta in P. rewrite (fnrm_ext 3 (fun i => y i + (x i - y i)) x) in P by (intros; ring). lra.
Qed.
Lemma len_scale (v : nat -> R) a : rlength 3 (fun i => a * v i) = Rabs a * rlength 3 v.
Proof.
  unfold rlength. rewrite <- sqrt_Rsqr_abs. rewrite <- sqrt_mult_alt by apply Rle_0_sqr. f_equal. unfold Rsqr.
  change (0 + a * v 0%nat * (a * v 0%nat) + a * v 1%nat * (a * v 1%nat) + a * v 2%nat * (a * v 2%nat) = a * a * (0 + v 0%nat * v 0%nat + v 1%nat * v 1%nat + v 2%nat * v 2%nat)). ring.
Qed.
Lemma len_unit (v : nat -> R) : 0 < rlength 3 v -> rlength 3 (rdir v) = 1.
Proof.
  intros P. transitivity (rlength 3 (fun i => / rlength 3 v * v i)); [apply (fnrm_ext 3); intros i Hi; unfold rdir; field; lra|].
  rewrite len_scale, Rabs_pos_eq by (left; apply Rinv_0_lt_compat; exact P). apply Rinv_l. lra.
Qed.
Lemma sin_dir_pos (x v : nat -> R) a i : (i < 3)%nat -> rlength 3 v = 1 -> 0 <= a -> let e := rlength 3 (fun i => x i - a * v i) in
  Rabs (cos (rlength 3 x) - cos a) <= e /\ Rabs (sin (rlength 3 x) * rdir x i - sin a * v i) <= 3 * e.
Proof.
  intros Hi V A e. set (n := rlength 3 x). assert (NA : Rabs (n - a) <= e).
  { pose proof (len_diff x (fun i => a * v i)) as P. rewrite len_scale, V, Rmult_1_r, (Rabs_pos_eq a) in P by exact A. exact P. }
  split; [eapply Rle_trans; [apply LDegF.cos_lip|exact NA]|].
  assert (N0 : 0 <= n) by apply fnrm_pos. pose proof (LSlerpW.sin_abs a) as SA. rewrite (Rabs_pos_eq a) in SA by exact A.
  pose proof (fnrm_comp 3 v i Hi) as V1. change (fnrm 3 v) with (rlength 3 v) in V1. rewrite V in V1.
  pose proof (fnrm_comp 3 (fun i => x i - a * v i) i Hi) as E1. change (fnrm 3 (fun i => x i - a * v i)) with e in E1. cbv beta in E1.
  destruct (Req_dec n 0) as [Z|NZ].
  - rewrite (rdir_zero x i Hi Z), Rmult_0_r, Rminus_0_l, Rabs_Ropp, Rabs_mult. fold n in Z. rewrite Z in NA. rewrite Rminus_0_l, Rabs_Ropp, (Rabs_pos_eq a) in NA by exact A.
    pose proof (Rabs_pos (sin a)). pose proof (Rabs_pos (v i)). nra.
  - assert (NP : 0 < n) by lra. pose proof (dir_le x i Hi NP) as X1. set (w := rdir x i) in *. assert (XW : x i = n * w) by (unfold w, rdir; fold n; field; lra).
    replace (sin n * w - sin a * v i) with ((sin n - sin a) * w + sin a * (w - v i)) by ring. eapply Rle_trans; [apply Rabs_triang|]. rewrite !Rabs_mult.
    assert (S1 : Rabs (sin n - sin a) * Rabs w <= e) by (pose proof (LSlerpW.sin_lip n a); pose proof (Rabs_pos (sin n - sin a)); pose proof (Rabs_pos w); nra).
    assert (S2 : a * Rabs (w - v i) <= 2 * e).
    { rewrite <- (Rabs_pos_eq a) at 1 by exact A. rewrite <- Rabs_mult. replace (a * (w - v i)) with ((x i - a * v i) + w * (a - n)) by (rewrite XW; ring).
      eapply Rle_trans; [apply Rabs_triang|]. rewrite Rabs_mult, (Rabs_minus_sym a). pose proof (Rabs_pos w). pose proof (Rabs_pos (n - a)). nra. }
    assert (Rabs (sin a) * Rabs (w - v i) <= a * Rabs (w - v i)) by (apply Rmult_le_compat_r; [apply Rabs_pos|exact SA]). lra.
Qed.
Lemma sin_dir (x v : nat -> R) a i : (i < 3)%nat -> rlength 3 v = 1 -> let e := rlength 3 (fun i => x i - a * v i) in
  Rabs (cos (rlength 3 x) - cos a) <= e /\ Rabs (sin (rlength 3 x) * rdir x i - sin a * v i) <= 3 * e.
Proof.
  intros Hi V e. destruct (Rle_or_lt 0 a) as [A|A]; [exact (sin_dir_pos x v a i Hi V A)|].
  assert (V' : rlength 3 (fun i => - v i) = 1). { transitivity (rlength 3 (fun i => -1 * v i)); [apply (fnrm_ext 3); intros; ring|]. rewrite len_scale, V, Rabs_left; lra. }
  destruct (sin_dir_pos x (fun i => - v i) (- a) i Hi V' ltac:(lra)) as (P & Q). rewrite cos_neg in P. rewrite sin_neg in Q.
  assert (E : rlength 3 (fun i => x i - - a * - v i) = e) by (apply (fnrm_ext 3); intros; ring). rewrite E in P, Q. split; [exact P|].
  replace (sin a * v i) with (- sin a * - v i) by ring. exact Q.
Qed.

Section F.
Context {prec emax : Z} {Hp : Prec_gt_0 prec} {He : Prec_lt_emax prec emax}.
Notation fl := (binary_float prec emax).
Notation u := (bpow radix2 (- prec)).
Notation tiny := (bpow radix2 (2 - emax - prec)).
Notation fexp := (FLT_exp (3 - emax - prec) prec).
Notation rnd := (round radix2 fexp ZnearestE).
Hypothesis H24 : (24 <= prec)%Z.
Variable L : libm fl.
Variables arccos arcsin : fl -> fl.
Variable d : R.
Hypothesis D : 0 <= d <= / 64.
Hypothesis HL : ang_lib L arccos arcsin d.
Hypothesis Hr : (2 * prec + 33 <= emax)%Z.
Variable q : quat fl.
Hypothesis Fq : all_finite (q : vec fl 4).
Notation r := (rlength 4 (fval (q : vec fl 4))).
Notation n := (rlength 3 (fval (qvector q))).
Notation s := (B2R (qscalar q)).
Hypothesis Ru : 4 * u * r <= 1.
Variable theta : R.
Hypothesis TH : 0 <= theta <= PI.
Hypothesis TC : r * cos theta = s.
Hypothesis TS : r * sin theta = n.

(** A product with a rounded factor. *)
Lemma scaled (X t : fl) x m e : is_finite t = true -> fnear X x e -> Rabs x <= m -> Rabs (B2R t) * (m + e) <= bpow radix2 (emax - 1) ->
  fnear (nmul X t) (B2R t * x) (Rabs (B2R t) * (e + u * (m + e)) + tiny).
Proof.
  intros Ft (FX & EX) HX B. set (T := Rabs (B2R t)) in *. assert (T0 : 0 <= T) by apply Rabs_pos.
  assert (X1 : Rabs (B2R X) <= m + e) by (replace (B2R X) with (x + (B2R X - x)) by ring; eapply Rle_trans; [apply Rabs_triang|lra]).
  assert (P : Rabs (B2R X * B2R t) <= T * (m + e)) by (rewrite Rabs_mult, Rmult_comm; apply Rmult_le_compat_l; [exact T0|exact X1]).
  destruct (mul_val X t FX Ft ltac:(lra)) as (F & E). split; [exact F|]. rewrite E. pose proof (rnd_rel (prec := prec) (emax := emax) (B2R X * B2R t)) as Rr.
  replace (rnd (B2R X * B2R t) - B2R t * x) with ((rnd (B2R X * B2R t) - B2R X * B2R t) + B2R t * (B2R X - x)) by ring.
  eapply Rle_trans; [apply Rabs_triang|]. rewrite (Rabs_mult (B2R t)). fold T.
  assert (T * Rabs (B2R X - x) <= T * e) by (apply Rmult_le_compat_l; assumption).
  assert (u * Rabs (B2R X * B2R t) <= u * (T * (m + e))) by (apply Rmult_le_compat_l; [apply bpow_ge_0|exact P]). lra.
Qed.

Lemma powf_is (t : fl) : fqpowf L arccos q t = fqexp L (qscale (fqln L arccos q) t).
Proof. reflexivity. Qed.
Lemma part_0 (w : quat fl) : vget (B754_zero false) (w : vec fl 4) 0 = qscalar w.
Proof. destruct w as (x0 & x1 & x2 & x3 & []). reflexivity. Qed.
Lemma part_S (w : quat fl) i : (i < 3)%nat -> vget (B754_zero false) (w : vec fl 4) (S i) = vat (qvector w) i.
Proof. intros Hi. destruct w as (x0 & x1 & x2 & x3 & []). destruct i as [|[|[|i]]]; try lia; reflexivity. Qed.
Lemma scale_0 (w : quat fl) t : qscalar (qscale w t) = nmul (qscalar w) t.
Proof. destruct w as (x0 & x1 & x2 & x3 & []). reflexivity. Qed.
Lemma scale_S (w : quat fl) t i : (i < 3)%nat -> vat (qvector (qscale w t)) i = nmul (vat (qvector w) i) t.
Proof. intros Hi. destruct w as (x0 & x1 & x2 & x3 & []). destruct i as [|[|[|i]]]; try lia; reflexivity. Qed.

Lemma pow_parts (t : fl) : let T := Rabs (B2R t) in let w := qscale (fqln L arccos q) t in let l := Rabs (ln r) in
  let E := T * (d * (2 + l) + 14 * u / sin theta + 64 * u * (1 + l)) + u in
  is_finite t = true -> 3 * u < n -> 64 * u * (r * r) <= n * n -> lib_at d ln (m_ln L) (fqnorm q) -> E <= / 16 ->
  fnear (qscalar w) (B2R t * ln r) E /\ forall i, (i < 3)%nat -> fnear (vat (qvector w) i) (B2R t * (theta * rdir (fval (qvector q)) i)) E.
Proof.
  intros T w l E Ft NL NQ LN E16.
  destruct (ln_close H24 L arccos arcsin d D HL Hr q Fq Ru theta TH TC TS NL NQ LN) as (K0 & K1).
  pose proof (bpow_gt_0 radix2 (- prec)) as U0. assert (U : u <= / 16777216) by (apply (bpow_le radix2 (- prec) (-24)); lia). pose proof (n_le_r q) as NR. pose proof PI_digits as PD.
  assert (R0 : 0 < r) by lra. set (sg := sin theta) in *.
  assert (SG : 0 < sg) by (apply (Rmult_lt_reg_l r); [exact R0|]; rewrite TS, Rmult_0_r; lra).
  assert (S2 : 64 * u <= sg * sg).
  { apply (Rmult_le_reg_l (r * r)); [apply Rmult_lt_0_compat; assumption|]. replace (r * r * (sg * sg)) with (r * sg * (r * sg)) by ring. rewrite TS. lra. }
  assert (SG1 : sg <= 1) by apply SIN_bound. assert (US : 0 < u / sg <= / 64).
  { split; [apply Rdiv_lt_0_compat; assumption|]. apply (Rmult_le_reg_r sg); [exact SG|]. unfold Rdiv. rewrite Rmult_assoc, Rinv_l by lra. nra. }
  replace (14 * u / sg) with (14 * (u / sg)) in K1 by (unfold Rdiv; ring). assert (E' : E = T * (d * (2 + l) + 14 * (u / sg) + 64 * u * (1 + l)) + u) by (unfold E; replace (14 * u / sg) with (14 * (u / sg)) by (unfold Rdiv; ring); reflexivity).
  set (us := u / sg) in *. assert (T0 : 0 <= T) by apply Rabs_pos. assert (L0 : 0 <= l) by apply Rabs_pos. assert (DL : 0 <= d * l) by (apply Rmult_le_pos; lra). assert (UL : 0 <= u * l) by (apply Rmult_le_pos; lra).
  assert (TY : tiny <= u * / 4) by (replace (2 - emax - prec)%Z with (- prec + (2 - emax))%Z by ring; rewrite bpow_plus; apply Rmult_le_compat_l; [lra|apply (bpow_le radix2 (2 - emax) (-2)); lia]).
  pose proof (bpow_gt_0 radix2 (2 - emax - prec)) as TY0.
  assert (BG : 4 * bpow radix2 prec <= bpow radix2 (emax - 1)) by (change 4 with (bpow radix2 2); rewrite <- bpow_plus; apply bpow_le; lia).
  assert (UP : u * bpow radix2 prec = 1) by (rewrite <- bpow_plus; replace (- prec + prec)%Z with 0%Z by ring; reflexivity).
  assert (TU : T * (u * (1 + l)) <= / 1024).
  { assert (0 <= T * (d * (2 + l) + 14 * us)) by (apply Rmult_le_pos; [exact T0|lra]). lra. }
  assert (TP : T * (1 + l) <= bpow radix2 prec).
  { pose proof (bpow_gt_0 radix2 prec). apply (Rmult_le_reg_l u); [exact U0|]. rewrite UP. lra. }
  assert (TL : 0 <= T * l) by (apply Rmult_le_pos; assumption).
  assert (TD : T * d <= T * / 64) by (apply Rmult_le_compat_l; lra). assert (TUS : T * us <= T * / 64) by (apply Rmult_le_compat_l; lra). assert (TUU : T * u <= T * / 16777216) by (apply Rmult_le_compat_l; lra).
  assert (TLD : T * l * d <= T * l * / 64) by (apply Rmult_le_compat_l; lra). assert (T * l * u <= T * l * / 16777216) by (apply Rmult_le_compat_l; lra).
  assert (W0 : fnear (qscalar w) (B2R t * ln r) E).
  { destruct (scaled (qscalar (fqln L arccos q)) t (ln r) l (d * l + 10 * u) Ft K0 ltac:(unfold l; lra)) as (F0 & G0); [fold T; lra|].
    assert (Q : qscalar w = nmul (qscalar (fqln L arccos q)) t) by (unfold w; apply scale_0). rewrite Q. split; [exact F0|].
    eapply Rle_trans; [exact G0|]. fold T. rewrite E'. assert (0 <= T * us) by (apply Rmult_le_pos; lra). assert (0 <= T * u) by (apply Rmult_le_pos; lra). assert (0 <= T * d) by (apply Rmult_le_pos; lra). 
    assert (0 <= T * l * u) by (apply Rmult_le_pos; lra). assert (0 <= T * u * u <= T * u * / 16777216) by (split; [apply Rmult_le_pos; lra|apply Rmult_le_compat_l; lra]).
    assert (0 <= T * l * d * u <= T * l * u * / 64) by (split; [apply Rmult_le_pos; [apply Rmult_le_pos|]; lra|replace (T * l * d * u) with (T * l * u * d) by ring; apply Rmult_le_compat_l; lra]). nra. }
  assert (W1 : forall i, (i < 3)%nat -> fnear (vat (qvector w) i) (B2R t * (theta * rdir (fval (qvector q)) i)) E).
  { intros i Hi. assert (N0 : 0 < n) by lra. pose proof (dir_le (fval (qvector q)) i Hi N0) as D1.
    assert (M : Rabs (theta * rdir (fval (qvector q)) i) <= 7 / 2) by (rewrite Rabs_mult, (Rabs_pos_eq theta) by lra; pose proof (Rabs_pos (rdir (fval (qvector q)) i)); nra).
    destruct (scaled (vat (qvector (fqln L arccos q)) i) t (theta * rdir (fval (qvector q)) i) (7 / 2) (5 / 4 * d + 14 * us + 48 * u) Ft (K1 i Hi) M) as (F0 & G0); [fold T; lra|].
    assert (Q : vat (qvector w) i = nmul (vat (qvector (fqln L arccos q)) i) t) by (unfold w; apply scale_S; exact Hi). rewrite Q. split; [exact F0|].
    eapply Rle_trans; [exact G0|]. fold T. rewrite E'. assert (0 <= T * us) by (apply Rmult_le_pos; lra). assert (TU0 : 0 <= T * u) by (apply Rmult_le_pos; lra). assert (0 <= T * d) by (apply Rmult_le_pos; lra). 
    assert (0 <= T * l * u) by (apply Rmult_le_pos; lra). assert (T * u * u <= T * u * / 16777216) by (apply Rmult_le_compat_l; lra). assert (T * u * us <= T * u * / 64) by (apply Rmult_le_compat_l; lra). assert (T * u * d <= T * u * / 64) by (apply Rmult_le_compat_l; lra).
    assert (0 <= T * l * d) by (apply Rmult_le_pos; lra). lra. }
  split; assumption.
Qed.

Lemma pow_close (t : fl) : let T := Rabs (B2R t) in let w := qscale (fqln L arccos q) t in let l := Rabs (ln r) in
  let E := T * (d * (2 + l) + 14 * u / sin theta + 64 * u * (1 + l)) + u in
  is_finite t = true -> 3 * u < n -> 64 * u * (r * r) <= n * n -> lib_at d ln (m_ln L) (fqnorm q) -> E <= / 16 -> Rpower r (B2R t) <= bpow radix2 (emax - 8) ->
  lib_at d exp (m_exp L) (qscalar w) -> lib_at d cos (m_cos L) (fvnorm (qvector w)) -> lib_at d sin (m_sin L) (fvnorm (qvector w)) ->
  qclose (fqpowf L arccos q t) (Rpower r (B2R t) * cos (B2R t * theta)) (Rpower r (B2R t) * sin (B2R t * theta)) (fval (qvector q)) ((9 * E + 3 * d + 40 * u) * Rpower r (B2R t) + bpow radix2 (3 - emax)).
Proof.
  intros T w l E Ft NL NQ LN E16 PB LE LC LS. destruct (pow_parts t Ft NL NQ LN E16) as (W0 & W1). change (fnear (qscalar w) (B2R t * ln r) E) in W0.
  change (forall i, (i < 3)%nat -> fnear (vat (qvector w) i) (B2R t * (theta * rdir (fval (qvector q)) i)) E) in W1.
  destruct (ln_close H24 L arccos arcsin d D HL Hr q Fq Ru theta TH TC TS NL NQ LN) as (K0 & K1).
  pose proof (bpow_gt_0 radix2 (- prec)) as U0. assert (U : u <= / 16777216) by (apply (bpow_le radix2 (- prec) (-24)); lia). pose proof (n_le_r q) as NR. pose proof PI_digits as PD.
  assert (R0 : 0 < r) by lra. set (sg := sin theta) in *.
  assert (SG : 0 < sg) by (apply (Rmult_lt_reg_l r); [exact R0|]; rewrite TS, Rmult_0_r; lra).
  assert (S2 : 64 * u <= sg * sg).
  { apply (Rmult_le_reg_l (r * r)); [apply Rmult_lt_0_compat; assumption|]. replace (r * r * (sg * sg)) with (r * sg * (r * sg)) by ring. rewrite TS. lra. }
  assert (SG1 : sg <= 1) by apply SIN_bound. assert (US : 0 < u / sg <= / 64).
  { split; [apply Rdiv_lt_0_compat; assumption|]. apply (Rmult_le_reg_r sg); [exact SG|]. unfold Rdiv. rewrite Rmult_assoc, Rinv_l by lra. nra. }
  replace (14 * u / sg) with (14 * (u / sg)) in K1 by (unfold Rdiv; ring). assert (E' : E = T * (d * (2 + l) + 14 * (u / sg) + 64 * u * (1 + l)) + u) by (unfold E; replace (14 * u / sg) with (14 * (u / sg)) by (unfold Rdiv; ring); reflexivity).
  set (us := u / sg) in *. assert (T0 : 0 <= T) by apply Rabs_pos. assert (L0 : 0 <= l) by apply Rabs_pos. assert (DL : 0 <= d * l) by (apply Rmult_le_pos; lra). assert (UL : 0 <= u * l) by (apply Rmult_le_pos; lra).
  assert (TY : tiny <= u * / 4) by (replace (2 - emax - prec)%Z with (- prec + (2 - emax))%Z by ring; rewrite bpow_plus; apply Rmult_le_compat_l; [lra|apply (bpow_le radix2 (2 - emax) (-2)); lia]).
  pose proof (bpow_gt_0 radix2 (2 - emax - prec)) as TY0.
  assert (BG : 4 * bpow radix2 prec <= bpow radix2 (emax - 1)) by (change 4 with (bpow radix2 2); rewrite <- bpow_plus; apply bpow_le; lia).
  assert (UP : u * bpow radix2 prec = 1) by (rewrite <- bpow_plus; replace (- prec + prec)%Z with 0%Z by ring; reflexivity).
  assert (TU : T * (u * (1 + l)) <= / 1024).
  { assert (0 <= T * (d * (2 + l) + 14 * us)) by (apply Rmult_le_pos; [exact T0|lra]). lra. }
  assert (TP : T * (1 + l) <= bpow radix2 prec).
  { pose proof (bpow_gt_0 radix2 prec). apply (Rmult_le_reg_l u); [exact U0|]. rewrite UP. lra. }
  assert (TL : 0 <= T * l) by (apply Rmult_le_pos; assumption).
  assert (TD : T * d <= T * / 64) by (apply Rmult_le_compat_l; lra). assert (TUS : T * us <= T * / 64) by (apply Rmult_le_compat_l; lra). assert (TUU : T * u <= T * / 16777216) by (apply Rmult_le_compat_l; lra).
  assert (TLD : T * l * d <= T * l * / 64) by (apply Rmult_le_compat_l; lra). assert (T * l * u <= T * l * / 16777216) by (apply Rmult_le_compat_l; lra).
  set (x := fval (qvector w)). set (a := B2R t * theta).
  assert (N0 : 0 < n) by lra. set (vh := rdir (fval (qvector q))) in *. assert (VU : rlength 3 vh = 1) by (apply len_unit; exact N0).
  assert (E0 : 0 < E) by (rewrite E'; assert (0 <= T * (d * (2 + l) + 14 * us + 64 * u * (1 + l))) by (apply Rmult_le_pos; [exact T0|lra]); lra).
  set (e := rlength 3 (fun i => x i - a * vh i)). assert (EE : 0 <= e <= 7 / 4 * E).
  { split; [apply (fnrm_pos 3)|]. unfold e. pose proof (fnrm_bound 3 (fun i => x i - a * vh i) E ltac:(lra)) as P.
    assert (S3 : sqrt (INR 3) <= 7 / 4) by (rewrite <- (sqrt_square (7 / 4)) by lra; apply sqrt_le_1_alt; cbn; lra).
    eapply Rle_trans; [apply P|apply Rmult_le_compat_r; lra]. intros i Hi. destruct (W1 i Hi) as (_ & Q). unfold x, a, fval. replace (B2R t * theta * vh i) with (B2R t * (theta * vh i)) by ring. exact Q. }
  set (P0 := Rpower r (B2R t)) in *. assert (PP : 0 < P0) by apply exp_pos. assert (PE : P0 = exp (B2R t * ln r)) by reflexivity.
  assert (WE : Rabs (exp (B2R (qscalar w)) - P0) <= 2 * E * P0).
  { destruct W0 as (_ & Q). set (h := B2R (qscalar w) - B2R t * ln r) in *. replace (B2R (qscalar w)) with (B2R t * ln r + h) by (unfold h; ring). rewrite exp_plus, <- PE.
    replace (P0 * exp h - P0) with (P0 * (exp h - 1)) by ring. rewrite Rabs_mult, (Rabs_pos_eq P0) by lra. rewrite (Rmult_comm (2 * E)). apply Rmult_le_compat_l; [lra|].
    apply Rabs_le_inv in Q. pose proof (exp_ineq1_le h) as X1. apply Rabs_le. split; [lra|].
    assert (exp h <= exp E) by (destruct (Req_dec h E) as [->|NE]; [lra|left; apply exp_increasing; lra]). pose proof (exp_small E ltac:(lra)). lra. }
  assert (XB : rlength 3 x <= 4 * T + 7 / 4 * E).
  { pose proof (len_diff x (fun i => a * vh i)) as P. rewrite len_scale, VU, Rmult_1_r in P. fold e in P. apply Rabs_le_inv in P.
    assert (Rabs a <= 4 * T) by (unfold a; rewrite Rabs_mult, (Rabs_pos_eq theta) by lra; fold T; rewrite Rmult_comm; apply Rmult_le_compat_r; lra). lra. }
  assert (TUB : T * u <= / 1024) by (assert (0 <= T * (u * l)) by (apply Rmult_le_pos; [exact T0|lra]); lra).
  assert (WB : exp (B2R (qscalar w)) <= 9 / 8 * P0) by (apply Rabs_le_inv in WE; assert (E * P0 <= / 16 * P0) by (apply Rmult_le_compat_r; lra); lra).
  assert (FW : all_finite (w : vec fl 4)).
  { intros i Hi. destruct i as [|i]; [rewrite part_0; exact (proj1 W0)|]. assert (Hi' : (i < 3)%nat) by lia. rewrite part_S by exact Hi'. exact (proj1 (W1 i Hi')). }
  assert (X128 : 128 * u * rlength 3 x <= 1) by (assert (u * rlength 3 x <= u * (4 * T + 7 / 4 * E)) by (apply Rmult_le_compat_l; lra); assert (u * E <= u * / 16) by (apply Rmult_le_compat_l; lra); lra).
  assert (B2 : bpow radix2 (emax - 7) = 2 * bpow radix2 (emax - 8)) by (replace (emax - 7)%Z with (1 + (emax - 8))%Z by ring; apply bpow_plus).
  destruct (exp_close L H24 w d Hr ltac:(lra) FW X128 ltac:(lra) LE LC LS) as (C0 & C1). set (sw := exp (B2R (qscalar w))) in *.
  fold x in C0, C1. rewrite powf_is. fold w. clearbody w.
  assert (SP : 0 < sw) by apply exp_pos. pose proof (bpow_gt_0 radix2 (3 - emax)) as B3.
  assert (ERR : (5 / 2 * d + 12 * u * rlength 3 x + 19 * u) * sw <= (3 * d + E + 30 * u) * P0).
  { assert (Z1 : 12 * u * rlength 3 x <= 48 * (T * u) + 2 * u) by (assert (u * rlength 3 x <= u * (4 * T + 7 / 4 * E)) by (apply Rmult_le_compat_l; lra); assert (u * E <= u * / 16) by (apply Rmult_le_compat_l; lra); lra).
    assert (Z2 : 64 * (T * u) <= E) by (rewrite E'; assert (0 <= T * us) by (apply Rmult_le_pos; lra); assert (0 <= T * d) by (apply Rmult_le_pos; lra); assert (0 <= T * (d * l)) by (apply Rmult_le_pos; lra); assert (0 <= T * (u * l)) by (apply Rmult_le_pos; lra); lra).
    apply (Rle_trans _ ((5 / 2 * d + 48 * (T * u) + 21 * u) * (9 / 8 * P0))).
    - apply Rmult_le_compat; [|lra|lra|exact WB]. assert (0 <= u * rlength 3 x) by (apply Rmult_le_pos; [lra|apply (fnrm_pos 3)]). lra.
    - replace ((5 / 2 * d + 48 * (T * u) + 21 * u) * (9 / 8 * P0)) with ((45 / 16 * d + 54 * (T * u) + 189 / 8 * u) * P0) by lra. apply Rmult_le_compat_r; lra. }
  assert (GEN : forall A B c, Rabs (A - B) <= c * e -> 0 <= c <= 3 -> Rabs B <= 1 -> Rabs (sw * A - P0 * B) <= 8 * E * P0).
  { intros A B c AB C3 B1. replace (sw * A - P0 * B) with (sw * (A - B) + (sw - P0) * B) by ring. eapply Rle_trans; [apply Rabs_triang|]. rewrite !Rabs_mult, (Rabs_pos_eq sw) by lra.
    assert (c * e <= 3 * (7 / 4 * E)) by (apply Rmult_le_compat; lra).
    assert (Y1 : sw * Rabs (A - B) <= 9 / 8 * P0 * (3 * (7 / 4 * E))) by (apply Rmult_le_compat; [lra|apply Rabs_pos|exact WB|lra]).
    assert (Y2 : Rabs (sw - P0) * Rabs B <= 2 * E * P0 * 1) by (apply Rmult_le_compat; [apply Rabs_pos|apply Rabs_pos|exact WE|exact B1]). assert (0 <= E * P0) by (apply Rmult_le_pos; lra). lra. }
  assert (FIN : forall (X : fl) A B, fnear X (sw * A) ((5 / 2 * d + 12 * u * rlength 3 x + 19 * u) * sw + bpow radix2 (3 - emax)) -> Rabs (sw * A - P0 * B) <= 8 * E * P0 -> fnear X (P0 * B) ((9 * E + 3 * d + 40 * u) * P0 + bpow radix2 (3 - emax))).
  { intros X A B (FX & EX) Q. split; [exact FX|]. replace (B2R X - P0 * B) with ((B2R X - sw * A) + (sw * A - P0 * B)) by ring. eapply Rle_trans; [apply Rabs_triang|]. assert (0 <= u * P0) by (apply Rmult_le_pos; lra). lra. }
  split.
  - apply (FIN _ (cos (rlength 3 x))); [exact C0|]. destruct (sin_dir x vh a 0 ltac:(lia) VU) as (Q & _). fold e in Q. apply (GEN _ _ 1); [lra|lra|apply Rabs_le; apply COS_bound].
  - intros i Hi. destruct (sin_dir x vh a i Hi VU) as (_ & Q). fold e in Q. specialize (C1 i Hi). rewrite Rmult_assoc in C1. rewrite Rmult_assoc.
    apply (FIN _ (sin (rlength 3 x) * rdir x i)); [exact C1|]. apply (GEN _ _ 3); [exact Q|lra|]. rewrite Rabs_mult.
    pose proof (dir_le (fval (qvector q)) i Hi N0) as D1. fold vh in D1. assert (Rabs (sin a) <= 1) by (apply Rabs_le; apply SIN_bound). rewrite <- (Rmult_1_l 1). apply Rmult_le_compat; [apply Rabs_pos|apply Rabs_pos|assumption|exact D1].
Qed.
End F.
