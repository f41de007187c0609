(** Length and normalisation of float vectors in any format: accuracy when the length is in range. *)

From Coq Require Import List Arith ZArith Lia Reals Lra Psatz.
From Flocq Require Import Core.Core IEEE754.BinarySingleNaN.
From Verif Require Import Base Scalar Spec SpecF SpecRigid MVector MFloat MFloatVec LBase LVector LVectorR LFloat LFloatVec LFloatP LFloatAcc
  LDriftM LRigidF.
Local Open Scope R_scope.

Section NormF.
Context {prec emax : Z} {Hp : Prec_gt_0 prec} {He : Prec_lt_emax prec emax}.
Notation fl := (binary_float prec emax).
Notation u := (bpow radix2 (- prec)).
Hypothesis H24 : (24 <= prec)%Z.
Variables (n : nat) (k : Z).
Hypothesis Hn : (n <= 4)%nat.
Hypothesis Hk : (0 <= k)%Z.
Hypothesis Hr : (2 * k + 31 <= emax)%Z.
Variable v : vec fl n.
Hypothesis Fv : forall i, (i < n)%nat -> is_finite (vat v i) = true.
Notation r := (rlength n (fval v)).
Hypothesis HR : bpow radix2 (- k) <= r <= bpow radix2 k.

Notation t := (@ftiny prec emax).

Lemma r_pos : 0 < r.
Proof. pose proof (bpow_gt_0 radix2 (- k)). lra. Qed.

Lemma wok_r : @wok emax r.
Proof.
  split; (eapply Rle_trans; [|apply HR]) || (eapply Rle_trans; [apply HR|]); apply bpow_le; lia.
Qed.
Lemma wok_rr : @wok emax (r * r).
Proof.
  pose proof r_pos as P. split.
  - apply Rle_trans with (bpow radix2 (- k) * bpow radix2 (- k)).
    + rewrite <- bpow_plus. apply bpow_le. lia.
    + pose proof (bpow_gt_0 radix2 (- k)). apply Rmult_le_compat; lra.
  - apply Rle_trans with (bpow radix2 k * bpow radix2 k).
    + apply Rmult_le_compat; lra.
    + rewrite <- bpow_plus. apply bpow_le. lia.
Qed.
Lemma wok_one : @wok emax 1.
Proof. change 1 with (bpow radix2 0). split; apply bpow_le; lia. Qed.

Lemma t_le V : @wok emax V -> t <= u * V * / 4096.
Proof. intros H. pose proof (@ftiny_w prec emax V H). lra. Qed.

Lemma norm_gen : is_finite (fvnorm v) = true /\ Rabs (B2R (fvnorm v) - r) <= 8 * u * r.
Proof.
  pose proof r_pos as R0. pose proof (u_small H24) as U0. assert (U : 0 < u <= / 1024) by lra.
  pose proof (t_le _ wok_r) as Tr. pose proof (t_le _ wok_rr) as Trr. pose proof (t_le _ wok_one) as T1.
  pose proof (@ftiny_pos prec emax) as T0.
  set (S := rsum n (fun i => B2R (vat v i) * B2R (vat v i))).
  assert (Er : r = sqrt S) by reflexivity.
  assert (S0 : 0 < S).
  { destruct (Rlt_or_le 0 S) as [H|H]; [exact H|]. rewrite Er, sqrt_neg_0 in R0 by exact H. lra. }
  assert (RR : r * r = S) by (rewrite Er; apply sqrt_sqrt; lra).
  assert (EA : rsum n (fun i => Rabs (B2R (vat v i) * B2R (vat v i))) = S).
  { unfold S, rsum. apply sum_ext. intros i Hi. apply Rabs_pos_eq. apply Rle_0_sqr. }
  assert (N4 : 0 <= INR n <= 4).
  { split; [apply pos_INR|]. replace 4 with (INR 4) by (cbn; lra). apply le_INR; exact Hn. }
  assert (Fq : is_finite (vnorm_squared v) = true).
  { unfold vnorm_squared. rewrite vdot_sum. apply dot_fin; [exact Fv|exact Fv|].
    rewrite EA, funit_eq.
    pose proof (pow_u_bound u (Datatypes.S n) U ltac:(lia)) as P1. pose proof (pow_u_bound u n U ltac:(lia)) as P2.
    pose proof (IZR_small 4 _ ltac:(lia) wok_rr) as I4. pose proof (IZR_small 4 _ ltac:(lia) wok_one) as I1. rewrite RR in I4.
    assert (S * (1 + u) ^ Datatypes.S n <= S * 2) by (apply Rmult_le_compat_l; lra).
    assert (INR n * t * (1 + u) ^ n <= (4 * (u * 1 * / 4096)) * 2).
    { apply Rmult_le_compat; [apply Rmult_le_pos; lra|lra|apply Rmult_le_compat; lra|lra]. }
    lra. }
  assert (Fn : is_finite (fvnorm v) = true) by (apply fvnorm_fin; exact Fq).
  split; [exact Fn|].
  pose proof (norm_err n v Fn) as E. fold S in E. specialize (E S0). rewrite <- Er, funit_eq in E.
  pose proof (pow_u_bound u (n + 2) U ltac:(lia)) as P1. pose proof (pow_u_bound u (n + 1) U ltac:(lia)) as P2.
  eapply Rle_trans; [exact E|].
  assert (((1 + u) ^ (n + 2) - 1) * r <= 7 * u * r) by (apply Rmult_le_compat_r; lra).
  assert (INR n * t * (1 + u) ^ (n + 1) / r <= u * r * / 64).
  { apply (Rmult_le_reg_r r); [exact R0|]. unfold Rdiv. rewrite Rmult_assoc, Rinv_l, Rmult_1_r by lra.
    assert (INR n * t * (1 + u) ^ (n + 1) <= (4 * (u * (r * r) * / 4096)) * 2).
    { apply Rmult_le_compat; [apply Rmult_le_pos; lra|lra|apply Rmult_le_compat; lra|lra]. }
    assert (0 < u * (r * r)) by (apply Rmult_lt_0_compat; [lra|apply Rmult_lt_0_compat; lra]). lra. }
  assert (0 < u * r) by (apply Rmult_lt_0_compat; lra). lra.
Qed.

Lemma normalize_gen i : (i < n)%nat -> fnear (vat (fvnormalize v) i) (fval v i / r) (12 * u).
Proof.
  intros Hi. destruct norm_gen as (Fn & E).
  pose proof r_pos as R0. pose proof (u_small H24) as U0. assert (U : 0 < u <= / 1024) by lra.
  pose proof (t_le _ wok_one) as T1. pose proof (@ftiny_pos prec emax) as T0.
  assert (HX : Rabs (fval v i) <= r) by (apply (fnrm_comp n (fval v) i Hi)).
  change (fval v i) with (B2R (vat v i)) in *. set (x := B2R (vat v i)) in *.
  assert (RT : r * t <= u / 4).
  { rewrite ftiny_eq. apply Rle_trans with (bpow radix2 k * bpow radix2 (2 - emax - prec)).
    - apply Rmult_le_compat_r; [apply bpow_ge_0|apply HR].
    - replace (u / 4) with (bpow radix2 (- prec + -2)) by (rewrite bpow_plus; change (bpow radix2 (-2)) with (/ 4); lra).
      rewrite <- bpow_plus. apply bpow_le. lia. }
  assert (TU : t <= u / 4) by lra.
  set (rh := B2R (fvnorm v)) in *.
  assert (RH : r / 2 <= rh).
  { apply Rabs_le_inv in E. assert (8 * u * r <= / 2 * r) by (apply Rmult_le_compat_r; lra). lra. }
  assert (RH0 : 0 < rh) by lra.
  destruct (recip_fin (fvnorm v)) as (Fd & d & e & Hd & He' & Vd).
  { fold rh. exact RH0. }
  { fold rh. apply Rle_trans with (/ bpow radix2 (- k + -1)).
    - apply Rinv_le; [apply bpow_gt_0|]. rewrite bpow_plus. change (bpow radix2 (-1)) with (/ 2). lra.
    - rewrite <- bpow_opp. apply bpow_le. lia. }
  fold rh in Vd. rewrite funit_eq in Hd.
  unfold fvnormalize. rewrite vat_vmul_s by exact Hi.
  pose proof (normalize_core u t r rh d) as C.
  set (y := ndiv n1 (fvnorm v)) in *.
  assert (Fy : is_finite (nmul (vat v i) y) = true).
  { apply fmul_fin; [apply Fv; exact Hi|exact Fd|]. rewrite Vd. fold x.
    destruct (C 0 e 0 x) as (C1 & _); auto; try (rewrite Rabs_R0; lra).
    eapply Rle_trans; [exact C1|]. change 2 with (bpow radix2 1). apply bpow_le. lia. }
  split; [exact Fy|].
  destruct (fmul_err _ _ Fy) as (d' & e' & Hd' & He2 & Vy). rewrite funit_eq in Hd'.
  destruct (C d' e e' x) as (_ & C2); auto.
  rewrite Vd in Vy. eapply Rle_trans; [|exact C2]. apply Req_le. f_equal. f_equal. exact Vy.
Qed.
End NormF.

Lemma c97_any :
  forall (prec emax : Z) (Hp : Prec_gt_0 prec) (He : Prec_lt_emax prec emax) (n : nat) (k : Z) (v : vec (binary_float prec emax) n),
    let u := bpow radix2 (- prec) in let r := rlength n (fval v) in
    (24 <= prec)%Z -> (n <= 4)%nat -> (0 <= k)%Z -> (2 * k + 31 <= emax)%Z ->
    (forall i, (i < n)%nat -> is_finite (vat v i) = true) -> bpow radix2 (- k) <= r <= bpow radix2 k ->
    fnear (fvnorm v) r (8 * u * r) /\
    forall i, (i < n)%nat -> fnear (vat (fvnormalize v) i) (fval v i / r) (12 * u).
Proof.
  intros prec emax Hp He n k v u r H24 Hn Hk Hr Fv HR. split.
  - exact (norm_gen H24 n k Hn Hk Hr v Fv HR).
  - intros i Hi. exact (normalize_gen H24 n k Hn Hk Hr v Fv HR i Hi).
Qed.
