(** Translations, scales and axis shears in floats: single components. *)

From Coq Require Import List Arith ZArith Lia Reals Lra Psatz.
From Flocq Require Import Core.Core Relative IEEE754.BinarySingleNaN.
From Verif Require Import Base Scalar Spec LBase MVector LVector MPoint LMisc MTransform MFloat LFloat LFloatP MFloatVec LFloatVec.
Local Open Scope R_scope.

Section F.
Context {prec emax : Z} {Hp : Prec_gt_0 prec} {He : Prec_lt_emax prec emax}.
Notation fl := (binary_float prec emax).
Notation u := (bpow radix2 (- prec)).
Notation fexp := (FLT_exp (3 - emax - prec) prec).
Notation rnd := (round radix2 fexp ZnearestE).

Lemma u_half : 0 < u <= / 2.
Proof.
  split; [apply bpow_gt_0|]. change (/ 2) with (bpow radix2 (-1)). apply bpow_le. pose proof Hp as P. unfold Prec_gt_0 in P. lia.
Qed.

(** Rounding is at least as near as any float. *)
Lemma rnd_best (p : fl) z : Rabs (rnd z - z) <= Rabs (B2R p - z).
Proof.
  pose proof (round_N_pt radix2 fexp (fun t => negb (Z.even t)) z) as (_ & H). apply H. apply generic_format_B2R.
Qed.
Lemma rnd_twice (p : fl) z : Rabs (rnd z - B2R p) <= 2 * Rabs (z - B2R p).
Proof.
  pose proof (rnd_best p z) as H. rewrite (Rabs_minus_sym (B2R p)) in H.
  replace (rnd z - B2R p) with ((rnd z - z) + (z - B2R p)) by ring. eapply Rle_trans; [apply Rabs_triang|]. lra.
Qed.
Lemma rnd_float (p : fl) : rnd (B2R p) = B2R p.
Proof. apply round_generic; [apply valid_rnd_N|apply generic_format_B2R]. Qed.

Lemma add_val (x y : fl) : is_finite x = true -> is_finite y = true -> Rabs (B2R x + B2R y) <= bpow radix2 (emax - 1) ->
  is_finite (nadd x y) = true /\ B2R (nadd x y) = rnd (B2R x + B2R y) /\
  Rabs (B2R (nadd x y) - (B2R x + B2R y)) <= u * Rabs (B2R x + B2R y).
Proof.
  intros Fx Fy H. assert (F := fadd_fin x y Fx Fy H). split; [exact F|]. split; [exact (fadd_R x y F)|].
  destruct (fadd_err _ _ F) as (d & Hd & E). rewrite E, funit_eq in *.
  replace ((B2R x + B2R y) * (1 + d) - (B2R x + B2R y)) with (d * (B2R x + B2R y)) by ring. rewrite Rabs_mult.
  apply Rmult_le_compat_r; [apply Rabs_pos|exact Hd].
Qed.
Lemma sub_val (x y : fl) : is_finite x = true -> is_finite y = true -> Rabs (B2R x - B2R y) <= bpow radix2 (emax - 1) ->
  is_finite (nsub x y) = true /\ B2R (nsub x y) = rnd (B2R x - B2R y) /\
  Rabs (B2R (nsub x y) - (B2R x - B2R y)) <= u * Rabs (B2R x - B2R y).
Proof.
  intros Fx Fy H. rewrite fsub_add_neg.
  assert (E : B2R (nneg y) = - B2R y) by apply B2R_Bopp. assert (F : is_finite (nneg y) = true) by (cbn [nneg num_float]; rewrite is_finite_Bopp; exact Fy).
  unfold Rminus in *. rewrite <- E in *. apply add_val; assumption.
Qed.

(** Adding and taking away. *)
Lemma there_back (x y : fl) : is_finite x = true -> is_finite y = true ->
  Rabs (B2R x) <= bpow radix2 (emax - 2) -> Rabs (B2R x + B2R y) <= bpow radix2 (emax - 2) ->
  is_finite (nsub (nadd x y) y) = true /\ Rabs (B2R (nsub (nadd x y) y) - B2R x) <= 2 * u * Rabs (B2R x + B2R y) /\
  (B2R (nadd x y) = B2R x + B2R y -> B2R (nsub (nadd x y) y) = B2R x).
Proof.
  intros Fx Fy Hx H. pose proof u_half as U.
  assert (B : bpow radix2 (emax - 1) = 2 * bpow radix2 (emax - 2)) by (replace (emax - 1)%Z with (1 + (emax - 2))%Z by ring; apply bpow_plus).
  pose proof (bpow_gt_0 radix2 (emax - 2)) as B0.
  destruct (add_val x y Fx Fy ltac:(lra)) as (Fq & _ & Eq).
  set (q := nadd x y) in *.
  assert (D : Rabs (B2R q - B2R y - B2R x) <= u * Rabs (B2R x + B2R y)).
  { replace (B2R q - B2R y - B2R x) with (B2R q - (B2R x + B2R y)) by ring. exact Eq. }
  assert (L : Rabs (B2R q - B2R y) <= bpow radix2 (emax - 1)).
  { replace (B2R q - B2R y) with (B2R x + (B2R q - B2R y - B2R x)) by ring. eapply Rle_trans; [apply Rabs_triang|].
    assert (u * Rabs (B2R x + B2R y) <= 1 * bpow radix2 (emax - 2)) by (apply Rmult_le_compat; [lra|apply Rabs_pos|lra|exact H]). lra. }
  destruct (sub_val q y Fq Fy L) as (F & E & _). split; [exact F|]. rewrite E. split.
  - eapply Rle_trans; [apply rnd_twice|]. lra.
  - intros X. replace (B2R q - B2R y) with (B2R x) by (rewrite X; ring). apply rnd_float.
Qed.

(** Products in the normal range. *)
Lemma rnd_normal z : bpow radix2 (2 - emax) <= Rabs z -> Rabs (rnd z - z) <= u * Rabs z.
Proof.
  intros H. rewrite <- funit_eq. unfold funit. apply relative_error_N_FLT; [exact Hp|].
  replace (3 - emax - prec + prec - 1)%Z with (2 - emax)%Z by ring. exact H.
Qed.
Lemma mul_val (x y : fl) : is_finite x = true -> is_finite y = true -> Rabs (B2R x * B2R y) <= bpow radix2 (emax - 1) ->
  is_finite (nmul x y) = true /\ B2R (nmul x y) = rnd (B2R x * B2R y).
Proof. intros Fx Fy H. assert (F := fmul_fin x y Fx Fy H). split; [exact F|]. exact (fmul_R x y F). Qed.
Lemma div_val (x y : fl) : is_finite x = true -> B2R y <> 0 -> Rabs (B2R x / B2R y) <= bpow radix2 (emax - 1) ->
  is_finite (ndiv x y) = true /\ B2R (ndiv x y) = rnd (B2R x / B2R y).
Proof.
  intros Fx Y H. destruct (fdiv_fin x y Fx Y H) as (F & _). split; [exact F|]. cbn [ndiv numdiv_float] in *.
  pose proof (Bdiv_correct prec emax _ _ mode_NE x y Y) as C.
  rewrite Rlt_bool_true in C by (apply (round_lt_max _ H)). apply C.
Qed.

(** The product is zero or normal. *)
Definition in_range (z : R) : Prop := z = 0 \/ bpow radix2 (2 - emax) <= Rabs z.
Lemma rnd_range z : in_range z -> Rabs (rnd z - z) <= u * Rabs z.
Proof.
  intros [-> |H]; [|apply rnd_normal; exact H]. rewrite round_0 by apply valid_rnd_N. rewrite Rminus_0_r, Rabs_R0. lra.
Qed.

Lemma scale_back (s p : fl) : is_finite s = true -> is_finite p = true -> B2R s <> 0 ->
  Rabs (B2R p) <= bpow radix2 (emax - 2) -> Rabs (B2R s * B2R p) <= bpow radix2 (emax - 1) -> in_range (B2R s * B2R p) ->
  is_finite (nmul s p) = true /\ Rabs (B2R (nmul s p) - B2R s * B2R p) <= u * Rabs (B2R s * B2R p) /\
  is_finite (ndiv (nmul s p) s) = true /\ Rabs (B2R (ndiv (nmul s p) s) - B2R p) <= 2 * u * Rabs (B2R p) /\
  (B2R (nmul s p) = B2R s * B2R p -> B2R (ndiv (nmul s p) s) = B2R p).
Proof.
  intros Fs Fp S0 Hq H HR. pose proof u_half as U.
  assert (B : bpow radix2 (emax - 1) = 2 * bpow radix2 (emax - 2)) by (replace (emax - 1)%Z with (1 + (emax - 2))%Z by ring; apply bpow_plus).
  pose proof (bpow_gt_0 radix2 (emax - 2)) as B0.
  destruct (mul_val s p Fs Fp H) as (Fq & Eq). pose proof (rnd_range _ HR) as R0. rewrite <- Eq in R0.
  set (q := nmul s p) in *. split; [exact Fq|]. split; [exact R0|].
  assert (D : Rabs (B2R q / B2R s - B2R p) <= u * Rabs (B2R p)).
  { replace (B2R q / B2R s - B2R p) with ((B2R q - B2R s * B2R p) / B2R s) by (field; exact S0).
    unfold Rdiv. rewrite Rabs_mult, Rabs_inv. assert (A0 := Rabs_pos_lt _ S0).
    apply Rmult_le_reg_r with (Rabs (B2R s)); [exact A0|]. rewrite Rmult_assoc, Rinv_l, Rmult_1_r by lra.
    rewrite Rabs_mult in R0. lra. }
  assert (L : Rabs (B2R q / B2R s) <= bpow radix2 (emax - 1)).
  { replace (B2R q / B2R s) with (B2R p + (B2R q / B2R s - B2R p)) by ring. eapply Rle_trans; [apply Rabs_triang|].
    assert (u * Rabs (B2R p) <= 1 * bpow radix2 (emax - 2)) by (apply Rmult_le_compat; [lra|apply Rabs_pos|lra|exact Hq]). lra. }
  destruct (div_val q s Fq S0 L) as (F & E). split; [exact F|]. rewrite E. split.
  - eapply Rle_trans; [apply rnd_twice|]. lra.
  - intros X. replace (B2R q / B2R s) with (B2R p) by (rewrite X; field; exact S0). apply rnd_float.
Qed.

(** The reciprocal scale. *)
Lemma recip_back (s p : fl) : is_finite s = true -> is_finite p = true ->
  bpow radix2 (2 - emax) <= Rabs (B2R s) <= bpow radix2 (emax - 2) ->
  Rabs (B2R p) <= bpow radix2 (emax - 4) -> Rabs (B2R s * B2R p) <= bpow radix2 (emax - 1) -> in_range (B2R s * B2R p) ->
  is_finite (nmul (ndiv n1 s) (nmul s p)) = true /\ Rabs (B2R (nmul (ndiv n1 s) (nmul s p)) - B2R p) <= 5 * u * Rabs (B2R p).
Proof.
  intros Fs Fp (S1 & S2) Hq H HR. pose proof u_half as U.
  pose proof (bpow_gt_0 radix2 (2 - emax)) as S0'. assert (S0 : B2R s <> 0) by (intros X; rewrite X, Rabs_R0 in S1; lra).
  assert (A0 := Rabs_pos_lt _ S0).
  destruct (mul_val s p Fs Fp H) as (Fq & Eq). pose proof (rnd_range _ HR) as R0. rewrite <- Eq in R0. set (q := nmul s p) in *.
  destruct (@fbone prec emax Hp He) as (B1 & Fb & _). change (Bone : fl) with (n1 : fl) in B1, Fb.
  assert (I2 : Rabs (B2R (n1 : fl) / B2R s) <= bpow radix2 (emax - 1)).
  { rewrite B1. unfold Rdiv. rewrite Rmult_1_l, Rabs_inv. eapply Rle_trans; [apply Rinv_le_contravar; [exact S0'|exact S1]|].
    rewrite <- bpow_opp. apply bpow_le. lia. }
  destruct (div_val n1 s Fb S0 I2) as (Fi & Ei). rewrite B1 in Ei, I2.
  assert (N : bpow radix2 (2 - emax) <= Rabs (1 / B2R s)).
  { unfold Rdiv. rewrite Rmult_1_l, Rabs_inv. eapply Rle_trans; [|apply Rinv_le_contravar; [exact A0|exact S2]].
    rewrite <- bpow_opp. apply bpow_le. lia. }
  pose proof (rnd_normal _ N) as R1. rewrite <- Ei in R1. set (i := ndiv n1 s) in *.
  assert (D : Rabs (B2R i * B2R q - B2R p) <= (2 * u + u * u) * Rabs (B2R p)).
  { set (a := B2R i * B2R s - 1). set (b := (B2R q - B2R s * B2R p) / B2R s).
    assert (Ha : Rabs a <= u).
    { unfold a. replace (B2R i * B2R s - 1) with ((B2R i - 1 / B2R s) * B2R s) by (field; exact S0). rewrite Rabs_mult.
      apply Rmult_le_reg_r with (/ Rabs (B2R s)); [apply Rinv_0_lt_compat; exact A0|]. rewrite Rmult_assoc, Rinv_r, Rmult_1_r by lra.
      unfold Rdiv in R1. rewrite Rmult_1_l, Rabs_inv in R1. unfold Rdiv. rewrite Rmult_1_l. exact R1. }
    assert (Hb : Rabs b <= u * Rabs (B2R p)).
    { unfold b, Rdiv. rewrite Rabs_mult, Rabs_inv.
      apply Rmult_le_reg_r with (Rabs (B2R s)); [exact A0|]. rewrite Rmult_assoc, Rinv_l, Rmult_1_r by lra.
      rewrite Rabs_mult in R0. lra. }
    replace (B2R i * B2R q - B2R p) with (a * B2R p + b + a * b) by (unfold a, b; field; exact S0).
    eapply Rle_trans; [apply Rabs_triang|]. eapply Rle_trans; [apply Rplus_le_compat_r, Rabs_triang|]. rewrite !Rabs_mult.
    pose proof (Rabs_pos (B2R p)) as P0.
    assert (Rabs a * Rabs (B2R p) <= u * Rabs (B2R p)) by (apply Rmult_le_compat_r; assumption).
    assert (Rabs a * Rabs b <= u * (u * Rabs (B2R p))) by (apply Rmult_le_compat; try apply Rabs_pos; assumption). lra. }
  assert (UU : u * u <= / 2 * u) by (apply Rmult_le_compat_r; lra).
  pose proof (Rabs_pos (B2R p)) as P0.
  assert (D' : Rabs (B2R i * B2R q - B2R p) <= 5 / 2 * u * Rabs (B2R p)).
  { eapply Rle_trans; [exact D|]. apply Rmult_le_compat_r; lra. }
  assert (L : Rabs (B2R i * B2R q) <= bpow radix2 (emax - 1)).
  { replace (B2R i * B2R q) with (B2R p + (B2R i * B2R q - B2R p)) by ring. eapply Rle_trans; [apply Rabs_triang|].
    assert (5 / 2 * u * Rabs (B2R p) <= 5 / 4 * Rabs (B2R p)) by (apply Rmult_le_compat_r; lra).
    replace (emax - 1)%Z with (3 + (emax - 4))%Z by ring. rewrite bpow_plus. change (bpow radix2 3) with 8. lra. }
  destruct (mul_val i q Fi Fq L) as (F & E). split; [exact F|]. rewrite E. eapply Rle_trans; [apply rnd_twice|]. lra.
Qed.

(** Scaling by powers of two is exact. *)
Lemma pow2_format (p : fl) k : in_range (bpow radix2 k * B2R p) -> generic_format radix2 fexp (bpow radix2 k * B2R p).
Proof.
  intros [-> |H]; [apply generic_format_0|].
  pose proof (generic_format_B2R prec emax p) as G. apply FLT_format_generic in G; [|exact Hp].
  destruct G as [f E1 E2 E3]. destruct f as [m e]. cbn [Fnum Fexp] in *.
  assert (E : bpow radix2 k * B2R p = F2R (Float radix2 m (k + e))).
  { rewrite E1. unfold F2R. cbn [Fnum Fexp]. rewrite bpow_plus. ring. }
  apply generic_format_FLT. exists (Float radix2 m (k + e)); [exact E|exact E2|]. cbn [Fexp].
  destruct (Z_le_gt_dec (3 - emax - prec) (k + e)) as [L|G]; [exact L|exfalso].
  rewrite E in H. rewrite <- F2R_Zabs in H. unfold F2R in H. cbn [Fnum Fexp] in H.
  assert (M : IZR (Z.abs m) < bpow radix2 prec).
  { rewrite <- IZR_Zpower by (pose proof Hp as P; unfold Prec_gt_0 in P; lia). apply IZR_lt. exact E2. }
  assert (IZR (Z.abs m) * bpow radix2 (k + e) < bpow radix2 (2 - emax)).
  { apply Rlt_le_trans with (bpow radix2 prec * bpow radix2 (k + e)).
    - apply Rmult_lt_compat_r; [apply bpow_gt_0|exact M].
    - rewrite <- bpow_plus. apply bpow_le. lia. }
  lra.
Qed.
Lemma pow2_exact (s p : fl) k : is_finite s = true -> is_finite p = true -> Rabs (B2R s) = bpow radix2 k ->
  Rabs (B2R s * B2R p) <= bpow radix2 (emax - 1) -> in_range (B2R s * B2R p) -> B2R (nmul s p) = B2R s * B2R p.
Proof.
  intros Fs Fp S H HR. destruct (mul_val s p Fs Fp H) as (_ & E). rewrite E.
  apply round_generic; [apply valid_rnd_N|].
  assert (C : B2R s = bpow radix2 k \/ B2R s = - bpow radix2 k).
  { unfold Rabs in S. destruct (Rcase_abs (B2R s)); [right|left]; lra. }
  assert (HR' : in_range (bpow radix2 k * B2R p)).
  { destruct HR as [Z|Z]; [left|right].
    - pose proof (bpow_gt_0 radix2 k). destruct C as [C|C]; rewrite C in Z; lra.
    - rewrite Rabs_mult, S in Z. rewrite Rabs_mult, (Rabs_pos_eq (bpow _ _)) by apply bpow_ge_0. exact Z. }
  apply pow2_format in HR'. destruct C as [-> | ->]; [exact HR'|].
  replace (- bpow radix2 k * B2R p) with (- (bpow radix2 k * B2R p)) by ring. apply generic_format_opp. exact HR'.
Qed.

(** Sums of floats on a common grid are exact. *)
Lemma grid_exact (x y : fl) (k l e : Z) : is_finite x = true -> is_finite y = true ->
  B2R x = IZR k * bpow radix2 e -> B2R y = IZR l * bpow radix2 e -> (3 - emax - prec <= e)%Z ->
  (Z.abs (k + l) < 2 ^ prec)%Z -> Rabs (B2R x + B2R y) <= bpow radix2 (emax - 1) -> B2R (nadd x y) = B2R x + B2R y.
Proof.
  intros Fx Fy X Y E1 E2 H. destruct (add_val x y Fx Fy H) as (_ & E & _). rewrite E.
  apply round_generic; [apply valid_rnd_N|]. apply generic_format_FLT.
  exists (Float radix2 (k + l) e); [|exact E2|exact E1]. rewrite X, Y. unfold F2R. cbn [Fnum Fexp]. rewrite plus_IZR. ring.
Qed.

(** Values of exact operations. *)
Definition fv (x : fl) (r : R) : Prop := is_finite x = true /\ B2R x = r.
Lemma fv_self x : is_finite x = true -> fv x (B2R x).
Proof. split; auto. Qed.
Lemma fv_add0 x y r : fv x r -> fv y 0 -> fv (nadd x y) r /\ fv (nadd y x) r.
Proof.
  intros (Fx & X) (Fy & Y). assert (C : fv (nadd x y) r).
  { cbn [nadd num_float]. pose proof (Bplus_correct prec emax _ _ mode_NE x y Fx Fy) as C.
    rewrite Y, Rplus_0_r in C. rewrite round_generic in C; [|apply valid_rnd_round_mode|apply generic_format_B2R].
    rewrite Rlt_bool_true in C by apply abs_B2R_lt_emax. destruct C as (C1 & C2 & _). split; [exact C2|]. rewrite C1. exact X. }
  split; [exact C|]. rewrite fadd_comm. exact C.
Qed.
Lemma fv_sub0 x y r : fv x r -> fv y 0 -> fv (nsub x y) r.
Proof.
  intros Hx (Fy & Y). rewrite fsub_add_neg. refine (proj1 (fv_add0 x (nneg y) r Hx _)). split.
  - cbn [nneg num_float]. rewrite is_finite_Bopp. exact Fy.
  - cbn [nneg num_float]. rewrite B2R_Bopp, Y. ring.
Qed.
Lemma fv_mul0 x y : is_finite x = true -> fv y 0 -> fv (nmul x y) 0 /\ fv (nmul y x) 0.
Proof.
  intros Fx (Fy & Y). assert (C : fv (nmul x y) 0).
  { assert (Z : Rabs (B2R x * B2R y) <= bpow radix2 (emax - 1)) by (rewrite Y, Rmult_0_r, Rabs_R0; apply bpow_ge_0).
    destruct (mul_val x y Fx Fy Z) as (F & E). split; [exact F|]. rewrite E, Y, Rmult_0_r. apply round_0, valid_rnd_N. }
  split; [exact C|]. rewrite fmul_comm. exact C.
Qed.
Lemma fv_mul1 x y r : fv x r -> fv y 1 -> fv (nmul x y) r /\ fv (nmul y x) r.
Proof.
  intros (Fx & X) (Fy & Y). assert (C : fv (nmul x y) r).
  { cbn [nmul num_float]. pose proof (Bmult_correct prec emax _ _ mode_NE x y) as C.
    rewrite Y, Rmult_1_r in C. rewrite round_generic in C; [|apply valid_rnd_round_mode|apply generic_format_B2R].
    rewrite Rlt_bool_true in C by apply abs_B2R_lt_emax. destruct C as (C1 & C2 & _). split; [rewrite C2, Fx, Fy; reflexivity|]. rewrite C1. exact X. }
  split; [exact C|]. rewrite fmul_comm. exact C.
Qed.
Lemma fv_mul_cong (x y x' y' : fl) : fv x (B2R x') -> is_finite x' = true -> fv y (B2R y') -> is_finite y' = true ->
  Rabs (B2R x' * B2R y') <= bpow radix2 (emax - 1) -> fv (nmul x y) (B2R (nmul x' y')).
Proof.
  intros (Fx & X) Fx' (Fy & Y) Fy' H. destruct (mul_val x' y' Fx' Fy' H) as (_ & E').
  rewrite <- X, <- Y in H. destruct (mul_val x y Fx Fy H) as (F & E). split; [exact F|]. rewrite E, E', X, Y. reflexivity.
Qed.
Lemma fv_add_cong (x y x' y' : fl) : fv x (B2R x') -> is_finite x' = true -> fv y (B2R y') -> is_finite y' = true ->
  Rabs (B2R x' + B2R y') <= bpow radix2 (emax - 1) -> fv (nadd x y) (B2R (nadd x' y')).
Proof.
  intros (Fx & X) Fx' (Fy & Y) Fy' H. destruct (add_val x' y' Fx' Fy' H) as (_ & E' & _).
  rewrite <- X, <- Y in H. destruct (add_val x y Fx Fy H) as (F & E & _). split; [exact F|]. rewrite E, E', X, Y. reflexivity.
Qed.

Lemma fv_add0r x y r : fv x r -> fv y 0 -> fv (nadd x y) r.
Proof. intros A B. apply (fv_add0 x y r A B). Qed.
Lemma fv_add0l x y r : fv x r -> fv y 0 -> fv (nadd y x) r.
Proof. intros A B. apply (fv_add0 x y r A B). Qed.

(** A sum with one non-zero term. *)
Lemma fv_sum_one n (f : nat -> fl) j r : (j < n)%nat -> fv (f j) r -> (forall i, (i < n)%nat -> i <> j -> fv (f i) 0) -> fv (sum n f) r.
Proof.
  assert (Z : forall m, (forall i, (i < m)%nat -> fv (f i) 0) -> fv (sum m f) 0).
  { induction m as [|m IH]; intros H; [split; reflexivity|]. cbn [sum]. apply fv_add0r; [apply IH; intros; apply H; lia|apply H; lia]. }
  induction n as [|n IH]; intros Hj Hr H; [lia|]. cbn [sum]. destruct (Nat.eq_dec j n) as [-> |N].
  - apply fv_add0l; [exact Hr|]. apply Z. intros i Hi. apply H; lia.
  - apply fv_add0r; [apply IH; [lia|exact Hr|intros; apply H; lia]|apply H; lia].
Qed.
End F.
