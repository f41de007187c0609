(** Exact laws of IEEE arithmetic. *)

From Coq Require Import List Arith ZArith Bool Lia Reals Lra.
From Flocq Require Import Core.Core Relative Plus_error IEEE754.BinarySingleNaN.
From Verif Require Import Base Scalar Spec LBase MVector LVector MMatrix LMatrix MFloat.
Import ListNotations.

Section Float.
Context {prec emax : Z} {Hprec : Prec_gt_0 prec} {Hemax : Prec_lt_emax prec emax}.
Notation fl := (binary_float prec emax).
Local Open Scope num_scope.

Lemma eqb_comm_sym (a b : bool) : Bool.eqb a b = Bool.eqb b a.
Proof. destruct a, b; reflexivity. Qed.

Lemma fadd_comm (x y : fl) : x + y = y + x.
Proof.
  cbn [nadd num_float]. destruct x as [sx|sx| |sx mx ex Hx], y as [sy|sy| |sy my ey Hy]; try reflexivity.
  - destruct sx, sy; reflexivity.
  - destruct sx, sy; reflexivity.
  - cbn. rewrite (Z.min_comm ex ey). f_equal. unfold Fplus_naive. ring.
Qed.

Lemma fmul_comm (x y : fl) : x * y = y * x.
Proof.
  cbn [nmul num_float]. destruct x as [sx|sx| |sx mx ex Hx], y as [sy|sy| |sy my ey Hy]; try reflexivity;
    try (cbn; rewrite xorb_comm; reflexivity).
  cbn. apply B2SF_inj. rewrite !B2SF_SF2B. rewrite xorb_comm, (Pos.mul_comm mx), (Z.add_comm ex). reflexivity.
Qed.

Lemma fsub_add_neg (x y : fl) : x - y = x + - y.
Proof.
  cbn [nadd nsub nneg num_float].
  destruct x as [sx|sx| |sx mx ex Hx], y as [sy|sy| |sy my ey Hy]; reflexivity.
Qed.

Lemma fneg_invol (x : fl) : - - x = x.
Proof. apply Bopp_involutive. Qed.

Lemma fmul_neg_neg (x y : fl) : (- x) * (- y) = x * y.
Proof.
  cbn [nmul nneg num_float]. destruct x as [sx|sx| |sx mx ex Hx], y as [sy|sy| |sy my ey Hy]; try reflexivity;
    try (cbn; f_equal; destruct sx, sy; reflexivity).
  cbn. apply B2SF_inj. rewrite !B2SF_SF2B. f_equal. destruct sx, sy; reflexivity.
Qed.

Lemma fbone : B2R (Bone : fl) = 1%R /\ is_finite (Bone : fl) = true /\ Bsign (Bone : fl) = false.
Proof. split; [apply Bone_correct|split; [apply is_finite_Bone|apply Bsign_Bone]]. Qed.

Lemma fmul_1_r (x : fl) : x * 1 = x.
Proof.
  cbn [nmul n1 num_float]. destruct fbone as (B & Fb & Sb).
  destruct (is_finite x) eqn:F.
  - pose proof (Bmult_correct prec emax _ _ mode_NE x Bone) as H. rewrite B, Rmult_1_r in H.
    rewrite round_generic in H; [|apply valid_rnd_round_mode|apply generic_format_B2R].
    rewrite Rlt_bool_true in H by apply abs_B2R_lt_emax. destruct H as (E & Ff & Sg).
    rewrite F, Fb in Ff. cbn in Ff.
    assert (NN : is_nan (Bmult mode_NE x Bone) = false).
    { destruct (Bmult mode_NE x Bone); try reflexivity; discriminate Ff. }
    specialize (Sg NN). rewrite Sb, xorb_false_r in Sg.
    apply B2R_Bsign_inj; assumption.
  - destruct x as [s|s| |s m e H]; try discriminate F.
    + destruct Bone as [s'|s'| |s' m' e' H'] eqn:EB; cbn in *; try discriminate; try lra.
      rewrite Sb, xorb_false_r. reflexivity.
    + reflexivity.
Qed.

(** Values as real numbers; a finite result has finite operands. *)
Lemma ffin_add (x y : fl) : is_finite (x + y) = true -> is_finite x = true /\ is_finite y = true.
Proof.
  cbn [nadd num_float].
  destruct x as [sx|sx| |sx mx ex Hx], y as [sy|sy| |sy my ey Hy]; cbn; intros H; try (split; reflexivity);
    try discriminate H; destruct sx, sy; discriminate H.
Qed.

Lemma ffin_mul (x y : fl) : is_finite (x * y) = true -> is_finite x = true /\ is_finite y = true.
Proof.
  cbn [nmul num_float].
  destruct x as [sx|sx| |sx mx ex Hx], y as [sy|sy| |sy my ey Hy]; cbn; intros H; try (split; reflexivity);
    discriminate H.
Qed.

Lemma ovf_not_finite (x : fl) s :
  B2SF x = binary_overflow prec emax mode_NE s -> is_finite x = true -> False.
Proof.
  intros E F. unfold binary_overflow in E. cbn in E. destruct x; cbn in *; discriminate.
Qed.

Lemma fadd_R (x y : fl) :
  is_finite (x + y) = true ->
  B2R (x + y) = round radix2 (FLT_exp (3 - emax - prec) prec) ZnearestE (B2R x + B2R y).
Proof.
  intros F. destruct (ffin_add x y F) as (Fx & Fy). cbn [nadd num_float] in *.
  pose proof (Bplus_correct prec emax _ _ mode_NE x y Fx Fy) as H.
  destruct (Rlt_bool _ _).
  - destruct H as (E & _). exact E.
  - destruct H as (E & _). destruct (ovf_not_finite _ _ E F).
Qed.

Lemma fmul_R (x y : fl) :
  is_finite (x * y) = true ->
  B2R (x * y) = round radix2 (FLT_exp (3 - emax - prec) prec) ZnearestE (B2R x * B2R y).
Proof.
  intros F. cbn [nmul num_float] in *.
  pose proof (Bmult_correct prec emax _ _ mode_NE x y) as H.
  destruct (Rlt_bool _ _).
  - destruct H as (E & _). exact E.
  - destruct (ovf_not_finite _ _ H F).
Qed.

(** Unit roundoff 2^-prec, and half the smallest positive number. *)
Definition funit : R := (/ 2 * bpow radix2 (- prec + 1))%R.
Definition ftiny : R := (/ 2 * bpow radix2 (3 - emax - prec))%R.

Lemma funit_pos : (0 < funit)%R.
Proof. unfold funit. pose proof (bpow_gt_0 radix2 (- prec + 1)). lra. Qed.
Lemma ftiny_pos : (0 < ftiny)%R.
Proof. unfold ftiny. pose proof (bpow_gt_0 radix2 (3 - emax - prec)). lra. Qed.

Lemma fadd_err (x y : fl) :
  is_finite (x + y) = true ->
  exists d, (Rabs d <= funit)%R /\ B2R (x + y) = ((B2R x + B2R y) * (1 + d))%R.
Proof.
  intros F. rewrite (fadd_R x y F).
  destruct (FLT_plus_error_N_ex radix2 (3 - emax - prec) prec (fun t => negb (Z.even t)) (B2R x) (B2R y)) as (d & Hd & E).
  - apply generic_format_B2R.
  - apply generic_format_B2R.
  - exists d. split; [|exact E].
    eapply Rle_trans; [exact Hd|]. change (u_ro radix2 prec) with funit.
    pose proof funit_pos as U.
    apply (Rmult_le_reg_r (1 + funit)); [lra|]. unfold Rdiv. rewrite Rmult_assoc, Rinv_l by lra.
    rewrite Rmult_1_r. pose proof (Rmult_lt_0_compat _ _ U U). lra.
Qed.

Lemma fmul_err (x y : fl) :
  is_finite (x * y) = true ->
  exists d e, (Rabs d <= funit)%R /\ (Rabs e <= ftiny)%R /\
    B2R (x * y) = (B2R x * B2R y * (1 + d) + e)%R.
Proof.
  intros F. rewrite (fmul_R x y F).
  destruct (error_N_FLT radix2 (3 - emax - prec) prec Hprec (fun t => negb (Z.even t)) (B2R x * B2R y))
    as (d & e & Hd & He & _ & E).
  exists d, e. auto.
Qed.

(** The loop [acc = 0; acc += x i * y i] against the exact sum. *)
Definition rsum (n : nat) (f : nat -> R) : R := sum n f.

Lemma rsum_S n f : rsum (S n) f = (rsum n f + f n)%R.
Proof. reflexivity. Qed.
Lemma rsum_nonneg n f : (forall i, (i < n)%nat -> 0 <= f i)%R -> (0 <= rsum n f)%R.
Proof.
  induction n as [|n IH]; intros H; [cbn; apply Rle_refl|].
  rewrite rsum_S. specialize (IH (fun i Hi => H i (Nat.lt_lt_succ_r _ _ Hi))).
  specialize (H n (Nat.lt_succ_diag_r n)). lra.
Qed.
Lemma rsum_abs n f : (Rabs (rsum n f) <= rsum n (fun i => Rabs (f i)))%R.
Proof.
  induction n as [|n IH]; [cbn; rewrite Rabs_R0; apply Rle_refl|].
  rewrite !rsum_S. eapply Rle_trans; [apply Rabs_triang|]. lra.
Qed.

Lemma fsum_fin n (f : nat -> fl) :
  is_finite (sum n f) = true -> forall i, (i < n)%nat -> is_finite (f i) = true.
Proof.
  induction n as [|n IH]; intros F i Hi; [lia|].
  cbn [sum] in F. apply ffin_add in F as (Fs & Fn).
  destruct (Nat.eq_dec i n) as [->|]; [exact Fn|apply IH; [exact Fs|lia]].
Qed.

Lemma dot_err_bound n (x y : nat -> fl) :
  is_finite (sum n (fun i => nmul (x i) (y i))) = true ->
  (Rabs (B2R (sum n (fun i => nmul (x i) (y i))) - rsum n (fun i => B2R (x i) * B2R (y i)))
   <= ((1 + funit) ^ (S n) - 1) * rsum n (fun i => Rabs (B2R (x i) * B2R (y i)))
      + INR n * ftiny * (1 + funit) ^ n)%R.
Proof.
  pose proof funit_pos as U. pose proof ftiny_pos as T.
  induction n as [|n IH]; intros F.
  - cbn. rewrite Rminus_0_r, Rabs_R0. lra.
  - cbn [sum] in *. rewrite !rsum_S.
    destruct (fadd_err _ _ F) as (d & Hd & E). destruct (ffin_add _ _ F) as (Fs & Fm).
    destruct (fmul_err _ _ Fm) as (d' & e & Hd' & He & E').
    specialize (IH Fs). rewrite E, E'. clear E E'.
    set (s' := B2R (sum n _)) in *. set (p := (B2R (x n) * B2R (y n))%R) in *.
    pose proof (rsum_abs n (fun i => B2R (x i) * B2R (y i))%R) as HA.
    set (s := rsum n (fun i => B2R (x i) * B2R (y i))%R) in *.
    set (A := rsum n (fun i => Rabs (B2R (x i) * B2R (y i)))) in *.
    change (fun i => Rabs (B2R (x i) * B2R (y i))) with (fun i => Rabs (B2R (x i) * B2R (y i))%R) in *.
    replace ((s' + (p * (1 + d') + e)) * (1 + d) - (s + p))%R
      with ((s' - s) * (1 + d) + s * d + p * ((1 + d') * (1 + d) - 1) + e * (1 + d))%R by ring.
    assert (P1 : (1 <= (1 + funit) ^ n)%R) by (apply pow_R1_Rle; lra).
    set (P := ((1 + funit) ^ n)%R) in *.
    replace ((1 + funit) ^ S (S n))%R with (P * (1 + funit) * (1 + funit))%R by (unfold P; cbn; ring).
    replace ((1 + funit) ^ S n)%R with (P * (1 + funit))%R in * by (unfold P; cbn; ring).
    rewrite S_INR.
    assert (D1 : (Rabs (1 + d) <= 1 + funit)%R).
    { eapply Rle_trans; [apply Rabs_triang|]. rewrite Rabs_R1. lra. }
    assert (D2 : (Rabs ((1 + d') * (1 + d) - 1) <= (1 + funit) * (1 + funit) - 1)%R).
    { replace ((1 + d') * (1 + d) - 1)%R with (d' * (1 + d) + d)%R by ring.
      eapply Rle_trans; [apply Rabs_triang|]. rewrite Rabs_mult.
      assert (Rabs d' * Rabs (1 + d) <= funit * (1 + funit))%R
        by (apply Rmult_le_compat; auto using Rabs_pos). lra. }
    assert (B1 : (Rabs ((s' - s) * (1 + d)) <=
       ((P * (1 + funit) - 1) * A + INR n * ftiny * P) * (1 + funit))%R).
    { rewrite Rabs_mult. apply Rmult_le_compat; auto using Rabs_pos. }
    assert (B2 : (Rabs (s * d) <= A * funit)%R).
    { rewrite Rabs_mult. apply Rmult_le_compat; auto using Rabs_pos. }
    assert (B3 : (Rabs (p * ((1 + d') * (1 + d) - 1)) <= Rabs p * (P * (1 + funit) * (1 + funit) - 1))%R).
    { rewrite Rabs_mult. apply Rmult_le_compat_l; [apply Rabs_pos|].
      eapply Rle_trans; [exact D2|].
      assert ((1 + funit) * (1 + funit) <= P * ((1 + funit) * (1 + funit)))%R; [|lra].
      assert (0 <= (1 + funit) * (1 + funit))%R by (apply Rmult_le_pos; lra).
      pose proof (Rmult_le_compat_r _ _ _ H P1). lra. }
    assert (B4 : (Rabs (e * (1 + d)) <= ftiny * (P * (1 + funit)))%R).
    { rewrite Rabs_mult. apply Rmult_le_compat; auto using Rabs_pos.
      eapply Rle_trans; [exact D1|].
      assert (0 <= 1 + funit)%R by lra.
      pose proof (Rmult_le_compat_r _ _ _ H P1). lra. }
    eapply Rle_trans; [apply Rabs_triang|].
    eapply Rle_trans; [apply Rplus_le_compat_r, Rabs_triang|].
    eapply Rle_trans; [apply Rplus_le_compat_r, Rplus_le_compat_r, Rabs_triang|].
    change ((A + Rabs p))%R with (A + Rabs p)%R.
    assert (0 <= A)%R by (unfold A; apply rsum_nonneg; intros; apply Rabs_pos).
    lra.
Qed.

(** Additions and multiplications that are exact. *)
Lemma fadd_zero_r (x y : fl) :
  is_finite x = true -> is_finite y = true -> B2R y = 0%R ->
  is_finite (x + y) = true /\ B2R (x + y) = B2R x.
Proof.
  intros Fx Fy Y. cbn [nadd num_float].
  pose proof (Bplus_correct prec emax _ _ mode_NE x y Fx Fy) as H.
  rewrite Y, Rplus_0_r in H.
  rewrite round_generic in H; [|apply valid_rnd_round_mode|apply generic_format_B2R].
  rewrite Rlt_bool_true in H by apply abs_B2R_lt_emax. destruct H as (E & Ff & _). auto.
Qed.

Lemma fmul_zero_r (x y : fl) :
  is_finite x = true -> is_finite y = true -> B2R y = 0%R ->
  is_finite (x * y) = true /\ B2R (x * y) = 0%R.
Proof.
  intros Fx Fy Y. cbn [nmul num_float].
  pose proof (Bmult_correct prec emax _ _ mode_NE x y) as H.
  rewrite Y, Rmult_0_r, round_0 in H by apply valid_rnd_round_mode.
  rewrite Rabs_R0, Rlt_bool_true in H by apply bpow_gt_0. destruct H as (E & Ff & _).
  rewrite Fx, Fy in Ff. auto.
Qed.

Lemma fsum_single n j (f : nat -> fl) :
  (forall i, (i < n)%nat -> is_finite (f i) = true) ->
  (forall i, (i < n)%nat -> i <> j -> B2R (f i) = 0%R) ->
  is_finite (sum n f) = true /\
  B2R (sum n f) = if Nat.ltb j n then B2R (f j) else 0%R.
Proof.
  induction n as [|n IH]; intros F Z.
  - cbn. auto.
  - cbn [sum].
    assert (IH' : is_finite (sum n f) = true /\ B2R (sum n f) = if Nat.ltb j n then B2R (f j) else 0%R)
      by (apply IH; intros; [apply F|apply Z]; auto; lia).
    clear IH. destruct IH' as (Fs & E).
    assert (Fn := F n (Nat.lt_succ_diag_r n)).
    destruct (Nat.eq_dec n j) as [->|N].
    + rewrite Nat.ltb_irrefl in E. rewrite fadd_comm.
      destruct (fadd_zero_r (f j) (sum j f) Fn Fs E) as (G & V).
      rewrite (proj2 (Nat.ltb_lt j (S j))) by lia. auto.
    + destruct (fadd_zero_r (sum n f) (f n) Fs Fn (Z n (Nat.lt_succ_diag_r n) N)) as (G & V).
      split; [exact G|]. rewrite V, E.
      destruct (Nat.ltb_spec j n), (Nat.ltb_spec j (S n)); try lia; reflexivity.
Qed.

(** Squares and sums of squares are never negative. *)
Definition fnonneg (x : fl) : Prop := is_nan x = true \/ Bsign x = false.

Lemma fmul_square_sign (x : fl) : fnonneg (x * x).
Proof.
  unfold fnonneg. cbn [nmul num_float]. destruct (is_nan (Bmult mode_NE x x)) eqn:N; [auto|right].
  pose proof (Bmult_correct prec emax _ _ mode_NE x x) as H.
  destruct (Rlt_bool _ _).
  - destruct H as (_ & _ & S). rewrite (S N). apply xorb_nilpotent.
  - rewrite xorb_nilpotent in H. destruct (Bmult mode_NE x x); cbn in H; try discriminate H;
      inversion H; reflexivity.
Qed.

Lemma fadd_sign (x y : fl) : fnonneg x -> fnonneg y -> fnonneg (x + y).
Proof.
  unfold fnonneg. intros Hx Hy. cbn [nadd num_float].
  destruct (is_finite x) eqn:Fx; [destruct (is_finite y) eqn:Fy|].
  - assert (Sx : Bsign x = false) by (destruct Hx as [Hx|Hx]; [destruct x; discriminate|exact Hx]).
    assert (Sy : Bsign y = false) by (destruct Hy as [Hy|Hy]; [destruct y; discriminate|exact Hy]).
    pose proof (Bplus_correct prec emax _ _ mode_NE x y Fx Fy) as H.
    assert (Px : (0 <= B2R x)%R).
    { destruct x; cbn in *; try lra; rewrite Sx. apply F2R_ge_0. cbn. lia. }
    assert (Py : (0 <= B2R y)%R).
    { destruct y; cbn in *; try lra; rewrite Sy. apply F2R_ge_0. cbn. lia. }
    destruct (Rlt_bool _ _).
    + right. destruct H as (_ & _ & S). rewrite S.
      destruct (Rcompare_spec (B2R x + B2R y) 0); [lra|rewrite Sx; reflexivity|reflexivity].
    + right. destruct H as (S & _). rewrite Sx in S.
      destruct (Bplus mode_NE x y); cbn in S; try discriminate S; inversion S; reflexivity.
  - destruct x as [sx|sx| |sx mx ex Px], y as [sy|sy| |sy my ey Py]; cbn in *; try discriminate; auto.
  - destruct x as [sx|sx| |sx mx ex Px], y as [sy|sy| |sy my ey Py]; cbn in *; try discriminate; auto.
    destruct sx, sy; cbn; auto.
Qed.

Lemma fsum_squares_sign n (x : nat -> fl) : fnonneg (sum n (fun i => x i * x i)).
Proof.
  induction n as [|n IH]; [right; reflexivity|].
  cbn [sum]. apply fadd_sign; [exact IH|apply fmul_square_sign].
Qed.
End Float.
