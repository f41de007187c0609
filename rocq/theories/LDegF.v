(** Conversions between degrees and radians in floats: digits of pi, one multiplication by a rounded factor. *)

From Coq Require Import ZArith Bool Lia Reals Lra Psatz Machin.
From Flocq Require Import Core.Core Relative IEEE754.BinarySingleNaN.
From Verif Require Import Base Scalar SpecF MFloat LFloat LFloatP LFloatVec LTrScF LSlerpS LSlerpW.
Local Open Scope R_scope.

(** Pi to twenty digits, by Machin's formula. *)
Lemma PI_digits : 31415926535897932384 / 10000000000000000000 <= PI <= 31415926535897932385 / 10000000000000000000.
Proof.
  pose proof (PI_2_3_7_ineq 10) as (A & B). unfold tg_alt, PI_2_3_7_tg, Ratan_seq in A, B.
  change (S (2 * 10)) with 21%nat in A. change (2 * 10)%nat with 20%nat in B. cbv [sum_f_R0] in A, B.
  repeat match type of A with context [INR ?n] => rewrite (INR_IZR_INZ n) in A; let z := eval compute in (Z.of_nat n) in change (Z.of_nat n) with z in A end.
  repeat match type of B with context [INR ?n] => rewrite (INR_IZR_INZ n) in B; let z := eval compute in (Z.of_nat n) in change (Z.of_nat n) with z in B end.
  repeat match type of A with context [(2 * ?n + 1)%nat] => let m := eval compute in (2 * n + 1)%nat in change (2 * n + 1)%nat with m in A end.
  repeat match type of B with context [(2 * ?n + 1)%nat] => let m := eval compute in (2 * n + 1)%nat in change (2 * n + 1)%nat with m in B end.
  lra.
Qed.

Lemma per_degree_radian : PI / 180 * (180 / PI) = 1.
Proof. pose proof PI_RGT_0. field. lra. Qed.

Section F.
Context {prec emax : Z} {Hp : Prec_gt_0 prec} {He : Prec_lt_emax prec emax}.
Notation fl := (binary_float prec emax).
Notation u := (bpow radix2 (- prec)).
Notation tiny := (bpow radix2 (2 - emax - prec)).
Notation fexp := (FLT_exp (3 - emax - prec) prec).
Notation rnd := (round radix2 fexp ZnearestE).

(** A finite literal. *)
Lemma lit_val (x : fl) m e : B2SF x = SpecFloat.S754_finite false m e -> is_finite x = true /\ B2R x = IZR (Zpos m) * bpow radix2 e.
Proof. destruct x as [s|s| |s m' e' H]; try discriminate. intros E. injection E as -> -> ->. split; reflexivity. Qed.

(** Multiplication by a factor with relative error at most a third of the unit roundoff. *)
Lemma factor_near (x K : fl) c : is_finite x = true -> is_finite K = true -> 0 < c -> Rabs (B2R K - c) <= u / 3 * c ->
  Rabs (B2R x * c) <= / 2 * bpow radix2 (emax - 1) ->
  fnear (nmul x K) (B2R x * c) (3 / 2 * u * Rabs (B2R x * c) + tiny).
Proof.
  intros Fx FK C HK HB. pose proof (u_half (prec := prec)) as U.
  assert (E1 : Rabs (B2R x * B2R K - B2R x * c) <= u / 3 * Rabs (B2R x * c)).
  { replace (B2R x * B2R K - B2R x * c) with (B2R x * (B2R K - c)) by ring. rewrite !Rabs_mult, (Rabs_pos_eq c) by lra.
    replace (u / 3 * (Rabs (B2R x) * c)) with (Rabs (B2R x) * (u / 3 * c)) by ring. apply Rmult_le_compat_l; [apply Rabs_pos|exact HK]. }
  set (X := Rabs (B2R x * c)) in *. assert (X0 : 0 <= X) by apply Rabs_pos.
  assert (E2 : Rabs (B2R x * B2R K) <= (1 + u / 3) * X).
  { replace (B2R x * B2R K) with ((B2R x * B2R K - B2R x * c) + B2R x * c) by ring. eapply Rle_trans; [apply Rabs_triang|]. fold X. lra. }
  assert (UX : 0 <= u * X <= / 2 * X) by (split; [apply Rmult_le_pos; lra|apply Rmult_le_compat_r; lra]).
  destruct (mul_val x K Fx FK ltac:(lra)) as (F & E). split; [exact F|]. rewrite E.
  pose proof (rnd_rel (prec := prec) (emax := emax) (B2R x * B2R K)) as R.
  replace (rnd (B2R x * B2R K) - B2R x * c) with ((rnd (B2R x * B2R K) - B2R x * B2R K) + (B2R x * B2R K - B2R x * c)) by ring.
  eapply Rle_trans; [apply Rabs_triang|].
  assert (u * Rabs (B2R x * B2R K) <= u * ((1 + u / 3) * X)) by (apply Rmult_le_compat_l; lra).
  assert (u * (u * X) <= / 2 * (u * X)) by (apply Rmult_le_compat_r; lra).
  nra.
Qed.

(** There and back with the factors [c] and [1/c]. *)
Lemma factor_back (x K L : fl) c d : is_finite x = true -> is_finite K = true -> is_finite L = true -> 0 < c -> 0 < d -> c * d = 1 ->
  Rabs (B2R K - c) <= u / 3 * c -> Rabs (B2R L - d) <= u / 3 * d ->
  Rabs (B2R x * c) <= / 2 * bpow radix2 (emax - 1) -> Rabs (B2R x) + d * tiny <= / 4 * bpow radix2 (emax - 1) ->
  fnear (nmul (nmul x K) L) (B2R x) ((3 + 9 / 4 * u) * u * Rabs (B2R x) + (1 + (1 + 3 / 2 * u) * d) * tiny).
Proof.
  intros Fx FK FL C D CD HK HL B1 B2. pose proof (u_half (prec := prec)) as U.
  destruct (factor_near x K c Fx FK C HK B1) as (Fy & Ey). set (y := nmul x K) in *.
  assert (T0 : 0 < tiny) by apply bpow_gt_0. assert (DT : 0 <= d * tiny) by (apply Rmult_le_pos; lra).
  set (X := Rabs (B2R x)) in *. assert (X0 : 0 <= X) by apply Rabs_pos.
  assert (E1 : Rabs (B2R y * d - B2R x) <= 3 / 2 * u * X + d * tiny).
  { replace (B2R y * d - B2R x) with ((B2R y - B2R x * c) * d) by (replace (B2R x) with (B2R x * (c * d)) at 2 by (rewrite CD; ring); ring).
    rewrite Rabs_mult, (Rabs_pos_eq d) by lra.
    eapply Rle_trans; [apply Rmult_le_compat_r; [lra|exact Ey]|]. rewrite Rabs_mult, (Rabs_pos_eq c) by lra. fold X.
    right. replace (3 / 2 * u * X) with (3 / 2 * u * (X * (c * d))) by (rewrite CD; ring). ring. }
  assert (UX : 0 <= u * X <= / 2 * X) by (split; [apply Rmult_le_pos; lra|apply Rmult_le_compat_r; lra]).
  assert (E2 : Rabs (B2R y * d) <= (1 + 3 / 2 * u) * X + d * tiny).
  { replace (B2R y * d) with ((B2R y * d - B2R x) + B2R x) by ring. eapply Rle_trans; [apply Rabs_triang|]. fold X. lra. }
  destruct (factor_near y L d Fy FL D HL ltac:(lra)) as (Fz & Ez). split; [exact Fz|].
  replace (B2R (nmul y L) - B2R x) with ((B2R (nmul y L) - B2R y * d) + (B2R y * d - B2R x)) by ring.
  eapply Rle_trans; [apply Rabs_triang|].
  assert (3 / 2 * u * Rabs (B2R y * d) <= 3 / 2 * u * ((1 + 3 / 2 * u) * X + d * tiny)) by (apply Rmult_le_compat_l; lra).
  lra.
Qed.

(** Multiplication by a non-negative factor keeps the order. *)
Lemma factor_mono (x y K : fl) : is_finite x = true -> is_finite y = true -> is_finite K = true -> 0 <= B2R K ->
  B2R x <= B2R y -> Rabs (B2R x * B2R K) <= bpow radix2 (emax - 1) -> Rabs (B2R y * B2R K) <= bpow radix2 (emax - 1) ->
  B2R (nmul x K) <= B2R (nmul y K).
Proof.
  intros Fx Fy FK K0 H B1 B2. destruct (mul_val x K Fx FK B1) as (_ & ->). destruct (mul_val y K Fy FK B2) as (_ & ->).
  apply round_le; [apply FLT_exp_valid; exact Hp|apply valid_rnd_N|apply Rmult_le_compat_r; assumption].
Qed.

(** No result beyond that of the largest argument. *)
Lemma factor_range (x h K : fl) : is_finite x = true -> is_finite h = true -> is_finite K = true -> 0 <= B2R K -> Rabs (B2R x) <= B2R h ->
  B2R h * B2R K <= bpow radix2 (emax - 1) -> is_finite (nmul x K) = true /\ Rabs (B2R (nmul x K)) <= B2R (nmul h K).
Proof.
  intros Fx Fh FK K0 H B.
  assert (M : Rabs (B2R x * B2R K) <= B2R h * B2R K) by (rewrite Rabs_mult, (Rabs_pos_eq (B2R K)) by exact K0; apply Rmult_le_compat_r; assumption).
  assert (H0 : 0 <= B2R h * B2R K) by (eapply Rle_trans; [apply Rabs_pos|exact M]).
  destruct (mul_val x K Fx FK ltac:(lra)) as (F & E). split; [exact F|].
  destruct (mul_val h K Fh FK ltac:(rewrite Rabs_pos_eq by exact H0; exact B)) as (_ & E'). rewrite E, E'.
  rewrite <- round_NE_abs. 2: apply FLT_exp_valid; exact Hp.
  apply round_le; [apply FLT_exp_valid; exact Hp|apply valid_rnd_N|exact M].
Qed.
End F.

Lemma cos_lip x y : Rabs (cos x - cos y) <= Rabs (x - y).
Proof. rewrite !cos_sin. eapply Rle_trans; [apply sin_lip|]. right. f_equal. ring. Qed.
