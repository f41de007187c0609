(** The Lp norm in floats: perturbation of sums and roots. *)

From Coq Require Import List Arith ZArith Bool Lia Reals Lra Psatz.
From Flocq Require Import Core.Core IEEE754.BinarySingleNaN.
From Verif Require Import Base Scalar Spec LBase MVector MFloat LFloat LFloatVec MSign LTrScF LNormFA SpecLpF.
Local Open Scope R_scope.

Lemma ln_le x y : 0 < x -> x <= y -> ln x <= ln y.
Proof. intros P [L| ->]; [left; apply ln_increasing; assumption|right; reflexivity]. Qed.

(** Exponential and logarithm near 0 and 1. *)
Lemma exp_close x D : Rabs x <= D -> D <= / 8 -> Rabs (exp x - 1) <= D / (1 - D).
Proof.
  intros H L. apply Rabs_le_inv in H. assert (0 <= D) by lra.
  assert (A : 1 - D <= exp x) by (pose proof (exp_ineq1_le x); lra).
  assert (B : exp x <= / (1 - D)).
  { pose proof (exp_ineq1_le (- x)) as E. rewrite exp_Ropp in E. pose proof (exp_pos x) as P.
    apply Rmult_le_reg_r with (1 - D); [lra|]. rewrite Rinv_l by lra.
    assert (exp x * (1 - D) <= exp x * / exp x) by (apply Rmult_le_compat_l; lra). rewrite Rinv_r in H1; lra. }
  assert (C : / (1 - D) = 1 + D / (1 - D)) by (field; lra). 
  assert (D <= D / (1 - D)).
  { apply Rmult_le_reg_r with (1 - D); [lra|]. unfold Rdiv. rewrite Rmult_assoc, Rinv_l by lra. nra. }
  apply Rabs_le. lra.
Qed.

Lemma ln_close e E : Rabs e <= E -> E <= / 8 -> Rabs (ln (1 + e)) <= E / (1 - E).
Proof.
  intros H L. apply Rabs_le_inv in H. assert (0 <= E) by lra.
  assert (I : E <= E / (1 - E)).
  { apply Rmult_le_reg_r with (1 - E); [lra|]. unfold Rdiv. rewrite Rmult_assoc, Rinv_l by lra. nra. }
  assert (A : ln (1 + e) <= e).
  { rewrite <- (ln_exp e) at 2. apply ln_le; [lra|]. apply exp_ineq1_le. }
  assert (B : - (E / (1 - E)) <= ln (1 + e)).
  { assert (X : ln (/ (1 + e)) <= / (1 + e) - 1).
    { rewrite <- (ln_exp (/ (1 + e) - 1)). apply ln_le; [apply Rinv_0_lt_compat; lra|].
      pose proof (exp_ineq1_le (/ (1 + e) - 1)). lra. }
    rewrite ln_Rinv in X by lra.
    assert (Y : / (1 + e) <= / (1 - E)) by (apply Rinv_le; lra).
    assert (C : / (1 - E) = 1 + E / (1 - E)) by (field; lra). lra. }
  apply Rabs_le. lra.
Qed.

(** A sum of perturbed terms. *)
Lemma sum_near n (f g : nat -> R) c : (forall i, (i < n)%nat -> Rabs (f i - g i) <= c * g i) ->
  Rabs (sum n f - sum n g) <= c * sum n g.
Proof.
  induction n as [|n IH]; intros H.
  - cbn. rewrite Rminus_0_r, Rabs_R0. lra.
  - change (sum (S n) f) with (sum n f + f n). change (sum (S n) g) with (sum n g + g n).
    replace (sum n f + f n - (sum n g + g n)) with ((sum n f - sum n g) + (f n - g n)) by ring.
    eapply Rle_trans; [apply Rabs_triang|]. specialize (IH ltac:(intros; apply H; lia)). specialize (H n ltac:(lia)). lra.
Qed.
Lemma sum_nonneg n (g : nat -> R) : (forall i, (i < n)%nat -> 0 <= g i) -> 0 <= sum n g.
Proof.
  induction n as [|n IH]; intros H; [cbn; lra|]. change (sum (S n) g) with (sum n g + g n).
  specialize (IH ltac:(intros; apply H; lia)). specialize (H n ltac:(lia)). lra.
Qed.
Lemma sum_ge n (g : nat -> R) i : (forall j, (j < n)%nat -> 0 <= g j) -> (i < n)%nat -> g i <= sum n g.
Proof.
  induction n as [|n IH]; intros H Hi; [lia|]. change (sum (S n) g) with (sum n g + g n).
  pose proof (sum_nonneg n g ltac:(intros; apply H; lia)). destruct (Nat.eq_dec i n) as [->|Ne]; [lra|].
  specialize (IH ltac:(intros; apply H; lia) ltac:(lia)). pose proof (H n ltac:(lia)). lra.
Qed.
Lemma sum_pos_term n (g : nat -> R) : (forall j, (j < n)%nat -> 0 <= g j) -> 0 < sum n g -> exists i, (i < n)%nat /\ 0 < g i.
Proof.
  induction n as [|n IH]; intros H S; [cbn in S; lra|]. change (sum (Datatypes.S n) g) with (sum n g + g n) in S.
  destruct (Rlt_dec 0 (g n)) as [P|P]; [exists n; auto|].
  destruct IH as (i & Hi & Q); [intros; apply H; lia|lra|]. exists i. auto.
Qed.

(** The [p]-th root of a number between [a] and [b]. *)
Lemma root_between S p a b : 0 < a -> a <= S <= b -> a <= 1 <= b -> 1 <= p -> a <= Rpower S (/ p) <= b.
Proof.
  intros A H I P. unfold Rpower.
  assert (IP : 0 < / p <= 1). { split; [apply Rinv_0_lt_compat; lra|]. rewrite <- Rinv_1. apply Rinv_le; lra. }
  assert (L1 : ln a <= ln S) by (apply ln_le; lra). assert (L2 : ln S <= ln b) by (apply ln_le; lra).
  assert (L3 : ln a <= 0) by (rewrite <- ln_1; apply ln_le; lra). assert (L4 : 0 <= ln b) by (rewrite <- ln_1; apply ln_le; lra).
  set (l := ln S) in *. 
  assert (X : ln a <= / p * l <= ln b).
  { destruct (Rle_dec 0 l).
    - assert (0 <= / p * l) by (apply Rmult_le_pos; lra). assert (/ p * l <= 1 * l) by (apply Rmult_le_compat_r; lra). lra.
    - assert (0 <= / p * - l) by (apply Rmult_le_pos; lra). assert (/ p * - l <= 1 * - l) by (apply Rmult_le_compat_r; lra). lra. }
  assert (M : forall x y, x <= y -> exp x <= exp y).
  { intros x y [Lt| ->]; [left; apply exp_increasing; exact Lt|right; reflexivity]. }
  split.
  - rewrite <- (exp_ln a) by lra. apply M. lra.
  - rewrite <- (exp_ln b) by lra. apply M. lra.
Qed.

(** The root of a perturbed number with a perturbed exponent. *)
Lemma root_near S p e q t u : 0 < S -> 1 <= p -> 0 < u <= / 16 -> 0 <= t -> 16 * (t + u * Rabs (ln S)) <= 1 ->
  Rabs e <= 16 / 15 * t -> Rabs (q * p - 1) <= 17 / 16 * u ->
  let N := Rpower S (/ p) in
  Rabs (Rpower (S * (1 + e)) q - N) <= 69 / 50 * ((t + u * Rabs (ln S)) / p) * N /\ / 2 * N <= Rpower (S * (1 + e)) q <= 2 * N.
Proof.
  intros HS P U T B E Q N. set (L := Rabs (ln S)) in *. assert (L0 : 0 <= L) by apply Rabs_pos.
  assert (UL : 0 <= u * L) by (apply Rmult_le_pos; lra).
  pose proof (Rabs_le_inv _ _ E) as E'.
  assert (LE : Rabs (ln (1 + e)) <= 8 / 7 * t).
  { eapply Rle_trans; [apply (ln_close e (16 / 15 * t)); [exact E|lra]|].
    apply Rmult_le_reg_r with (1 - 16 / 15 * t); [lra|]. unfold Rdiv. rewrite Rmult_assoc, Rinv_l by lra. nra. }
  assert (IP : 0 < / p <= 1). { split; [apply Rinv_0_lt_compat; lra|]. rewrite <- Rinv_1. apply Rinv_le; lra. }
  set (w := (t + u * L) / p). assert (W0 : 0 <= w). { unfold w, Rdiv. apply Rmult_le_pos; lra. }
  assert (W1 : w <= / 16). { unfold w, Rdiv. assert ((t + u * L) * / p <= (t + u * L) * 1) by (apply Rmult_le_compat_l; lra). lra. }
  set (D := q * ln (S * (1 + e)) - / p * ln S).
  assert (HD : Rabs D <= 5 / 4 * w).
  { unfold D. rewrite ln_mult by lra.
    replace (q * (ln S + ln (1 + e)) - / p * ln S) with (/ p * ((q * p - 1) * ln S + (q * p) * ln (1 + e))) by (field; lra).
    rewrite Rabs_mult, (Rabs_pos_eq (/ p)) by lra. replace (5 / 4 * w) with (/ p * (5 / 4 * (t + u * L))) by (unfold w; field; lra).
    apply Rmult_le_compat_l; [lra|]. eapply Rle_trans; [apply Rabs_triang|]. rewrite !Rabs_mult. fold L.
    assert (A1 : Rabs (q * p) <= 273 / 256). { apply Rabs_le_inv in Q. apply Rabs_le. lra. }
    rewrite <- Rabs_mult.
    assert (X1 : Rabs (q * p - 1) * L <= 17 / 16 * u * L) by (apply Rmult_le_compat_r; lra).
    assert (X2 : Rabs (q * p) * Rabs (ln (1 + e)) <= 273 / 256 * (8 / 7 * t)) by (apply Rmult_le_compat; try apply Rabs_pos; lra).
    lra. }
  assert (EQ : Rpower (S * (1 + e)) q = N * exp D).
  { unfold N, Rpower. rewrite <- exp_plus. f_equal. unfold D. ring. }
  assert (NP : 0 < N) by apply exp_pos.
  assert (X : Rabs (exp D - 1) <= 69 / 50 * w).
  { eapply Rle_trans; [apply (exp_close D (5 / 4 * w)); [exact HD|lra]|].
    apply Rmult_le_reg_r with (1 - 5 / 4 * w); [lra|]. unfold Rdiv. rewrite Rmult_assoc, Rinv_l by lra. nra. }
  rewrite EQ. split.
  - replace (N * exp D - N) with ((exp D - 1) * N) by ring. rewrite Rabs_mult, (Rabs_pos_eq N) by lra.
    apply Rmult_le_compat_r; [lra|exact X].
  - apply Rabs_le_inv in X. assert (/ 2 <= exp D <= 2) by lra. split.
    + rewrite (Rmult_comm (/ 2)). apply Rmult_le_compat_l; lra.
    + rewrite (Rmult_comm 2). apply Rmult_le_compat_l; lra.
Qed.

Lemma powerRZ_nonneg x n : 0 < x -> 0 < powerRZ x n.
Proof. apply powerRZ_lt. Qed.
Lemma powerRZ_0 p : (0 < p)%Z -> powerRZ 0 p = 0.
Proof. intros H. destruct p as [|p|p]; try lia. cbn. apply pow_i. lia. Qed.

Section F.
Context {prec emax : Z} {Hp : Prec_gt_0 prec} {He : Prec_lt_emax prec emax}.
Notation fl := (binary_float prec emax).
Notation u := (bpow radix2 (- prec)).
Variables (powi : fl -> Z -> fl) (powf : fl -> fl -> fl).

(** The sum of the computed powers. *)
Lemma pows_pos n (v : vec fl n) p k : powi_ok powi p k -> (forall i, (i < n)%nat -> is_nan (vat v i) = false) ->
  forall i, (i < n)%nat -> pos (powi (fabs (vat v i)) p).
Proof. intros K H i Hi. destruct (pos_abs (vat v i) (H i Hi)) as (A & B). exact (pi_sign _ _ _ K _ A B). Qed.

Lemma pows_near n (v : vec fl n) p k : (0 < p)%Z -> powi_ok powi p k -> 0 <= k -> (forall i, (i < n)%nat -> is_finite (vat v i) = true) ->
  (forall i, (i < n)%nat -> B2R (vat v i) = 0 \/ bpow radix2 (3 - emax) <= powerRZ (Rabs (B2R (vat v i))) p) ->
  lp_sum v p <= bpow radix2 (emax - 3) -> 16 * ((k + INR n) * u) <= 1 ->
  let s := sumn n (fun i => powi (fabs (vat v i)) p) in
  is_finite s = true /\ exists e, Rabs e <= 16 / 15 * ((k + INR n) * u) /\ B2R s = lp_sum v p * (1 + e).
Proof.
  intros P0 K k0 F R B1 B2 s. pose proof (bpow_gt_0 radix2 (- prec)) as U.
  assert (NP : forall i, (i < n)%nat -> pos (powi (fabs (vat v i)) p)).
  { apply (pows_pos n v p k K). intros i Hi. specialize (F i Hi). destruct (vat v i); try reflexivity; discriminate. }
  assert (G0 : forall i, (i < n)%nat -> 0 <= powerRZ (Rabs (B2R (vat v i))) p).
  { intros i Hi. destruct (R i Hi) as [E|E]; [rewrite E, Rabs_R0, powerRZ_0 by exact P0; lra|]. pose proof (bpow_gt_0 radix2 (3 - emax)). lra. }
  assert (ES : lp_sum v p = sum n (fun i => powerRZ (Rabs (B2R (vat v i))) p)) by reflexivity.
  assert (Each : forall i, (i < n)%nat -> is_finite (powi (fabs (vat v i)) p) = true /\
    Rabs (B2R (powi (fabs (vat v i)) p) - powerRZ (Rabs (B2R (vat v i))) p) <= k * u * powerRZ (Rabs (B2R (vat v i))) p).
  { intros i Hi. specialize (F i Hi). specialize (R i Hi). destruct (Rtotal_order (Rabs (B2R (vat v i))) 0) as [L|[E|L]].
    - pose proof (Rabs_pos (B2R (vat v i))). lra.
    - assert (Z : exists b, vat v i = B754_zero b).
      { destruct (vat v i) as [b|b| |b m e Hb]; try discriminate; [exists b; reflexivity|]. exfalso. 
        assert (B2R (B754_finite b m e Hb) = 0) by (apply Rabs_eq_R0; exact E). cbn in H. 
        apply eq_0_F2R in H. destruct b; discriminate. }
      destruct Z as (b & ->). replace (fabs (B754_zero b)) with (B754_zero false : fl) by reflexivity. rewrite (pi_zero _ _ _ K) by exact P0.
      split; [reflexivity|]. cbn [B2R andb]. rewrite Rabs_R0, powerRZ_0 by exact P0. rewrite Rminus_0_r, Rabs_R0. lra.
    - rewrite <- R_abs in *. assert (X : bpow radix2 (2 - emax) <= powerRZ (B2R (fabs (vat v i))) p <= bpow radix2 (emax - 1)).
      { destruct R as [Z|R]; [rewrite R_abs, Z, Rabs_R0 in L; lra|]. split.
        - eapply Rle_trans; [|exact R]. apply bpow_le. lia.
        - apply Rle_trans with (lp_sum v p); [rewrite ES, R_abs; apply (sum_ge n (fun i => powerRZ (Rabs (B2R (vat v i))) p) i G0 Hi)|].
          eapply Rle_trans; [exact B1|]. apply bpow_le. lia. }
      destruct (pi_near _ _ _ K (fabs (vat v i))) as (A & _ & B); [rewrite fin_abs; exact F|exact L|exact X|]. split; [exact A|exact B]. }
  set (T := sum n (fun i => B2R (powi (fabs (vat v i)) p))).
  assert (HT : Rabs (T - lp_sum v p) <= k * u * lp_sum v p).
  { rewrite ES. apply sum_near. intros i Hi. apply Each. exact Hi. }
  assert (S0 : 0 <= lp_sum v p) by (rewrite ES; apply sum_nonneg; exact G0).
  set (S := lp_sum v p) in *. set (t := (k + INR n) * u) in *.
  assert (ku : 0 <= k * u) by (apply Rmult_le_pos; lra). assert (nu : 0 <= INR n * u) by (apply Rmult_le_pos; [apply pos_INR|lra]).
  assert (Et : t = k * u + INR n * u) by (unfold t; ring).
  assert (PW : (1 + u) ^ n <= exp (INR n * u)).
  { clear - U. induction n as [|n IH]; [cbn [pow INR]; rewrite Rmult_0_l, exp_0; lra|]. rewrite S_INR, Rmult_plus_distr_r, exp_plus, Rmult_1_l.
    rewrite Rmult_comm. cbn [pow]. rewrite (Rmult_comm (1 + u)). rewrite (Rmult_comm (exp u)). apply Rmult_le_compat; [apply pow_le; lra|lra|exact IH|apply exp_ineq1_le]. }
  assert (EX : (1 + k * u) * (1 + u) ^ n <= 1 + 16 / 15 * t).
  { apply Rle_trans with (exp (k * u) * exp (INR n * u)).
    - apply Rmult_le_compat; [lra|apply pow_le; lra|apply exp_ineq1_le|exact PW].
    - rewrite <- exp_plus, <- Et. pose proof (exp_close t t ltac:(rewrite Rabs_pos_eq; lra) ltac:(lra)) as C. apply Rabs_le_inv in C.
      assert (t / (1 - t) <= 16 / 15 * t). { apply Rmult_le_reg_r with (1 - t); [lra|]. unfold Rdiv. rewrite Rmult_assoc, Rinv_l by lra. nra. }
      lra. }
  assert (P1 : 1 <= (1 + u) ^ n) by (apply pow_R1_Rle; lra).
  assert (T0 : 0 <= T <= (1 + k * u) * S).
  { split; [apply sum_nonneg; intros i Hi; apply pos_R, NP, Hi|]. apply Rabs_le_inv in HT. lra. }
  assert (Fin : is_finite s = true).
  { apply sumn_fin; [exact NP|intros i Hi; apply Each; exact Hi|]. fold T.
    apply Rle_trans with ((1 + u) ^ n * ((1 + k * u) * S)); [apply Rmult_le_compat_l; lra|].
    apply Rle_trans with (2 * bpow radix2 (emax - 3)).
    - replace ((1 + u) ^ n * ((1 + k * u) * S)) with ((1 + k * u) * (1 + u) ^ n * S) by ring. apply Rmult_le_compat; try lra.
      apply Rmult_le_pos; lra.
    - change 2 with (bpow radix2 1) at 1. rewrite <- bpow_plus. apply bpow_le. lia. }
  split; [exact Fin|].
  destruct (sumn_err n _ NP Fin) as (_ & E2). fold s T in E2.
  assert (Kn : (1 + u) ^ (n - 1) <= (1 + u) ^ n) by (apply Rle_pow; [lra|lia]).
  assert (E3 : Rabs (B2R s - S) <= 16 / 15 * t * S).
  { replace (B2R s - S) with ((B2R s - T) + (T - S)) by ring. eapply Rle_trans; [apply Rabs_triang|].
    assert (A1 : ((1 + u) ^ (n - 1) - 1) * T <= ((1 + u) ^ n - 1) * ((1 + k * u) * S)).
    { apply Rmult_le_compat; try lra. assert (1 <= (1 + u) ^ (n - 1)) by (apply pow_R1_Rle; lra). lra. }
    assert (A2 : ((1 + k * u) * (1 + u) ^ n - 1) * S <= 16 / 15 * t * S) by (apply Rmult_le_compat_r; lra).
    replace ((1 + k * u) * (1 + u) ^ n - 1) with (((1 + u) ^ n - 1) * (1 + k * u) + k * u) in A2 by ring. lra. }
  destruct (Req_dec S 0) as [Z|Z].
  - exists 0. split; [rewrite Rabs_R0; lra|]. rewrite Z in E3 |- *. rewrite Rmult_0_r, Rminus_0_r in E3. rewrite Rmult_0_l.
    apply Rabs_eq_R0. apply Rle_antisym; [exact E3|apply Rabs_pos].
  - exists ((B2R s - S) / S). split.
    + unfold Rdiv. rewrite Rabs_mult, Rabs_inv, (Rabs_pos_eq S) by lra. apply Rmult_le_reg_r with S; [lra|].
      rewrite Rmult_assoc, Rinv_l by lra. lra.
    + field. exact Z.
Qed.

(** The norm, with an exponent [q] close to [1/p]. *)
Lemma lp_near n (v : vec fl n) p k k' (q : fl) : (0 < p)%Z -> (1 <= n)%nat -> powi_ok powi p k -> powf_ok powf k' -> 0 <= k ->
  is_finite q = true -> Rabs (B2R q * IZR p - 1) <= 17 / 16 * u ->
  (forall i, (i < n)%nat -> is_finite (vat v i) = true) ->
  (forall i, (i < n)%nat -> B2R (vat v i) = 0 \/ bpow radix2 (3 - emax) <= powerRZ (Rabs (B2R (vat v i))) p) ->
  0 < lp_sum v p <= bpow radix2 (emax - 3) -> 16 * (k + INR n + Rabs (ln (lp_sum v p))) * u <= 1 ->
  let N := Rpower (lp_sum v p) (/ IZR p) in
  let r := powf (sumn n (fun i => powi (fabs (vat v i)) p)) q in
  is_finite r = true /\ Rabs (B2R r - N) <= 3 / 2 * (k' + (k + INR n + Rabs (ln (lp_sum v p))) / IZR p) * u * N.
Proof.
  intros P0 Hn Ki Kf k0 Fq Q F R (S0 & S1) B N r. pose proof (bpow_gt_0 radix2 (- prec)) as U.
  set (S := lp_sum v p) in *. assert (L0 : 0 <= Rabs (ln S)) by apply Rabs_pos. set (L := Rabs (ln S)) in *.
  assert (N1 : 1 <= INR n) by (change 1 with (INR 1); apply le_INR; lia).
  assert (UL : 0 <= u * L) by (apply Rmult_le_pos; lra).
  assert (B' : 16 * ((k + INR n) * u + u * L) <= 1) by lra.
  assert (U16 : u <= / 16). { assert (0 <= (k + INR n - 1) * u) by (apply Rmult_le_pos; lra). lra. }
  assert (T0 : 0 <= (k + INR n) * u) by (apply Rmult_le_pos; lra).
  destruct (pows_near n v p k P0 Ki k0 F R S1 ltac:(lra)) as (Fs & e & He1 & Es). fold S in Es.
  set (s := sumn n (fun i => powi (fabs (vat v i)) p)) in *.
  assert (P1 : 1 <= IZR p) by (apply IZR_le; lia).
  destruct (root_near S (IZR p) e (B2R q) ((k + INR n) * u) u S0 P1 (conj U U16) T0 B' He1 Q) as (A1 & A2). fold N L in A1, A2.
  rewrite <- Es in A1, A2.
  assert (SP : 0 < B2R s). { rewrite Es. apply Rabs_le_inv in He1. apply Rmult_lt_0_compat; lra. }
  assert (E5 : (4 <= emax)%Z).
  { assert (X : bpow radix2 (- prec) <= bpow radix2 (-4)) by (change (bpow radix2 (-4)) with (/ 16); exact U16).
    apply le_bpow in X. unfold Prec_lt_emax in He. lia. }
  assert (SL : bpow radix2 (3 - emax) <= S).
  { destruct (sum_pos_term n (fun i => powerRZ (Rabs (B2R (vat v i))) p)) as (i & Hi & Pi).
    - intros j Hj. destruct (R j Hj) as [E|E]; [rewrite E, Rabs_R0, powerRZ_0 by exact P0; lra|]. pose proof (bpow_gt_0 radix2 (3 - emax)). lra.
    - exact S0.
    - destruct (R i Hi) as [E|E]; [rewrite E, Rabs_R0, powerRZ_0 in Pi by exact P0; lra|].
      eapply Rle_trans; [exact E|]. refine (sum_ge n (fun i => powerRZ (Rabs (B2R (vat v i))) p) i _ Hi).
      intros j Hj. destruct (R j Hj) as [E'|E']; [rewrite E', Rabs_R0, powerRZ_0 by exact P0; lra|]. pose proof (bpow_gt_0 radix2 (3 - emax)). lra. }
  assert (NB : bpow radix2 (3 - emax) <= N <= bpow radix2 (emax - 3)).
  { apply root_between; [apply bpow_gt_0|split; assumption| |exact P1]. change 1 with (bpow radix2 0). split; apply bpow_le; lia. }
  assert (NP : 0 < N) by apply exp_pos.
  assert (H1 : bpow radix2 (2 - emax) = / 2 * bpow radix2 (3 - emax)).
  { change (/ 2) with (bpow radix2 (-1)). rewrite <- bpow_plus. f_equal. lia. }
  assert (H2 : bpow radix2 (emax - 1) = 4 * bpow radix2 (emax - 3)).
  { change 4 with (bpow radix2 2). rewrite <- bpow_plus. f_equal. lia. }
  destruct (pf_near _ _ Kf s q Fs Fq SP) as (Fr & Er); [rewrite H1, H2; pose proof (bpow_gt_0 radix2 (emax - 3)); lra|].
  fold r in Fr, Er. split; [exact Fr|]. set (M := Rpower (B2R s) (B2R q)) in *.
  assert (MP : 0 < M) by apply exp_pos.
  assert (K0 : 0 <= k' * u).
  { destruct (Rle_dec 0 (k' * u)) as [Y|Y]; [exact Y|]. exfalso. pose proof (Rabs_pos (B2R r - M)).
    assert (0 < - (k' * u) * M) by (apply Rmult_lt_0_compat; lra). lra. }
  replace (B2R r - N) with ((B2R r - M) + (M - N)) by ring. eapply Rle_trans; [apply Rabs_triang|].
  assert (IP : 0 < / IZR p <= 1). { split; [apply Rinv_0_lt_compat; lra|]. rewrite <- Rinv_1. apply Rinv_le; lra. }
  assert (W : 0 <= ((k + INR n) * u + u * L) / IZR p <= / 16).
  { split; [apply Rmult_le_pos; lra|]. unfold Rdiv. assert (((k + INR n) * u + u * L) * / IZR p <= ((k + INR n) * u + u * L) * 1) by (apply Rmult_le_compat_l; lra). lra. }
  set (w := ((k + INR n) * u + u * L) / IZR p) in *.
  replace (3 / 2 * (k' + (k + INR n + L) / IZR p) * u * N) with (3 / 2 * (k' * u) * N + 3 / 2 * w * N) by (unfold w; field; lra).
  assert (MN : M <= 11 / 10 * N). { apply Rabs_le_inv in A1. assert (w * N <= / 16 * N) by (apply Rmult_le_compat_r; lra). lra. }
  assert (k' * u * M <= k' * u * (11 / 10 * N)) by (apply Rmult_le_compat_l; lra).
  assert (0 <= k' * u * N) by (apply Rmult_le_pos; lra). assert (0 <= w * N) by (apply Rmult_le_pos; lra). lra.
Qed.
End F.
