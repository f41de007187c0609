(** Great circles between unit vectors: weights, ends that are close, and the chord. *)

From Coq Require Import Arith Lia Reals Lra Psatz.
From Verif Require Import Base Scalar Spec SpecRigid SpecSlerp MVector MReal LDriftM LRigidF LSlerp.
Local Open Scope R_scope.

Lemma dot4_eq p q : dot4 p q = p 0%nat * q 0%nat + p 1%nat * q 1%nat + p 2%nat * q 2%nat + p 3%nat * q 3%nat.
Proof. unfold dot4. cbn. ring. Qed.
Lemma len4_sq p : rlength 4 p * rlength 4 p = dot4 p p.
Proof.
  unfold rlength, dot4. apply sqrt_sqrt. cbn. pose proof (Rle_0_sqr (p 0%nat)). pose proof (Rle_0_sqr (p 1%nat)).
  pose proof (Rle_0_sqr (p 2%nat)). pose proof (Rle_0_sqr (p 3%nat)). unfold Rsqr in *. lra.
Qed.
Lemma unit4 p : rlength 4 p = 1 -> p 0%nat * p 0%nat + p 1%nat * p 1%nat + p 2%nat * p 2%nat + p 3%nat * p 3%nat = 1.
Proof. intros H. rewrite <- dot4_eq, <- len4_sq, H. ring. Qed.
Lemma unit4_comp p i : rlength 4 p = 1 -> (i < 4)%nat -> Rabs (p i) <= 1.
Proof. intros H Hi. rewrite <- H. exact (fnrm_comp 4 p i Hi). Qed.

Section Pair.
Variables P Q : nat -> R.
Hypothesis HP : rlength 4 P = 1.
Hypothesis HQ : rlength 4 Q = 1.
Notation c := (dot4 P Q).

Lemma diff_sq : dot4 (fun i => Q i - P i) (fun i => Q i - P i) = 2 * (1 - c).
Proof. rewrite !dot4_eq. pose proof (unit4 P HP). pose proof (unit4 Q HQ). lra. Qed.
Lemma dot_le_1 : c <= 1.
Proof. pose proof diff_sq as D. rewrite <- len4_sq in D. pose proof (Rle_0_sqr (rlength 4 (fun i => Q i - P i))) as S. unfold Rsqr in S. lra. Qed.
Lemma diff_comp i : (i < 4)%nat -> Rabs (Q i - P i) <= sqrt (2 * (1 - c)).
Proof.
  intros Hi. rewrite <- diff_sq, <- len4_sq, sqrt_square by apply sqrt_pos. exact (fnrm_comp 4 (fun i => Q i - P i) i Hi).
Qed.

Lemma great_weight t i : 0 <= t <= 1 -> - / 8 <= c -> (i < 4)%nat ->
  great_circle P Q t i = weight (1 - t) c * P i + weight t c * Q i.
Proof.
  intros Ht Hc Hi. pose proof dot_le_1 as C1. unfold great_circle, weight. cbv zeta.
  destruct (Req_EM_T c 1) as [E|E].
  - rewrite E, acos_1, sin_0. destruct (Req_EM_T 0 0) as [_|N]; [|lra].
    pose proof (diff_comp i Hi) as D. rewrite E in D. replace (2 * (1 - 1)) with 0 in D by ring. rewrite sqrt_0 in D.
    pose proof (Rabs_pos (Q i - P i)). assert (Z : Q i - P i = 0) by (destruct (Req_dec (Q i - P i) 0) as [Z|Z]; [exact Z|apply Rabs_pos_lt in Z; lra]). replace (Q i) with (P i) by lra. ring.
  - destruct (acos_range c ltac:(lra)) as (A & _). pose proof (sin_gt_0 _ (proj1 A) (proj2 A)) as S.
    destruct (Req_EM_T (sin (acos c)) 0) as [N|_]; [lra|]. field. lra.
Qed.
Lemma weight_at_one t : 0 <= t <= 1 -> weight t 1 = t.
Proof. intros _. unfold weight. destruct (Req_EM_T 1 1) as [_|N]; [reflexivity|lra]. Qed.
Lemma weights t : 0 <= t <= 1 -> - / 8 <= c -> 0 <= weight t c - t <= 4 * (1 - c).
Proof.
  intros Ht Hc. pose proof dot_le_1. pose proof (weight_lip t Ht 1 c Hc ltac:(lra) ltac:(lra)) as W. rewrite weight_at_one in W by exact Ht. exact W.
Qed.

(** The first end itself. *)
Lemma great_end t i : 0 <= t <= 1 -> - / 8 <= c -> (i < 4)%nat ->
  Rabs (P i - great_circle P Q t i) <= 8 * (1 - c) + 9 / 8 * sqrt (2 * (1 - c)).
Proof.
  intros Ht Hc Hi. rewrite great_weight by assumption. pose proof dot_le_1 as C1.
  pose proof (weights t Ht Hc) as W. pose proof (weights (1 - t) ltac:(lra) Hc) as W'. pose proof (weight_range t Ht c ltac:(lra)) as R.
  pose proof (unit4_comp P i HP Hi) as BP. pose proof (diff_comp i Hi) as D.
  set (a := weight (1 - t) c) in *. set (b := weight t c) in *.
  replace (P i - (a * P i + b * Q i)) with ((1 - a - b) * P i + - b * (Q i - P i)) by ring.
  eapply Rle_trans; [apply Rabs_triang|]. rewrite !Rabs_mult, Rabs_Ropp.
  assert (Rabs (1 - a - b) * Rabs (P i) <= 8 * (1 - c) * 1) by (apply Rmult_le_compat; [apply Rabs_pos|apply Rabs_pos|apply Rabs_le; lra|exact BP]).
  assert (Rabs b * Rabs (Q i - P i) <= 9 / 8 * sqrt (2 * (1 - c))) by (apply Rmult_le_compat; [apply Rabs_pos|apply Rabs_pos|rewrite Rabs_pos_eq; lra|exact D]).
  lra.
Qed.

(** The chord. *)
Lemma chord_sq t : rlength 4 (chord P Q t) * rlength 4 (chord P Q t) = 1 - 2 * (t * (1 - t)) * (1 - c).
Proof.
  rewrite len4_sq, !dot4_eq. unfold chord. pose proof (unit4 P HP) as UP. pose proof (unit4 Q HQ) as UQ.
  replace (_ + _) with ((1 - t) * (1 - t) * (P 0%nat * P 0%nat + P 1%nat * P 1%nat + P 2%nat * P 2%nat + P 3%nat * P 3%nat)
    + t * t * (Q 0%nat * Q 0%nat + Q 1%nat * Q 1%nat + Q 2%nat * Q 2%nat + Q 3%nat * Q 3%nat)
    + 2 * (t * (1 - t)) * (P 0%nat * Q 0%nat + P 1%nat * Q 1%nat + P 2%nat * Q 2%nat + P 3%nat * Q 3%nat)) by ring.
  rewrite UP, UQ. ring.
Qed.
Lemma chord_le t : 0 <= t <= 1 -> rlength 4 (chord P Q t) <= 1.
Proof.
  intros Ht. pose proof (chord_sq t) as S. pose proof dot_le_1. set (m := rlength 4 (chord P Q t)) in *.
  assert (0 <= 2 * (t * (1 - t)) * (1 - c)) by (apply Rmult_le_pos; [|lra]; assert (0 <= t * (1 - t)) by (apply Rmult_le_pos; lra); lra).
  destruct (Rle_lt_dec m 1) as [L|L]; [exact L|]. exfalso. assert (1 * 1 < m * m) by (apply Rmult_le_0_lt_compat; lra). lra.
Qed.
Lemma chord_ge t : 0 <= t <= 1 -> - / 8 <= c -> 1 - (1 - c) / 2 <= rlength 4 (chord P Q t).
Proof.
  intros Ht Hc. pose proof (chord_sq t) as S. pose proof dot_le_1. pose proof (chord_le t Ht) as M1. set (m := rlength 4 (chord P Q t)) in *.
  assert (T : t * (1 - t) <= / 4) by (pose proof (Rle_0_sqr (t - / 2)) as Z; unfold Rsqr in Z; lra).
  assert (2 * (t * (1 - t)) * (1 - c) <= / 2 * (1 - c)) by (apply Rmult_le_compat_r; lra).
  assert (M0 : 0 <= m) by apply sqrt_pos. assert (m * m <= m * 1) by (apply Rmult_le_compat_l; lra). lra.
Qed.
Lemma chord_great t i : 0 <= t <= 1 -> / 2 <= c -> (i < 4)%nat ->
  Rabs (chord P Q t i / rlength 4 (chord P Q t) - great_circle P Q t i) <= 9 * (1 - c).
Proof.
  intros Ht Hc Hi. rewrite great_weight by (assumption || lra). pose proof dot_le_1 as C1.
  pose proof (weights t Ht ltac:(lra)) as W. pose proof (weights (1 - t) ltac:(lra) ltac:(lra)) as W'.
  pose proof (unit4_comp P i HP Hi) as BP. pose proof (unit4_comp Q i HQ Hi) as BQ.
  pose proof (chord_ge t Ht ltac:(lra)) as MG. pose proof (chord_le t Ht) as ML. set (m := rlength 4 (chord P Q t)) in *.
  set (a := weight (1 - t) c) in *. set (b := weight t c) in *. unfold chord.
  assert (m0 : 0 < m) by lra.
  assert (I : 0 <= / m - 1 <= 1 - c).
  { replace (/ m - 1) with ((1 - m) * / m) by (field; lra). split; [apply Rmult_le_pos; [lra|left; apply Rinv_0_lt_compat; lra]|].
    apply (Rmult_le_reg_r m); [exact m0|]. rewrite Rmult_assoc, Rinv_l, Rmult_1_r by lra.
    assert ((1 - c) * / 2 <= (1 - c) * m) by (apply Rmult_le_compat_l; lra). lra. }
  set (n := / m) in *.
  replace (((1 - t) * P i + t * Q i) / m - (a * P i + b * Q i)) with
    (((1 - t) * (n - 1) - (a - (1 - t))) * P i + (t * (n - 1) - (b - t)) * Q i) by (unfold n; field; lra).
  assert (B1 : 0 <= (1 - t) * (n - 1) <= (1 - t) * (1 - c)) by (split; [apply Rmult_le_pos|apply Rmult_le_compat_l]; lra).
  assert (B2 : 0 <= t * (n - 1) <= t * (1 - c)) by (split; [apply Rmult_le_pos|apply Rmult_le_compat_l]; lra).
  eapply Rle_trans; [apply Rabs_triang|]. rewrite !Rabs_mult.
  assert (0 <= t * (1 - c)) by (apply Rmult_le_pos; lra). assert (0 <= (1 - t) * (1 - c)) by (apply Rmult_le_pos; lra).
  assert (Rabs ((1 - t) * (n - 1) - (a - (1 - t))) * Rabs (P i) <= ((1 - t) * (1 - c) + 4 * (1 - c)) * 1) by (apply Rmult_le_compat; [apply Rabs_pos|apply Rabs_pos|apply Rabs_le; lra|exact BP]).
  assert (Rabs (t * (n - 1) - (b - t)) * Rabs (Q i) <= (t * (1 - c) + 4 * (1 - c)) * 1) by (apply Rmult_le_compat; [apply Rabs_pos|apply Rabs_pos|apply Rabs_le; lra|exact BQ]).
  lra.
Qed.
End Pair.
