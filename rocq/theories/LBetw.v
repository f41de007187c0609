(** Real-number lemmas about the rotation taking one unit vector to another. *)

From Coq Require Import List Arith ZArith Lia Reals Lra Psatz.
From Flocq Require Import Core.Core.
From Verif Require Import Base Scalar Spec SpecRot SpecRigid SpecLook MVector LBase LVector LVectorR LFloat LFloatVec LFloatP LFloatAcc LFloatExP LDriftM LRigidF LNormF LLookF LTrigB.
Local Open Scope R_scope.

(** * The arc cosine away from its end points *)
Lemma acos_lip x y m : 0 < m -> x < y -> -1 < x -> y < 1 -> (forall c, x <= c <= y -> m * m <= 1 - c * c) ->
  Rabs (acos y - acos x) <= (y - x) / m.
Proof.
  intros M H X Y B.
  destruct (MVT_cor2 acos (fun c => -1 / sqrt (1 - Rsqr c)) x y H) as (c & E & C1).
  - intros c C. assert (R1 : -1 < c < 1) by lra.
    apply (derive_pt_eq_1 acos c _ (derivable_pt_acos c R1)). apply derive_pt_acos.
  - rewrite E. rewrite Rabs_mult, (Rabs_pos_eq (y - x)) by lra. unfold Rdiv. rewrite Rmult_comm. apply Rmult_le_compat_l; [lra|].
    assert (S : m <= sqrt (1 - Rsqr c)).
    { rewrite <- (sqrt_square m) by lra. apply sqrt_le_1_alt. unfold Rsqr. apply B. lra. }
    rewrite Rabs_mult, (Rabs_left (-1)) by lra. replace (- -1) with 1 by ring. rewrite Rmult_1_l, Rabs_pos_eq by (left; apply Rinv_0_lt_compat; lra).
    apply Rinv_le_contravar; lra.
Qed.
Lemma acos_pert x c s e : 0 < s -> c * c + s * s = 1 -> 0 <= e -> Rabs (x - c) <= e -> 25 * e <= 4 * (s * s) ->
  Rabs (acos x - acos c) <= 5 / 4 * e / s /\ Rabs x < 1.
Proof.
  intros S CS E D Q.
  assert (C1 : Rabs c < 1). { apply Rabs_def1; nra. }
  assert (S1 : s <= 1) by nra.
  assert (SS : s * s <= 1) by nra.
  assert (B : forall z, Rabs (z - c) <= e -> (4 / 5 * s) * (4 / 5 * s) <= 1 - z * z).
  { intros z Hz. assert (Rabs z <= Rabs c + e) by (pose proof (Rabs_triang (z - c) c) as T; replace (z - c + c) with z in T by ring; lra).
    pose proof (Rabs_pos z). pose proof (Rabs_pos c).
    assert (zz : z * z <= (Rabs c + e) * (Rabs c + e)) by (rewrite <- (Rabs_pos_eq (z * z)) by nra; rewrite Rabs_mult; apply Rmult_le_compat; lra).
    assert (cc : Rabs c * Rabs c = c * c) by (rewrite <- Rabs_mult; apply Rabs_pos_eq; nra).
    assert (ce : Rabs c * e <= e) by nra. assert (ee : e * e <= 4 / 25 * e) by nra. nra. }
  assert (X1 : Rabs x < 1).
  { pose proof (B x D) as Bx. assert (P4 : 0 < 4 / 5 * s * (4 / 5 * s)) by (apply Rmult_lt_0_compat; lra). apply Rabs_def1; nra. }
  split; [|exact X1]. apply Rabs_def2 in C1. apply Rabs_def2 in X1. apply Rabs_le_inv in D.
  assert (F : forall d, 0 <= d <= e -> d / (4 / 5 * s) <= 5 / 4 * e / s).
  { intros d [d0 d1]. replace (d / (4 / 5 * s)) with (5 / 4 * d / s) by (field; lra). apply Rmult_le_compat_r; [left; apply Rinv_0_lt_compat; lra|lra]. }
  destruct (Rtotal_order x c) as [H|[H|H]].
  - rewrite Rabs_minus_sym. eapply Rle_trans; [apply (acos_lip x c (4 / 5 * s)); try lra|apply F; lra]. intros z Hz. apply B. apply Rabs_le. lra.
  - subst x. rewrite Rminus_diag_eq, Rabs_R0 by reflexivity. eapply Rle_trans; [|apply (F 0); lra]. unfold Rdiv. lra.
  - eapply Rle_trans; [apply (acos_lip c x (4 / 5 * s)); try lra|apply F; lra]. intros z Hz. apply B. apply Rabs_le. lra.
Qed.

(** Near one the arc cosine is small. *)
Lemma acos_small x r : 0 < r <= / 4096 -> -1 <= x <= 1 -> 1 - x <= 350 * (r * r) -> acos x <= 27 * r.
Proof.
  intros R0 X H. apply Rnot_lt_le. intros N. pose proof (acos_bound x) as AB. pose proof PI_RGT_0 as P0.
  assert (RP : 27 * r <= PI) by lra.
  assert (C : cos (acos x) < cos (27 * r)) by (apply cos_decreasing_1; lra).
  rewrite cos_acos in C by exact X. destruct (cos_taylor (27 * r) ltac:(lra)) as (_ & U).
  assert (r2 : r * r <= / 4096 * / 4096) by (apply Rmult_le_compat; lra).
  assert (r4 : (r * r) * (r * r) <= (r * r) * (/ 4096 * / 4096)) by (apply Rmult_le_compat_l; nra).
  assert (0 < r * r) by nra.
  replace ((27 * r) ^ 2) with (729 * (r * r)) in U by ring. replace ((27 * r) ^ 4) with (531441 * ((r * r) * (r * r))) in U by ring. lra.
Qed.

(** * The rotation taking the unit vector [A] to the unit vector [B] *)
Section Exact.
Variables (A B : nat -> R).
Hypothesis HA : fnrm 3 A = 1.
Hypothesis HB : fnrm 3 B = 1.
Notation s := (fnrm 3 (rcross A B)).
Notation c := (rdot A B).
Lemma dot_unit : c * c + s * s = 1.
Proof. rewrite len_sq, lagrange, <- !len_sq, HA, HB. ring. Qed.
Lemma dot_le : -1 <= c <= 1.
Proof. pose proof dot_unit as U. pose proof (fnrm_pos 3 (rcross A B)). split; nra. Qed.
Lemma cos_theta : cos (acos c) = c.
Proof. apply cos_acos. exact dot_le. Qed.
Lemma sin_theta : sin (acos c) = s.
Proof.
  rewrite sin_acos by exact dot_le. replace (1 - c²) with (s * s) by (pose proof dot_unit; unfold Rsqr; lra).
  apply sqrt_square, fnrm_pos.
Qed.
Lemma turns_to : 0 < s ->
  let X := rdir (rcross A B) in
  forall i, (i < 3)%nat -> vat (rodrigues (v3 (X 0%nat) (X 1%nat) (X 2%nat)) (acos c) (v3 (A 0%nat) (A 1%nat) (A 2%nat))) i = B i.
Proof.
  intros S X.
  assert (XS : forall i, X i * s = rcross A B i) by (intros i; unfold X, rdir; change (rlength 3 (rcross A B)) with s; field; lra).
  assert (D0 : sum 3 (fun i => (vat (v3 (X 0%nat) (X 1%nat) (X 2%nat)) i * vat (v3 (A 0%nat) (A 1%nat) (A 2%nat)) i)%R) = 0).
  { change (0 + X 0%nat * A 0%nat + X 1%nat * A 1%nat + X 2%nat * A 2%nat = 0).
    apply (Rmult_eq_reg_r s); [|lra].
    replace ((0 + X 0%nat * A 0%nat + X 1%nat * A 1%nat + X 2%nat * A 2%nat) * s)
      with ((X 0%nat * s) * A 0%nat + (X 1%nat * s) * A 1%nat + (X 2%nat * s) * A 2%nat) by ring.
    rewrite !XS. unfold rcross at 1 2 3. ring. }
  assert (AA : A 0%nat * A 0%nat + A 1%nat * A 1%nat + A 2%nat * A 2%nat = 1) by (rewrite <- rdot3, <- len_sq, HA; ring).
  assert (CC : c = A 0%nat * B 0%nat + A 1%nat * B 1%nat + A 2%nat * B 2%nat) by apply rdot3.
  intros i Hi. unfold rodrigues. rewrite D0, cos_theta, sin_theta.
  destruct i as [|[|[|i]]]; [| | |lia]; cbn [vat vget v3 fst snd].
  - change (A 0%nat * c + (X 1%nat * A 2%nat - X 2%nat * A 1%nat) * s + X 0%nat * 0 * (1 - c) = B 0%nat).
    replace (A 0%nat * c + (X 1%nat * A 2%nat - X 2%nat * A 1%nat) * s + X 0%nat * 0 * (1 - c))
      with (A 0%nat * c + (X 1%nat * s) * A 2%nat - (X 2%nat * s) * A 1%nat) by ring.
    rewrite !XS, CC. unfold rcross.
    transitivity (B 0%nat * (A 0%nat * A 0%nat + A 1%nat * A 1%nat + A 2%nat * A 2%nat)); [ring|rewrite AA; ring].
  - change (A 1%nat * c + (X 2%nat * A 0%nat - X 0%nat * A 2%nat) * s + X 1%nat * 0 * (1 - c) = B 1%nat).
    replace (A 1%nat * c + (X 2%nat * A 0%nat - X 0%nat * A 2%nat) * s + X 1%nat * 0 * (1 - c))
      with (A 1%nat * c + (X 2%nat * s) * A 0%nat - (X 0%nat * s) * A 2%nat) by ring.
    rewrite !XS, CC. unfold rcross.
    transitivity (B 1%nat * (A 0%nat * A 0%nat + A 1%nat * A 1%nat + A 2%nat * A 2%nat)); [ring|rewrite AA; ring].
  - change (A 2%nat * c + (X 0%nat * A 1%nat - X 1%nat * A 0%nat) * s + X 2%nat * 0 * (1 - c) = B 2%nat).
    replace (A 2%nat * c + (X 0%nat * A 1%nat - X 1%nat * A 0%nat) * s + X 2%nat * 0 * (1 - c))
      with (A 2%nat * c + (X 0%nat * s) * A 1%nat - (X 1%nat * s) * A 0%nat) by ring.
    rewrite !XS, CC. unfold rcross.
    transitivity (B 2%nat * (A 0%nat * A 0%nat + A 1%nat * A 1%nat + A 2%nat * A 2%nat)); [ring|rewrite AA; ring].
Qed.
Lemma diff_len : fnrm 3 (fun i => B i - A i) * fnrm 3 (fun i => B i - A i) = 2 * (1 - c).
Proof.
  rewrite len_sq. replace (rdot (fun i => B i - A i) (fun i => B i - A i)) with (rdot A A + rdot B B - 2 * c) by (rewrite !rdot3; ring).
  rewrite <- !len_sq, HA, HB. ring.
Qed.
End Exact.
