(** Taylor bounds of arctangent, sine and cosine at small arguments, and rounding to a given double. *)

From Coq Require Import ZArith Reals Lia Lra.
From Flocq Require Import Core.Core.
Local Open Scope R_scope.

Lemma atan_taylor x : 0 < x -> x - x ^ 3 / 3 <= atan x <= x - x ^ 3 / 3 + x ^ 5 / 5.
Proof.
  intros X.
  assert (D3 : forall c, derivable_pt_lim (fun t => t ^ 3) c (3 * c ^ 2)).
  { intros c. replace (3 * c ^ 2) with (INR 3 * c ^ Nat.pred 3) by (cbn; ring). exact (derivable_pt_lim_pow c 3). }
  assert (D5 : forall c, derivable_pt_lim (fun t => t ^ 5) c (5 * c ^ 4)).
  { intros c. replace (5 * c ^ 4) with (INR 5 * c ^ Nat.pred 5) by (cbn; ring). exact (derivable_pt_lim_pow c 5). }
  assert (DA : forall c, derivable_pt_lim (fun t => atan t - (t - / 3 * t ^ 3)) c (/ (1 + c ^ 2) - (1 - / 3 * (3 * c ^ 2)))).
  { intros c. apply (derivable_pt_lim_minus atan (fun t => t - / 3 * t ^ 3)).
    - apply derivable_pt_lim_atan.
    - apply (derivable_pt_lim_minus id (fun t => / 3 * t ^ 3)); [apply derivable_pt_lim_id|].
      apply (derivable_pt_lim_scal (fun t => t ^ 3)), D3. }
  assert (DB : forall c, derivable_pt_lim (fun t => (atan t - (t - / 3 * t ^ 3)) - / 5 * t ^ 5) c ((/ (1 + c ^ 2) - (1 - / 3 * (3 * c ^ 2))) - / 5 * (5 * c ^ 4))).
  { intros c. apply (derivable_pt_lim_minus (fun t => atan t - (t - / 3 * t ^ 3)) (fun t => / 5 * t ^ 5)); [apply DA|].
    apply (derivable_pt_lim_scal (fun t => t ^ 5)), D5. }
  destruct (MVT_cor2 _ _ 0 x X (fun c _ => DA c)) as (c & E & C). destruct (MVT_cor2 _ _ 0 x X (fun c _ => DB c)) as (d & E' & D).
  cbv beta in E, E'. rewrite atan_0 in E, E'.
  assert (P : forall c, 0 < c -> 0 < 1 + c ^ 2) by (intros k K; nra).
  assert (Q1 : / (1 + c ^ 2) - (1 - / 3 * (3 * c ^ 2)) = c ^ 4 / (1 + c ^ 2)) by (field; specialize (P c ltac:(lra)); lra).
  assert (Q2 : (/ (1 + d ^ 2) - (1 - / 3 * (3 * d ^ 2))) - / 5 * (5 * d ^ 4) = - (d ^ 6 / (1 + d ^ 2))) by (field; specialize (P d ltac:(lra)); lra).
  rewrite Q1 in E. rewrite Q2 in E'.
  assert (0 <= c ^ 4 / (1 + c ^ 2)).
  { apply Rmult_le_pos; [apply pow_le; lra|]. left. apply Rinv_0_lt_compat, P. lra. }
  assert (0 <= d ^ 6 / (1 + d ^ 2)).
  { apply Rmult_le_pos; [apply pow_le; lra|]. left. apply Rinv_0_lt_compat, P. lra. }
  assert (0 <= c ^ 4 / (1 + c ^ 2) * (x - 0)) by (apply Rmult_le_pos; lra).
  assert (0 <= d ^ 6 / (1 + d ^ 2) * (x - 0)) by (apply Rmult_le_pos; lra).
  split; lra.
Qed.

Lemma sin_taylor x : 0 <= x <= 1 -> x - x ^ 3 / 6 <= sin x <= x.
Proof.
  intros X. pose proof (pre_sin_bound x 0 ltac:(lra) ltac:(lra)) as (A & _).
  split.
  - eapply Rle_trans; [|exact A]. unfold sin_approx, sin_term. cbn. right. field.
  - destruct X as ([X|X] & _); [left; apply sin_lt_x, X|rewrite <- X, sin_0; lra].
Qed.
Lemma cos_taylor x : 0 <= x <= 1 -> 1 - x ^ 2 / 2 <= cos x <= 1 - x ^ 2 / 2 + x ^ 4 / 24.
Proof.
  intros X. pose proof (pre_cos_bound x 0 ltac:(lra) ltac:(lra)) as (A & B).
  split.
  - eapply Rle_trans; [|exact A]. unfold cos_approx, cos_term. cbn. right. field.
  - eapply Rle_trans; [exact B|]. unfold cos_approx, cos_term. cbn. right. field.
Qed.

(** A number nearer to [m 2^(k-53)] than half a unit rounds to it. *)
Lemma rnd64 x k m : (-1021 <= k)%Z -> bpow radix2 (k - 1) <= Rabs x < bpow radix2 k -> Rabs (x * bpow radix2 (53 - k) - IZR m) < / 2 ->
  round radix2 (FLT_exp (3 - 1024 - 53) 53) ZnearestE x = IZR m * bpow radix2 (k - 53).
Proof.
  intros K B H. unfold round, F2R, scaled_mantissa, cexp. rewrite (mag_unique radix2 x k B). unfold FLT_exp.
  rewrite Z.max_l by lia. cbn [Fnum Fexp]. f_equal. f_equal. apply Znearest_imp.
  replace (- (k - 53))%Z with (53 - k)%Z by lia. exact H.
Qed.
