(** Real lemmas for C137: angles of perturbed points. *)

From Coq Require Import Arith ZArith Bool Lia Reals Lra Psatz.
From Verif Require Import Base Scalar Spec SpecAng LBetw LSlerpW LDegF.
Local Open Scope R_scope.

Lemma atan_le x : Rabs (atan x) <= Rabs x.
Proof.
  assert (P : forall z, 0 < z -> 0 < atan z <= z).
  { intros z Z. split; [rewrite <- atan_0; apply atan_increasing; exact Z|].
    destruct (MVT_cor2 atan (fun c => / (1 + c ^ 2)) 0 z Z) as (c & E & C); [intros; apply derivable_pt_lim_atan|].
    rewrite atan_0, !Rminus_0_r in E. rewrite E. assert (Q : / (1 + c ^ 2) <= 1).
    { rewrite <- Rinv_1 at 2. apply Rinv_le_contravar; [lra|]. nra. }
    assert (/ (1 + c ^ 2) * z <= 1 * z) by (apply Rmult_le_compat_r; lra). lra. }
  destruct (Rtotal_order 0 x) as [H|[<-|H]].
  - specialize (P x H). rewrite !Rabs_pos_eq by lra. lra.
  - rewrite atan_0. lra.
  - specialize (P (- x) ltac:(lra)). rewrite atan_opp in P. rewrite !Rabs_left by lra. lra.
Qed.

Lemma cos_shift t (k : Z) : (k = -1 \/ k = 0 \/ k = 1)%Z -> cos (t - IZR k * (2 * PI)) = cos t /\ sin (t - IZR k * (2 * PI)) = sin t.
Proof.
  intros [->|[->| ->]].
  - replace (t - -1 * (2 * PI)) with (t + 2 * PI) by ring. rewrite cos_plus, sin_plus, cos_2PI, sin_2PI. split; ring.
  - replace (t - 0 * (2 * PI)) with t by ring. split; reflexivity.
  - replace (t - 1 * (2 * PI)) with (t - 2 * PI) by ring. rewrite cos_minus, sin_minus, cos_2PI, sin_2PI. split; ring.
Qed.

Lemma unit_comb a x y e : 0 <= e -> Rabs x <= e -> Rabs y <= e -> Rabs (x * cos a + y * sin a) <= 3 / 2 * e.
Proof.
  intros E X Y. pose proof (sin2_cos2 a) as P. unfold Rsqr in P.
  assert (Q : (x * cos a + y * sin a) * (x * cos a + y * sin a) <= 2 * (e * e)).
  { assert (X2 : x * x <= e * e) by (revert X; unfold Rabs; destruct (Rcase_abs x); nra).
    assert (Y2 : y * y <= e * e) by (revert Y; unfold Rabs; destruct (Rcase_abs y); nra).
    assert ((x * cos a + y * sin a) * (x * cos a + y * sin a) + (x * sin a - y * cos a) * (x * sin a - y * cos a) = x * x + y * y) by nra.
    pose proof (Rle_0_sqr (x * sin a - y * cos a)) as Z. unfold Rsqr in Z. lra. }
  apply Rabs_le. split; nra.
Qed.

Lemma polar_pert a rho e x y phi : 0 < rho -> 0 <= e -> 8 * e <= rho -> - PI <= a <= PI -> - PI <= phi <= PI ->
  Rabs (x - rho * cos a) <= e -> Rabs (y - rho * sin a) <= e -> polar_angle y x phi ->
  exists k : Z, Rabs (phi - (a + IZR k * (2 * PI))) <= 2 * e / rho /\ (Rabs a + 2 * e / rho < PI -> k = 0%Z).
Proof.
  intros R0 E0 E8 A F X Y (s & S0 & -> & ->). pose proof PI_RGT_0 as P0.
  assert (K : exists k : Z, (k = -1 \/ k = 0 \/ k = 1)%Z /\ - PI <= phi - a - IZR k * (2 * PI) <= PI).
  { destruct (Rle_dec (phi - a) PI) as [U|U]; [destruct (Rle_dec (- PI) (phi - a)) as [V|V]|].
    - exists 0%Z. split; [auto|lra].
    - exists (-1)%Z. split; [auto|]. lra.
    - exists 1%Z. split; [auto|lra]. }
  destruct K as (k & K & T). set (t := phi - a - IZR k * (2 * PI)) in *. exists k.
  destruct (cos_shift (phi - a) k K) as (C & D). fold t in C, D. rewrite cos_minus in C. rewrite sin_minus in D.
  assert (C1 : Rabs (s * cos t - rho) <= 3 / 2 * e).
  { rewrite C. pose proof (sin2_cos2 a) as P. unfold Rsqr in P.
    replace (s * (cos phi * cos a + sin phi * sin a) - rho) with ((s * cos phi - rho * cos a) * cos a + (s * sin phi - rho * sin a) * sin a).
    - apply unit_comb; assumption.
    - transitivity (s * (cos phi * cos a + sin phi * sin a) - rho * (sin a * sin a + cos a * cos a)); [ring|rewrite P; ring]. }
  assert (D1 : Rabs (s * sin t) <= 3 / 2 * e).
  { rewrite D. replace (s * (sin phi * cos a - cos phi * sin a)) with ((s * cos phi - rho * cos a) * cos (a + PI / 2) + (s * sin phi - rho * sin a) * sin (a + PI / 2)).
    - apply unit_comb; assumption.
    - rewrite cos_plus, sin_plus, cos_PI2, sin_PI2. ring. }
  assert (G : 13 / 16 * rho <= s * cos t) by (revert C1; unfold Rabs; destruct (Rcase_abs (s * cos t - rho)); lra).
  assert (CP : 0 < cos t) by (apply Rnot_le_lt; intros N; assert (s * cos t <= s * 0) by (apply Rmult_le_compat_l; lra); lra).
  assert (TB : - (PI / 2) < t < PI / 2).
  { split; apply Rnot_le_lt; intros N.
    - assert (cos t <= 0); [|lra]. rewrite <- cos_neg. apply cos_le_0; lra.
    - assert (cos t <= 0); [|lra]. apply cos_le_0; lra. }
  assert (B : Rabs t <= 2 * e / rho).
  { rewrite <- (atan_tan t TB). eapply Rle_trans; [apply atan_le|]. unfold tan.
    replace (sin t / cos t) with (s * sin t / (s * cos t)) by (field; lra). unfold Rdiv. rewrite Rabs_mult, (Rabs_pos_eq (/ _)) by (left; apply Rinv_0_lt_compat; lra).
    apply Rle_trans with (3 / 2 * e * / (13 / 16 * rho)).
    - apply Rmult_le_compat; [apply Rabs_pos|left; apply Rinv_0_lt_compat; lra|exact D1|apply Rinv_le_contravar; lra].
    - apply Rmult_le_reg_r with rho; [exact R0|]. replace (3 / 2 * e * / (13 / 16 * rho) * rho) with (24 / 13 * e) by (field; lra).
      replace (2 * e * / rho * rho) with (2 * e) by (field; lra). lra. }
  split; [replace (phi - (a + IZR k * (2 * PI))) with t by (unfold t; ring); exact B|].
  intros H. assert (AT : Rabs phi <= PI) by (apply Rabs_le; lra).
  destruct K as [->|[->| ->]]; [|reflexivity|]; exfalso; unfold t in B;
    revert B H; unfold Rabs; destruct (Rcase_abs a); destruct (Rcase_abs (phi - a - _)); lra.
Qed.
Lemma asin_pert x b e : 0 < cos b -> - (PI / 2) <= b <= PI / 2 -> 0 <= e -> Rabs (x - sin b) <= e -> 25 * e <= 4 * (cos b * cos b) ->
  Rabs (asin x - b) <= 5 / 4 * e / cos b /\ Rabs x < 1.
Proof.
  intros C B E X Q. pose proof (sin2_cos2 b) as P. unfold Rsqr in P.
  destruct (acos_pert x (sin b) (cos b) e C P E X Q) as (D & L). split; [|exact L].
  assert (L' : -1 <= x <= 1) by (revert L; unfold Rabs; destruct (Rcase_abs x); lra).
  assert (A1 : asin x = PI / 2 - acos x) by (rewrite acos_asin by exact L'; ring).
  assert (A2 : acos (sin b) = PI / 2 - b) by (pose proof (SIN_bound b) as SB; rewrite acos_asin by lra; rewrite asin_sin by exact B; reflexivity).
  rewrite A1. rewrite A2 in D. rewrite <- Rabs_Ropp. replace (- (PI / 2 - acos x - b)) with (acos x - (PI / 2 - b)) by ring. exact D.
Qed.
