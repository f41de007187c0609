(** Lengths, square roots and logarithms of complex numbers under perturbation (reals only). *)

From Coq Require Import Reals Lra Psatz.
From Flocq Require Import Core.Raux.
From Verif Require Import SpecInv MReal LReal.
Local Open Scope R_scope.

Lemma ssq x y : 0 <= x * x + y * y.
Proof. pose proof (Rle_0_sqr x). pose proof (Rle_0_sqr y). unfold Rsqr in *. lra. Qed.
Lemma nm_sq x y : nm x y * nm x y = x * x + y * y.
Proof. apply sqrt_sqrt, ssq. Qed.
Lemma nm_pos x y : 0 <= nm x y.
Proof. apply sqrt_pos. Qed.
Lemma nm_le x y c : 0 <= c -> x * x + y * y <= c * c -> nm x y <= c.
Proof. intros C H. apply Rsqr_incr_0; [|apply nm_pos|exact C]. unfold Rsqr. rewrite nm_sq. exact H. Qed.
Lemma nm_ge x y c : 0 <= c -> c * c <= x * x + y * y -> c <= nm x y.
Proof. intros C H. apply Rsqr_incr_0; [|exact C|apply nm_pos]. unfold Rsqr. rewrite nm_sq. exact H. Qed.
Lemma nm_gt x y : (x <> 0 \/ y <> 0) -> 0 < nm x y.
Proof. intros H. apply sqrt_lt_R0. pose proof (Rle_0_sqr x). pose proof (Rle_0_sqr y). unfold Rsqr in *. destruct H as [H|H]; pose proof (Rsqr_pos_lt _ H); unfold Rsqr in *; lra. Qed.
Lemma nm_x x y : Rabs x <= nm x y.
Proof. apply nm_ge; [apply Rabs_pos|]. rewrite <- Rabs_mult, Rabs_pos_eq by apply Rle_0_sqr. pose proof (Rle_0_sqr y). unfold Rsqr in *. lra. Qed.
Lemma nm_y x y : Rabs y <= nm x y.
Proof. apply nm_ge; [apply Rabs_pos|]. rewrite <- Rabs_mult, Rabs_pos_eq by apply Rle_0_sqr. pose proof (Rle_0_sqr x). unfold Rsqr in *. lra. Qed.
Lemma abs_sq x : Rabs x * Rabs x = x * x.
Proof. rewrite <- Rabs_mult. apply Rabs_pos_eq, Rle_0_sqr. Qed.
Lemma nm_xy x y : nm x y <= Rabs x + Rabs y.
Proof. pose proof (Rabs_pos x). pose proof (Rabs_pos y). apply nm_le; [lra|]. rewrite <- (abs_sq x), <- (abs_sq y). nra. Qed.
Lemma nm_opp x y : nm (- x) (- y) = nm x y.
Proof. unfold nm. f_equal. ring. Qed.
Lemma nm_mul a b c d : nm (a * c - b * d) (a * d + b * c) = nm a b * nm c d.
Proof. unfold nm. rewrite <- sqrt_mult by apply ssq. f_equal. ring. Qed.
Lemma nm_tri x y x' y' : nm (x + x') (y + y') <= nm x y + nm x' y'.
Proof.
  pose proof (nm_pos x y) as P. pose proof (nm_pos x' y') as P'. pose proof (nm_sq x y) as Q. pose proof (nm_sq x' y') as Q'.
  assert (C : x * x' + y * y' <= nm x y * nm x' y').
  { destruct (Rle_or_lt (x * x' + y * y') 0) as [N|N]; [pose proof (Rmult_le_pos _ _ P P'); lra|].
    apply Rsqr_incr_0; [|lra|apply Rmult_le_pos; assumption]. unfold Rsqr.
    replace (nm x y * nm x' y' * (nm x y * nm x' y')) with ((nm x y * nm x y) * (nm x' y' * nm x' y')) by ring. rewrite Q, Q'.
    pose proof (Rle_0_sqr (x * y' - y * x')). unfold Rsqr in *. lra. }
  apply nm_le; [lra|]. lra.
Qed.
Lemma nm_0 : nm 0 0 = 0.
Proof. unfold nm. replace (0 * 0 + 0 * 0) with 0 by ring. apply sqrt_0. Qed.

(** Two numbers in the same closed quadrant. *)
Lemma quadrant a b c d : 0 <= a -> 0 <= c -> 0 <= b * d -> nm a b * nm a b + nm c d * nm c d <= nm (a + c) (b + d) * nm (a + c) (b + d).
Proof. intros A C B. rewrite !nm_sq. pose proof (Rmult_le_pos _ _ A C). lra. Qed.
Lemma quadrant_le a b c d : 0 <= a -> 0 <= c -> 0 <= b * d -> nm a b <= nm (a + c) (b + d) /\ nm c d <= nm (a + c) (b + d).
Proof.
  intros A C B. pose proof (quadrant a b c d A C B) as Q. split; (apply Rsqr_incr_0; [unfold Rsqr|apply nm_pos|apply nm_pos]).
  - pose proof (Rle_0_sqr (nm c d)). unfold Rsqr in *. lra.
  - pose proof (Rle_0_sqr (nm a b)). unfold Rsqr in *. lra.
Qed.

(** Square roots in the same quadrant. *)
Lemma root_pert a b a' b' e : 0 <= a -> 0 <= a' -> 0 <= b * b' ->
  nm ((a' * a' - b' * b') - (a * a - b * b)) (2 * a' * b' - 2 * a * b) <= e -> nm (a' - a) (b' - b) * nm a b <= e.
Proof.
  intros A A' B E. destruct (quadrant_le a b a' b' A A' B) as (Q & _).
  apply Rle_trans with (nm (a' - a) (b' - b) * nm (a + a') (b + b')); [apply Rmult_le_compat_l; [apply nm_pos|exact Q]|].
  rewrite <- nm_mul. eapply Rle_trans; [|exact E]. right. f_equal; ring.
Qed.

Lemma atan_le x : 0 <= x -> atan x <= x.
Proof.
  intros X. destruct (Req_dec x 0) as [->|N]; [rewrite atan_0; lra|].
  destruct (MVT_cor2 atan (fun t => / (1 + t ^ 2)) 0 x) as (c & E & C); [lra|intros; apply derivable_pt_lim_atan|].
  rewrite atan_0 in E. assert (0 < 1 + c ^ 2) by nra. assert (/ (1 + c ^ 2) <= 1) by (rewrite <- Rinv_1; apply Rinv_le_contravar; nra). nra.
Qed.

(** Lengths and angles of nearby numbers. *)
Lemma polar_pert r phi r' phi' rho : 0 < r -> 0 <= r' -> 0 <= rho <= / 100 -> Rabs (phi' - phi) <= 3 * (PI / 2) ->
  nm (r' * cos phi' - r * cos phi) (r' * sin phi' - r * sin phi) <= rho * r ->
  Rabs (r' - r) <= rho * r /\ Rabs (phi' - phi) <= 11 / 10 * rho.
Proof.
  intros P P' HR A N. assert (RR : 0 <= rho * r <= / 100 * r) by (split; [apply Rmult_le_pos; lra|apply Rmult_le_compat_r; lra]).
  set (t := phi' - phi) in *. assert (Ep : phi' = phi + t) by (unfold t; ring).
  assert (Q : (r' * cos t - r) * (r' * cos t - r) + (r' * sin t) * (r' * sin t) <= rho * r * (rho * r)).
  { pose proof (nm_sq (r' * cos phi' - r * cos phi) (r' * sin phi' - r * sin phi)) as Q1.
    assert (Q2 : nm (r' * cos phi' - r * cos phi) (r' * sin phi' - r * sin phi) * nm (r' * cos phi' - r * cos phi) (r' * sin phi' - r * sin phi) <= rho * r * (rho * r)) by (apply Rmult_le_compat; try apply nm_pos; exact N).
    rewrite Q1, Ep, cos_plus, sin_plus in Q2. pose proof (sin2_cos2 phi) as S1. pose proof (sin2_cos2 t) as S2. unfold Rsqr in *.
    replace ((r' * cos t - r) * (r' * cos t - r) + r' * sin t * (r' * sin t)) with
      ((r' * cos t - r) * (r' * cos t - r) * (sin phi * sin phi + cos phi * cos phi) + r' * sin t * (r' * sin t) * (sin phi * sin phi + cos phi * cos phi)) by (rewrite S1; ring).
    eapply Rle_trans; [|exact Q2]. right. ring. }
  assert (X : Rabs (r' * cos t - r) <= rho * r).
  { apply Rsqr_incr_0; [|apply Rabs_pos|lra]. unfold Rsqr. rewrite abs_sq. pose proof (Rle_0_sqr (r' * sin t)). unfold Rsqr in *. lra. }
  assert (Y : Rabs (r' * sin t) <= rho * r).
  { apply Rsqr_incr_0; [|apply Rabs_pos|lra]. unfold Rsqr. rewrite abs_sq. pose proof (Rle_0_sqr (r' * cos t - r)). unfold Rsqr in *. lra. }
  apply Rabs_le_inv in X. assert (C0 : 0 < cos t) by (destruct (Rle_or_lt (cos t) 0) as [H|H]; [|exact H]; exfalso; assert (r' * cos t <= r' * 0) by (apply Rmult_le_compat_l; lra); lra).
  split.
  - pose proof (COS_bound t) as CB. pose proof (sin2_cos2 t) as S2. unfold Rsqr in S2.
    assert (E : (r' - r) * (r' - r) <= rho * r * (rho * r)).
    { eapply Rle_trans; [|exact Q]. assert (0 <= 2 * (r' * r) * (1 - cos t)) by (apply Rmult_le_pos; [apply Rmult_le_pos; [lra|apply Rmult_le_pos; lra]|lra]).
      replace ((r' * cos t - r) * (r' * cos t - r) + r' * sin t * (r' * sin t)) with (r' * r' * (sin t * sin t + cos t * cos t) - 2 * (r' * r) * cos t + r * r) by ring. rewrite S2. lra. }
    apply Rsqr_incr_0; [|apply Rabs_pos|lra]. unfold Rsqr. rewrite abs_sq. exact E.
  - assert (T : Rabs t < PI / 2).
    { destruct (Rlt_or_le (Rabs t) (PI / 2)) as [H|H]; [exact H|]. exfalso. pose proof (cos_le_0 (Rabs t) H ltac:(lra)) as CL.
      assert (cos (Rabs t) = cos t) by (unfold Rabs; destruct (Rcase_abs t); [apply cos_neg|reflexivity]). lra. }
    assert (CA : cos (Rabs t) = cos t) by (unfold Rabs; destruct (Rcase_abs t); [apply cos_neg|reflexivity]).
    assert (SA : Rabs (sin t) = sin (Rabs t)).
    { unfold Rabs at 2. destruct (Rcase_abs t) as [H|H].
      - rewrite sin_neg. apply Rabs_left1. rewrite <- (Ropp_involutive t), sin_neg. rewrite Rabs_left in T by exact H. pose proof (sin_ge_0 (- t) ltac:(lra) ltac:(pose proof PI_RGT_0; lra)). lra.
      - apply Rabs_pos_eq. rewrite Rabs_right in T by exact H. apply sin_ge_0; pose proof PI_RGT_0; lra. }
    assert (TT : tan (Rabs t) <= 11 / 10 * rho).
    { unfold tan. rewrite CA, <- SA. apply (Rmult_le_reg_r (cos t)); [exact C0|]. unfold Rdiv. rewrite Rmult_assoc, Rinv_l by lra. rewrite Rmult_1_r.
      rewrite Rabs_mult, (Rabs_pos_eq r') in Y by lra. assert (RP : 0 < r') by (destruct P' as [H|<-]; [exact H|]; rewrite Rmult_0_l in X; lra).
      apply (Rmult_le_reg_l r'); [exact RP|]. eapply Rle_trans; [exact Y|].
      replace (r' * (11 * / 10 * rho * cos t)) with (11 / 10 * rho * (r' * cos t)) by field.
      apply Rle_trans with (11 / 10 * rho * (r - rho * r)); [|apply Rmult_le_compat_l; lra]. nra. }
    pose proof (Rabs_pos t) as T0. rewrite <- (atan_tan (Rabs t)) by lra.
    apply Rle_trans with (tan (Rabs t)); [|exact TT]. apply atan_le. destruct T0 as [T0|<-]; [left; apply tan_gt_0; lra|rewrite tan_0; lra].
Qed.

(** Polar coordinates. *)
Lemma polar x y : x = nm x y * cos (ratan2 y x) /\ y = nm x y * sin (ratan2 y x).
Proof. destruct (ratan2_spec x y) as (C & S). unfold nm. split; symmetry; assumption. Qed.
Lemma arg_right x y : 0 <= x -> (x <> 0 \/ y <> 0) -> - (PI / 2) <= ratan2 y x <= PI / 2.
Proof.
  intros X N. destruct (polar x y) as (C & S). pose proof (ratan2_range x y) as RG. pose proof (nm_gt x y N) as P. set (t := ratan2 y x) in *.
  assert (C0 : 0 <= cos t) by (destruct (Rle_or_lt 0 (cos t)) as [H|H]; [exact H|]; exfalso; pose proof (Rmult_lt_compat_l _ _ _ P H); lra).
  split.
  - destruct (Rle_or_lt (- (PI / 2)) t) as [H|H]; [exact H|]. exfalso. pose proof (cos_lt_0 (- t) ltac:(lra) ltac:(lra)) as CL. rewrite cos_neg in CL. lra.
  - destruct (Rle_or_lt t (PI / 2)) as [H|H]; [exact H|]. exfalso. pose proof (cos_lt_0 t ltac:(lra) ltac:(lra)) as CL. lra.
Qed.
Lemma arg_up x y : 0 <= y -> (x <> 0 \/ y <> 0) -> 0 <= ratan2 y x <= PI.
Proof.
  intros Y N. destruct (polar x y) as (C & S). pose proof (ratan2_range x y) as RG. pose proof (nm_gt x y N) as P. set (t := ratan2 y x) in *.
  split; [|lra]. destruct (Rle_or_lt 0 t) as [H|H]; [exact H|]. exfalso. pose proof (sin_lt_0_var t ltac:(lra) H) as SL. pose proof (Rmult_lt_compat_l _ _ _ P SL). lra.
Qed.
Lemma arg_down x y : y < 0 -> - PI < ratan2 y x < 0.
Proof.
  intros Y. destruct (polar x y) as (C & S). pose proof (ratan2_range x y) as RG. pose proof (nm_gt x y ltac:(right; lra)) as P. set (t := ratan2 y x) in *.
  split; [lra|]. destruct (Rlt_or_le t 0) as [H|H]; [exact H|]. exfalso. pose proof (sin_ge_0 t H ltac:(lra)) as SL. pose proof (Rmult_le_pos _ _ (Rlt_le _ _ P) SL). lra.
Qed.

(** The principal square root. *)
Definition rt_re (x y : R) : R := sqrt (nm x y) * cos (ratan2 y x / 2).
Definition rt_im (x y : R) : R := sqrt (nm x y) * sin (ratan2 y x / 2).
Lemma rt_sq x y : rt_re x y * rt_re x y - rt_im x y * rt_im x y = x /\ 2 * rt_re x y * rt_im x y = y.
Proof.
  unfold rt_re, rt_im. destruct (polar x y) as (C & S). set (t := ratan2 y x) in *. pose proof (sqrt_sqrt (nm x y) (nm_pos x y)) as Q.
  assert (W : 2 * (t / 2) = t) by field. pose proof (cos_2a (t / 2)) as C2. pose proof (sin_2a (t / 2)) as S2. rewrite W in C2, S2. split.
  - transitivity (nm x y * cos t); [|symmetry; exact C]. rewrite C2. transitivity ((sqrt (nm x y) * sqrt (nm x y)) * (cos (t / 2) * cos (t / 2) - sin (t / 2) * sin (t / 2))); [ring|rewrite Q; ring].
  - transitivity (nm x y * sin t); [|symmetry; exact S]. rewrite S2. transitivity ((sqrt (nm x y) * sqrt (nm x y)) * (2 * sin (t / 2) * cos (t / 2))); [ring|rewrite Q; ring].
Qed.
Lemma rt_re_pos x y : 0 <= rt_re x y.
Proof. pose proof (ratan2_range x y) as RG. apply Rmult_le_pos; [apply sqrt_pos|apply cos_ge_0; lra]. Qed.
Lemma rt_nm x y : nm (rt_re x y) (rt_im x y) = sqrt (nm x y).
Proof.
  unfold rt_re, rt_im. unfold nm at 1. transitivity (sqrt (sqrt (nm x y) * sqrt (nm x y))); [|apply sqrt_square, sqrt_pos]. f_equal. pose proof (sin2_cos2 (ratan2 y x / 2)) as S. unfold Rsqr in S.
  rewrite <- (Rmult_1_r (sqrt (nm x y) * sqrt (nm x y))), <- S. ring.
Qed.
Lemma rt_im_up x y : 0 <= y -> 0 <= rt_im x y.
Proof.
  intros Y. apply Rmult_le_pos; [apply sqrt_pos|]. pose proof PI_RGT_0. destruct (Req_dec x 0) as [->|X].
  - destruct (Req_dec y 0) as [->|N]; [|pose proof (arg_up 0 y Y (or_intror N)); apply sin_ge_0; lra].
    unfold ratan2. repeat destruct Rlt_dec; try lra. replace (0 / 2) with 0 by field. rewrite sin_0. lra.
  - pose proof (arg_up x y Y (or_introl X)). apply sin_ge_0; lra.
Qed.
Lemma rt_im_down x y : y < 0 -> rt_im x y <= 0.
Proof.
  intros Y. pose proof (arg_down x y Y) as A. unfold rt_im. pose proof (sin_ge_0 (- (ratan2 y x / 2)) ltac:(lra) ltac:(lra)) as S. rewrite sin_neg in S.
  pose proof (Rmult_le_pos _ _ (sqrt_pos (nm x y)) S). lra.
Qed.
Lemma rt_sign x y x' y' : 0 < y * y' \/ (y = 0 /\ y' = 0) -> 0 <= rt_im x y * rt_im x' y'.
Proof.
  intros [H|(-> & ->)]; [|apply Rmult_le_pos; apply rt_im_up; lra]. destruct (Rlt_or_le y 0) as [Y|Y].
  - assert (Y' : y' < 0) by (destruct (Rlt_or_le y' 0) as [Q|Q]; [exact Q|]; pose proof (Rmult_le_pos (- y) y' ltac:(lra) Q); lra).
    pose proof (rt_im_down x y Y) as A. pose proof (rt_im_down x' y' Y') as B. pose proof (Rmult_le_pos (- rt_im x y) (- rt_im x' y') ltac:(lra) ltac:(lra)). lra.
  - assert (Y' : 0 <= y') by (destruct (Rle_or_lt 0 y') as [Q|Q]; [exact Q|]; pose proof (Rmult_le_pos y (- y') Y ltac:(lra)); lra). apply Rmult_le_pos; apply rt_im_up; assumption.
Qed.
