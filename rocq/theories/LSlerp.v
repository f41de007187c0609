(** The weights of interpolation along a great circle as functions of the cosine of the angle. *)

From Coq Require Import Reals Lra Psatz.
Local Open Scope R_scope.

(** sin x >= x cos x. *)
Lemma nondecreasing (f f' : R -> R) a b : a <= b -> (forall c, a <= c <= b -> derivable_pt_lim f c (f' c)) ->
  (forall c, a < c < b -> 0 <= f' c) -> f a <= f b.
Proof.
  intros [L| ->] D P; [|lra]. destruct (MVT_cor2 f f' a b L D) as (c & E & C). specialize (P c C).
  assert (0 <= f' c * (b - a)) by (apply Rmult_le_pos; lra). lra.
Qed.
Lemma sin_xcos x : 0 <= x <= PI -> x * cos x <= sin x.
Proof.
  intros H. assert (E : (fun x => sin x - x * cos x) 0 <= (fun x => sin x - x * cos x) x).
  { apply (nondecreasing (fun x => sin x - x * cos x) (fun x => x * sin x)); [lra| |].
    - intros c C. replace (c * sin c) with (cos c - (1 * cos c + c * (- sin c))) by ring.
      apply derivable_pt_lim_minus; [apply derivable_pt_lim_sin|]. apply derivable_pt_lim_mult; [apply derivable_pt_lim_id|apply derivable_pt_lim_cos].
    - intros c C. apply Rmult_le_pos; [lra|]. apply sin_ge_0; lra. }
  cbv beta in E. rewrite sin_0 in E. lra.
Qed.
Lemma sin_lower x : 0 <= x <= PI -> x * (1 + cos x) / 2 <= sin x.
Proof.
  intros H. replace x with (2 * (x / 2)) by field. rewrite sin_2a, cos_2a_cos. set (y := x / 2).
  assert (Y : 0 <= y <= PI / 2) by (unfold y; lra). pose proof (sin_xcos y ltac:(lra)) as S. pose proof (cos_ge_0 y ltac:(lra) ltac:(lra)) as C.
  assert (y * cos y * cos y <= sin y * cos y) by (apply Rmult_le_compat_r; assumption). lra.
Qed.

Section Weight.
Variable t : R.
Hypothesis Ht : 0 <= t <= 1.

Lemma d_sin_t c : derivable_pt_lim (fun x => sin (t * x)) c (t * cos (t * c)).
Proof.
  replace (t * cos (t * c)) with (cos (t * c) * t) by ring. apply (derivable_pt_lim_comp (fun x => t * x) sin).
  - replace t with (0 * c + t * 1) at 1 by ring. apply (derivable_pt_lim_mult (fun _ => t) id); [apply derivable_pt_lim_const|apply derivable_pt_lim_id].
  - apply derivable_pt_lim_sin.
Qed.
Lemma d_cos_t c : derivable_pt_lim (fun x => cos (t * x)) c (- (t * sin (t * c))).
Proof.
  replace (- (t * sin (t * c))) with (- sin (t * c) * t) by ring. apply (derivable_pt_lim_comp (fun x => t * x) cos).
  - replace t with (0 * c + t * 1) at 1 by ring. apply (derivable_pt_lim_mult (fun _ => t) id); [apply derivable_pt_lim_const|apply derivable_pt_lim_id].
  - apply derivable_pt_lim_cos.
Qed.
Lemma tx_le x : 0 <= x -> 0 <= t * x <= x.
Proof. intros H. split; [apply Rmult_le_pos; lra|]. assert (t * x <= 1 * x) by (apply Rmult_le_compat_r; lra). lra. Qed.
Lemma sin_le x : 0 <= x -> sin x <= x.
Proof. intros [H| <-]; [left; apply sin_lt_x; exact H|rewrite sin_0; lra]. Qed.

(** The numerator of the derivative of sin (t x) / sin x. *)
Definition num (x : R) : R := t * cos (t * x) * sin x - sin (t * x) * cos x.
Lemma d_num c : derivable_pt_lim num c ((1 - t * t) * (sin (t * c) * sin c)).
Proof.
  replace ((1 - t * t) * (sin (t * c) * sin c)) with
    ((((0 * cos (t * c) + t * (- (t * sin (t * c)))) * sin c + t * cos (t * c) * cos c)) - (t * cos (t * c) * cos c + sin (t * c) * (- sin c))) by ring.
  unfold num. apply (derivable_pt_lim_minus (fun x => t * cos (t * x) * sin x) (fun x => sin (t * x) * cos x)).
  - apply (derivable_pt_lim_mult (fun x => t * cos (t * x)) sin); [|apply derivable_pt_lim_sin].
    apply (derivable_pt_lim_mult (fun _ => t) (fun x => cos (t * x))); [apply derivable_pt_lim_const|apply d_cos_t].
  - apply (derivable_pt_lim_mult (fun x => sin (t * x)) cos); [apply d_sin_t|apply derivable_pt_lim_cos].
Qed.
Lemma num_bound x : 0 <= x <= PI -> 0 <= num x <= x * x * x / 3.
Proof.
  intros H. assert (N0 : num 0 = 0) by (unfold num; rewrite !Rmult_0_r, sin_0, Rmult_0_r; ring).
  assert (P : forall c, 0 < c < x -> 0 <= sin (t * c) * sin c <= c * c).
  { intros c C. pose proof (tx_le c ltac:(lra)) as T. assert (0 <= sin c) by (apply sin_ge_0; lra). assert (0 <= sin (t * c)) by (apply sin_ge_0; lra).
    pose proof (sin_le c ltac:(lra)). pose proof (sin_le (t * c) ltac:(lra)).
    split; [apply Rmult_le_pos; assumption|]. apply Rmult_le_compat; lra. }
  assert (T2 : 0 <= 1 - t * t <= 1) by (split; [|assert (0 <= t * t) by (apply Rmult_le_pos; lra); lra]; assert (t * t <= 1 * 1) by (apply Rmult_le_compat; lra); lra).
  split.
  - rewrite <- N0. apply (nondecreasing num (fun c => (1 - t * t) * (sin (t * c) * sin c))); [lra|intros; apply d_num|].
    intros c C. apply Rmult_le_pos; [lra|]. apply P. exact C.
  - assert (E : (fun x => / 3 * (x * x * x) - num x) 0 <= (fun x => / 3 * (x * x * x) - num x) x).
    { apply (nondecreasing (fun x => / 3 * (x * x * x) - num x) (fun c => (0 * (c * c * c) + / 3 * ((1 * c + c * 1) * c + c * c * 1)) - (1 - t * t) * (sin (t * c) * sin c))); [lra| |].
      - intros c C. apply (derivable_pt_lim_minus (fun x => / 3 * (x * x * x)) num); [|apply d_num].
        apply (derivable_pt_lim_mult (fun _ => / 3) (fun x => x * x * x)); [apply derivable_pt_lim_const|].
        apply (derivable_pt_lim_mult (fun x => x * x) id); [|apply derivable_pt_lim_id].
        apply (derivable_pt_lim_mult id id); apply derivable_pt_lim_id.
      - intros c C. destruct (P c C) as (P1 & P2).
        assert ((1 - t * t) * (sin (t * c) * sin c) <= 1 * (c * c)) by (apply Rmult_le_compat; lra). lra. }
    cbv beta in E. rewrite N0 in E. lra.
Qed.

Definition quo (x : R) : R := sin (t * x) / sin x.
Lemma d_quo c : sin c <> 0 -> derivable_pt_lim quo c (num c / Rsqr (sin c)).
Proof.
  intros H. unfold quo, num. rewrite (Rmult_comm (sin (t * c)) (cos c)).
  apply (derivable_pt_lim_div (fun x => sin (t * x)) sin); [apply d_sin_t|apply derivable_pt_lim_sin|exact H].
Qed.
Lemma quo_slope c : 0 < c < PI -> - / 8 <= cos c -> 0 <= num c / Rsqr (sin c) <= 4 * sin c.
Proof.
  intros H C. pose proof (sin_gt_0 c ltac:(lra) ltac:(lra)) as S. destruct (num_bound c ltac:(lra)) as (N0 & N1).
  assert (S2 : 0 < Rsqr (sin c)) by (apply Rlt_0_sqr; lra).
  split; [apply Rmult_le_pos; [exact N0|left; apply Rinv_0_lt_compat; exact S2]|].
  apply (Rmult_le_reg_r (Rsqr (sin c))); [exact S2|]. unfold Rdiv. rewrite Rmult_assoc, Rinv_l, Rmult_1_r by lra.
  pose proof (sin_lower c ltac:(lra)) as L.
  assert (B : c <= 16 / 7 * sin c).
  { assert (c * (7 / 8) <= c * (1 + cos c)) by (apply Rmult_le_compat_l; lra). lra. }
  unfold Rsqr. assert (B2 : c * c <= (16 / 7 * sin c) * (16 / 7 * sin c)) by (apply Rmult_le_compat; lra).
  assert (0 <= c * c) by (apply Rmult_le_pos; lra).
  assert (B3 : c * c * c <= (16 / 7 * sin c) * (16 / 7 * sin c) * (16 / 7 * sin c)) by (apply Rmult_le_compat; lra).
  assert (0 < sin c * sin c * sin c) by (repeat apply Rmult_lt_0_compat; exact S). lra.
Qed.
Lemma cos_between x y c : 0 <= x -> y <= PI -> x <= c <= y -> cos y <= cos c <= cos x.
Proof.
  intros H1 H2 (C1 & C2). split.
  - destruct C2 as [C2| ->]; [left; apply cos_decreasing_1; lra|lra].
  - destruct C1 as [C1| <-]; [left; apply cos_decreasing_1; lra|lra].
Qed.
Lemma quo_lip x y : 0 < x -> x <= y -> y < PI -> - / 8 <= cos y -> 0 <= quo y - quo x <= 4 * (cos x - cos y).
Proof.
  intros H1 H2 H3 C.
  assert (D : forall c, x <= c <= y -> derivable_pt_lim quo c (num c / Rsqr (sin c))).
  { intros c Hc. apply d_quo. pose proof (sin_gt_0 c ltac:(lra) ltac:(lra)). lra. }
  assert (S : forall c, x < c < y -> 0 <= num c / Rsqr (sin c) <= 4 * sin c).
  { intros c Hc. apply quo_slope; [lra|]. pose proof (cos_between x y c ltac:(lra) ltac:(lra) ltac:(lra)). lra. }
  split.
  - assert (quo x <= quo y); [|lra]. apply (nondecreasing quo (fun c => num c / Rsqr (sin c))); [lra|exact D|]. intros c Hc. apply S. exact Hc.
  - assert (E : (fun c => - (4 * cos c) - quo c) x <= (fun c => - (4 * cos c) - quo c) y); [|cbv beta in E; lra].
    apply (nondecreasing (fun c => - (4 * cos c) - quo c) (fun c => - (0 * cos c + 4 * (- sin c)) - num c / Rsqr (sin c))); [lra| |].
    + intros c Hc. apply (derivable_pt_lim_minus (fun c => - (4 * cos c)) quo); [|apply D; exact Hc].
      apply (derivable_pt_lim_opp (fun c => 4 * cos c)). apply (derivable_pt_lim_mult (fun _ => 4) cos); [apply derivable_pt_lim_const|apply derivable_pt_lim_cos].
    + intros c Hc. pose proof (S c Hc). lra.
Qed.
(** At the angle zero. *)
Lemma quo_zero x : 0 < x < PI -> - / 8 <= cos x -> 0 <= quo x - t <= 4 * (1 - cos x).
Proof.
  intros H C. pose proof (sin_gt_0 x ltac:(lra) ltac:(lra)) as S.
  assert (K : forall c, 0 < c < x -> 0 <= t * (cos (t * c) - cos c) <= 1 - cos c /\ - / 8 <= cos c <= 1).
  { intros c Hc. pose proof (tx_le c ltac:(lra)) as T. pose proof (cos_between 0 c (t * c) ltac:(lra) ltac:(lra) ltac:(lra)) as B. rewrite cos_0 in B.
    pose proof (cos_between 0 x c ltac:(lra) ltac:(lra) ltac:(lra)) as B'. rewrite cos_0 in B'.
    split; [|lra]. split; [apply Rmult_le_pos; lra|]. assert (t * (cos (t * c) - cos c) <= 1 * (1 - cos c)) by (apply Rmult_le_compat; lra). lra. }
  assert (D : forall c, derivable_pt_lim (fun c => sin (t * c) - t * sin c) c (t * cos (t * c) - (0 * sin c + t * cos c))).
  { intros c. apply (derivable_pt_lim_minus (fun c => sin (t * c)) (fun c => t * sin c)); [apply d_sin_t|].
    apply (derivable_pt_lim_mult (fun _ => t) sin); [apply derivable_pt_lim_const|apply derivable_pt_lim_sin]. }
  assert (L : 0 <= sin (t * x) - t * sin x <= 4 * ((1 - cos x) * sin x)).
  { split.
    - assert (E : (fun c => sin (t * c) - t * sin c) 0 <= (fun c => sin (t * c) - t * sin c) x).
      { apply (nondecreasing (fun c => sin (t * c) - t * sin c) (fun c => t * cos (t * c) - (0 * sin c + t * cos c))); [lra|intros; apply D|].
        intros c Hc. pose proof (K c Hc). lra. }
      cbv beta in E. rewrite Rmult_0_r, sin_0 in E. lra.
    - assert (E : (fun c => 4 * ((1 - cos c) * sin c) - (sin (t * c) - t * sin c)) 0 <= (fun c => 4 * ((1 - cos c) * sin c) - (sin (t * c) - t * sin c)) x).
      { apply (nondecreasing (fun c => 4 * ((1 - cos c) * sin c) - (sin (t * c) - t * sin c))
          (fun c => (0 * ((1 - cos c) * sin c) + 4 * ((0 - - sin c) * sin c + (1 - cos c) * cos c)) - (t * cos (t * c) - (0 * sin c + t * cos c)))); [lra| |].
        - intros c Hc. apply (derivable_pt_lim_minus (fun c => 4 * ((1 - cos c) * sin c)) (fun c => sin (t * c) - t * sin c)); [|apply D].
          apply (derivable_pt_lim_mult (fun _ => 4) (fun c => (1 - cos c) * sin c)); [apply derivable_pt_lim_const|].
          apply (derivable_pt_lim_mult (fun c => 1 - cos c) sin); [|apply derivable_pt_lim_sin].
          apply (derivable_pt_lim_minus (fun _ => 1) cos); [apply derivable_pt_lim_const|apply derivable_pt_lim_cos].
        - intros c Hc. destruct (K c Hc) as (K1 & K2). pose proof (sin2_cos2 c) as SC. unfold Rsqr in SC.
          assert (Q : 3 / 4 * (1 - cos c) <= (1 - cos c) * (1 + 2 * cos c)) by (rewrite (Rmult_comm (3 / 4)); apply Rmult_le_compat_l; lra). lra. }
      cbv beta in E. rewrite Rmult_0_r, sin_0, cos_0 in E. lra. }
  unfold quo. replace (sin (t * x) / sin x - t) with ((sin (t * x) - t * sin x) * / sin x) by (field; lra).
  pose proof (Rinv_0_lt_compat _ S) as I.
  split; [apply Rmult_le_pos; lra|].
  apply (Rmult_le_reg_r (sin x)); [exact S|]. rewrite Rmult_assoc, Rinv_l by lra. lra.
Qed.

(** The weight of the second end at the fraction [t], as a function of the cosine. *)
Definition weight (c : R) : R := if Req_EM_T c 1 then t else sin (t * acos c) / sin (acos c).
Lemma acos_range c : - / 8 <= c < 1 -> 0 < acos c < PI /\ cos (acos c) = c.
Proof.
  intros H. assert (E : cos (acos c) = c) by (apply cos_acos; lra). split; [|exact E].
  pose proof (acos_bound c) as B. split.
  - destruct (proj1 B) as [P|P]; [exact P|]. rewrite <- P, cos_0 in E. lra.
  - destruct (proj2 B) as [P|P]; [exact P|]. rewrite P, cos_PI in E. lra.
Qed.
Lemma weight_lip c c' : - / 8 <= c' -> c' <= c -> c <= 1 -> 0 <= weight c' - weight c <= 4 * (c - c').
Proof.
  intros H1 H2 H3. unfold weight. destruct (Req_EM_T c 1) as [E|E], (Req_EM_T c' 1) as [E'|E'].
  - lra.
  - subst c. destruct (acos_range c' ltac:(lra)) as (A & C). pose proof (quo_zero (acos c') A ltac:(lra)) as Q. rewrite C in Q. exact Q.
  - lra.
  - destruct (acos_range c' ltac:(lra)) as (A & C). destruct (acos_range c ltac:(lra)) as (A' & C').
    assert (M : acos c <= acos c').
    { destruct (Rle_lt_dec (acos c) (acos c')) as [L|L]; [exact L|]. pose proof (cos_decreasing_1 (acos c') (acos c) ltac:(lra) ltac:(lra) ltac:(lra) ltac:(lra) L). lra. }
    pose proof (quo_lip (acos c) (acos c') (proj1 A') M (proj2 A) ltac:(lra)) as Q. rewrite C, C' in Q. exact Q.
Qed.
Lemma weight_near c c' : - / 8 <= c <= 1 -> - / 8 <= c' <= 1 -> Rabs (weight c - weight c') <= 4 * Rabs (c - c').
Proof.
  intros H1 H2. destruct (Rle_lt_dec c c') as [L|L].
  - pose proof (weight_lip c' c ltac:(lra) L ltac:(lra)). rewrite Rabs_pos_eq, Rabs_left1; lra.
  - pose proof (weight_lip c c' ltac:(lra) ltac:(lra) ltac:(lra)). rewrite Rabs_left1, Rabs_pos_eq; lra.
Qed.
Lemma weight_range c : - / 8 <= c <= 1 -> 0 <= weight c <= 9 / 8.
Proof.
  intros H. unfold weight. destruct (Req_EM_T c 1) as [E|E]; [lra|].
  destruct (acos_range c ltac:(lra)) as (A & C). set (x := acos c) in *.
  pose proof (sin_gt_0 x ltac:(lra) ltac:(lra)) as S. pose proof (tx_le x ltac:(lra)) as T.
  assert (S' : 0 <= sin (t * x)) by (apply sin_ge_0; lra).
  split; [apply Rmult_le_pos; [exact S'|left; apply Rinv_0_lt_compat; exact S]|].
  apply (Rmult_le_reg_r (sin x)); [exact S|]. unfold Rdiv at 1. rewrite Rmult_assoc, Rinv_l, Rmult_1_r by lra.
  destruct (Rle_lt_dec x (PI / 2)) as [L|L].
  - assert (sin (t * x) <= sin x) by (apply sin_incr_1; lra). lra.
  - pose proof (SIN_bound (t * x)) as B. pose proof (sin2_cos2 x) as SC. unfold Rsqr in SC. rewrite C in SC.
    assert (c <= 0) by (rewrite <- C; apply cos_le_0; lra). assert (c * c <= / 64) by nra.
    assert (8 / 9 <= sin x); [|lra]. destruct (Rle_lt_dec (8 / 9) (sin x)) as [G|G]; [exact G|]. exfalso. assert (sin x * sin x <= 8 / 9 * (8 / 9)) by (apply Rmult_le_compat; lra). lra.
Qed.
End Weight.
