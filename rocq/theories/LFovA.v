(** The arctangent under relative errors, and the angle whose cotangent is [(c - 1/c) / 2]. *)

From Coq Require Import Reals Lra Psatz.
From Flocq Require Import Core.Core.
From Verif Require Import LUnpF.
Local Open Scope R_scope.

Lemma atan_low t : 0 < t -> t / (1 + t * t) <= atan t.
Proof.
  intros T. pose proof (atan_bound t) as B. assert (P : 0 < atan t) by (rewrite <- atan_0; apply atan_increasing; exact T).
  assert (C : 0 < cos (atan t)) by (apply cos_gt_0; lra). pose proof (sin2_cos2 (atan t)) as S. unfold Rsqr in S.
  assert (E : sin (atan t) = t * cos (atan t)) by (rewrite <- (tan_atan t) at 2; unfold tan; field; lra).
  replace (t / (1 + t * t)) with (sin (atan t) * cos (atan t)).
  - pose proof (sin_lt_x (atan t) P). pose proof (COS_bound (atan t)). assert (0 < sin (atan t)) by (rewrite E; nra). nra.
  - rewrite E. rewrite E in S. replace (1 + t * t) with (/ (cos (atan t) * cos (atan t))).
    + field. lra.
    + apply (Rmult_eq_reg_r (cos (atan t) * cos (atan t))); [rewrite Rinv_l by nra|nra]. nra.
Qed.
Lemma atan_scale t l : 0 < t -> 1 <= l -> atan t <= atan (t * l) <= l * atan t.
Proof.
  intros T L. pose proof (atan_low t T) as A. destruct L as [L|<-]; [|rewrite Rmult_1_r; lra]. assert (H : t < t * l) by nra.
  split; [left; apply atan_increasing; exact H|].
  destruct (MVT_cor2 atan (fun x => / (1 + x ^ 2)) t (t * l) H) as (c & E & C1 & C2).
  { intros x _. apply derivable_pt_lim_atan. }
  assert (D : / (1 + c ^ 2) <= / (1 + t * t)) by (apply Rinv_le_contravar; nra).
  assert (F : / (1 + c ^ 2) * (t * l - t) <= / (1 + t * t) * (t * l - t)) by (apply Rmult_le_compat_r; lra).
  replace (/ (1 + t * t) * (t * l - t)) with ((l - 1) * (t / (1 + t * t))) in F by (field; nra).
  assert (G : (l - 1) * (t / (1 + t * t)) <= (l - 1) * atan t) by (apply Rmult_le_compat_l; lra). lra.
Qed.
Lemma atan_pos t : 0 < t -> 0 < atan t.
Proof. intros T. rewrite <- atan_0. apply atan_increasing. exact T. Qed.
Lemma exp_le a b : a <= b -> exp a <= exp b.
Proof. intros [H| ->]; [left; apply exp_increasing; exact H|right; reflexivity]. Qed.

Lemma by_atan e y z : 0 < z -> by_exp e y z -> by_exp e (atan y) (atan z).
Proof.
  intros Z (t & T & ->). pose proof (atan_pos z Z) as P. pose proof (exp_pos t) as Q.
  assert (Y : 0 < atan (z * exp t)) by (apply atan_pos, Rmult_lt_0_compat; assumption). apply Rabs_le_inv in T.
  assert (B : atan z * exp (- e) <= atan (z * exp t) <= atan z * exp e).
  { destruct (Rle_dec 0 t) as [S|S].
    - assert (L : 1 <= exp t) by (rewrite <- exp_0; apply exp_le; lra). destruct (atan_scale z (exp t) Z L) as (A1 & A2).
      pose proof (exp_le t e ltac:(lra)). pose proof (exp_le (- e) 0 ltac:(lra)) as N. rewrite exp_0 in N. split; nra.
    - assert (L : 1 <= exp (- t)) by (rewrite <- exp_0; apply exp_le; lra).
      destruct (atan_scale (z * exp t) (exp (- t)) ltac:(nra) L) as (A1 & A2). rewrite Rmult_assoc, <- exp_plus, Rplus_opp_r, exp_0, Rmult_1_r in A1, A2.
      pose proof (exp_le (- t) e ltac:(lra)) as U. pose proof (exp_le 0 e ltac:(lra)) as N. rewrite exp_0 in N.
      split; [|nra]. assert (I : exp (- e) * exp e = 1) by (rewrite <- exp_plus, Rplus_opp_l; apply exp_0). pose proof (exp_pos (- e)).
      assert (W : atan z <= atan (z * exp t) * exp e) by nra. apply (Rmult_le_compat_r (exp (- e))) in W; [|lra].
      replace (atan (z * exp t) * exp e * exp (- e)) with (atan (z * exp t) * (exp (- e) * exp e)) in W by ring. rewrite I in W. lra. }
  exists (ln (atan (z * exp t) / atan z)). assert (G : 0 < atan (z * exp t) / atan z) by (apply Rdiv_lt_0_compat; assumption).
  split; [|rewrite exp_ln by exact G; field; lra].
  assert (LN : forall a b, 0 < a -> a <= b -> ln a <= ln b) by (intros a b H [H1| ->]; [left; apply ln_increasing; assumption|right; reflexivity]).
  assert (X1 : exp (- e) <= atan (z * exp t) / atan z) by (apply (Rmult_le_reg_r (atan z)); [exact P|]; unfold Rdiv; rewrite Rmult_assoc, Rinv_l by lra; lra).
  assert (X2 : atan (z * exp t) / atan z <= exp e) by (apply (Rmult_le_reg_r (atan z)); [exact P|]; unfold Rdiv; rewrite Rmult_assoc, Rinv_l by lra; lra).
  pose proof (LN _ _ (exp_pos (- e)) X1) as Y1. pose proof (LN _ _ G X2) as Y2. rewrite ln_exp in Y1, Y2. apply Rabs_le. lra.
Qed.
Lemma by_2 e y z : by_exp e y z -> by_exp e (2 * y) (2 * z).
Proof. intros (t & T & ->). exists t. split; [exact T|ring]. Qed.

Lemma atan_double x : 0 < x -> x < 1 -> atan (2 * x / (1 - x * x)) = 2 * atan x.
Proof.
  intros X1 X2. pose proof (atan_pos x X1) as P. assert (U : atan x < PI / 4) by (rewrite <- atan_1; apply atan_increasing; exact X2).
  pose proof PI_RGT_0. assert (C : 0 < cos (atan x)) by (apply cos_gt_0; lra). assert (D : 0 < cos (2 * atan x)) by (apply cos_gt_0; lra).
  rewrite <- (atan_tan (2 * atan x)) by lra. f_equal.
  replace (2 * atan x) with (atan x + atan x) in * by ring. rewrite tan_plus by lra || (rewrite ?tan_atan; nra). rewrite tan_atan. field. nra.
Qed.
Lemma acot_hi c : 1 < c -> atan (2 * c / (c * c - 1)) = 2 * atan (/ c).
Proof.
  intros C. assert (I : 0 < / c < 1) by (split; [apply Rinv_0_lt_compat; lra|rewrite <- Rinv_1; apply Rinv_lt_contravar; lra]).
  rewrite <- (atan_double (/ c)) by lra. f_equal. field. split; nra.
Qed.
Lemma acot_lo c : 0 < c -> c < 1 -> atan (2 * c / (c * c - 1)) = - (2 * atan c).
Proof. intros C1 C2. rewrite <- (atan_double c) by lra. rewrite <- atan_opp. f_equal. field. split; nra. Qed.

(** The number [c'] whose half difference to its inverse is [k]. *)
Lemma cot_half (c k e : R) : 0 < c -> 0 <= e <= / 20 -> Rabs (k - (c - / c) / 2) <= e * ((c + / c) / 2) ->
  exists c', 0 < c' /\ k = (c' - / c') / 2 /\ by_exp (8 / 7 * e) c' c.
Proof.
  intros C E H. set (w := sqrt (k * k + 1)). assert (W : w * w = k * k + 1) by (apply sqrt_sqrt; nra). assert (W0 : 0 <= w) by apply sqrt_pos.
  assert (P : 0 < k + w) by nra. exists (k + w). assert (I : / (k + w) = w - k) by (apply (Rmult_eq_reg_r (k + w)); [rewrite Rinv_l by lra; nra|lra]).
  split; [exact P|]. split; [rewrite I; lra|]. set (c' := k + w) in *. assert (K : k = (c' - / c') / 2) by (rewrite I; unfold c'; lra).
  assert (Q : Rabs (c' - c) * (c * c' + 1) <= e * (c * c + 1) * c').
  { rewrite K in H. replace ((c' - / c') / 2 - (c - / c) / 2) with ((c' - c) * ((c * c' + 1) / (2 * (c * c')))) in H by (field; lra).
    rewrite Rabs_mult, (Rabs_pos_eq (_ / _)) in H by (left; apply Rdiv_lt_0_compat; nra).
    assert (M : 0 < 2 * (c * c')) by nra. apply (Rmult_le_compat_r _ _ _ (Rlt_le _ _ M)) in H.
    replace (Rabs (c' - c) * ((c * c' + 1) / (2 * (c * c'))) * (2 * (c * c'))) with (Rabs (c' - c) * (c * c' + 1)) in H by (field; lra).
    replace (e * ((c + / c) / 2) * (2 * (c * c'))) with (e * (c * c + 1) * c') in H by (field; lra). exact H. }
  apply (by_weak (16 / 15 * (20 / 19 * e))); [lra|]. apply by_near; [|lra]. rewrite (Rabs_pos_eq c) by lra.
  assert (M : 0 < c * c' + 1) by nra. apply (Rmult_le_reg_r (c * c' + 1)); [exact M|]. eapply Rle_trans; [exact Q|].
  destruct (Rle_dec c' c) as [L|L].
  - assert (J : (c * c + 1) * c' <= c * (c * c' + 1)) by nra. apply (Rmult_le_compat_l e) in J; [|lra]. assert (0 <= e * (c * (c * c' + 1))) by (apply Rmult_le_pos; nra). lra.
  - rewrite Rabs_pos_eq in Q by lra. assert (J : (c * c + 1) * c' <= (c * c' + 1) * c') by (apply Rmult_le_compat_r; [lra|]; assert (c * c <= c * c') by (apply Rmult_le_compat_l; lra); lra).
    assert (R : (c' - c) <= e * c').
    { apply (Rmult_le_reg_r (c * c' + 1)); [exact M|]. eapply Rle_trans; [exact Q|]. apply (Rmult_le_compat_l e) in J; lra. }
    assert (R2 : c' <= 20 / 19 * c) by nra. apply (Rmult_le_compat_l e) in J; [|lra]. assert (e * (c * c' + 1) * c' <= e * (c * c' + 1) * (20 / 19 * c)) by (apply Rmult_le_compat_l; nra). lra.
Qed.

Lemma read_pos c k e : 0 < c -> 0 <= e <= / 20 -> 0 < k -> Rabs (k - (c - / c) / 2) <= e * ((c + / c) / 2) -> by_exp (8 / 7 * e) (atan (/ k)) (2 * atan (/ c)).
Proof.
  intros C E K H. destruct (cot_half c k e C E H) as (c' & P & -> & B). assert (G : 1 < c').
  { destruct (Rlt_dec 1 c') as [G|G]; [exact G|]. exfalso. assert (1 <= / c') by (rewrite <- Rinv_1; apply Rinv_le_contravar; lra). lra. }
  replace (/ ((c' - / c') / 2)) with (2 * c' / (c' * c' - 1)) by (field; split; nra). rewrite acot_hi by exact G.
  apply by_2, by_atan; [apply Rinv_0_lt_compat; exact C|apply by_inv; exact B].
Qed.
Lemma read_neg c k e : 0 < c -> 0 <= e <= / 20 -> k < 0 -> Rabs (k - (c - / c) / 2) <= e * ((c + / c) / 2) -> by_exp (8 / 7 * e) (atan (/ k)) (- (2 * atan c)).
Proof.
  intros C E K H. destruct (cot_half c k e C E H) as (c' & P & -> & B). assert (G : c' < 1).
  { destruct (Rlt_dec c' 1) as [G|G]; [exact G|]. exfalso. assert (/ c' <= 1) by (rewrite <- Rinv_1; apply Rinv_le_contravar; lra). lra. }
  replace (/ ((c' - / c') / 2)) with (2 * c' / (c' * c' - 1)) by (field; split; nra). rewrite acot_lo by assumption.
  apply by_opp, by_2, by_atan; assumption.
Qed.
Lemma read_zero c e : 0 < c -> 0 <= e <= / 20 -> Rabs (0 - (c - / c) / 2) <= e * ((c + / c) / 2) -> by_exp (8 / 7 * e) (PI / 2) (2 * atan (/ c)).
Proof.
  intros C E H. destruct (cot_half c 0 e C E H) as (c' & P & K & B). assert (G : c' = 1).
  { assert (Q : c' * c' = 1) by (replace (c' * c') with (1 + c' * (2 * ((c' - / c') / 2))) by (field; lra); rewrite <- K; ring). nra. }
  subst c'. replace (PI / 2) with (2 * atan (/ 1)) by (rewrite Rinv_1, atan_1; lra). apply by_2, by_atan; [apply Rinv_0_lt_compat; exact C|apply by_inv; exact B].
Qed.
