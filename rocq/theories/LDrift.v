(** Growth of rounding errors in long products. *)

From Coq Require Import List Arith ZArith Lia Reals Lra Psatz.
From Flocq Require Import Core.Raux.
Local Open Scope R_scope.

(** (1 + x)^k <= 1 + 4/3 k x as long as k x <= 1/4. *)
Lemma pow_growth x k : 0 <= x -> INR k * x <= / 4 -> (1 + x) ^ k <= 1 + 4 / 3 * (INR k * x).
Proof.
  intros Hx. induction k as [|k IH]; intros H; [cbn; lra|].
  rewrite S_INR in *. assert (Hk : INR k * x <= / 4) by nra. specialize (IH Hk).
  assert (K0 : 0 <= INR k * x) by (apply Rmult_le_pos; [apply pos_INR|exact Hx]).
  cbn [pow]. assert (0 <= (1 + x) ^ k) by (apply pow_le; lra). nra.
Qed.
Lemma pow_decay x k : 0 <= x <= 1 -> 1 - INR k * x <= (1 - x) ^ k.
Proof.
  intros Hx. induction k as [|k IH]; [cbn; lra|]. rewrite S_INR. cbn [pow].
  assert (0 <= INR k * x) by (apply Rmult_le_pos; [apply pos_INR|lra]).
  destruct (Rle_dec 0 (1 - INR k * x)); [nra|].
  assert (0 <= (1 - x) ^ k) by (apply pow_le; lra). nra.
Qed.
Lemma pow_ge_1 x k : 0 <= x -> 1 <= (1 + x) ^ k.
Proof. intros Hx. apply pow_R1_Rle. lra. Qed.

Section Drift.
Context {F A : Type} (mul : A -> A -> A) (one : A) (nrm : A -> R) (dist : A -> A -> R).
Context (fmul : F -> F -> F) (fone : F) (val : F -> A) (ok : F -> Prop) (eps : R).
Hypothesis nrm_mul : forall a b, nrm (mul a b) = nrm a * nrm b.
Hypothesis nrm_one : nrm one = 1.
Hypothesis nrm_pos : forall a, 0 <= nrm a.
Hypothesis dist_tri : forall a b c, dist a c <= dist a b + dist b c.
Hypothesis dist_refl : forall a, dist a a = 0.
Hypothesis dist_mul : forall a b c, dist (mul a c) (mul b c) = dist a b * nrm c.
Hypothesis nrm_dist : forall a b, Rabs (nrm a - nrm b) <= dist a b.
Hypothesis val_one : val fone = one.
Hypothesis ok_one : ok fone.
Hypothesis eps0 : 0 <= eps.
Hypothesis step : forall p q P N, ok p -> ok q -> 1 <= P -> 1 <= N -> P * N <= 2 -> nrm (val p) <= P -> nrm (val q) <= N ->
  ok (fmul p q) /\ dist (val (fmul p q)) (mul (val p) (val q)) <= eps * (P * N).

Lemma drift_gen d (l : list F) :
  0 <= d -> (forall q, In q l -> ok q /\ Rabs (nrm (val q) - 1) <= d) ->
  INR (length l) * (d + eps) <= / 4 ->
  let k := length l in let r := fold_left fmul l fone in let e := fold_left mul (map val l) one in
  ok r /\ dist (val r) e <= ((1 + eps) ^ k - 1) * (1 + d) ^ k /\
  (1 - d) ^ k <= nrm e <= (1 + d) ^ k.
Proof.
  intros d0. induction l as [|q l IH] using rev_ind; intros Hl Hk.
  - cbn. rewrite val_one, dist_refl, nrm_one. split; [exact ok_one|]. split; lra.
  - cbv zeta in *. rewrite app_length in *. cbn [length] in *. rewrite Nat.add_1_r in *.
    rewrite map_app, !fold_left_app. cbn [map fold_left].
    set (k := length l) in *. set (r := fold_left fmul l fone) in *. set (e := fold_left mul (map val l) one) in *.
    rewrite S_INR in Hk. assert (K0 : 0 <= INR k) by apply pos_INR.
    assert (Hk' : INR k * (d + eps) <= / 4) by nra.
    assert (Hl' : forall q, In q l -> ok q /\ Rabs (nrm (val q) - 1) <= d) by (intros; apply Hl, in_or_app; left; assumption).
    assert (Hq : ok q /\ Rabs (nrm (val q) - 1) <= d) by (apply Hl, in_or_app; right; left; reflexivity).
    destruct (IH Hl' Hk') as (Or & D & N1 & N2). clear IH. destruct Hq as (Oq & Nq).
    apply Raux.Rabs_le_inv in Nq.
    set (Pe := (1 + eps) ^ k) in *. set (Pd := (1 + d) ^ k) in *.
    assert (G1 : 1 <= Pe) by (apply pow_ge_1; exact eps0). assert (G2 : 1 <= Pd) by (apply pow_ge_1; exact d0).
    assert (Nr : nrm (val r) <= Pe * Pd).
    { pose proof (nrm_dist (val r) e) as T. apply Raux.Rabs_le_inv in T. nra. }
    assert (B1 : (1 + eps) ^ S k <= 1 + 4 / 3 * (INR (S k) * eps)).
    { apply pow_growth; [exact eps0|]. rewrite S_INR. nra. }
    assert (B2 : (1 + d) ^ S k <= 1 + 4 / 3 * (INR (S k) * d)).
    { apply pow_growth; [exact d0|]. rewrite S_INR. nra. }
    rewrite S_INR in B1, B2. cbn [pow] in *. fold Pe Pd in B1, B2. fold Pe Pd.
    assert (X0 : 0 <= (INR k + 1) * eps) by nra. assert (Y0 : 0 <= (INR k + 1) * d) by nra.
    assert (LE : Pe * Pd * (1 + d) <= 2).
    { assert (Pe <= (1 + eps) * Pe) by nra.
      assert (Pe * ((1 + d) * Pd) <= ((1 + eps) * Pe) * ((1 + d) * Pd)) by (apply Rmult_le_compat_r; nra).
      assert (((1 + eps) * Pe) * ((1 + d) * Pd) <= (1 + 4 / 3 * ((INR k + 1) * eps)) * (1 + 4 / 3 * ((INR k + 1) * d))).
      { apply Rmult_le_compat; try lra; nra. }
      set (x := (INR k + 1) * eps) in *. set (y := (INR k + 1) * d) in *.
      assert (x + y <= / 4) by (unfold x, y; lra). nra. }
    assert (PP : 1 <= Pe * Pd) by nra.
    destruct (step r q (Pe * Pd) (1 + d) Or Oq PP ltac:(lra) LE Nr ltac:(lra)) as (Oz & Dz).
    split; [exact Oz|]. split.
    + eapply Rle_trans; [apply (dist_tri _ (mul (val r) (val q)))|]. rewrite dist_mul.
      assert (dist (val r) e * nrm (val q) <= ((Pe - 1) * Pd) * (1 + d)).
      { apply Rmult_le_compat; try lra; [|apply nrm_pos].
        pose proof (nrm_dist (val r) e). pose proof (Rabs_pos (nrm (val r) - nrm e)). lra. }
      nra.
    + rewrite nrm_mul. assert (0 <= (1 - d) ^ k) by (apply pow_le; nra).
      split; [|rewrite (Rmult_comm (1 + d)); apply Rmult_le_compat; try lra; apply nrm_pos].
      rewrite (Rmult_comm (1 - d)). apply Rmult_le_compat; try lra. nra.
Qed.

Lemma drift d (l : list F) :
  0 <= d -> (forall q, In q l -> ok q /\ Rabs (nrm (val q) - 1) <= d) ->
  INR (length l) * (d + eps) <= / 4 ->
  let r := fold_left fmul l fone in let e := fold_left mul (map val l) one in
  ok r /\ dist (val r) e <= 2 * (INR (length l) * eps) /\
  Rabs (nrm (val r) - 1) <= 2 * (INR (length l) * (d + eps)).
Proof.
  intros d0 Hl Hk r e. destruct (drift_gen d l d0 Hl Hk) as (O & D & N1 & N2). fold r e in O, D, N1, N2.
  set (k := length l) in *. assert (K0 : 0 <= INR k) by apply pos_INR.
  assert (B1 : (1 + eps) ^ k <= 1 + 4 / 3 * (INR k * eps)) by (apply pow_growth; [exact eps0|nra]).
  assert (B2 : (1 + d) ^ k <= 1 + 4 / 3 * (INR k * d)) by (apply pow_growth; [exact d0|nra]).
  assert (G1 := pow_ge_1 eps k eps0). assert (G2 := pow_ge_1 d k d0).
  assert (D' : dist (val r) e <= 2 * (INR k * eps)).
  { eapply Rle_trans; [exact D|].
    set (x := INR k * eps) in *. set (y := INR k * d) in *.
    assert (0 <= x) by (apply Rmult_le_pos; assumption). assert (0 <= y) by (apply Rmult_le_pos; assumption).
    assert (x + y <= / 4) by (unfold x, y; lra).
    apply Rle_trans with ((4 / 3 * x) * (1 + 4 / 3 * y)); [apply Rmult_le_compat; lra|]. nra. }
  split; [exact O|]. split; [exact D'|].
  pose proof (nrm_dist (val r) e) as T. apply Raux.Rabs_le_inv in T.
  destruct l as [|q0 l0] eqn:El.
  - cbn in *. apply Rabs_le. lra.
  - assert (d1 : d <= 1). { unfold k in Hk. cbn [length] in Hk. rewrite S_INR in Hk. pose proof (pos_INR (length l0)). nra. }
    pose proof (pow_decay d k (conj d0 d1)) as T2. apply Rabs_le. split; nra.
Qed.
End Drift.
