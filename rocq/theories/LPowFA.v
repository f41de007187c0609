(** Products of complex floats with errors relative to the modulus. *)

From Coq Require Import List Arith ZArith Bool Lia Reals Lra Psatz.
From Flocq Require Import Core.Core IEEE754.BinarySingleNaN.
From Verif Require Import Base Scalar Spec LBase MComplex LComplex LComplexR MFloat LFloat LFloatP MFloatVec LFloatVec MSign LTrScF SpecPowF MPowF.
Local Open Scope R_scope.

Definition cn (z : complex R) : R := sqrt (re z * re z + im z * im z).
Lemma cn_pos z : 0 <= cn z. Proof. apply sqrt_pos. Qed.
Lemma cn_sq z : cn z * cn z = re z * re z + im z * im z.
Proof. apply sqrt_sqrt. nra. Qed.
Lemma cn_le z b : 0 <= b -> re z * re z + im z * im z <= b * b -> cn z <= b.
Proof. intros B H. unfold cn. rewrite <- (sqrt_square b B). apply sqrt_le_1_alt. exact H. Qed.
Lemma cn_cnorm z : cn z = cnorm z. Proof. reflexivity. Qed.
Lemma cn_mul z w : cn (cmul z w) = cn z * cn w. Proof. rewrite !cn_cnorm. apply cnorm_mul. Qed.
Lemma cn_tri z w : cn (cadd z w) <= cn z + cn w. Proof. rewrite !cn_cnorm. apply cnorm_triangle. Qed.
Lemma cn_re z : Rabs (re z) <= cn z.
Proof. rewrite <- sqrt_Rsqr_abs. unfold cn, Rsqr. apply sqrt_le_1_alt. nra. Qed.
Lemma cn_im z : Rabs (im z) <= cn z.
Proof. rewrite <- sqrt_Rsqr_abs. unfold cn, Rsqr. apply sqrt_le_1_alt. nra. Qed.

(** An error in both parts proportional to sums of products. *)
Lemma cn_prod_err (a b c d e1 e2 k t : R) : 0 <= k -> 0 <= t ->
  Rabs e1 <= k * (Rabs (a * c) + Rabs (b * d)) + t -> Rabs e2 <= k * (Rabs (a * d) + Rabs (b * c)) + t ->
  cn (mkC e1 e2) <= 1.4143 * (k * (cn (mkC a b) * cn (mkC c d)) + t).
Proof.
  intros K T H1 H2. pose proof (cn_pos (mkC a b)) as P1. pose proof (cn_pos (mkC c d)) as P2.
  pose proof (cn_sq (mkC a b)) as Q1. pose proof (cn_sq (mkC c d)) as Q2. cbn [re im] in *.
  set (p := cn (mkC a b)) in *. set (q := cn (mkC c d)) in *.
  assert (PQ : 0 <= p * q) by (apply Rmult_le_pos; assumption).
  assert (KPQ : 0 <= k * (p * q)) by (apply Rmult_le_pos; assumption).
  rewrite !Rabs_mult in *. set (A := Rabs a) in *. set (B := Rabs b) in *. set (C := Rabs c) in *. set (D := Rabs d) in *.
  assert (A0 : 0 <= A) by apply Rabs_pos. assert (B0 : 0 <= B) by apply Rabs_pos. assert (C0 : 0 <= C) by apply Rabs_pos. assert (D0 : 0 <= D) by apply Rabs_pos.
  assert (SA : A * A = a * a) by (unfold A; rewrite <- Rabs_mult; apply Rabs_pos_eq; nra).
  assert (SB : B * B = b * b) by (unfold B; rewrite <- Rabs_mult; apply Rabs_pos_eq; nra).
  assert (SC : C * C = c * c) by (unfold C; rewrite <- Rabs_mult; apply Rabs_pos_eq; nra).
  assert (SD : D * D = d * d) by (unfold D; rewrite <- Rabs_mult; apply Rabs_pos_eq; nra).
  rewrite <- SA, <- SB in Q1. rewrite <- SC, <- SD in Q2.
  assert (Y : forall x y, 0 <= x -> 0 <= y -> x * x <= y * y -> x <= y) by (intros x y X0 Y0 XY; apply Rsqr_incr_0_var; [exact XY|exact Y0]).
  set (s1 := A * C + B * D) in *. set (s2 := A * D + B * C) in *.
  assert (S1 : s1 <= p * q).
  { apply Y; [unfold s1; nra|exact PQ|]. replace (p * q * (p * q)) with ((p * p) * (q * q)) by ring. rewrite Q1, Q2. unfold s1.
    pose proof (Rle_0_sqr (A * D - B * C)) as X. unfold Rsqr in X. nra. }
  assert (S2 : s2 <= p * q).
  { apply Y; [unfold s2; nra|exact PQ|]. replace (p * q * (p * q)) with ((p * p) * (q * q)) by ring. rewrite Q1, Q2. unfold s2.
    pose proof (Rle_0_sqr (A * C - B * D)) as X. unfold Rsqr in X. nra. }
  set (m := k * (p * q) + t) in *.
  assert (M1 : Rabs e1 <= m). { eapply Rle_trans; [exact H1|]. unfold m. assert (k * s1 <= k * (p * q)) by (apply Rmult_le_compat_l; assumption). lra. }
  assert (M2 : Rabs e2 <= m). { eapply Rle_trans; [exact H2|]. unfold m. assert (k * s2 <= k * (p * q)) by (apply Rmult_le_compat_l; assumption). lra. }
  assert (M0 : 0 <= m) by (unfold m; lra).
  apply cn_le; [lra|]. cbn [re im]. apply Rabs_le_inv in M1, M2. assert (e1 * e1 <= m * m) by nra. assert (e2 * e2 <= m * m) by nra. nra.
Qed.

Section A.
Context {prec emax : Z} {Hp : Prec_gt_0 prec} {He : Prec_lt_emax prec emax}.
Notation fl := (binary_float prec emax).
Notation u := (bpow radix2 (- prec)).
Notation H24 := (24 <= prec)%Z.

Definition cR (x : complex fl) : complex R := mkC (B2R (re x)) (B2R (im x)).
(** [x] is [v] up to [d] times the modulus of [v]. *)
Definition rl (d : R) (x : complex fl) (v : complex R) : Prop := cis_finite x = true /\ cn (csub (cR x) v) <= d * cn v.

Lemma u_small : H24 -> 0 < u <= / 16777216.
Proof.
  intros H. split; [apply bpow_gt_0|]. change (/ 16777216) with (bpow radix2 (-24)). apply bpow_le. lia.
Qed.
Lemma eta_eq : ftiny (prec := prec) (emax := emax) = u * bpow radix2 (2 - emax).
Proof.
  unfold ftiny. rewrite <- bpow_plus. replace (3 - emax - prec)%Z with (1 + (- prec + (2 - emax)))%Z by ring. rewrite bpow_plus.
  change (bpow radix2 1) with 2. lra.
Qed.

(** One product and sum or difference of products. *)
Lemma dot2 (a b c d : fl) (P : R) : H24 -> is_finite a = true -> is_finite b = true -> is_finite c = true -> is_finite d = true ->
  Rabs (B2R a * B2R c) <= P -> Rabs (B2R b * B2R d) <= P -> P <= bpow radix2 (emax - 3) ->
  (is_finite (nadd (nmul a c) (nmul b d)) = true /\
   Rabs (B2R (nadd (nmul a c) (nmul b d)) - (B2R a * B2R c + B2R b * B2R d)) <=
   2.01 * u * (Rabs (B2R a * B2R c) + Rabs (B2R b * B2R d)) + 2.01 * (u * bpow radix2 (2 - emax))) /\
  (is_finite (nsub (nmul a c) (nmul b d)) = true /\
   Rabs (B2R (nsub (nmul a c) (nmul b d)) - (B2R a * B2R c - B2R b * B2R d)) <=
   2.01 * u * (Rabs (B2R a * B2R c) + Rabs (B2R b * B2R d)) + 2.01 * (u * bpow radix2 (2 - emax))).
Proof.
  intros H Fa Fb Fc Fd L1 L2 LP. pose proof (u_small H) as U.
  assert (EP : bpow radix2 (emax - 1) = 4 * bpow radix2 (emax - 3)).
  { replace (emax - 1)%Z with (2 + (emax - 3))%Z by ring. rewrite bpow_plus. reflexivity. }
  pose proof (bpow_gt_0 radix2 (emax - 3)) as BP.
  assert (ET : bpow radix2 (2 - emax) <= bpow radix2 (emax - 3)).
  { apply bpow_le. pose proof He as X. unfold Prec_lt_emax in X. lia. }
  pose proof (bpow_gt_0 radix2 (2 - emax)) as T0.
  assert (F1 : is_finite (nmul a c) = true) by (apply fmul_fin; [assumption|assumption|lra]).
  assert (F2 : is_finite (nmul b d) = true) by (apply fmul_fin; [assumption|assumption|lra]).
  destruct (fmul_err _ _ F1) as (d1 & e1 & D1 & T1 & E1). destruct (fmul_err _ _ F2) as (d2 & e2 & D2 & T2 & E2).
  rewrite funit_eq in D1, D2. rewrite eta_eq in T1, T2. set (eta := u * bpow radix2 (2 - emax)) in *.
  set (x := B2R a * B2R c) in *. set (y := B2R b * B2R d) in *.
  assert (eta0 : 0 <= eta <= u * bpow radix2 (emax - 3)).
  { split; [apply Rmult_le_pos; lra|]. apply Rmult_le_compat_l; lra. }
  assert (X1 : Rabs (B2R (nmul a c) - x) <= u * Rabs x + eta).
  { rewrite E1. replace (x * (1 + d1) + e1 - x) with (d1 * x + e1) by ring. eapply Rle_trans; [apply Rabs_triang|]. rewrite Rabs_mult.
    apply Rplus_le_compat; [apply Rmult_le_compat_r; [apply Rabs_pos|exact D1]|exact T1]. }
  assert (X2 : Rabs (B2R (nmul b d) - y) <= u * Rabs y + eta).
  { rewrite E2. replace (y * (1 + d2) + e2 - y) with (d2 * y + e2) by ring. eapply Rle_trans; [apply Rabs_triang|]. rewrite Rabs_mult.
    apply Rplus_le_compat; [apply Rmult_le_compat_r; [apply Rabs_pos|exact D2]|exact T2]. }
  set (p := B2R (nmul a c)) in *. set (q := B2R (nmul b d)) in *.
  pose proof (Rabs_pos x) as Px. pose proof (Rabs_pos y) as Py.
  assert (UX : u * Rabs x <= u * bpow radix2 (emax - 3)) by (apply Rmult_le_compat_l; lra).
  assert (UY : u * Rabs y <= u * bpow radix2 (emax - 3)) by (apply Rmult_le_compat_l; lra).
  assert (UB : u * bpow radix2 (emax - 3) <= / 16777216 * bpow radix2 (emax - 3)) by (apply Rmult_le_compat_r; lra).
  assert (Bp : Rabs p <= Rabs x + u * Rabs x + eta).
  { replace p with (x + (p - x)) by ring. eapply Rle_trans; [apply Rabs_triang|]. lra. }
  assert (Bq : Rabs q <= Rabs y + u * Rabs y + eta).
  { replace q with (y + (q - y)) by ring. eapply Rle_trans; [apply Rabs_triang|]. lra. }
  assert (uu : 0 <= u * Rabs x /\ 0 <= u * Rabs y /\ u * (u * Rabs x) <= / 16777216 * (u * Rabs x) /\ u * (u * Rabs y) <= / 16777216 * (u * Rabs y) /\ u * eta <= / 16777216 * eta).
  { assert (0 <= u * Rabs x) by (apply Rmult_le_pos; lra). assert (0 <= u * Rabs y) by (apply Rmult_le_pos; lra).
    split; [assumption|]. split; [assumption|]. split; [|split]; apply Rmult_le_compat_r; lra. }
  assert (M : u * (Rabs p + Rabs q) <= u * (Rabs x + u * Rabs x + eta + (Rabs y + u * Rabs y + eta))) by (apply Rmult_le_compat_l; lra).
  split.
  - assert (S : Rabs (p + q) <= Rabs p + Rabs q) by apply Rabs_triang.
    destruct (add_val (nmul a c) (nmul b d) F1 F2) as (F & _ & E); [fold p q; lra|]. split; [exact F|]. fold p q in E.
    set (r := B2R (nadd (nmul a c) (nmul b d))) in *.
    replace (r - (x + y)) with ((r - (p + q)) + (p - x) + (q - y)) by ring.
    eapply Rle_trans; [apply Rabs_triang|]. eapply Rle_trans; [apply Rplus_le_compat_r; apply Rabs_triang|].
    assert (u * Rabs (p + q) <= u * (Rabs p + Rabs q)) by (apply Rmult_le_compat_l; lra). nra.
  - assert (S : Rabs (p - q) <= Rabs p + Rabs q). { unfold Rminus. eapply Rle_trans; [apply Rabs_triang|]. rewrite Rabs_Ropp. lra. }
    destruct (sub_val (nmul a c) (nmul b d) F1 F2) as (F & _ & E); [fold p q; lra|]. split; [exact F|]. fold p q in E.
    set (r := B2R (nsub (nmul a c) (nmul b d))) in *.
    replace (r - (x - y)) with ((r - (p - q)) + (p - x) + - (q - y)) by ring.
    eapply Rle_trans; [apply Rabs_triang|]. eapply Rle_trans; [apply Rplus_le_compat_r; apply Rabs_triang|]. rewrite Rabs_Ropp.
    assert (u * Rabs (p - q) <= u * (Rabs p + Rabs q)) by (apply Rmult_le_compat_l; lra). nra.
Qed.

(** The two products of complex floats. *)
Lemma cfin (x : complex fl) : cis_finite x = true <-> is_finite (re x) = true /\ is_finite (im x) = true.
Proof. unfold cis_finite. apply andb_true_iff. Qed.

Definition is_prod (f : complex fl -> complex fl -> complex fl) : Prop :=
  forall (x y : complex fl), cis_finite x = true -> cis_finite y = true -> cn (cR x) * cn (cR y) <= bpow radix2 (emax - 3) ->
  cis_finite (f x y) = true /\
  cn (csub (cR (f x y)) (cmul (cR x) (cR y))) <= 2.85 * u * (cn (cR x) * cn (cR y)) + 2.85 * (u * bpow radix2 (2 - emax)).

Lemma prod_bounds (x y : complex fl) : let P := cn (cR x) * cn (cR y) in
  Rabs (B2R (re x) * B2R (re y)) <= P /\ Rabs (B2R (im x) * B2R (im y)) <= P /\ Rabs (B2R (re x) * B2R (im y)) <= P /\ Rabs (B2R (im x) * B2R (re y)) <= P.
Proof.
  intros P. pose proof (cn_re (cR x)) as A. pose proof (cn_im (cR x)) as B. pose proof (cn_re (cR y)) as C. pose proof (cn_im (cR y)) as D.
  cbn [cR re im] in *. unfold P. rewrite !Rabs_mult. repeat split; apply Rmult_le_compat; auto using Rabs_pos.
Qed.

Lemma cmul_is_prod : H24 -> is_prod cmul.
Proof.
  intros H x y Fx Fy L. apply cfin in Fx, Fy. destruct Fx as (Fx1 & Fx2), Fy as (Fy1 & Fy2).
  destruct (prod_bounds x y) as (B1 & B2 & B3 & B4). set (P := cn (cR x) * cn (cR y)) in *.
  destruct (dot2 (re x) (im x) (re y) (im y) P H Fx1 Fx2 Fy1 Fy2 B1 B2 L) as (_ & G1 & E1).
  destruct (dot2 (re x) (im x) (im y) (re y) P H Fx1 Fx2 Fy2 Fy1 B3 B4 L) as ((G2 & E2) & _).
  split; [apply cfin; split; assumption|].
  pose proof (u_small H) as U. pose proof (bpow_gt_0 radix2 (2 - emax)) as T0.
  assert (W : 0 <= u * bpow radix2 (2 - emax)) by (apply Rmult_le_pos; lra).
  assert (P0 : 0 <= P) by (apply Rmult_le_pos; apply cn_pos). assert (UP : 0 <= u * P) by (apply Rmult_le_pos; lra).
  eapply Rle_trans; [eapply (cn_prod_err (B2R (re x)) (B2R (im x)) (B2R (re y)) (B2R (im y)) _ _ (2.01 * u) (2.01 * (u * bpow radix2 (2 - emax))))|].
  - lra.
  - lra.
  - exact E1.
  - exact E2.
  - change (mkC (B2R (re x)) (B2R (im x))) with (cR x). change (mkC (B2R (re y)) (B2R (im y))) with (cR y). fold P. lra.
Qed.
Lemma cmul_assign_is_prod : H24 -> is_prod cmul_assign.
Proof.
  intros H x y Fx Fy L. apply cfin in Fx, Fy. destruct Fx as (Fx1 & Fx2), Fy as (Fy1 & Fy2).
  destruct (prod_bounds x y) as (B1 & B2 & B3 & B4). set (P := cn (cR x) * cn (cR y)) in *.
  destruct (dot2 (re x) (im x) (re y) (im y) P H Fx1 Fx2 Fy1 Fy2 B1 B2 L) as (_ & G1 & E1).
  destruct (dot2 (im x) (re x) (re y) (im y) P H Fx2 Fx1 Fy1 Fy2 B4 B3 L) as ((G2 & E2) & _).
  split; [apply cfin; split; assumption|].
  pose proof (u_small H) as U. pose proof (bpow_gt_0 radix2 (2 - emax)) as T0.
  assert (W : 0 <= u * bpow radix2 (2 - emax)) by (apply Rmult_le_pos; lra).
  assert (P0 : 0 <= P) by (apply Rmult_le_pos; apply cn_pos). assert (UP : 0 <= u * P) by (apply Rmult_le_pos; lra).
  eapply Rle_trans; [eapply (cn_prod_err (B2R (re x)) (B2R (im x)) (B2R (re y)) (B2R (im y)) _ _ (2.01 * u) (2.01 * (u * bpow radix2 (2 - emax))))|].
  - lra.
  - lra.
  - exact E1.
  - rewrite (Rplus_comm (Rabs (B2R (re x) * B2R (im y)))). 
    eapply Rle_trans; [|exact E2]. apply Req_le. f_equal. cbn. ring.
  - change (mkC (B2R (re x)) (B2R (im x))) with (cR x). change (mkC (B2R (re y)) (B2R (im y))) with (cR y). fold P. lra.
Qed.

(** Products of approximations. *)
Lemma rl_norm d x v : rl d x v -> cn (cR x) <= (1 + d) * cn v.
Proof.
  intros (_ & H). replace (cR x) with (cadd v (csub (cR x) v)) by (apply complex_eq; cbn; ring).
  eapply Rle_trans; [apply cn_tri|]. lra.
Qed.
Lemma prod_rl f d1 d2 x y v w : H24 -> is_prod f -> 0 <= d1 -> 0 <= d2 -> (1 + d1) * (1 + d2) <= 2 ->
  rl d1 x v -> rl d2 y w -> bpow radix2 (7 - emax) <= cn v * cn w <= bpow radix2 (emax - 4) ->
  rl ((1 + 3 * u) * ((1 + d1) * (1 + d2)) - 1) (f x y) (cmul v w).
Proof.
  intros H Pf D1 D2 D R1 R2 L. pose proof (u_small H) as U.
  pose proof (rl_norm _ _ _ R1) as N1. pose proof (rl_norm _ _ _ R2) as N2. destruct R1 as (F1 & E1), R2 as (F2 & E2).
  pose proof (cn_pos v) as V. pose proof (cn_pos w) as W. pose proof (cn_pos (cR x)) as X. pose proof (cn_pos (cR y)) as Y.
  assert (EP : bpow radix2 (emax - 3) = 2 * bpow radix2 (emax - 4)).
  { replace (emax - 3)%Z with (1 + (emax - 4))%Z by ring. rewrite bpow_plus. reflexivity. }
  assert (ET : bpow radix2 (7 - emax) = 32 * bpow radix2 (2 - emax)).
  { replace (7 - emax)%Z with (5 + (2 - emax))%Z by ring. rewrite bpow_plus. reflexivity. }
  assert (M : cn (cR x) * cn (cR y) <= (1 + d1) * (1 + d2) * (cn v * cn w)).
  { replace ((1 + d1) * (1 + d2) * (cn v * cn w)) with ((1 + d1) * cn v * ((1 + d2) * cn w)) by ring. apply Rmult_le_compat; assumption. }
  set (Q := cn v * cn w) in *. set (K := (1 + d1) * (1 + d2)) in *.
  assert (Q0 : 0 <= Q) by (apply Rmult_le_pos; assumption).
  assert (K1 : 1 <= K) by (unfold K; nra).
  assert (KQ : K * Q <= 2 * Q) by (apply Rmult_le_compat_r; lra).
  destruct (Pf x y F1 F2) as (F & E); [lra|]. split; [exact F|].
  rewrite cn_mul. fold Q.
  replace (csub (cR (f x y)) (cmul v w)) with
    (cadd (csub (cR (f x y)) (cmul (cR x) (cR y))) (cadd (cmul (csub (cR x) v) (cR y)) (cmul v (csub (cR y) w)))) by (apply complex_eq; cbn; ring).
  eapply Rle_trans; [apply cn_tri|]. eapply Rle_trans; [apply Rplus_le_compat_l; apply cn_tri|]. rewrite !cn_mul.
  assert (T1 : cn (csub (cR x) v) * cn (cR y) <= d1 * cn v * ((1 + d2) * cn w)) by (apply Rmult_le_compat; auto using cn_pos).
  assert (T2 : cn v * cn (csub (cR y) w) <= cn v * (d2 * cn w)) by (apply Rmult_le_compat_l; assumption).
  replace (d1 * cn v * ((1 + d2) * cn w)) with (d1 * (1 + d2) * Q) in T1 by (unfold Q; ring).
  replace (cn v * (d2 * cn w)) with (d2 * Q) in T2 by (unfold Q; ring).
  assert (T3 : u * (cn (cR x) * cn (cR y)) <= u * (K * Q)) by (apply Rmult_le_compat_l; lra).
  assert (T4 : 0 <= u * (K * Q - Q)) by (apply Rmult_le_pos; [lra|]; nra).
  assert (T5 : u * bpow radix2 (2 - emax) <= u * (Q / 32)) by (apply Rmult_le_compat_l; lra).
  replace ((1 + 3 * u) * K - 1) with (3 * u * K + (d1 * (1 + d2) + d2)) by (unfold K; ring).
  assert (0 <= u * Q) by (apply Rmult_le_pos; lra). nra.
Qed.
End A.
