(** Inner products, scalings and reflections of float vectors: errors in Euclidean length. *)

From Coq Require Import List Arith ZArith Lia Reals Lra Psatz.
From Flocq Require Import Core.Core IEEE754.BinarySingleNaN.
From Verif Require Import Base Scalar Spec SpecF SpecRigid MVector MFloat MFloatVec LBase LVector LVectorR LFloat LFloatVec LFloatP LFloatAcc
  LDriftM LRigidF LProjF.
Local Open Scope R_scope.

Section RefF.
Context {prec emax : Z} {Hp : Prec_gt_0 prec} {He : Prec_lt_emax prec emax}.
Notation fl := (binary_float prec emax).
Notation u := (bpow radix2 (- prec)).
Notation t := (@ftiny prec emax).
Hypothesis H24 : (24 <= prec)%Z.
Variable n : nat.
Hypothesis Hn : (n <= 4)%nat.
Variable V : R.
Hypothesis HV : @wok emax V.
Notation vn := (@vne prec emax n V).

Lemma abs_family f : fnrm n (fun j => Rabs (f j)) = fnrm n f.
Proof.
  unfold fnrm. apply f_equal. apply sum_ext. intros j Hj. change (Rabs (f j) * Rabs (f j) = f j * f j).
  rewrite <- Rabs_mult. apply Rabs_pos_eq, Rle_0_sqr.
Qed.

(** Inner product of two float families. *)
Lemma dotg A (x y : nat -> fl) : 1 <= A -> A <= 1048576 ->
  (forall j, (j < n)%nat -> is_finite (x j) = true) -> (forall j, (j < n)%nat -> is_finite (y j) = true) ->
  fnrm n (fun j => B2R (x j)) * fnrm n (fun j => B2R (y j)) <= A * V ->
  is_finite (sum n (fun j => nmul (x j) (y j))) = true /\
  Rabs (B2R (sum n (fun j => nmul (x j) (y j))) - rsum n (fun j => B2R (x j) * B2R (y j))) <= 8 * u * A * V.
Proof.
  intros A1 A2 Fx Fy NN. pose proof (wok_pos _ HV) as V0. pose proof (u_small H24) as U. pose proof (V_max V HV) as VM.
  assert (EU : @funit prec = u) by apply funit_eq.
  pose proof (@ftiny_w prec emax _ HV) as T. pose proof (@ftiny_pos prec emax) as T0.
  set (S := rsum n (fun j => Rabs (B2R (x j) * B2R (y j)))).
  assert (N : 0 <= INR n <= 4) by (split; [apply pos_INR|replace 4 with (INR 4) by (cbn; ring); apply le_INR; exact Hn]).
  assert (HS : 0 <= S <= A * V).
  { split; [apply rsum_nonneg; intros; apply Rabs_pos|]. unfold S.
    replace (rsum n (fun j => Rabs (B2R (x j) * B2R (y j)))) with (rsum n (fun j => Rabs (B2R (x j)) * Rabs (B2R (y j))))
      by (apply sum_ext; intros; symmetry; apply Rabs_mult).
    eapply Rle_trans; [apply Rle_abs|]. eapply Rle_trans; [apply fnrm_cs|].
    rewrite (abs_family (fun j => B2R (x j))), (abs_family (fun j => B2R (y j))). exact NN. }
  pose proof (pow_u_bound u (Datatypes.S n) ltac:(lra) ltac:(lia)) as P1. pose proof (pow_u_bound u n ltac:(lra) ltac:(lia)) as P2.
  assert (TB : INR n * t * (1 + u) ^ n <= u / 128 * V).
  { apply Rle_trans with (4 * t * 2); [|lra].
    apply Rmult_le_compat; try lra; [apply Rmult_le_pos; lra|apply Rmult_le_compat_r; lra]. }
  assert (AV : V <= A * V) by nra.
  assert (F : is_finite (sum n (fun j => nmul (x j) (y j))) = true).
  { apply dot_fin; [exact Fx|exact Fy|]. rewrite EU. fold S.
    assert (S * (1 + u) ^ Datatypes.S n <= (A * V) * 2) by (apply Rmult_le_compat; lra).
    assert (u / 128 * V <= A * V) by nra.
    assert (A * V <= 1048576 * V) by (apply Rmult_le_compat_r; lra). lra. }
  split; [exact F|]. eapply Rle_trans; [apply dot_err_bound; exact F|]. rewrite EU. fold S.
  assert (((1 + u) ^ Datatypes.S n - 1) * S <= 7 * u * (A * V)) by (apply Rmult_le_compat; lra).
  assert (u / 128 * V <= u / 128 * (A * V)) by (apply Rmult_le_compat_l; lra).
  assert (0 < u * (A * V)) by (apply Rmult_lt_0_compat; lra). lra.
Qed.

(** Products with a scalar. *)
Lemma mul1 (x y : fl) M : is_finite x = true -> is_finite y = true -> Rabs (B2R x * B2R y) <= M * V -> M <= 1048576 ->
  is_finite (nmul x y) = true /\ Rabs (B2R (nmul x y) - B2R x * B2R y) <= u * Rabs (B2R x * B2R y) + u / 4096 * V.
Proof.
  intros Fx Fy HM HM2. pose proof (wok_pos _ HV) as V0. pose proof (V_max V HV) as VM. pose proof (@ftiny_w prec emax _ HV) as T.
  assert (F : is_finite (nmul x y) = true) by (apply fmul_fin; auto; nra). split; [exact F|].
  destruct (fmul_err _ _ F) as (d & e & Hd & He' & E). rewrite E. rewrite funit_eq in Hd.
  replace (B2R x * B2R y * (1 + d) + e - B2R x * B2R y) with (d * (B2R x * B2R y) + e) by ring.
  eapply Rle_trans; [apply Rabs_triang|]. rewrite Rabs_mult.
  assert (Rabs d * Rabs (B2R x * B2R y) <= u * Rabs (B2R x * B2R y)) by (apply Rmult_le_compat_r; [apply Rabs_pos|exact Hd]). lra.
Qed.

Lemma scale_step (c : fl) g W e C M m L d (y : nat -> fl) (a : nat -> R) :
  is_finite c = true -> 0 <= W -> Rabs (B2R c - g) <= e * W -> Rabs g <= C * W -> 0 <= e -> 0 <= C ->
  (forall j, (j < n)%nat -> is_finite (y j) = true) -> fnrm n (fun j => B2R (y j) - a j) <= d -> fnrm n (fun j => B2R (y j)) <= L ->
  L * W <= M * V -> d * W <= m * V -> M * (C + e) <= 1048576 ->
  vn (m * C + M * e + (M * (C + e) + / 2048) * u) (fun i => nmul (y i) c) (fun i => a i * g).
Proof.
  intros Fc W0 Ec Gc e0 C0 Fy Ey Ly HM Hm HS. pose proof (wok_pos _ HV) as V0. pose proof (u_small H24) as U.
  assert (L0 : 0 <= L) by (eapply Rle_trans; [apply fnrm_pos|exact Ly]).
  assert (D0 : 0 <= d) by (eapply Rle_trans; [apply fnrm_pos|exact Ey]).
  assert (Bc : Rabs (B2R c) <= (C + e) * W).
  { replace (B2R c) with (g + (B2R c - g)) by ring. eapply Rle_trans; [apply Rabs_triang|]. lra. }
  assert (K : L * ((C + e) * W) <= M * (C + e) * V).
  { replace (L * ((C + e) * W)) with ((C + e) * (L * W)) by ring. replace (M * (C + e) * V) with ((C + e) * (M * V)) by ring. apply Rmult_le_compat_l; lra. }
  assert (Bp : forall i, (i < n)%nat -> Rabs (B2R (y i) * B2R c) <= M * (C + e) * V).
  { intros i Hi. rewrite Rabs_mult. eapply Rle_trans; [|exact K].
    apply Rmult_le_compat; try apply Rabs_pos; [|exact Bc]. eapply Rle_trans; [apply (fnrm_comp n (fun j => B2R (y j)) i Hi)|exact Ly]. }
  assert (F : forall i, (i < n)%nat -> is_finite (nmul (y i) c) = true).
  { intros i Hi. exact (proj1 (mul1 _ _ _ (Fy i Hi) Fc (Bp i Hi) HS)). }
  split; [exact F|].
  assert (P1 : fnrm n (fun i => B2R (nmul (y i) c) - B2R (y i) * B2R c) <= (M * (C + e) + / 2048) * u * V).
  { apply Rle_trans with (fnrm n (fun i => Rabs (u * (B2R (y i) * B2R c)) + u / 4096 * V)).
    - apply fnrm_le. intros i Hi. destruct (mul1 _ _ _ (Fy i Hi) Fc (Bp i Hi) HS) as (_ & E). eapply Rle_trans; [exact E|].
      rewrite (Rabs_mult u), (Rabs_pos_eq u) by lra. rewrite (Rabs_pos_eq (_ + _)); [lra|].
      apply Rplus_le_le_0_compat; [apply Rmult_le_pos; [lra|apply Rabs_pos]|apply Rmult_le_pos; lra].
    - eapply Rle_trans; [apply fnrm_tri|]. rewrite (abs_family (fun i => u * (B2R (y i) * B2R c))).
      assert (T : fnrm n (fun _ => u / 4096 * V) <= 2 * (u / 4096 * V)).
      { assert (0 <= u / 4096 * V) by (apply Rmult_le_pos; lra).
        eapply Rle_trans; [apply (fnrm_bound n _ (u / 4096 * V)); [assumption|]; intros; rewrite Rabs_pos_eq; lra|].
        apply Rmult_le_compat_r; [assumption|apply sqrt_INR_2; exact Hn]. }
      rewrite (fnrm_ext n _ (fun i => (u * B2R c) * B2R (y i))) by (intros; ring). rewrite fnrm_scale, Rabs_mult, (Rabs_pos_eq u) by lra.
      assert (fnrm n (fun i => B2R (y i)) * Rabs (B2R c) <= M * (C + e) * V).
      { eapply Rle_trans; [|exact K]. apply Rmult_le_compat; [apply fnrm_pos|apply Rabs_pos|exact Ly|exact Bc]. }
      assert (u * (fnrm n (fun i => B2R (y i)) * Rabs (B2R c)) <= u * (M * (C + e) * V)) by (apply Rmult_le_compat_l; lra). lra. }
  assert (P2 : fnrm n (fun i => B2R (y i) * B2R c - a i * g) <= (m * C + M * e) * V).
  { rewrite (fnrm_ext n _ (fun i => (B2R c - g) * B2R (y i) + g * (B2R (y i) - a i))) by (intros; ring).
    eapply Rle_trans; [apply fnrm_tri|]. rewrite !fnrm_scale.
    assert (Rabs (B2R c - g) * fnrm n (fun i => B2R (y i)) <= (e * W) * L) by (apply Rmult_le_compat; [apply Rabs_pos|apply fnrm_pos|exact Ec|exact Ly]).
    assert (Rabs g * fnrm n (fun i => B2R (y i) - a i) <= (C * W) * d) by (apply Rmult_le_compat; [apply Rabs_pos|apply fnrm_pos|exact Gc|exact Ey]).
    assert (e * (L * W) <= e * (M * V)) by (apply Rmult_le_compat_l; assumption).
    assert (C * (d * W) <= C * (m * V)) by (apply Rmult_le_compat_l; assumption). lra. }
  pose proof (fnrm_tri3 n _ _ _ _ _ P1 P2). lra.
Qed.

(** Reflection at a hyperplane with normal near the unit vector [a]. *)
Variables (N : nat -> fl) (a : nat -> R) (d : R).
Hypothesis d0 : 0 <= d.
Hypothesis d8 : d <= / 8.
Hypothesis Ha : fnrm n a = 1.
Hypothesis FN : forall j, (j < n)%nat -> is_finite (N j) = true.
Hypothesis HN : fnrm n (fun j => B2R (N j) - a j) <= d.

Lemma N_len : fnrm n (fun j => B2R (N j)) <= 9 / 8.
Proof. pose proof (fnrm_near n _ _ _ HN). lra. Qed.

Lemma dot_normal e B (x : nat -> fl) r : vn e x r -> fnrm n r <= B * V -> 0 <= e -> 1 <= B + e -> B + e <= 1024 ->
  is_finite (sum n (fun j => nmul (x j) (N j))) = true /\
  Rabs (B2R (sum n (fun j => nmul (x j) (N j))) - rsum n (fun j => r j * a j)) <= (9 / 8 * e + B * d + 9 * u * (B + e)) * V.
Proof.
  intros (Fx & Ex) HB e0 B1 B2. pose proof (wok_pos _ HV) as V0. pose proof N_len as NL.
  assert (Nx : fnrm n (fun j => B2R (x j)) <= (B + e) * V) by (pose proof (fnrm_near n _ _ _ Ex); lra).
  assert (NN : fnrm n (fun j => B2R (x j)) * fnrm n (fun j => B2R (N j)) <= (9 / 8 * (B + e)) * V).
  { replace (9 / 8 * (B + e) * V) with ((B + e) * V * (9 / 8)) by ring. apply Rmult_le_compat; try apply fnrm_pos; assumption. }
  destruct (dotg (9 / 8 * (B + e)) x N ltac:(lra) ltac:(lra) Fx FN NN) as (F & E). split; [exact F|].
  assert (P : Rabs (rsum n (fun j => B2R (x j) * B2R (N j)) - rsum n (fun j => r j * a j)) <= (9 / 8 * e + B * d) * V).
  { rewrite rsum_minus.
    replace (rsum n (fun j => B2R (x j) * B2R (N j) - r j * a j)) with (rsum n (fun j => (B2R (x j) - r j) * B2R (N j)) + rsum n (fun j => r j * (B2R (N j) - a j))).
    2:{ rewrite rsum_plus. apply sum_ext. intros j Hj. ring. }
    eapply Rle_trans; [apply Rabs_triang|].
    assert (Rabs (rsum n (fun j => (B2R (x j) - r j) * B2R (N j))) <= (e * V) * (9 / 8)).
    { eapply Rle_trans; [apply fnrm_cs|]. apply Rmult_le_compat; try apply fnrm_pos; assumption. }
    assert (Rabs (rsum n (fun j => r j * (B2R (N j) - a j))) <= (B * V) * d).
    { eapply Rle_trans; [apply fnrm_cs|]. apply Rmult_le_compat; try apply fnrm_pos; assumption. }
    lra. }
  apply Rabs_le_inv in E, P. apply Rabs_le. lra.
Qed.

(** The mirror term: normal times twice the inner product. *)
Lemma mirror_term e B (x : nat -> fl) r : vn e x r -> fnrm n r <= B * V -> 0 <= e <= / 8 -> 1 <= B -> B <= 64 ->
  forall c, c = nmul (sum n (fun j => nmul (x j) (N j))) (nadd n1 n1) \/ c = nmul (nadd n1 n1) (sum n (fun j => nmul (x j) (N j))) ->
  vn (17 / 4 * B * d + 81 / 32 * e + 30 * B * u) (fun i => nmul (N i) c) (fun i => a i * (2 * rsum n (fun j => r j * a j))).
Proof.
  intros Hx HB (e0 & e8) B1 B2 c Hc. pose proof (wok_pos _ HV) as V0. pose proof (u_small H24) as U.
  destruct (dot_normal e B x r Hx HB e0 ltac:(lra) ltac:(lra)) as (F & E).
  set (D := sum n (fun j => nmul (x j) (N j))) in *. set (g := rsum n (fun j => r j * a j)) in *.
  assert (Hc' : c = nmul D (nadd n1 n1)) by (destruct Hc as [->| ->]; [reflexivity|apply fmul_comm]). clear Hc. subst c.
  destruct (@fapp_2 prec emax _ _ H24) as (F2 & _ & E2). rewrite Rmult_0_l, Rmult_0_l in E2.
  assert (V2 : B2R (nadd n1 n1 : fl) = 2) by (apply Rabs_le_inv in E2; lra).
  assert (G : Rabs g <= B * V).
  { unfold g. eapply Rle_trans; [apply fnrm_cs|]. rewrite Ha. lra. }
  set (e1 := 9 / 8 * e + B * d + 9 * u * (B + e)) in *.
  assert (BD : 0 <= B * d <= B / 8) by nra. assert (UE : 0 <= u * e <= u / 8) by nra. assert (UB : u <= u * B <= / 16777216 * B) by nra.
  assert (E10 : 0 <= e1 <= 3 / 10 * B) by (unfold e1; lra).
  assert (BDf : Rabs (B2R D) <= (B + e1) * V).
  { replace (B2R D) with (g + (B2R D - g)) by ring. eapply Rle_trans; [apply Rabs_triang|]. lra. }
  assert (M1 : Rabs (B2R D * B2R (nadd n1 n1 : fl)) <= 2 * (B + e1) * V) by (rewrite V2, Rabs_mult, (Rabs_pos_eq 2) by lra; lra).
  destruct (mul1 D (nadd n1 n1) (2 * (B + e1)) F F2 M1 ltac:(lra)) as (F3 & E3).
  set (c := nmul D (nadd n1 n1)) in *.
  assert (E4 : Rabs (B2R c - 2 * g) <= (2 * e1 + 2 * (B + e1) * u + u / 4096) * V).
  { rewrite V2 in E3, M1. assert (u * Rabs (B2R D * 2) <= u * (2 * (B + e1) * V)) by (apply Rmult_le_compat_l; lra).
    apply Rabs_le_inv in E3, E. apply Rabs_le. lra. }
  assert (BU : B * d * u <= B / 8 * u) by (apply Rmult_le_compat_r; lra).
  assert (EU1 : 0 <= e1 * u <= 3 / 10 * (B * u)) by nra.
  set (e2 := 2 * e1 + 2 * (B + e1) * u + u / 4096) in *.
  assert (E20 : 0 <= e2 <= B) by (unfold e2; lra).
  assert (G2 : Rabs (2 * g) <= 2 * B * V) by (rewrite Rabs_mult, (Rabs_pos_eq 2) by lra; lra).
  pose proof (scale_step c (2 * g) V e2 (2 * B) (9 / 8) d (9 / 8) d N a F3 ltac:(lra) E4 G2 ltac:(lra) ltac:(lra) FN HN N_len ltac:(lra) ltac:(lra) ltac:(lra)) as R1.
  eapply vne_weak; [exact HV|exact R1|]. assert (e2 * u <= B * u) by (apply Rmult_le_compat_r; lra). unfold e2, e1 in *. lra.
Qed.
End RefF.
