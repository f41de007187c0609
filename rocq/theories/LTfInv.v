(** Inverting affine transforms in floats (C162). *)

From Coq Require Import List Arith ZArith Bool Lia Reals Lra Psatz.
From Flocq Require Import Core.Core IEEE754.BinarySingleNaN.
From Verif Require Import Base Scalar Spec SpecF SpecArc SpecRigid MReal MVector MMatrix MPoint MTransform MFloat MFloatVec
  LBase LVector LMatrix LMatrixDet LReal LFloat LFloatVec LFloatP LFloatNormP LDriftM LTrScF LRigidF LTfF LTfP LTfMulP.
Local Open Scope R_scope.

(** *** The exact inverse is not large *)
Lemma ab_prod a b A B : Rabs a <= A -> Rabs b <= B -> Rabs (a * b) <= A * B.
Proof. intros HA HB. rewrite Rabs_mult. apply Rmult_le_compat; try apply Rabs_pos; assumption. Qed.
Lemma ab_add a b A B : Rabs a <= A -> Rabs b <= B -> Rabs (a + b) <= A + B.
Proof. intros HA HB. pose proof (Rabs_triang a b). lra. Qed.
Lemma ab_sub a b A B : Rabs a <= A -> Rabs b <= B -> Rabs (a - b) <= A + B.
Proof. intros HA HB. unfold Rminus. apply ab_add; [exact HA|]. rewrite Rabs_Ropp. exact HB. Qed.
Lemma inv_bound d x K M3 Mn Dr : 0 < M3 -> 0 < Mn -> M3 <= Dr * Rabs d -> Rabs x <= K * Mn -> 0 < K -> Rabs (1 / d * x) <= K * Dr * (Mn / M3).
Proof.
  intros P3 Pn H HX K0. assert (D0 : 0 < Rabs d) by (destruct (Rabs_pos d) as [D|D]; [exact D|rewrite <- D in H; lra]).
  assert (N : d <> 0) by (intros Z; rewrite Z, Rabs_R0 in D0; lra). unfold Rdiv. rewrite Rmult_1_l, Rabs_mult, Rabs_inv.
  assert (I : / Rabs d <= Dr * / M3).
  { apply (Rmult_le_reg_l (Rabs d)); [exact D0|]. rewrite Rinv_r by lra. apply (Rmult_le_reg_r M3); [exact P3|]. replace (Rabs d * (Dr * / M3) * M3) with (Dr * Rabs d) by (field; lra). lra. }
  replace (K * Dr * (Mn * / M3)) with (Dr * / M3 * (K * Mn)) by ring. apply Rmult_le_compat; try apply Rabs_pos; [left; apply Rinv_0_lt_compat, D0|exact I|exact HX].
Qed.
Lemma inv_size3 (a c : mat R 3 3) M Dr : 0 < M -> (forall j i, (j < 3)%nat -> (i < 3)%nat -> Rabs (mget a j i) <= M) -> M * M * M <= Dr * Rabs (m3det a) -> mmul a c = midentity 3 ->
  forall j i, (j < 3)%nat -> (i < 3)%nat -> Rabs (mget c j i) <= 2 * Dr / M.
Proof.
  intros M0 HA HD HC. assert (P3 : 0 < M * M * M) by (repeat apply Rmult_lt_0_compat; exact M0). assert (P2 : 0 < M * M) by (apply Rmult_lt_0_compat; exact M0).
  destruct (m3try_inverse a) as [w|] eqn:E; [|apply m3try_inverse_none in E; change (m3det a = 0) in E; rewrite E, Rabs_R0 in HD; lra].
  assert (X : w = c). { destruct (m3try_inverse_some a w E) as (_ & L). rewrite <- (mmul_1_r _ _ w), <- HC, <- mmul_assoc, L. apply mmul_1_l. }
  subst w. unfold m3try_inverse in E. cbv zeta in E. destruct (nis0 (m3det a)); [discriminate|]. injection E as <-.
  replace (2 * Dr / M) with (2 * Dr * (M * M / (M * M * M))) by (field; lra).
  assert (G : forall i j i' j' k l k' l', (i < 3)%nat -> (j < 3)%nat -> (i' < 3)%nat -> (j' < 3)%nat -> (k < 3)%nat -> (l < 3)%nat -> (k' < 3)%nat -> (l' < 3)%nat -> Rabs (1 / m3det a * (mget a i j * mget a i' j' - mget a k l * mget a k' l')) <= 2 * Dr * (M * M / (M * M * M))).
  { intros. apply inv_bound; [exact P3|exact P2|exact HD| |lra]. replace (2 * (M * M)) with (M * M + M * M) by ring. apply ab_sub; apply ab_prod; apply HA; assumption. }
  intros j i Hj Hi. destruct j as [|[|[|?]]]; try lia; destruct i as [|[|[|?]]]; try lia; apply G; lia.
Qed.
Lemma inv_size4 (a c : mat R 4 4) M Dr : 0 < M -> (forall j i, (j < 4)%nat -> (i < 4)%nat -> Rabs (mget a j i) <= M) -> M * M * M * M <= Dr * Rabs (m4det a) -> mmul a c = midentity 4 ->
  forall j i, (j < 4)%nat -> (i < 4)%nat -> Rabs (mget c j i) <= 6 * Dr / M.
Proof.
  intros M0 HA HD HC. assert (P4 : 0 < M * M * M * M) by (repeat apply Rmult_lt_0_compat; exact M0). assert (P3 : 0 < M * M * M) by (repeat apply Rmult_lt_0_compat; exact M0).
  destruct (m4try_inverse a) as [w|] eqn:E; [|apply m4try_inverse_none in E; change (m4det a = 0) in E; rewrite E, Rabs_R0 in HD; lra].
  assert (X : w = c). { destruct (m4try_inverse_some a w E) as (_ & L). rewrite <- (mmul_1_r _ _ w), <- HC, <- mmul_assoc, L. apply mmul_1_l. }
  subst w. unfold m4try_inverse in E. cbv zeta in E. destruct (nis0 (m4det a)); [discriminate|]. injection E as <-.
  replace (6 * Dr / M) with (6 * Dr * (M * M * M / (M * M * M * M))) by (field; lra).
  assert (T : forall i j k l m n, (i < 4)%nat -> (j < 4)%nat -> (k < 4)%nat -> (l < 4)%nat -> (m < 4)%nat -> (n < 4)%nat -> Rabs (mget a i j * mget a k l * mget a m n) <= M * M * M) by (intros; apply ab_prod; [apply ab_prod|]; apply HA; assumption).
  assert (G : forall p q r s t v, Rabs p <= M * M * M -> Rabs q <= M * M * M -> Rabs r <= M * M * M -> Rabs s <= M * M * M -> Rabs t <= M * M * M -> Rabs v <= M * M * M -> Rabs (1 / m4det a * (p + q + r - s - t - v)) <= 6 * Dr * (M * M * M / (M * M * M * M))).
  { intros. apply inv_bound; [exact P4|exact P3|exact HD| |lra]. replace (6 * (M * M * M)) with (M * M * M + M * M * M + M * M * M + M * M * M + M * M * M + M * M * M) by ring. repeat first [apply ab_sub|apply ab_add]; assumption. }
  intros j i Hj Hi. destruct j as [|[|[|[|?]]]]; try lia; destruct i as [|[|[|[|?]]]]; try lia; apply G; apply T; lia.
Qed.

(** *** Solving with the exact inverse *)
Lemma solve_real n (f c : nat -> nat -> R) (y : nat -> R) : (n <= 3)%nat ->
  (forall i j, (i <= n)%nat -> (j <= n)%nat -> rsum (S n) (fun k => f k i * c j k) = if Nat.eqb i j then 1 else 0) -> (forall k, (k < n)%nat -> f k n = 0) -> f n n = 1 ->
  (forall j, (j < n)%nat -> c j n = 0) /\ c n n = 1 /\
  (forall i, (i < n)%nat -> rsum n (fun k => f k i * rsum n (fun j => c j k * y j)) = y i) /\
  (forall i, (i < n)%nat -> rsum n (fun k => f k i * (rsum n (fun j => c j k * y j) + c n k)) + f n i = y i).
Proof.
  intros Hn E Z O.
  assert (L : forall j, (j <= n)%nat -> c j n = if Nat.eqb n j then 1 else 0).
  { intros j Hj. rewrite <- (E n j (le_n n) Hj), LFloat.rsum_S, O, Rmult_1_l. rewrite <- (Rplus_0_l (c j n)) at 1. f_equal. symmetry. transitivity (rsum n (fun _ => 0)); [apply sum_ext; intros k Hk; rewrite Z by exact Hk; apply Rmult_0_l|]. rewrite rsum_const. ring. }
  assert (L0 : forall j, (j < n)%nat -> c j n = 0) by (intros j Hj; rewrite L by lia; destruct (Nat.eqb_spec n j); [lia|reflexivity]).
  assert (L1 : c n n = 1) by (rewrite L, Nat.eqb_refl by lia; reflexivity).
  split; [exact L0|]. split; [exact L1|].
  assert (S1 : forall i, (i < n)%nat -> rsum n (fun k => f k i * rsum n (fun j => c j k * y j)) = y i).
  { intros i Hi. transitivity (rsum n (fun j => y j * rsum (S n) (fun k => f k i * c j k))).
    - destruct n as [|[|[|[|n]]]]; [| | | |lia]; rewrite ?LFloat.rsum_S; change (rsum 0 ?h) with 0; [ring| | |];
        [rewrite ?(L0 0%nat) by lia|rewrite ?(L0 0%nat), ?(L0 1%nat) by lia|rewrite ?(L0 0%nat), ?(L0 1%nat), ?(L0 2%nat) by lia]; ring.
    - transitivity (rsum n (fun j => y j * if Nat.eqb i j then 1 else 0)); [apply sum_ext; intros j Hj; f_equal; apply E; lia|].
      destruct n as [|[|[|[|n]]]]; [lia| | | |lia]; rewrite ?LFloat.rsum_S; change (rsum 0 ?h) with 0; destruct i as [|[|[|i]]]; try lia; cbn [Nat.eqb]; ring. }
  split; [exact S1|]. intros i Hi. rewrite <- (S1 i Hi) at 1. pose proof (E i n ltac:(lia) (le_n n)) as X. rewrite LFloat.rsum_S, L1 in X. destruct (Nat.eqb_spec i n); [lia|].
  transitivity (rsum n (fun k => f k i * rsum n (fun j => c j k * y j)) + (rsum n (fun k => f k i * c n k) + f n i * 1)); [|rewrite X; ring].
  destruct n as [|[|[|[|n]]]]; [| | | |lia]; rewrite ?LFloat.rsum_S; change (rsum 0 ?h) with 0; ring.
Qed.
