(** Proofs of the theorems of PFloatEx.v. *)

From Coq Require Import List Arith ZArith Bool Lia Reals Lra.
From Flocq Require Import Core.Core IEEE754.BinarySingleNaN.
From Verif Require Import Base Scalar Spec SpecF LBase MVector LVector MMatrix LMatrix MComplex MQuat MFloat LFloat LFloatEx LMatrixDet LQuat LFloatAcc LFloatNormP.
Import ListNotations.

(** Discharges the bounds of an expression tree over leaves bounded by [A]. *)
Ltac fintb_tree :=
  repeat first [eassumption | fintb_step]; try lia.

Lemma fint_of_bound {prec emax} B (x : binary_float prec emax) a : fintb B x a -> fint x a.
Proof. intros H. exact (proj1 H). Qed.

Lemma pow_chain A : (1 <= A)%Z -> (1 <= A <= A * A /\ A * A <= A * A * A /\ A * A * A <= A * A * A * A)%Z.
Proof. intros H. nia. Qed.




Section Dets.
Context {prec emax : Z} {Hprec : Prec_gt_0 prec} {Hemax : Prec_lt_emax prec emax}.
Notation fl := (binary_float prec emax).


Lemma det2_bound A (m : mat fl 2 2) (a : mat Z 2 2) :
  (2 * (A * A) < 2 ^ prec)%Z ->
  (forall j i, (j < 2)%nat -> (i < 2)%nat -> fintb A (mget m j i) (mget a j i)) ->
  fintb (A * A + A * A) (m2det m) (m2det a).
Proof.
  intros L H. assert (0 <= A * A)%Z by nia. unfold m2det. cbn [nmul nsub num_Z].
  repeat fintb_step; try (apply H; lia); lia.
Qed.

Lemma det3_bound A (m : mat fl 3 3) (a : mat Z 3 3) :
  (1 <= A)%Z -> (6 * (A * A * A) < 2 ^ prec)%Z ->
  (forall j i, (j < 3)%nat -> (i < 3)%nat -> fintb A (mget m j i) (mget a j i)) ->
  fintb (A * A * A + A * A * A + A * A * A + A * A * A + A * A * A + A * A * A) (m3det m) (m3det a).
Proof.
  intros A1 L H. destruct (pow_chain A A1) as (C1 & C2 & C3). unfold m3det. cbn [nmul nsub nadd num_Z].
  repeat fintb_step; try (apply H; lia); lia.
Qed.

Lemma det4_bound A (m : mat fl 4 4) (a : mat Z 4 4) :
  (1 <= A)%Z -> (24 * (A * A * A * A) < 2 ^ prec)%Z ->
  (forall j i, (j < 4)%nat -> (i < 4)%nat -> fintb A (mget m j i) (mget a j i)) ->
  exists B, fintb B (m4det m) (m4det a).
Proof.
  intros A1 L H. destruct (pow_chain A A1) as (C1 & C2 & C3). eexists. unfold m4det. cbn [nmul nsub nadd num_Z].
  set (P := (A * A * A * A)%Z) in *.
  assert (M : forall j1 j2 j3 j4 i1 i2 i3 i4, (j1 < 4)%nat -> (j2 < 4)%nat -> (j3 < 4)%nat -> (j4 < 4)%nat ->
     (i1 < 4)%nat -> (i2 < 4)%nat -> (i3 < 4)%nat -> (i4 < 4)%nat ->
     fintb P (nmul (nmul (nmul (mget m j1 i1) (mget m j2 i2)) (mget m j3 i3)) (mget m j4 i4))
             (mget a j1 i1 * mget a j2 i2 * mget a j3 i3 * mget a j4 i4)%Z).
  { intros. unfold P. repeat fintb_step; try (apply H; assumption); lia. }
  repeat match goal with
  | |- fintb _ (nmul (nmul (nmul _ _) _) _) _ => apply M; lia
  | |- fintb _ (nadd _ _) _ => eapply fintb_add
  | |- fintb _ (nsub _ _) _ => eapply fintb_sub
  end; lia.
Qed.
End Dets.

(** ** Tools for the accuracy theorems *)
Section AccTools.
Context {prec emax : Z} {Hprec : Prec_gt_0 prec} {Hemax : Prec_lt_emax prec emax}.
Notation fl := (binary_float prec emax).
Hypothesis Hp : (24 <= prec)%Z.
Local Open Scope R_scope.

Lemma fapp_near V A e c (x : fl) r : 0 < V -> fapp V A e x r -> (e <= 1024 * c)%Z -> fnear x r (IZR c * bpow radix2 (- prec) * V).
Proof.
  intros P (F & _ & E) L. split; [exact F|]. eapply Rle_trans; [exact E|].
  apply IZR_le in L. rewrite mult_IZR in L. pose proof (bpow_gt_0 radix2 (- prec)) as U.
  apply Rmult_le_compat_r; [lra|].
  replace (IZR c * bpow radix2 (- prec)) with (1024 * IZR c * (bpow radix2 (- prec) / 1024)) by field.
  apply Rmult_le_compat_r; lra.
Qed.

Lemma pow24 : (2 ^ 24 <= 2 ^ prec)%Z.
Proof. apply Z.pow_le_mono_r; lia. Qed.

Lemma wok_1 : (31 <= emax)%Z -> @wok emax 1.
Proof.
  intros E. change 1 with (bpow radix2 0). split; apply bpow_le; lia.
Qed.

Lemma wok_between a b x : @wok emax a -> @wok emax b -> (a <= x <= b) \/ (b <= x <= a) -> @wok emax x.
Proof. unfold wok. intros. lra. Qed.

Lemma wok_pows M : (31 <= emax)%Z -> 0 < M -> @wok emax (M * M * M * M) ->
  @wok emax (M * M) /\ @wok emax (M * M * M).
Proof.
  intros E P H. pose proof (wok_1 E) as H1.
  assert (P2 : 0 < M * M) by (apply Rmult_lt_0_compat; lra).
  assert (P3 : 0 < M * M * M) by (apply Rmult_lt_0_compat; lra).
  destruct (Rle_dec 1 M) as [G|G].
  - assert (1 <= M * M) by (rewrite <- (Rmult_1_l 1); apply Rmult_le_compat; lra).
    assert (M * M * 1 <= M * M * M) by (apply Rmult_le_compat_l; lra).
    assert (M * M * M * 1 <= M * M * M * M) by (apply Rmult_le_compat_l; lra).
    split; apply (wok_between _ _ _ H1 H); lra.
  - assert (M * M <= 1 * 1) by (apply Rmult_le_compat; lra).
    assert (M * M * M <= M * M * 1) by (apply Rmult_le_compat_l; lra).
    assert (M * M * M * M <= M * M * M * 1) by (apply Rmult_le_compat_l; lra).
    split; apply (wok_between _ _ _ H1 H); lra.
Qed.

Lemma wok_cube M : (31 <= emax)%Z -> 0 < M -> @wok emax (M * M * M) -> @wok emax (M * M).
Proof.
  intros E P H. pose proof (wok_1 E) as H1.
  assert (P2 : 0 < M * M) by (apply Rmult_lt_0_compat; lra).
  destruct (Rle_dec 1 M) as [G|G].
  - assert (1 <= M * M) by (rewrite <- (Rmult_1_l 1); apply Rmult_le_compat; lra).
    assert (M * M * 1 <= M * M * M) by (apply Rmult_le_compat_l; lra).
    apply (wok_between _ _ _ H1 H); lra.
  - assert (M * M <= 1 * 1) by (apply Rmult_le_compat; lra).
    assert (M * M * M <= M * M * 1) by (apply Rmult_le_compat_l; lra).
    apply (wok_between _ _ _ H1 H); lra.
Qed.

(** A product of two leaves, and sums of up to four of them. *)
Lemma fapp_prod P N (x y : fl) : 0 < P -> 0 < N -> @wok emax (P * N) -> fbnd P x -> fbnd N y ->
  fapp (P * N) 1 1025 (nmul x y) (B2R x * B2R y).
Proof.
  intros HP HN HW Hx Hy. pose proof pow24.
  apply (fapp_weak _ (1 * 1) _ (0 * 1 + 1 * 0 + 1024 * (1 * 1) + 1)); try lia.
  - exact (wok_pos _ HW).
  - apply fapp_mul; auto using fapp_leaf; lia.
Qed.
Lemma fapp_prod_sym P N (x y : fl) : 0 < P -> 0 < N -> @wok emax (P * N) -> fbnd P x -> fbnd N y ->
  fapp (P * N) 1 1025 (nmul y x) (B2R x * B2R y).
Proof. intros. rewrite (fmul_comm y x). apply fapp_prod; assumption. Qed.
Lemma fapp_prod3 M (x y z : fl) : 0 < M -> @wok emax (M * M) -> @wok emax (M * M * M) -> fbnd M x -> fbnd M y -> fbnd M z ->
  fapp (M * M * M) 1 2050 (nmul (nmul x y) z) (B2R x * B2R y * B2R z).
Proof.
  intros HM W2 W3 Hx Hy Hz. pose proof pow24.
  apply (fapp_weak _ (1 * 1) _ (1025 * 1 + 1 * 0 + 1024 * (1 * 1) + 1)); try lia.
  - exact (wok_pos _ W3).
  - apply fapp_mul; auto using fapp_leaf, fapp_prod; try lia. exact (wok_pos _ W2).
Qed.
Lemma fapp_prod4 M (x y z t : fl) : 0 < M -> @wok emax (M * M) -> @wok emax (M * M * M) -> @wok emax (M * M * M * M) ->
  fbnd M x -> fbnd M y -> fbnd M z -> fbnd M t ->
  fapp (M * M * M * M) 1 3075 (nmul (nmul (nmul x y) z) t) (B2R x * B2R y * B2R z * B2R t).
Proof.
  intros HM W2 W3 W4 Hx Hy Hz Ht. pose proof pow24.
  apply (fapp_weak _ (1 * 1) _ (2050 * 1 + 1 * 0 + 1024 * (1 * 1) + 1)); try lia.
  - exact (wok_pos _ W4).
  - apply fapp_mul; auto using fapp_leaf, fapp_prod3; try lia. exact (wok_pos _ W3).
Qed.
End AccTools.

(** Applies the rules of the calculus to an expression tree; [leaf] closes the leaves. *)
Ltac fapp_tree H24 HW leaf :=
  lazymatch goal with
  | |- fapp _ _ _ (nadd _ _) _ => eapply (fapp_add H24); [exact HW | fapp_tree H24 HW leaf | fapp_tree H24 HW leaf | lia | lia]
  | |- fapp _ _ _ (nsub _ _) _ => eapply (fapp_sub H24); [exact HW | fapp_tree H24 HW leaf | fapp_tree H24 HW leaf | lia | lia]
  | |- fapp _ _ _ (nneg _) _ => eapply fapp_neg; fapp_tree H24 HW leaf
  | |- fapp _ _ _ n0 _ => apply fapp_0
  | |- _ => leaf
  end.


Lemma m3det_real {prec emax} {Hp : Prec_gt_0 prec} {He : Prec_lt_emax prec emax} (m : mat (binary_float prec emax) 3 3) :
  laplace 3 (fun i j => B2R (mget m j i)) = (
  B2R (mget m 0 0) * B2R (mget m 1 1) * B2R (mget m 2 2) -
  B2R (mget m 0 0) * B2R (mget m 1 2) * B2R (mget m 2 1) -
  B2R (mget m 1 0) * B2R (mget m 0 1) * B2R (mget m 2 2) +
  B2R (mget m 1 0) * B2R (mget m 0 2) * B2R (mget m 2 1) +
  B2R (mget m 2 0) * B2R (mget m 0 1) * B2R (mget m 1 2) -
  B2R (mget m 2 0) * B2R (mget m 0 2) * B2R (mget m 1 1))%R.
Proof. cbv [laplace sum sgn minor Nat.ltb Nat.leb nadd nmul nneg n0 n1 num_R]. ring. Qed.

Lemma m4det_real {prec emax} {Hp : Prec_gt_0 prec} {He : Prec_lt_emax prec emax} (m : mat (binary_float prec emax) 4 4) :
  laplace 4 (fun i j => B2R (mget m j i)) = (
  B2R (mget m 0 0) * B2R (mget m 1 1) * B2R (mget m 2 2) * B2R (mget m 3 3) -
  B2R (mget m 0 0) * B2R (mget m 1 1) * B2R (mget m 2 3) * B2R (mget m 3 2) -
  B2R (mget m 0 0) * B2R (mget m 2 1) * B2R (mget m 1 2) * B2R (mget m 3 3) +
  B2R (mget m 0 0) * B2R (mget m 2 1) * B2R (mget m 1 3) * B2R (mget m 3 2) +
  B2R (mget m 0 0) * B2R (mget m 3 1) * B2R (mget m 1 2) * B2R (mget m 2 3) -
  B2R (mget m 0 0) * B2R (mget m 3 1) * B2R (mget m 1 3) * B2R (mget m 2 2) -
  B2R (mget m 1 0) * B2R (mget m 0 1) * B2R (mget m 2 2) * B2R (mget m 3 3) +
  B2R (mget m 1 0) * B2R (mget m 0 1) * B2R (mget m 2 3) * B2R (mget m 3 2) +
  B2R (mget m 1 0) * B2R (mget m 2 1) * B2R (mget m 0 2) * B2R (mget m 3 3) -
  B2R (mget m 1 0) * B2R (mget m 2 1) * B2R (mget m 0 3) * B2R (mget m 3 2) -
  B2R (mget m 1 0) * B2R (mget m 3 1) * B2R (mget m 0 2) * B2R (mget m 2 3) +
  B2R (mget m 1 0) * B2R (mget m 3 1) * B2R (mget m 0 3) * B2R (mget m 2 2) +
  B2R (mget m 2 0) * B2R (mget m 0 1) * B2R (mget m 1 2) * B2R (mget m 3 3) -
  B2R (mget m 2 0) * B2R (mget m 0 1) * B2R (mget m 1 3) * B2R (mget m 3 2) -
  B2R (mget m 2 0) * B2R (mget m 1 1) * B2R (mget m 0 2) * B2R (mget m 3 3) +
  B2R (mget m 2 0) * B2R (mget m 1 1) * B2R (mget m 0 3) * B2R (mget m 3 2) +
  B2R (mget m 2 0) * B2R (mget m 3 1) * B2R (mget m 0 2) * B2R (mget m 1 3) -
  B2R (mget m 2 0) * B2R (mget m 3 1) * B2R (mget m 0 3) * B2R (mget m 1 2) -
  B2R (mget m 3 0) * B2R (mget m 0 1) * B2R (mget m 1 2) * B2R (mget m 2 3) +
  B2R (mget m 3 0) * B2R (mget m 0 1) * B2R (mget m 1 3) * B2R (mget m 2 2) +
  B2R (mget m 3 0) * B2R (mget m 1 1) * B2R (mget m 0 2) * B2R (mget m 2 3) -
  B2R (mget m 3 0) * B2R (mget m 1 1) * B2R (mget m 0 3) * B2R (mget m 2 2) -
  B2R (mget m 3 0) * B2R (mget m 2 1) * B2R (mget m 0 2) * B2R (mget m 1 3) +
  B2R (mget m 3 0) * B2R (mget m 2 1) * B2R (mget m 0 3) * B2R (mget m 1 2))%R.
Proof. cbv [laplace sum sgn minor Nat.ltb Nat.leb nadd nmul nneg n0 n1 num_R]. ring. Qed.

(** The modulus bounds both components. *)
Lemma modulus_leaves {prec emax} (w : complex (binary_float prec emax)) n2 N :
  n2 = (B2R (re w) * B2R (re w) + B2R (im w) * B2R (im w))%R -> N = sqrt n2 -> (0 < N)%R ->
  is_finite (re w) = true -> is_finite (im w) = true ->
  n2 = (N * N)%R /\ fbnd N (re w) /\ fbnd N (im w).
Proof.
  intros E EN HN C D. set (a := B2R (re w)) in *. set (b := B2R (im w)) in *.
  assert (0 <= a * a)%R by (apply Rle_0_sqr). assert (0 <= b * b)%R by (apply Rle_0_sqr).
  assert (NN : n2 = (N * N)%R) by (rewrite EN, sqrt_sqrt; lra).
  split; [exact NN|]. split; split; auto.
  - fold a. rewrite <- (Rabs_pos_eq N) by lra. apply Rsqr_le_abs_0. unfold Rsqr. rewrite <- NN. lra.
  - fold b. rewrite <- (Rabs_pos_eq N) by lra. apply Rsqr_le_abs_0. unfold Rsqr. rewrite <- NN. lra.
Qed.

Lemma fapp_nonzero {prec emax} {Hprec : Prec_gt_0 prec} {Hemax : Prec_lt_emax prec emax} (H24 : (24 <= prec)%Z)
  V A D e (x : binary_float prec emax) r :
  (0 < V)%R -> fapp V A e x r -> (V <= IZR D * Rabs r)%R -> (1 <= D)%Z -> (0 <= e)%Z -> (e * D < 1024 * 2 ^ prec)%Z ->
  nis0 x = false.
Proof.
  intros V0 (F & _ & E) L D1 e0 ED. cbn [nis0 numdiv_float]. rewrite Beqb_correct by (assumption || reflexivity).
  apply Req_bool_false. cbn [B2R]. intros X. rewrite X in E.
  replace (0 - r)%R with (- r)%R in E by ring. rewrite Rabs_Ropp in E.
  assert (D0 : (0 < IZR D)%R) by (apply IZR_lt; lia).
  apply IZR_lt in ED. rewrite !mult_IZR in ED. pose proof (w_inv H24) as WI.
  pose proof (@w_pos prec) as WP. set (w := (bpow radix2 (- prec) / 1024)%R) in *.
  assert (IZR D * Rabs r <= IZR D * (IZR e * w * V))%R by (apply Rmult_le_compat_l; lra).
  assert (T : (IZR e * IZR D * w < 1024 * IZR (2 ^ prec) * w)%R) by (apply Rmult_lt_compat_r; assumption).
  assert (IZR e * IZR D * w * V < 1 * V)%R by (apply Rmult_lt_compat_r; lra).
  lra.
Qed.


(** One entry of an inverse: the reciprocal of the determinant times a cofactor. *)
Lemma inv_entry {prec emax} {Hprec : Prec_gt_0 prec} {Hemax : Prec_lt_emax prec emax} (H24 : (24 <= prec)%Z) (H31 : (31 <= emax)%Z)
  V W A D f C g (d c : binary_float prec emax) s k :
  (0 < V)%R -> (0 < W)%R -> @wok emax V -> @wok emax (1 / V * W) ->
  fapp V A f d s -> fapp W C g c k -> (V <= IZR D * Rabs s)%R ->
  (1 <= D)%Z -> (0 <= f)%Z -> (0 <= C)%Z -> (0 <= g)%Z -> (D * C + 1 <= 2 ^ 30)%Z -> (D + 1 <= 2 ^ 30)%Z ->
  (8 * (f * D * D) <= 2 ^ prec)%Z -> (2 * (D * f) <= 2 ^ prec)%Z ->
  (4 * ((2 * (f * D * D) + 1024 * D + 1) * g) <= 2 ^ prec)%Z ->
  (4 * (D * g + (2 * (f * D * D) + 1024 * D + 1) * C) <= 2 ^ prec)%Z ->
  fapp (1 / V * W) (D * C) ((2 * (f * D * D) + 1024 * D + 1) * C + D * g + 1024 * (D * C) + 1)
    (nmul (ndiv n1 d) c) (1 / s * k)%R.
Proof.
  intros V0 W0 WV WW HD HC L D1 f0 C0 g0 S1 S2 S3 S4 S5 S6.
  assert (WI : @wok emax (1 / V)).
  { destruct WV as [V1 V2]. split.
    - replace (31 - emax)%Z with (- (emax - 31))%Z by ring. rewrite bpow_opp. unfold Rdiv. rewrite Rmult_1_l.
      apply Rinv_le; assumption.
    - replace (emax - 31)%Z with (- (31 - emax))%Z by ring. rewrite bpow_opp. unfold Rdiv. rewrite Rmult_1_l.
      apply Rinv_le; [apply bpow_gt_0|assumption]. }
  assert (I : fapp (1 / V) (1 * D) (2 * (0 * D + 1 * f * D * D) + 1024 * (1 * D) + 1) (ndiv n1 d) (1 / s)).
  { eapply (fapp_div2 H24); try eassumption; try lia; try lra. apply fapp_1. }
  replace (1 * D)%Z with D in I by ring.
  replace (2 * (0 * D + 1 * f * D * D) + 1024 * D + 1)%Z with (2 * (f * D * D) + 1024 * D + 1)%Z in I by ring.
  apply (fapp_mul H24 (1 / V) W D C); try assumption; try lia; try nia.
  unfold Rdiv. rewrite Rmult_1_l. apply Rinv_0_lt_compat, V0.
Qed.

Lemma laplace_mat n (m : mat R n n) r : m = r -> laplace n (fun i j => mget m j i) = laplace n (fun i j => mget r j i).
Proof. intros ->. reflexivity. Qed.


Lemma wok_inv_base {emax} (H31 : (31 <= emax)%Z) M (HM : (0 < M)%R) V : @wok emax V ->
  ((M <= 1 -> V <= M) /\ (1 <= M -> M <= V))%R -> @wok emax (1 / M).
Proof.
  intros W (S1 & S2). pose proof (wok_1 H31) as H1. destruct W as [V1 V2]. unfold Rdiv. rewrite Rmult_1_l.
  assert (V0 : (0 < V)%R) by (eapply Rlt_le_trans; [apply bpow_gt_0|exact V1]).
  assert (I : @wok emax (/ V)).
  { split.
    - replace (31 - emax)%Z with (- (emax - 31))%Z by ring. rewrite bpow_opp. apply Rinv_le; assumption.
    - replace (emax - 31)%Z with (- (31 - emax))%Z by ring. rewrite bpow_opp. apply Rinv_le; [apply bpow_gt_0|assumption]. }
  apply (wok_between _ _ _ H1 I). destruct (Rle_dec M 1) as [G|G].
  - left. split; [rewrite <- Rinv_1; apply Rinv_le; lra|apply Rinv_le; auto].
  - right. split; [apply Rinv_le; [lra|apply S2; lra]|]. rewrite <- Rinv_1. apply Rinv_le; lra.
Qed.

(** M^n is between M and 1. *)
Ltac pow_side HM :=
  match type of HM with (0 < ?M)%R =>
    split; intros ?;
    [ assert (0 < M * M <= M)%R by nra; try assert (0 < M * M * M <= M)%R by nra; nra
    | assert (M <= M * M)%R by nra; try assert (M <= M * M * M)%R by nra; nra ]
  end.

Lemma c108_dot_exact :
  forall (prec emax : Z) (Hp : Prec_gt_0 prec) (He : Prec_lt_emax prec emax) (n : nat)
    (u v : vec (binary_float prec emax) n) (a b : vec Z n) (A B : Z),
    (forall i, (i < n)%nat -> fint (vat u i) (vat a i) /\ (Z.abs (vat a i) <= A)%Z) ->
    (forall i, (i < n)%nat -> fint (vat v i) (vat b i) /\ (Z.abs (vat b i) <= B)%Z) ->
    (0 <= A)%Z -> (0 <= B)%Z -> (Z.of_nat n * (A * B) < 2 ^ prec)%Z ->
    fint (vdot u v) (sum n (fun i => vat a i * vat b i)%Z).
Proof.
  intros prec emax Hp He n u v a b A B Hu Hv A0 B0 L. rewrite vdot_sum.
  destruct n as [|n]; [apply fint_0|].
  apply (fintb_sum (S n) (A * B)); [nia|exact L|].
  intros i Hi. apply fintb_mul; [exact (Hu i Hi)|exact (Hv i Hi)|]. nia.
Qed.

Lemma c108_matrix_product_exact :
  forall (prec emax : Z) (Hp : Prec_gt_0 prec) (He : Prec_lt_emax prec emax) (r c k : nat)
    (m : mat (binary_float prec emax) r c) (p : mat (binary_float prec emax) c k)
    (v : vec (binary_float prec emax) c)
    (a : mat Z r c) (b : mat Z c k) (w : vec Z c) (A B : Z),
    (forall j i, (j < c)%nat -> (i < r)%nat -> fint (mget m j i) (mget a j i) /\ (Z.abs (mget a j i) <= A)%Z) ->
    (forall j i, (j < k)%nat -> (i < c)%nat -> fint (mget p j i) (mget b j i) /\ (Z.abs (mget b j i) <= B)%Z) ->
    (forall i, (i < c)%nat -> fint (vat v i) (vat w i) /\ (Z.abs (vat w i) <= B)%Z) ->
    (0 <= A)%Z -> (0 <= B)%Z -> (Z.of_nat c * (A * B) < 2 ^ prec)%Z ->
    (forall j i, (j < k)%nat -> (i < r)%nat ->
       fint (mget (mmul m p) j i) (sum c (fun l => mget a l i * mget b j l)%Z)) /\
    (forall i, (i < r)%nat -> fint (vat (mmulv m v) i) (sum c (fun l => mget a l i * vat w l)%Z)).
Proof.
  intros prec emax Hp He r c k m p v a b w A B Hm Hb Hw A0 B0 L. destruct c as [|c].
  { split; intros; rewrite ?mget_mmul, ?vat_mmulv by assumption; apply fint_0. }
  split.
  - intros j i Hj Hi. rewrite mget_mmul by assumption.
    apply (fintb_sum (S c) (A * B)); [nia|exact L|].
    intros l Hl. apply fintb_mul; [exact (Hm l i Hl Hi)|exact (Hb j l Hj Hl)|nia].
  - intros i Hi. rewrite vat_mmulv by assumption.
    apply (fintb_sum (S c) (A * B)); [nia|exact L|].
    intros l Hl. apply fintb_mul; [exact (Hm l i Hl Hi)|exact (Hw l Hl)|nia].
Qed.

Lemma c108_determinant_exact :
  forall (prec emax : Z) (Hp : Prec_gt_0 prec) (He : Prec_lt_emax prec emax) (A : Z), (1 <= A)%Z ->
    (forall (m : mat (binary_float prec emax) 2 2) (a : mat Z 2 2), (2 * (A * A) < 2 ^ prec)%Z ->
       (forall j i, (j < 2)%nat -> (i < 2)%nat -> fint (mget m j i) (mget a j i) /\ (Z.abs (mget a j i) <= A)%Z) ->
       fint (m2det m) (laplace 2 (fun i j => mget a j i))) /\
    (forall (m : mat (binary_float prec emax) 3 3) (a : mat Z 3 3), (6 * (A * A * A) < 2 ^ prec)%Z ->
       (forall j i, (j < 3)%nat -> (i < 3)%nat -> fint (mget m j i) (mget a j i) /\ (Z.abs (mget a j i) <= A)%Z) ->
       fint (m3det m) (laplace 3 (fun i j => mget a j i))) /\
    (forall (m : mat (binary_float prec emax) 4 4) (a : mat Z 4 4), (24 * (A * A * A * A) < 2 ^ prec)%Z ->
       (forall j i, (j < 4)%nat -> (i < 4)%nat -> fint (mget m j i) (mget a j i) /\ (Z.abs (mget a j i) <= A)%Z) ->
       fint (m4det m) (laplace 4 (fun i j => mget a j i))).
Proof.
  intros prec emax Hp He A A1. destruct (pow_chain A A1) as (_ & C2 & C3). conjs.
  - intros m a L H. rewrite <- m2det_laplace. exact (fint_of_bound _ _ _ (det2_bound A m a L H)).
  - intros m a L H. rewrite <- m3det_laplace. exact (fint_of_bound _ _ _ (det3_bound A m a A1 L H)).
  - intros m a L H. rewrite <- m4det_laplace. destruct (det4_bound A m a A1 L H) as (B & D). exact (proj1 D).
Qed.

Lemma c108_try_inverse_exact :
  forall (prec emax : Z) (Hp : Prec_gt_0 prec) (He : Prec_lt_emax prec emax) (A : Z), (1 <= A)%Z ->
    (forall (m : mat (binary_float prec emax) 2 2) (a : mat Z 2 2), (2 * (A * A) < 2 ^ prec)%Z ->
       (forall j i, (j < 2)%nat -> (i < 2)%nat -> fint (mget m j i) (mget a j i) /\ (Z.abs (mget a j i) <= A)%Z) ->
       (m2try_inverse m = None <-> laplace 2 (fun i j => mget a j i) = 0%Z)) /\
    (forall (m : mat (binary_float prec emax) 3 3) (a : mat Z 3 3), (6 * (A * A * A) < 2 ^ prec)%Z ->
       (forall j i, (j < 3)%nat -> (i < 3)%nat -> fint (mget m j i) (mget a j i) /\ (Z.abs (mget a j i) <= A)%Z) ->
       (m3try_inverse m = None <-> laplace 3 (fun i j => mget a j i) = 0%Z)) /\
    (forall (m : mat (binary_float prec emax) 4 4) (a : mat Z 4 4), (24 * (A * A * A * A) < 2 ^ prec)%Z ->
       (forall j i, (j < 4)%nat -> (i < 4)%nat -> fint (mget m j i) (mget a j i) /\ (Z.abs (mget a j i) <= A)%Z) ->
       (m4try_inverse m = None <-> laplace 4 (fun i j => mget a j i) = 0%Z)).
Proof.
  intros prec emax Hp He A A1. destruct (c108_determinant_exact prec emax Hp He A A1) as (D2 & D3 & D4). conjs.
  - intros m a L H. specialize (D2 m a L H). unfold m2try_inverse. cbv zeta. rewrite (fint_is0 _ _ D2).
    destruct (Z.eqb_spec (laplace 2 (fun i j => mget a j i)) 0); split; intros; congruence.
  - intros m a L H. specialize (D3 m a L H). unfold m3try_inverse. cbv zeta. rewrite (fint_is0 _ _ D3).
    destruct (Z.eqb_spec (laplace 3 (fun i j => mget a j i)) 0); split; intros; congruence.
  - intros m a L H. specialize (D4 m a L H). unfold m4try_inverse. cbv zeta. rewrite (fint_is0 _ _ D4).
    destruct (Z.eqb_spec (laplace 4 (fun i j => mget a j i)) 0); split; intros; congruence.
Qed.

Lemma c108_products_exact :
  forall (prec emax : Z) (Hp : Prec_gt_0 prec) (He : Prec_lt_emax prec emax) (A : Z),
    (1 <= A)%Z -> (4 * (A * A) < 2 ^ prec)%Z ->
    (forall (z w : complex (binary_float prec emax)) (a b : complex Z),
       fint (re z) (re a) -> fint (im z) (im a) -> fint (re w) (re b) -> fint (im w) (im b) ->
       (Z.abs (re a) <= A)%Z -> (Z.abs (im a) <= A)%Z -> (Z.abs (re b) <= A)%Z -> (Z.abs (im b) <= A)%Z ->
       fint (re (cmul z w)) (re a * re b - im a * im b)%Z /\ fint (im (cmul z w)) (re a * im b + im a * re b)%Z) /\
    (forall (u v : vec (binary_float prec emax) 3) (a b : vec Z 3),
       (forall i, (i < 3)%nat -> fint (vat u i) (vat a i) /\ (Z.abs (vat a i) <= A)%Z) ->
       (forall i, (i < 3)%nat -> fint (vat v i) (vat b i) /\ (Z.abs (vat b i) <= A)%Z) ->
       fint (vat (vcross u v) 0) (vat a 1 * vat b 2 - vat a 2 * vat b 1)%Z /\
       fint (vat (vcross u v) 1) (vat a 2 * vat b 0 - vat a 0 * vat b 2)%Z /\
       fint (vat (vcross u v) 2) (vat a 0 * vat b 1 - vat a 1 * vat b 0)%Z) /\
    (forall (p q : quat (binary_float prec emax)) (a b : quat Z),
       (forall i, (i < 4)%nat -> fint (vat (p : vec _ 4) i) (vat (a : vec _ 4) i) /\ (Z.abs (vat (a : vec _ 4) i) <= A)%Z) ->
       (forall i, (i < 4)%nat -> fint (vat (q : vec _ 4) i) (vat (b : vec _ 4) i) /\ (Z.abs (vat (b : vec _ 4) i) <= A)%Z) ->
       let x := fun i => vat (a : vec _ 4) i in let y := fun i => vat (b : vec _ 4) i in let r := qmul p q : vec _ 4 in
       fint (vat r 0) (x 0%nat * y 0%nat - x 1%nat * y 1%nat - x 2%nat * y 2%nat - x 3%nat * y 3%nat)%Z /\
       fint (vat r 1) (x 0%nat * y 1%nat + x 1%nat * y 0%nat + x 2%nat * y 3%nat - x 3%nat * y 2%nat)%Z /\
       fint (vat r 2) (x 0%nat * y 2%nat - x 1%nat * y 3%nat + x 2%nat * y 0%nat + x 3%nat * y 1%nat)%Z /\
       fint (vat r 3) (x 0%nat * y 3%nat + x 1%nat * y 2%nat - x 2%nat * y 1%nat + x 3%nat * y 0%nat)%Z).
Proof.
  intros prec emax Hp He A A1 L. conjs.
  - intros z w a b Z1 Z2 W1 W2 B1 B2 B3 B4.
    assert (X1 : fintb A (re z) (re a)) by (split; assumption). assert (X2 : fintb A (im z) (im a)) by (split; assumption).
    assert (X3 : fintb A (re w) (re b)) by (split; assumption). assert (X4 : fintb A (im w) (im b)) by (split; assumption).
    assert (0 <= A * A)%Z by nia.
    split; unfold cmul; cbn [re im]; eapply fint_of_bound; fintb_tree.
  - intros u v a b U V.
    assert (0 <= A * A)%Z by nia.
    pose proof (U 0%nat ltac:(lia)) as P0. pose proof (U 1%nat ltac:(lia)) as P1. pose proof (U 2%nat ltac:(lia)) as P2.
    pose proof (V 0%nat ltac:(lia)) as Q0. pose proof (V 1%nat ltac:(lia)) as Q1. pose proof (V 2%nat ltac:(lia)) as Q2. clear U V.
    destruct u as [p0 [p1 [p2 []]]]. destruct v as [q0 [q1 [q2 []]]]. destruct a as [a0 [a1 [a2 []]]]. destruct b as [b0 [b1 [b2 []]]].
    cbv [vat vget fst snd] in P0, P1, P2, Q0, Q1, Q2.
    change (fintb A p0 a0) in P0. change (fintb A p1 a1) in P1. change (fintb A p2 a2) in P2.
    change (fintb A q0 b0) in Q0. change (fintb A q1 b1) in Q1. change (fintb A q2 b2) in Q2.
    conjs; unfold vcross, v3; cbn [vat vget fst snd]; eapply fint_of_bound; fintb_tree.
  - intros p q a b P Q x y r.
    assert (G : forall i, (i < 4)%nat -> fint (vat (qmul p q : vec _ 4) i) (vat (qmul a b : vec _ 4) i)).
    2:{ pose proof (G 0%nat ltac:(lia)) as G0. pose proof (G 1%nat ltac:(lia)) as G1.
        pose proof (G 2%nat ltac:(lia)) as G2. pose proof (G 3%nat ltac:(lia)) as G3.
        unfold r, x, y. clear - G0 G1 G2 G3. destruct a as [a0 [a1 [a2 [a3 []]]]]. destruct b as [b0 [b1 [b2 [b3 []]]]].
        conjs; [refine (eq_ind _ (fint _) G0 _ _)|refine (eq_ind _ (fint _) G1 _ _)|refine (eq_ind _ (fint _) G2 _ _)|refine (eq_ind _ (fint _) G3 _ _)];
          clear; qcompute; cbn [nadd nsub nmul nneg n0 num_Z]; ring. }
    clear x y r. intros i Hi.
    assert (0 <= A * A)%Z by nia.
    pose proof (P 0%nat ltac:(lia)) as P0. pose proof (P 1%nat ltac:(lia)) as P1.
    pose proof (P 2%nat ltac:(lia)) as P2. pose proof (P 3%nat ltac:(lia)) as P3.
    pose proof (Q 0%nat ltac:(lia)) as Q0. pose proof (Q 1%nat ltac:(lia)) as Q1.
    pose proof (Q 2%nat ltac:(lia)) as Q2. pose proof (Q 3%nat ltac:(lia)) as Q3. clear P Q.
    destruct p as [p0 [p1 [p2 [p3 []]]]]. destruct q as [q0 [q1 [q2 [q3 []]]]].
    destruct a as [a0 [a1 [a2 [a3 []]]]]. destruct b as [b0 [b1 [b2 [b3 []]]]].
    cbv [vat vget fst snd] in P0, P1, P2, P3, Q0, Q1, Q2, Q3.
    change (fintb A p0 a0) in P0. change (fintb A p1 a1) in P1. change (fintb A p2 a2) in P2. change (fintb A p3 a3) in P3.
    change (fintb A q0 b0) in Q0. change (fintb A q1 b1) in Q1. change (fintb A q2 b2) in Q2. change (fintb A q3 b3) in Q3.
    assert (Z0 : @fintb prec emax 0 n0 n0) by (split; [apply fint_0|cbn; lia]).
    destruct i as [|[|[|[|?]]]]; try lia; qcompute; eapply fint_of_bound; fintb_tree.
Qed.

Lemma c108_example :
  fint (m2det (m2new (f64_of_Z 1) (f64_of_Z 3) (f64_of_Z 2) (f64_of_Z 4))) (-2) /\
  fint (re (cmul (mkC (f64_of_Z 1) (f64_of_Z 2)) (mkC (f64_of_Z 3) (f64_of_Z 4)))) (-5) /\ (24 * (4 * 4 * 4 * 4) < 2 ^ 53)%Z.
Proof.
  conjs.
  - unfold m2det. cbn [mget mget_d m2new v2 vget fst snd]. change (-2)%Z with (1 * 4 - 3 * 2)%Z.
    apply fint_sub; [apply fint_mul|apply fint_mul|]; try (split; apply f64_of_Z_exact); lia.
  - unfold cmul. cbn [re im]. change (-5)%Z with (1 * 3 - 2 * 4)%Z.
    apply fint_sub; [apply fint_mul|apply fint_mul|]; try (split; apply f64_of_Z_exact); lia.
  - lia.
Qed.

Lemma c109_complex_product :
  forall (prec emax : Z) (Hp : Prec_gt_0 prec) (He : Prec_lt_emax prec emax) (P N : R)
    (z w : complex (binary_float prec emax)),
    (24 <= prec)%Z -> (0 < P)%R -> (0 < N)%R ->
    (bpow radix2 (31 - emax) <= P * N <= bpow radix2 (emax - 31))%R ->
    fbnd P (re z) -> fbnd P (im z) -> fbnd N (re w) -> fbnd N (im w) ->
    fnear (re (cmul z w)) (B2R (re z) * B2R (re w) - B2R (im z) * B2R (im w))%R (5 * bpow radix2 (- prec) * (P * N))%R /\
    fnear (im (cmul z w)) (B2R (re z) * B2R (im w) + B2R (im z) * B2R (re w))%R (5 * bpow radix2 (- prec) * (P * N))%R.
Proof.
  intros prec emax Hp He P N z w H24 HP HN HW A B C D. pose proof (pow24 H24) as H2.
  assert (V0 : (0 < P * N)%R) by (exact (wok_pos (emax := emax) _ HW)).
  split; apply (fapp_near (P * N) 2 4099 5); try lia; try exact V0; unfold cmul; cbn [re im].
  - apply (fapp_sub H24 (P * N) 1 1 1025 1025); try lia; try exact HW; apply fapp_prod; auto.
  - apply (fapp_add H24 (P * N) 1 1 1025 1025); try lia; try exact HW; apply fapp_prod; auto.
Qed.

Lemma c109_cross_product :
  forall (prec emax : Z) (Hp : Prec_gt_0 prec) (He : Prec_lt_emax prec emax) (P N : R)
    (u v : vec (binary_float prec emax) 3),
    (24 <= prec)%Z -> (0 < P)%R -> (0 < N)%R ->
    (bpow radix2 (31 - emax) <= P * N <= bpow radix2 (emax - 31))%R ->
    (forall i, (i < 3)%nat -> fbnd P (vat u i)) -> (forall i, (i < 3)%nat -> fbnd N (vat v i)) ->
    let U := fun i => B2R (vat u i) in let V := fun i => B2R (vat v i) in
    let e := (5 * bpow radix2 (- prec) * (P * N))%R in
    fnear (vat (vcross u v) 0) (U 1%nat * V 2%nat - U 2%nat * V 1%nat)%R e /\
    fnear (vat (vcross u v) 1) (U 2%nat * V 0%nat - U 0%nat * V 2%nat)%R e /\
    fnear (vat (vcross u v) 2) (U 0%nat * V 1%nat - U 1%nat * V 0%nat)%R e.
Proof.
  intros prec emax Hp He P N u v H24 HP HN HW A B U V e. pose proof (pow24 H24) as H2.
  assert (V0 : (0 < P * N)%R) by (exact (wok_pos (emax := emax) _ HW)).
  conjs; apply (fapp_near (P * N) 2 4099 5); try lia; try exact V0;
    unfold vcross, v3, vat; cbn [vget fst snd]; unfold U, V;
    apply (fapp_sub H24 (P * N) 1 1 1025 1025); try lia; try exact HW; apply fapp_prod; auto.
Qed.

Lemma c109_quaternion_product :
  forall (prec emax : Z) (Hp : Prec_gt_0 prec) (He : Prec_lt_emax prec emax) (P N : R)
    (p q : quat (binary_float prec emax)),
    (24 <= prec)%Z -> (0 < P)%R -> (0 < N)%R ->
    (bpow radix2 (31 - emax) <= P * N <= bpow radix2 (emax - 31))%R ->
    (forall i, (i < 4)%nat -> fbnd P (vat (p : vec _ 4) i)) -> (forall i, (i < 4)%nat -> fbnd N (vat (q : vec _ 4) i)) ->
    let a := fun i => B2R (vat (p : vec _ 4) i) in let b := fun i => B2R (vat (q : vec _ 4) i) in
    let r := qmul p q : vec _ 4 in let e := (15 * bpow radix2 (- prec) * (P * N))%R in
    fnear (vat r 0) (a 0%nat * b 0%nat - a 1%nat * b 1%nat - a 2%nat * b 2%nat - a 3%nat * b 3%nat)%R e /\
    fnear (vat r 1) (a 0%nat * b 1%nat + a 1%nat * b 0%nat + a 2%nat * b 3%nat - a 3%nat * b 2%nat)%R e /\
    fnear (vat r 2) (a 0%nat * b 2%nat - a 1%nat * b 3%nat + a 2%nat * b 0%nat + a 3%nat * b 1%nat)%R e /\
    fnear (vat r 3) (a 0%nat * b 3%nat + a 1%nat * b 2%nat - a 2%nat * b 1%nat + a 3%nat * b 0%nat)%R e.
Proof.
  intros prec emax Hp He P N p q H24 HP HN HW A B. pose proof (pow24 H24) as H2.
  assert (V0 : (0 < P * N)%R) by (exact (wok_pos (emax := emax) _ HW)).
  assert (NP : (0 < N)%R -> @wok emax (N * P)) by (intros _; rewrite Rmult_comm; exact HW). specialize (NP HN).
  pose proof (A 0%nat ltac:(lia)) as A0. pose proof (A 1%nat ltac:(lia)) as A1.
  pose proof (A 2%nat ltac:(lia)) as A2. pose proof (A 3%nat ltac:(lia)) as A3.
  pose proof (B 0%nat ltac:(lia)) as B0. pose proof (B 1%nat ltac:(lia)) as B1.
  pose proof (B 2%nat ltac:(lia)) as B2. pose proof (B 3%nat ltac:(lia)) as B3. clear A B.
  destruct p as [p0 [p1 [p2 [p3 []]]]]. destruct q as [q0 [q1 [q2 [q3 []]]]].
  cbv [vat vget fst snd] in A0, A1, A2, A3, B0, B1, B2, B3.
  cbv zeta. qcompute. conjs.
  - replace (B2R p0 * B2R q0 - B2R p1 * B2R q1 - B2R p2 * B2R q2 - B2R p3 * B2R q3)%R
      with (B2R p0 * B2R q0 - (0 + B2R p1 * B2R q1 + B2R p2 * B2R q2 + B2R p3 * B2R q3))%R by ring.
    eapply fapp_near; [exact V0| |].
    + fapp_tree H24 HW ltac:(apply fapp_prod; assumption).
    + lia.
  - replace (B2R p0 * B2R q1 + B2R p1 * B2R q0 + B2R p2 * B2R q3 - B2R p3 * B2R q2)%R
      with (B2R p0 * B2R q1 + B2R p1 * B2R q0 + (B2R p2 * B2R q3 - B2R p3 * B2R q2))%R by ring.
    eapply fapp_near; [exact V0| |].
    + fapp_tree H24 HW ltac:(first [apply fapp_prod; assumption|apply fapp_prod_sym; assumption]).
    + lia.
  - replace (B2R p0 * B2R q2 - B2R p1 * B2R q3 + B2R p2 * B2R q0 + B2R p3 * B2R q1)%R
      with (B2R p0 * B2R q2 + B2R p2 * B2R q0 + (B2R p3 * B2R q1 - B2R p1 * B2R q3))%R by ring.
    eapply fapp_near; [exact V0| |].
    + fapp_tree H24 HW ltac:(first [apply fapp_prod; assumption|apply fapp_prod_sym; assumption]).
    + lia.
  - replace (B2R p0 * B2R q3 + B2R p1 * B2R q2 - B2R p2 * B2R q1 + B2R p3 * B2R q0)%R
      with (B2R p0 * B2R q3 + B2R p3 * B2R q0 + (B2R p1 * B2R q2 - B2R p2 * B2R q1))%R by ring.
    eapply fapp_near; [exact V0| |].
    + fapp_tree H24 HW ltac:(first [apply fapp_prod; assumption|apply fapp_prod_sym; assumption]).
    + lia.
Qed.

Lemma c109_determinants :
  forall (prec emax : Z) (Hp : Prec_gt_0 prec) (He : Prec_lt_emax prec emax) (M : R),
    (24 <= prec)%Z -> (31 <= emax)%Z -> (0 < M)%R ->
    (forall m : mat (binary_float prec emax) 2 2,
       (bpow radix2 (31 - emax) <= M * M <= bpow radix2 (emax - 31))%R ->
       (forall j i, (j < 2)%nat -> (i < 2)%nat -> fbnd M (mget m j i)) ->
       fnear (m2det m) (laplace 2 (fun i j => B2R (mget m j i))) (5 * bpow radix2 (- prec) * (M * M))%R) /\
    (forall m : mat (binary_float prec emax) 3 3,
       (bpow radix2 (31 - emax) <= M * M * M <= bpow radix2 (emax - 31))%R ->
       (forall j i, (j < 3)%nat -> (i < 3)%nat -> fbnd M (mget m j i)) ->
       fnear (m3det m) (laplace 3 (fun i j => B2R (mget m j i))) (33 * bpow radix2 (- prec) * (M * M * M))%R) /\
    (forall m : mat (binary_float prec emax) 4 4,
       (bpow radix2 (31 - emax) <= M * M * M * M <= bpow radix2 (emax - 31))%R ->
       (forall j i, (j < 4)%nat -> (i < 4)%nat -> fbnd M (mget m j i)) ->
       fnear (m4det m) (laplace 4 (fun i j => B2R (mget m j i))) (372 * bpow radix2 (- prec) * (M * M * M * M))%R).
Proof.
  intros prec emax Hp He M H24 H31 HM. pose proof (pow24 H24) as H2. conjs.
  - intros m W2 H. pose proof (wok_pos (emax := emax) _ W2) as V2.
    replace (laplace 2 (fun i j => B2R (mget m j i)))
      with (B2R (mget m 0 0) * B2R (mget m 1 1) - B2R (mget m 0 1) * B2R (mget m 1 0))%R
      by (cbv [laplace sum sgn minor Nat.ltb Nat.leb nadd nmul nneg n0 n1 num_R]; ring).
    unfold m2det. eapply fapp_near; [exact V2| |].
    + fapp_tree H24 W2 ltac:(apply fapp_prod; try assumption; apply H; lia).
    + lia.
  - intros m W3 H. pose proof (wok_pos (emax := emax) _ W3) as V3.
    pose proof (wok_cube M H31 HM W3) as W2. pose proof (wok_pos (emax := emax) _ W2) as V2.
    rewrite (m3det_real m).
    unfold m3det. eapply fapp_near; [exact V3| |].
    + fapp_tree H24 W3 ltac:(apply fapp_prod3; try assumption; apply H; lia).
    + lia.
  - intros m W4 H. pose proof (wok_pos (emax := emax) _ W4) as V4.
    destruct (wok_pows M H31 HM W4) as (W2 & W3).
    rewrite (m4det_real m).
    unfold m4det. eapply fapp_near; [exact V4| |].
    + fapp_tree H24 W4 ltac:(apply fapp_prod4; try assumption; apply H; lia).
    + lia.
Qed.

Lemma c109_example :
  (bpow radix2 (31 - 1024) <= 4 * 4 * 4 * 4 <= bpow radix2 (1024 - 31))%R /\ fbnd 4 (f64_of_Z 3) /\ fbnd 4 (ndiv (f64_of_Z 1) (f64_of_Z 4)).
Proof.
  conjs.
  - apply Rle_trans with (bpow radix2 0); [apply bpow_le; lia|cbn; lra].
  - apply Rle_trans with (bpow radix2 8); [cbn; lra|apply bpow_le; lia].
  - split; [apply f64_of_Z_exact; lia|]. rewrite (proj1 (f64_of_Z_exact 3 ltac:(lia))). rewrite Rabs_pos_eq; lra.
  - split; [vm_compute; reflexivity|].
    assert (E : B2SF (ndiv (f64_of_Z 1) (f64_of_Z 4)) = SpecFloat.S754_finite false 4503599627370496%positive (-54)%Z) by (vm_compute; reflexivity).
    set (x := ndiv _ _) in *. destruct x as [s|s| |s m e H]; try discriminate E. injection E as -> -> ->.
    cbn [B2R]. rewrite Rabs_pos_eq by (apply F2R_ge_0; cbn; lia). unfold F2R. cbn [Fnum Fexp].
    apply Rle_trans with (bpow radix2 53 * bpow radix2 (-54))%R.
    + apply Rmult_le_compat_r; [apply bpow_ge_0|]. cbn. lra.
    + rewrite <- bpow_plus. cbn. lra.
Qed.

Lemma c110_division_partial :
  forall (prec emax : Z) (Hp : Prec_gt_0 prec) (He : Prec_lt_emax prec emax) (P : R)
    (z w : complex (binary_float prec emax)),
    let n2 := (B2R (re w) * B2R (re w) + B2R (im w) * B2R (im w))%R in let N := sqrt n2 in
    (47 <= prec)%Z -> (0 < P)%R -> (0 < N)%R ->
    (bpow radix2 (31 - emax) <= P * N <= bpow radix2 (emax - 31))%R ->
    (bpow radix2 (31 - emax) <= N * N <= bpow radix2 (emax - 31))%R ->
    (bpow radix2 (31 - emax) <= P / N <= bpow radix2 (emax - 31))%R ->
    fbnd P (re z) -> fbnd P (im z) -> is_finite (re w) = true -> is_finite (im w) = true ->
    fnear (re (cdiv z w)) ((B2R (re z) * B2R (re w) + B2R (im z) * B2R (im w)) / n2)%R (15 * bpow radix2 (- prec) * (P / N))%R /\
    fnear (im (cdiv z w)) ((B2R (im z) * B2R (re w) - B2R (re z) * B2R (im w)) / n2)%R (15 * bpow radix2 (- prec) * (P / N))%R.
Proof.
  intros prec emax Hp He P z w n2 N H47 HP HN W1 W2 W3 A B C D.
  assert (H24 : (24 <= prec)%Z) by lia. assert (H2 : (2 ^ 47 <= 2 ^ prec)%Z) by (apply Z.pow_le_mono_r; lia).
  destruct (modulus_leaves w n2 N eq_refl eq_refl HN C D) as (NN & Cr & Ci).
  assert (EV : (P / N = P * N / (N * N))%R) by (field; lra).
  assert (V1 : (0 < P * N)%R) by (apply Rmult_lt_0_compat; lra).
  assert (V2 : (0 < N * N)%R) by (apply Rmult_lt_0_compat; lra).
  assert (V3 : (0 < P / N)%R) by (apply Rdiv_lt_0_compat; lra).
  assert (DEN : fapp (N * N) 2 4099 (cmodulus_squared w) n2).
  { unfold cmodulus_squared, n2. apply (fapp_add H24 (N * N) 1 1 1025 1025); try lia; try exact W2; apply fapp_prod; auto. }
  assert (LOW : (N * N <= IZR 1 * Rabs n2)%R) by (rewrite NN, Rabs_pos_eq by lra; lra).
  split; apply (fapp_near (P / N) 2 14346 15); try lia; try exact V3; unfold cdiv; cbv zeta; cbn [re im]; rewrite EV.
  - apply (fapp_div H24 (P * N) (N * N) 2 2 1 4099 4099); try lia; try assumption; [rewrite <- EV; exact W3|].
    apply (fapp_add H24 (P * N) 1 1 1025 1025); try lia; try exact W1; apply fapp_prod; auto.
  - apply (fapp_div H24 (P * N) (N * N) 2 2 1 4099 4099); try lia; try assumption; [rewrite <- EV; exact W3|].
    apply (fapp_sub H24 (P * N) 1 1 1025 1025); try lia; try exact W1; apply fapp_prod; auto.
Qed.

Lemma c110_inverse_partial :
  forall (prec emax : Z) (Hp : Prec_gt_0 prec) (He : Prec_lt_emax prec emax) (w : complex (binary_float prec emax)),
    let n2 := (B2R (re w) * B2R (re w) + B2R (im w) * B2R (im w))%R in let N := sqrt n2 in
    (47 <= prec)%Z -> (0 < N)%R ->
    (bpow radix2 (31 - emax) <= N * N <= bpow radix2 (emax - 31))%R ->
    (bpow radix2 (31 - emax) <= 1 / N <= bpow radix2 (emax - 31))%R ->
    is_finite (re w) = true -> is_finite (im w) = true ->
    exists v, ctry_inverse w = Some v /\
      fnear (re v) (B2R (re w) / n2)%R (6 * bpow radix2 (- prec) * (1 / N))%R /\
      fnear (im v) (- B2R (im w) / n2)%R (6 * bpow radix2 (- prec) * (1 / N))%R.
Proof.
  intros prec emax Hp He w n2 N H47 HN W2 W3 C D.
  assert (H24 : (24 <= prec)%Z) by lia. assert (H2 : (2 ^ 47 <= 2 ^ prec)%Z) by (apply Z.pow_le_mono_r; lia).
  destruct (modulus_leaves w n2 N eq_refl eq_refl HN C D) as (NN & Cr & Ci).
  assert (EV : (1 / N = N / (N * N))%R) by (field; lra).
  assert (V2 : (0 < N * N)%R) by (apply Rmult_lt_0_compat; lra).
  assert (V3 : (0 < 1 / N)%R) by (apply Rdiv_lt_0_compat; lra).
  assert (DEN : fapp (N * N) 2 4099 (cmodulus_squared w) n2).
  { unfold cmodulus_squared, n2. apply (fapp_add H24 (N * N) 1 1 1025 1025); try lia; try exact W2; apply fapp_prod; auto. }
  assert (LOW : (N * N <= IZR 1 * Rabs n2)%R) by (rewrite NN, Rabs_pos_eq by lra; lra).
  unfold ctry_inverse. cbv zeta.
  rewrite (fapp_nonzero H24 (N * N) 2 1 4099 _ n2 V2 DEN LOW) by lia.
  eexists; split; [reflexivity|]. cbn [re im].
  split; apply (fapp_near (1 / N) 1 5124 6); try lia; try exact V3; rewrite EV.
  - apply (fapp_div H24 N (N * N) 1 2 1 0 4099); try lia; try assumption; [rewrite <- EV; exact W3|apply fapp_leaf; assumption].
  - apply (fapp_div H24 N (N * N) 1 2 1 0 4099); try lia; try assumption; [rewrite <- EV; exact W3|].
    apply fapp_neg, fapp_leaf; assumption.
Qed.

Lemma c110_division_refuted :
  (exists z : complex f64, is_finite (re z) = true /\ is_finite (im z) = true /\ (0 < B2R (re z))%R /\
     is_nan (re (cdiv z z)) = true) /\
  (exists z : complex f64, is_finite (re z) = true /\ is_finite (im z) = true /\ (0 < B2R (re z))%R /\
     is_finite (ndiv n1 (re z)) = true /\ ctry_inverse z = None) /\
  (exists z v : complex f64, is_finite (re z) = true /\ is_finite (im z) = true /\
     ctry_inverse z = Some v /\ is_finite (re v) = true /\ B2R (re v) = 0%R /\ (0 < B2R (ndiv n1 (re z)))%R).
Proof.
  set (big := f64_of_Z (2 ^ 600)). set (small := ndiv (f64_of_Z 1) big).
  assert (PB : (0 < B2R big)%R).
  { assert (E : B2SF big = SpecFloat.S754_finite false 4503599627370496%positive 548%Z) by (vm_compute; reflexivity).
    destruct big as [s|s| |s m e H]; try discriminate E. injection E as -> -> ->. apply F2R_gt_0. reflexivity. }
  assert (PS : (0 < B2R small)%R).
  { assert (E : B2SF small = SpecFloat.S754_finite false 4503599627370496%positive (-652)%Z) by (vm_compute; reflexivity).
    destruct small as [s|s| |s m e H]; try discriminate E. injection E as -> -> ->. apply F2R_gt_0. reflexivity. }
  conjs.
  - exists (mkC big (f64_of_Z 0)). conjs; [vm_compute; reflexivity|vm_compute; reflexivity|exact PB|vm_compute; reflexivity].
  - exists (mkC small (f64_of_Z 0)). conjs; [vm_compute; reflexivity|vm_compute; reflexivity|exact PS|vm_compute; reflexivity|].
    unfold ctry_inverse. cbv zeta. replace (nis0 _) with true by (vm_compute; reflexivity). reflexivity.
  - exists (mkC big (f64_of_Z 0)). eexists. conjs; [vm_compute; reflexivity|vm_compute; reflexivity| | | |].
    + unfold ctry_inverse. cbv zeta. replace (nis0 _) with false by (vm_compute; reflexivity). reflexivity.
    + vm_compute; reflexivity.
    + cbn [re]. set (x := ndiv _ _). assert (E : B2SF x = SpecFloat.S754_zero false) by (vm_compute; reflexivity).
      destruct x; try discriminate E. reflexivity.
    + cbn [re]. change (n1 : f64) with (f64_of_Z 1 : f64). exact PS.
Qed.

Lemma c110_example :
  let z := mkC (f64_of_Z 3) (f64_of_Z 4) in let w := mkC (f64_of_Z 1) (f64_of_Z 2) in
  fint (cmodulus_squared w) 5 /\ B2SF (re (cdiv z w)) = B2SF (ndiv (f64_of_Z 11) (f64_of_Z 5)) /\
  B2SF (im (cdiv z w)) = B2SF (ndiv (nneg (f64_of_Z 2)) (f64_of_Z 5)).
Proof.
  cbv zeta. conjs; [|vm_compute; reflexivity|vm_compute; reflexivity].
  unfold cmodulus_squared. cbn [re im].
  change 5%Z with (1 * 1 + 2 * 2)%Z. apply fint_add; [apply fint_mul|apply fint_mul|]; try (split; apply f64_of_Z_exact); lia.
Qed.

Lemma c111_inverse2_partial :
  forall (prec emax : Z) (Hp : Prec_gt_0 prec) (He : Prec_lt_emax prec emax) (M : R) (D : Z) (m : mat (binary_float prec emax) 2 2),
    (24 <= prec)%Z -> (31 <= emax)%Z -> (0 < M)%R -> (1 <= D < 2 ^ 26)%Z -> (2 ^ 18 * (D * D) <= 2 ^ prec)%Z ->
    (bpow radix2 (31 - emax) <= M * M <= bpow radix2 (emax - 31))%R ->
    (forall j i, (j < 2)%nat -> (i < 2)%nat -> fbnd M (mget m j i)) ->
    (M * M <= IZR D * Rabs (laplace 2 (fun i j => B2R (mget m j i))))%R ->
    exists (w : mat (binary_float prec emax) 2 2) (c : mat R 2 2), m2try_inverse m = Some w /\
      (forall i j, (i < 2)%nat -> (j < 2)%nat -> sum 2 (fun k => (B2R (mget m k i) * mget c j k)%R) = delta i j) /\
      (forall i j, (i < 2)%nat -> (j < 2)%nat -> fnear (mget w j i) (mget c j i) (IZR (11 * D * D) * bpow radix2 (- prec) * (1 / M))%R).
Proof.
  intros prec emax Hp He M D m H24 H31 HM HD HDD W2 H L. pose proof (pow24 H24) as H2.
  assert (DD : (D <= D * D)%Z) by nia.
  pose proof (wok_pos (emax := emax) _ W2) as V2.
  assert (V1 : (0 < M)%R) by exact HM.
  set (am := m2new (B2R (mget m 0 0)) (B2R (mget m 0 1)) (B2R (mget m 1 0)) (B2R (mget m 1 1)) : mat R 2 2).
  assert (EL : laplace 2 (fun i j => B2R (mget m j i)) = m2det am).
  { rewrite m2det_laplace. cbv [laplace sum sgn minor Nat.ltb Nat.leb]. reflexivity. }
  rewrite EL in L.
  assert (DET : fapp (M * M) 2 4099 (m2det m) (m2det am)).
  { unfold m2det. eapply fapp_weak; [exact V2| fapp_tree H24 W2 ltac:(apply fapp_prod; try assumption; apply H; lia) | lia | lia]. }
  assert (NZ : m2det am <> 0%R) by (intros Z0; rewrite Z0, Rabs_R0 in L; lra).
  destruct (m2try_inverse am) as [c|] eqn:EC; [|apply m2try_inverse_none in EC; contradiction].
  pose proof (proj1 (m2try_inverse_some am c EC)) as MC.
  unfold m2try_inverse in EC. cbv zeta in EC. destruct (nis0 (m2det am)) eqn:E0; [discriminate|].
  assert (N0 : nis0 (m2det m) = false).
  { apply (fapp_nonzero H24 (M * M) 2 D 4099 _ (m2det am) V2 DET L); lia. }
  assert (EV : (1 / M = 1 / (M * M) * M)%R) by (field; lra).
  assert (W1 : @wok emax (1 / (M * M) * M)) by (rewrite <- EV; apply (wok_inv_base H31 M HM (M * M)); [exact W2|]; pow_side HM).
  unfold m2try_inverse. cbv zeta. rewrite N0.
  eexists; exists c; split; [reflexivity|]. split.
  - intros i j Hi Hj. transitivity (mget (midentity 2 : mat R 2 2) j i).
    + rewrite <- MC, mget_mmul by lia. apply sum_ext. intros k Hk. f_equal.
      destruct i as [|[|?]]; try lia; destruct k as [|[|?]]; try lia; reflexivity.
    + rewrite mget_midentity by lia. unfold delta. rewrite Nat.eqb_sym. reflexivity.
  - assert (CO : forall (x : binary_float prec emax) k, fapp (M) 1 0 x k ->
      fnear (nmul (ndiv n1 (m2det m)) x) (1 / m2det am * k)%R (IZR (11 * D * D) * bpow radix2 (- prec) * (1 / M))%R).
    { intros x k HX. eapply fapp_near; [rewrite EV; exact (wok_pos (emax := emax) _ W1)| |].
      - rewrite EV. apply (inv_entry H24 H31 _ _ 2 D 4099 1 0); try eassumption; lia.
      - lia. }
    injection EC as <-. intros i j Hi Hj.
    destruct i as [|[|?]]; try lia; destruct j as [|[|?]]; try lia;
      (apply CO; first [apply fapp_leaf; apply H; lia | apply fapp_neg, fapp_leaf; apply H; lia]).
Qed.

Lemma c111_inverse3_partial :
  forall (prec emax : Z) (Hp : Prec_gt_0 prec) (He : Prec_lt_emax prec emax) (M : R) (D : Z) (m : mat (binary_float prec emax) 3 3),
    (24 <= prec)%Z -> (31 <= emax)%Z -> (0 < M)%R -> (1 <= D < 2 ^ 26)%Z -> (2 ^ 32 * (D * D) <= 2 ^ prec)%Z ->
    (bpow radix2 (31 - emax) <= M * M * M <= bpow radix2 (emax - 31))%R ->
    (forall j i, (j < 3)%nat -> (i < 3)%nat -> fbnd M (mget m j i)) ->
    (M * M * M <= IZR D * Rabs (laplace 3 (fun i j => B2R (mget m j i))))%R ->
    exists (w : mat (binary_float prec emax) 3 3) (c : mat R 3 3), m3try_inverse m = Some w /\
      (forall i j, (i < 3)%nat -> (j < 3)%nat -> sum 3 (fun k => (B2R (mget m k i) * mget c j k)%R) = delta i j) /\
      (forall i j, (i < 3)%nat -> (j < 3)%nat -> fnear (mget w j i) (mget c j i) (IZR (141 * D * D) * bpow radix2 (- prec) * (1 / M))%R).
Proof.
  intros prec emax Hp He M D m H24 H31 HM HD HDD W3 H L. pose proof (pow24 H24) as H2.
  assert (DD : (D <= D * D)%Z) by nia.
  pose proof (wok_pos (emax := emax) _ W3) as V3.
  pose proof (wok_cube M H31 HM W3) as W2. pose proof (wok_pos (emax := emax) _ W2) as V2.
  set (am := m3new (B2R (mget m 0 0)) (B2R (mget m 0 1)) (B2R (mget m 0 2)) (B2R (mget m 1 0)) (B2R (mget m 1 1)) (B2R (mget m 1 2)) (B2R (mget m 2 0)) (B2R (mget m 2 1)) (B2R (mget m 2 2)) : mat R 3 3).
  assert (EL : laplace 3 (fun i j => B2R (mget m j i)) = m3det am).
  { rewrite m3det_laplace. cbv [laplace sum sgn minor Nat.ltb Nat.leb]. reflexivity. }
  rewrite EL in L.
  assert (DET : fapp (M * M * M) 6 33792 (m3det m) (m3det am)).
  { unfold m3det. eapply fapp_weak; [exact V3| fapp_tree H24 W3 ltac:(apply fapp_prod3; try assumption; apply H; lia) | lia | lia]. }
  assert (NZ : m3det am <> 0%R) by (intros Z0; rewrite Z0, Rabs_R0 in L; lra).
  destruct (m3try_inverse am) as [c|] eqn:EC; [|apply m3try_inverse_none in EC; contradiction].
  pose proof (proj1 (m3try_inverse_some am c EC)) as MC.
  unfold m3try_inverse in EC. cbv zeta in EC. destruct (nis0 (m3det am)) eqn:E0; [discriminate|].
  assert (N0 : nis0 (m3det m) = false).
  { apply (fapp_nonzero H24 (M * M * M) 6 D 33792 _ (m3det am) V3 DET L); lia. }
  assert (EV : (1 / M = 1 / (M * M * M) * (M * M))%R) by (field; lra).
  assert (W1 : @wok emax (1 / (M * M * M) * (M * M))) by (rewrite <- EV; apply (wok_inv_base H31 M HM (M * M * M)); [exact W3|]; pow_side HM).
  unfold m3try_inverse. cbv zeta. rewrite N0.
  eexists; exists c; split; [reflexivity|]. split.
  - intros i j Hi Hj. transitivity (mget (midentity 3 : mat R 3 3) j i).
    + rewrite <- MC, mget_mmul by lia. apply sum_ext. intros k Hk. f_equal.
      destruct i as [|[|[|?]]]; try lia; destruct k as [|[|[|?]]]; try lia; reflexivity.
    + rewrite mget_midentity by lia. unfold delta. rewrite Nat.eqb_sym. reflexivity.
  - assert (CO : forall (x : binary_float prec emax) k, fapp ((M * M)) 2 4099 x k ->
      fnear (nmul (ndiv n1 (m3det m)) x) (1 / m3det am * k)%R (IZR (141 * D * D) * bpow radix2 (- prec) * (1 / M))%R).
    { intros x k HX. eapply fapp_near; [rewrite EV; exact (wok_pos (emax := emax) _ W1)| |].
      - rewrite EV. apply (inv_entry H24 H31 _ _ 6 D 33792 2 4099); try eassumption; lia.
      - lia. }
    injection EC as <-. intros i j Hi Hj.
    destruct i as [|[|[|?]]]; try lia; destruct j as [|[|[|?]]]; try lia;
      (apply CO; eapply fapp_weak; [exact V2| fapp_tree H24 W2 ltac:(apply fapp_prod; try assumption; apply H; lia) | lia | lia]).
Qed.

Lemma c111_inverse4_partial :
  forall (prec emax : Z) (Hp : Prec_gt_0 prec) (He : Prec_lt_emax prec emax) (M : R) (D : Z) (m : mat (binary_float prec emax) 4 4),
    (24 <= prec)%Z -> (31 <= emax)%Z -> (0 < M)%R -> (1 <= D < 2 ^ 26)%Z -> (2 ^ 38 * (D * D) <= 2 ^ prec)%Z ->
    (bpow radix2 (31 - emax) <= M * M * M * M <= bpow radix2 (emax - 31))%R ->
    (forall j i, (j < 4)%nat -> (i < 4)%nat -> fbnd M (mget m j i)) ->
    (M * M * M * M <= IZR D * Rabs (laplace 4 (fun i j => B2R (mget m j i))))%R ->
    exists (w : mat (binary_float prec emax) 4 4) (c : mat R 4 4), m4try_inverse m = Some w /\
      (forall i j, (i < 4)%nat -> (j < 4)%nat -> sum 4 (fun k => (B2R (mget m k i) * mget c j k)%R) = delta i j) /\
      (forall i j, (i < 4)%nat -> (j < 4)%nat -> fnear (mget w j i) (mget c j i) (IZR (4510 * D * D) * bpow radix2 (- prec) * (1 / M))%R).
Proof.
  intros prec emax Hp He M D m H24 H31 HM HD HDD W4 H L. pose proof (pow24 H24) as H2.
  assert (DD : (D <= D * D)%Z) by nia.
  pose proof (wok_pos (emax := emax) _ W4) as V4.
  destruct (wok_pows M H31 HM W4) as (W2 & W3). pose proof (wok_pos (emax := emax) _ W3) as V3.
  set (am := m4new (B2R (mget m 0 0)) (B2R (mget m 0 1)) (B2R (mget m 0 2)) (B2R (mget m 0 3)) (B2R (mget m 1 0)) (B2R (mget m 1 1)) (B2R (mget m 1 2)) (B2R (mget m 1 3)) (B2R (mget m 2 0)) (B2R (mget m 2 1)) (B2R (mget m 2 2)) (B2R (mget m 2 3)) (B2R (mget m 3 0)) (B2R (mget m 3 1)) (B2R (mget m 3 2)) (B2R (mget m 3 3)) : mat R 4 4).
  assert (EL : laplace 4 (fun i j => B2R (mget m j i)) = m4det am).
  { rewrite m4det_laplace. cbv [laplace sum sgn minor Nat.ltb Nat.leb]. reflexivity. }
  rewrite EL in L.
  assert (DET : fapp (M * M * M * M) 24 380928 (m4det m) (m4det am)).
  { unfold m4det. eapply fapp_weak; [exact V4| fapp_tree H24 W4 ltac:(apply fapp_prod4; try assumption; apply H; lia) | lia | lia]. }
  assert (NZ : m4det am <> 0%R) by (intros Z0; rewrite Z0, Rabs_R0 in L; lra).
  destruct (m4try_inverse am) as [c|] eqn:EC; [|apply m4try_inverse_none in EC; contradiction].
  pose proof (proj1 (m4try_inverse_some am c EC)) as MC.
  unfold m4try_inverse in EC. cbv zeta in EC. destruct (nis0 (m4det am)) eqn:E0; [discriminate|].
  assert (N0 : nis0 (m4det m) = false).
  { apply (fapp_nonzero H24 (M * M * M * M) 24 D 380928 _ (m4det am) V4 DET L); lia. }
  assert (EV : (1 / M = 1 / (M * M * M * M) * (M * M * M))%R) by (field; lra).
  assert (W1 : @wok emax (1 / (M * M * M * M) * (M * M * M))) by (rewrite <- EV; apply (wok_inv_base H31 M HM (M * M * M * M)); [exact W4|]; pow_side HM).
  unfold m4try_inverse. cbv zeta. rewrite N0.
  eexists; exists c; split; [reflexivity|]. split.
  - intros i j Hi Hj. transitivity (mget (midentity 4 : mat R 4 4) j i).
    + rewrite <- MC, mget_mmul by lia. apply sum_ext. intros k Hk. f_equal.
      destruct i as [|[|[|[|?]]]]; try lia; destruct k as [|[|[|[|?]]]]; try lia; reflexivity.
    + rewrite mget_midentity by lia. unfold delta. rewrite Nat.eqb_sym. reflexivity.
  - assert (CO : forall (x : binary_float prec emax) k, fapp ((M * M * M)) 6 33792 x k ->
      fnear (nmul (ndiv n1 (m4det m)) x) (1 / m4det am * k)%R (IZR (4510 * D * D) * bpow radix2 (- prec) * (1 / M))%R).
    { intros x k HX. eapply fapp_near; [rewrite EV; exact (wok_pos (emax := emax) _ W1)| |].
      - rewrite EV. apply (inv_entry H24 H31 _ _ 24 D 380928 6 33792); try eassumption; lia.
      - lia. }
    injection EC as <-. intros i j Hi Hj.
    destruct i as [|[|[|[|?]]]]; try lia; destruct j as [|[|[|[|?]]]]; try lia;
      (apply CO; eapply fapp_weak; [exact V3| fapp_tree H24 W3 ltac:(apply fapp_prod3; try assumption; apply H; lia) | lia | lia]).
Qed.

Lemma c111_singular2 :
  forall (prec emax : Z) (Hp : Prec_gt_0 prec) (He : Prec_lt_emax prec emax) (m : mat (binary_float prec emax) 2 2),
    (forall j i, (j < 2)%nat -> (i < 2)%nat -> is_finite (mget m j i) = true) ->
    is_finite (nmul (mget m 0 0) (mget m 1 1)) = true ->
    laplace 2 (fun i j => B2R (mget m j i)) = 0%R -> m2try_inverse m = None.
Proof.
  intros prec emax Hp He m F FP L.
  assert (E : (B2R (mget m 0 0) * B2R (mget m 1 1) = B2R (mget m 0 1) * B2R (mget m 1 0))%R).
  { cbv [laplace sum sgn minor Nat.ltb Nat.leb nadd nmul nneg n0 n1 num_R] in L. lra. }
  unfold m2try_inverse. cbv zeta. replace (nis0 (m2det m)) with true; [reflexivity|]. symmetry.
  unfold m2det.
  pose proof (F 0%nat 0%nat ltac:(lia) ltac:(lia)) as F00. pose proof (F 0%nat 1%nat ltac:(lia) ltac:(lia)) as F01.
  pose proof (F 1%nat 0%nat ltac:(lia) ltac:(lia)) as F10. pose proof (F 1%nat 1%nat ltac:(lia) ltac:(lia)) as F11.
  set (a := mget m 0 0) in *. set (b := mget m 0 1) in *. set (c := mget m 1 0) in *. set (d := mget m 1 1) in *.
  pose proof (Bmult_correct prec emax Hp He mode_NE a d) as M1. pose proof (Bmult_correct prec emax Hp He mode_NE b c) as M2.
  cbn [nmul num_float] in *. rewrite E in M1.
  destruct (Rlt_bool _ _) eqn:RB in M1.
  2:{ exfalso. rewrite <- is_finite_SF_B2SF in FP. apply (f_equal is_finite_SF) in M1.
      assert (X : is_finite_SF (binary_overflow prec emax mode_NE (xorb (Bsign a) (Bsign d))) = true) by (rewrite <- M1; exact FP).
      discriminate X. }
  rewrite RB in M2. destruct M1 as (R1 & F1 & _). destruct M2 as (R2 & F2 & _).
  rewrite F00, F11 in F1. rewrite F01, F10 in F2. cbn [andb] in F1, F2.
  cbn [nsub num_float].
  pose proof (Bminus_correct prec emax Hp He mode_NE _ _ F1 F2) as MS.
  rewrite R1, R2, Rminus_diag_eq in MS by reflexivity. rewrite round_0, Rabs_R0, Rlt_bool_true in MS by (apply valid_rnd_round_mode || apply bpow_gt_0).
  destruct MS as (S1 & S2 & _). cbn [nis0 numdiv_float]. rewrite Beqb_correct by (assumption || reflexivity).
  rewrite S1. apply Req_bool_true. reflexivity.
Qed.

Lemma c111_inverse_refuted :
  (exists (m : mat f64 3 3) (a : mat Z 3 3), (forall j i, (j < 3)%nat -> (i < 3)%nat -> fint (mget m j i) (mget a j i)) /\
     laplace 3 (fun i j => mget a j i) = 0%Z /\
     exists w, m3try_inverse m = Some w /\ is_finite (mget w 0 0) = true) /\
  (exists m : mat f64 2 2, m2try_inverse m = None /\ mget m 0 1 = n0 /\ mget m 1 0 = n0 /\
     (0 < B2R (mget m 0 0))%R /\ (0 < B2R (mget m 1 1))%R /\
     is_finite (ndiv n1 (mget m 0 0)) = true /\ is_finite (ndiv n1 (mget m 1 1)) = true) /\
  (exists m : mat f64 2 2, (forall j i, (j < 2)%nat -> (i < 2)%nat -> is_finite (mget m j i) = true) /\
     laplace 2 (fun i j => B2R (mget m j i)) = 0%R /\
     exists w, m2try_inverse m = Some w /\ is_nan (mget w 0 0) = true).
Proof.
  conjs.
  - exists (m3new (f64_of_Z 156034) (f64_of_Z 196639) (f64_of_Z 179713)
                  (f64_of_Z 173941) (f64_of_Z 107252) (f64_of_Z 74078)
                  (f64_of_Z 329975) (f64_of_Z 303891) (f64_of_Z 253791)),
           (m3new 156034 196639 179713 173941 107252 74078 329975 303891 253791)%Z.
    split; [|split; [vm_compute; reflexivity|]].
    + intros j i Hj Hi. destruct j as [|[|[|?]]]; try lia; destruct i as [|[|[|?]]]; try lia; split; apply f64_of_Z_exact; vm_compute; reflexivity.
    + eexists. split.
      * unfold m3try_inverse. cbv zeta. replace (nis0 _) with false by (vm_compute; reflexivity). reflexivity.
      * vm_compute. reflexivity.
  - set (small := ndiv (f64_of_Z 1) (f64_of_Z (2 ^ 600))).
    assert (PS : (0 < B2R small)%R).
    { assert (E : B2SF small = SpecFloat.S754_finite false 4503599627370496%positive (-652)%Z) by (vm_compute; reflexivity).
      destruct small as [s|s| |s m e H]; try discriminate E. injection E as -> -> ->. apply F2R_gt_0. reflexivity. }
    exists (m2new small n0 n0 small). conjs; try exact PS; try reflexivity; vm_compute; reflexivity.
  - exists (m2new (f64_of_Z (2 ^ 600)) (f64_of_Z (2 ^ 600)) (f64_of_Z (2 ^ 600)) (f64_of_Z (2 ^ 600))).
    split; [|split].
    + intros j i Hj Hi. destruct j as [|[|?]]; try lia; destruct i as [|[|?]]; try lia; vm_compute; reflexivity.
    + cbv [laplace sum sgn minor Nat.ltb Nat.leb nadd nmul nneg n0 n1 num_R]. cbn [mget mget_d m2new v2 vget fst snd]. ring.
    + eexists. split.
      * unfold m2try_inverse. cbv zeta. replace (nis0 _) with false by (vm_compute; reflexivity). reflexivity.
      * vm_compute. reflexivity.
Qed.

Lemma c111_example :
  let m := m2new (f64_of_Z 1) (f64_of_Z 3) (f64_of_Z 2) (f64_of_Z 4) in
  (2 ^ 18 * (8 * 8) <= 2 ^ 53)%Z /\ (4 * 4 <= IZR 8 * Rabs (1 * 4 - 2 * 3))%R /\
  match m2try_inverse m with
  | Some w => B2SF (mget w 0 0) = B2SF (f64_of_Z (-2)) /\ B2SF (mget w 1 0) = B2SF (f64_of_Z 1)
  | None => False
  end.
Proof.
  cbv zeta. conjs.
  - lia.
  - rewrite Rabs_left by lra. lra.
  - unfold m2try_inverse. cbv zeta. replace (nis0 _) with false by (vm_compute; reflexivity). split; vm_compute; reflexivity.
Qed.
