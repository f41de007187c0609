(** Linear reflection and shear matrices in floats (C159). *)

From Coq Require Import List Arith ZArith Bool Lia Reals Lra Psatz.
From Flocq Require Import Core.Core IEEE754.BinarySingleNaN.
From Verif Require Import Base Scalar Spec SpecF SpecArc SpecLibm MReal MVector MMatrix MPoint MTransform MFloat
  LBase LVector LMatrix LTransform LFloat LFloatVec LFloatP LFloatNormP LFloatAcc LFloatExP LProjF LSame LSameP LTrScF LCplxFP LAffM LAffMP.
Import ListNotations.
Local Open Scope R_scope.

Section F.
Context {prec emax : Z} {Hp : Prec_gt_0 prec} {He : Prec_lt_emax prec emax}.
Notation fl := (binary_float prec emax).
Notation u := (bpow radix2 (- prec)).

(** *** Sums with two entries that are not zero *)
Lemma sum_two n (f : nat -> fl) i j : (i < j)%nat -> (j < n)%nat -> (forall k, (k < n)%nat -> k <> i -> k <> j -> is_zero (f k)) -> feqv (sum n f) (nadd (f i) (f j)).
Proof.
  intros L. induction n as [|n IH]; intros Hj H; [lia|]. change (sum (S n) f) with (nadd (sum n f) (f n)). destruct (Nat.eq_dec j n) as [->|D].
  - apply add_same_l. apply (sum_one n f i); [intros k Hk Hki; apply H; lia|lia].
  - eapply same_trans; [apply add_zero_r, H; lia|]. apply IH; [lia|]. intros k Hk; apply H; lia.
Qed.
Lemma shear_act n (m : mat fl n n) s (v : vec fl n) a b : (a < n)%nat -> (b < n)%nat -> a <> b -> all_finite v ->
  (forall j i, (j < n)%nat -> (i < n)%nat -> mget m j i = if Nat.eqb i j then n1 else if (Nat.eqb i a && Nat.eqb j b)%bool then s else n0) ->
  feqv (vat (mmulv m v) a) (nadd (vat v a) (nmul s (vat v b))) /\ forall i, (i < n)%nat -> i <> a -> feqv (vat (mmulv m v) i) (vat v i).
Proof.
  intros Ha Hb D F M. split.
  - rewrite vat_mmulv by exact Ha. set (f := fun k => _).
    assert (Fa : f a = vat v a) by (unfold f; rewrite M, Nat.eqb_refl by assumption; apply mul_1_l).
    assert (Fb : f b = nmul s (vat v b)).
    { unfold f. rewrite M by assumption. destruct (Nat.eqb_spec a b); [contradiction|]. rewrite !Nat.eqb_refl. reflexivity. }
    assert (Z : forall k, (k < n)%nat -> k <> a -> k <> b -> is_zero (f k)).
    { intros k Hk Ka Kb. unfold f. rewrite M by assumption. destruct (Nat.eqb_spec a k); [congruence|]. destruct (Nat.eqb_spec k b); [contradiction|]. rewrite andb_false_r. apply mul_zero_l; [apply zero_0|apply F, Hk]. }
    rewrite <- Fa, <- Fb. destruct (Nat.lt_total a b) as [L|[L|L]]; [apply sum_two; assumption|contradiction|]. rewrite fadd_comm. apply sum_two; [assumption..|]. intros; apply Z; assumption.
  - intros i Hi Di. rewrite vat_mmulv by exact Hi. eapply same_trans; [apply (sum_one n _ i)|].
    + intros k Hk Ki. cbn beta. rewrite M by assumption. destruct (Nat.eqb_spec i k); [congruence|]. destruct (Nat.eqb_spec i a); [contradiction|]. apply mul_zero_l; [apply zero_0|apply F, Hk].
    + exact Hi.
    + cbn beta. rewrite M, Nat.eqb_refl, mul_1_l by assumption. apply same_refl.
Qed.
End F.

Theorem c159_coordinate_shears :
  forall (prec emax : Z) (Hp : Prec_gt_0 prec) (He : Prec_lt_emax prec emax) (s : binary_float prec emax),
  (forall m a b (v : vec (binary_float prec emax) 2), In (m, (a, b)) [(m2shear_xy s, (0, 1)); (m2shear_yx s, (1, 0))]%nat -> all_finite v ->
    feqv (vat (mmulv m v) a) (nadd (vat v a) (nmul s (vat v b))) /\ forall i, (i < 2)%nat -> i <> a -> feqv (vat (mmulv m v) i) (vat v i)) /\
  (forall m a b (v : vec (binary_float prec emax) 3), In (m, (a, b)) [(m3shear_xy s, (0, 1)); (m3shear_xz s, (0, 2)); (m3shear_yx s, (1, 0)); (m3shear_yz s, (1, 2)); (m3shear_zx s, (2, 0)); (m3shear_zy s, (2, 1)); (m3affine_shear_xy s, (0, 1)); (m3affine_shear_yx s, (1, 0))]%nat -> all_finite v ->
    feqv (vat (mmulv m v) a) (nadd (vat v a) (nmul s (vat v b))) /\ forall i, (i < 3)%nat -> i <> a -> feqv (vat (mmulv m v) i) (vat v i)) /\
  (forall m a b (v : vec (binary_float prec emax) 4), In (m, (a, b)) [(m4affine_shear_xy s, (0, 1)); (m4affine_shear_xz s, (0, 2)); (m4affine_shear_yx s, (1, 0)); (m4affine_shear_yz s, (1, 2)); (m4affine_shear_zx s, (2, 0)); (m4affine_shear_zy s, (2, 1))]%nat -> all_finite v ->
    feqv (vat (mmulv m v) a) (nadd (vat v a) (nmul s (vat v b))) /\ forall i, (i < 4)%nat -> i <> a -> feqv (vat (mmulv m v) i) (vat v i)).
Proof.
  intros prec emax Hp He s. split; [|split]; intros m a b v H F; cbn [In] in H;
    repeat (destruct H as [E|H]; [injection E as <- <- <-; apply shear_act; [lia|lia|lia|exact F|];
      intros j i Hj Hi; destruct j as [|[|[|[|j]]]]; try lia; destruct i as [|[|[|[|i]]]]; try lia; reflexivity|]); destruct H.
Qed.

Theorem c159_shear3 :
  forall (prec emax : Z) (Hp : Prec_gt_0 prec) (He : Prec_lt_emax prec emax) (s : binary_float prec emax) (d n v : vec (binary_float prec emax) 3) (S P : R),
  (24 <= prec)%Z -> (31 <= emax)%Z -> 1 <= S <= bpow radix2 (emax - 31) -> bpow radix2 (31 - emax) <= S * P <= bpow radix2 (emax - 31) -> 0 < P ->
  fbnd S s -> (forall i, (i < 3)%nat -> fbnd 1 (vat d i)) -> (forall i, (i < 3)%nat -> fbnd 1 (vat n i)) -> (forall i, (i < 3)%nat -> fbnd P (vat v i)) -> forall i, (i < 3)%nat ->
  fnear (vat (mmulv (m3from_shear s d n) v) i) (B2R (vat v i) + B2R s * sum 3 (fun k => B2R (vat v k) * B2R (vat n k)) * B2R (vat d i)) (31 * bpow radix2 (- prec) * (S * P)).
Proof.
  intros prec emax Hp He s d n v S P H24 E31 (S1 & S2) WP P0 HS HD HN HV.
  assert (WS : @wok emax S) by (split; [apply Rle_trans with (2 := S1); change 1 with (bpow radix2 0); apply bpow_le; lia|exact S2]).
  pose proof (HN 0%nat ltac:(lia)) as N0. pose proof (HN 1%nat ltac:(lia)) as N1. pose proof (HN 2%nat ltac:(lia)) as N2.
  pose proof (HD 0%nat ltac:(lia)) as D0. pose proof (HD 1%nat ltac:(lia)) as D1. pose proof (HD 2%nat ltac:(lia)) as D2.
  assert (T : fapp (S * P) 0 0 (n0 : binary_float prec emax) 0) by apply fapp_0.
  intros i Hi. rewrite vat_mmulv by exact Hi. destruct i as [|[|[|i]]]; [| | |lia].
  - destruct (row3 H24 S P 2 4099 0 0 _ _ _ _ _ _ _ _ (vat v 0) (vat v 1) (vat v 2) WP ltac:(lra) P0 ltac:(lia) ltac:(lia) ltac:(lia) ltac:(lia) (sh_diag H24 S s WS S1 HS _ _ D0 N0) (sh_off H24 S s WS S1 HS _ _ D0 N1) (sh_off H24 S s WS S1 HS _ _ D0 N2) T (HV 0%nat ltac:(lia)) (HV 1%nat ltac:(lia)) (HV 2%nat ltac:(lia))) as (A & _).
    refine (near_V _ _ _ 31 _ _ _ (S * P) _ A _ _ _); first [lia|apply (wok_pos _ WP)|rsolve].
  - destruct (row3 H24 S P 2 4099 0 0 _ _ _ _ _ _ _ _ (vat v 0) (vat v 1) (vat v 2) WP ltac:(lra) P0 ltac:(lia) ltac:(lia) ltac:(lia) ltac:(lia) (sh_off H24 S s WS S1 HS _ _ D1 N0) (sh_diag H24 S s WS S1 HS _ _ D1 N1) (sh_off H24 S s WS S1 HS _ _ D1 N2) T (HV 0%nat ltac:(lia)) (HV 1%nat ltac:(lia)) (HV 2%nat ltac:(lia))) as (A & _).
    refine (near_V _ _ _ 31 _ _ _ (S * P) _ A _ _ _); first [lia|apply (wok_pos _ WP)|rsolve].
  - destruct (row3 H24 S P 2 4099 0 0 _ _ _ _ _ _ _ _ (vat v 0) (vat v 1) (vat v 2) WP ltac:(lra) P0 ltac:(lia) ltac:(lia) ltac:(lia) ltac:(lia) (sh_off H24 S s WS S1 HS _ _ D2 N0) (sh_off H24 S s WS S1 HS _ _ D2 N1) (sh_diag H24 S s WS S1 HS _ _ D2 N2) T (HV 0%nat ltac:(lia)) (HV 1%nat ltac:(lia)) (HV 2%nat ltac:(lia))) as (A & _).
    refine (near_V _ _ _ 31 _ _ _ (S * P) _ A _ _ _); first [lia|apply (wok_pos _ WP)|rsolve].
Qed.

Theorem c159_shear2 :
  forall (prec emax : Z) (Hp : Prec_gt_0 prec) (He : Prec_lt_emax prec emax) (s : binary_float prec emax) (d n v : vec (binary_float prec emax) 2) (S P : R),
  (24 <= prec)%Z -> (31 <= emax)%Z -> 1 <= S <= bpow radix2 (emax - 31) -> bpow radix2 (31 - emax) <= S * P <= bpow radix2 (emax - 31) -> 0 < P ->
  fbnd S s -> (forall i, (i < 2)%nat -> fbnd 1 (vat d i)) -> (forall i, (i < 2)%nat -> fbnd 1 (vat n i)) -> (forall i, (i < 2)%nat -> fbnd P (vat v i)) -> forall i, (i < 2)%nat ->
  fnear (vat (mmulv (m2from_shear s d n) v) i) (B2R (vat v i) + B2R s * sum 2 (fun k => B2R (vat v k) * B2R (vat n k)) * B2R (vat d i)) (31 * bpow radix2 (- prec) * (S * P)).
Proof.
  intros prec emax Hp He s d n v S P H24 E31 (S1 & S2) WP P0 HS HD HN HV.
  assert (WS : @wok emax S) by (split; [apply Rle_trans with (2 := S1); change 1 with (bpow radix2 0); apply bpow_le; lia|exact S2]).
  pose proof (HN 0%nat ltac:(lia)) as N0. pose proof (HN 1%nat ltac:(lia)) as N1.
  pose proof (HD 0%nat ltac:(lia)) as D0. pose proof (HD 1%nat ltac:(lia)) as D1.
  assert (T : fapp (S * P) 0 0 (n0 : binary_float prec emax) 0) by apply fapp_0.
  intros i Hi. rewrite vat_mmulv by exact Hi. destruct i as [|[|i]]; [| |lia].
  - destruct (row2 H24 S P 2 4099 0 0 _ _ _ _ _ _ (vat v 0) (vat v 1) WP ltac:(lra) P0 ltac:(lia) ltac:(lia) ltac:(lia) ltac:(lia) (sh_diag H24 S s WS S1 HS _ _ D0 N0) (sh_off H24 S s WS S1 HS _ _ D0 N1) T (HV 0%nat ltac:(lia)) (HV 1%nat ltac:(lia))) as (A & _).
    refine (near_V _ _ _ 31 _ _ _ (S * P) _ A _ _ _); first [lia|apply (wok_pos _ WP)|rsolve].
  - destruct (row2 H24 S P 2 4099 0 0 _ _ _ _ _ _ (vat v 0) (vat v 1) WP ltac:(lra) P0 ltac:(lia) ltac:(lia) ltac:(lia) ltac:(lia) (sh_off H24 S s WS S1 HS _ _ D1 N0) (sh_diag H24 S s WS S1 HS _ _ D1 N1) T (HV 0%nat ltac:(lia)) (HV 1%nat ltac:(lia))) as (A & _).
    refine (near_V _ _ _ 31 _ _ _ (S * P) _ A _ _ _); first [lia|apply (wok_pos _ WP)|rsolve].
Qed.

Theorem c159_reflection3 :
  forall (prec emax : Z) (Hp : Prec_gt_0 prec) (He : Prec_lt_emax prec emax) (n v : vec (binary_float prec emax) 3) (P : R),
  (24 <= prec)%Z -> (31 <= emax)%Z -> bpow radix2 (31 - emax) <= P <= bpow radix2 (emax - 31) -> (forall i, (i < 3)%nat -> fbnd 1 (vat n i)) -> (forall i, (i < 3)%nat -> fbnd P (vat v i)) -> forall i, (i < 3)%nat ->
  fnear (vat (mmulv (m3from_reflection n) v) i) (B2R (vat v i) - 2 * sum 3 (fun k => B2R (vat v k) * B2R (vat n k)) * B2R (vat n i)) (49 * bpow radix2 (- prec) * P).
Proof.
  intros prec emax Hp He n v P H24 E31 WP HN HV. assert (P0 : 0 < P) by (exact (wok_pos P WP)). assert (W1P : @wok emax (1 * P)) by (rewrite Rmult_1_l; exact WP).
  pose proof (HN 0%nat ltac:(lia)) as N0. pose proof (HN 1%nat ltac:(lia)) as N1. pose proof (HN 2%nat ltac:(lia)) as N2.
  assert (T : fapp (1 * P) 0 0 (n0 : binary_float prec emax) 0) by apply fapp_0.
  intros i Hi. rewrite vat_mmulv by exact Hi. destruct i as [|[|[|i]]]; [| | |lia].
  - destruct (row3 H24 1 P 3 7171 0 0 _ _ _ _ _ _ _ _ (vat v 0) (vat v 1) (vat v 2) W1P ltac:(lra) P0 ltac:(lia) ltac:(lia) ltac:(lia) ltac:(lia) (re_diag H24 E31 _ N0) (re_off H24 E31 _ _ N0 N1) (re_off H24 E31 _ _ N0 N2) T (HV 0%nat ltac:(lia)) (HV 1%nat ltac:(lia)) (HV 2%nat ltac:(lia))) as (A & _).
    refine (near_V _ _ _ 49 _ _ _ P _ A _ _ _); first [lia|lra|rsolve].
  - destruct (row3 H24 1 P 3 7171 0 0 _ _ _ _ _ _ _ _ (vat v 0) (vat v 1) (vat v 2) W1P ltac:(lra) P0 ltac:(lia) ltac:(lia) ltac:(lia) ltac:(lia) (re_off H24 E31 _ _ N1 N0) (re_diag H24 E31 _ N1) (re_off H24 E31 _ _ N1 N2) T (HV 0%nat ltac:(lia)) (HV 1%nat ltac:(lia)) (HV 2%nat ltac:(lia))) as (A & _).
    refine (near_V _ _ _ 49 _ _ _ P _ A _ _ _); first [lia|lra|rsolve].
  - destruct (row3 H24 1 P 3 7171 0 0 _ _ _ _ _ _ _ _ (vat v 0) (vat v 1) (vat v 2) W1P ltac:(lra) P0 ltac:(lia) ltac:(lia) ltac:(lia) ltac:(lia) (re_off H24 E31 _ _ N2 N0) (re_off H24 E31 _ _ N2 N1) (re_diag H24 E31 _ N2) T (HV 0%nat ltac:(lia)) (HV 1%nat ltac:(lia)) (HV 2%nat ltac:(lia))) as (A & _).
    refine (near_V _ _ _ 49 _ _ _ P _ A _ _ _); first [lia|lra|rsolve].
Qed.

Theorem c159_reflection2 :
  forall (prec emax : Z) (Hp : Prec_gt_0 prec) (He : Prec_lt_emax prec emax) (n v : vec (binary_float prec emax) 2) (P : R),
  (24 <= prec)%Z -> (31 <= emax)%Z -> bpow radix2 (31 - emax) <= P <= bpow radix2 (emax - 31) -> (forall i, (i < 2)%nat -> fbnd 1 (vat n i)) -> (forall i, (i < 2)%nat -> fbnd P (vat v i)) -> forall i, (i < 2)%nat ->
  fnear (vat (mmulv (m2from_reflection n) v) i) (B2R (vat v i) - 2 * sum 2 (fun k => B2R (vat v k) * B2R (vat n k)) * B2R (vat n i)) (49 * bpow radix2 (- prec) * P).
Proof.
  intros prec emax Hp He n v P H24 E31 WP HN HV. assert (P0 : 0 < P) by (exact (wok_pos P WP)). assert (W1P : @wok emax (1 * P)) by (rewrite Rmult_1_l; exact WP).
  pose proof (HN 0%nat ltac:(lia)) as N0. pose proof (HN 1%nat ltac:(lia)) as N1.
  assert (T : fapp (1 * P) 0 0 (n0 : binary_float prec emax) 0) by apply fapp_0.
  intros i Hi. rewrite vat_mmulv by exact Hi. destruct i as [|[|i]]; [| |lia].
  - destruct (row2 H24 1 P 3 7171 0 0 _ _ _ _ _ _ (vat v 0) (vat v 1) W1P ltac:(lra) P0 ltac:(lia) ltac:(lia) ltac:(lia) ltac:(lia) (re_diag H24 E31 _ N0) (re_off H24 E31 _ _ N0 N1) T (HV 0%nat ltac:(lia)) (HV 1%nat ltac:(lia))) as (A & _).
    refine (near_V _ _ _ 49 _ _ _ P _ A _ _ _); first [lia|lra|rsolve].
  - destruct (row2 H24 1 P 3 7171 0 0 _ _ _ _ _ _ (vat v 0) (vat v 1) W1P ltac:(lra) P0 ltac:(lia) ltac:(lia) ltac:(lia) ltac:(lia) (re_off H24 E31 _ _ N1 N0) (re_diag H24 E31 _ N1) T (HV 0%nat ltac:(lia)) (HV 1%nat ltac:(lia))) as (A & _).
    refine (near_V _ _ _ 49 _ _ _ P _ A _ _ _); first [lia|lra|rsolve].
Qed.

(** *** Reflecting twice, on reals *)
Section Twice.
Variables (n v w w' : nat -> R) (P u : R) (m : nat).
Hypothesis (Hm : (m <= 3)%nat) (HP : 0 < P) (Hu : 0 <= u <= / 16384).
Hypothesis (HN : forall i, (i < m)%nat -> Rabs (n i) <= 1) (HV : forall i, (i < m)%nat -> Rabs (v i) <= P).
Hypothesis (H1 : Rabs (sum m (fun k => n k * n k) - 1) <= 16 * u).
Lemma rs_ext (f g : nat -> R) : (forall k, (k < m)%nat -> f k = g k) -> sum m f = sum m g.
Proof. intros H. clear - H. induction m as [|k IH]; [reflexivity|]. change (sum k f + f k = sum k g + g k). rewrite H, IH by (intros; try apply H; lia). reflexivity. Qed.
Lemma rs_comb (f g : nat -> R) (a b : R) : sum m (fun k => a * f k + b * g k) = a * sum m f + b * sum m g.
Proof. clear. induction m as [|k IH]; [cbn; ring|]. change (sum k (fun k => a * f k + b * g k) + (a * f k + b * g k) = a * (sum k f + f k) + b * (sum k g + g k)). rewrite IH. ring. Qed.
Lemma rs_bnd (f : nat -> R) B : 0 <= B -> (forall k, (k < m)%nat -> Rabs (f k) <= B) -> Rabs (sum m f) <= 3 * B.
Proof.
  intros B0 H. assert (G : forall k, (k <= m)%nat -> Rabs (sum k f) <= INR k * B).
  { induction k as [|k IH]; intros Hk; [cbn [sum]; change (@n0 R num_R) with 0; rewrite Rabs_R0; cbn; lra|]. change (Rabs (sum k f + f k) <= INR (S k) * B). rewrite S_INR. pose proof (Rabs_triang (sum k f) (f k)). pose proof (IH ltac:(lia)). pose proof (H k ltac:(lia)). lra. }
  pose proof (G m (le_n m)) as Q. assert (INR m <= 3) by (replace 3 with (INR 3) by (cbn; ring); apply le_INR; exact Hm). nra.
Qed.
Definition dotn (x : nat -> R) : R := sum m (fun k => x k * n k).
Lemma dotn_bnd x B : 0 <= B -> (forall k, (k < m)%nat -> Rabs (x k) <= B) -> Rabs (dotn x) <= 3 * B.
Proof. intros B0 H. apply rs_bnd; [exact B0|]. intros k Hk. rewrite Rabs_mult. pose proof (H k Hk). pose proof (HN k Hk). pose proof (Rabs_pos (x k)). pose proof (Rabs_pos (n k)). nra. Qed.
Lemma mul3 a b A B : Rabs a <= A -> Rabs b <= B -> Rabs (a * b) <= A * B.
Proof. intros HA HB. rewrite Rabs_mult. apply Rmult_le_compat; try apply Rabs_pos; assumption. Qed.
Lemma image_bnd : (forall i, (i < m)%nat -> Rabs (w i - (v i - 2 * dotn v * n i)) <= 49 * u * P) -> forall i, (i < m)%nat -> Rabs (w i) <= 8 * P.
Proof.
  intros HW i Hi. pose proof (HW i Hi) as A. pose proof (HV i Hi) as B. pose proof (mul3 _ _ _ _ (dotn_bnd v P ltac:(lra) HV) (HN i Hi)) as C.
  assert (49 * u * P <= P) by nra. revert A B C. unfold Rabs. repeat destruct Rcase_abs; lra.
Qed.
Lemma twice : (forall i, (i < m)%nat -> Rabs (w i - (v i - 2 * dotn v * n i)) <= 49 * u * P) -> (forall i, (i < m)%nat -> Rabs (w' i - (w i - 2 * dotn w * n i)) <= 49 * u * (8 * P)) ->
  forall i, (i < m)%nat -> Rabs (w' i - v i) <= 1000 * u * P.
Proof.
  intros HW HW' i Hi. set (e := fun k => w k - (v k - 2 * dotn v * n k)).
  assert (W : dotn w = dotn e + (dotn v - 2 * dotn v * sum m (fun k => n k * n k))).
  { unfold dotn at 1. rewrite (rs_ext _ (fun k => 1 * (e k * n k) + 1 * (1 * (v k * n k) + (- 2 * dotn v) * (n k * n k)))) by (intros; unfold e; ring). rewrite rs_comb, rs_comb. fold (dotn e) (dotn v). ring. }
  set (q := sum m (fun k => n k * n k)) in *.
  pose proof (HW i Hi) as A. pose proof (HW' i Hi) as B. assert (U : 0 <= 49 * u * P) by nra.
  pose proof (mul3 _ _ _ _ (dotn_bnd e _ U HW) (HN i Hi)) as C.
  pose proof (mul3 _ _ _ _ (mul3 _ _ _ _ (dotn_bnd v P ltac:(lra) HV) (HN i Hi)) H1) as D.
  replace (w' i - v i) with ((w' i - (w i - 2 * dotn w * n i)) + e i + - 2 * (dotn e * n i) + 4 * (dotn v * n i * (q - 1))) by (unfold e at 1; rewrite W; ring).
  fold (e i) in A. revert A B C D. generalize (w' i - (w i - 2 * dotn w * n i)) (e i) (dotn e * n i) (dotn v * n i * (q - 1)). intros a b c d. intros A B C D.
  assert (0 <= u * P) by nra. revert A B C D. unfold Rabs. repeat destruct Rcase_abs; lra.
Qed.
End Twice.

Theorem c159_reflect_twice :
  forall (prec emax : Z) (Hp : Prec_gt_0 prec) (He : Prec_lt_emax prec emax) (P : R),
  (24 <= prec)%Z -> (34 <= emax)%Z -> bpow radix2 (31 - emax) <= P <= bpow radix2 (emax - 34) ->
  (forall n v : vec (binary_float prec emax) 3, (forall i, (i < 3)%nat -> fbnd 1 (vat n i)) -> (forall i, (i < 3)%nat -> fbnd P (vat v i)) ->
    Rabs (sum 3 (fun k => B2R (vat n k) * B2R (vat n k)) - 1) <= 16 * bpow radix2 (- prec) -> forall i, (i < 3)%nat ->
    fnear (vat (mmulv (m3from_reflection n) (mmulv (m3from_reflection n) v)) i) (B2R (vat v i)) (1000 * bpow radix2 (- prec) * P)) /\
  (forall n v : vec (binary_float prec emax) 2, (forall i, (i < 2)%nat -> fbnd 1 (vat n i)) -> (forall i, (i < 2)%nat -> fbnd P (vat v i)) ->
    Rabs (sum 2 (fun k => B2R (vat n k) * B2R (vat n k)) - 1) <= 16 * bpow radix2 (- prec) -> forall i, (i < 2)%nat ->
    fnear (vat (mmulv (m2from_reflection n) (mmulv (m2from_reflection n) v)) i) (B2R (vat v i)) (1000 * bpow radix2 (- prec) * P)).
Proof.
  intros prec emax Hp He P H24 E34 WP.
  assert (Hu : 0 <= bpow radix2 (- prec) <= / 16384).
  { split; [apply bpow_ge_0|]. apply Rle_trans with (bpow radix2 (-14)); [apply bpow_le; lia|cbn; lra]. }
  assert (X : bpow radix2 (emax - 31) = 8 * bpow radix2 (emax - 34)) by (replace (emax - 31)%Z with (3 + (emax - 34))%Z by lia; rewrite bpow_plus; cbn; lra).
  pose proof (bpow_gt_0 radix2 (31 - emax)). pose proof (bpow_gt_0 radix2 (emax - 34)).
  assert (W1 : bpow radix2 (31 - emax) <= P <= bpow radix2 (emax - 31)) by lra. assert (W8 : bpow radix2 (31 - emax) <= 8 * P <= bpow radix2 (emax - 31)) by lra.
  split; intros n v HN HV H1.
  - pose proof (c159_reflection3 prec emax Hp He n v P H24 ltac:(lia) W1 HN HV) as A.
    assert (I : forall i, (i < 3)%nat -> fbnd (8 * P) (vat (mmulv (m3from_reflection n) v) i)).
    { intros i Hi. split; [apply (A i Hi)|]. refine (image_bnd (fun k => B2R (vat n k)) (fun k => B2R (vat v k)) (fun k => B2R (vat (mmulv (m3from_reflection n) v) k)) P (bpow radix2 (- prec)) 3 _ _ _ _ _ _ i Hi); try (lia || lra); intros k Hk; [apply (HN k Hk)|apply (HV k Hk)|apply (A k Hk)]. }
    pose proof (c159_reflection3 prec emax Hp He n _ (8 * P) H24 ltac:(lia) W8 HN I) as B. intros i Hi. split; [apply (B i Hi)|].
    refine (twice (fun k => B2R (vat n k)) (fun k => B2R (vat v k)) (fun k => B2R (vat (mmulv (m3from_reflection n) v) k)) (fun k => B2R (vat (mmulv (m3from_reflection n) (mmulv (m3from_reflection n) v)) k)) P (bpow radix2 (- prec)) 3 _ _ _ _ _ H1 _ _ i Hi); try (lia || lra); intros k Hk; [apply (HN k Hk)|apply (HV k Hk)|apply (A k Hk)|apply (B k Hk)].
  - pose proof (c159_reflection2 prec emax Hp He n v P H24 ltac:(lia) W1 HN HV) as A.
    assert (I : forall i, (i < 2)%nat -> fbnd (8 * P) (vat (mmulv (m2from_reflection n) v) i)).
    { intros i Hi. split; [apply (A i Hi)|]. refine (image_bnd (fun k => B2R (vat n k)) (fun k => B2R (vat v k)) (fun k => B2R (vat (mmulv (m2from_reflection n) v) k)) P (bpow radix2 (- prec)) 2 _ _ _ _ _ _ i Hi); try (lia || lra); intros k Hk; [apply (HN k Hk)|apply (HV k Hk)|apply (A k Hk)]. }
    pose proof (c159_reflection2 prec emax Hp He n _ (8 * P) H24 ltac:(lia) W8 HN I) as B. intros i Hi. split; [apply (B i Hi)|].
    refine (twice (fun k => B2R (vat n k)) (fun k => B2R (vat v k)) (fun k => B2R (vat (mmulv (m2from_reflection n) v) k)) (fun k => B2R (vat (mmulv (m2from_reflection n) (mmulv (m2from_reflection n) v)) k)) P (bpow radix2 (- prec)) 2 _ _ _ _ _ H1 _ _ i Hi); try (lia || lra); intros k Hk; [apply (HN k Hk)|apply (HV k Hk)|apply (A k Hk)|apply (B k Hk)].
Qed.

(** *** The matrix of a reflection is symmetric *)
Section Sym.
Context {prec emax : Z} {Hp : Prec_gt_0 prec} {He : Prec_lt_emax prec emax}.
Notation fl := (binary_float prec emax).
Lemma val_zero (x : fl) : is_finite x = true -> B2R x = 0 -> is_zero x.
Proof. destruct x as [s|s| |s m e b]; try discriminate; intros _ E; [exists s; reflexivity|]. exfalso. apply eq_0_F2R in E. destruct s; discriminate E. Qed.
Lemma val_same (x y : fl) : is_finite x = true -> is_finite y = true -> B2R x = B2R y -> feqv x y.
Proof.
  intros Fx Fy E. destruct (Req_dec (B2R x) 0) as [Z|Z].
  - apply same_zero; apply val_zero; try assumption. rewrite <- E. exact Z.
  - left. apply B2R_inj; try assumption; apply is_finite_strict_B2R; [exact Z|rewrite <- E; exact Z].
Qed.
Hypothesis H24 : (24 <= prec)%Z.
Hypothesis E31 : (31 <= emax)%Z.
Lemma two_exact (a : fl) : fbnd 1 a -> is_finite (nmul (nneg (nadd n1 n1)) a : fl) = true /\ B2R (nmul (nneg (nadd n1 n1)) a) = - (2 * B2R a).
Proof.
  intros (F & B). assert (B4 : 4 <= bpow radix2 (emax - 2)) by (change 4 with (bpow radix2 2); apply bpow_le; lia).
  assert (B8 : 8 <= bpow radix2 (emax - 1)) by (change 8 with (bpow radix2 3); apply bpow_le; lia).
  assert (O1 : B2R (n1 : fl) = 1) by apply Bone_correct. assert (O2 : is_finite (n1 : fl) = true) by apply one_fin. destruct (double_exact (n1 : fl) O2) as (T1 & T2); [rewrite O1, Rabs_pos_eq by lra; lra|]. rewrite O1 in T2.
  destruct (double_exact a F ltac:(lra)) as (D1 & D2).
  destruct (mul_val (nneg (nadd n1 n1)) a) as (M1 & M2); [cbn [nneg num_float]; rewrite is_finite_Bopp; exact T1|exact F| |].
  - cbn [nneg num_float]. rewrite B2R_Bopp, T2, Rabs_mult, Rabs_Ropp, (Rabs_pos_eq (2 * 1)) by lra. lra.
  - split; [exact M1|]. rewrite M2. cbn [nneg num_float]. rewrite B2R_Bopp, T2.
    replace (- (2 * 1) * B2R a) with (- B2R (nadd a a)) by (rewrite D2; ring). rewrite <- D2. rewrite <- B2R_Bopp. apply round_generic; [apply valid_rnd_N|]. apply generic_format_B2R.
Qed.
Lemma off_same (a b : fl) : fbnd 1 a -> fbnd 1 b -> feqv (nmul (nmul (nneg (nadd n1 n1)) a) b) (nmul (nmul (nneg (nadd n1 n1)) b) a).
Proof.
  intros A B. assert (B8 : 8 <= bpow radix2 (emax - 1)) by (change 8 with (bpow radix2 3); apply bpow_le; lia).
  assert (G : forall x y : fl, fbnd 1 x -> fbnd 1 y -> is_finite (nmul (nmul (nneg (nadd n1 n1)) x) y : fl) = true /\ B2R (nmul (nmul (nneg (nadd n1 n1)) x) y) = round radix2 (SpecFloat.fexp prec emax) ZnearestE (- (2 * B2R x) * B2R y)).
  { intros x y X Y. destruct (two_exact x X) as (F & E). rewrite <- E. apply mul_val; [exact F|apply Y|]. rewrite E, Rabs_mult, Rabs_Ropp, Rabs_mult, (Rabs_pos_eq 2) by lra.
    destruct X as (_ & X), Y as (_ & Y). pose proof (Rabs_pos (B2R x)). pose proof (Rabs_pos (B2R y)). nra. }
  destruct (G a b A B) as (F1 & E1). destruct (G b a B A) as (F2 & E2). apply val_same; [exact F1|exact F2|]. rewrite E1, E2. f_equal. ring.
Qed.
End Sym.

Theorem c159_symmetric :
  forall (prec emax : Z) (Hp : Prec_gt_0 prec) (He : Prec_lt_emax prec emax),
  (24 <= prec)%Z -> (31 <= emax)%Z ->
  (forall n : vec (binary_float prec emax) 2, (forall i, (i < 2)%nat -> fbnd 1 (vat n i)) -> forall j i, (j < 2)%nat -> (i < 2)%nat -> feqv (mget (m2from_reflection n) j i) (mget (m2from_reflection n) i j)) /\
  (forall n : vec (binary_float prec emax) 3, (forall i, (i < 3)%nat -> fbnd 1 (vat n i)) -> forall j i, (j < 3)%nat -> (i < 3)%nat -> feqv (mget (m3from_reflection n) j i) (mget (m3from_reflection n) i j)).
Proof.
  intros prec emax Hp He H24 E31. split; intros n HN j i Hj Hi.
  - destruct j as [|[|j]]; try lia; destruct i as [|[|i]]; try lia; try apply same_refl; apply (off_same E31); apply HN; lia.
  - destruct j as [|[|[|j]]]; try lia; destruct i as [|[|[|i]]]; try lia; try apply same_refl; apply (off_same E31); apply HN; lia.
Qed.

Theorem c159_example :
  let n : vec f64 2 := v2 (ndiv (f64_of_Z 3) (f64_of_Z 5)) (ndiv (f64_of_Z 4) (f64_of_Z 5)) in let v : vec f64 2 := v2 (f64_of_Z 4) (f64_of_Z (-3)) in
  (forall i, (i < 2)%nat -> fbnd 1 (vat n i) /\ fbnd 4 (vat v i)) /\ Rabs (sum 2 (fun k => B2R (vat n k) * B2R (vat n k)) - 1) <= 16 * bpow radix2 (- 53) /\
  (forall i, (i < 2)%nat -> fnear (vat (mmulv (m2from_reflection n) (mmulv (m2from_reflection n) v)) i) (B2R (vat v i)) (1000 * bpow radix2 (- 53) * 4)) /\
  vat (mmulv (m2shear_xy (f64_of_Z 2)) v) 0 = f64_of_Z (-2) /\ vat (mmulv (m2shear_xy (f64_of_Z 2)) v) 1 = f64_of_Z (-3).
Proof.
  intros n v. assert (V : forall z, (Z.abs z < 100)%Z -> is_finite (f64_of_Z z) = true /\ B2R (f64_of_Z z) = IZR z) by (intros z Hz; split; apply f64_of_Z_exact; lia).
  assert (L : forall z, (Z.abs z <= 4)%Z -> fbnd 4 (f64_of_Z z)) by (intros z Hz; destruct (V z ltac:(lia)) as (F & E); split; [exact F|rewrite E, <- abs_IZR; apply IZR_le; lia]).
  assert (N0 : B2R (vat n 0) = 5404319552844595 / 9007199254740992).
  { rewrite <- SF2R_B2SF. replace (B2SF (vat n 0)) with (SpecFloat.S754_finite false 5404319552844595 (-53)) by (vm_compute; reflexivity). unfold SF2R, F2R. cbn. lra. }
  assert (N1 : B2R (vat n 1) = 7205759403792794 / 9007199254740992).
  { rewrite <- SF2R_B2SF. replace (B2SF (vat n 1)) with (SpecFloat.S754_finite false 7205759403792794 (-53)) by (vm_compute; reflexivity). unfold SF2R, F2R. cbn. lra. }
  assert (N : forall i, (i < 2)%nat -> fbnd 1 (vat n i)).
  { intros i Hi. destruct i as [|[|i]]; [| |lia]; (split; [vm_compute; reflexivity|]); [rewrite N0|rewrite N1]; rewrite Rabs_pos_eq; lra. }
  assert (HV : forall i, (i < 2)%nat -> fbnd 4 (vat v i)) by (intros i Hi; destruct i as [|[|i]]; [| |lia]; apply L; lia).
  assert (H1 : Rabs (sum 2 (fun k => B2R (vat n k) * B2R (vat n k)) - 1) <= 16 * bpow radix2 (- 53)).
  { change (Rabs (0 + B2R (vat n 0) * B2R (vat n 0) + B2R (vat n 1) * B2R (vat n 1) - 1) <= 16 * bpow radix2 (- 53)). rewrite N0, N1. change (bpow radix2 (- 53)) with (/ 9007199254740992). apply Rabs_le. split; lra. }
  split; [intros i Hi; split; [exact (N i Hi)|exact (HV i Hi)]|]. split; [exact H1|]. split.
  - assert (W : bpow radix2 (31 - 1024) <= 4 <= bpow radix2 (1024 - 34)) by (change 4 with (bpow radix2 2); split; apply bpow_le; lia).
    exact (proj2 (c159_reflect_twice 53 1024 _ _ 4 ltac:(lia) ltac:(lia) W) n v N HV H1).
  - split; apply B2SF_inj; vm_compute; reflexivity.
Qed.
