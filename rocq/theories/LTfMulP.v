(** The theorems about products of affine transforms in floats (C161). *)

From Coq Require Import List Arith ZArith Bool Lia Reals Lra Psatz.
From Flocq Require Import Core.Core IEEE754.BinarySingleNaN.
From Verif Require Import Base Scalar Spec SpecF SpecArc SpecRigid MReal MVector MMatrix MPoint MTransform MFloat MFloatVec
  LBase LVector LMatrix LFloat LFloatVec LFloatP LFloatNormP LDriftM LLookF LTrScF LRigidF LSlerpS LTfF LTfP.
Local Open Scope R_scope.

Lemma rsum_le_c n f B : (forall k, (k < n)%nat -> f k <= B) -> rsum n f <= INR n * B.
Proof. intros H. rewrite <- rsum_const. apply rsum_le. exact H. Qed.
Lemma rsum_sub_c n (f g : nat -> R) B : (forall k, (k < n)%nat -> Rabs (f k - g k) <= B) -> Rabs (rsum n f - rsum n g) <= INR n * B.
Proof.
  induction n as [|n IH]; intros H; [cbn; rewrite Rminus_diag_eq by reflexivity; rewrite Rabs_R0; lra|].
  rewrite !(LFloat.rsum_S n), S_INR. pose proof (IH ltac:(intros; apply H; lia)) as A. pose proof (H n ltac:(lia)) as B0.
  replace (rsum n f + f n - (rsum n g + g n)) with ((rsum n f - rsum n g) + (f n - g n)) by ring. pose proof (Rabs_triang (rsum n f - rsum n g) (f n - g n)). lra.
Qed.

(** Composing two real affine maps, as a matrix product. *)
Lemma comp_real n (f g : nat -> nat -> R) (x : nat -> R) i : (n <= 3)%nat -> (forall k, (k < n)%nat -> g k n = 0) -> g n n = 1 ->
  (rsum n (fun j => rsum (S n) (fun k => f k i * g j k) * x j) + rsum (S n) (fun k => f k i * g n k) = rsum n (fun k => f k i * (rsum n (fun j => g j k * x j) + g n k)) + f n i) /\
  rsum n (fun j => rsum (S n) (fun k => f k i * g j k) * x j) = rsum n (fun k => f k i * rsum n (fun j => g j k * x j)).
Proof.
  intros Hn Z O. destruct n as [|[|[|[|n]]]]; [| | | |lia]; rewrite ?LFloat.rsum_S; change (rsum 0 ?h) with 0; rewrite ?O.
  - split; ring.
  - rewrite ?(Z 0%nat) by lia. split; ring.
  - rewrite ?(Z 0%nat), ?(Z 1%nat) by lia. split; ring.
  - rewrite ?(Z 0%nat), ?(Z 1%nat), ?(Z 2%nat) by lia. split; ring.
Qed.

Section F.
Context {prec emax : Z} {Hp : Prec_gt_0 prec} {He : Prec_lt_emax prec emax}.
Notation fl := (binary_float prec emax).
Notation u := (bpow radix2 (- prec)).
(** The last row of the product of two affine matrices is exact. *)
Lemma last_row n (f g : mat fl (S n) (S n)) j : (forall k i, (k <= n)%nat -> (i <= n)%nat -> is_finite (mget f k i) = true /\ is_finite (mget g k i) = true) ->
  (forall k, (k < n)%nat -> B2R (mget f k n) = 0) -> B2R (mget f n n) = 1 -> (j <= n)%nat -> Rabs (B2R (mget g j n)) <= 1 ->
  is_finite (mget (mmul f g) j n) = true /\ B2R (mget (mmul f g) j n) = B2R (mget g j n).
Proof.
  intros F Z O Hj B. rewrite mget_mmul by lia. destruct (zero_sum n (fun k => mget f k n) (fun k => mget g j k)) as (F0 & V0).
  { intros k Hk. split; [apply F; lia|]. split; [apply Z, Hk|apply F; lia]. }
  set (y := mget g j n) in *. assert (Fy : is_finite y = true) by (apply F; lia). assert (Ff : is_finite (mget f n n) = true) by (apply F; lia).
  change (is_finite (nadd (sum n (fun k => nmul (mget f k n) (mget g j k))) (nmul (mget f n n) y)) = true /\ B2R (nadd (sum n (fun k => nmul (mget f k n) (mget g j k))) (nmul (mget f n n) y)) = B2R y).
  assert (B1 : 1 <= bpow radix2 (emax - 1)). { change 1 with (bpow radix2 0). apply bpow_le. pose proof He as P. unfold Prec_lt_emax in P. pose proof Hp as P'. unfold Prec_gt_0 in P'. lia. }
  assert (G : round radix2 (FLT_exp (3 - emax - prec) prec) ZnearestE (B2R y) = B2R y) by (apply round_generic; [apply valid_rnd_N|apply generic_format_B2R]).
  destruct (mul_val (mget f n n) y Ff Fy) as (Fm & Vm); [rewrite O, Rmult_1_l; lra|]. rewrite O, Rmult_1_l, G in Vm.
  destruct (add_val _ _ F0 Fm) as (Fa & Va & _); [rewrite V0, Vm, Rplus_0_l; lra|]. split; [exact Fa|]. rewrite Va, V0, Vm, Rplus_0_l. exact G.
Qed.
Lemma entry_near n (f g : mat fl (S n) (S n)) F G j i : (24 <= prec)%Z -> (n <= 3)%nat -> (forall k i, (k <= n)%nat -> (i <= n)%nat -> fbnd F (mget f k i) /\ fbnd G (mget g k i)) ->
  1 <= F -> 1 <= G -> (34 <= emax)%Z -> F * G <= bpow radix2 (emax - 34) -> (j <= n)%nat -> (i <= n)%nat ->
  fnear (mget (mmul f g) j i) (rsum (S n) (fun k => B2R (mget f k i) * B2R (mget g j k))) (32 * u * (F * G)) /\ Rabs (rsum (S n) (fun k => B2R (mget f k i) * B2R (mget g j k))) <= 4 * (F * G).
Proof.
  intros H24 Hn B F1 G1 E34 W Hj Hi. assert (FG : 1 <= F * G) by nra. rewrite mget_mmul by lia.
  assert (A : rsum (S n) (fun k => Rabs (B2R (mget f k i) * B2R (mget g j k))) <= 4 * (F * G)).
  { eapply Rle_trans; [apply (rsum_le_c (S n) _ (F * G))|].
    - intros k Hk. destruct (B k i ltac:(lia) Hi) as ((_ & X) & _). destruct (B j k Hj ltac:(lia)) as (_ & (_ & Y)). rewrite Rabs_mult. apply Rmult_le_compat; try apply Rabs_pos; assumption.
    - apply Rmult_le_compat_r; [lra|]. replace 4 with (INR 4) by (cbn; ring). apply le_INR. lia. }
  split; [|eapply Rle_trans; [apply rsum_abs|exact A]].
  replace (32 * u * (F * G)) with (8 * u * (4 * (F * G))) by ring. apply (dot_sum_near H24 (S n) (fun k => mget f k i) (fun k => mget g j k) (4 * (F * G))); [lia| |exact A|].
  - intros k Hk. destruct (B k i ltac:(lia) Hi) as ((X & _) & _). destruct (B j k Hj ltac:(lia)) as (_ & (Y & _)). split; assumption.
  - split; [apply Rle_trans with 1; [change 1 with (bpow radix2 0); apply bpow_le; lia|lra]|].
    replace (emax - 31)%Z with (3 + (emax - 34))%Z by lia. rewrite bpow_plus. change (bpow radix2 3) with 8. lra.
Qed.
End F.

Theorem c161_product :
  forall (prec emax : Z) (Hp : Prec_gt_0 prec) (He : Prec_lt_emax prec emax) (n : nat) (f g : transform (binary_float prec emax) n) (F G P : R),
  let u := bpow radix2 (- prec) in let a k i := B2R (mget f k i) in let b k i := B2R (mget g k i) in
  (24 <= prec)%Z -> (36 <= emax)%Z -> (n <= 3)%nat -> 1 <= F -> 1 <= G -> 1 <= P -> F * G * P <= bpow radix2 (emax - 36) ->
  (forall k i, (k <= n)%nat -> (i <= n)%nat -> fbnd F (mget f k i) /\ fbnd G (mget g k i)) ->
  (forall k, (k < n)%nat -> a k n = 0 /\ b k n = 0) -> a n n = 1 -> b n n = 1 ->
  (forall k, (k <= n)%nat -> is_finite (mget (tf_mul f g) k n) = true /\ B2R (mget (tf_mul f g) k n) = b k n) /\
  (forall p : point (binary_float prec emax) n, (forall k, (k < n)%nat -> fbnd P (vat p k)) ->
    exists q, tf_apply_point (tf_mul f g) p = Some q /\ forall i, (i < n)%nat ->
      fnear (vat q i) (sum n (fun k => a k i * (sum n (fun j => b j k * B2R (vat p j)) + b n k)) + a n i) (264 * u * (F * G * P))) /\
  (forall v : vec (binary_float prec emax) n, (forall k, (k < n)%nat -> fbnd P (vat v k)) -> forall i, (i < n)%nat ->
    fnear (vat (tf_apply_vector (tf_mul f g) v) i) (sum n (fun k => a k i * sum n (fun j => b j k * B2R (vat v j)))) (264 * u * (F * G * P))).
Proof.
  intros prec emax Hp He n f g F G P u a b H24 E36 Hn F1 G1 P1 W HB HZ HO HO'.
  assert (FG : 1 <= F * G) by nra. assert (FGP : F * G <= F * G * P) by nra. assert (U : 0 < u <= / 1024) by (pose proof (u_small H24 : 0 < u <= / 16777216); lra).
  assert (W34 : F * G <= bpow radix2 (emax - 34)) by (apply Rle_trans with (bpow radix2 (emax - 36)); [lra|apply bpow_le; lia]).
  assert (FF : forall k i, (k <= n)%nat -> (i <= n)%nat -> is_finite (mget f k i) = true /\ is_finite (mget g k i) = true) by (intros k i Hk Hi; destruct (HB k i Hk Hi) as ((X & _) & (Y & _)); split; assumption).
  assert (LR : forall k, (k <= n)%nat -> is_finite (mget (tf_mul f g) k n) = true /\ B2R (mget (tf_mul f g) k n) = b k n).
  { intros k Hk. apply (last_row n f g k FF); [intros; apply HZ; assumption|exact HO|exact Hk|]. destruct (Nat.eq_dec k n) as [->|D]; [unfold b in HO'; rewrite HO', Rabs_R1; lra|]. destruct (HZ k ltac:(lia)) as (_ & Z). unfold b in Z. rewrite Z, Rabs_R0. lra. }
  assert (EN : forall j i, (j <= n)%nat -> (i <= n)%nat -> fnear (mget (tf_mul f g) j i) (rsum (S n) (fun k => a k i * b j k)) (32 * u * (F * G)) /\ Rabs (rsum (S n) (fun k => a k i * b j k)) <= 4 * (F * G)) by (intros j i Hj Hi; apply (entry_near n f g F G j i); first [assumption|lia]).
  assert (MF : forall k i, (k <= n)%nat -> (i <= n)%nat -> is_finite (mget (tf_mul f g) k i) = true) by (intros k i Hk Hi; apply (EN k i Hk Hi)).
  set (m := fun j i => rsum (S n) (fun k => a k i * b j k)) in *. set (M := tf_mul f g) in *.
  assert (ME : forall j i, (j <= n)%nat -> (i <= n)%nat -> Rabs (B2R (mget M j i) - m j i) <= 32 * u * (F * G) /\ Rabs (B2R (mget M j i)) <= 17 / 4 * (F * G)).
  { intros j i Hj Hi. destruct (EN j i Hj Hi) as ((_ & A) & B). fold (m j i) in A, B. split; [exact A|]. assert (32 * u * (F * G) <= / 4 * (F * G)) by (apply Rmult_le_compat_r; [lra|]; pose proof (u_small H24 : 0 < u <= / 16777216); lra).
    replace (B2R (mget M j i)) with ((B2R (mget M j i) - m j i) + m j i) by ring. pose proof (Rabs_triang (B2R (mget M j i) - m j i) (m j i)). lra. }
  assert (N3 : 0 <= INR n <= 3) by (split; [apply pos_INR|replace 3 with (INR 3) by (cbn; ring); apply le_INR; exact Hn]).
  assert (WT : forall c, 1 <= c <= 17 -> bpow radix2 (31 - emax) <= c * (F * G * P) <= bpow radix2 (emax - 31)).
  { intros c Hc. split; [apply Rle_trans with 1; [change 1 with (bpow radix2 0); apply bpow_le; lia|nra]|]. replace (emax - 31)%Z with (5 + (emax - 36))%Z by lia. rewrite bpow_plus. change (bpow radix2 5) with 32. nra. }
  assert (uF : 0 <= u * (F * G)) by (apply Rmult_le_pos; lra).
  assert (SB : forall (x : vec (binary_float prec emax) n) i, (forall k, (k < n)%nat -> fbnd P (vat x k)) -> (i <= n)%nat ->
    sum n (fun k => Rabs (B2R (mget M k i) * B2R (vat x k))) <= 51 / 4 * (F * G * P) /\ Rabs (sum n (fun k => B2R (mget M k i) * B2R (vat x k)) - sum n (fun k => m k i * B2R (vat x k))) <= 96 * u * (F * G * P)).
  { intros x i HX Hi. split.
    - eapply Rle_trans; [apply (rsum_le_c n _ (17 / 4 * (F * G) * P))|].
      + intros k Hk. rewrite Rabs_mult. apply Rmult_le_compat; try apply Rabs_pos; [apply (ME k i ltac:(lia) Hi)|apply (HX k Hk)].
      + replace (51 / 4 * (F * G * P)) with (3 * (17 / 4 * (F * G) * P)) by field. apply Rmult_le_compat_r; [nra|lra].
    - eapply Rle_trans; [apply (rsum_sub_c n _ _ (32 * u * (F * G) * P))|].
      + intros k Hk. rewrite <- Rmult_minus_distr_r, Rabs_mult. apply Rmult_le_compat; try apply Rabs_pos; [apply (ME k i ltac:(lia) Hi)|apply (HX k Hk)].
      + replace (96 * u * (F * G * P)) with (3 * (32 * u * (F * G) * P)) by ring. apply Rmult_le_compat_r; [|lra]. replace (32 * u * (F * G) * P) with (32 * (u * (F * G)) * P) by ring. apply Rmult_le_pos; lra. }
  split; [exact LR|]. split.
  - intros p HP. assert (Fp : all_finite (p : vec _ n)) by (intros k Hk; apply (HP k Hk)).
    destruct (c153_affine prec emax Hp He n M p H24 Hn MF Fp) as (q & Q & V); [intros k Hk; destruct (LR k ltac:(lia)) as (_ & E); rewrite E; apply HZ, Hk|destruct (LR n ltac:(lia)) as (_ & E); rewrite E; exact HO'|].
    exists q. split; [exact Q|]. intros i Hi. destruct (SB p i HP ltac:(lia)) as (S1 & S2). destruct (ME n i ltac:(lia) ltac:(lia)) as (M1 & M2).
    destruct (V i (17 * (F * G * P)) Hi) as (Vf & Ve); [lra|apply WT; lra|]. split; [exact Vf|].
    destruct (comp_real n a b (fun k => B2R (vat p k)) i Hn (fun k Hk => proj2 (HZ k Hk)) HO') as (C & _).
    change (sum n (fun k => a k i * (sum n (fun j => b j k * B2R (vat p j)) + b n k)) + a n i) with (rsum n (fun k => a k i * (rsum n (fun j => b j k * B2R (vat p j)) + b n k)) + a n i). rewrite <- C.
    change (rsum n (fun j => rsum (S n) (fun k => a k i * b j k) * B2R (vat p j)) + rsum (S n) (fun k => a k i * b n k)) with (sum n (fun k => m k i * B2R (vat p k)) + m n i).
    fold u in Ve. assert (32 * u * (F * G) <= 32 * u * (F * G * P)) by (apply Rmult_le_compat_l; lra).
    revert Ve S2 M1. generalize (sum n (fun k => B2R (mget M k i) * B2R (vat p k))) (sum n (fun k => m k i * B2R (vat p k))) (B2R (mget M n i)) (m n i) (B2R (vat q i)). intros A B C' D E K1 K2 K3.
    replace (E - (B + D)) with ((E - (A + C')) + ((A - B) + (C' - D))) by ring. pose proof (Rabs_triang (E - (A + C')) ((A - B) + (C' - D))). pose proof (Rabs_triang (A - B) (C' - D)). lra.
  - intros v HV i Hi. assert (Fv : all_finite v) by (intros k Hk; apply (HV k Hk)). destruct (SB v i HV ltac:(lia)) as (S1 & S2).
    destruct (c153_vector prec emax Hp He n M v i (17 * (F * G * P)) H24 Hn Hi) as (Vf & Ve); [intros k Hk; apply MF; lia|exact Fv|nra|apply WT; lra|]. split; [exact Vf|].
    destruct (comp_real n a b (fun k => B2R (vat v k)) i Hn (fun k Hk => proj2 (HZ k Hk)) HO') as (_ & C).
    change (sum n (fun k => a k i * sum n (fun j => b j k * B2R (vat v j)))) with (rsum n (fun k => a k i * rsum n (fun j => b j k * B2R (vat v j)))). rewrite <- C.
    change (rsum n (fun j => rsum (S n) (fun k => a k i * b j k) * B2R (vat v j))) with (sum n (fun k => m k i * B2R (vat v k))).
    fold u in Ve. assert (0 <= u * (F * G * P)) by (apply Rmult_le_pos; nra).
    revert Ve S2. generalize (sum n (fun k => B2R (mget M k i) * B2R (vat v k))) (sum n (fun k => m k i * B2R (vat v k))) (B2R (vat (tf_apply_vector M v) i)). intros A B E K1 K2.
    replace (E - B) with ((E - A) + (A - B)) by ring. pose proof (Rabs_triang (E - A) (A - B)). lra.
Qed.

Theorem c161_example :
  let z := f64_of_Z in
  let f : transform f64 2 := m3new (z 2%Z) (z 1%Z) (z 0%Z) (z (-1)%Z) (z 3%Z) (z 0%Z) (z 3%Z) (z (-2)%Z) (z 1%Z) in
  let g : transform f64 2 := m3new (z 0%Z) (z 1%Z) (z 0%Z) (z (-1)%Z) (z 0%Z) (z 0%Z) (z 2%Z) (z 3%Z) (z 1%Z) in
  let p : point f64 2 := v2 (z 4%Z) (z (-3)%Z) in
  (forall k i, (k <= 2)%nat -> (i <= 2)%nat -> fbnd 3 (mget f k i) /\ fbnd 3 (mget g k i)) /\ (forall k, (k < 2)%nat -> fbnd 4 (vat p k)) /\
  exists q, tf_apply_point (tf_mul f g) p = Some q /\ fnear (vat q 0) 6 (264 * bpow radix2 (- 53) * 36) /\ fnear (vat q 1) 24 (264 * bpow radix2 (- 53) * 36).
Proof.
  intros z f g p. assert (V : forall k, (Z.abs k < 100)%Z -> is_finite (z k) = true /\ B2R (z k) = IZR k) by (intros k Hk; split; apply f64_of_Z_exact; lia).
  assert (L : forall k m, (Z.abs k <= m < 100)%Z -> fbnd (IZR m) (z k)) by (intros k m Hk; destruct (V k ltac:(lia)) as (F & E); split; [exact F|rewrite E, <- abs_IZR; apply IZR_le; lia]).
  assert (A : forall k i, (k <= 2)%nat -> (i <= 2)%nat -> fbnd 3 (mget f k i) /\ fbnd 3 (mget g k i)).
  { intros k i Hk Hi. destruct k as [|[|[|k]]]; try lia; destruct i as [|[|[|i]]]; try lia; split; apply L; lia. }
  assert (B : forall k, (k < 2)%nat -> fbnd 4 (vat p k)) by (intros k Hk; destruct k as [|[|k]]; try lia; apply L; lia).
  split; [exact A|]. split; [exact B|].
  assert (W : 3 * 3 * 4 <= bpow radix2 (1024 - 36)) by (apply Rle_trans with (bpow radix2 6); [change (bpow radix2 6) with 64; lra|apply bpow_le; lia]).
  destruct (V 0%Z ltac:(lia)) as (_ & V0). destruct (V 1%Z ltac:(lia)) as (_ & V1). destruct (V 2%Z ltac:(lia)) as (_ & V2). destruct (V 3%Z ltac:(lia)) as (_ & V3). destruct (V 4%Z ltac:(lia)) as (_ & V4).
  destruct (V (-1)%Z ltac:(lia)) as (_ & W1). destruct (V (-2)%Z ltac:(lia)) as (_ & W2). destruct (V (-3)%Z ltac:(lia)) as (_ & W3).
  destruct (c161_product 53 1024 _ _ 2 f g 3 3 4 ltac:(lia) ltac:(lia) ltac:(lia) ltac:(lra) ltac:(lra) ltac:(lra) W A) as (_ & H & _).
  - intros k Hk. destruct k as [|[|k]]; try lia; (split; exact V0).
  - exact V1.
  - exact V1.
  - destruct (H p B) as (q & Q & N). exists q. split; [exact Q|]. replace (3 * 3 * 4) with 36 in N by lra. split.
    + pose proof (N 0%nat ltac:(lia)) as X. change (fnear (vat q 0) (0 + B2R (z 2%Z) * (0 + B2R (z 0%Z) * B2R (z 4%Z) + B2R (z (-1)%Z) * B2R (z (-3)%Z) + B2R (z 2%Z)) + B2R (z (-1)%Z) * (0 + B2R (z 1%Z) * B2R (z 4%Z) + B2R (z 0%Z) * B2R (z (-3)%Z) + B2R (z 3%Z)) + B2R (z 3%Z)) (264 * bpow radix2 (- 53) * 36)) in X.
      rewrite V0, V1, V2, V3, V4, W1, W3 in X. match type of X with fnear _ ?r _ => replace r with 6 in X by lra end. exact X.
    + pose proof (N 1%nat ltac:(lia)) as X. change (fnear (vat q 1) (0 + B2R (z 1%Z) * (0 + B2R (z 0%Z) * B2R (z 4%Z) + B2R (z (-1)%Z) * B2R (z (-3)%Z) + B2R (z 2%Z)) + B2R (z 3%Z) * (0 + B2R (z 1%Z) * B2R (z 4%Z) + B2R (z 0%Z) * B2R (z (-3)%Z) + B2R (z 3%Z)) + B2R (z (-2)%Z)) (264 * bpow radix2 (- 53) * 36)) in X.
      rewrite V0, V1, V2, V3, V4, W1, W2, W3 in X. match type of X with fnear _ ?r _ => replace r with 24 in X by lra end. exact X.
Qed.
