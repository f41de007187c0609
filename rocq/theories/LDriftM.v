(** Growth of rounding errors in long products of rotation matrices. *)

From Coq Require Import List Arith ZArith Lia Reals Lra Psatz.
From Flocq Require Import Core.Core IEEE754.BinarySingleNaN.
From Verif Require Import Base Scalar Spec SpecF SpecRot SpecDrift MVector MMatrix MReal MFloat
  LBase LVector LMatrix LReal LVectorR LRot LTransformR LFloat LFloatVec LFloatAcc LFloatNormP LFloatP LDrift.

Local Open Scope R_scope.

Fixpoint vtab (n : nat) (f : nat -> R) : vec R n :=
  match n return vec R n with O => tt | S k => (f O, vtab k (fun i => f (S i))) end.
Lemma vat_vtab n f i : (i < n)%nat -> vat (vtab n f) i = f i.
Proof.
  revert f i. induction n as [|n IH]; intros f i Hi; [lia|]. destruct i as [|i]; [reflexivity|].
  exact (IH (fun i => f (S i)) i ltac:(lia)).
Qed.

(** Euclidean length of a family of [n] numbers. *)
Definition fnrm (n : nat) (f : nat -> R) : R := sqrt (rsum n (fun i => f i * f i)).
Lemma fnrm_vnorm n f : fnrm n f = vnorm (vtab n f).
Proof.
  unfold fnrm, vnorm, vnorm_squared. rewrite vdot_sum. apply f_equal. apply sum_ext. intros i Hi.
  rewrite vat_vtab by exact Hi. reflexivity.
Qed.
Lemma fnrm_ext n f g : (forall i, (i < n)%nat -> f i = g i) -> fnrm n f = fnrm n g.
Proof. intros H. unfold fnrm. apply f_equal. apply sum_ext. intros i Hi. rewrite (H i Hi). reflexivity. Qed.
Lemma fnrm_pos n f : 0 <= fnrm n f.
Proof. apply sqrt_pos. Qed.
Lemma fnrm_tri n f g : fnrm n (fun i => f i + g i) <= fnrm n f + fnrm n g.
Proof.
  rewrite !fnrm_vnorm. replace (vtab n (fun i => f i + g i)) with (vadd (vtab n f) (vtab n g)); [apply vnorm_triangle|].
  apply vat_ext. intros i Hi. rewrite vat_vadd by exact Hi. rewrite !vat_vtab by exact Hi. reflexivity.
Qed.
Lemma fnrm_cs n f g : Rabs (rsum n (fun i => f i * g i)) <= fnrm n f * fnrm n g.
Proof.
  rewrite !fnrm_vnorm. replace (rsum n (fun i => f i * g i)) with (vdot (vtab n f) (vtab n g)); [apply cauchy_schwarz|].
  rewrite vdot_sum. apply sum_ext. intros i Hi. rewrite !vat_vtab by exact Hi. reflexivity.
Qed.
Lemma rsum_le n f g : (forall i, (i < n)%nat -> f i <= g i) -> rsum n f <= rsum n g.
Proof.
  induction n as [|n IH]; intros H; [cbn; lra|]. rewrite !rsum_S.
  apply Rplus_le_compat; [apply IH; intros; apply H; lia|apply H; lia].
Qed.
Lemma rsum_const n a : rsum n (fun _ => a) = INR n * a.
Proof. induction n as [|n IH]; [cbn; ring|]. rewrite rsum_S, IH, S_INR. ring. Qed.
Lemma fnrm_comp n f i : (i < n)%nat -> Rabs (f i) <= fnrm n f.
Proof.
  intros Hi. unfold fnrm. rewrite <- sqrt_Rsqr_abs. apply sqrt_le_1_alt. unfold Rsqr.
  induction n as [|n IH]; [lia|]. rewrite rsum_S.
  destruct (Nat.eq_dec i n) as [->|N].
  - assert (0 <= rsum n (fun i => f i * f i)) by (apply rsum_nonneg; intros; apply Rle_0_sqr). lra.
  - specialize (IH ltac:(lia)). pose proof (Rle_0_sqr (f n)) as T. unfold Rsqr in T. lra.
Qed.
Lemma fnrm_bound n f e : 0 <= e -> (forall i, (i < n)%nat -> Rabs (f i) <= e) -> fnrm n f <= sqrt (INR n) * e.
Proof.
  intros E H. rewrite <- (sqrt_Rsqr e E), <- sqrt_mult by (try apply Rle_0_sqr; apply pos_INR).
  apply sqrt_le_1_alt. rewrite <- rsum_const. apply rsum_le. intros i Hi. fold (Rsqr (f i)).
  apply Rsqr_le_abs_1. rewrite (Rabs_pos_eq e E). apply H. exact Hi.
Qed.

Lemma rsum_split n (x y a q : nat -> R) :
  rsum n (fun m => (x m - y m) * q m) + rsum n (fun m => x m * (a m - q m))
  = rsum n (fun m => x m * a m) - rsum n (fun m => y m * q m).
Proof. induction n as [|n IH]; [cbn; ring|]. rewrite !rsum_S. lra. Qed.

Lemma rsum_split2 n (a b e g : nat -> R) :
  rsum n (fun j => a j * b j) - rsum n (fun j => e j * g j)
  = (rsum n (fun j => (a j - e j) * g j) + rsum n (fun j => e j * (b j - g j))) + rsum n (fun j => (a j - e j) * (b j - g j)).
Proof. induction n as [|n IH]; [cbn; ring|]. rewrite !rsum_S. lra. Qed.

(** Multiplication by an orthonormal matrix keeps the length. *)
Lemma fnrm_orth n (q : mat R n n) x : orthonormal_columns q ->
  fnrm n (fun j => rsum n (fun l => x l * mget q j l)) = fnrm n x.
Proof.
  intros H. destruct (orth_pair n q H) as (_ & O).
  rewrite (fnrm_vnorm n x). transitivity (vnorm (mmulv (mtranspose q) (vtab n x))).
  - rewrite fnrm_vnorm. apply f_equal. apply vat_ext. intros i Hi.
    rewrite vat_vtab, vat_mmulv by exact Hi. apply sum_ext. intros k Hk.
    rewrite mget_mtranspose, vat_vtab by assumption. apply Rmult_comm.
  - unfold vnorm, vnorm_squared. rewrite vdot_mmulv, mtranspose_invol, <- mmulv_mmulv, O, mmulv_1. reflexivity.
Qed.
Lemma orth_row n (q : mat R n n) i i' : orthonormal_columns q -> (i < n)%nat -> (i' < n)%nat ->
  rsum n (fun j => mget q j i * mget q j i') = delta i i'.
Proof.
  intros H Hi Hi'. pose proof (orth_inverse n q H i i' Hi Hi') as T. rewrite <- T. apply sum_ext. intros k Hk.
  rewrite !mget_mtranspose by assumption. reflexivity.
Qed.
Lemma orth_row_nrm n (q : mat R n n) i : orthonormal_columns q -> (i < n)%nat -> fnrm n (fun j => mget q j i) = 1.
Proof.
  intros H Hi. unfold fnrm. rewrite (orth_row n q i i H Hi Hi). unfold delta. rewrite Nat.eqb_refl. apply sqrt_1.
Qed.
Lemma orth_entry n (q : mat R n n) j i : orthonormal_columns q -> (j < n)%nat -> (i < n)%nat -> Rabs (mget q j i) <= 1.
Proof. intros H Hj Hi. rewrite <- (orth_row_nrm n q i H Hi). apply (fnrm_comp n (fun j => mget q j i) j Hj). Qed.

Lemma rmatproduct_mmul n (l : list (mat R n n)) j i : (j < n)%nat -> (i < n)%nat ->
  mget (fold_left mmul l (midentity n)) j i = rmatproduct n (map (fun q j i => mget q j i) l) j i.
Proof.
  unfold rmatproduct. revert j i. induction l as [|q l IH] using rev_ind; intros j i Hj Hi.
  - cbn [fold_left map]. apply mget_midentity; assumption.
  - rewrite map_app, !fold_left_app. cbn [map fold_left]. rewrite mget_mmul by assumption.
    unfold rmatmul at 1. apply sum_ext. intros k Hk. rewrite (IH k i Hk Hi). reflexivity.
Qed.

Section M.
Context {prec emax : Z} {Hp : Prec_gt_0 prec} {He : Prec_lt_emax prec emax}.
Notation fl := (binary_float prec emax).
Notation u := (bpow radix2 (- prec)).
Hypothesis Hprec : (24 <= prec)%Z.
Hypothesis Hemax : (32 <= emax)%Z.

Lemma dot_step n (x a : nat -> fl) : (n <= 4)%nat ->
  (forall l, (l < n)%nat -> is_finite (x l) = true /\ Rabs (B2R (x l)) <= 5 / 4) ->
  (forall l, (l < n)%nat -> is_finite (a l) = true /\ Rabs (B2R (a l)) <= 5 / 4) ->
  is_finite (sum n (fun l => nmul (x l) (a l))) = true /\
  Rabs (B2R (sum n (fun l => nmul (x l) (a l))) - rsum n (fun l => B2R (x l) * B2R (a l))) <= 12 * INR n * u.
Proof.
  intros Hn Fx Fa.
  assert (U : 0 < u <= / 1024).
  { split; [apply bpow_gt_0|]. change (/ 1024) with (bpow radix2 (-10)). apply bpow_le. lia. }
  assert (EU : @funit prec = u) by apply funit_eq.
  assert (T : 0 < @ftiny prec emax <= u * / 1024).
  { split; [apply ftiny_pos|]. unfold ftiny. change (/ 1024) with (bpow radix2 (-10)). rewrite <- bpow_plus.
    assert (bpow radix2 (3 - emax - prec) <= bpow radix2 (- prec + -10)) by (apply bpow_le; lia).
    pose proof (bpow_gt_0 radix2 (3 - emax - prec)). lra. }
  set (t := @ftiny prec emax) in *. 
  set (A := rsum n (fun l => Rabs (B2R (x l) * B2R (a l)))).
  assert (N : 0 <= INR n <= 4) by (split; [apply pos_INR|replace 4 with (INR 4) by (cbn; ring); apply le_INR; exact Hn]).
  assert (HA : 0 <= A <= INR n * (25 / 16)).
  { split; [apply rsum_nonneg; intros; apply Rabs_pos|]. unfold A. rewrite <- rsum_const. apply rsum_le. intros l Hl.
    rewrite Rabs_mult. destruct (Fx l Hl) as (_ & B1), (Fa l Hl) as (_ & B2).
    replace (25 / 16) with (5 / 4 * (5 / 4)) by field. apply Rmult_le_compat; try apply Rabs_pos; assumption. }
  pose proof (pow_u_bound u (S n) U ltac:(lia)) as P1. pose proof (pow_u_bound u n U ltac:(lia)) as P2.
  assert (NT : INR n * t * (1 + u) ^ n <= INR n * u / 2).
  { apply Rle_trans with (INR n * (u * / 1024) * 2); [|nra].
    apply Rmult_le_compat; try lra. { apply Rmult_le_pos; lra. } apply Rmult_le_compat_l; lra. }
  assert (F : is_finite (sum n (fun l => nmul (x l) (a l))) = true).
  { apply dot_fin; [intros; apply Fx; assumption|intros; apply Fa; assumption|].
    rewrite EU. fold t A. assert (16 <= bpow radix2 (emax - 1)).
    { change 16 with (bpow radix2 4). apply bpow_le. lia. }
    assert (A * (1 + u) ^ S n <= 25 / 4 * 2) by (apply Rmult_le_compat; lra). nra. }
  split; [exact F|]. eapply Rle_trans; [apply dot_err_bound; exact F|]. rewrite EU. fold t A.
  assert (((1 + u) ^ S n - 1) * A <= 7 * u * (INR n * (25 / 16))) by (apply Rmult_le_compat; lra). nra.
Qed.

Lemma sqrt_INR_2 n : (n <= 4)%nat -> sqrt (INR n) <= 2.
Proof.
  intros H. apply Rle_trans with (sqrt 4); [apply sqrt_le_1_alt; replace 4 with (INR 4) by (cbn; ring); apply le_INR; exact H|].
  right. replace 4 with (Rsqr 2) by (unfold Rsqr; ring). apply sqrt_Rsqr. lra.
Qed.

Lemma matrix_drift n d (l : list (mat fl n n * mat R n n)) : (n <= 4)%nat -> 0 <= d ->
  (forall p, In p l -> orthonormal_columns (snd p) /\
     forall j i, (j < n)%nat -> (i < n)%nat -> fnear (mget (fst p) j i) (mget (snd p) j i) d) ->
  INR (length l) * (INR n * (2 * d + 24 * u)) <= / 4 ->
  let r := fold_left mmul (map fst l) (midentity n) in let e := fold_left mmul (map snd l) (midentity n) in
  orthonormal_columns e /\
  (forall j i, (j < n)%nat -> (i < n)%nat -> is_finite (mget r j i) = true) /\
  (forall i, (i < n)%nat -> fnrm n (fun j => B2R (mget r j i) - mget e j i) <= INR (length l) * (INR n * (2 * d + 24 * u))).
Proof.
  intros Hn d0. assert (u0 : 0 < u) by apply bpow_gt_0.
  assert (N0 : 0 <= INR n) by apply pos_INR.
  set (c := INR n * (2 * d + 24 * u)). assert (c0 : 0 <= c) by (apply Rmult_le_pos; lra).
  induction l as [|p l IH] using rev_ind; intros Hl Hk.
  - cbv zeta. cbn [map fold_left length INR]. split; [apply orth_identity|]. split.
    + intros j i Hj Hi. rewrite mget_midentity by assumption. unfold delta. destruct (j =? i)%nat; [apply fbone|reflexivity].
    + intros i Hi. rewrite Rmult_0_l. right. rewrite (fnrm_ext n _ (fun _ => 0)).
      * unfold fnrm. rewrite rsum_const. rewrite Rmult_0_l, Rmult_0_r. apply sqrt_0.
      * intros j Hj. rewrite !mget_midentity by assumption. unfold delta. destruct (j =? i)%nat.
        -- change (B2R (n1 : fl) - 1 = 0). cbn [n1 num_float]. rewrite (proj1 fbone). ring.
        -- change (0 - 0 = 0). ring.
  - cbv zeta in *. rewrite app_length in *. cbn [length] in *. rewrite Nat.add_1_r, S_INR in *.
    rewrite !map_app, !fold_left_app. cbn [map fold_left].
    set (k := INR (length l)) in *. assert (k0 : 0 <= k) by apply pos_INR.
    set (r := fold_left mmul (map fst l) (midentity n)) in *.
    set (e := fold_left mmul (map snd l) (midentity n)) in *.
    destruct IH as (O & Fr & D).
    { intros q Hq. apply Hl, in_or_app. left. exact Hq. }
    { nra. }
    destruct (Hl p ltac:(apply in_or_app; right; left; reflexivity)) as (Oq & Aq).
    destruct p as (a, q). cbn [fst snd] in *.
    assert (kc : k * c <= / 4) by nra.
    assert (B : forall i, (i < n)%nat -> fnrm n (fun j => B2R (mget r j i)) <= 5 / 4).
    { intros i Hi. rewrite (fnrm_ext n _ (fun j => (B2R (mget r j i) - mget e j i) + mget e j i)) by (intros; ring).
      eapply Rle_trans; [apply fnrm_tri|]. rewrite (orth_row_nrm n e i O Hi). specialize (D i Hi). lra. }
    assert (d4 : forall i, (i < n)%nat -> d <= / 8).
    { intros i Hi. assert (1 <= INR n) by (change 1 with (INR 1); apply le_INR; lia). unfold c in *. nra. }
    assert (Ba : forall j i, (j < n)%nat -> (i < n)%nat -> is_finite (mget a j i) = true /\ Rabs (B2R (mget a j i)) <= 5 / 4).
    { intros j i Hj Hi. destruct (Aq j i Hj Hi) as (F & E). split; [exact F|].
      replace (B2R (mget a j i)) with ((B2R (mget a j i) - mget q j i) + mget q j i) by ring.
      eapply Rle_trans; [apply Rabs_triang|]. pose proof (orth_entry n q j i Oq Hj Hi). pose proof (d4 i Hi). lra. }
    assert (S : forall j i, (j < n)%nat -> (i < n)%nat -> is_finite (mget (mmul r a) j i) = true /\
      Rabs (B2R (mget (mmul r a) j i) - rsum n (fun l => B2R (mget r l i) * B2R (mget a j l))) <= 12 * INR n * u).
    { intros j i Hj Hi. rewrite mget_mmul by assumption. apply dot_step; [exact Hn| |].
      - intros m Hm. split; [apply Fr; assumption|].
        eapply Rle_trans; [|apply (B i Hi)]. apply (fnrm_comp n (fun j => B2R (mget r j i)) m Hm).
      - intros m Hm. apply Ba; assumption. }
    split; [apply orth_mul; assumption|]. split; [intros; apply S; assumption|].
    intros i Hi.
    set (x := fun m => B2R (mget r m i)). set (y := fun m => mget e m i).
    rewrite (fnrm_ext n _ (fun j => (rsum n (fun m => (x m - y m) * mget q j m)
        + rsum n (fun m => x m * (B2R (mget a j m) - mget q j m)))
      + (B2R (mget (mmul r a) j i) - rsum n (fun m => x m * B2R (mget a j m))))).
    2:{ intros j Hj. rewrite (mget_mmul n n n e q) by assumption. 
        transitivity (B2R (mget (mmul r a) j i) - rsum n (fun m => y m * mget q j m)); [reflexivity|].
        assert (E : rsum n (fun m => (x m - y m) * mget q j m) + rsum n (fun m => x m * (B2R (mget a j m) - mget q j m))
          = rsum n (fun m => x m * B2R (mget a j m)) - rsum n (fun m => y m * mget q j m)).
        { apply rsum_split. }
        rewrite E. ring. }
    eapply Rle_trans; [apply fnrm_tri|]. eapply Rle_trans; [apply Rplus_le_compat_r, fnrm_tri|].
    rewrite (fnrm_orth n q (fun m => x m - y m) Oq). pose proof (D i Hi) as D1. fold x y in D1.
    pose proof (sqrt_INR_2 n Hn) as S2. pose proof (sqrt_pos (INR n)) as S0.
    pose proof (sqrt_sqrt (INR n) N0) as SS.
    assert (T2 : fnrm n (fun j => rsum n (fun m => x m * (B2R (mget a j m) - mget q j m))) <= sqrt (INR n) * (5 / 4 * (sqrt (INR n) * d))).
    { apply fnrm_bound; [apply Rmult_le_pos; [lra|apply Rmult_le_pos; lra]|]. intros j Hj.
      eapply Rle_trans; [apply fnrm_cs|]. apply Rmult_le_compat; try apply fnrm_pos; [apply (B i Hi)|].
      apply fnrm_bound; [exact d0|]. intros m Hm. apply Aq; assumption. }
    assert (T3 : fnrm n (fun j => B2R (mget (mmul r a) j i) - rsum n (fun m => x m * B2R (mget a j m))) <= sqrt (INR n) * (12 * INR n * u)).
    { apply fnrm_bound; [apply Rmult_le_pos; lra|]. intros j Hj. apply S; assumption. }
    assert (T3' : sqrt (INR n) * (12 * INR n * u) <= 2 * (12 * INR n * u)) by (apply Rmult_le_compat_r; [apply Rmult_le_pos; lra|exact S2]).
    replace (sqrt (INR n) * (5 / 4 * (sqrt (INR n) * d))) with (5 / 4 * (sqrt (INR n) * sqrt (INR n) * d)) in T2 by ring.
    rewrite SS in T2. assert (0 <= INR n * d) by (apply Rmult_le_pos; assumption).
    change (fun m => x m - y m) with (fun j => B2R (mget r j i) - mget e j i). unfold c in *. unfold x, y in D1. nra.
Qed.
End M.
