(** The theorems about inverting affine transforms in floats (C162). *)

From Coq Require Import List Arith ZArith Bool Lia Reals Lra Psatz.
From Flocq Require Import Core.Core IEEE754.BinarySingleNaN.
From Verif Require Import Base Scalar Spec SpecF SpecArc SpecRigid MReal MVector MMatrix MPoint MTransform MFloat MFloatVec
  LBase LVector LMatrix LMatrixDet LReal LFloat LFloatVec LFloatP LFloatNormP LDriftM LTrScF LRigidF LTfF LTfP LTfMulP LTfInv LFloatExP.
Local Open Scope R_scope.
Ltac ppos := repeat match goal with |- 0 <= ?a / ?b => lra | |- 0 <= _ * _ => apply Rmult_le_pos end; lra.

Section G.
Context {prec emax : Z} {Hp : Prec_gt_0 prec} {He : Prec_lt_emax prec emax}.
Notation fl := (binary_float prec emax).
Notation u := (bpow radix2 (- prec)).
Variables (n : nat) (w : mat fl (S n) (S n)) (c : nat -> nat -> R) (M P Dr kap e0 : R).
Hypothesis H24 : (24 <= prec)%Z.
Hypothesis Hn : (n <= 3)%nat.
Hypothesis M0 : 0 < M.
Hypothesis D1 : 1 <= Dr.
Hypothesis K0 : 0 <= kap.
Hypothesis E0 : 0 <= e0.
Hypothesis E1 : e0 * Dr * Dr * u <= 1.
Hypothesis P0 : 0 < P.
Hypothesis Hc : forall j i, (j <= n)%nat -> (i <= n)%nat -> Rabs (c j i) <= kap * Dr / M.
Hypothesis Hw : forall j i, (j <= n)%nat -> (i <= n)%nat -> fnear (mget w j i) (c j i) (e0 * Dr * Dr * u * (1 / M)).
Hypothesis W1 : bpow radix2 (31 - emax) <= P / M.
Hypothesis W2 : 4 * (kap + 1) * Dr * (P / M) <= bpow radix2 (emax - 31).
Local Definition L := (kap + 1) * Dr / M.
Local Definition X := Dr * Dr * u * (P / M).
Local Lemma iM : 0 < 1 / M. Proof. unfold Rdiv. rewrite Rmult_1_l. apply Rinv_0_lt_compat, M0. Qed.
Local Lemma PM : 0 < P / M. Proof. apply Rdiv_lt_0_compat; assumption. Qed.
Local Lemma u0 : 0 < u <= / 16777216. Proof. exact (u_small H24). Qed.
Local Lemma LPe : L * P = (kap + 1) * Dr * (P / M). Proof. unfold L. field. lra. Qed.
Local Lemma L0 : 0 < L. Proof. unfold L. apply Rdiv_lt_0_compat; [apply Rmult_lt_0_compat; lra|exact M0]. Qed.
Local Lemma wfin j i : (j <= n)%nat -> (i <= n)%nat -> is_finite (mget w j i) = true. Proof. intros Hj Hi. apply (Hw j i Hj Hi). Qed.
Local Lemma wbnd j i : (j <= n)%nat -> (i <= n)%nat -> Rabs (B2R (mget w j i)) <= L.
Proof.
  intros Hj Hi. destruct (Hw j i Hj Hi) as (_ & A). pose proof (Hc j i Hj Hi) as B. pose proof iM.
  assert (e0 * Dr * Dr * u * (1 / M) <= Dr * (1 / M)) by (apply Rmult_le_compat_r; lra).
  unfold L. replace ((kap + 1) * Dr / M) with (kap * Dr / M + Dr * (1 / M)) by (field; lra).
  replace (B2R (mget w j i)) with ((B2R (mget w j i) - c j i) + c j i) by ring. pose proof (Rabs_triang (B2R (mget w j i) - c j i) (c j i)). lra.
Qed.
Local Lemma uLP : 0 <= u * (L * P) <= (kap + 1) * X.
Proof.
  pose proof u0. pose proof PM. rewrite LPe. unfold X. assert (A : 0 <= (kap + 1) * Dr * u * (P / M)) by ppos.
  split; [lra|]. replace ((kap + 1) * (Dr * Dr * u * (P / M))) with (Dr * ((kap + 1) * Dr * u * (P / M))) by ring. nra.
Qed.
Local Lemma X0 : 0 <= X. Proof. pose proof u0. pose proof PM. unfold X. ppos. Qed.
Local Lemma n3 : 0 <= INR n <= 3. Proof. split; [apply pos_INR|replace 3 with (INR 3) by (cbn; ring); apply le_INR; exact Hn]. Qed.
Local Lemma sums (v : vec fl n) i : (forall k, (k < n)%nat -> fbnd P (vat v k)) -> (i <= n)%nat ->
  rsum n (fun k => Rabs (B2R (mget w k i) * B2R (vat v k))) <= 3 * (L * P) /\ Rabs (rsum n (fun k => B2R (mget w k i) * B2R (vat v k)) - rsum n (fun k => c k i * B2R (vat v k))) <= 3 * (e0 * X).
Proof.
  intros HV Hi. pose proof n3. pose proof L0. pose proof X0. assert (0 <= e0 * X) by (apply Rmult_le_pos; assumption). assert (0 < L * P) by (apply Rmult_lt_0_compat; assumption). split.
  - eapply Rle_trans; [apply (rsum_le_c n _ (L * P))|apply Rmult_le_compat_r; lra]. intros k Hk. apply ab_prod; [apply wbnd; lia|apply (HV k Hk)].
  - eapply Rle_trans; [apply (rsum_sub_c n _ _ (e0 * X))|apply Rmult_le_compat_r; lra]. intros k Hk. rewrite <- Rmult_minus_distr_r.
    replace (e0 * X) with (e0 * Dr * Dr * u * (1 / M) * P) by (unfold X; field; lra). apply ab_prod; [apply (Hw k i); lia|apply (HV k Hk)].
Qed.
Lemma vec_inv (v : vec fl n) : (forall k, (k < n)%nat -> fbnd P (vat v k)) -> forall i, (i < n)%nat ->
  fnear (vat (tf_apply_vector w v) i) (rsum n (fun k => c k i * B2R (vat v k))) ((24 * (kap + 1) + 3 * e0) * X).
Proof.
  intros HV i Hi. destruct (sums v i HV ltac:(lia)) as (S1 & S2). pose proof uLP as U. pose proof PM. assert (Fv : all_finite v) by (intros k Hk; apply (HV k Hk)).
  assert (KD : 1 <= (kap + 1) * Dr) by nra.
  destruct (c153_vector prec emax Hp He n w v i (3 * (L * P)) H24 Hn Hi) as (F & E); [intros k Hk; apply wfin; lia|exact Fv|exact S1| |].
  - rewrite LPe. split; [apply Rle_trans with (1 := W1)|]; nra.
  - split; [exact F|]. change (Rabs (B2R (vat (tf_apply_vector w v) i) - rsum n (fun k => B2R (mget w k i) * B2R (vat v k))) <= 8 * u * (3 * (L * P))) in E.
    revert E S2. generalize (rsum n (fun k => B2R (mget w k i) * B2R (vat v k))) (rsum n (fun k => c k i * B2R (vat v k))) (B2R (vat (tf_apply_vector w v) i)). intros a b y E S2.
    replace (y - b) with ((y - a) + (a - b)) by ring. pose proof (Rabs_triang (y - a) (a - b)). lra.
Qed.
Lemma point_inv (p : point fl n) : 1 <= P -> (forall k, (k < n)%nat -> fbnd P (vat p k)) -> (forall j, (j < n)%nat -> c j n = 0) -> c n n = 1 -> 8 * e0 * X <= 1 -> 512 * (kap + 1) * X <= 1 ->
  exists q, tf_apply_point w p = Some q /\ forall i, (i < n)%nat -> let x := rsum n (fun k => c k i * B2R (vat p k)) + c n i in
    fnear (vat q i) x ((192 * (kap + 1) + 8 * e0) * X * (1 + Rabs x)).
Proof.
  intros P1 HV Z O B1 B2. pose proof uLP as U. pose proof PM. assert (Fv : all_finite (p : vec _ n)) by (intros k Hk; apply (HV k Hk)).
  assert (KD : 1 <= (kap + 1) * Dr) by nra. pose proof L0 as HL. assert (LP : L <= L * P) by nra. pose proof X0. assert (eX : 0 <= e0 * X) by (apply Rmult_le_pos; assumption).
  set (h := fun i => sum n (fun k => B2R (mget w k i) * B2R (vat p k)) + B2R (mget w n i)). set (x := fun i => rsum n (fun k => c k i * B2R (vat p k)) + c n i).
  assert (HX : forall i, (i <= n)%nat -> Rabs (h i - x i) <= 4 * (e0 * X)).
  { intros i Hi. destruct (sums p i HV Hi) as (_ & S2). destruct (Hw n i ltac:(lia) Hi) as (_ & A).
    assert (e0 * Dr * Dr * u * (1 / M) <= e0 * X). { replace (e0 * X) with (e0 * Dr * Dr * u * (1 / M) * P) by (unfold X; field; lra). pose proof iM. pose proof u0. assert (0 <= e0 * Dr * Dr * u * (1 / M)) by ppos. nra. }
    unfold h, x. change (sum n (fun k => B2R (mget w k i) * B2R (vat p k))) with (rsum n (fun k => B2R (mget w k i) * B2R (vat p k))).
    revert S2 A. generalize (rsum n (fun k => B2R (mget w k i) * B2R (vat p k))) (rsum n (fun k => c k i * B2R (vat p k))) (B2R (mget w n i)) (c n i). intros a b d g S2 A.
    replace (a + d - (b + g)) with ((a - b) + (d - g)) by ring. pose proof (Rabs_triang (a - b) (d - g)). lra. }
  assert (XN : x n = 1).
  { unfold x. rewrite O. rewrite <- (Rplus_0_l 1) at 2. f_equal. transitivity (rsum n (fun _ => 0)); [apply sum_ext; intros k Hk; rewrite Z by exact Hk; apply Rmult_0_l|rewrite rsum_const; ring]. }
  pose proof (HX n ltac:(lia)) as HN. rewrite XN in HN.
  assert (HN2 : / 2 <= Rabs (h n)). { revert HN. unfold Rabs. repeat destruct Rcase_abs; lra. }
  assert (N0 : h n <> 0) by (intros Q; rewrite Q, Rabs_R0 in HN2; lra).
  destruct (c153_point prec emax Hp He n w p (4 * (L * P)) (8 * (L * P)) H24 Hn) as (q & Q & V).
  - intros k i Hk Hi. apply wfin; assumption.
  - exact Fv.
  - intros i Hi. destruct (sums p i HV Hi) as (S1 & _). pose proof (wbnd n i ltac:(lia) Hi). change (rsum n (fun k => Rabs (B2R (mget w k i) * B2R (vat p k))) + Rabs (B2R (mget w n i)) <= 4 * (L * P)). lra.
  - rewrite LPe. split; [apply Rle_trans with (1 := W1)|]; nra.
  - exact N0.
  - change (4 * (L * P) <= 8 * (L * P) * Rabs (h n)). assert (0 < L * P) by lra. nra.
  - lra.
  - exists q. split; [exact Q|]. intros i Hi. cbv zeta. fold (x i). destruct (V i Hi) as (F & E). split; [exact F|].
    change (Rabs (B2R (vat q i) - h i / h n) <= 12 * u * (8 * (L * P)) * (1 + Rabs (h i / h n))) in E.
    pose proof (HX i ltac:(lia)) as HI. set (eta := 4 * (e0 * X)) in *.
    assert (A : Rabs (h i / h n - x i) <= 2 * eta * (1 + Rabs (x i))).
    { replace (h i / h n - x i) with (((h i - x i) - x i * (h n - 1)) * / h n) by (field; exact N0). rewrite Rabs_mult, Rabs_inv.
      replace (2 * eta * (1 + Rabs (x i))) with ((eta + Rabs (x i) * eta) * / / 2) by field.
      apply Rmult_le_compat; [apply Rabs_pos|left; apply Rinv_0_lt_compat; lra| |apply Rinv_le; lra]. apply ab_sub; [exact HI|]. apply ab_prod; [lra|exact HN]. }
    assert (E1' : 8 * e0 * X = 2 * eta) by (unfold eta; ring). assert (T1 : 2 * eta <= 1) by lra.
    pose proof (Rabs_pos (x i)) as X1. assert (B : 1 + Rabs (h i / h n) <= 2 * (1 + Rabs (x i))).
    { replace (h i / h n) with ((h i / h n - x i) + x i) by ring. pose proof (Rabs_triang (h i / h n - x i) (x i)). assert (2 * eta * (1 + Rabs (x i)) <= 1 * (1 + Rabs (x i))) by (apply Rmult_le_compat_r; lra). lra. }
    assert (C : 12 * u * (8 * (L * P)) * (1 + Rabs (h i / h n)) <= 192 * ((kap + 1) * X) * (1 + Rabs (x i))).
    { replace (192 * ((kap + 1) * X) * (1 + Rabs (x i))) with (96 * ((kap + 1) * X) * (2 * (1 + Rabs (x i)))) by ring. pose proof (Rabs_pos (h i / h n)). apply Rmult_le_compat; lra. }
    replace ((192 * (kap + 1) + 8 * e0) * X * (1 + Rabs (x i))) with (192 * ((kap + 1) * X) * (1 + Rabs (x i)) + 2 * eta * (1 + Rabs (x i))) by (unfold eta; ring).
    replace (B2R (vat q i) - x i) with ((B2R (vat q i) - h i / h n) + (h i / h n - x i)) by ring. pose proof (Rabs_triang (B2R (vat q i) - h i / h n) (h i / h n - x i)). lra.
Qed.
End G.

Theorem c162_inverse2 :
  forall (prec emax : Z) (Hp : Prec_gt_0 prec) (He : Prec_lt_emax prec emax) (M P : R) (D : Z) (f : transform (binary_float prec emax) 2),
  let u := bpow radix2 (- prec) in let a k i := B2R (mget f k i) in let X := IZR D * IZR D * u * (P / M) in
  (24 <= prec)%Z -> (31 <= emax)%Z -> 0 < M -> (1 <= D < 2 ^ 26)%Z -> (2 ^ 32 * (D * D) <= 2 ^ prec)%Z -> bpow radix2 (31 - emax) <= M * M * M <= bpow radix2 (emax - 31) ->
  (forall j i, (j < 3)%nat -> (i < 3)%nat -> fbnd M (mget f j i)) -> M * M * M <= IZR D * Rabs (laplace 3 (fun i j => B2R (mget f j i))) ->
  (forall k, (k < 2)%nat -> a k 2%nat = 0) -> a 2%nat 2%nat = 1 -> 0 < P -> bpow radix2 (31 - emax) <= P / M -> 12 * IZR D * (P / M) <= bpow radix2 (emax - 31) ->
  (forall v : vec (binary_float prec emax) 2, (forall k, (k < 2)%nat -> fbnd P (vat v k)) ->
    exists y (x : nat -> R), tf2inverse_apply_vector f v = Some y /\ (forall i, (i < 2)%nat -> sum 2 (fun k => a k i * x k) = B2R (vat v i)) /\ forall i, (i < 2)%nat -> fnear (vat y i) (x i) (495 * X)) /\
  (forall p : point (binary_float prec emax) 2, (forall k, (k < 2)%nat -> fbnd P (vat p k)) -> 1 <= P -> 2048 * X <= 1 ->
    exists q (x : nat -> R), tf2inverse_apply_point f p = Some (Some q) /\ (forall i, (i < 2)%nat -> sum 2 (fun k => a k i * x k) + a 2%nat i = B2R (vat p i)) /\ forall i, (i < 2)%nat -> fnear (vat q i) (x i) (1704 * X * (1 + Rabs (x i)))).
Proof.
  intros prec emax Hp He M P D f u a X H24 E31 M0 HD HDD W3 HB HL Z O P0 W1 W2.
  destruct (c111_inverse3_partial prec emax Hp He M D f H24 E31 M0 HD HDD W3 HB HL) as (w & c & EW & EC & EN).
  pose proof (u_small H24 : 0 < u <= / 16777216) as U. assert (D1 : 1 <= IZR D) by (apply IZR_le; lia).
  assert (DU : IZR D * IZR D * u <= / 4294967296).
  { apply IZR_le in HDD. rewrite !mult_IZR in HDD. assert (UP : u * IZR (2 ^ prec) = 1) by (unfold u; rewrite (IZR_Zpower radix2) by lia; rewrite <- bpow_plus, Z.add_opp_diag_l; reflexivity).
    change (IZR (2 ^ 32)) with 4294967296 in HDD. assert (u * (4294967296 * (IZR D * IZR D)) <= u * IZR (2 ^ prec)) by (apply Rmult_le_compat_l; lra). lra. }
  set (am := m3new (B2R (mget f 0 0)) (B2R (mget f 0 1)) (B2R (mget f 0 2)) (B2R (mget f 1 0)) (B2R (mget f 1 1)) (B2R (mget f 1 2)) (B2R (mget f 2 0)) (B2R (mget f 2 1)) (B2R (mget f 2 2)) : mat R 3 3).
  assert (AM : forall j i, (j < 3)%nat -> (i < 3)%nat -> mget am j i = a j i) by (intros j i Hj Hi; destruct j as [|[|[|?]]]; try lia; destruct i as [|[|[|?]]]; try lia; reflexivity).
  assert (EL : laplace 3 (fun i j => B2R (mget f j i)) = m3det am) by (rewrite m3det_laplace; cbv [laplace sum sgn minor Nat.ltb Nat.leb]; reflexivity). rewrite EL in HL.
  assert (MC : mmul am c = midentity 3).
  { apply mat_ext. intros j i Hj Hi. rewrite mget_mmul, mget_midentity by assumption. transitivity (delta i j : R); [|unfold delta; rewrite Nat.eqb_sym; reflexivity]. rewrite <- (EC i j Hi Hj). apply sum_ext. intros k Hk. rewrite AM by assumption. reflexivity. }
  assert (HC : forall j i, (j < 3)%nat -> (i < 3)%nat -> Rabs (mget c j i) <= 2 * IZR D / M) by (apply (inv_size3 am c M (IZR D) M0); [intros j i Hj Hi; rewrite AM by assumption; apply (HB j i Hj Hi)|exact HL|exact MC]).
  assert (Hc : forall j i, (j <= 2)%nat -> (i <= 2)%nat -> Rabs ((fun j i => mget c j i) j i) <= 2 * IZR D / M) by (intros; apply HC; lia).
  assert (Hw : forall j i, (j <= 2)%nat -> (i <= 2)%nat -> fnear (mget w j i) ((fun j i => mget c j i) j i) (141 * IZR D * IZR D * u * (1 / M))).
  { intros j i Hj Hi. destruct (EN i j ltac:(lia) ltac:(lia)) as (F & E). split; [exact F|]. rewrite !mult_IZR in E. exact E. }
  destruct (solve_real 2 a (fun j k => mget c j k) (fun _ => 0) ltac:(lia) (fun i j Hi Hj => EC i j ltac:(lia) ltac:(lia)) Z O) as (S0 & S1 & _).
  assert (E1 : 141 * IZR D * IZR D * u <= 1) by lra.
  assert (W2' : 4 * (2 + 1) * IZR D * (P / M) <= bpow radix2 (emax - 31)) by lra.
  split.
  - intros v HV. exists (tf_apply_vector w v), (fun i => rsum 2 (fun k => mget c k i * B2R (vat v k))). split; [unfold tf2inverse_apply_vector, tf2try_inverse; rewrite EW; reflexivity|]. split.
    + apply (solve_real 2 a (fun j k => mget c j k) (fun k => B2R (vat v k)) ltac:(lia) (fun i j Hi Hj => EC i j ltac:(lia) ltac:(lia)) Z O).
    + intros i Hi. replace (495 * X) with ((24 * (2 + 1) + 3 * 141) * X) by ring.
      apply (vec_inv 2 w (fun j i => mget c j i) M P (IZR D) 2 141 H24 ltac:(lia) M0 D1 ltac:(lra) ltac:(lra) E1 P0 Hc Hw W1 W2' v HV i Hi).
  - intros p HV P1 B. assert (X0 : 0 <= X) by (unfold X; assert (0 < P / M) by (apply Rdiv_lt_0_compat; lra); ppos).
    destruct (point_inv 2 w (fun j i => mget c j i) M P (IZR D) 2 141 H24 ltac:(lia) M0 D1 ltac:(lra) ltac:(lra) E1 P0 Hc Hw W1 W2' p P1 HV S0 S1) as (q & Q & V).
    + change (8 * 141 * X <= 1). lra.
    + change (512 * (2 + 1) * X <= 1). lra.
    + exists q, (fun i => rsum 2 (fun k => mget c k i * B2R (vat p k)) + mget c 2 i). split; [unfold tf2inverse_apply_point, tf2try_inverse; rewrite EW; cbn [option_map]; rewrite Q; reflexivity|]. split.
      * apply (solve_real 2 a (fun j k => mget c j k) (fun k => B2R (vat p k)) ltac:(lia) (fun i j Hi Hj => EC i j ltac:(lia) ltac:(lia)) Z O).
      * intros i Hi. replace 1704 with (192 * (2 + 1) + 8 * 141) by lra. exact (V i Hi).
Qed.

Theorem c162_inverse3 :
  forall (prec emax : Z) (Hp : Prec_gt_0 prec) (He : Prec_lt_emax prec emax) (M P : R) (D : Z) (f : transform (binary_float prec emax) 3),
  let u := bpow radix2 (- prec) in let a k i := B2R (mget f k i) in let X := IZR D * IZR D * u * (P / M) in
  (24 <= prec)%Z -> (31 <= emax)%Z -> 0 < M -> (1 <= D < 2 ^ 26)%Z -> (2 ^ 38 * (D * D) <= 2 ^ prec)%Z -> bpow radix2 (31 - emax) <= M * M * M * M <= bpow radix2 (emax - 31) ->
  (forall j i, (j < 4)%nat -> (i < 4)%nat -> fbnd M (mget f j i)) -> M * M * M * M <= IZR D * Rabs (laplace 4 (fun i j => B2R (mget f j i))) ->
  (forall k, (k < 3)%nat -> a k 3%nat = 0) -> a 3%nat 3%nat = 1 -> 0 < P -> bpow radix2 (31 - emax) <= P / M -> 28 * IZR D * (P / M) <= bpow radix2 (emax - 31) ->
  (forall v : vec (binary_float prec emax) 3, (forall k, (k < 3)%nat -> fbnd P (vat v k)) ->
    exists y (x : nat -> R), tf3inverse_apply_vector f v = Some y /\ (forall i, (i < 3)%nat -> sum 3 (fun k => a k i * x k) = B2R (vat v i)) /\ forall i, (i < 3)%nat -> fnear (vat y i) (x i) (13698 * X)) /\
  (forall p : point (binary_float prec emax) 3, (forall k, (k < 3)%nat -> fbnd P (vat p k)) -> 1 <= P -> 40000 * X <= 1 ->
    exists q (x : nat -> R), tf3inverse_apply_point f p = Some (Some q) /\ (forall i, (i < 3)%nat -> sum 3 (fun k => a k i * x k) + a 3%nat i = B2R (vat p i)) /\ forall i, (i < 3)%nat -> fnear (vat q i) (x i) (37424 * X * (1 + Rabs (x i)))).
Proof.
  intros prec emax Hp He M P D f u a X H24 E31 M0 HD HDD W3 HB HL Z O P0 W1 W2.
  destruct (c111_inverse4_partial prec emax Hp He M D f H24 E31 M0 HD HDD W3 HB HL) as (w & c & EW & EC & EN).
  pose proof (u_small H24 : 0 < u <= / 16777216) as U. assert (D1 : 1 <= IZR D) by (apply IZR_le; lia).
  assert (DU : IZR D * IZR D * u <= / 274877906944).
  { apply IZR_le in HDD. rewrite !mult_IZR in HDD. assert (UP : u * IZR (2 ^ prec) = 1) by (unfold u; rewrite (IZR_Zpower radix2) by lia; rewrite <- bpow_plus, Z.add_opp_diag_l; reflexivity).
    change (IZR (2 ^ 38)) with 274877906944 in HDD. assert (u * (274877906944 * (IZR D * IZR D)) <= u * IZR (2 ^ prec)) by (apply Rmult_le_compat_l; lra). lra. }
  set (am := m4new (B2R (mget f 0 0)) (B2R (mget f 0 1)) (B2R (mget f 0 2)) (B2R (mget f 0 3)) (B2R (mget f 1 0)) (B2R (mget f 1 1)) (B2R (mget f 1 2)) (B2R (mget f 1 3)) (B2R (mget f 2 0)) (B2R (mget f 2 1)) (B2R (mget f 2 2)) (B2R (mget f 2 3)) (B2R (mget f 3 0)) (B2R (mget f 3 1)) (B2R (mget f 3 2)) (B2R (mget f 3 3)) : mat R 4 4).
  assert (AM : forall j i, (j < 4)%nat -> (i < 4)%nat -> mget am j i = a j i) by (intros j i Hj Hi; destruct j as [|[|[|[|?]]]]; try lia; destruct i as [|[|[|[|?]]]]; try lia; reflexivity).
  assert (EL : laplace 4 (fun i j => B2R (mget f j i)) = m4det am) by (rewrite m4det_laplace; cbv [laplace sum sgn minor Nat.ltb Nat.leb]; reflexivity). rewrite EL in HL.
  assert (MC : mmul am c = midentity 4).
  { apply mat_ext. intros j i Hj Hi. rewrite mget_mmul, mget_midentity by assumption. transitivity (delta i j : R); [|unfold delta; rewrite Nat.eqb_sym; reflexivity]. rewrite <- (EC i j Hi Hj). apply sum_ext. intros k Hk. rewrite AM by assumption. reflexivity. }
  assert (HC : forall j i, (j < 4)%nat -> (i < 4)%nat -> Rabs (mget c j i) <= 6 * IZR D / M) by (apply (inv_size4 am c M (IZR D) M0); [intros j i Hj Hi; rewrite AM by assumption; apply (HB j i Hj Hi)|exact HL|exact MC]).
  assert (Hc : forall j i, (j <= 3)%nat -> (i <= 3)%nat -> Rabs ((fun j i => mget c j i) j i) <= 6 * IZR D / M) by (intros; apply HC; lia).
  assert (Hw : forall j i, (j <= 3)%nat -> (i <= 3)%nat -> fnear (mget w j i) ((fun j i => mget c j i) j i) (4510 * IZR D * IZR D * u * (1 / M))).
  { intros j i Hj Hi. destruct (EN i j ltac:(lia) ltac:(lia)) as (F & E). split; [exact F|]. rewrite !mult_IZR in E. exact E. }
  destruct (solve_real 3 a (fun j k => mget c j k) (fun _ => 0) ltac:(lia) (fun i j Hi Hj => EC i j ltac:(lia) ltac:(lia)) Z O) as (S0 & S1 & _).
  assert (E1 : 4510 * IZR D * IZR D * u <= 1) by lra.
  assert (W2' : 4 * (6 + 1) * IZR D * (P / M) <= bpow radix2 (emax - 31)) by lra.
  split.
  - intros v HV. exists (tf_apply_vector w v), (fun i => rsum 3 (fun k => mget c k i * B2R (vat v k))). split; [unfold tf3inverse_apply_vector, tf3try_inverse; rewrite EW; reflexivity|]. split.
    + apply (solve_real 3 a (fun j k => mget c j k) (fun k => B2R (vat v k)) ltac:(lia) (fun i j Hi Hj => EC i j ltac:(lia) ltac:(lia)) Z O).
    + intros i Hi. replace (13698 * X) with ((24 * (6 + 1) + 3 * 4510) * X) by ring.
      apply (vec_inv 3 w (fun j i => mget c j i) M P (IZR D) 6 4510 H24 ltac:(lia) M0 D1 ltac:(lra) ltac:(lra) E1 P0 Hc Hw W1 W2' v HV i Hi).
  - intros p HV P1 B. assert (X0 : 0 <= X) by (unfold X; assert (0 < P / M) by (apply Rdiv_lt_0_compat; lra); ppos).
    destruct (point_inv 3 w (fun j i => mget c j i) M P (IZR D) 6 4510 H24 ltac:(lia) M0 D1 ltac:(lra) ltac:(lra) E1 P0 Hc Hw W1 W2' p P1 HV S0 S1) as (q & Q & V).
    + change (8 * 4510 * X <= 1). lra.
    + change (512 * (6 + 1) * X <= 1). lra.
    + exists q, (fun i => rsum 3 (fun k => mget c k i * B2R (vat p k)) + mget c 3 i). split; [unfold tf3inverse_apply_point, tf3try_inverse; rewrite EW; cbn [option_map]; rewrite Q; reflexivity|]. split.
      * apply (solve_real 3 a (fun j k => mget c j k) (fun k => B2R (vat p k)) ltac:(lia) (fun i j Hi Hj => EC i j ltac:(lia) ltac:(lia)) Z O).
      * intros i Hi. replace 37424 with (192 * (6 + 1) + 8 * 4510) by lra. exact (V i Hi).
Qed.

Theorem c162_example :
  let z := f64_of_Z in
  let f : transform f64 2 := m3new (z 3%Z) (z 1%Z) (z 0%Z) (z 1%Z) (z 2%Z) (z 0%Z) (z 2%Z) (z (-3)%Z) (z 1%Z) in
  let p : point f64 2 := v2 (z 4%Z) (z (-3)%Z) in
  (forall k i, (k < 3)%nat -> (i < 3)%nat -> fbnd 3 (mget f k i)) /\ laplace 3 (fun i j => B2R (mget f j i)) = 5 /\ (forall k, (k < 2)%nat -> fbnd 4 (vat p k)) /\
  exists q, tf2inverse_apply_point f p = Some (Some q) /\ fnear (vat q 0) (4 / 5) (150000 * bpow radix2 (- 53)) /\ fnear (vat q 1) (- 2 / 5) (150000 * bpow radix2 (- 53)).
Proof.
  intros z f p. assert (V : forall k, (Z.abs k < 100)%Z -> is_finite (z k) = true /\ B2R (z k) = IZR k) by (intros k Hk; split; apply f64_of_Z_exact; lia).
  assert (L : forall k m, (Z.abs k <= m < 100)%Z -> fbnd (IZR m) (z k)) by (intros k m Hk; destruct (V k ltac:(lia)) as (F & E); split; [exact F|rewrite E, <- abs_IZR; apply IZR_le; lia]).
  assert (A : forall k i, (k < 3)%nat -> (i < 3)%nat -> fbnd 3 (mget f k i)).
  { intros k i Hk Hi. destruct k as [|[|[|k]]]; try lia; destruct i as [|[|[|i]]]; try lia; apply L; lia. }
  assert (B : forall k, (k < 2)%nat -> fbnd 4 (vat p k)) by (intros k Hk; destruct k as [|[|k]]; try lia; apply L; lia).
  destruct (V 0%Z ltac:(lia)) as (_ & V0). destruct (V 1%Z ltac:(lia)) as (_ & V1). destruct (V 2%Z ltac:(lia)) as (_ & V2). destruct (V 3%Z ltac:(lia)) as (_ & V3). destruct (V 4%Z ltac:(lia)) as (_ & V4). destruct (V (-3)%Z ltac:(lia)) as (_ & W3).
  assert (DT : laplace 3 (fun i j => B2R (mget f j i)) = 5).
  { assert (G00 : B2R (mget f 0 0) = 3) by exact V3. assert (G01 : B2R (mget f 0 1) = 1) by exact V1. assert (G02 : B2R (mget f 0 2) = 0) by exact V0. assert (G10 : B2R (mget f 1 0) = 1) by exact V1. assert (G11 : B2R (mget f 1 1) = 2) by exact V2. assert (G12 : B2R (mget f 1 2) = 0) by exact V0.
    assert (G20 : B2R (mget f 2 0) = 2) by exact V2. assert (G21 : B2R (mget f 2 1) = -3) by exact W3. assert (G22 : B2R (mget f 2 2) = 1) by exact V1.
    cbv [laplace sum sgn minor Nat.ltb Nat.leb Nat.even]. rewrite G00, G01, G02, G10, G11, G12, G20, G21, G22. cbn. lra. }
  split; [exact A|]. split; [exact DT|]. split; [exact B|].
  assert (SM : forall k, (k <= -2)%Z -> bpow radix2 k <= / 4) by (intros k Hk; change (/ 4) with (bpow radix2 (-2)); apply bpow_le; exact Hk).
  assert (BG : forall k, (10 <= k)%Z -> 1024 <= bpow radix2 k) by (intros k Hk; change 1024 with (bpow radix2 10); apply bpow_le; exact Hk).
  pose proof (SM (31 - 1024)%Z ltac:(lia)) as S1. pose proof (BG (1024 - 31)%Z ltac:(lia)) as S2.
  destruct (c162_inverse2 53 1024 _ _ 3 4 6 f) as (_ & H); try lia; try lra; try (split; lra).
  - exact A.
  - apply Rle_trans with (6 * Rabs 5); [rewrite Rabs_pos_eq; lra|right; apply f_equal, f_equal; symmetry; exact DT].
  - intros k Hk. destruct k as [|[|k]]; try lia; exact V0.
  - exact V1.
  - assert (U : bpow radix2 (- 53) <= / 16777216) by (change (/ 16777216) with (bpow radix2 (-24)); apply bpow_le; lia). pose proof (bpow_gt_0 radix2 (-53)) as U0.
    change (- (53))%Z with (-53)%Z in H. destruct (H p B ltac:(lra) ltac:(lra)) as (q & x & Q & S & N). exists q. split; [exact Q|].
    pose proof (S 0%nat ltac:(lia)) as X0. pose proof (S 1%nat ltac:(lia)) as X1.
    change (0 + B2R (z 3%Z) * x 0%nat + B2R (z 1%Z) * x 1%nat + B2R (z 2%Z) = B2R (z 4%Z)) in X0. change (0 + B2R (z 1%Z) * x 0%nat + B2R (z 2%Z) * x 1%nat + B2R (z (-3)%Z) = B2R (z (-3)%Z)) in X1.
    rewrite V1, V2, V3, V4 in X0. rewrite V1, V2, W3 in X1. assert (Y0 : x 0%nat = 4 / 5) by lra. assert (Y1 : x 1%nat = - 2 / 5) by lra.
    destruct (N 0%nat ltac:(lia)) as (F0 & E0). destruct (N 1%nat ltac:(lia)) as (F1 & E1). rewrite Y0 in E0. rewrite Y1 in E1. rewrite (Rabs_pos_eq (4 / 5)) in E0 by lra. rewrite (Rabs_left (- 2 / 5)) in E1 by lra.
    split; (split; [assumption|]); [eapply Rle_trans; [exact E0|lra]|eapply Rle_trans; [exact E1|lra]].
Qed.
