(** The theorems about general transforms in floats (C153). *)

From Coq Require Import List Arith ZArith Bool Lia Reals Lra Psatz.
From Flocq Require Import Core.Core IEEE754.BinarySingleNaN.
From Verif Require Import Base Scalar Spec SpecF SpecRigid SpecArc MReal MVector MMatrix MPoint MTransform MFloat MFloatVec
  LBase LVector LMatrix LFloat LFloatVec LFloatP LFloatNormP LTrScF LSlerpS LComplexHP LQFunG LFovC LTfF.
Local Open Scope R_scope.

Section F.
Context {prec emax : Z} {Hp : Prec_gt_0 prec} {He : Prec_lt_emax prec emax}.
Notation fl := (binary_float prec emax).
Notation u := (bpow radix2 (- prec)).
Notation fexp := (FLT_exp (3 - emax - prec) prec).
Notation rnd := (round radix2 fexp ZnearestE).

Lemma nis0_R (x : fl) : is_finite x = true -> B2R x <> 0 -> nis0 x = false.
Proof.
  intros F X. cbn [nis0 numdiv_float]. rewrite Beqb_correct by (assumption || reflexivity). apply Req_bool_false. exact X.
Qed.
Lemma from_hom n (v : vec fl (S n)) : is_finite (vat v n) = true -> B2R (vat v n) <> 0 ->
  exists q, pfrom_homogeneous v = Some q /\ forall i, (i < n)%nat -> vat q i = ndiv (vat v i) (vat v n).
Proof.
  intros F W. unfold pfrom_homogeneous. rewrite (nis0_R _ F W). cbn [negb]. eexists; split; [reflexivity|]. intros i Hi. exact (vget_loop_fill n0 n (fun i => ndiv (vat v i) (vat v n)) _ i Hi).
Qed.
Lemma rsum_S n f : rsum (S n) f = rsum n f + f n.
Proof. reflexivity. Qed.
Lemma rsum_to_hom n (m : nat -> R) (p : vec fl n) (g : R -> R) :
  rsum (S n) (fun k => g (m k * B2R (vat (pto_homogeneous p) k))) = rsum n (fun k => g (m k * B2R (vat p k))) + g (m n).
Proof.
  rewrite rsum_S. f_equal.
  - apply sum_ext. intros k Hk. unfold pto_homogeneous. rewrite vat_vextend by lia. destruct (Nat.eqb_spec k n); [lia|reflexivity].
  - unfold pto_homogeneous. rewrite vat_vextend by lia. rewrite Nat.eqb_refl. destruct (one_R (prec := prec) (emax := emax)) as (_ & V). rewrite V, Rmult_1_r. reflexivity.
Qed.
Lemma fin_to_hom n (p : vec fl n) : all_finite p -> forall k, (k < S n)%nat -> is_finite (vat (pto_homogeneous p) k) = true.
Proof.
  intros F k Hk. unfold pto_homogeneous. rewrite vat_vextend by lia. destruct (Nat.eqb_spec k n); [apply (one_R (prec := prec) (emax := emax))|apply F; lia].
Qed.
Lemma zero_sum n (x y : nat -> fl) : (forall k, (k < n)%nat -> is_finite (x k) = true /\ B2R (x k) = 0 /\ is_finite (y k) = true) ->
  is_finite (sum n (fun k => nmul (x k) (y k))) = true /\ B2R (sum n (fun k => nmul (x k) (y k))) = 0.
Proof.
  induction n as [|n IH]; intros H; [split; reflexivity|]. destruct IH as (F & V); [intros k Hk; apply H; lia|]. destruct (H n ltac:(lia)) as (Fx & Vx & Fy).
  assert (B : 0 <= bpow radix2 (emax - 1)) by apply bpow_ge_0.
  destruct (mul_val (x n) (y n) Fx Fy) as (Fm & Vm); [rewrite Vx, Rmult_0_l, Rabs_R0; exact B|]. rewrite Vx, Rmult_0_l, round_0 in Vm by apply valid_rnd_N.
  change (is_finite (nadd (sum n (fun k => nmul (x k) (y k))) (nmul (x n) (y n))) = true /\ B2R (nadd (sum n (fun k => nmul (x k) (y k))) (nmul (x n) (y n))) = 0).
  destruct (add_val _ _ F Fm) as (Fa & Va & _); [rewrite V, Vm, Rplus_0_r, Rabs_R0; exact B|]. split; [exact Fa|]. rewrite Va, V, Vm, Rplus_0_r. apply round_0, valid_rnd_N.
Qed.
Lemma div_one (x w : fl) : is_finite x = true -> B2R w = 1 -> is_finite (ndiv x w) = true /\ B2R (ndiv x w) = B2R x.
Proof.
  intros F W. pose proof (abs_B2R_lt_emax prec emax x) as L.
  cbn [ndiv numdiv_float]. pose proof (Bdiv_correct prec emax _ _ mode_NE x w ltac:(lra)) as C. rewrite W in C. replace (B2R x / 1) with (B2R x) in C by field.
  rewrite round_generic in C; [|apply valid_rnd_N|apply generic_format_B2R]. rewrite Rlt_bool_true in C by exact L. destruct C as (C1 & C2 & _). split; [rewrite <- F; exact C2|exact C1].
Qed.
End F.

Theorem c153_vector :
  forall (prec emax : Z) (Hp : Prec_gt_0 prec) (He : Prec_lt_emax prec emax) (n : nat) (f : transform (binary_float prec emax) n) (v : vec (binary_float prec emax) n) (i : nat) (T : R),
  (24 <= prec)%Z -> (n <= 3)%nat -> (i < n)%nat -> (forall k, (k <= n)%nat -> is_finite (mget f k i) = true) -> all_finite v ->
  sum n (fun k => Rabs (B2R (mget f k i) * B2R (vat v k))) <= T -> bpow radix2 (31 - emax) <= T <= bpow radix2 (emax - 31) ->
  fnear (vat (tf_apply_vector f v) i) (sum n (fun k => B2R (mget f k i) * B2R (vat v k))) (8 * bpow radix2 (- prec) * T).
Proof.
  intros prec emax Hp He n f v i T H24 Hn Hi Ff Fv HT WT. unfold tf_apply_vector. rewrite vat_vcontract by exact Hi.
  assert (E : forall k, (k < n)%nat -> vat (vextend v n0) k = vat v k) by (intros k Hk; rewrite vat_vextend by lia; destruct (Nat.eqb_spec k n); [lia|reflexivity]).
  assert (E' : vat (vextend v n0) n = n0) by (rewrite vat_vextend by lia; rewrite Nat.eqb_refl; reflexivity).
  assert (S1 : sum (S n) (fun k => B2R (mget f k i) * B2R (vat (vextend v n0) k)) = sum n (fun k => B2R (mget f k i) * B2R (vat v k))).
  { rewrite rsum_S, E'. change (B2R n0) with 0. rewrite Rmult_0_r, Rplus_0_r. apply sum_ext. intros k Hk. rewrite E by exact Hk. reflexivity. }
  assert (S2 : sum (S n) (fun k => Rabs (B2R (mget f k i) * B2R (vat (vextend v n0) k))) = sum n (fun k => Rabs (B2R (mget f k i) * B2R (vat v k)))).
  { rewrite rsum_S, E'. change (B2R n0) with 0. rewrite Rmult_0_r, Rabs_R0, Rplus_0_r. apply sum_ext. intros k Hk. rewrite E by exact Hk. reflexivity. }
  rewrite <- S1. apply mulv_near; [exact H24|lia|lia| |exact (Rle_trans _ _ _ (Req_le _ _ S2) HT)|exact WT].
  intros k Hk. split; [apply Ff; lia|]. destruct (Nat.eq_dec k n) as [->|D]; [rewrite E'; reflexivity|rewrite E by lia; apply Fv; lia].
Qed.

Theorem c153_point :
  forall (prec emax : Z) (Hp : Prec_gt_0 prec) (He : Prec_lt_emax prec emax) (n : nat) (f : transform (binary_float prec emax) n) (p : point (binary_float prec emax) n) (T kappa : R),
  let u := bpow radix2 (- prec) in let h i := sum n (fun k => B2R (mget f k i) * B2R (vat p k)) + B2R (mget f n i) in
  (24 <= prec)%Z -> (n <= 3)%nat -> (forall k i, (k <= n)%nat -> (i <= n)%nat -> is_finite (mget f k i) = true) -> all_finite (p : vec _ n) ->
  (forall i, (i <= n)%nat -> sum n (fun k => Rabs (B2R (mget f k i) * B2R (vat p k))) + Rabs (B2R (mget f n i)) <= T) ->
  bpow radix2 (31 - emax) <= T <= bpow radix2 (emax - 31) -> h n <> 0 -> T <= kappa * Rabs (h n) -> 64 * u * kappa <= 1 ->
  exists q, tf_apply_point f p = Some q /\ forall i, (i < n)%nat -> fnear (vat q i) (h i / h n) (12 * u * kappa * (1 + Rabs (h i / h n))).
Proof.
  intros prec emax Hp He n f p T kappa u h H24 Hn Ff Fp HT WT W0 K1 K2.
  assert (T0 : 0 < T) by (pose proof (bpow_gt_0 radix2 (31 - emax)); lra).
  assert (HB : forall i, (i <= n)%nat -> fnear (vat (mmulv f (pto_homogeneous p)) i) (h i) (8 * u * T) /\ Rabs (h i) <= T).
  { intros i Hi. split.
    - unfold h. rewrite <- (rsum_to_hom n (fun k => B2R (mget f k i)) p (fun x => x)). apply mulv_near; [exact H24|lia|lia| | |exact WT].
      + intros k Hk. split; [apply Ff; lia|apply fin_to_hom; [exact Fp|exact Hk]].
      + rewrite (rsum_to_hom n (fun k => B2R (mget f k i)) p Rabs). apply HT, Hi.
    - eapply Rle_trans; [|apply (HT i Hi)]. unfold h. eapply Rle_trans; [apply Rabs_triang|]. apply Rplus_le_compat_r. apply rsum_abs. }
  destruct (HB n ltac:(lia)) as (HN & BN).
  destruct (quot_near H24 _ _ (h n) (h n) T kappa HN HN BN BN T0 W0 K1 K2) as (WN & _).
  destruct (from_hom n (mmulv f (pto_homogeneous p)) (proj1 HN) WN) as (q & Q & V). exists q. split; [exact Q|]. intros i Hi. rewrite V by exact Hi.
  destruct (HB i ltac:(lia)) as (HI & BI). apply (quot_near H24 _ _ (h i) (h n) T kappa HI HN BI BN T0 W0 K1 K2).
Qed.

Theorem c153_affine :
  forall (prec emax : Z) (Hp : Prec_gt_0 prec) (He : Prec_lt_emax prec emax) (n : nat) (f : transform (binary_float prec emax) n) (p : point (binary_float prec emax) n),
  (24 <= prec)%Z -> (n <= 3)%nat -> (forall k i, (k <= n)%nat -> (i <= n)%nat -> is_finite (mget f k i) = true) -> all_finite (p : vec _ n) ->
  (forall k, (k < n)%nat -> B2R (mget f k n) = 0) -> B2R (mget f n n) = 1 ->
  exists q, tf_apply_point f p = Some q /\ forall i T, (i < n)%nat ->
    sum n (fun k => Rabs (B2R (mget f k i) * B2R (vat p k))) + Rabs (B2R (mget f n i)) <= T -> bpow radix2 (31 - emax) <= T <= bpow radix2 (emax - 31) ->
    fnear (vat q i) (sum n (fun k => B2R (mget f k i) * B2R (vat p k)) + B2R (mget f n i)) (8 * bpow radix2 (- prec) * T).
Proof.
  intros prec emax Hp He n f p H24 Hn Ff Fp Z0 Z1.
  assert (W : is_finite (vat (mmulv f (pto_homogeneous p)) n) = true /\ B2R (vat (mmulv f (pto_homogeneous p)) n) = 1).
  { rewrite vat_mmulv by lia. destruct (zero_sum n (fun k => mget f k n) (vat (pto_homogeneous p))) as (F & V).
    { intros k Hk. split; [apply Ff; lia|]. split; [apply Z0, Hk|]. apply fin_to_hom; [exact Fp|lia]. }
    change (is_finite (nadd (sum n (fun k => nmul (mget f k n) (vat (pto_homogeneous p) k))) (nmul (mget f n n) (vat (pto_homogeneous p) n))) = true /\
      B2R (nadd (sum n (fun k => nmul (mget f k n) (vat (pto_homogeneous p) k))) (nmul (mget f n n) (vat (pto_homogeneous p) n))) = 1).
    assert (B : 1 <= bpow radix2 (emax - 1)). { change 1 with (bpow radix2 0). apply bpow_le. pose proof He as P. unfold Prec_lt_emax in P. lia. }
    destruct (one_R (prec := prec) (emax := emax)) as (F1 & V1). assert (G1 : round radix2 (FLT_exp (3 - emax - prec) prec) ZnearestE 1 = 1) by (rewrite <- V1; apply round_generic; [apply valid_rnd_N|apply generic_format_B2R]).
    assert (L : vat (pto_homogeneous p) n = n1) by (unfold pto_homogeneous; rewrite vat_vextend by lia; rewrite Nat.eqb_refl; reflexivity). rewrite L.
    destruct (mul_val (mget f n n) n1 (Ff n n ltac:(lia) ltac:(lia)) F1) as (Fm & Vm); [rewrite Z1, V1, Rmult_1_r, Rabs_R1; exact B|]. rewrite Z1, V1, Rmult_1_r, G1 in Vm.
    destruct (add_val _ _ F Fm) as (Fa & Va & _); [rewrite V, Vm, Rplus_0_l, Rabs_R1; exact B|]. split; [exact Fa|]. rewrite Va, V, Vm, Rplus_0_l. exact G1. }
  destruct W as (FW & VW). destruct (from_hom n (mmulv f (pto_homogeneous p)) FW ltac:(lra)) as (q & Q & V). exists q. split; [exact Q|]. intros i T Hi HT WT. rewrite V by exact Hi.
  assert (N : fnear (vat (mmulv f (pto_homogeneous p)) i) (sum n (fun k => B2R (mget f k i) * B2R (vat p k)) + B2R (mget f n i)) (8 * bpow radix2 (- prec) * T)).
  { rewrite <- (rsum_to_hom n (fun k => B2R (mget f k i)) p (fun x => x)). apply mulv_near; [exact H24|lia|lia| | |exact WT].
    - intros k Hk. split; [apply Ff; lia|apply fin_to_hom; [exact Fp|exact Hk]].
    - rewrite (rsum_to_hom n (fun k => B2R (mget f k i)) p Rabs). exact HT. }
  destruct N as (FN & EN). destruct (div_one _ _ FN VW) as (FD & VD). split; [exact FD|]. rewrite VD. exact EN.
Qed.

Theorem c153_homogeneous :
  forall (prec emax : Z) (Hp : Prec_gt_0 prec) (He : Prec_lt_emax prec emax) (n : nat),
  (forall p : point (binary_float prec emax) n, all_finite (p : vec _ n) ->
    exists q, pfrom_homogeneous (pto_homogeneous p) = Some q /\ forall i, (i < n)%nat -> is_finite (vat q i) = true /\ B2R (vat q i) = B2R (vat p i)) /\
  (forall v : vec (binary_float prec emax) (S n), all_finite v -> B2R (vat v n) <> 0 ->
    exists q, pfrom_homogeneous v = Some q /\ forall i, (i < n)%nat -> Rabs (B2R (vat v i) / B2R (vat v n)) <= bpow radix2 (emax - 1) ->
      is_finite (vat q i) = true /\ B2R (vat q i) = round radix2 (FLT_exp (3 - emax - prec) prec) ZnearestE (B2R (vat v i) / B2R (vat v n))) /\
  forall v : vec (binary_float prec emax) (S n), is_finite (vat v n) = true -> B2R (vat v n) = 0 -> pfrom_homogeneous v = None.
Proof.
  intros prec emax Hp He n. split; [|split].
  - intros p F. assert (L : vat (pto_homogeneous p) n = n1) by (unfold pto_homogeneous; rewrite vat_vextend by lia; rewrite Nat.eqb_refl; reflexivity).
    destruct (one_R (prec := prec) (emax := emax)) as (F1 & V1). destruct (from_hom n (pto_homogeneous p)) as (q & Q & V); [rewrite L; exact F1|rewrite L, V1; lra|].
    exists q. split; [exact Q|]. intros i Hi. rewrite V by exact Hi. rewrite L.
    assert (E : vat (pto_homogeneous p) i = vat p i) by (unfold pto_homogeneous; rewrite vat_vextend by lia; destruct (Nat.eqb_spec i n); [lia|reflexivity]). rewrite E.
    apply div_one; [apply F, Hi|exact V1].
  - intros v F W. destruct (from_hom n v (F n ltac:(lia)) W) as (q & Q & V). exists q. split; [exact Q|]. intros i Hi B. rewrite V by exact Hi. apply div_val; [apply F; lia|exact W|exact B].
  - intros v F W. unfold pfrom_homogeneous. replace (nis0 (vat v n)) with true; [reflexivity|]. symmetry. cbn [nis0 numdiv_float]. rewrite Beqb_correct by (assumption || reflexivity). rewrite W. apply Req_bool_true. reflexivity.
Qed.

Theorem c153_cancelled_weight :
  exists (f : transform f64 2) (p : point f64 2), (forall k i, (k <= 2)%nat -> (i <= 2)%nat -> is_finite (mget f k i) = true) /\ all_finite (p : vec f64 2) /\
    sum 2 (fun k => B2R (mget f k 2) * B2R (vat p k)) + B2R (mget f 2 2) = 1 /\ tf_apply_point f p = None.
Proof.
  exists (m3new (f64_of_Z 1) (f64_of_Z 0) (f64_of_Z 1) (f64_of_Z 0) (f64_of_Z 1) (f64_of_Z 1) (f64_of_Z 0) (f64_of_Z 0) (f64_of_Z (- 2 ^ 60)) : mat f64 3 3), ((f64_of_Z (2 ^ 60), (f64_of_Z 1, tt)) : vec f64 2).
  split; [intros k i Hk Hi; destruct k as [|[|[|k]]]; destruct i as [|[|[|i]]]; first [lia|vm_compute; reflexivity]|].
  split; [intros i Hi; destruct i as [|[|i]]; first [lia|vm_compute; reflexivity]|]. split.
  - rewrite !rsum_S. change (rsum 0 _) with 0.
    match goal with |- 0 + B2R ?a * B2R ?b + B2R ?c * B2R ?d + B2R ?e = 1 => change (0 + B2R (f64_of_Z 1) * B2R (f64_of_Z (2 ^ 60)) + B2R (f64_of_Z 1) * B2R (f64_of_Z 1) + B2R (f64_of_Z (- 2 ^ 60)) = 1) end.
    assert (E1 : B2R (f64_of_Z 1) = 1) by (apply (f64_of_Z_exact 1); lia).
    assert (E2 : B2R (f64_of_Z (2 ^ 60)) = IZR (2 ^ 60)) by (unfold B2R; cbn; unfold F2R; cbn; lra).
    assert (E3 : B2R (f64_of_Z (- 2 ^ 60)) = IZR (- 2 ^ 60)) by (unfold B2R; cbn; unfold F2R; cbn; lra).
    rewrite E1, E2, E3. cbn. lra.
  - vm_compute. reflexivity.
Qed.

Theorem c153_example :
  let f := m3new (f64_of_Z 2) (f64_of_Z 0) (f64_of_Z 1) (f64_of_Z 0) (f64_of_Z 3) (f64_of_Z 0) (f64_of_Z 5) (f64_of_Z 7) (f64_of_Z 4) : mat f64 3 3 in
  let p := (f64_of_Z 1, (f64_of_Z 2, tt)) : vec f64 2 in
  (forall i, (i <= 2)%nat -> sum 2 (fun k => Rabs (B2R (mget f k i) * B2R (vat p k))) + Rabs (B2R (mget f 2 i)) <= 16) /\
  sum 2 (fun k => B2R (mget f k 2) * B2R (vat p k)) + B2R (mget f 2 2) = 5 /\ 64 * bpow radix2 (-53) * 4 <= 1 /\
  exists q : point f64 2, tf_apply_point f p = Some q /\ fnear (vat q 0) (7 / 5) (bpow radix2 (-45)) /\ fnear (vat q 1) (13 / 5) (bpow radix2 (-45)).
Proof.
  intros f p. assert (V : forall z, (Z.abs z < 100)%Z -> B2R (f64_of_Z z) = IZR z) by (intros z Hz; apply f64_of_Z_exact; lia).
  assert (H : forall i, (i <= 2)%nat -> sum 2 (fun k => Rabs (B2R (mget f k i) * B2R (vat p k))) + Rabs (B2R (mget f 2 i)) <= 16).
  { intros i Hi. rewrite !rsum_S. change (rsum 0 _) with 0. destruct i as [|[|[|i]]]; [| | |lia].
    - change (0 + Rabs (B2R (f64_of_Z 2) * B2R (f64_of_Z 1)) + Rabs (B2R (f64_of_Z 0) * B2R (f64_of_Z 2)) + Rabs (B2R (f64_of_Z 5)) <= 16). rewrite !V by lia. rewrite !Rabs_pos_eq by lra. lra.
    - change (0 + Rabs (B2R (f64_of_Z 0) * B2R (f64_of_Z 1)) + Rabs (B2R (f64_of_Z 3) * B2R (f64_of_Z 2)) + Rabs (B2R (f64_of_Z 7)) <= 16). rewrite !V by lia. rewrite !Rabs_pos_eq by lra. lra.
    - change (0 + Rabs (B2R (f64_of_Z 1) * B2R (f64_of_Z 1)) + Rabs (B2R (f64_of_Z 0) * B2R (f64_of_Z 2)) + Rabs (B2R (f64_of_Z 4)) <= 16). rewrite !V by lia. rewrite !Rabs_pos_eq by lra. lra. }
  assert (W : sum 2 (fun k => B2R (mget f k 2) * B2R (vat p k)) + B2R (mget f 2 2) = 5).
  { change (0 + (B2R (f64_of_Z 1) * B2R (f64_of_Z 1)) + (B2R (f64_of_Z 0) * B2R (f64_of_Z 2)) + (B2R (f64_of_Z 4)) = 5). rewrite !V by lia. lra. }
  assert (W0 : sum 2 (fun k => B2R (mget f k 0) * B2R (vat p k)) + B2R (mget f 2 0) = 7).
  { change (0 + (B2R (f64_of_Z 2) * B2R (f64_of_Z 1)) + (B2R (f64_of_Z 0) * B2R (f64_of_Z 2)) + (B2R (f64_of_Z 5)) = 7). rewrite !V by lia. lra. }
  assert (W1 : sum 2 (fun k => B2R (mget f k 1) * B2R (vat p k)) + B2R (mget f 2 1) = 13).
  { change (0 + (B2R (f64_of_Z 0) * B2R (f64_of_Z 1)) + (B2R (f64_of_Z 3) * B2R (f64_of_Z 2)) + (B2R (f64_of_Z 7)) = 13). rewrite !V by lia. lra. }
  assert (U : 64 * bpow radix2 (-53) * 4 <= 1) by (rewrite <- (Rmult_1_l 1) at 1; cbn; lra).
  split; [exact H|]. split; [exact W|]. split; [exact U|].
  destruct (c153_point 53 1024 _ _ 2 f p 16 4) as (q & Q & A); [lia|lia| | |exact H| |intros Z; assert (Z' : 5 = 0) by exact (eq_trans (eq_sym W) Z); lra|refine (Rle_trans _ _ _ _ (Req_le _ _ (f_equal (fun z => 4 * Rabs z) (eq_sym W)))); rewrite Rabs_pos_eq by lra; lra|exact U|].
  - intros k i Hk Hi; destruct k as [|[|[|k]]]; destruct i as [|[|[|i]]]; first [lia|vm_compute; reflexivity].
  - intros i Hi; destruct i as [|[|i]]; first [lia|vm_compute; reflexivity].
  - change 16 with (bpow radix2 4). split; apply bpow_le; lia.
  - exists q. split; [exact Q|]. assert (G : forall (x : f64) a b c, a = c -> b = 5 -> fnear x (a / b) (12 * bpow radix2 (- (53)) * 4 * (1 + Rabs (a / b))) -> fnear x (c / 5) (12 * bpow radix2 (- (53)) * 4 * (1 + Rabs (c / 5)))) by (intros x a b c -> ->; exact (fun z => z)).
    pose proof (G _ _ _ 7 W0 W (A 0%nat ltac:(lia))) as A0. pose proof (G _ _ _ 13 W1 W (A 1%nat ltac:(lia))) as A1. rewrite Rabs_pos_eq in A0, A1 by lra.
    change (bpow radix2 (-45)) with (bpow radix2 (8 + -53)). rewrite bpow_plus. change (bpow radix2 8) with 256. change (- (53))%Z with (-53)%Z in *. pose proof (bpow_gt_0 radix2 (-53)) as P.
    destruct A0 as (F0 & E0). destruct A1 as (F1 & E1). split; (split; [assumption|]); [eapply Rle_trans; [exact E0|]|eapply Rle_trans; [exact E1|]]; change (bpow radix2 (- (53))) with (bpow radix2 (-53)); lra.
Qed.
