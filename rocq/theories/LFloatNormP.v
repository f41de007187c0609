(** Norms of float vectors: the proofs of the property theorems of PFloatNorm.v. *)

From Coq Require Import List Arith ZArith Bool Lia Reals Lra.
From Flocq Require Import Core.Core IEEE754.BinarySingleNaN.
From Verif Require Import Base Scalar Spec LBase MVector LVector LVectorR MFloat LFloat LFloatP MFloatVec LFloatVec.
Import ListNotations.

Lemma norm_close n (y a : vec R n) (b : R) :
  (n <= 4)%nat -> (0 <= b)%R -> (forall i, (i < n)%nat -> Rabs (vat y i - vat a i) <= b)%R ->
  (Rabs (vnorm y - vnorm a) <= 2 * b)%R.
Proof.
  intros Hn B H.
  assert (D : (vnorm (vsub y a) <= 2 * b)%R).
  { apply Rsqr_incr_0_var; [|lra]. unfold Rsqr. rewrite vnorm_sq, vdot_sum.
    apply Rle_trans with (sum n (fun _ => (b * b)%R)).
    - apply sum_le. intros i Hi. autorewrite with vat; [|exact Hi..].
      specialize (H i Hi). apply Rabs_le_inv in H. rnum. nra.
    - rewrite sum_const.
      assert (INR n <= 4)%R by (replace 4%R with (INR 4) by (cbn; lra); apply le_INR; exact Hn).
      assert (0 <= b * b)%R by nra. nra. }
  assert (T1 := vnorm_triangle n a (vsub y a)). assert (T2 := vnorm_triangle n y (vneg (vsub y a))).
  rewrite vnorm_neg in T2.
  replace (vadd a (vsub y a)) with y in T1 by (vext; rnum; lra).
  replace (vadd y (vneg (vsub y a))) with a in T2 by (vext; rnum; lra).
  apply Rabs_le. lra.
Qed.

Lemma f64_of_Z_exact (z : Z) : (Z.abs z < 2 ^ 53)%Z -> B2R (f64_of_Z z) = IZR z /\ is_finite (f64_of_Z z) = true.
Proof.
  intros Hz. unfold f64_of_Z.
  pose proof (binary_normalize_correct 53 1024 prec64 emax64 mode_NE z 0 false) as C. cbv zeta in C.
  assert (E : F2R (Float radix2 z 0) = IZR z) by (unfold F2R; cbn; lra). rewrite E in C.
  assert (G : generic_format radix2 (FLT_exp (3 - 1024 - 53) 53) (IZR z)).
  { apply generic_format_FLT. exists (Float radix2 z 0); [symmetry; exact E|exact Hz|cbn; lia]. }
  change (SpecFloat.fexp 53 1024) with (FLT_exp (3 - 1024 - 53) 53) in C.
  rewrite round_generic in C; [|apply valid_rnd_round_mode|exact G].
  rewrite Rlt_bool_true in C.
  - destruct C as (C1 & C2 & _). auto.
  - rewrite <- abs_IZR. apply Rlt_trans with (bpow radix2 53); [|apply bpow_lt; lia].
    rewrite <- (IZR_Zpower radix2) by lia. apply IZR_lt. exact Hz.
Qed.

Lemma norm_345 : vnorm (val64 (v3 (f64_of_Z 3) (f64_of_Z 4) (f64_of_Z 0))) = 5%R.
Proof.
  rewrite vnorm_val64. unfold rsum. cbn [sum].
  change (vat (v3 (f64_of_Z 3) (f64_of_Z 4) (f64_of_Z 0)) 0) with (f64_of_Z 3).
  change (vat (v3 (f64_of_Z 3) (f64_of_Z 4) (f64_of_Z 0)) 1) with (f64_of_Z 4).
  change (vat (v3 (f64_of_Z 3) (f64_of_Z 4) (f64_of_Z 0)) 2) with (f64_of_Z 0).
  rewrite !(fun z H => proj1 (f64_of_Z_exact z H)) by lia.
  replace (nadd _ _) with (5 * 5)%R by (rnum; lra). apply sqrt_square. lra.
Qed.

Lemma c97_norm_error :
  forall (prec emax : Z) (Hp : Prec_gt_0 prec) (He : Prec_lt_emax prec emax) (n : nat)
    (v : vec (binary_float prec emax) n) (r : R),
    is_finite (fvnorm v) = true ->
    (0 < r)%R -> (r * r = sum n (fun i => B2R (vat v i) * B2R (vat v i)))%R ->
    (Rabs (B2R (fvnorm v) - r)
     <= ((1 + bpow radix2 (- prec)) ^ (n + 2) - 1) * r
        + INR n * bpow radix2 (2 - emax - prec) * (1 + bpow radix2 (- prec)) ^ (n + 1) / r
        + bpow radix2 (2 - emax - prec))%R.
Proof.
  intros prec emax Hp He n v r F R0 RR.
  rewrite <- funit_eq, <- ftiny_eq.
  pose proof (norm_err n v F) as E. cbv zeta in E. unfold rsum in E. rewrite <- RR in E.
  rewrite sqrt_square in E by lra. apply E. nra.
Qed.

Lemma c97_norm_f64_partial :
  forall (n : nat) (v : vec f64 n),
    (n <= 4)%nat -> (forall i, (i < n)%nat -> is_finite (vat v i) = true) ->
    (bpow radix2 (-400) <= vnorm (val64 v) <= bpow radix2 500)%R ->
    is_finite (fvnorm v) = true /\
    (Rabs (B2R (fvnorm v) - vnorm (val64 v)) <= 8 * bpow radix2 (-53) * vnorm (val64 v))%R.
Proof.
  exact norm64.
Qed.

Lemma c97_normalize_f64_partial :
  forall (n : nat) (v : vec f64 n) (threshold : f64),
    (n <= 4)%nat -> (forall i, (i < n)%nat -> is_finite (vat v i) = true) ->
    (bpow radix2 (-400) <= vnorm (val64 v) <= bpow radix2 500)%R ->
    (forall i, (i < n)%nat ->
       is_finite (vat (fvnormalize v) i) = true /\
       (Rabs (B2R (vat (fvnormalize v) i) - B2R (vat v i) / vnorm (val64 v)) <= 12 * bpow radix2 (-53))%R) /\
    (Rabs (vnorm (val64 (fvnormalize v)) - 1) <= 24 * bpow radix2 (-53))%R /\
    (is_finite threshold = true -> (B2R threshold < vnorm (val64 v) / 2)%R ->
     fvtry_normalize v threshold = Some (fvnormalize v)).
Proof.
  intros n v thr Hn F HR. pose proof (normalize64 n v Hn F HR) as N. split; [exact N|].
  assert (R0 : (0 < vnorm (val64 v))%R) by (pose proof (bpow_gt_0 radix2 (-400)); lra).
  pose proof u64_small as U. split.
  - set (r := vnorm (val64 v)) in *.
    pose proof (norm_close n (val64 (fvnormalize v)) (vmul_s (val64 v) (/ r)%R) (12 * bpow radix2 (-53)) Hn) as C.
    rewrite vnorm_mul in C. fold r in C.
    rewrite (Rabs_pos_eq (/ r)%R) in C by (left; apply Rinv_0_lt_compat; exact R0).
    rewrite Rinv_r in C by lra.
    replace (24 * bpow radix2 (-53))%R with (2 * (12 * bpow radix2 (-53)))%R by ring.
    apply C; [lra|]. intros i Hi. rewrite vat_vmul_s by exact Hi. rewrite !vat_val64 by exact Hi.
    destruct (N i Hi) as (_ & B). exact B.
  - intros Ft Ht. destruct (norm64 n v Hn F HR) as (Fn & E).
    unfold fvtry_normalize. rewrite Bleb_correct by assumption.
    rewrite Rle_bool_false; [reflexivity|].
    apply Rabs_le_inv in E.
    assert (8 * bpow radix2 (-53) * vnorm (val64 v) <= / 2 * vnorm (val64 v))%R by (apply Rmult_le_compat_r; lra).
    lra.
Qed.

Lemma c97_normalize_refuted :
  (exists v : vec f64 3,
     (forall i, (i < 3)%nat -> is_finite (vat v i) = true) /\ (0 < B2R (vat v 0))%R /\
     is_finite (fvnorm v) = true /\ B2R (fvnorm v) = 0%R /\
     is_finite (vat (fvnormalize v) 0) = false /\ is_nan (vat (fvnormalize v) 1) = true /\
     fvtry_normalize v (f64_of_Z 0) = None) /\
  (exists v : vec f64 3,
     (forall i, (i < 3)%nat -> is_finite (vat v i) = true) /\ (0 < B2R (vat v 0))%R /\
     is_finite (fvnorm v) = false /\
     (forall i, (i < 3)%nat -> B2R (vat (fvnormalize v) i) = 0%R /\ is_finite (vat (fvnormalize v) i) = true) /\
     fvtry_normalize v (f64_of_Z 0) = Some (fvnormalize v)).
Proof.
  split.
  - set (x := ndiv (f64_of_Z 1) (f64_of_Z (2 ^ 600))).
    exists (v3 x (f64_of_Z 0) (f64_of_Z 0)). conjs.
    + intros [|[|[|i]]] Hi; try lia; vm_compute; reflexivity.
    + change (0 < B2R x)%R. 
      assert (E : B2SF x = SpecFloat.S754_finite false 4503599627370496%positive (-652)%Z) by (vm_compute; reflexivity).
      destruct x as [s|s| |s m e H]; try discriminate E. injection E as -> -> ->.
      apply F2R_gt_0. reflexivity.
    + vm_compute; reflexivity.
    + assert (E : B2SF (fvnorm (v3 x (f64_of_Z 0) (f64_of_Z 0))) = SpecFloat.S754_zero false) by (vm_compute; reflexivity).
      destruct (fvnorm _); try discriminate E. reflexivity.
    + vm_compute; reflexivity.
    + vm_compute; reflexivity.
    + vm_compute; reflexivity.
  - set (x := f64_of_Z (2 ^ 600)).
    exists (v3 x (f64_of_Z 0) (f64_of_Z 0)). conjs.
    + intros [|[|[|i]]] Hi; try lia; vm_compute; reflexivity.
    + change (0 < B2R x)%R.
      assert (E : B2SF x = SpecFloat.S754_finite false 4503599627370496%positive 548%Z) by (vm_compute; reflexivity).
      destruct x as [s|s| |s m e H]; try discriminate E. injection E as -> -> ->.
      apply F2R_gt_0. reflexivity.
    + vm_compute; reflexivity.
    + intros i Hi.
      assert (E : B2SF (vat (fvnormalize (v3 x (f64_of_Z 0) (f64_of_Z 0))) i) = SpecFloat.S754_zero false)
        by (destruct i as [|[|[|i]]]; try lia; vm_compute; reflexivity).
      destruct (vat (fvnormalize (v3 x (f64_of_Z 0) (f64_of_Z 0))) i); try discriminate E. split; reflexivity.
    + unfold fvtry_normalize. replace (Bleb _ _) with false by (vm_compute; reflexivity). reflexivity.
Qed.

Lemma c97_example :
  let v := v3 (f64_of_Z 3) (f64_of_Z 4) (f64_of_Z 0) in
  B2SF (fvnorm v) = B2SF (f64_of_Z 5) /\
  (forall i, (i < 3)%nat -> is_finite (vat v i) = true) /\
  (bpow radix2 (-400) <= vnorm (val64 v) <= bpow radix2 500)%R.
Proof.
  cbv zeta. conjs.
  - vm_compute. reflexivity.
  - intros [|[|[|i]]] Hi; try lia; vm_compute; reflexivity.
  - rewrite norm_345. change 1%R with (bpow radix2 0). apply Rle_trans with (bpow radix2 0); [apply bpow_le; lia|cbn; lra].
  - rewrite norm_345. apply Rle_trans with (bpow radix2 3); [cbn; lra|apply bpow_le; lia].
Qed.
