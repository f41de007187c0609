(** Proofs of the theorems of PLerpF.v. *)

From Coq Require Import List Arith ZArith Bool Lia Reals Lra.
From Flocq Require Import Core.Core Relative Plus_error Sterbenz IEEE754.BinarySingleNaN.
From Verif Require Import Base Scalar Spec LBase SpecF MVector LVector MMatrix LMatrix MQuat MFloat MFloatVec LFloat LFloatNormP LFloatEx LFloatAcc LFloatExP.
Local Open Scope R_scope.

Section Lp.
Context {prec emax : Z} {Hprec : Prec_gt_0 prec} {Hemax : Prec_lt_emax prec emax}.
Notation fl := (binary_float prec emax).
Definition slerp1 (x y t : fl) : fl := (x + (y - x) * t)%N_.

Lemma slerp1_acc M (x y t : fl) : (24 <= prec)%Z -> 0 < M -> bpow radix2 (31 - emax) <= M <= bpow radix2 (emax - 31) ->
  fbnd M x -> fbnd M y -> fbnd 1 t ->
  fnear (slerp1 x y t) (B2R x + (B2R y - B2R x) * B2R t) (8 * bpow radix2 (- prec) * M).
Proof.
  intros H24 HM HW Hx Hy Ht. pose proof (pow24 H24) as H2.
  apply (fapp_near M (1 + 2) (0 + 4098 + 1024 * (1 + 2) + 1)); try lia; try assumption.
  unfold slerp1. apply fapp_add; try lia; try exact HW; [apply fapp_leaf; exact Hx|].
  apply (fapp_weak M (2 * 1) _ (2049 * 1 + 2 * 0 + 1024 * (2 * 1) + 1)); try lia; try assumption.
  pose proof (fapp_mul H24 M 1 2 1 2049 0 (y - x)%N_ t (B2R y - B2R x) (B2R t)) as F. rewrite Rmult_1_r in F.
  apply F; try lia; try lra; try exact HW; [|apply fapp_leaf; exact Ht].
  apply (fapp_weak M (1 + 1) _ (0 + 0 + 1024 * (1 + 1) + 1)); try lia; try assumption.
  apply fapp_sub; try lia; try exact HW; apply fapp_leaf; assumption.
Qed.

Lemma slerp1_0 (x y : fl) : is_finite x = true -> is_finite (y - x)%N_ = true ->
  is_finite (slerp1 x y n0) = true /\ B2R (slerp1 x y n0) = B2R x.
Proof.
  intros Fx Fd. destruct (fmul_zero_r (y - x)%N_ (B754_zero false) Fd eq_refl eq_refl) as (A & B).
  exact (fadd_zero_r x _ Fx A B).
Qed.

Lemma slerp1_1 (x y : fl) : is_finite x = true -> is_finite y = true -> B2R x / 2 <= B2R y <= 2 * B2R x ->
  is_finite (slerp1 x y n1) = true /\ B2R (slerp1 x y n1) = B2R y.
Proof.
  intros Fx Fy H.
  assert (G : generic_format radix2 (FLT_exp (3 - emax - prec) prec) (B2R y - B2R x)).
  { apply sterbenz; [apply FLT_exp_valid; exact Hprec|apply FLT_exp_monotone|apply generic_format_B2R|apply generic_format_B2R|lra]. }
  pose proof (Bminus_correct prec emax _ _ mode_NE y x Fy Fx) as C.
  change (round radix2 (SpecFloat.fexp prec emax) (round_mode mode_NE) (B2R y - B2R x)) with (round radix2 (FLT_exp (3 - emax - prec) prec) ZnearestE (B2R y - B2R x)) in C.
  rewrite (round_generic radix2 _ ZnearestE _ G) in C. rewrite Rlt_bool_true in C.
  2:{ pose proof (abs_B2R_lt_emax prec emax x) as X. pose proof (abs_B2R_lt_emax prec emax y) as Y. apply Rabs_def2 in X, Y. apply Rabs_def1; lra. }
  destruct C as (C1 & C2 & _). unfold slerp1. rewrite fmul_1_r.
  pose proof (Bplus_correct prec emax _ _ mode_NE x (Bminus mode_NE y x) Fx C2) as D. rewrite C1 in D.
  replace (B2R x + (B2R y - B2R x)) with (B2R y) in D by ring.
  rewrite round_generic in D; [|apply valid_rnd_round_mode|apply generic_format_B2R].
  rewrite Rlt_bool_true in D by apply abs_B2R_lt_emax. destruct D as (D1 & D2 & _). cbn [nadd nsub num_float]. auto.
Qed.

Lemma vlerp_at n (u v : vec fl n) t i : (i < n)%nat -> vat (vlerp u v t) i = slerp1 (vat u i) (vat v i) t.
Proof. intros H. rewrite vat_vlerp by exact H. reflexivity. Qed.
Lemma mlerp_at r c (a b : mat fl r c) t j i : (j < c)%nat -> (i < r)%nat -> mget (mlerp a b t) j i = slerp1 (mget a j i) (mget b j i) t.
Proof. intros H I. rewrite mget_mlerp by assumption. reflexivity. Qed.
Lemma qlerp_at (p q : quat fl) t i : (i < 4)%nat ->
  vat (qlerp p q t : vec fl 4) i = slerp1 (vat (p : vec fl 4) i) (vat (q : vec fl 4) i) t.
Proof.
  intros H. destruct p as [a [b [c [d []]]]], q as [a' [b' [c' [d' []]]]].
  destruct i as [|[|[|[|i]]]]; [reflexivity|reflexivity|reflexivity|reflexivity|lia].
Qed.
End Lp.

Lemma c117_accuracy :
  forall (prec emax : Z) (Hp : Prec_gt_0 prec) (He : Prec_lt_emax prec emax) (M : R) (t : binary_float prec emax),
    (24 <= prec)%Z -> 0 < M -> bpow radix2 (31 - emax) <= M <= bpow radix2 (emax - 31) -> fbnd 1 t ->
    (forall n (u v : vec (binary_float prec emax) n),
       (forall i, (i < n)%nat -> fbnd M (vat u i) /\ fbnd M (vat v i)) ->
       forall i, (i < n)%nat -> fnear (vat (vlerp u v t) i) (B2R (vat u i) + (B2R (vat v i) - B2R (vat u i)) * B2R t) (8 * bpow radix2 (- prec) * M)) /\
    (forall r c (a b : mat (binary_float prec emax) r c),
       (forall j i, (j < c)%nat -> (i < r)%nat -> fbnd M (mget a j i) /\ fbnd M (mget b j i)) ->
       forall j i, (j < c)%nat -> (i < r)%nat ->
         fnear (mget (mlerp a b t) j i) (B2R (mget a j i) + (B2R (mget b j i) - B2R (mget a j i)) * B2R t) (8 * bpow radix2 (- prec) * M)) /\
    (forall p q : quat (binary_float prec emax),
       (forall i, (i < 4)%nat -> fbnd M (vat (p : vec _ 4) i) /\ fbnd M (vat (q : vec _ 4) i)) ->
       forall i, (i < 4)%nat -> fnear (vat (qlerp p q t : vec _ 4) i)
         (B2R (vat (p : vec _ 4) i) + (B2R (vat (q : vec _ 4) i) - B2R (vat (p : vec _ 4) i)) * B2R t) (8 * bpow radix2 (- prec) * M)).
Proof.
  intros prec emax Hp He M t H24 HM HW Ht. conjs.
  - intros n u v H i Hi. destruct (H i Hi). rewrite vlerp_at by exact Hi. apply slerp1_acc; assumption.
  - intros r c a b H j i Hj Hi. destruct (H j i Hj Hi). rewrite mlerp_at by assumption. apply slerp1_acc; assumption.
  - intros p q H i Hi. destruct (H i Hi). rewrite qlerp_at by exact Hi. apply slerp1_acc; assumption.
Qed.

Lemma c117_endpoints_partial :
  forall (prec emax : Z) (Hp : Prec_gt_0 prec) (He : Prec_lt_emax prec emax) (n : nat) (u v : vec (binary_float prec emax) n),
    (forall i, (i < n)%nat -> is_finite (vat u i) = true /\ is_finite (vat v i) = true) ->
    ((forall i, (i < n)%nat -> is_finite (vat (vsub v u) i) = true) ->
     forall i, (i < n)%nat -> is_finite (vat (vlerp u v n0) i) = true /\ B2R (vat (vlerp u v n0) i) = B2R (vat u i)) /\
    ((forall i, (i < n)%nat -> B2R (vat u i) / 2 <= B2R (vat v i) <= 2 * B2R (vat u i)) ->
     forall i, (i < n)%nat -> is_finite (vat (vlerp u v n1) i) = true /\ B2R (vat (vlerp u v n1) i) = B2R (vat v i)).
Proof.
  intros prec emax Hp He n u v F. split; intros H i Hi; rewrite vlerp_at by exact Hi; destruct (F i Hi) as (F1 & F2).
  - apply slerp1_0; [exact F1|]. specialize (H i Hi). rewrite vat_vsub in H by exact Hi. exact H.
  - apply slerp1_1; auto.
Qed.

Lemma c117_endpoints_refuted :
  (exists u v : vec f64 1, B2R (vat u 0%nat) = IZR (2 ^ 60) /\ B2R (vat v 0%nat) = 1 /\
     is_finite (vat (vlerp u v n1) 0%nat) = true /\ B2R (vat (vlerp u v n1) 0%nat) = 0) /\
  (exists u v : vec f64 1, is_finite (vat u 0%nat) = true /\ is_finite (vat v 0%nat) = true /\
     is_nan (vat (vlerp u v n0) 0%nat) = true).
Proof.
  split.
  - exists (v1 (f64_of_Z (2 ^ 60))), (v1 (f64_of_Z 1)).
    assert (A : f64_of_Z (2 ^ 60) = @B754_finite 53 1024 false 4503599627370496 8 eq_refl) by (apply B2SF_inj; vm_compute; reflexivity).
    assert (Z : B2SF (vat (vlerp (v1 (f64_of_Z (2 ^ 60))) (v1 (f64_of_Z 1)) n1) 0%nat) = SpecFloat.S754_zero false) by (vm_compute; reflexivity).
    conjs.
    + change (vat (v1 (f64_of_Z (2 ^ 60))) 0%nat) with (f64_of_Z (2 ^ 60)). rewrite A. cbn [B2R]. unfold F2R. cbn [Fnum Fexp SpecFloat.cond_Zopp].
      change (bpow radix2 8) with 256. rewrite <- mult_IZR. f_equal.
    + apply (f64_of_Z_exact 1). reflexivity.
    + rewrite <- is_finite_SF_B2SF, Z. reflexivity.
    + rewrite <- SF2R_B2SF, Z. reflexivity.
  - exists (v1 (f64_of_Z (- 2 ^ 1023))), (v1 (f64_of_Z (2 ^ 1023))). conjs; vm_compute; reflexivity.
Qed.

Lemma c117_example :
  let h := ndiv n1 (f64_of_Z 2) in let w := vlerp (v2 (f64_of_Z 1) (f64_of_Z 3)) (v2 (f64_of_Z 3) (f64_of_Z 5)) h in
  B2SF (vat w 0%nat) = B2SF (f64_of_Z 2) /\ B2SF (vat w 1%nat) = B2SF (f64_of_Z 4) /\ 3 / 2 <= 5 <= 2 * 3.
Proof.
  cbv zeta. conjs; try (vm_compute; reflexivity); lra.
Qed.
