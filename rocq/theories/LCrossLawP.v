(** Parallel arguments of cross and triple products in floats (C168). *)

From Coq Require Import List Arith ZArith Bool Lia Reals Lra.
From Flocq Require Import Core.Core IEEE754.BinarySingleNaN.
From Verif Require Import Base Scalar Spec SpecLibm MReal MVector MMatrix MComplex MQuat MFloat
  LBase LVector LMatrix LFloat LFloatVec LFloatP LComplexFP LComplexIP LSame LDetLawP.

Section G.
Context {prec emax : Z} {Hp : Prec_gt_0 prec} {He : Prec_lt_emax prec emax}.
Notation fl := (binary_float prec emax).
Lemma sub_self (p : fl) : feqv (nsub p p) n0 <-> is_finite p = true.
Proof.
  destruct (is_finite p) eqn:F; (split; [|try discriminate]).
  - reflexivity.
  - intros _. cbn. destruct p as [s|s| |s m e B]; try discriminate F; [right; destruct s; do 2 eexists; split; reflexivity|].
    generalize (Bminus_correct prec emax Hp He mode_NE (B754_finite s m e B) (B754_finite s m e B) F F).
    rewrite Rminus_diag_eq by reflexivity. rewrite round_0 by apply valid_rnd_round_mode. rewrite Rabs_R0, Rlt_bool_true by apply bpow_gt_0.
    intros (V & F' & _). revert V F'. generalize (Bminus mode_NE (B754_finite s m e B) (B754_finite s m e B)). intros q V F'.
    destruct q as [t|t| |t m' e' B']; try discriminate F'; [right; do 2 eexists; split; reflexivity|]. exfalso. revert V. cbn. apply (F2R_neq_0 radix2 (Float radix2 (cond_Zopp t (Zpos m')) e')). destruct t; discriminate.
  - intros H. exfalso. destruct p as [s|s| |s m e B]; try discriminate F; destruct H as [H|(a & b & H & _)]; try destruct s; discriminate H.
Qed.
Lemma zero_mul (x y : fl) : feqv x n0 -> is_finite y = true -> feqv (nmul x y) n0.
Proof.
  intros [->|(s & t & -> & _)] F; (destruct y; try discriminate F; right; do 2 eexists; split; reflexivity).
Qed.
Lemma zero_add (x y : fl) : feqv x n0 -> feqv y n0 -> feqv (nadd x y) n0.
Proof.
  intros X Y. eapply feqv_trans; [apply feqv_add; [exact X|exact Y]|]. right; do 2 eexists; split; reflexivity.
Qed.
End G.

Theorem c168_self :
  forall (prec emax : Z) (Hp : Prec_gt_0 prec) (He : Prec_lt_emax prec emax) (u w : vec (binary_float prec emax) 3),
  (feqv (vat (vcross u u) 0) n0 <-> is_finite (nmul (vat u 1) (vat u 2)) = true) /\
  (feqv (vat (vcross u u) 1) n0 <-> is_finite (nmul (vat u 2) (vat u 0)) = true) /\
  (feqv (vat (vcross u u) 2) n0 <-> is_finite (nmul (vat u 0) (vat u 1)) = true) /\
  ((forall i j, (i < j < 3)%nat -> is_finite (nmul (vat u i) (vat u j)) = true) -> (forall i, (i < 3)%nat -> is_finite (vat w i) = true) ->
   feqv (vtriple u u w) n0).
Proof.
  intros prec emax Hp He u w.
  assert (X : vat (vcross u u) 0 = nsub (nmul (vat u 1) (vat u 2)) (nmul (vat u 1) (vat u 2))) by (rewrite (fmul_comm (vat u 1)) at 2; reflexivity).
  assert (Y : vat (vcross u u) 1 = nsub (nmul (vat u 2) (vat u 0)) (nmul (vat u 2) (vat u 0))) by (rewrite (fmul_comm (vat u 2)) at 2; reflexivity).
  assert (Z : vat (vcross u u) 2 = nsub (nmul (vat u 0) (vat u 1)) (nmul (vat u 0) (vat u 1))) by (rewrite (fmul_comm (vat u 0)) at 2; reflexivity).
  split; [rewrite X; apply sub_self|]. split; [rewrite Y; apply sub_self|]. split; [rewrite Z; apply sub_self|].
  intros F W. unfold vtriple. rewrite vdot_sum.
  assert (A : forall k, (k < 3)%nat -> feqv (nmul (vat (vcross u u) k) (vat w k)) n0).
  { intros k Hk. apply zero_mul; [|apply W, Hk]. destruct k as [|[|[|k]]]; try lia; [rewrite X|rewrite Y, (fmul_comm (vat u 2))|rewrite Z]; apply sub_self, F; lia. }
  cbn [sum]. repeat apply zero_add; try (apply A; lia). apply feqv_refl.
Qed.

Theorem c168_refuted :
  let i : Z -> f64 := f64_of_Z in
  (exists (u : vec f64 3) (s : f64), is_finite (vat (vcross (vmul_s u s) u) 2) = true /\ ~ feqv (vat (vcross (vmul_s u s) u) 2) n0) /\
  (exists u w : vec f64 3, is_finite (vtriple u w u) = true /\ ~ feqv (vtriple u w u) n0 /\ ~ feqv (vtriple w u u) n0).
Proof.
  intros i. split.
  - exists (v3 (i 3%Z) (i 7%Z) (i 1%Z)), (ndiv (i 1%Z) (i 10%Z)). split; [vm_compute; reflexivity|].
    intros [H|(s & t & H & _)]; apply (f_equal B2SF) in H; vm_compute in H; discriminate H.
  - exists (v3 (ndiv (i 1%Z) (i 10%Z)) (ndiv (i 2%Z) (i 10%Z)) (ndiv (i 3%Z) (i 10%Z))), (v3 (i 3%Z) (i 7%Z) (i 1%Z)). split; [vm_compute; reflexivity|].
    split; (intros [H|(s & t & H & _)]; apply (f_equal B2SF) in H; vm_compute in H; discriminate H).
Qed.

Theorem c168_example :
  let i : Z -> f64 := f64_of_Z in let t := ndiv (i 1%Z) (i 3%Z) in
  let u : vec f64 3 := v3 t (i 2%Z) (i 7%Z) in let w : vec f64 3 := v3 (i 5%Z) t (i 1%Z) in
  vat (vcross u u) 0 = n0 /\ vtriple u u w = n0 /\ ~ feqv (vat (vcross u w) 0) n0.
Proof.
  intros i t u w. split; [apply B2SF_inj; vm_compute; reflexivity|]. split; [apply B2SF_inj; vm_compute; reflexivity|].
  intros [H|(s & q & H & _)]; apply (f_equal B2SF) in H; vm_compute in H; discriminate H.
Qed.
