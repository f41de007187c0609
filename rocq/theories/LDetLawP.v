(** Signs, transposition and equal columns of determinants in floats (C167). *)

From Coq Require Import List Arith ZArith Bool Lia Reals Lra.
From Flocq Require Import Core.Core IEEE754.BinarySingleNaN.
From Verif Require Import Base Scalar Spec SpecLibm MReal MVector MMatrix MComplex MQuat MFloat
  LBase LVector LMatrix LFloat LFloatVec LFloatP LComplexFP LComplexIP LSame.

Section G.
Context {prec emax : Z} {Hp : Prec_gt_0 prec} {He : Prec_lt_emax prec emax}.
Notation fl := (binary_float prec emax).
Lemma neg3 (a b c : fl) : nmul (nmul (nneg a) (nneg b)) (nneg c) = nneg (nmul (nmul a b) c).
Proof. rewrite fmul_neg_neg. apply fmul_neg_r. Qed.
Lemma neg4 (a b c d : fl) : nmul (nmul (nmul (nneg a) (nneg b)) (nneg c)) (nneg d) = nmul (nmul (nmul a b) c) d.
Proof. rewrite neg3. apply fmul_neg_neg. Qed.
Lemma chain_sub (x x' y : fl) : feqv x (nneg x') -> feqv (nsub x (nneg y)) (nneg (nsub x' y)).
Proof. intros H. eapply feqv_trans; [apply feqv_sub; [exact H|apply feqv_refl]|apply feqv_sub_neg]. Qed.
Lemma chain_add (x x' y : fl) : feqv x (nneg x') -> feqv (nadd x (nneg y)) (nneg (nadd x' y)).
Proof. intros H. eapply feqv_trans; [apply feqv_add; [exact H|apply feqv_refl]|apply feqv_add_neg]. Qed.
End G.

Theorem c167_signs :
  forall (prec emax : Z) (Hp : Prec_gt_0 prec) (He : Prec_lt_emax prec emax) (u v : vec (binary_float prec emax) 2) (a : mat (binary_float prec emax) 2 2) (b : mat (binary_float prec emax) 3 3) (c : mat (binary_float prec emax) 4 4),
  m2det (mneg a) = m2det a /\ m2det (mtranspose a) = m2det a /\ feqv (m2det (v2 v u)) (nneg (m2det (v2 u v))) /\
  feqv (m3det (mneg b)) (nneg (m3det b)) /\ m4det (mneg c) = m4det c.
Proof.
  intros prec emax Hp He u v a b c. split; [|split; [|split; [|split]]].
  - unfold m2det. rewrite !mget_mneg by lia. rewrite !fmul_neg_neg. reflexivity.
  - unfold m2det. rewrite !mget_mtranspose by lia. rewrite (fmul_comm (mget a 1 0)). reflexivity.
  - destruct u as (x & (y & [])), v as (z & (w & [])).
    change (feqv (nsub (nmul z y) (nmul w x)) (nneg (nsub (nmul x w) (nmul y z)))). rewrite (fmul_comm z y), (fmul_comm w x). apply feqv_sub_swap.
  - unfold m3det. rewrite !mget_mneg by lia. rewrite !neg3.
    apply chain_sub, chain_add, chain_add, chain_sub, chain_sub, feqv_refl.
  - unfold m4det. rewrite !mget_mneg by lia. rewrite !neg4. reflexivity.
Qed.

Theorem c167_equal_columns :
  forall (prec emax : Z) (Hp : Prec_gt_0 prec) (He : Prec_lt_emax prec emax) (u : vec (binary_float prec emax) 2),
  m2try_inverse (v2 u u) = None <-> is_finite (nmul (vat u 0) (vat u 1)) = true.
Proof.
  intros prec emax Hp He u. unfold m2try_inverse.
  assert (D : m2det (v2 u u) = nsub (nmul (vat u 0) (vat u 1)) (nmul (vat u 0) (vat u 1))).
  { rewrite (fmul_comm (vat u 0)) at 2. reflexivity. }
  rewrite D. clear D. generalize (nmul (vat u 0) (vat u 1)). intros p. destruct (is_finite p) eqn:F.
  - assert (E : nis0 (nsub p p) = true).
    { cbn. destruct p as [s|s| |s m e B]; try discriminate F; [destruct s; reflexivity|].
      generalize (Bminus_correct prec emax Hp He mode_NE (B754_finite s m e B) (B754_finite s m e B) F F).
      rewrite Rminus_diag_eq by reflexivity. rewrite round_0 by apply valid_rnd_round_mode. rewrite Rabs_R0, Rlt_bool_true by apply bpow_gt_0.
      intros (V & F' & _). revert V F'. generalize (Bminus mode_NE (B754_finite s m e B) (B754_finite s m e B)). intros q V F'. 
      destruct q as [t|t| |t m' e' B']; try discriminate F'; [reflexivity|]. exfalso. revert V. cbn. apply (F2R_neq_0 radix2 (Float radix2 (cond_Zopp t (Zpos m')) e')). destruct t; discriminate. }
    rewrite E. split; intros _; reflexivity.
  - split; [|discriminate]. intros H. exfalso. destruct p as [s|s| |s m e B]; try discriminate F; cbn in H; [destruct s; cbn in H|]; discriminate H.
Qed.

Theorem c167_refuted :
  let i : Z -> f64 := f64_of_Z in let t := ndiv (i 1%Z) (i 3%Z) in
  (exists u w : vec f64 3, m3det (v3 u u w) = i 16%Z /\ m3det (v3 u u w) <> nneg (m3det (v3 u u w)) /\ exists x, m3try_inverse (v3 u u w) = Some x /\ is_finite (mget x 0 0) = true) /\
  (exists u w x : vec f64 4, m4det (v4 u u w x) = i 128%Z /\ exists y, m4try_inverse (v4 u u w x) = Some y /\ is_finite (mget y 0 0) = true) /\
  (exists m : mat f64 3 3, m3det (mtranspose m) <> m3det m /\ is_finite (m3det m) = true) /\
  (exists m : mat f64 4 4, m4det (mtranspose m) <> m4det m /\ is_finite (m4det m) = true).
Proof.
  intros i t. split; [|split; [|split]].
  - exists (v3 (i 585935%Z) (i 997195%Z) (i 178476%Z)), (v3 (i 655446%Z) (i 11953%Z) (i 514334%Z)).
    split; [apply B2SF_inj; vm_compute; reflexivity|]. split; [intros E; apply (f_equal B2SF) in E; vm_compute in E; discriminate E|].
    set (M := v3 _ _ _). unfold m3try_inverse. replace (nis0 (m3det M)) with false by (vm_compute; reflexivity). eexists. split; [reflexivity|]. vm_compute. reflexivity.
  - exists (v4 (i 28051%Z) (i 54599%Z) (i 13083%Z) (i 3600%Z)), (v4 (i 55010%Z) (i 33467%Z) (i 54897%Z) (i 75363%Z)), (v4 (i 5060%Z) (i 15978%Z) (i 27196%Z) (i 61903%Z)).
    split; [apply B2SF_inj; vm_compute; reflexivity|].
    set (M := v4 _ _ _ _). unfold m4try_inverse. replace (nis0 (m4det M)) with false by (vm_compute; reflexivity). eexists. split; [reflexivity|]. vm_compute. reflexivity.
  - exists (m3new (i 1%Z) (ndiv (i 7%Z) (i 3%Z)) (ndiv (i 2%Z) (i 3%Z)) (ndiv (i 8%Z) (i 3%Z)) (i 2%Z) (ndiv (i 10%Z) (i 3%Z)) (i 1%Z) (i 1%Z) (ndiv (i 7%Z) (i 3%Z))).
    split; [intros E; apply (f_equal B2SF) in E; vm_compute in E; discriminate E|vm_compute; reflexivity].
  - exists (m4new t (ndiv (i 7%Z) (i 3%Z)) (ndiv (i 4%Z) (i 3%Z)) (ndiv (i 2%Z) (i 3%Z)) (i 7%Z) (i 8%Z) (i 9%Z) (i 1%Z) (i 9%Z) (i 8%Z) (i 7%Z) (i 5%Z) (i 7%Z) (i 8%Z) (i 9%Z) (i 5%Z)).
    split; [intros E; apply (f_equal B2SF) in E; vm_compute in E; discriminate E|vm_compute; reflexivity].
Qed.

Theorem c167_example :
  let i : Z -> f64 := f64_of_Z in let t := ndiv (i 1%Z) (i 3%Z) in
  let b : mat f64 3 3 := m3new t (i 2%Z) (i 3%Z) (i 4%Z) (i 5%Z) (i 6%Z) (i 7%Z) (i 8%Z) t in
  is_finite (m3det b) = true /\ m3det b <> m3det (mneg b) /\ m3det (mneg b) = nneg (m3det b) /\
  m2try_inverse (v2 (v2 t (i 7%Z)) (v2 t (i 7%Z))) = None /\ m2try_inverse (v2 (v2 t (i 7%Z)) (v2 (i 7%Z) t)) <> None.
Proof.
  intros i t b. split; [vm_compute; reflexivity|]. split; [intros E; apply (f_equal B2SF) in E; vm_compute in E; discriminate E|]. split; [apply B2SF_inj; vm_compute; reflexivity|].
  split; [apply c167_equal_columns; vm_compute; reflexivity|]. unfold m2try_inverse. set (M := v2 _ _). replace (nis0 (m2det M)) with false by (vm_compute; reflexivity). discriminate.
Qed.
