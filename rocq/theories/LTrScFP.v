(** Translations, scales and shears in floats: the proofs of the property theorems of PTrScF.v. *)

From Coq Require Import List Arith ZArith Lia Reals Lra Psatz.
From Flocq Require Import Core.Core IEEE754.BinarySingleNaN.
From Verif Require Import Base Scalar Spec SpecF SpecRigid SpecTrSc LBase MVector LVector LVectorR MPoint LMisc MTransform MFloat LFloat LFloatP MFloatVec LFloatVec
  LFloatAcc LDriftM LRigidF LRefF LTrScF LFloatNormP.
Local Open Scope R_scope.

Lemma c130_translation :
  forall (prec emax : Z) (Hp : Prec_gt_0 prec) (He : Prec_lt_emax prec emax) (n : nat) (t p : vec (binary_float prec emax) n) (i : nat),
    let u := bpow radix2 (- prec) in let q := tr_apply_point (tr_from_vector t) p in
    (i < n)%nat -> is_finite (vat t i) = true -> is_finite (vat p i) = true ->
    Rabs (B2R (vat p i)) <= bpow radix2 (emax - 2) -> Rabs (B2R (vat p i) + B2R (vat t i)) <= bpow radix2 (emax - 2) ->
    fnear (vat q i) (B2R (vat p i) + B2R (vat t i)) (u * Rabs (B2R (vat p i) + B2R (vat t i))) /\
    fnear (vat (tr_inverse_apply_point (tr_from_vector t) q) i) (B2R (vat p i)) (2 * u * Rabs (B2R (vat p i) + B2R (vat t i))) /\
    fnear (vat (tr_apply_point (tr_inverse (tr_from_vector t)) q) i) (B2R (vat p i)) (2 * u * Rabs (B2R (vat p i) + B2R (vat t i))) /\
    (forall z : binary_float prec emax, B2R z = B2R (vat p i) + B2R (vat t i) ->
     B2R (vat q i) = B2R (vat p i) + B2R (vat t i) /\
     B2R (vat (tr_inverse_apply_point (tr_from_vector t) q) i) = B2R (vat p i)).
Proof.
  intros prec emax Hp He n t p i u q Hi Ft Fp H1 H2.
  assert (B : bpow radix2 (emax - 1) = 2 * bpow radix2 (emax - 2)) by (replace (emax - 1)%Z with (1 + (emax - 2))%Z by ring; apply bpow_plus).
  pose proof (bpow_gt_0 radix2 (emax - 2)) as B0.
  assert (Q : vat q i = nadd (vat p i) (vat t i)) by (apply vat_vadd; exact Hi).
  assert (Q2 : vat (tr_inverse_apply_point (tr_from_vector t) q) i = nsub (vat q i) (vat t i)) by (apply vat_vsub; exact Hi).
  assert (Q3 : vat (tr_apply_point (tr_inverse (tr_from_vector t)) q) i = nsub (vat q i) (vat t i)).
  { rewrite fsub_add_neg. etransitivity; [apply vat_vadd; exact Hi|]. f_equal. apply vat_vneg. exact Hi. }
  destruct (add_val _ _ Fp Ft ltac:(lra)) as (Fa & Ea & Da). destruct (there_back _ _ Fp Ft H1 H2) as (Fb & Db & Xb).
  rewrite Q2, Q3, Q. split; [split; assumption|]. split; [split; assumption|]. split; [split; assumption|].
  intros z Z. assert (E : B2R (nadd (vat p i) (vat t i)) = B2R (vat p i) + B2R (vat t i)) by (rewrite Ea, <- Z; apply rnd_float).
  split; [exact E|]. exact (Xb E).
Qed.

Lemma c130_translation_grid :
  forall (prec emax : Z) (Hp : Prec_gt_0 prec) (He : Prec_lt_emax prec emax) (n : nat) (t p : vec (binary_float prec emax) n) (i : nat) (k l e : Z),
    let q := tr_apply_point (tr_from_vector t) p in
    (i < n)%nat -> is_finite (vat t i) = true -> is_finite (vat p i) = true ->
    B2R (vat p i) = IZR k * bpow radix2 e -> B2R (vat t i) = IZR l * bpow radix2 e ->
    (3 - emax - prec <= e)%Z -> (e + prec <= emax - 2)%Z -> (Z.abs k < 2 ^ prec)%Z -> (Z.abs (k + l) < 2 ^ prec)%Z ->
    B2R (vat q i) = IZR (k + l) * bpow radix2 e /\ B2R (vat (tr_inverse_apply_point (tr_from_vector t) q) i) = B2R (vat p i).
Proof.
  intros prec emax Hp He n t p i k l e q Hi Ft Fp X Y E1 E2 K1 K2.
  pose proof Hp as P. unfold Prec_gt_0 in P.
  assert (W : forall z, (Z.abs z < 2 ^ prec)%Z -> Rabs (IZR z * bpow radix2 e) <= bpow radix2 (emax - 2)).
  { intros z Hz. rewrite Rabs_mult, (Rabs_pos_eq (bpow _ _)), <- abs_IZR by apply bpow_ge_0.
    apply Rle_trans with (bpow radix2 prec * bpow radix2 e).
    - apply Rmult_le_compat_r; [apply bpow_ge_0|]. rewrite <- IZR_Zpower by lia. apply IZR_le. change (Zpower radix2 prec) with (2 ^ prec)%Z. lia.
    - rewrite <- bpow_plus. apply bpow_le. lia. }
  assert (S : B2R (vat p i) + B2R (vat t i) = IZR (k + l) * bpow radix2 e) by (rewrite X, Y, plus_IZR; ring).
  assert (B : bpow radix2 (emax - 2) <= bpow radix2 (emax - 1)) by (apply bpow_le; lia).
  pose proof (W _ K1) as W1. pose proof (W _ K2) as W2. rewrite <- S in W2. rewrite <- X in W1.
  pose proof (grid_exact _ _ k l e Fp Ft X Y E1 K2 ltac:(lra)) as G.
  destruct (c130_translation prec emax Hp He n t p i Hi Ft Fp W1 W2) as (_ & _ & _ & H). fold q in H.
  destruct (H _ G) as (H3 & H4). split; [rewrite H3; exact S|exact H4].
Qed.

Lemma c130_translation_products :
  forall (prec emax : Z) (Hp : Prec_gt_0 prec) (He : Prec_lt_emax prec emax) (n : nat) (s t p : vec (binary_float prec emax) n) (i : nat) (M : R),
    let u := bpow radix2 (- prec) in
    (i < n)%nat -> is_finite (vat s i) = true -> is_finite (vat t i) = true -> is_finite (vat p i) = true ->
    Rabs (B2R (vat s i)) <= M -> Rabs (B2R (vat t i)) <= M -> Rabs (B2R (vat p i)) <= M -> M <= bpow radix2 (emax - 4) ->
    tr_mul s t = tr_mul t s /\ tr_inverse (tr_inverse t) = t /\
    fnear (vat (tr_apply_point (tr_identity n) p) i) (B2R (vat p i)) 0 /\
    fnear (vat (tr_apply_point (tr_mul s t) p) i) (B2R (vat p i) + B2R (vat t i) + B2R (vat s i)) (6 * u * M) /\
    fnear (vat (tr_apply_point s (tr_apply_point t p)) i) (B2R (vat p i) + B2R (vat t i) + B2R (vat s i)) (6 * u * M).
Proof.
  intros prec emax Hp He n s t p i M u Hi Fs Ft Fp Hs Ht HP HM. pose proof (@u_half prec Hp) as U. fold u in U.
  assert (B : 8 * M <= bpow radix2 (emax - 1)).
  { replace (emax - 1)%Z with (3 + (emax - 4))%Z by ring. rewrite bpow_plus. change (bpow radix2 3) with 8. lra. }
  assert (M0 : 0 <= M) by (pose proof (Rabs_pos (B2R (vat s i))); lra).
  assert (UM : 0 <= u * M) by (apply Rmult_le_pos; lra). assert (UM2 : u * M <= / 2 * M) by (apply Rmult_le_compat_r; lra).
  assert (UU : u * (u * M) <= u * (/ 2 * M)) by (apply Rmult_le_compat_l; lra).
  assert (two : forall x y z : binary_float prec emax, is_finite x = true -> is_finite y = true -> is_finite z = true ->
     Rabs (B2R x) <= M -> Rabs (B2R y) <= M -> Rabs (B2R z) <= M ->
     fnear (nadd (nadd x y) z) (B2R x + B2R y + B2R z) (6 * u * M)).
  { intros x y z Fx Fy Fz Hx Hy Hz.
    assert (S : Rabs (B2R x + B2R y) <= 2 * M) by (eapply Rle_trans; [apply Rabs_triang|lra]).
    destruct (add_val x y Fx Fy ltac:(lra)) as (F1 & _ & E1). fold u in E1. set (w := nadd x y) in *.
    assert (E1' : Rabs (B2R w - (B2R x + B2R y)) <= 2 * (u * M)).
    { eapply Rle_trans; [exact E1|]. apply Rle_trans with (u * (2 * M)); [apply Rmult_le_compat_l; lra|lra]. }
    assert (S2 : Rabs (B2R w + B2R z) <= 4 * M).
    { replace (B2R w + B2R z) with ((B2R w - (B2R x + B2R y)) + ((B2R x + B2R y) + B2R z)) by ring.
      eapply Rle_trans; [apply Rabs_triang|]. assert (Rabs ((B2R x + B2R y) + B2R z) <= 3 * M) by (eapply Rle_trans; [apply Rabs_triang|lra]). lra. }
    destruct (add_val w z F1 Fz ltac:(lra)) as (F2 & _ & E2). fold u in E2. split; [exact F2|].
    replace (B2R (nadd w z) - (B2R x + B2R y + B2R z)) with ((B2R (nadd w z) - (B2R w + B2R z)) + (B2R w - (B2R x + B2R y))) by ring.
    eapply Rle_trans; [apply Rabs_triang|]. assert (u * Rabs (B2R w + B2R z) <= u * (4 * M)) by (apply Rmult_le_compat_l; lra). lra. }
  split; [apply vadd_comm_gen, fadd_comm|]. split; [|split; [|split]].
  - apply vat_ext. intros j Hj. etransitivity; [apply vat_vneg; exact Hj|]. etransitivity; [apply f_equal, vat_vneg; exact Hj|]. apply fneg_invol.
  - assert (Q : vat (tr_apply_point (tr_identity n) p) i = nadd (vat p i) (vat (vzero n : vec (binary_float prec emax) n) i)) by (apply vat_vadd; exact Hi).
    rewrite Q, vat_vzero by exact Hi. destruct (fv_add0 (vat p i) n0 _ (fv_self _ Fp) ltac:(split; reflexivity)) as ((F & E) & _).
    split; [exact F|]. rewrite E, Rminus_diag_eq, Rabs_R0 by reflexivity. lra.
  - assert (Q : vat (tr_apply_point (tr_mul s t) p) i = nadd (nadd (vat s i) (vat t i)) (vat p i)).
    { rewrite fadd_comm. etransitivity; [apply vat_vadd; exact Hi|]. apply f_equal. apply vat_vadd; exact Hi. }
    rewrite Q. replace (B2R (vat p i) + B2R (vat t i) + B2R (vat s i)) with (B2R (vat s i) + B2R (vat t i) + B2R (vat p i)) by ring. apply two; assumption.
  - assert (Q : vat (tr_apply_point s (tr_apply_point t p)) i = nadd (nadd (vat p i) (vat t i)) (vat s i)).
    { etransitivity; [apply vat_vadd; exact Hi|]. apply (f_equal (fun z => nadd z _)). apply vat_vadd; exact Hi. }
    rewrite Q. apply two; assumption.
Qed.

(** * Scales *)
Lemma c130_scale :
  forall (prec emax : Z) (Hp : Prec_gt_0 prec) (He : Prec_lt_emax prec emax) (n : nat) (s p : vec (binary_float prec emax) n) (i : nat),
    let u := bpow radix2 (- prec) in let f := sc_from_nonuniform_scale s in let x := B2R (vat s i) * B2R (vat p i) in
    (i < n)%nat -> is_finite (vat s i) = true -> is_finite (vat p i) = true -> B2R (vat s i) <> 0 ->
    Rabs (B2R (vat p i)) <= bpow radix2 (emax - 4) -> x = 0 \/ bpow radix2 (2 - emax) <= Rabs x <= bpow radix2 (emax - 1) ->
    fnear (vat (sc_apply_point f p) i) x (u * Rabs x) /\ fnear (vat (sc_apply_vector f p) i) x (u * Rabs x) /\
    fnear (vat (sc_inverse_apply_point f (sc_apply_point f p)) i) (B2R (vat p i)) (2 * u * Rabs (B2R (vat p i))) /\
    fnear (vat (sc_inverse_apply_vector f (sc_apply_vector f p)) i) (B2R (vat p i)) (2 * u * Rabs (B2R (vat p i))) /\
    (bpow radix2 (2 - emax) <= Rabs (B2R (vat s i)) <= bpow radix2 (emax - 2) ->
     fnear (vat (sc_apply_point (sc_inverse f) (sc_apply_point f p)) i) (B2R (vat p i)) (5 * u * Rabs (B2R (vat p i))) /\
     fnear (vat (sc_apply_vector (sc_inverse f) (sc_apply_vector f p)) i) (B2R (vat p i)) (5 * u * Rabs (B2R (vat p i)))) /\
    (forall k, Rabs (B2R (vat s i)) = bpow radix2 k ->
     B2R (vat (sc_apply_point f p) i) = x /\ B2R (vat (sc_apply_vector f p) i) = x /\
     B2R (vat (sc_inverse_apply_point f (sc_apply_point f p)) i) = B2R (vat p i) /\
     B2R (vat (sc_inverse_apply_vector f (sc_apply_vector f p)) i) = B2R (vat p i)).
Proof.
  intros prec emax Hp He n s p i u f x Hi Fs Fp S0 H1 HX.
  assert (A1 : forall g w : vec (binary_float prec emax) n, vat (sc_apply_point g w) i = nmul (vat g i) (vat w i)).
  { intros g w. exact (vget_loop_fill n0 n (fun i => nmul (vat g i) (vat w i)) (vzero n) i Hi). }
  assert (A2 : forall g w : vec (binary_float prec emax) n, vat (sc_apply_vector g w) i = nmul (vat g i) (vat w i)).
  { intros g w. exact (vget_loop_fill n0 n (fun i => nmul (vat g i) (vat w i)) (vzero n) i Hi). }
  assert (A3 : forall w : vec (binary_float prec emax) n, vat (sc_inverse_apply_point f w) i = ndiv (vat w i) (vat s i)).
  { intros w. exact (vget_loop_fill n0 n (fun i => ndiv (vat w i) (vat s i)) (vzero n) i Hi). }
  assert (A4 : forall w : vec (binary_float prec emax) n, vat (sc_inverse_apply_vector f w) i = ndiv (vat w i) (vat s i)).
  { intros w. exact (vget_loop_fill n0 n (fun i => ndiv (vat w i) (vat s i)) (vzero n) i Hi). }
  assert (A5 : vat (sc_inverse f) i = ndiv n1 (vat s i)).
  { exact (vget_loop_fill n0 n (fun i => ndiv n1 (vat s i)) (vzero n) i Hi). }
  assert (R : @in_range emax x) by (destruct HX as [X|X]; [left; exact X|right; apply X]).
  assert (L : Rabs x <= bpow radix2 (emax - 1)) by (destruct HX as [X|X]; [rewrite X, Rabs_R0; apply bpow_ge_0|apply X]).
  assert (H2 : Rabs (B2R (vat p i)) <= bpow radix2 (emax - 2)) by (eapply Rle_trans; [exact H1|apply bpow_le; lia]).
  destruct (scale_back _ _ Fs Fp S0 H2 L R) as (F1 & E1 & F2 & E2 & X2).
  rewrite ?A3, ?A4, ?A1, ?A2, ?A5. change (vat f i) with (vat s i). conjs; try (split; assumption).
  - intros HS. pose proof (recip_back _ _ Fs Fp HS H1 L R) as (F3 & E3). split; split; assumption.
  - intros k Hk. pose proof (pow2_exact _ _ k Fs Fp Hk L R) as E. pose proof (X2 E) as E'. conjs; assumption.
Qed.

(** * Shears *)

Lemma axis_shear_apply prec emax (Hp : Prec_gt_0 prec) (He : Prec_lt_emax prec emax) n (f : shear (binary_float prec emax) n) (p : vec (binary_float prec emax) n) i j :
  (i < n)%nat -> (j < n)%nat -> i <> j -> axis_of (sh_direction f) i -> axis_of (sh_normal f) j ->
  (forall k, (k < n)%nat -> is_finite (vat (sh_origin f) k) = true /\ B2R (vat (sh_origin f) k) = 0) ->
  is_finite (sh_factor f) = true -> (forall k, (k < n)%nat -> is_finite (vat p k) = true) ->
  let w := nmul (sh_factor f) (vat p j) in
  Rabs (B2R (sh_factor f) * B2R (vat p j)) <= bpow radix2 (emax - 3) -> Rabs (B2R (vat p i)) <= bpow radix2 (emax - 3) ->
  is_finite w = true /\
  (forall k, (k < n)%nat -> fv (vat (sh_apply_point f p) k) (if Nat.eqb k i then B2R (nadd (vat p i) w) else B2R (vat p k))) /\
  (forall k, (k < n)%nat -> fv (vat (sh_inverse_apply_point f p) k) (if Nat.eqb k i then B2R (nsub (vat p i) w) else B2R (vat p k))).
Proof.
  intros Hi Hj Hij D N O Fs Fp w H1 H2.
  pose proof (@u_half prec Hp) as U.
  assert (B : bpow radix2 (emax - 1) = 4 * bpow radix2 (emax - 3)) by (replace (emax - 1)%Z with (2 + (emax - 3))%Z by ring; apply bpow_plus).
  pose proof (bpow_gt_0 radix2 (emax - 3)) as B0.
  destruct (mul_val (sh_factor f) (vat p j) Fs (Fp j Hj) ltac:(lra)) as (Fw & Ew). fold w in Fw, Ew.
  assert (B2 : bpow radix2 (emax - 2) = 2 * bpow radix2 (emax - 3)) by (replace (emax - 2)%Z with (1 + (emax - 3))%Z by ring; apply bpow_plus).
  assert (Bw : Rabs (B2R w) <= bpow radix2 (emax - 2)).
  { rewrite Ew. apply abs_round_le_generic; [apply FLT_exp_valid; exact Hp|apply valid_rnd_N| |lra].
    apply generic_format_bpow. pose proof Hp as P. pose proof He as Q. unfold Prec_gt_0, Prec_lt_emax in *. unfold FLT_exp. lia. }
  assert (G : fv (vdot (pdiff p (sh_origin f)) (sh_normal f)) (B2R (vat p j))).
  { rewrite vdot_sum. assert (P : forall k, (k < n)%nat -> fv (vat (pdiff p (sh_origin f)) k) (B2R (vat p k))).
    { intros k Hk. unfold pdiff. rewrite vat_vsub by exact Hk. apply fv_sub0; [apply fv_self, Fp, Hk|exact (O k Hk)]. }
    apply fv_sum_one with j; [exact Hj| |].
    - destruct (N j Hj) as (N1 & N2). rewrite Nat.eqb_refl in N2. exact (proj1 (fv_mul1 _ _ _ (P j Hj) (conj N1 N2))).
    - intros k Hk Hkj. destruct (N k Hk) as (N1 & N2). apply Nat.eqb_neq in Hkj. rewrite Hkj in N2.
      exact (proj1 (fv_mul0 _ _ (proj1 (P k Hk)) (conj N1 N2))). }
  set (c := nmul (sh_factor f) (vdot (pdiff p (sh_origin f)) (sh_normal f))).
  assert (C : fv c (B2R w)).
  { apply fv_mul_cong; [apply fv_self; exact Fs|exact Fs|exact G|exact (Fp j Hj)|lra]. }
  assert (T : forall k, (k < n)%nat -> fv (vat (vmul_s (sh_direction f) c) k) (if Nat.eqb k i then B2R w else 0)).
  { intros k Hk. rewrite vat_vmul_s by exact Hk. destruct (D k Hk) as (D1 & D2). destruct (Nat.eqb k i).
    - exact (proj2 (fv_mul1 _ _ _ C (conj D1 D2))).
    - exact (proj2 (fv_mul0 _ _ (proj1 C) (conj D1 D2))). }
  split; [exact Fw|]. split; intros k Hk.
  - assert (Q : vat (sh_apply_point f p) k = nadd (vat p k) (vat (vmul_s (sh_direction f) c) k)) by (apply vat_vadd; exact Hk).
    rewrite Q. specialize (T k Hk). destruct (Nat.eqb_spec k i) as [Ek|Nk]; [subst k|].
    + apply fv_add_cong; [apply fv_self, Fp, Hk|apply Fp, Hk|exact T|exact Fw|]. eapply Rle_trans; [apply Rabs_triang|]. lra.
    + apply fv_add0r; [apply fv_self, Fp, Hk|exact T].
  - assert (Q : vat (sh_inverse_apply_point f p) k = nsub (vat p k) (vat (vmul_s (sh_direction f) c) k)) by (apply vat_vsub; exact Hk).
    rewrite Q. specialize (T k Hk). destruct (Nat.eqb_spec k i) as [Ek|Nk]; [subst k|].
    + rewrite !fsub_add_neg. assert (NF : forall z : binary_float prec emax, is_finite z = true -> is_finite (nneg z) = true) by (intros; cbn [nneg num_float]; rewrite is_finite_Bopp; assumption).
      apply fv_add_cong; [apply fv_self, Fp, Hk|apply Fp, Hk| |apply NF; exact Fw|].
      * split; [apply NF, T|]. cbn [nneg num_float]. rewrite !B2R_Bopp. f_equal. apply T.
      * cbn [nneg num_float]. rewrite B2R_Bopp. eapply Rle_trans; [apply Rabs_triang|]. rewrite Rabs_Ropp. lra.
    + apply fv_sub0; [apply fv_self, Fp, Hk|exact T].
Qed.

Lemma c130_axis_shear :
  forall (prec emax : Z) (Hp : Prec_gt_0 prec) (He : Prec_lt_emax prec emax) (n : nat) (f : shear (binary_float prec emax) n)
    (p : vec (binary_float prec emax) n) (i j : nat) (M : R),
    let u := bpow radix2 (- prec) in let s := sh_factor f in
    (i < n)%nat -> (j < n)%nat -> i <> j -> axis_of (sh_direction f) i -> axis_of (sh_normal f) j ->
    (forall k, (k < n)%nat -> is_finite (vat (sh_origin f) k) = true /\ B2R (vat (sh_origin f) k) = 0) ->
    is_finite s = true -> (forall k, (k < n)%nat -> is_finite (vat p k) = true) ->
    bpow radix2 (2 - emax) <= M <= bpow radix2 (emax - 6) -> Rabs (B2R (vat p i)) <= M -> Rabs (B2R s * B2R (vat p j)) <= M ->
    fnear (vat (sh_apply_point f p) i) (B2R (vat p i) + B2R s * B2R (vat p j)) (5 * u * M) /\
    fnear (vat (sh_inverse_apply_point f (sh_apply_point f p)) i) (B2R (vat p i)) (6 * u * M) /\
    (forall k, (k < n)%nat -> k <> i ->
     fnear (vat (sh_apply_point f p) k) (B2R (vat p k)) 0 /\
     fnear (vat (sh_inverse_apply_point f (sh_apply_point f p)) k) (B2R (vat p k)) 0).
Proof.
  intros prec emax Hp He n f p i j M u s Hi Hj Hij D N O Fs Fp (M1 & M2) Hx Hy.
  pose proof (@u_half prec Hp) as U. fold u in U.
  assert (B5 : bpow radix2 (emax - 3) = 8 * bpow radix2 (emax - 6)) by (replace (emax - 3)%Z with (3 + (emax - 6))%Z by ring; apply bpow_plus).
  assert (B2 : bpow radix2 (emax - 2) = 2 * bpow radix2 (emax - 3)) by (replace (emax - 2)%Z with (1 + (emax - 3))%Z by ring; apply bpow_plus).
  assert (B1 : bpow radix2 (emax - 1) = 2 * bpow radix2 (emax - 2)) by (replace (emax - 1)%Z with (1 + (emax - 2))%Z by ring; apply bpow_plus).
  pose proof (bpow_gt_0 radix2 (emax - 6)) as B0. pose proof (bpow_gt_0 radix2 (2 - emax)) as B0'. assert (M0 : 0 < M) by lra.
  set (x := B2R (vat p i)) in *. set (y := B2R (vat p j)) in *. set (w := nmul s (vat p j)).
  destruct (axis_shear_apply prec emax Hp He n f p i j Hi Hj Hij D N O Fs Fp ltac:(fold s y; lra) ltac:(fold x; lra)) as (Fw & A & _).
  fold s w in Fw, A. set (q := sh_apply_point f p) in *.
  assert (UM : 0 <= u * M) by (apply Rmult_le_pos; lra). assert (UM2 : u * M <= / 2 * M) by (apply Rmult_le_compat_r; lra).
  assert (UU : u * (u * M) <= u * (/ 2 * M)) by (apply Rmult_le_compat_l; lra).
  assert (Ew : Rabs (B2R w - B2R s * y) <= 2 * (u * M)).
  { destruct (fmul_err _ _ Fw) as (d & e & Hd & He' & E). fold w in E. rewrite E, funit_eq, ftiny_eq in *. fold u in Hd. fold y.
    replace (B2R s * y * (1 + d) + e - B2R s * y) with (d * (B2R s * y) + e) by ring.
    eapply Rle_trans; [apply Rabs_triang|]. rewrite (Rabs_mult d).
    assert (Rabs d * Rabs (B2R s * y) <= u * M) by (apply Rmult_le_compat; try apply Rabs_pos; assumption).
    assert (bpow radix2 (2 - emax - prec) <= u * M).
    { replace (2 - emax - prec)%Z with (- prec + (2 - emax))%Z by ring. rewrite bpow_plus. apply Rmult_le_compat_l; lra. }
    lra. }
  assert (Bw : Rabs (B2R w) <= 2 * M).
  { replace (B2R w) with (B2R s * y + (B2R w - B2R s * y)) by ring. eapply Rle_trans; [apply Rabs_triang|]. lra. }
  assert (Bx : Rabs (x + B2R w) <= 3 * M) by (eapply Rle_trans; [apply Rabs_triang|lra]).
  assert (Bx' : Rabs (x + B2R w) <= 2 * M + 2 * (u * M)).
  { replace (x + B2R w) with (x + B2R s * y + (B2R w - B2R s * y)) by ring. eapply Rle_trans; [apply Rabs_triang|].
    assert (Rabs (x + B2R s * y) <= 2 * M) by (eapply Rle_trans; [apply Rabs_triang|lra]). lra. }
  destruct (add_val (vat p i) w (Fp i Hi) Fw ltac:(fold x; lra)) as (Fa & _ & Ea). fold u x in Ea.
  assert (Ai := A i Hi). rewrite Nat.eqb_refl in Ai. destruct Ai as (Fq & Eq).
  assert (Eq' : Rabs (B2R (nadd (vat p i) w) - (x + B2R w)) <= 3 * (u * M)).
  { eapply Rle_trans; [exact Ea|]. assert (u * Rabs (x + B2R w) <= u * (3 * M)) by (apply Rmult_le_compat_l; lra). lra. }
  assert (Eq'' : Rabs (B2R (nadd (vat p i) w) - (x + B2R w)) <= 2 * (u * M) + u * M).
  { lra. }
  assert (FQ : forall k, (k < n)%nat -> is_finite (vat q k) = true) by (intros k Hk; apply (A k Hk)).
  assert (Aj : B2R (vat q j) = y).
  { destruct (A j Hj) as (_ & E). destruct (Nat.eqb_spec j i) as [X|X]; [exfalso; apply Hij; symmetry; exact X|exact E]. }
  assert (Bq : Rabs (B2R (vat q i)) <= bpow radix2 (emax - 3)).
  { rewrite Eq. replace (B2R (nadd (vat p i) w)) with ((x + B2R w) + (B2R (nadd (vat p i) w) - (x + B2R w))) by ring.
    eapply Rle_trans; [apply Rabs_triang|]. assert (u * Rabs (x + B2R w) <= / 2 * (2 * M + 2 * (u * M))) by (apply Rmult_le_compat; try apply Rabs_pos; lra). lra. }
  destruct (axis_shear_apply prec emax Hp He n f q i j Hi Hj Hij D N O Fs FQ ltac:(rewrite Aj; fold s; lra) Bq) as (Fw2 & _ & A2).
  fold s in Fw2, A2.
  assert (Ew2 : B2R (nmul s (vat q j)) = B2R w).
  { apply (fv_mul_cong s (vat q j) s (vat p j)); [apply fv_self; exact Fs|exact Fs|split; [apply FQ, Hj|exact Aj]|exact (Fp j Hj)|fold y; lra]. }
  split; [|split].
  - split; [exact Fq|]. rewrite Eq.
    replace (B2R (nadd (vat p i) w) - (x + B2R s * y)) with ((B2R (nadd (vat p i) w) - (x + B2R w)) + (B2R w - B2R s * y)) by ring.
    eapply Rle_trans; [apply Rabs_triang|]. lra.
  - assert (A2i := A2 i Hi). rewrite Nat.eqb_refl in A2i. destruct A2i as (F2 & E2). split; [exact F2|]. rewrite E2.
    destruct (there_back (vat p i) w (Fp i Hi) Fw ltac:(fold x; lra) ltac:(fold x; lra)) as (Fb & Db & _). fold u x in Db.
    assert (SE : B2R (nsub (vat q i) (nmul s (vat q j))) = B2R (nsub (nadd (vat p i) w) w)).
    { assert (X : Rabs (B2R (nadd (vat p i) w) - B2R w) <= bpow radix2 (emax - 1)).
      { replace (B2R (nadd (vat p i) w) - B2R w) with (x + (B2R (nadd (vat p i) w) - (x + B2R w))) by ring.
        eapply Rle_trans; [apply Rabs_triang|]. lra. }
      destruct (sub_val _ w Fa Fw X) as (_ & E3 & _). rewrite E3. rewrite <- Eq, <- Ew2 in X |- *.
      destruct (sub_val (vat q i) _ (FQ i Hi) Fw2 X) as (_ & E4 & _). exact E4. }
    rewrite SE. eapply Rle_trans; [exact Db|]. assert (u * Rabs (x + B2R w) <= u * (3 * M)) by (apply Rmult_le_compat_l; lra). lra.
  - intros k Hk Nk. apply Nat.eqb_neq in Nk. specialize (A k Hk). specialize (A2 k Hk). rewrite Nk in A, A2.
    destruct A as (G1 & G2). destruct A2 as (G3 & G4). rewrite G2 in G4.
    split; (split; [assumption|]); [rewrite G2|rewrite G4]; rewrite Rminus_diag_eq, Rabs_R0 by reflexivity; lra.
Qed.

Lemma c130_axis_constructors :
  forall (prec emax : Z) (Hp : Prec_gt_0 prec) (He : Prec_lt_emax prec emax) (s : binary_float prec emax),
    let axes {n} (f : shear (binary_float prec emax) n) (i j : nat) :=
      sh_factor f = s /\ axis_of (sh_direction f) i /\ axis_of (sh_normal f) j /\
      (forall k, (k < n)%nat -> is_finite (vat (sh_origin f) k) = true /\ B2R (vat (sh_origin f) k) = 0) in
    axes (sh2from_shear_xy s) 0%nat 1%nat /\ axes (sh2from_shear_yx s) 1%nat 0%nat /\
    axes (sh3from_shear_xy s) 0%nat 1%nat /\ axes (sh3from_shear_xz s) 0%nat 2%nat /\
    axes (sh3from_shear_yx s) 1%nat 0%nat /\ axes (sh3from_shear_yz s) 1%nat 2%nat /\
    axes (sh3from_shear_zx s) 2%nat 0%nat /\ axes (sh3from_shear_zy s) 2%nat 1%nat.
Proof.
  intros prec emax Hp He s axes. destruct (@fbone prec emax Hp He) as (B1 & Fb & _).
  unfold axes, axis_of. conjs; try reflexivity; (intros [|[|[|k]]] Hk; [..|exfalso; lia]; try (exfalso; lia); split; first [reflexivity|exact Fb|exact B1|idtac]).
Qed.

(** ** Shears along any direction *)
Section Shear.
Context {prec emax : Z} {Hp : Prec_gt_0 prec} {He : Prec_lt_emax prec emax}.
Notation fl := (binary_float prec emax).
Notation u := (bpow radix2 (- prec)).
Hypothesis H24 : (24 <= prec)%Z.
Variable n : nat.
Hypothesis Hn : (n <= 4)%nat.
Variables (s : fl) (o d m : vec fl n) (S : R).
Hypothesis Fs : is_finite s = true.
Hypothesis Hs : Rabs (B2R s) <= S.
Hypothesis S1 : 1 <= S <= 1024.
Hypothesis Fd : forall i, (i < n)%nat -> is_finite (vat d i) = true.
Hypothesis Fm : forall i, (i < n)%nat -> is_finite (vat m i) = true.
Hypothesis Fo : forall i, (i < n)%nat -> is_finite (vat o i) = true.
Hypothesis Nd : fnrm n (fval d) <= 9 / 8.
Hypothesis Nm : fnrm n (fval m) <= 9 / 8.

(** The displacement of a float vector whose distance from the origin of the shear is at most 2 V. *)
Lemma displacement V (p : vec fl n) : @wok emax V -> fnrm n (fval p) <= V -> fnrm n (fval o) <= V ->
  (forall i, (i < n)%nat -> is_finite (vat p i) = true) ->
  let c := nmul s (vdot (vsub p o) m) in let g := B2R s * rsum n (fun j => (fval p j - fval o j) * fval m j) in
  Rabs g <= 9 / 4 * S * V /\
  @vne prec emax n V (48 * S * u) (fun i => nmul (vat d i) c) (fun i => fval d i * g).
Proof.
  intros HV Np No Fp c g. pose proof (wok_pos _ HV) as V0. pose proof (u_small H24) as U.
  assert (D : @vne prec emax n V (2 * u) (fun i => nsub (vat p i) (vat o i)) (fun i => fval p i - fval o i)).
  { eapply vne_weak; [exact HV|apply (sub_step n V HV 0 0 1 1 (fun i => vat p i) (fun i => vat o i) (fval p) (fval o) (vne_exact n V (fun i => vat p i) Fp) (vne_exact n V (fun i => vat o i) Fo)); lra|lra]. }
  destruct D as (FD & ED).
  assert (ND : fnrm n (fun i => fval p i - fval o i) <= 2 * V).
  { eapply Rle_trans; [apply (fnrm_tri n (fval p) (fun i => - fval o i))|]. rewrite fnrm_neg. lra. }
  assert (ND' : fnrm n (fun i => B2R (nsub (vat p i) (vat o i))) <= (2 + 2 * u) * V).
  { pose proof (fnrm_near n _ _ _ ED). lra. }
  assert (G1 : Rabs (rsum n (fun j => (fval p j - fval o j) * fval m j)) <= 9 / 4 * V).
  { eapply Rle_trans; [apply (fnrm_cs n (fun j => fval p j - fval o j) (fval m))|].
    replace (9 / 4 * V) with ((2 * V) * (9 / 8)) by field. apply Rmult_le_compat; try apply fnrm_pos; assumption. }
  assert (DV : (2 * u * V) * (9 / 8) <= 3 * u * V) by nra.
  assert (PR : fnrm n (fun i => B2R (nsub (vat p i) (vat o i))) * fnrm n (fun j => B2R (vat m j)) <= 3 * V).
  { apply Rle_trans with (((2 + 2 * u) * V) * (9 / 8)); [apply Rmult_le_compat; try apply fnrm_pos; assumption|nra]. }
  destruct (dotg H24 n Hn V HV 3 (fun i => nsub (vat p i) (vat o i)) (fun i => vat m i) ltac:(lra) ltac:(lra) FD Fm PR) as (FG & EG).
  assert (EV : vdot (vsub p o) m = sum n (fun j => nmul (nsub (vat p j) (vat o j)) (vat m j))).
  { rewrite vdot_sum. apply sum_ext. intros j Hj. rewrite vat_vsub by exact Hj. reflexivity. }
  rewrite <- EV in FG, EG. set (dt := vdot (vsub p o) m) in *.
  set (R0 := rsum n (fun j => (fval p j - fval o j) * fval m j)) in *.
  assert (E1 : Rabs (B2R dt - R0) <= 27 * u * V).
  { replace (B2R dt - R0) with ((B2R dt - rsum n (fun j => B2R (nsub (vat p j) (vat o j)) * B2R (vat m j))) + (rsum n (fun j => B2R (nsub (vat p j) (vat o j)) * B2R (vat m j)) - R0)) by ring.
    eapply Rle_trans; [apply Rabs_triang|].
    assert (Rabs (rsum n (fun j => B2R (nsub (vat p j) (vat o j)) * B2R (vat m j)) - R0) <= 3 * u * V).
    { unfold R0. rewrite rsum_minus.
      assert (XX : rsum n (fun i => B2R (nsub (vat p i) (vat o i)) * B2R (vat m i) - (fval p i - fval o i) * fval m i)
                 = rsum n (fun i => (B2R (nsub (vat p i) (vat o i)) - (fval p i - fval o i)) * fval m i)).
      { apply sum_ext. intros i Hi. unfold fval. rnum. ring. }
      rewrite XX. eapply Rle_trans; [apply (fnrm_cs n (fun i => B2R (nsub (vat p i) (vat o i)) - (fval p i - fval o i)) (fval m))|].
      eapply Rle_trans; [|exact DV]. apply Rmult_le_compat; try apply fnrm_pos; assumption. }
    lra. }
  assert (UV : 0 <= u * V) by (apply Rmult_le_pos; lra).
  assert (UV2 : u * V <= / 16777216 * V) by (apply Rmult_le_compat_r; lra).
  assert (BD : Rabs (B2R dt) <= 5 / 2 * V).
  { replace (B2R dt) with (R0 + (B2R dt - R0)) by ring. eapply Rle_trans; [apply Rabs_triang|]. lra. }
  assert (BM : Rabs (B2R s * B2R dt) <= 5 / 2 * S * V).
  { rewrite Rabs_mult. replace (5 / 2 * S * V) with (S * (5 / 2 * V)) by ring. apply Rmult_le_compat; try apply Rabs_pos; assumption. }
  destruct (mul1 V HV s dt (5 / 2 * S) Fs FG BM ltac:(lra)) as (Fc & Ec). fold c in Fc, Ec.
  assert (SUV : u * V <= S * (u * V)) by nra.
  assert (E2 : Rabs (B2R c - g) <= 30 * S * u * V).
  { replace (B2R c - g) with ((B2R c - B2R s * B2R dt) + B2R s * (B2R dt - R0)) by (unfold g; ring).
    eapply Rle_trans; [apply Rabs_triang|]. rewrite (Rabs_mult (B2R s) (B2R dt - R0)).
    assert (Rabs (B2R s) * Rabs (B2R dt - R0) <= S * (27 * u * V)) by (apply Rmult_le_compat; try apply Rabs_pos; assumption).
    assert (u * Rabs (B2R s * B2R dt) <= u * (5 / 2 * S * V)) by (apply Rmult_le_compat_l; lra). lra. }
  assert (G2 : Rabs g <= 9 / 4 * S * V).
  { unfold g. rewrite Rabs_mult. replace (9 / 4 * S * V) with (S * (9 / 4 * V)) by ring. apply Rmult_le_compat; try apply Rabs_pos; assumption. }
  split; [exact G2|].
  assert (SU : S * u <= 1024 * / 16777216) by (apply Rmult_le_compat; lra).
  assert (SU0 : 0 <= S * u) by (apply Rmult_le_pos; lra). assert (SU1 : u <= S * u) by nra. assert (SU2 : S * u * u <= / 16777216 * (S * u)) by nra.
  assert (T := scale_step H24 n Hn V HV c g V (30 * S * u) (9 / 4 * S) (9 / 8) 0 (9 / 8) 0 (fun i => vat d i) (fval d) Fc ltac:(lra) E2 G2 ltac:(lra) ltac:(lra) Fd
     ltac:(rewrite (fnrm_ext n _ (fun i => 0 * fval d i)) by (intros; unfold fval; ring); rewrite fnrm_scale, Rabs_R0; lra) Nd ltac:(lra) ltac:(lra) ltac:(lra)).
  eapply vne_weak; [exact HV|exact T|]. lra.
Qed.

Lemma shear_step V (p : vec fl n) : @wok emax V -> fnrm n (fval p) <= V -> fnrm n (fval o) <= V ->
  (forall i, (i < n)%nat -> is_finite (vat p i) = true) ->
  @vne prec emax n V (53 * S * u) (fun i => vat (sh_apply_point (mkShear s o d m) p) i) (rshear n (B2R s) (fval o) (fval d) (fval m) (fval p)) /\
  @vne prec emax n V (53 * S * u) (fun i => vat (sh_inverse_apply_point (mkShear s o d m) p) i) (rshear n (- B2R s) (fval o) (fval d) (fval m) (fval p)) /\
  fnrm n (rshear n (B2R s) (fval o) (fval d) (fval m) (fval p)) <= 15 / 4 * S * V.
Proof.
  intros HV Np No Fp. pose proof (wok_pos _ HV) as V0. pose proof (u_small H24) as U.
  destruct (displacement V p HV Np No Fp) as (G & D). set (c := nmul s (vdot (vsub p o) m)) in *.
  set (g := B2R s * rsum n (fun j => (fval p j - fval o j) * fval m j)) in *.
  assert (NG : fnrm n (fun i => fval d i * g) <= 11 / 4 * S * V).
  { rewrite (fnrm_ext n _ (fun i => g * fval d i)) by (intros; ring). rewrite fnrm_scale.
    apply Rle_trans with ((9 / 4 * S * V) * (9 / 8)); [apply Rmult_le_compat; try apply Rabs_pos; try apply fnrm_pos; assumption|].
    assert (0 <= S * V) by (apply Rmult_le_pos; lra). lra. }
  assert (SU : S * u <= 1024 * / 16777216) by (apply Rmult_le_compat; lra).
  assert (SU0 : 0 <= S * u) by (apply Rmult_le_pos; lra). assert (SU1 : u <= S * u) by nra. assert (SU2 : S * u * u <= / 16777216 * (S * u)) by nra.
  assert (XP := vne_exact n V (fun i => vat p i) Fp).
  assert (A1 := add_step n V HV 0 (48 * S * u) 1 (11 / 4 * S) _ _ _ _ XP D ltac:(change (fnrm n (fval p) <= 1 * V); lra) NG ltac:(lra) ltac:(lra) ltac:(lra)).
  assert (A2 := sub_step n V HV 0 (48 * S * u) 1 (11 / 4 * S) _ _ _ _ XP D ltac:(change (fnrm n (fval p) <= 1 * V); lra) NG ltac:(lra) ltac:(lra) ltac:(lra)).
  conjs.
  - eapply vne_weak; [exact HV| |]; [eapply vne_ext; [exact A1| |]|lra].
    + intros i Hi. symmetry. etransitivity; [apply vat_vadd; exact Hi|]. apply f_equal. apply vat_vmul_s. exact Hi.
    + intros i Hi. change (fval p i + fval d i * g = fval p i + B2R s * rsum n (fun j => (fval p j - fval o j) * fval m j) * fval d i). unfold g. ring.
  - eapply vne_weak; [exact HV| |]; [eapply vne_ext; [exact A2| |]|lra].
    + intros i Hi. symmetry. etransitivity; [apply vat_vsub; exact Hi|]. apply f_equal. apply vat_vmul_s. exact Hi.
    + intros i Hi. change (fval p i - fval d i * g = fval p i + - B2R s * rsum n (fun j => (fval p j - fval o j) * fval m j) * fval d i). unfold g. ring.
  - rewrite (fnrm_ext n _ (fun i => fval p i + fval d i * g)) by (intros i Hi; change (fval p i + B2R s * rsum n (fun j => (fval p j - fval o j) * fval m j) * fval d i = fval p i + fval d i * g); unfold g; ring).
    eapply Rle_trans; [apply fnrm_tri|]. assert (V <= S * V) by nra. lra.
Qed.
End Shear.

Lemma rshear_diff n s o d m x y i : rshear n s o d m x i - rshear n s o d m y i = (x i - y i) + s * rsum n (fun j => (x j - y j) * m j) * d i.
Proof.
  unfold rshear. assert (E : sum n (fun j => (x j - o j) * m j) - sum n (fun j => (y j - o j) * m j) = rsum n (fun j => (x j - y j) * m j)).
  { change (sum n (fun j => (x j - o j) * m j)) with (rsum n (fun j => (x j - o j) * m j)). change (sum n (fun j => (y j - o j) * m j)) with (rsum n (fun j => (y j - o j) * m j)).
    rewrite rsum_minus. apply sum_ext. intros j _. rnum. ring. }
  rewrite <- E. rnum. ring.
Qed.

Lemma rshear_back n s o d m x i :
  rshear n (- s) o d m (rshear n s o d m x) i - x i = - (s * s * rsum n (fun j => (x j - o j) * m j) * rsum n (fun j => d j * m j)) * d i.
Proof.
  set (g := rsum n (fun j => (x j - o j) * m j)).
  assert (E : sum n (fun j => (rshear n s o d m x j - o j) * m j) = g + s * g * rsum n (fun j => d j * m j)).
  { transitivity (g + rsum n (fun j => s * g * (d j * m j))).
    - unfold g at 1. rewrite rsum_plus. apply sum_ext. intros j _. unfold rshear. fold g. change (sum n (fun j => (x j - o j) * m j)) with g. rnum. ring.
    - f_equal. change (rsum n ?f) with (sum n f). exact (sum_mul_l n (s * g) (fun j => d j * m j)). }
  unfold rshear at 1. rewrite E. unfold rshear. change (sum n (fun j => (x j - o j) * m j)) with g. rnum. ring.
Qed.

Lemma c130_shear :
  forall (prec emax : Z) (Hp : Prec_gt_0 prec) (He : Prec_lt_emax prec emax) (n : nat)
    (s : binary_float prec emax) (o d m p : vec (binary_float prec emax) n) (S V : R),
    let u := bpow radix2 (- prec) in let f := sh_from_affine_shear s o d m in
    (24 <= prec)%Z -> (n <= 4)%nat -> is_finite s = true -> Rabs (B2R s) <= S -> 1 <= S <= 1024 ->
    bpow radix2 (31 - emax) <= V -> 4 * S * V <= bpow radix2 (emax - 31) ->
    (forall i, (i < n)%nat -> is_finite (vat d i) = true) -> rlength n (fval d) <= 9 / 8 ->
    (forall i, (i < n)%nat -> is_finite (vat m i) = true) -> rlength n (fval m) <= 9 / 8 ->
    (forall i, (i < n)%nat -> is_finite (vat o i) = true) -> rlength n (fval o) <= V ->
    (forall i, (i < n)%nat -> is_finite (vat p i) = true) -> rlength n (fval p) <= V ->
    let image r := rshear n r (fval o) (fval d) (fval m) (fval p) in
    vfnear (sh_apply_point f p) (image (B2R s)) (53 * S * u * V) /\ vfnear (sh_apply_vector f p) (image (B2R s)) (53 * S * u * V) /\
    vfnear (sh_inverse_apply_point f p) (image (- B2R s)) (53 * S * u * V) /\ vfnear (sh_inverse_apply_vector f p) (image (- B2R s)) (53 * S * u * V) /\
    vfnear (sh_inverse_apply_point f (sh_apply_point f p)) (fval p) (S * S * (335 * u + 3 * Rabs (sum n (fun i => fval d i * fval m i))) * V).
Proof.
  intros prec emax Hp He n s o d m p S V u f H24 Hn Fs Hs S1 V1 V2 Fd Nd Fm Nm Fo No Fp Np image.
  pose proof (u_small H24) as U. fold u in U. change (rlength n ?f) with (fnrm n f) in *.
  assert (V0 : 0 < V) by (pose proof (bpow_gt_0 radix2 (31 - emax)); lra).
  assert (SV : V <= S * V) by nra.
  assert (WV : @wok emax V) by (split; lra). assert (WW : @wok emax (4 * S * V)) by (split; lra).
  destruct (shear_step H24 n Hn s o d m S Fs Hs S1 Fd Fm Fo Nd Nm V p WV Np No Fp) as (A1 & A2 & A3). fold u in A1, A2.
  split; [exact A1|]. split; [exact A1|]. split; [exact A2|]. split; [exact A2|].
  destruct A1 as (F1 & E1). set (q := sh_apply_point f p) in *. fold (fval q) in E1. change (fun i => vat (sh_apply_point (mkShear s o d m) p) i) with (fun i => vat q i) in F1.
  assert (E1' : fnrm n (fun i => fval q i - image (B2R s) i) <= 53 * S * u * V) by exact E1. clear E1.
  assert (SUV : 0 <= S * u * V) by (repeat apply Rmult_le_pos; lra).
  assert (SUV2 : S * u * V <= / 16777216 * (S * V)).
  { replace (S * u * V) with (u * (S * V)) by ring. apply Rmult_le_compat_r; lra. }
  assert (NQ : fnrm n (fval q) <= 4 * S * V).
  { pose proof (fnrm_near n _ _ _ E1') as X. change (fnrm n (fval q) <= fnrm n (image (B2R s)) + 53 * S * u * V) in X. fold (image (B2R s)) in A3. lra. }
  destruct (shear_step H24 n Hn s o d m S Fs Hs S1 Fd Fm Fo Nd Nm (4 * S * V) q WW NQ ltac:(lra) F1) as (_ & (F2 & E2) & _). fold u in E2.
  split; [exact F2|]. change (rlength n ?f) with (fnrm n f).
  assert (E3 : fnrm n (fun i => rshear n (- B2R s) (fval o) (fval d) (fval m) (fval q) i - rshear n (- B2R s) (fval o) (fval d) (fval m) (image (B2R s)) i) <= 121 * (S * (S * u * V))).
  { rewrite (fnrm_ext n _ (fun i => (fval q i - image (B2R s) i) + (- B2R s * rsum n (fun j => (fval q j - image (B2R s) j) * fval m j)) * fval d i)) by (intros; apply rshear_diff).
    eapply Rle_trans; [apply fnrm_tri|]. rewrite fnrm_scale, Rabs_mult, Rabs_Ropp.
    assert (X : Rabs (rsum n (fun j => (fval q j - image (B2R s) j) * fval m j)) <= (53 * S * u * V) * (9 / 8)).
    { eapply Rle_trans; [apply (fnrm_cs n (fun j => fval q j - image (B2R s) j) (fval m))|]. apply Rmult_le_compat; try apply fnrm_pos; assumption. }
    assert (Y : Rabs (B2R s) * Rabs (rsum n (fun j => (fval q j - image (B2R s) j) * fval m j)) <= S * ((53 * S * u * V) * (9 / 8))) by (apply Rmult_le_compat; try apply Rabs_pos; assumption).
    assert (Z : Rabs (B2R s) * Rabs (rsum n (fun j => (fval q j - image (B2R s) j) * fval m j)) * fnrm n (fval d) <= S * ((53 * S * u * V) * (9 / 8)) * (9 / 8)).
    { apply Rmult_le_compat; [apply Rmult_le_pos; apply Rabs_pos|apply fnrm_pos|exact Y|exact Nd]. }
    assert (S * u * V <= S * (S * u * V)) by nra. lra. }
  set (dm := rsum n (fun i => fval d i * fval m i)).
  assert (E4 : fnrm n (fun i => rshear n (- B2R s) (fval o) (fval d) (fval m) (image (B2R s)) i - fval p i) <= 3 * (S * S * Rabs dm * V)).
  { rewrite (fnrm_ext n _ (fun i => - (B2R s * B2R s * rsum n (fun j => (fval p j - fval o j) * fval m j) * dm) * fval d i)) by (intros; apply rshear_back).
    rewrite fnrm_scale, Rabs_Ropp, !Rabs_mult.
    assert (G1 : Rabs (rsum n (fun j => (fval p j - fval o j) * fval m j)) <= 2 * V * (9 / 8)).
    { eapply Rle_trans; [apply (fnrm_cs n (fun j => fval p j - fval o j) (fval m))|]. apply Rmult_le_compat; try apply fnrm_pos; [|assumption].
      eapply Rle_trans; [apply (fnrm_tri n (fval p) (fun i => - fval o i))|]. rewrite fnrm_neg. lra. }
    assert (SS : Rabs (B2R s) * Rabs (B2R s) <= S * S) by (apply Rmult_le_compat; try apply Rabs_pos; assumption).
    pose proof (Rabs_pos dm) as D0. pose proof (Rabs_pos (B2R s)) as P0.
    assert (T1 : Rabs (B2R s) * Rabs (B2R s) * Rabs (rsum n (fun j => (fval p j - fval o j) * fval m j)) <= S * S * (2 * V * (9 / 8))).
    { apply Rmult_le_compat; [apply Rmult_le_pos; assumption|apply Rabs_pos|exact SS|exact G1]. }
    assert (T2 : Rabs (B2R s) * Rabs (B2R s) * Rabs (rsum n (fun j => (fval p j - fval o j) * fval m j)) * Rabs dm <= S * S * (2 * V * (9 / 8)) * Rabs dm) by (apply Rmult_le_compat_r; assumption).
    apply Rle_trans with (S * S * (2 * V * (9 / 8)) * Rabs dm * (9 / 8)).
    - apply Rmult_le_compat; [|apply fnrm_pos|exact T2|exact Nd]. repeat apply Rmult_le_pos; try apply Rabs_pos.
    - assert (0 <= S * S * Rabs dm * V) by (repeat apply Rmult_le_pos; lra). lra. }
  pose proof (fnrm_tri3 n _ _ _ _ _ E3 E4) as E34. pose proof (fnrm_tri3 n _ _ _ _ _ E2 E34) as E5.
  eapply Rle_trans; [exact E5|]. fold dm. change (sum n (fun i => fval d i * fval m i)) with dm.
  assert (0 <= S * (S * u * V)) by (apply Rmult_le_pos; lra). fold u. lra.
Qed.

Lemma sf_zero (x : f64) : B2SF x = SpecFloat.S754_zero false -> B2R x = 0.
Proof. intros E. destruct x; try discriminate E; reflexivity. Qed.

Lemma c130_not_exact :
  (exists t p : vec f64 3,
     (forall i, (i < 3)%nat -> is_finite (vat t i) = true /\ is_finite (vat p i) = true) /\ B2R (vat p 0) = 1 /\
     B2R (vat (tr_inverse_apply_point (tr_from_vector t) (tr_apply_point (tr_from_vector t) p)) 0) = 0) /\
  (exists s p : vec f64 3,
     (forall i, (i < 3)%nat -> is_finite (vat s i) = true /\ is_finite (vat p i) = true /\ Bltb (B754_zero false) (vat s i) = true) /\
     Beqb (vat (sc_inverse_apply_point (sc_from_nonuniform_scale s) (sc_apply_point (sc_from_nonuniform_scale s) p)) 0) (vat p 0) = false /\
     vat p 1 = f64_of_Z 6 /\ Bltb (vat p 1) (vat (sc_inverse_apply_point (sc_from_nonuniform_scale s) (sc_apply_point (sc_from_nonuniform_scale s) p)) 1) = true /\
     Bltb (B754_zero false) (vat p 0) = true /\
     B2R (vat (sc_inverse_apply_point (sc_from_nonuniform_scale s) (sc_apply_point (sc_from_nonuniform_scale s) p)) 0) = 0) /\
  (exists (s : f64) (p : vec f64 2),
     is_finite s = true /\ (forall i, (i < 2)%nat -> is_finite (vat p i) = true) /\
     is_nan (vat (sh_apply_point (sh2from_shear_xy s) p) 1) = true).
Proof.
  set (two k := binary_normalize 53 1024 prec64 emax64 mode_NE 1 k false).
  conjs.
  - exists (v3 (two 54%Z) (f64_of_Z 0) (f64_of_Z 0)), (v3 (f64_of_Z 1) (f64_of_Z 2) (f64_of_Z 3)). conjs.
    + intros i Hi. destruct i as [|[|[|i]]]; [| | |lia]; split; vm_compute; reflexivity.
    + exact (proj1 (f64_of_Z_exact 1 ltac:(lia))).
    + apply sf_zero. vm_compute. reflexivity.
  - exists (v3 (two (-600)%Z) (binary_normalize 53 1024 prec64 emax64 mode_NE 3602879701896397 (-55) false) (f64_of_Z 1)),
      (v3 (two (-600)%Z) (f64_of_Z 6) (f64_of_Z 3)). conjs.
    + intros i Hi. destruct i as [|[|[|i]]]; [| | |lia]; conjs; vm_compute; reflexivity.
    + vm_compute; reflexivity.
    + reflexivity.
    + vm_compute; reflexivity.
    + vm_compute; reflexivity.
    + apply sf_zero. vm_compute. reflexivity.
  - exists (two 600%Z), (v2 (f64_of_Z 1) (two 600%Z)). conjs.
    + vm_compute; reflexivity.
    + intros i Hi. destruct i as [|[|i]]; [| |lia]; vm_compute; reflexivity.
    + vm_compute; reflexivity.
Qed.

(** Numbers of the examples: powers of two as bounds. *)
Lemma c130_example :
  let t := v2 (f64_of_Z 3) (f64_of_Z (-7)) in let p := v2 (f64_of_Z 10) (f64_of_Z 2) in
  (forall i, (i < 2)%nat -> is_finite (vat t i) = true /\ is_finite (vat p i) = true /\
     Rabs (B2R (vat p i)) <= bpow radix2 (1024 - 4) /\ Rabs (B2R (vat p i) + B2R (vat t i)) <= bpow radix2 (1024 - 2) /\
     bpow radix2 (2 - 1024) <= Rabs (B2R (vat t i) * B2R (vat p i)) <= bpow radix2 (1024 - 1) /\ B2R (vat t i) <> 0) /\
  axis_of (v2 (f64_of_Z 1) (f64_of_Z 0)) 0 /\ axis_of (v2 (f64_of_Z 0) (f64_of_Z 1)) 1 /\
  bpow radix2 (2 - 1024) <= 100 <= bpow radix2 (1024 - 6) /\
  bpow radix2 (31 - 1024) <= 100 /\ 4 * 3 * 100 <= bpow radix2 (1024 - 31) /\
  rlength 2 (fval (v2 (f64_of_Z 1) (f64_of_Z 0))) <= 9 / 8.
Proof.
  intros t p.
  assert (B1 : 1 <= bpow radix2 10) by (cbn; lra).
  assert (UP : forall z e, (10 <= e)%Z -> z <= 1024 -> z <= bpow radix2 e).
  { intros z e H1 H2. apply Rle_trans with (bpow radix2 10); [cbn; lra|apply bpow_le; exact H1]. }
  assert (DN : forall z e, (e <= 0)%Z -> 1 <= z -> bpow radix2 e <= z).
  { intros z e H1 H2. apply Rle_trans with (bpow radix2 0); [apply bpow_le; exact H1|cbn; lra]. }
  destruct (f64_of_Z_exact 0 ltac:(lia)) as (V0 & F0), (f64_of_Z_exact 1 ltac:(lia)) as (V1 & F1).
  destruct (f64_of_Z_exact 2 ltac:(lia)) as (V2 & F2), (f64_of_Z_exact 3 ltac:(lia)) as (V3 & F3).
  destruct (f64_of_Z_exact 10 ltac:(lia)) as (V10 & F10), (f64_of_Z_exact (-7) ltac:(lia)) as (V7 & F7).
  conjs.
  - intros i Hi. destruct i as [|[|i]]; [| |lia].
    + change (vat t 0) with (f64_of_Z 3). change (vat p 0) with (f64_of_Z 10). rewrite V3, V10. conjs; try assumption; try lra; rewrite Rabs_pos_eq by lra; first [apply UP|apply DN]; lia || lra.
    + change (vat t 1) with (f64_of_Z (-7)). change (vat p 1) with (f64_of_Z 2). rewrite V7, V2. conjs; try assumption; try lra;
        [rewrite Rabs_pos_eq by lra|rewrite Rabs_left by lra|rewrite Rabs_left by lra|rewrite Rabs_left by lra]; first [apply UP|apply DN]; lia || lra.
  - intros [|[|k]] Hk; [| |lia]; cbn [Nat.eqb]; split; assumption.
  - intros [|[|k]] Hk; [| |lia]; cbn [Nat.eqb]; split; assumption.
  - apply DN; [lia|lra].
  - apply UP; [lia|lra].
  - apply DN; [lia|lra].
  - apply Rle_trans with (bpow radix2 11); [cbn; lra|apply bpow_le; lia].
  - unfold rlength. cbn [sum]. unfold fval. change (vat (v2 (f64_of_Z 1) (f64_of_Z 0)) 0) with (f64_of_Z 1). change (vat (v2 (f64_of_Z 1) (f64_of_Z 0)) 1) with (f64_of_Z 0).
    rewrite V0, V1. rnum. replace (0 + 1 * 1 + 0 * 0) with (1 * 1) by ring. rewrite sqrt_square by lra. lra.
Qed.
