(** Proofs of the property theorems about similarities and rotations about an axis in floats (C125). *)

From Coq Require Import List Arith ZArith Lia Reals Lra Psatz.
From Flocq Require Import Core.Core IEEE754.BinarySingleNaN.
From Verif Require Import Base Scalar Spec SpecF SpecRot SpecDrift SpecRigid SpecRotF MVector MMatrix MPoint MReal MFloat MTransform MQuat MRotF
  LBase LVector LMatrix LReal LVectorR LRot LTransformR LFloat LFloatVec LFloatAcc LFloatNormP LFloatP LDrift LDriftM LRigidF LRigidFP LRotFP LDriftP.

Local Open Scope R_scope.

Section Sim.
Context {prec emax : Z} {Hp : Prec_gt_0 prec} {He : Prec_lt_emax prec emax}.
Notation fl := (binary_float prec emax).
Notation u := (bpow radix2 (- prec)).
Hypothesis H24 : (24 <= prec)%Z.
Variable n : nat.
Hypothesis Hn : (n <= 4)%nat.

Lemma tiny_norm V (e : nat -> R) : @wok emax V -> (forall i, (i < n)%nat -> Rabs (e i) <= @ftiny prec emax) -> fnrm n e <= u / 1024 * V.
Proof.
  intros HV H. pose proof (@ftiny_w prec emax _ HV) as T. pose proof (@ftiny_pos prec emax) as T0.
  eapply Rle_trans; [apply (fnrm_bound n e (@ftiny prec emax)); [lra|exact H]|].
  pose proof (sqrt_INR_2 n Hn). pose proof (sqrt_pos (INR n)). nra.
Qed.

(** Families x_i (1 + d_i) + e_i. *)
Lemma round_norm V A (x y : nat -> R) : @wok emax V -> fnrm n x <= A * V ->
  (forall i, (i < n)%nat -> exists d e, Rabs d <= u /\ Rabs e <= @ftiny prec emax /\ y i = x i * (1 + d) + e) ->
  fnrm n (fun i => y i - x i) <= (A + / 1024) * u * V.
Proof.
  intros HV HA H. pose proof (wok_pos _ HV) as V0. pose proof (bpow_gt_0 radix2 (- prec)) as u0.
  assert (D : exists e, (forall i, (i < n)%nat -> Rabs (e i) <= @ftiny prec emax /\ Rabs (y i - x i - e i) <= u * Rabs (x i))).
  { clear HA. induction n as [|m IH].
    - exists (fun _ => 0). intros i Hi. lia.
    - destruct IH as (e & He'); [lia|intros i Hi; apply H; lia|]. destruct (H m ltac:(lia)) as (d & e1 & Hd & He1 & E).
      exists (fun i => if Nat.eqb i m then e1 else e i). intros i Hi. destruct (Nat.eqb_spec i m) as [->|N].
      + split; [exact He1|]. rewrite E. replace (x m * (1 + d) + e1 - x m - e1) with (d * x m) by ring. rewrite Rabs_mult.
        apply Rmult_le_compat_r; [apply Rabs_pos|exact Hd].
      + apply He'. lia. }
  destruct D as (e & D).
  rewrite (fnrm_ext n _ (fun i => (y i - x i - e i) + e i)) by (intros; ring).
  eapply Rle_trans; [apply fnrm_tri|].
  assert (fnrm n e <= u / 1024 * V) by (apply tiny_norm; [exact HV|intros i Hi; apply D; exact Hi]).
  assert (fnrm n (fun i => y i - x i - e i) <= u * fnrm n x).
  { rewrite <- (Rabs_pos_eq u) by lra. rewrite <- fnrm_scale. apply fnrm_le. intros i Hi. rewrite Rabs_mult, (Rabs_pos_eq u) by lra. apply D. exact Hi. }
  assert (u * fnrm n x <= u * (A * V)) by (apply Rmult_le_compat_l; lra). lra.
Qed.

Lemma scale_step V B (p : nat -> fl) (s : fl) : @wok emax V -> (forall i, (i < n)%nat -> is_finite (p i) = true) -> is_finite s = true ->
  fnrm n (fun i => B2R (p i) * B2R s) <= B * V -> B <= 1048576 ->
  vne n V ((B + / 1024) * u) (fun i => nmul (p i) s) (fun i => B2R (p i) * B2R s).
Proof.
  intros HV Fp Fs HB B1. pose proof (wok_pos _ HV) as V0.
  assert (F : forall i, (i < n)%nat -> is_finite (nmul (p i) s) = true).
  { intros i Hi. apply fmul_fin; [apply Fp; exact Hi|exact Fs|].
    eapply Rle_trans; [apply (fnrm_comp n (fun i => B2R (p i) * B2R s) i Hi)|]. pose proof (V_max V HV). nra. }
  split; [exact F|]. apply (round_norm V B (fun i => B2R (p i) * B2R s) (fun i => B2R (nmul (p i) s)) HV HB). intros i Hi. destruct (fmul_err _ _ (F i Hi)) as (d & e & Hd & He' & E).
  exists d, e. rewrite (@funit_eq prec) in Hd. split; [exact Hd|]. split; [exact He'|exact E].
Qed.

Lemma div_step V e B (x : nat -> fl) r (s : fl) : @wok emax V -> B2R s <> 0 -> @wok emax (V / Rabs (B2R s)) -> vne n V e x r -> fnrm n r <= B * V ->
  0 <= e -> B + e <= 1048576 ->
  vne n (V / Rabs (B2R s)) (e + (B + e + / 1024) * u) (fun i => ndiv (x i) s) (fun i => r i / B2R s).
Proof.
  intros HV S0 HW (Fx & Ex) HB e0 B1. pose proof (wok_pos _ HV) as V0. pose proof (wok_pos _ HW) as W0. set (W := V / Rabs (B2R s)) in *.
  pose proof (Rabs_pos_lt _ S0) as A0.
  assert (SC : forall f b, fnrm n f <= b * V -> fnrm n (fun i => f i / B2R s) <= b * W).
  { intros f b H. rewrite (fnrm_ext n _ (fun i => / B2R s * f i)) by (intros; unfold Rdiv; ring).
    rewrite fnrm_scale, Rabs_inv. unfold W. apply Rle_trans with (/ Rabs (B2R s) * (b * V)); [|right; field; lra].
    apply Rmult_le_compat_l; [apply Rlt_le, Rinv_0_lt_compat; exact A0|exact H]. }
  assert (NX : fnrm n (fun i => B2R (x i) / B2R s) <= (B + e) * W).
  { apply SC. pose proof (fnrm_near _ _ _ _ Ex). lra. }
  assert (D : forall i, (i < n)%nat -> is_finite (ndiv (x i) s) = true /\ exists d e, Rabs d <= @funit prec /\ Rabs e <= @ftiny prec emax /\ B2R (ndiv (x i) s) = B2R (x i) / B2R s * (1 + d) + e).
  { intros i Hi. apply fdiv_fin; [apply Fx; exact Hi|exact S0|].
    eapply Rle_trans; [apply (fnrm_comp n (fun i => B2R (x i) / B2R s) i Hi)|]. pose proof (V_max W HW). nra. }
  split; [intros i Hi; apply D; exact Hi|].
  replace ((e + (B + e + / 1024) * u) * W) with ((B + e + / 1024) * u * W + e * W) by ring.
  apply fnrm_tri3 with (fun i => B2R (x i) / B2R s).
  - apply (round_norm W (B + e) (fun i => B2R (x i) / B2R s) (fun i => B2R (ndiv (x i) s)) HW NX). intros i Hi.
    destruct (proj2 (D i Hi)) as (a & b & Ha & Hb & E). exists a, b. rewrite <- (@funit_eq prec). auto.
  - rewrite (fnrm_ext n _ (fun i => (B2R (x i) - r i) / B2R s)) by (intros; unfold Rdiv; ring). apply SC. exact Ex.
Qed.
End Sim.

Lemma t_similarity {prec emax : Z} {Hp : Prec_gt_0 prec} {He : Prec_lt_emax prec emax} (n : nat) (f : similarity (binary_float prec emax) n) (Q : mat R n n)
  (p : vec (binary_float prec emax) n) (V d : R) :
  let u := bpow radix2 (- prec) in let t := fval (iso_translation (sim_isometry f)) in let s := B2R (sim_scale f) in
  (24 <= prec)%Z -> (n <= 4)%nat -> bpow radix2 (31 - emax) <= V <= bpow radix2 (emax - 31) -> 0 <= d <= / 64 ->
  orthonormal_columns Q ->
  (forall j i, (j < n)%nat -> (i < n)%nat -> fnear (mget (iso_rotation (sim_isometry f)) j i) (mget Q j i) d) ->
  (forall i, (i < n)%nat -> is_finite (vat (iso_translation (sim_isometry f)) i) = true) -> rlength n t <= V ->
  is_finite (sim_scale f) = true ->
  (forall i, (i < n)%nat -> is_finite (vat p i) = true) -> rlength n (fun i => fval p i * s) <= V ->
  vfnear (sim_apply_point f p) (rigid Q t (fun i => fval p i * s)) ((4 * d + 23 * u) * V) /\
  (s <> 0 -> bpow radix2 (31 - emax) <= V / Rabs s <= bpow radix2 (emax - 31) ->
    vfnear (sim_inverse_apply_point f (sim_apply_point f p)) (fval p) ((9 * d + 51 * u) * (V / Rabs s))).
Proof.
  intros u t s H24 Hn HV Hd HQ HM Ft Nt Fs Fp Np. subst u. set (u := bpow radix2 (- prec)) in *.
  pose proof (u_small H24 : 0 < u <= / 16777216) as U.
  assert (du : d * u <= / 64 * u) by (apply Rmult_le_compat_r; lra). assert (uu : u * u <= / 16777216 * u) by (apply Rmult_le_compat_r; lra).
  assert (dd : d * d <= / 64 * d) by (apply Rmult_le_compat_r; lra).
  assert (B2 : fnrm n t <= 1 * V) by (rewrite Rmult_1_l; exact Nt).
  assert (B1 : fnrm n (fun i => fval p i * s) <= 1 * V) by (rewrite Rmult_1_l; exact Np).
  pose proof (iso_near n (sim_isometry f) Q V d HQ HM Ft) as NI.
  assert (X : vne n V ((1 + / 1024) * u) (fun i => vat (pmul_s p (sim_scale f)) i) (fun i => fval p i * s)).
  { eapply vne_ext; [apply (scale_step n Hn V 1 (fun i => vat p i) (sim_scale f) HV Fp Fs B1); lra| |reflexivity].
    intros i Hi. unfold pmul_s. rewrite vat_vmul_s by exact Hi. reflexivity. }
  assert (A : vne n V (4 * d + 23 * u) (fun i => vat (sim_apply_point f p) i) (rigid Q t (fun i => fval p i * s))).
  { eapply vne_weak; [exact HV|apply (apply_point_step H24 n Hn V HV (sim_isometry f) Q t d 0 ((1 + / 1024) * u) 1 1 _ _ NI ltac:(lra) X B1 B2)|]; try lra.
    fold u. set (E := (4 * d + 18 * u) * (1 + (1 + / 1024) * u)).
    assert (E1 : E <= 4 * d + 37 / 2 * u) by (unfold E; lra).
    assert (E2 : (1 + 1 + ((1 + / 1024) * u + E) + 0) * u <= 9 / 4 * u) by (apply Rmult_le_compat_r; lra). lra. }
  split; [exact A|]. intros S0 HW.
  assert (L : fnrm n (rigid Q t (fun i => fval p i * s)) <= 2 * V).
  { unfold rigid. eapply Rle_trans; [apply (fnrm_tri n (fun i => rsum n (fun j => mget Q j i * (fval p j * s))) t)|].
    rewrite (fnrm_orth_mul n Q (fun i => fval p i * s) HQ). lra. }
  assert (S : vne n V (4 * d + 27 * u) (fun i => vat (psub (sim_apply_point f p) (iso_translation (sim_isometry f))) i) (fun i => rsum n (fun j => mget Q j i * (fval p j * s)))).
  { eapply vne_ext; [eapply vne_weak; [exact HV|apply (sub_step n V HV (4 * d + 23 * u) 0 2 1 _ _ _ _ A (vne_exact n V _ Ft) L B2)|]| |]; try lra.
    - fold u. lra.
    - intros i Hi. unfold psub. rewrite vat_vsub by exact Hi. reflexivity.
    - intros i Hi. unfold rigid, fval, t. change (sum n ?g) with (rsum n g). unfold fval. ring. }
  assert (I : vne n V (9 * d + 49 * u) (fun i => vat (iso_inverse_apply_point (sim_isometry f) (sim_apply_point f p)) i) (fun i => fval p i * s)).
  { eapply vne_ext; [eapply vne_weak; [exact HV|apply (inv_vector_step H24 n Hn V HV (sim_isometry f) Q t d 0 (4 * d + 27 * u) 1 _ _ NI ltac:(lra) S)|]| |]; try lra.
    - rewrite (fnrm_orth_mul n Q _ HQ). exact B1.
    - fold u. lra.
    - reflexivity.
    - intros i Hi. apply (orth_undo n Q (fun i => fval p i * s) i HQ Hi). }
  enough (D : vne n (V / Rabs s) (9 * d + 51 * u) (fun i => vat (sim_inverse_apply_point f (sim_apply_point f p)) i) (fval p)) by exact D.
  eapply vne_ext; [eapply vne_weak; [exact HW|apply (div_step n Hn V (9 * d + 49 * u) 1 _ _ (sim_scale f) HV S0 HW I B1)|]| |]; try lra.
  - fold u. assert ((1 + (9 * d + 49 * u) + / 1024) * u <= 5 / 4 * u) by (apply Rmult_le_compat_r; lra). lra.
  - intros i Hi. unfold sim_inverse_apply_point, pdiv_s. rewrite vat_vdiv_s by exact Hi. reflexivity.
  - intros i Hi. cbv beta. fold s. field. exact S0.
Qed.

(** A point turned by the matrix of an axis and an angle. *)
Lemma rodrigues_col (a : vec R 3) t j i : (j < 3)%nat -> (i < 3)%nat -> mget (MRot.m3from_axis_angle a t) j i = vat (rodrigues a t (axis3 j)) i.
Proof.
  intros Hj Hi. rewrite <- m3from_axis_angle_rodrigues, vat_mmulv by exact Hi.
  cases3 j Hj; cbv [axis3 delta Nat.eqb v3 sum vat vget fst snd nadd nmul n0 n1 num_R]; ring.
Qed.

Section Turn.
Context {prec emax : Z} {Hp : Prec_gt_0 prec} {He : Prec_lt_emax prec emax}.
Notation fl := (binary_float prec emax).
Notation u := (bpow radix2 (- prec)).

Lemma t_turn (M : mat fl 3 3) (a : vec R 3) (t D V : R) (p : vec fl 3) :
  (24 <= prec)%Z -> @wok emax V -> 0 <= D <= / 8 -> sum 3 (fun i => vat a i * vat a i) = 1 ->
  (forall j i, (j < 3)%nat -> (i < 3)%nat -> fnear (mget M j i) (vat (rodrigues a t (axis3 j)) i) D) ->
  (forall i, (i < 3)%nat -> is_finite (vat p i) = true) -> rlength 3 (fval p) <= V ->
  vfnear (rot_apply_point M p) (fun i => vat (rodrigues a t (v3 (fval p 0) (fval p 1) (fval p 2))) i) ((4 * D + 18 * u) * V).
Proof.
  intros H24 HV HD Ha HM Fp Np. pose proof (u_small H24) as U.
  assert (N : vnorm a = 1).
  { unfold vnorm, vnorm_squared. rewrite vdot_sum. transitivity (sqrt 1); [apply f_equal; exact Ha|apply sqrt_1]. }
  destruct (m3from_axis_angle_rot a t N) as (O & _).
  set (Q := MRot.m3from_axis_angle a t) in *.
  assert (B1 : fnrm 3 (fval p) <= 1 * V) by (rewrite Rmult_1_l; exact Np).
  enough (X : vne 3 V (4 * D + 18 * u) (fun i => vat (rot_apply_point M p) i) (fun i => vat (rodrigues a t (v3 (fval p 0) (fval p 1) (fval p 2))) i)) by exact X.
  eapply vne_ext; [eapply vne_weak; [exact HV|apply (mat_step H24 3 ltac:(lia) V HV (fun j i => mget M j i) Q D (proj1 HD) (proj2 HD) O)|]| |].
  - intros j i Hj Hi. unfold Q. rewrite rodrigues_col by assumption. apply HM; assumption.
  - exact (vne_exact 3 V _ Fp).
  - exact B1.
  - lra.
  - lra.
  - lra.
  - lra.
  - intros i Hi. unfold rot_apply_point, pfrom_vector, pto_vector. rewrite vat_mmulv by exact Hi. reflexivity.
  - intros i Hi. rewrite <- m3from_axis_angle_rodrigues, vat_mmulv by exact Hi. apply sum_ext. intros j Hj.
    cases3 j Hj; reflexivity.
Qed.
End Turn.

(** ** The property theorems *)
Lemma c125_apply :
  forall (prec emax : Z) (Hp : Prec_gt_0 prec) (He : Prec_lt_emax prec emax) (n : nat)
    (f : isometry (binary_float prec emax) n) (Q : mat R n n) (V d : R),
    let u := bpow radix2 (- prec) in let t := fval (iso_translation f) in
    (24 <= prec)%Z -> (n <= 4)%nat -> bpow radix2 (31 - emax) <= V <= bpow radix2 (emax - 31) -> 0 <= d <= / 64 ->
    orthonormal_columns Q ->
    (forall j i, (j < n)%nat -> (i < n)%nat -> fnear (mget (iso_rotation f) j i) (mget Q j i) d) ->
    (forall i, (i < n)%nat -> is_finite (vat (iso_translation f) i) = true) -> rlength n t <= V ->
    forall p : vec (binary_float prec emax) n,
      (forall i, (i < n)%nat -> is_finite (vat p i) = true) -> rlength n (fval p) <= V ->
      vfnear (iso_apply_point f p) (rigid Q t (fval p)) ((4 * d + 21 * u) * V) /\
      vfnear (iso_apply_vector f p) (rigid Q (fun _ => 0) (fval p)) ((4 * d + 18 * u) * V).
Proof.
  intros prec emax Hp He n f Q V d u t H24 Hn HV Hd HQ HM Ft Nt p Fp Np. exact (t_apply n f Q V d H24 Hn HV Hd HQ HM Ft Nt p Fp Np).
Qed.
Lemma c125_round_trip :
  forall (prec emax : Z) (Hp : Prec_gt_0 prec) (He : Prec_lt_emax prec emax) (n : nat)
    (f : isometry (binary_float prec emax) n) (Q : mat R n n) (V d : R),
    let u := bpow radix2 (- prec) in let t := fval (iso_translation f) in
    (24 <= prec)%Z -> (n <= 4)%nat -> bpow radix2 (31 - emax) <= V <= bpow radix2 (emax - 31) -> 0 <= d <= / 64 ->
    orthonormal_columns Q ->
    (forall j i, (j < n)%nat -> (i < n)%nat -> fnear (mget (iso_rotation f) j i) (mget Q j i) d) ->
    (forall i, (i < n)%nat -> is_finite (vat (iso_translation f) i) = true) -> rlength n t <= V ->
    forall p : vec (binary_float prec emax) n,
      (forall i, (i < n)%nat -> is_finite (vat p i) = true) -> rlength n (fval p) <= V ->
      vfnear (iso_inverse_apply_point f (iso_apply_point f p)) (fval p) ((9 * d + 46 * u) * V) /\
      vfnear (iso_apply_point (iso_inverse f) (iso_apply_point f p)) (fval p) ((17 * d + 82 * u) * V).
Proof.
  intros prec emax Hp He n f Q V d u t H24 Hn HV Hd HQ HM Ft Nt p Fp Np.
  exact (conj (t_round_trip n f Q V d H24 Hn HV Hd HQ HM Ft Nt p Fp Np) (t_inverse n f Q V d H24 Hn HV Hd HQ HM Ft Nt p Fp Np)).
Qed.
Lemma c125_distances :
  forall (prec emax : Z) (Hp : Prec_gt_0 prec) (He : Prec_lt_emax prec emax) (n : nat)
    (f : isometry (binary_float prec emax) n) (Q : mat R n n) (V d : R),
    let u := bpow radix2 (- prec) in let t := fval (iso_translation f) in
    (24 <= prec)%Z -> (n <= 4)%nat -> bpow radix2 (31 - emax) <= V <= bpow radix2 (emax - 31) -> 0 <= d <= / 64 ->
    orthonormal_columns Q ->
    (forall j i, (j < n)%nat -> (i < n)%nat -> fnear (mget (iso_rotation f) j i) (mget Q j i) d) ->
    (forall i, (i < n)%nat -> is_finite (vat (iso_translation f) i) = true) -> rlength n t <= V ->
    forall p q : vec (binary_float prec emax) n,
      (forall i, (i < n)%nat -> is_finite (vat p i) = true) -> rlength n (fval p) <= V ->
      (forall i, (i < n)%nat -> is_finite (vat q i) = true) -> rlength n (fval q) <= V ->
      Rabs (rlength n (fun i => fval (iso_apply_point f p) i - fval (iso_apply_point f q) i) - rlength n (fun i => fval p i - fval q i))
        <= (8 * d + 42 * u) * V.
Proof.
  intros prec emax Hp He n f Q V d u t H24 Hn HV Hd HQ HM Ft Nt p q Fp Np Fq Nq. exact (t_distance n f Q V d H24 Hn HV Hd HQ HM Ft Nt p q Fp Np Fq Nq).
Qed.
Lemma c125_composition :
  forall (prec emax : Z) (Hp : Prec_gt_0 prec) (He : Prec_lt_emax prec emax) (n : nat)
    (f g : isometry (binary_float prec emax) n) (P Q : mat R n n) (V d : R),
    let u := bpow radix2 (- prec) in let s := fval (iso_translation f) in let t := fval (iso_translation g) in
    (24 <= prec)%Z -> (34 <= emax)%Z -> (n <= 4)%nat -> bpow radix2 (31 - emax) <= V <= bpow radix2 (emax - 31) -> 0 <= d <= / 64 ->
    orthonormal_columns P -> orthonormal_columns Q ->
    (forall j i, (j < n)%nat -> (i < n)%nat ->
       fnear (mget (iso_rotation f) j i) (mget P j i) d /\ fnear (mget (iso_rotation g) j i) (mget Q j i) d) ->
    (forall i, (i < n)%nat -> is_finite (vat (iso_translation f) i) = true /\ is_finite (vat (iso_translation g) i) = true) ->
    rlength n s <= V -> rlength n t <= V ->
    forall p : vec (binary_float prec emax) n,
      (forall i, (i < n)%nat -> is_finite (vat p i) = true) -> rlength n (fval p) <= V ->
      vfnear (iso_apply_point (iso_mul f g) p) (rigid P s (rigid Q t (fval p))) ((33 * d + 122 * u) * V) /\
      vfnear (iso_apply_point f (iso_apply_point g p)) (rigid P s (rigid Q t (fval p))) ((13 * d + 65 * u) * V).
Proof.
  intros prec emax Hp He n f g P Q V d u s t H24 H34 Hn HV Hd HP HQ HM HF Ns Nt p Fp Np.
  apply (t_compose n f g P Q V d H24 Hn HV H34 Hd HP HQ); try assumption.
  - intros j i Hj Hi. apply (HM j i Hj Hi).
  - intros j i Hj Hi. apply (HM j i Hj Hi).
  - intros i Hi. apply (HF i Hi).
  - intros i Hi. apply (HF i Hi).
Qed.
Lemma c125_similarity :
  forall (prec emax : Z) (Hp : Prec_gt_0 prec) (He : Prec_lt_emax prec emax) (n : nat)
    (f : similarity (binary_float prec emax) n) (Q : mat R n n) (p : vec (binary_float prec emax) n) (V d : R),
    let u := bpow radix2 (- prec) in let t := fval (iso_translation (sim_isometry f)) in let s := B2R (sim_scale f) in
    (24 <= prec)%Z -> (n <= 4)%nat -> bpow radix2 (31 - emax) <= V <= bpow radix2 (emax - 31) -> 0 <= d <= / 64 ->
    orthonormal_columns Q ->
    (forall j i, (j < n)%nat -> (i < n)%nat -> fnear (mget (iso_rotation (sim_isometry f)) j i) (mget Q j i) d) ->
    (forall i, (i < n)%nat -> is_finite (vat (iso_translation (sim_isometry f)) i) = true) -> rlength n t <= V ->
    is_finite (sim_scale f) = true ->
    (forall i, (i < n)%nat -> is_finite (vat p i) = true) -> rlength n (fun i => fval p i * s) <= V ->
    vfnear (sim_apply_point f p) (rigid Q t (fun i => fval p i * s)) ((4 * d + 23 * u) * V) /\
    (s <> 0 -> bpow radix2 (31 - emax) <= V / Rabs s <= bpow radix2 (emax - 31) ->
      vfnear (sim_inverse_apply_point f (sim_apply_point f p)) (fval p) ((9 * d + 51 * u) * (V / Rabs s))).
Proof.
  intros. apply t_similarity; assumption.
Qed.
Lemma c125_turn_about_axis :
  forall (prec emax : Z) (Hp : Prec_gt_0 prec) (He : Prec_lt_emax prec emax)
    (sine cosine : binary_float prec emax -> binary_float prec emax)
    (axis : vec (binary_float prec emax) 3) (angle : binary_float prec emax) (a : vec R 3) (t d V : R),
    let u := bpow radix2 (- prec) in
    (24 <= prec)%Z -> (34 <= emax)%Z -> bpow radix2 (31 - emax) <= V <= bpow radix2 (emax - 31) -> 0 <= d <= / 512 ->
    sum 3 (fun i => vat a i * vat a i) = 1 ->
    (forall i, (i < 3)%nat -> fnear (vat axis i) (vat a i) d) ->
    fnear (sine angle) (sin t) d -> fnear (cosine angle) (cos t) d ->
    forall p : vec (binary_float prec emax) 3,
      (forall i, (i < 3)%nat -> is_finite (vat p i) = true) -> rlength 3 (fval p) <= V ->
      vfnear (rot_apply_point (gm3from_axis_angle sine cosine axis angle) p)
        (fun i => vat (rodrigues a t (v3 (fval p 0) (fval p 1) (fval p 2))) i) ((32 * d + 78 * u) * V).
Proof.
  intros prec emax Hp He sine cosine axis angle a t d V u H24 H34 HV Hd Ha HA HS HC p Fp Np.
  pose proof (u_small H24 : 0 < u <= / 16777216) as U.
  replace (32 * d + 78 * u) with (4 * (8 * d + 15 * u) + 18 * u) by ring.
  apply (t_turn _ a t (8 * d + 15 * u) V p H24 HV); try assumption; [lra|].
  apply c124_axis_angle_matrix; assumption || lra.
Qed.
Lemma c125_turn_by_quaternion :
  forall (prec emax : Z) (Hp : Prec_gt_0 prec) (He : Prec_lt_emax prec emax)
    (sine cosine : binary_float prec emax -> binary_float prec emax)
    (axis : vec (binary_float prec emax) 3) (angle : binary_float prec emax) (a : vec R 3) (t d V : R),
    let u := bpow radix2 (- prec) in
    (24 <= prec)%Z -> (34 <= emax)%Z -> bpow radix2 (31 - emax) <= V <= bpow radix2 (emax - 31) -> 0 <= d <= / 512 ->
    sum 3 (fun i => vat a i * vat a i) = 1 ->
    (forall i, (i < 3)%nat -> fnear (vat axis i) (vat a i) d) ->
    let half : binary_float prec emax := nmul angle (ndiv n1 (nadd n1 n1)) in
    fnear (sine half) (sin (t / 2)) d -> fnear (cosine half) (cos (t / 2)) d ->
    forall p : vec (binary_float prec emax) 3,
      (forall i, (i < 3)%nat -> is_finite (vat p i) = true) -> rlength 3 (fval p) <= V ->
      vfnear (rot_apply_point (qto_matrix (gqfrom_axis_angle sine cosine axis angle)) p)
        (fun i => vat (rodrigues a t (v3 (fval p 0) (fval p 1) (fval p 2))) i) ((144 * d + 434 * u) * V).
Proof.
  intros prec emax Hp He sine cosine axis angle a t d V u H24 H34 HV Hd Ha HA half HS HC p Fp Np.
  pose proof (u_small H24 : 0 < u <= / 16777216) as U.
  replace (144 * d + 434 * u) with (4 * (36 * d + 104 * u) + 18 * u) by ring.
  apply (t_turn _ a t (36 * d + 104 * u) V p H24 HV); try assumption; [lra|].
  apply c124_axis_angle_quaternion_matrix; assumption || lra.
Qed.
Lemma c125_example :
  let c : f64 := ndiv (f64_of_Z 3) (f64_of_Z 5) in let s : f64 := ndiv (f64_of_Z 4) (f64_of_Z 5) in
  let a : mat f64 2 2 := v2 (v2 c s) (v2 (nneg s) c) in
  let q : mat R 2 2 := v2 (v2 (3 / 5)%R (4 / 5)%R) (v2 (- (4 / 5))%R (3 / 5)%R) in
  let t : vec f64 2 := v2 (f64_of_Z 3) (f64_of_Z (-4)) in
  let f : isometry f64 2 := mkIsometry t a in
  orthonormal_columns q /\
  (forall j i, (j < 2)%nat -> (i < 2)%nat -> fnear (mget (iso_rotation f) j i) (mget q j i) (bpow radix2 (- 53))) /\
  (forall i, (i < 2)%nat -> is_finite (vat (iso_translation f) i) = true) /\ rlength 2 (fval (iso_translation f)) = 5%R.
Proof.
  destruct c122_matrix_example as (A & B & _). intros c s a q t f. split; [exact A|]. split; [exact B|].
  destruct (f64_of_Z_exact 3 ltac:(lia)) as (V1 & F1). destruct (f64_of_Z_exact (-4) ltac:(lia)) as (V2 & F2).
  split.
  - intros i Hi. destruct i as [|[|i]]; [exact F1|exact F2|exfalso; lia].
  - change (sqrt (0 + B2R (f64_of_Z 3) * B2R (f64_of_Z 3) + B2R (f64_of_Z (-4)) * B2R (f64_of_Z (-4))) = 5).
    rewrite V1, V2. replace (0 + IZR 3 * IZR 3 + IZR (-4) * IZR (-4)) with (5 * 5) by lra. apply sqrt_square. lra.
Qed.
