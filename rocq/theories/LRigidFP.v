(** Proofs of the property theorems about rigid motions in floats (C125). *)

From Coq Require Import List Arith ZArith Lia Reals Lra Psatz.
From Flocq Require Import Core.Core IEEE754.BinarySingleNaN.
From Verif Require Import Base Scalar Spec SpecF SpecRot SpecDrift SpecRigid MVector MMatrix MPoint MReal MFloat MTransform
  LBase LVector LMatrix LReal LVectorR LRot LTransformR LFloat LFloatVec LFloatAcc LFloatNormP LFloatP LDrift LDriftM LRigidF.

Local Open Scope R_scope.

Lemma orth_undo n (Q : mat R n n) x i : orthonormal_columns Q -> (i < n)%nat ->
  rsum n (fun j => mget (mtranspose Q) j i * rsum n (fun k => mget Q k j * x k)) = x i.
Proof.
  intros H Hi. destruct (orth_pair n Q H) as (O & _).
  transitivity (vat (mmulv (mtranspose Q) (mmulv Q (vtab n x))) i).
  - rewrite vat_mmulv by exact Hi. apply sum_ext. intros j Hj. rewrite vat_mmulv by exact Hj.
    apply f_equal. apply sum_ext. intros k Hk. rewrite vat_vtab by exact Hk. reflexivity.
  - rewrite <- mmulv_mmulv, O, mmulv_1. apply vat_vtab. exact Hi.
Qed.
Lemma rsum_lin n (f x y : nat -> R) : rsum n (fun j => f j * (x j + y j)) = rsum n (fun j => f j * x j) + rsum n (fun j => f j * y j).
Proof. induction n as [|n IH]; [cbn; ring|]. rewrite !rsum_S, IH. ring. Qed.

Section Rigid.
Context {prec emax : Z} {Hp : Prec_gt_0 prec} {He : Prec_lt_emax prec emax}.
Notation fl := (binary_float prec emax).
Notation u := (bpow radix2 (- prec)).
Hypothesis H24 : (24 <= prec)%Z.
Variable n : nat.
Hypothesis Hn : (n <= 4)%nat.
Variable V : R.
Hypothesis HV : @wok emax V.
Notation vn := (vne n V).

Lemma vfnear_vne (x : vec fl n) r e : vn e (fun i => vat x i) r -> vfnear x r (e * V).
Proof. exact (fun h => h). Qed.

(** A float isometry near a real rigid motion with translation [t]. *)
Definition near_iso (f : isometry fl n) (Q : mat R n n) (t : nat -> R) (d e : R) : Prop :=
  orthonormal_columns Q /\ (forall j i, (j < n)%nat -> (i < n)%nat -> fnear (mget (iso_rotation f) j i) (mget Q j i) d) /\
  vn e (fun i => vat (iso_translation f) i) t.

Lemma apply_vector_step f Q t d e' e B (p : vec fl n) r : near_iso f Q t d e' -> 0 <= d <= / 8 ->
  vn e (fun i => vat p i) r -> fnrm n r <= B * V -> 0 <= e -> 1 <= B + e -> B + e <= 1048576 ->
  vn (e + (4 * d + 18 * u) * (B + e)) (fun i => vat (iso_apply_vector f p) i) (fun i => rsum n (fun j => mget Q j i * r j)).
Proof.
  intros (HQ & HM & _) Hd Hp' HB e0 A1 A2.
  eapply vne_ext; [apply (mat_step H24 n Hn V HV (fun j i => mget (iso_rotation f) j i) Q d (proj1 Hd) (proj2 Hd) HQ HM e B _ r Hp' HB e0 A1 A2)| |].
  - intros i Hi. unfold iso_apply_vector, rot_apply_vector. rewrite vat_mmulv by exact Hi. reflexivity.
  - reflexivity.
Qed.
Lemma inv_vector_step f Q t d e' e B (p : vec fl n) r : near_iso f Q t d e' -> 0 <= d <= / 8 ->
  vn e (fun i => vat p i) r -> fnrm n r <= B * V -> 0 <= e -> 1 <= B + e -> B + e <= 1048576 ->
  vn (e + (4 * d + 18 * u) * (B + e)) (fun i => vat (mmulv (rot_inverse (iso_rotation f)) p) i)
    (fun i => rsum n (fun j => mget (mtranspose Q) j i * r j)).
Proof.
  intros (HQ & HM & _) Hd Hp' HB e0 A1 A2.
  eapply vne_ext; [apply (mat_step H24 n Hn V HV (fun j i => mget (iso_rotation f) i j) (mtranspose Q) d (proj1 Hd) (proj2 Hd))| |].
  - apply orth_inverse. exact HQ.
  - intros j i Hj Hi. rewrite mget_mtranspose by assumption. apply HM; assumption.
  - exact Hp'.
  - exact HB.
  - exact e0.
  - exact A1.
  - exact A2.
  - intros i Hi. unfold rot_inverse. rewrite vat_mmulv by exact Hi. apply sum_ext. intros j Hj.
    rewrite mget_mtranspose by assumption. reflexivity.
  - reflexivity.
Qed.
Lemma apply_point_step f Q t d e' e B C (p : vec fl n) r : near_iso f Q t d e' -> 0 <= d <= / 8 ->
  vn e (fun i => vat p i) r -> fnrm n r <= B * V -> fnrm n t <= C * V -> 0 <= e -> 0 <= e' -> 1 <= B + e -> B + e <= 1024 -> C + e' <= 1024 ->
  vn (e + (4 * d + 18 * u) * (B + e) + e' + (B + C + (e + (4 * d + 18 * u) * (B + e)) + e') * u)
    (fun i => vat (iso_apply_point f p) i) (fun i => rsum n (fun j => mget Q j i * r j) + t i).
Proof.
  intros HF Hd Hp' HB HC e0 e'0 A1 A2 A3. pose proof (u_small H24) as U. destruct Hd as (d0 & d8).
  assert (K : 0 <= (4 * d + 18 * u) * (B + e) <= 600).
  { split; [apply Rmult_le_pos; lra|]. apply Rle_trans with (((1 / 2) + 18 * / 16777216) * 1024); [|lra]. apply Rmult_le_compat; lra. }
  eapply vne_ext; [apply (add_step n V HV)| |].
  - apply (apply_vector_step f Q t d e' e B p r); try assumption; try lra.
  - exact (proj2 (proj2 HF)).
  - rewrite (fnrm_orth_mul n Q r (proj1 HF)). exact HB.
  - exact HC.
  - lra.
  - lra.
  - lra.
  - intros i Hi. unfold iso_apply_point, tr_apply_point, padd, rot_apply_point, pfrom_vector, pto_vector.
    rewrite vat_vadd by exact Hi. reflexivity.
  - reflexivity.
Qed.
End Rigid.

Section Thm.
Context {prec emax : Z} {Hp : Prec_gt_0 prec} {He : Prec_lt_emax prec emax}.
Notation fl := (binary_float prec emax).
Notation u := (bpow radix2 (- prec)).
Variables (n : nat) (f : isometry fl n) (Q : mat R n n) (V d : R).
Hypothesis H24 : (24 <= prec)%Z.
Hypothesis Hn : (n <= 4)%nat.
Hypothesis HV : bpow radix2 (31 - emax) <= V <= bpow radix2 (emax - 31).
Hypothesis Hd : 0 <= d <= / 64.
Hypothesis HQ : orthonormal_columns Q.
Hypothesis HM : forall j i, (j < n)%nat -> (i < n)%nat -> fnear (mget (iso_rotation f) j i) (mget Q j i) d.
Hypothesis Ft : forall i, (i < n)%nat -> is_finite (vat (iso_translation f) i) = true.
Hypothesis Nt : rlength n (fval (iso_translation f)) <= V.
Notation t := (fval (iso_translation f)).

Lemma iso_near : near_iso n V f Q t d 0.
Proof. split; [exact HQ|]. split; [exact HM|]. exact (vne_exact n V _ Ft). Qed.

Lemma t_apply (p : vec fl n) : (forall i, (i < n)%nat -> is_finite (vat p i) = true) -> rlength n (fval p) <= V ->
  vne n V (4 * d + 21 * u) (fun i => vat (iso_apply_point f p) i) (rigid Q t (fval p)) /\
  vne n V (4 * d + 18 * u) (fun i => vat (iso_apply_vector f p) i) (rigid Q (fun _ => 0) (fval p)).
Proof.
  intros Fp Np. pose proof (u_small H24) as U.
  assert (B1 : fnrm n (fval p) <= 1 * V) by (rewrite Rmult_1_l; exact Np).
  assert (B2 : fnrm n t <= 1 * V) by (rewrite Rmult_1_l; exact Nt).
  split.
  - eapply vne_weak; [exact HV|apply (apply_point_step H24 n Hn V HV f Q t d 0 0 1 1 p (fval p) iso_near)|]; try lra.
    + exact (vne_exact n V _ Fp).
    + assert (d * u <= / 64 * u) by (apply Rmult_le_compat_r; lra). assert (u * u <= / 16777216 * u) by (apply Rmult_le_compat_r; lra). lra.
  - eapply vne_ext; [eapply vne_weak; [exact HV|apply (apply_vector_step H24 n Hn V HV f Q t d 0 0 1 p (fval p) iso_near)|]| |]; try lra.
    + exact (vne_exact n V _ Fp).
    + reflexivity.
    + intros i Hi. unfold rigid. symmetry. apply Rplus_0_r.
Qed.

Lemma rigid_len (p : vec fl n) : rlength n (fval p) <= V -> fnrm n (rigid Q t (fval p)) <= 2 * V.
Proof.
  intros Np. unfold rigid. eapply Rle_trans; [apply (fnrm_tri n (fun i => rsum n (fun j => mget Q j i * fval p j)) t)|].
  rewrite (fnrm_orth_mul n Q (fval p) HQ). change (fnrm n (fval p)) with (rlength n (fval p)). change (fnrm n t) with (rlength n t). lra.
Qed.

Lemma t_round_trip (p : vec fl n) : (forall i, (i < n)%nat -> is_finite (vat p i) = true) -> rlength n (fval p) <= V ->
  vne n V (9 * d + 46 * u) (fun i => vat (iso_inverse_apply_point f (iso_apply_point f p)) i) (fval p).
Proof.
  intros Fp Np. pose proof (u_small H24) as U. destruct (t_apply p Fp Np) as (A & _).
  assert (B2 : fnrm n t <= 1 * V) by (rewrite Rmult_1_l; exact Nt).
  assert (du : d * u <= / 64 * u) by (apply Rmult_le_compat_r; lra). assert (uu : u * u <= / 16777216 * u) by (apply Rmult_le_compat_r; lra).
  assert (dd : d * d <= / 64 * d) by (apply Rmult_le_compat_r; lra).
  assert (S : vne n V (4 * d + 25 * u) (fun i => vat (psub (iso_apply_point f p) (iso_translation f)) i) (fun i => rsum n (fun j => mget Q j i * fval p j))).
  { eapply vne_ext; [eapply vne_weak; [exact HV|apply (sub_step n V HV (4 * d + 21 * u) 0 2 1 _ _ _ _ A (vne_exact n V _ Ft))|]| |]; try lra.
    - apply rigid_len. exact Np.
    - exact B2.
    - intros i Hi. unfold psub. rewrite vat_vsub by exact Hi. reflexivity.
    - intros i Hi. unfold rigid, fval. change (sum n ?g) with (rsum n g). ring. }
  eapply vne_ext; [eapply vne_weak; [exact HV|apply (inv_vector_step H24 n Hn V HV f Q t d 0 (4 * d + 25 * u) 1 (psub (iso_apply_point f p) (iso_translation f)) (fun i => rsum n (fun j => mget Q j i * fval p j)) iso_near)|]| |]; try lra.
  - exact S.
  - rewrite (fnrm_orth_mul n Q _ HQ), Rmult_1_l. exact Np.
  - reflexivity.
  - intros i Hi. apply orth_undo; assumption.
Qed.

Lemma t_inverse (p : vec fl n) : (forall i, (i < n)%nat -> is_finite (vat p i) = true) -> rlength n (fval p) <= V ->
  vne n V (17 * d + 82 * u) (fun i => vat (iso_apply_point (iso_inverse f) (iso_apply_point f p)) i) (fval p).
Proof.
  intros Fp Np. pose proof (u_small H24) as U. destruct (t_apply p Fp Np) as (A & _).
  assert (B2 : fnrm n t <= 1 * V) by (rewrite Rmult_1_l; exact Nt).
  assert (du : d * u <= / 64 * u) by (apply Rmult_le_compat_r; lra). assert (uu : u * u <= / 16777216 * u) by (apply Rmult_le_compat_r; lra).
  assert (dd : d * d <= / 64 * d) by (apply Rmult_le_compat_r; lra).
  set (t' := fun i => rsum n (fun j => mget (mtranspose Q) j i * - t j)).
  assert (NI : near_iso n V (iso_inverse f) (mtranspose Q) t' d (4 * d + 18 * u)).
  { split; [apply orth_inverse; exact HQ|]. split.
    - intros j i Hj Hi. unfold iso_inverse, iso_from_parts, rot_inverse. cbn [iso_rotation].
      rewrite !mget_mtranspose by assumption. apply HM; assumption.
    - eapply vne_ext; [eapply vne_weak; [exact HV|apply (inv_vector_step H24 n Hn V HV f Q t d 0 0 1 (vneg (iso_translation f)) (fun i => - t i) iso_near)|]| |]; try lra.
      + eapply vne_ext; [apply (neg_step n V 0 _ _ (vne_exact n V _ Ft))| |].
        * intros i Hi. rewrite vat_vneg by exact Hi. reflexivity.
        * reflexivity.
      + rewrite fnrm_neg. exact B2.
      + reflexivity.
      + reflexivity. }
  eapply vne_ext; [eapply vne_weak; [exact HV|apply (apply_point_step H24 n Hn V HV (iso_inverse f) (mtranspose Q) t' d (4 * d + 18 * u) (4 * d + 21 * u) 2 1 (iso_apply_point f p) (rigid Q t (fval p)) NI)|]| |]; try lra.
  - exact A.
  - apply rigid_len. exact Np.
  - unfold t'. rewrite (fnrm_orth_mul n (mtranspose Q) _ (orth_inverse n Q HQ)), fnrm_neg. exact B2.
  - set (E := (4 * d + 18 * u) * (2 + (4 * d + 21 * u))).
    assert (E1 : E <= 33 / 4 * d + 39 * u) by (unfold E; lra).
    assert (E2 : (2 + 1 + (4 * d + 21 * u + E) + (4 * d + 18 * u)) * u <= 7 / 2 * u) by (apply Rmult_le_compat_r; lra). lra.
  - reflexivity.
  - intros i Hi. unfold t'. rewrite <- rsum_lin. etransitivity; [|apply (orth_undo n Q (fval p) i HQ Hi)].
    apply sum_ext. intros j Hj. unfold rigid. change (sum n ?g) with (rsum n g).
    apply f_equal. ring.
Qed.

Lemma rigid_dist (x y : nat -> R) : fnrm n (fun i => rigid Q t x i - rigid Q t y i) = fnrm n (fun i => x i - y i).
Proof.
  rewrite <- (fnrm_orth_mul n Q (fun i => x i - y i) HQ). apply fnrm_ext. intros i Hi. unfold rigid. change (sum n ?g) with (rsum n g).
  replace (rsum n (fun j => mget Q j i * (x j - y j))) with (rsum n (fun j => mget Q j i * x j - mget Q j i * y j)) by (apply sum_ext; intros; ring).
  rewrite <- rsum_minus. ring.
Qed.
Lemma t_distance (p q : vec fl n) : (forall i, (i < n)%nat -> is_finite (vat p i) = true) -> rlength n (fval p) <= V ->
  (forall i, (i < n)%nat -> is_finite (vat q i) = true) -> rlength n (fval q) <= V ->
  Rabs (fnrm n (fun i => fval (iso_apply_point f p) i - fval (iso_apply_point f q) i) - fnrm n (fun i => fval p i - fval q i)) <= (8 * d + 42 * u) * V.
Proof.
  intros Fp Np Fq Nq. destruct (t_apply p Fp Np) as ((_ & A) & _). destruct (t_apply q Fq Nq) as ((_ & B) & _).
  rewrite <- (rigid_dist (fval p) (fval q)).
  set (zp := fval (iso_apply_point f p)) in *. set (zq := fval (iso_apply_point f q)) in *.
  assert (C : fnrm n (fun i => (zp i - zq i) - (rigid Q t (fval p) i - rigid Q t (fval q) i)) <= (8 * d + 42 * u) * V).
  { rewrite (fnrm_ext n _ (fun i => (zp i - rigid Q t (fval p) i) + - (zq i - rigid Q t (fval q) i))) by (intros; ring).
    eapply Rle_trans; [apply fnrm_tri|]. rewrite fnrm_neg. unfold zp, zq, fval in *. lra. }
  pose proof (fnrm_near _ _ _ _ C) as C1. rewrite (fnrm_ext n _ (fun i => - ((rigid Q t (fval p) i - rigid Q t (fval q) i) - (zp i - zq i)))) in C by (intros; ring).
  rewrite fnrm_neg in C. pose proof (fnrm_near _ _ _ _ C) as C2. apply Rabs_le. lra.
Qed.
End Thm.

Section Two.
Context {prec emax : Z} {Hp : Prec_gt_0 prec} {He : Prec_lt_emax prec emax}.
Notation fl := (binary_float prec emax).
Notation u := (bpow radix2 (- prec)).
Variables (n : nat) (f g : isometry fl n) (P Q : mat R n n) (V d : R).
Hypothesis H24 : (24 <= prec)%Z.
Hypothesis Hn : (n <= 4)%nat.
Hypothesis HV : bpow radix2 (31 - emax) <= V <= bpow radix2 (emax - 31).
Hypothesis He34 : (34 <= emax)%Z.
Hypothesis Hd : 0 <= d <= / 64.
Hypothesis HP : orthonormal_columns P.
Hypothesis HQ : orthonormal_columns Q.
Hypothesis HMf : forall j i, (j < n)%nat -> (i < n)%nat -> fnear (mget (iso_rotation f) j i) (mget P j i) d.
Hypothesis HMg : forall j i, (j < n)%nat -> (i < n)%nat -> fnear (mget (iso_rotation g) j i) (mget Q j i) d.
Hypothesis Ff : forall i, (i < n)%nat -> is_finite (vat (iso_translation f) i) = true.
Hypothesis Fg : forall i, (i < n)%nat -> is_finite (vat (iso_translation g) i) = true.
Hypothesis Nf : rlength n (fval (iso_translation f)) <= V.
Hypothesis Ng : rlength n (fval (iso_translation g)) <= V.
Notation s := (fval (iso_translation f)).
Notation t := (fval (iso_translation g)).

(** The composite real motion. *)
Lemma rigid_comp x i : (i < n)%nat ->
  rsum n (fun j => mget (mmul P Q) j i * x j) + (s i + rsum n (fun j => mget P j i * t j)) = rigid P s (rigid Q t x) i.
Proof.
  intros Hi. unfold rigid. change (sum n ?h) with (rsum n h).
  replace (rsum n (fun j => mget P j i * (sum n (fun k => mget Q k j * x k) + t j)))
    with (rsum n (fun j => mget P j i * rsum n (fun k => mget Q k j * x k)) + rsum n (fun j => mget P j i * t j))
    by (rewrite <- rsum_lin; reflexivity).
  replace (rsum n (fun j => mget (mmul P Q) j i * x j)) with (rsum n (fun j => mget P j i * rsum n (fun k => mget Q k j * x k))).
  - ring.
  - transitivity (vat (mmulv P (mmulv Q (vtab n x))) i).
    + rewrite vat_mmulv by exact Hi. apply sum_ext. intros j Hj. rewrite vat_mmulv by exact Hj.
      apply f_equal. apply sum_ext. intros k Hk. rewrite vat_vtab by exact Hk. reflexivity.
    + rewrite <- mmulv_mmulv, vat_mmulv by exact Hi. apply sum_ext. intros j Hj. rewrite vat_vtab by exact Hj. reflexivity.
Qed.

Lemma near_f : near_iso n V f P s d 0.
Proof. apply (iso_near n f P V d); assumption. Qed.
Lemma near_g : near_iso n V g Q t d 0.
Proof. apply (iso_near n g Q V d); assumption. Qed.

Lemma mul_near : near_iso n V (iso_mul f g) (mmul P Q) (fun i => s i + rsum n (fun j => mget P j i * t j)) (7 * d + 19 * u) (4 * d + 21 * u).
Proof.
  pose proof (u_small H24) as U.
  assert (du : d * u <= / 64 * u) by (apply Rmult_le_compat_r; lra). assert (uu : u * u <= / 16777216 * u) by (apply Rmult_le_compat_r; lra).
  assert (dd : d * d <= / 64 * d) by (apply Rmult_le_compat_r; lra).
  split; [apply orth_mul; assumption|]. split.
  - intros j i Hj Hi. unfold iso_mul, iso_from_parts, rot_mul. cbn [iso_rotation].
    assert (W : @wok emax 1).
    { split; [change 1 with (bpow radix2 0); apply bpow_le; lia|change 1 with (bpow radix2 0); apply bpow_le; lia]. }
    assert (C : vne n 1 (2 * d) (fun k => mget (iso_rotation g) j k) (fun k => mget Q j k)).
    { split; [intros k Hk; apply HMg; assumption|]. rewrite Rmult_1_r.
      eapply Rle_trans; [apply (fnrm_bound n _ d (proj1 Hd)); intros k Hk; apply HMg; assumption|].
      apply Rmult_le_compat_r; [lra|apply sqrt_INR_2; exact Hn]. }
    assert (N1 : fnrm n (fun k => mget Q j k) <= 1 * 1).
    { right. rewrite Rmult_1_r. rewrite <- (orth_row_nrm n (mtranspose Q) j (orth_inverse n Q HQ) Hj). apply fnrm_ext. intros k Hk.
      rewrite mget_mtranspose by assumption. reflexivity. }
    pose proof (mat_step H24 n Hn 1 W (fun a b => mget (iso_rotation f) a b) P d ltac:(lra) ltac:(lra) HP HMf (2 * d) 1 _ _ C N1 ltac:(lra) ltac:(lra) ltac:(lra)) as (F & E).
    rewrite !mget_mmul by assumption. split; [exact (F i Hi)|].
    eapply Rle_trans; [apply (fnrm_comp n (fun i => B2R (sum n (fun k => nmul (mget (iso_rotation f) k i) (mget (iso_rotation g) j k))) - rsum n (fun k => mget P k i * mget Q j k)) i Hi)|].
    eapply Rle_trans; [exact E|]. lra.
  - assert (B2 : fnrm n t <= 1 * V) by (rewrite Rmult_1_l; exact Ng).
    assert (B3 : fnrm n s <= 1 * V) by (rewrite Rmult_1_l; exact Nf).
    eapply vne_ext; [eapply vne_weak; [exact HV|apply (add_step n V HV 0 (4 * d + 18 * u) 1 1 (fun i => vat (iso_translation f) i) (fun i => vat (iso_apply_vector f (iso_translation g)) i) s (fun i => rsum n (fun j => mget P j i * t j)))|]| |]; try lra.
    + exact (vne_exact n V _ Ff).
    + eapply vne_weak; [exact HV|apply (apply_vector_step H24 n Hn V HV f P s d 0 0 1 (iso_translation g) t near_f)|]; try lra.
      exact (vne_exact n V _ Fg).
    + rewrite (fnrm_orth_mul n P t HP). exact B2.
    + intros i Hi. unfold iso_mul, iso_from_parts, tr_from_vector. cbn [iso_translation]. rewrite vat_vadd by exact Hi. reflexivity.
    + reflexivity.
Qed.

Lemma t_compose (p : vec fl n) : (forall i, (i < n)%nat -> is_finite (vat p i) = true) -> rlength n (fval p) <= V ->
  vne n V (33 * d + 122 * u) (fun i => vat (iso_apply_point (iso_mul f g) p) i) (rigid P s (rigid Q t (fval p))) /\
  vne n V (13 * d + 65 * u) (fun i => vat (iso_apply_point f (iso_apply_point g p)) i) (rigid P s (rigid Q t (fval p))).
Proof.
  intros Fp Np. pose proof (u_small H24) as U.
  assert (du : d * u <= / 64 * u) by (apply Rmult_le_compat_r; lra). assert (uu : u * u <= / 16777216 * u) by (apply Rmult_le_compat_r; lra).
  assert (dd : d * d <= / 64 * d) by (apply Rmult_le_compat_r; lra).
  assert (B1 : fnrm n (fval p) <= 1 * V) by (rewrite Rmult_1_l; exact Np).
  assert (B2 : fnrm n t <= 1 * V) by (rewrite Rmult_1_l; exact Ng).
  assert (B3 : fnrm n s <= 1 * V) by (rewrite Rmult_1_l; exact Nf).
  split.
  - eapply vne_ext; [eapply vne_weak; [exact HV|apply (apply_point_step H24 n Hn V HV (iso_mul f g) (mmul P Q) _ (7 * d + 19 * u) (4 * d + 21 * u) 0 1 2 p (fval p) mul_near)|]| |]; try lra.
    + exact (vne_exact n V _ Fp).
    + eapply Rle_trans; [apply fnrm_tri|]. rewrite (fnrm_orth_mul n P t HP). lra.
    + reflexivity.
    + intros i Hi. apply rigid_comp. exact Hi.
  - destruct (t_apply n g Q V d H24 Hn HV Hd HQ HMg Fg Ng p Fp Np) as (A & _).
    eapply vne_ext; [eapply vne_weak; [exact HV|apply (apply_point_step H24 n Hn V HV f P s d 0 (4 * d + 21 * u) 2 1 (iso_apply_point g p) (rigid Q t (fval p)) near_f)|]| |]; try lra.
    + exact A.
    + apply (rigid_len n g Q V HQ Ng p Np).
    + set (E := (4 * d + 18 * u) * (2 + (4 * d + 21 * u))).
      assert (E1 : E <= 33 / 4 * d + 39 * u) by (unfold E; lra).
      assert (E2 : (2 + 1 + (4 * d + 21 * u + E) + 0) * u <= 7 / 2 * u) by (apply Rmult_le_compat_r; lra). lra.
    + reflexivity.
    + reflexivity.
Qed.
End Two.
