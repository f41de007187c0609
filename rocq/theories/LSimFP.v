(** The theorems about composing and inverting similarities in floats (C157). *)

From Coq Require Import List Arith ZArith Lia Reals Lra Psatz.
From Flocq Require Import Core.Core IEEE754.BinarySingleNaN.
From Verif Require Import Base Scalar Spec SpecF SpecRot SpecDrift SpecRigid MVector MMatrix MPoint MReal MFloat MTransform
  LBase LVector LMatrix LTransform LReal LVectorR LRot LTransformR LFloat LFloatVec LFloatAcc LFloatNormP LFloatP LDrift LDriftM LTrScF LRigidF LRigidFP LRigidGP LSimF.
Local Open Scope R_scope.

Section M.
Context {prec emax : Z} {Hp : Prec_gt_0 prec} {He : Prec_lt_emax prec emax}.
Notation fl := (binary_float prec emax).
Notation u := (bpow radix2 (- prec)).
Lemma zero_len n V : 0 < V -> (forall i, (i < n)%nat -> is_finite (vat (vzero n : vec fl n) i) = true) /\ rlength n (fval (vzero n : vec fl n)) <= V.
Proof.
  intros P. split; [intros i Hi; rewrite vat_vzero by exact Hi; reflexivity|].
  assert (Z : fnrm n (fval (vzero n : vec fl n)) = 0); [|unfold fnrm, rsum in Z; unfold rlength; rewrite Z; lra].
  rewrite (fnrm_ext n _ (fun i => 0 * 0)); [rewrite (fnrm_scale n 0 (fun _ => 0)), Rabs_R0; ring|]. intros i Hi. unfold fval. rewrite vat_vzero by exact Hi. cbn. ring.
Qed.
Lemma rot_near n (a b : mat fl n n) (P Q : mat R n n) d : (24 <= prec)%Z -> (34 <= emax)%Z -> (n <= 4)%nat -> 0 <= d <= / 64 -> orthonormal_columns P -> orthonormal_columns Q ->
  (forall j i, (j < n)%nat -> (i < n)%nat -> fnear (mget a j i) (mget P j i) d) -> (forall j i, (j < n)%nat -> (i < n)%nat -> fnear (mget b j i) (mget Q j i) d) ->
  orthonormal_columns (mmul P Q) /\ forall j i, (j < n)%nat -> (i < n)%nat -> fnear (mget (rot_mul a b) j i) (mget (mmul P Q) j i) (7 * d + 19 * u).
Proof.
  intros H24 E34 Hn Hd HP HQ HA HB. assert (W : bpow radix2 (31 - emax) <= 1 <= bpow radix2 (emax - 31)) by (change 1 with (bpow radix2 0); split; apply bpow_le; lia).
  destruct (zero_len n 1 Rlt_0_1) as (Z1 & Z2).
  destruct (mul_near n (mkIsometry (vzero n) a) (mkIsometry (vzero n) b) P Q 1 d H24 Hn W E34 Hd HP HQ HA HB Z1 Z1 Z2 Z2) as (M1 & M2 & _).
  split; [exact M1|exact M2].
Qed.
End M.

Lemma rsum_scal n c (f : nat -> R) : c * rsum n f = rsum n (fun j => c * f j).
Proof. induction n as [|n IH]; [cbn; ring|]. rewrite !rsum_S, <- IH. ring. Qed.
(** The composite real motion. *)
Lemma rigid_comp_gen n (P Q : mat R n n) (s t x : nat -> R) i : (i < n)%nat ->
  rsum n (fun j => mget (mmul P Q) j i * x j) + (s i + rsum n (fun j => mget P j i * t j)) = rigid P s (rigid Q t x) i.
Proof.
  intros Hi. unfold rigid. change (sum n ?h) with (rsum n h).
  replace (rsum n (fun j => mget P j i * (sum n (fun k => mget Q k j * x k) + t j)))
    with (rsum n (fun j => mget P j i * rsum n (fun k => mget Q k j * x k)) + rsum n (fun j => mget P j i * t j))
    by (rewrite <- rsum_lin; reflexivity).
  replace (rsum n (fun j => mget (mmul P Q) j i * x j)) with (rsum n (fun j => mget P j i * rsum n (fun k => mget Q k j * x k))).
  - ring.
  - transitivity (vat (mmulv P (mmulv Q (vtab n x))) i).
    + rewrite vat_mmulv by exact Hi. apply sum_ext. intros j Hj. rewrite vat_mmulv by exact Hj.
      apply f_equal. apply sum_ext. intros k Hk. rewrite vat_vtab by exact Hk. reflexivity.
    + rewrite <- mmulv_mmulv, vat_mmulv by exact Hi. apply sum_ext. intros j Hj. rewrite vat_vtab by exact Hj. reflexivity.
Qed.

Theorem c157_composition :
  forall (prec emax : Z) (Hp : Prec_gt_0 prec) (He : Prec_lt_emax prec emax) (n : nat)
    (f g : similarity (binary_float prec emax) n) (P Q : mat R n n) (p : vec (binary_float prec emax) n) (V W X d : R),
    let u := bpow radix2 (- prec) in let inr x := bpow radix2 (31 - emax) <= x <= bpow radix2 (emax - 31) in
    let t := fval (iso_translation (sim_isometry f)) in let t' := fval (iso_translation (sim_isometry g)) in let s := B2R (sim_scale f) in let s' := B2R (sim_scale g) in
    (24 <= prec)%Z -> (34 <= emax)%Z -> (n <= 4)%nat -> inr V -> inr W -> 0 < X -> inr (Rabs (s * s')) -> 0 <= d <= / 64 ->
    orthonormal_columns P -> orthonormal_columns Q ->
    (forall j i, (j < n)%nat -> (i < n)%nat -> fnear (mget (iso_rotation (sim_isometry f)) j i) (mget P j i) d /\ fnear (mget (iso_rotation (sim_isometry g)) j i) (mget Q j i) d) ->
    is_finite (sim_scale f) = true -> is_finite (sim_scale g) = true ->
    (forall i, (i < n)%nat -> is_finite (vat (iso_translation (sim_isometry f)) i) = true /\ is_finite (vat (iso_translation (sim_isometry g)) i) = true /\ is_finite (vat p i) = true) ->
    rlength n t <= V -> rlength n t' <= W -> W * Rabs s <= V -> rlength n (fval p) <= X -> X * Rabs (s * s') <= V ->
    vfnear (sim_apply_point (sim_mul f g) p) (rigid P t (fun i => s * rigid Q t' (fun k => s' * fval p k) i)) ((32 * d + 125 * u) * V).
Proof.
  intros prec emax Hp He n f g P Q p V W X d u inr t t' s s' H24 E34 Hn HV HW X0 WS Hd HP HQ HM Fs Fs' HF Nt Nt' WV Np XV.
  pose proof (u_small H24 : 0 < u <= / 16777216) as U. pose proof (wok_pos _ HV) as V0. pose proof (wok_pos _ HW) as W0.
  assert (du : d * u <= / 64 * u) by (apply Rmult_le_compat_r; lra). assert (uu : u * u <= / 16777216 * u) by (apply Rmult_le_compat_r; lra).
  assert (HA : forall j i, (j < n)%nat -> (i < n)%nat -> fnear (mget (iso_rotation (sim_isometry f)) j i) (mget P j i) d) by (intros; apply HM; assumption).
  assert (HB : forall j i, (j < n)%nat -> (i < n)%nat -> fnear (mget (iso_rotation (sim_isometry g)) j i) (mget Q j i) d) by (intros; apply HM; assumption).
  assert (Ft : forall i, (i < n)%nat -> is_finite (vat (iso_translation (sim_isometry f)) i) = true) by (intros i Hi; apply (HF i Hi)).
  assert (Ft' : forall i, (i < n)%nat -> is_finite (vat (iso_translation (sim_isometry g)) i) = true) by (intros i Hi; apply (HF i Hi)).
  assert (Fp : forall i, (i < n)%nat -> is_finite (vat p i) = true) by (intros i Hi; apply (HF i Hi)).
  destruct (rot_near n _ _ P Q d H24 E34 Hn Hd HP HQ HA HB) as (R1 & R2).
  assert (B1 : fnrm n t <= 1 * V) by (rewrite Rmult_1_l; exact Nt). assert (B2 : fnrm n t' <= 1 * W) by (rewrite Rmult_1_l; exact Nt'). assert (B3 : fnrm n (fval p) <= 1 * X) by (rewrite Rmult_1_l; exact Np).
  (* the shifted translation *)
  assert (S1 : vne n W (4 * d + 18 * u) (fun i => vat (rot_apply_vector (iso_rotation (sim_isometry f)) (iso_translation (sim_isometry g))) i) (fun i => rsum n (fun j => mget P j i * t' j))).
  { eapply vne_weak; [exact HW|apply (apply_vector_step H24 n Hn W HW (mkIsometry (vzero n) (iso_rotation (sim_isometry f))) P (fval (vzero n : vec (binary_float prec emax) n)) d 0 0 1 (iso_translation (sim_isometry g)) t')|]; try lra.
    - split; [exact HP|]. split; [exact HA|]. apply (vne_exact n W (fun i => vat (vzero n : vec (binary_float prec emax) n) i)). apply (zero_len n 1 Rlt_0_1).
    - exact (vne_exact n W _ Ft').
    - fold u. lra. }
  assert (N1 : fnrm n (fun i => rsum n (fun j => mget P j i * t' j)) <= 1 * W) by (rewrite (fnrm_orth_mul n P t' HP); exact B2).
  assert (SX : Rabs (B2R (sim_scale f) - s) <= 9 / 8 * u * Rabs s) by (unfold s; rewrite Rminus_eq_0, Rabs_R0; pose proof (Rabs_pos (B2R (sim_scale f))); apply Rmult_le_pos; lra).
  assert (S2 : vne n V (4 * d + 83 / 4 * u) (fun i => nmul (vat (rot_apply_vector (iso_rotation (sim_isometry f)) (iso_translation (sim_isometry g))) i) (sim_scale f)) (fun i => rsum n (fun j => mget P j i * t' j) * s)).
  { eapply vne_weak; [exact HV|apply (mul_step H24 n Hn W V (4 * d + 18 * u) 1 _ _ (sim_scale f) s HV W0 WV Fs SX S1 N1)|]; try lra. fold u.
    assert ((5 / 2 * (1 + (4 * d + 18 * u)) + / 512) * u <= 11 / 4 * u) by (apply Rmult_le_compat_r; lra). lra. }
  assert (N2 : fnrm n (fun i => rsum n (fun j => mget P j i * t' j) * s) <= 1 * V).
  { rewrite (fnrm_ext n _ (fun i => s * rsum n (fun j => mget P j i * t' j))) by (intros; ring). rewrite fnrm_scale. apply Rle_trans with (Rabs s * (1 * W)); [apply Rmult_le_compat_l; [apply Rabs_pos|exact N1]|lra]. }
  assert (S3 : vne n V (4 * d + 23 * u) (fun i => vat (iso_translation (sim_isometry (sim_mul f g))) i) (fun i => t i + rsum n (fun j => mget P j i * t' j) * s)).
  { eapply vne_ext; [eapply vne_weak; [exact HV|apply (add_step n V HV 0 (4 * d + 83 / 4 * u) 1 1 _ _ _ _ (vne_exact n V _ Ft) S2 B1 N2)|]| |]; try lra.
    - fold u. assert ((1 + 1 + 0 + (4 * d + 83 / 4 * u)) * u <= 17 / 8 * u) by (apply Rmult_le_compat_r; lra). lra.
    - intros i Hi. unfold sim_mul, sim_mul_iso, sim_from_parts, iso_from_parts, tr_from_vector. cbn [sim_isometry iso_translation]. rewrite vat_vadd, vat_vmul_s by exact Hi. reflexivity.
    - reflexivity. }
  assert (N3 : fnrm n (fun i => t i + rsum n (fun j => mget P j i * t' j) * s) <= 2 * V) by (eapply Rle_trans; [apply fnrm_tri|]; lra).
  (* the scaled point *)
  destruct (rel_mul n Hn (sim_scale f) (sim_scale g) Fs Fs' WS) as (Fm & Em).
  assert (S4 : vne n V (0 + (5 / 2 * (1 + 0) + / 512) * u) (fun i => vat (pmul_s p (sim_scale (sim_mul f g))) i) (fun i => fval p i * (s * s'))).
  { eapply vne_ext; [apply (mul_step H24 n Hn X V 0 1 _ _ (nmul (sim_scale f) (sim_scale g)) (s * s') HV X0 XV Fm Em (vne_exact n X _ Fp) B3); lra| |reflexivity].
    intros i Hi. unfold pmul_s. rewrite vat_vmul_s by exact Hi. reflexivity. }
  assert (N4 : fnrm n (fun i => fval p i * (s * s')) <= 1 * V).
  { rewrite (fnrm_ext n _ (fun i => (s * s') * fval p i)) by (intros; ring). rewrite fnrm_scale. apply Rle_trans with (Rabs (s * s') * (1 * X)); [apply Rmult_le_compat_l; [apply Rabs_pos|exact B3]|lra]. }
  enough (G : vne n V (32 * d + 125 * u) (fun i => vat (sim_apply_point (sim_mul f g) p) i) (rigid P t (fun i => s * rigid Q t' (fun k => s' * fval p k) i))) by exact G.
  eapply vne_ext; [eapply vne_weak; [exact HV|apply (apply_point_step H24 n Hn V HV (sim_isometry (sim_mul f g)) (mmul P Q) _ (7 * d + 19 * u) (4 * d + 23 * u) (0 + (5 / 2 * (1 + 0) + / 512) * u) 1 2 _ _ (conj R1 (conj R2 S3)) ltac:(lra) S4 N4 N3)|]| |]; try lra.
  - fold u. set (E := (4 * (7 * d + 19 * u) + 18 * u) * (1 + (0 + (5 / 2 * (1 + 0) + / 512) * u))).
    assert (E1 : E <= 28 * d + 381 / 4 * u) by (unfold E; lra).
    assert (E2 : (1 + 2 + (0 + (5 / 2 * (1 + 0) + / 512) * u + E) + (4 * d + 23 * u)) * u <= 15 / 4 * u) by (apply Rmult_le_compat_r; lra). lra.
  - reflexivity.
  - intros i Hi. cbv beta.
    transitivity (rsum n (fun j => mget (mmul P Q) j i * (s * s' * fval p j)) + (t i + rsum n (fun j => mget P j i * (s * t' j)))).
    { f_equal; [apply sum_ext; intros j Hj; ring|]. f_equal. rewrite Rmult_comm, rsum_scal. apply sum_ext. intros j Hj. ring. }
    rewrite (rigid_comp_gen n P Q t (fun j => s * t' j) (fun j => s * s' * fval p j) i Hi).
    unfold rigid. f_equal. apply sum_ext. intros j Hj. f_equal. rewrite Rmult_plus_distr_l. f_equal. change (sum n ?h) with (rsum n h). rewrite rsum_scal. apply sum_ext. intros k Hk. ring.
Qed.

Theorem c157_inverse :
  forall (prec emax : Z) (Hp : Prec_gt_0 prec) (He : Prec_lt_emax prec emax) (n : nat)
    (f : similarity (binary_float prec emax) n) (Q : mat R n n) (p : vec (binary_float prec emax) n) (V d : R),
    let u := bpow radix2 (- prec) in let inr x := bpow radix2 (31 - emax) <= x <= bpow radix2 (emax - 31) in
    let t := fval (iso_translation (sim_isometry f)) in let s := B2R (sim_scale f) in
    (24 <= prec)%Z -> (n <= 4)%nat -> inr V -> inr (Rabs s) -> inr (V / Rabs s) -> 0 <= d <= / 64 ->
    orthonormal_columns Q ->
    (forall j i, (j < n)%nat -> (i < n)%nat -> fnear (mget (iso_rotation (sim_isometry f)) j i) (mget Q j i) d) ->
    (forall i, (i < n)%nat -> is_finite (vat (iso_translation (sim_isometry f)) i) = true /\ is_finite (vat p i) = true) -> is_finite (sim_scale f) = true ->
    rlength n t <= V -> rlength n (fun i => fval p i * s) <= V ->
    exists g, sim_inverse f = Some g /\ vfnear (sim_apply_point g (sim_apply_point f p)) (fval p) ((17 * d + 93 * u) * (V / Rabs s)).
Proof.
  intros prec emax Hp He n f Q p V d u inr t s H24 Hn HV HS HW Hd HQ HM HF Fs Nt Np.
  pose proof (u_small H24 : 0 < u <= / 16777216) as U. pose proof (wok_pos _ HV) as V0. pose proof (wok_pos _ HW) as W0. pose proof (wok_pos _ HS) as A0. set (W := V / Rabs s) in *.
  assert (S0 : s <> 0) by (intros Z; rewrite Z, Rabs_R0 in A0; lra).
  assert (du : d * u <= / 64 * u) by (apply Rmult_le_compat_r; lra). assert (uu : u * u <= / 16777216 * u) by (apply Rmult_le_compat_r; lra). assert (dd : d * d <= / 64 * d) by (apply Rmult_le_compat_r; lra).
  assert (Ft : forall i, (i < n)%nat -> is_finite (vat (iso_translation (sim_isometry f)) i) = true) by (intros i Hi; apply (HF i Hi)).
  assert (Fp : forall i, (i < n)%nat -> is_finite (vat p i) = true) by (intros i Hi; apply (HF i Hi)).
  assert (B2 : fnrm n t <= 1 * V) by (rewrite Rmult_1_l; exact Nt). assert (B1 : fnrm n (fun i => fval p i * s) <= 1 * V) by (rewrite Rmult_1_l; exact Np).
  pose proof (proj1 (t_similarity n f Q p V d H24 Hn HV Hd HQ HM Ft Nt Fs Fp Np)) as A.
  assert (A' : vne n V (4 * d + 23 * u) (fun i => vat (sim_apply_point f p) i) (rigid Q t (fun i => fval p i * s))) by exact A. clear A.
  assert (L : fnrm n (rigid Q t (fun i => fval p i * s)) <= 2 * V).
  { unfold rigid. eapply Rle_trans; [apply (fnrm_tri n (fun i => rsum n (fun j => mget Q j i * (fval p j * s))) t)|]. rewrite (fnrm_orth_mul n Q (fun i => fval p i * s) HQ). lra. }
  destruct (rel_inv n Hn (sim_scale f) Fs HS) as (Fr & Er). fold s in Er. assert (WV : V * Rabs (/ s) <= W) by (rewrite Rabs_inv; unfold W, Rdiv; lra).
  set (r := ndiv n1 (sim_scale f)) in *. set (q := sim_apply_point f p) in *.
  set (g := mkSimilarity (mkIsometry (vmul_assign (iso_translation (iso_inverse (sim_isometry f))) r) (iso_rotation (iso_inverse (sim_isometry f)))) r).
  exists g. split; [unfold sim_inverse, sim_inverse_mut; rewrite iso_inverse_mut_eq; reflexivity|].
  assert (SC : forall h b, fnrm n h <= b * V -> fnrm n (fun i => h i * / s) <= b * W).
  { intros h b H. rewrite (fnrm_ext n _ (fun i => / s * h i)) by (intros; ring). rewrite fnrm_scale, Rabs_inv. unfold W. apply Rle_trans with (/ Rabs s * (b * V)); [|right; field; lra].
    apply Rmult_le_compat_l; [apply Rlt_le, Rinv_0_lt_compat; exact A0|exact H]. }
  (* the point scaled back *)
  assert (X : vne n W (4 * d + 29 * u) (fun i => vat (pmul_s q r) i) (fun i => rigid Q t (fun k => fval p k * s) i * / s)).
  { eapply vne_ext; [eapply vne_weak; [exact HW|apply (mul_step H24 n Hn V W (4 * d + 23 * u) 2 _ _ r (/ s) HW V0 WV Fr Er A' L)|]| |]; try lra.
    - fold u. assert ((5 / 2 * (2 + (4 * d + 23 * u)) + / 512) * u <= 23 / 4 * u) by (apply Rmult_le_compat_r; lra). lra.
    - intros i Hi. unfold pmul_s. rewrite vat_vmul_s by exact Hi. reflexivity.
    - reflexivity. }
  (* the translation of the inverse *)
  set (t1 := fun i => rsum n (fun j => mget (mtranspose Q) j i * - t j)).
  assert (T1 : vne n V (4 * d + 18 * u) (fun i => vat (iso_translation (iso_inverse (sim_isometry f))) i) t1).
  { pose proof (iso_near n (sim_isometry f) Q V d HQ HM Ft) as NI.
    eapply vne_ext; [eapply vne_weak; [exact HV|apply (inv_vector_step H24 n Hn V HV (sim_isometry f) Q t d 0 0 1 (vneg (iso_translation (sim_isometry f))) (fun i => - t i) NI)|]| |]; try lra.
    + eapply vne_ext; [apply (neg_step n V 0 _ _ (vne_exact n V _ Ft))| |reflexivity]. intros i Hi. rewrite vat_vneg by exact Hi. reflexivity.
    + rewrite fnrm_neg. exact B2.
    + fold u. lra.
    + reflexivity.
    + reflexivity. }
  assert (N1 : fnrm n t1 <= 1 * V) by (unfold t1; rewrite (fnrm_orth_mul n (mtranspose Q) _ (orth_inverse n Q HQ)), fnrm_neg; exact B2).
  assert (T2 : vne n W (4 * d + 21 * u) (fun i => vat (iso_translation (sim_isometry g)) i) (fun i => t1 i * / s)).
  { eapply vne_ext; [eapply vne_weak; [exact HW|apply (mul_step H24 n Hn V W (4 * d + 18 * u) 1 _ _ r (/ s) HW V0 WV Fr Er T1 N1)|]| |]; try lra.
    - fold u. assert ((5 / 2 * (1 + (4 * d + 18 * u)) + / 512) * u <= 11 / 4 * u) by (apply Rmult_le_compat_r; lra). lra.
    - intros i Hi. unfold g. cbn [sim_isometry iso_translation]. rewrite vat_vmul_assign by exact Hi. reflexivity.
    - reflexivity. }
  assert (NI : near_iso n W (sim_isometry g) (mtranspose Q) (fun i => t1 i * / s) d (4 * d + 21 * u)).
  { split; [apply orth_inverse; exact HQ|]. split; [|exact T2]. intros j i Hj Hi. unfold g, iso_inverse, iso_from_parts, rot_inverse. cbn [sim_isometry iso_rotation].
    rewrite !mget_mtranspose by assumption. apply HM; assumption. }
  enough (G : vne n W (17 * d + 93 * u) (fun i => vat (sim_apply_point g q) i) (fval p)) by exact G.
  eapply vne_ext; [eapply vne_weak; [exact HW|apply (apply_point_step H24 n Hn W HW (sim_isometry g) (mtranspose Q) _ d (4 * d + 21 * u) (4 * d + 29 * u) 2 1 _ _ NI ltac:(lra) X (SC _ _ L) (SC _ _ N1))|]| |]; try lra.
  - fold u. set (E := (4 * d + 18 * u) * (2 + (4 * d + 29 * u))). assert (E1 : E <= 33 / 4 * d + 39 * u) by (unfold E; lra).
    assert (E2 : (2 + 1 + (4 * d + 29 * u + E) + (4 * d + 21 * u)) * u <= 7 / 2 * u) by (apply Rmult_le_compat_r; lra). lra.
  - reflexivity.
  - intros i Hi. cbv beta. unfold t1.
    transitivity (rsum n (fun j => mget (mtranspose Q) j i * rsum n (fun k => mget Q k j * fval p k))); [|apply (orth_undo n Q (fval p) i HQ Hi)].
    assert (K : forall h : nat -> R, rsum n h * / s = rsum n (fun j => h j * / s)) by (intros h; rewrite Rmult_comm, rsum_scal; apply sum_ext; intros j Hj; apply Rmult_comm).
    rewrite K, rsum_plus. apply sum_ext. intros j Hj. unfold rigid. change (sum n ?h) with (rsum n h).
    replace (rsum n (fun k => mget Q k j * (fval p k * s))) with (s * rsum n (fun k => mget Q k j * fval p k)).
    + field. exact S0.
    + rewrite rsum_scal. apply sum_ext. intros k Hk. ring.
Qed.

Theorem c157_exact :
  forall (prec emax : Z) (Hp : Prec_gt_0 prec) (He : Prec_lt_emax prec emax) (n : nat)
    (f : similarity (binary_float prec emax) n) (g : isometry (binary_float prec emax) n) (t : translation (binary_float prec emax) n) (r : rotation (binary_float prec emax) n) (p : vec (binary_float prec emax) n),
  sim_apply_point (sim_from_isometry g) p = iso_apply_point g p /\ sim_apply_vector (sim_from_isometry g) p = iso_apply_vector g p /\
  sim_mul f (sim_from_isometry g) = sim_mul_iso f g /\ iso_apply_point (tr_mul_rot t r) p = tr_apply_point t (rot_apply_point r p).
Proof.
  intros. assert (M : forall v : vec (binary_float prec emax) n, vmul_s v n1 = v) by (intros v; apply vat_ext; intros i Hi; rewrite vat_vmul_s by exact Hi; apply fmul_1_r).
  split; [|split; [|split]].
  - unfold sim_apply_point, sim_from_isometry, pmul_s. cbn [sim_isometry sim_scale]. rewrite M. reflexivity.
  - unfold sim_apply_vector, sim_from_isometry. cbn [sim_isometry sim_scale]. rewrite M. reflexivity.
  - unfold sim_mul, sim_from_isometry. cbn [sim_isometry sim_scale]. rewrite fmul_1_r. reflexivity.
  - reflexivity.
Qed.

Theorem c157_example :
  let c : f64 := ndiv (f64_of_Z 3) (f64_of_Z 5) in let s : f64 := ndiv (f64_of_Z 4) (f64_of_Z 5) in
  let a : mat f64 2 2 := v2 (v2 c s) (v2 (nneg s) c) in let t : vec f64 2 := v2 (f64_of_Z 3) (f64_of_Z (-4)) in
  let f : similarity f64 2 := mkSimilarity (mkIsometry t a) (f64_of_Z 2) in let p : vec f64 2 := v2 (f64_of_Z 1) (f64_of_Z 2) in
  exists g, sim_inverse f = Some g /\ vfnear (sim_apply_point g (sim_apply_point f p)) (fval p) (440 * bpow radix2 (- 53)).
Proof.
  intros c s a t f p. destruct c125_example as (E1 & E2 & E3 & E4). fold c s a t in E2, E3, E4. set (q := v2 (v2 (3 / 5)%R (4 / 5)%R) (v2 (- (4 / 5))%R (3 / 5)%R) : mat R 2 2) in *.
  assert (V : forall z, (Z.abs z < 100)%Z -> is_finite (f64_of_Z z) = true /\ B2R (f64_of_Z z) = IZR z) by (intros z Hz; split; apply f64_of_Z_exact; lia).
  destruct (V 2%Z ltac:(lia)) as (F2 & V2). destruct (V 1%Z ltac:(lia)) as (F1 & V1).
  assert (W : forall k, (Z.abs k <= 900)%Z -> bpow radix2 (31 - 1024) <= bpow radix2 k <= bpow radix2 (1024 - 31)) by (intros k Hk; split; apply bpow_le; lia).
  assert (SQ : B2R (sim_scale f) = 2) by exact V2. assert (A2 : Rabs (B2R (sim_scale f)) = 2) by (rewrite SQ; apply Rabs_pos_eq; lra).
  assert (u64 : 0 < bpow radix2 (- 53) <= / 1024) by exact u64_small.
  destruct (c157_inverse 53 1024 _ _ 2 f q p 8 (bpow radix2 (- 53)) ltac:(lia) ltac:(lia)) as (g & G1 & G2).
  - exact (W 3%Z ltac:(lia)).
  - match goal with |- _ <= ?x <= _ => replace x with (bpow radix2 1) by (symmetry; exact A2) end. exact (W 1%Z ltac:(lia)).
  - match goal with |- _ <= 8 / ?x <= _ => replace x with 2 by (symmetry; exact A2) end. replace (8 / 2) with (bpow radix2 2) by (change (bpow radix2 2) with 4; lra). apply W; lia.
  - lra.
  - exact E1.
  - exact E2.
  - intros i Hi. split; [apply E3; exact Hi|]. destruct i as [|[|i]]; [exact F1|exact F2|lia].
  - exact F2.
  - cbn [sim_isometry f iso_translation]. change (rlength 2 (fval t) <= 8). change (rlength 2 (fval t) = 5) in E4. lra.
  - change (sqrt (0 + B2R (f64_of_Z 1) * B2R (f64_of_Z 2) * (B2R (f64_of_Z 1) * B2R (f64_of_Z 2)) + B2R (f64_of_Z 2) * B2R (f64_of_Z 2) * (B2R (f64_of_Z 2) * B2R (f64_of_Z 2))) <= 8). rewrite V1, V2.
    apply Rle_trans with (sqrt (8 * 8)); [apply sqrt_le_1_alt; lra|right; apply sqrt_square; lra].
  - exists g. split; [exact G1|]. destruct G2 as (G2 & G3). split; [exact G2|]. eapply Rle_trans; [exact G3|]. match goal with |- _ * (8 / ?x) <= _ => replace x with 2 by (symmetry; exact A2) end. cbv zeta. change (Z.opp 53) with (-53)%Z. apply Req_le. field.
Qed.
