(** The theorems about products of isometries with rotations and translations in floats (C160). *)

From Coq Require Import List Arith ZArith Lia Reals Lra Psatz.
From Flocq Require Import Core.Core IEEE754.BinarySingleNaN.
From Verif Require Import Base Scalar Spec SpecF SpecRot SpecDrift SpecRigid MVector MMatrix MPoint MReal MFloat MTransform
  LBase LVector LMatrix LTransform LReal LVectorR LRot LTransformR LFloat LFloatVec LFloatAcc LFloatNormP LFloatP LDrift LDriftM LTrScF LRigidF LRigidFP LRigidGP LSimF LSimFP.
Local Open Scope R_scope.

Section M.
Context {prec emax : Z} {Hp : Prec_gt_0 prec} {He : Prec_lt_emax prec emax}.
Notation fl := (binary_float prec emax).
Notation u := (bpow radix2 (- prec)).
Variables (n : nat) (V : R) (d : R).
Hypothesis H24 : (24 <= prec)%Z.
Hypothesis Hn : (n <= 4)%nat.
Hypothesis HV : @wok emax V.
Hypothesis Hd : 0 <= d <= / 64.

Lemma rot_vec (a : mat fl n n) (P : mat R n n) (t : vec fl n) : orthonormal_columns P -> (forall j i, (j < n)%nat -> (i < n)%nat -> fnear (mget a j i) (mget P j i) d) ->
  (forall i, (i < n)%nat -> is_finite (vat t i) = true) -> fnrm n (fval t) <= V ->
  vne n V (4 * d + 18 * u) (fun i => vat (rot_apply_vector a t) i) (fun i => rsum n (fun j => mget P j i * fval t j)) /\ fnrm n (fun i => rsum n (fun j => mget P j i * fval t j)) <= 1 * V.
Proof.
  intros HP HA F B. pose proof (u_small H24 : 0 < u <= / 16777216) as U. split.
  - eapply vne_weak; [exact HV|apply (apply_vector_step H24 n Hn V HV (mkIsometry (vzero n) a) P (fval (vzero n : vec fl n)) d 0 0 1 t (fval t))|]; try lra.
    + split; [exact HP|]. split; [exact HA|]. apply (vne_exact n V (fun i => vat (vzero n : vec fl n) i)). apply (zero_len n 1 Rlt_0_1).
    + exact (vne_exact n V _ F).
  - rewrite (fnrm_orth_mul n P _ HP). lra.
Qed.
(** Applying an isometry whose parts are known approximately. *)
Lemma iso_app f Q t d' e' C E (p : vec fl n) s : near_iso n V f Q t d' e' -> 0 <= d' <= / 8 -> 0 <= e' -> e' <= 1 -> 0 <= C <= 2 -> fnrm n t <= C * V ->
  (forall i, (i < n)%nat -> is_finite (vat p i) = true) -> fnrm n (fval p) <= V -> 4 * d' + 18 * u + e' + (1 + C + (4 * d' + 18 * u) + e') * u <= E ->
  (forall i, (i < n)%nat -> rsum n (fun j => mget Q j i * fval p j) + t i = s i) ->
  vne n V E (fun i => vat (iso_apply_point f p) i) s.
Proof.
  intros I D e0 e1 HC Nt F B HE HS. eapply vne_ext; [eapply vne_weak; [exact HV|apply (apply_point_step H24 n Hn V HV f Q t d' e' 0 1 C p (fval p) I D (vne_exact n V _ F)); lra|lra]|reflexivity|exact HS].
Qed.
End M.

Theorem c160_mixed :
  forall (prec emax : Z) (Hp : Prec_gt_0 prec) (He : Prec_lt_emax prec emax) (n : nat)
    (f : isometry (binary_float prec emax) n) (r : rotation (binary_float prec emax) n) (t p : vec (binary_float prec emax) n) (P Q : mat R n n) (V d : R),
    let u := bpow radix2 (- prec) in let s := fval (iso_translation f) in let zero := fun _ : nat => 0 in
    (24 <= prec)%Z -> (34 <= emax)%Z -> (n <= 4)%nat -> bpow radix2 (31 - emax) <= V <= bpow radix2 (emax - 31) -> 0 <= d <= / 64 ->
    orthonormal_columns P -> orthonormal_columns Q ->
    (forall j i, (j < n)%nat -> (i < n)%nat -> fnear (mget (iso_rotation f) j i) (mget P j i) d /\ fnear (mget r j i) (mget Q j i) d) ->
    (forall i, (i < n)%nat -> is_finite (vat (iso_translation f) i) = true /\ is_finite (vat t i) = true /\ is_finite (vat p i) = true) ->
    rlength n s <= V -> rlength n (fval t) <= V -> rlength n (fval p) <= V ->
    vfnear (iso_apply_point (rot_mul_tr r t) p) (rigid Q zero (fun k => fval p k + fval t k)) ((8 * d + 39 * u) * V) /\
    vfnear (iso_apply_point (iso_mul_tr f t) p) (rigid P s (fun k => fval p k + fval t k)) ((8 * d + 43 * u) * V) /\
    vfnear (iso_apply_point (tr_mul_iso t f) p) (fun i => rigid P s (fval p) i + fval t i) ((4 * d + 24 * u) * V) /\
    vfnear (iso_apply_point (iso_mul_rot f r) p) (rigid P s (rigid Q zero (fval p))) ((28 * d + 97 * u) * V) /\
    vfnear (iso_apply_point (rot_mul_iso r f) p) (rigid Q zero (rigid P s (fval p))) ((32 * d + 115 * u) * V).
Proof.
  intros prec emax Hp He n f r t p P Q V d u s zero H24 E34 Hn HV Hd HP HQ HM HF Ns Nt Np.
  pose proof (u_small H24 : 0 < u <= / 16777216) as U. pose proof (wok_pos _ HV) as V0.
  assert (du : d * u <= / 64 * u) by (apply Rmult_le_compat_r; lra). assert (uu : u * u <= / 16777216 * u) by (apply Rmult_le_compat_r; lra).
  assert (HA : forall j i, (j < n)%nat -> (i < n)%nat -> fnear (mget (iso_rotation f) j i) (mget P j i) d) by (intros; apply HM; assumption).
  assert (HB : forall j i, (j < n)%nat -> (i < n)%nat -> fnear (mget r j i) (mget Q j i) d) by (intros; apply HM; assumption).
  assert (Fs : forall i, (i < n)%nat -> is_finite (vat (iso_translation f) i) = true) by (intros i Hi; apply (HF i Hi)).
  assert (Ft : forall i, (i < n)%nat -> is_finite (vat t i) = true) by (intros i Hi; apply (HF i Hi)).
  assert (Fp : forall i, (i < n)%nat -> is_finite (vat p i) = true) by (intros i Hi; apply (HF i Hi)).
  change (fnrm n s <= V) in Ns. change (fnrm n (fval t) <= V) in Nt. change (fnrm n (fval p) <= V) in Np.
  assert (B1 : fnrm n s <= 1 * V) by lra. assert (B2 : fnrm n (fval t) <= 1 * V) by lra.
  destruct (rot_near n _ _ P Q d H24 E34 Hn Hd HP HQ HA HB) as (PQ1 & PQ2). destruct (rot_near n _ _ Q P d H24 E34 Hn Hd HQ HP HB HA) as (QP1 & QP2).
  destruct (rot_vec n V d H24 Hn HV Hd r Q t HQ HB Ft Nt) as (T1 & T2). destruct (rot_vec n V d H24 Hn HV Hd _ P t HP HA Ft Nt) as (T3 & T4). destruct (rot_vec n V d H24 Hn HV Hd r Q _ HQ HB Fs Ns) as (T5 & T6). fold u in T1, T3, T5, PQ2, QP2.
  assert (S1 : vne n V (4 * d + 21 * u) (fun i => vat (iso_translation (iso_mul_tr f t)) i) (fun i => s i + rsum n (fun j => mget P j i * fval t j))).
  { eapply vne_ext; [eapply vne_weak; [exact HV|apply (add_step n V HV 0 (4 * d + 18 * u) 1 1 _ _ _ _ (vne_exact n V _ Fs) T3 B1 T4)|]| |reflexivity]; try lra; [fold u; lra|].
    intros i Hi. unfold iso_mul_tr, iso_from_parts, tr_from_vector. cbn [iso_translation]. rewrite vat_vadd by exact Hi. reflexivity. }
  assert (S2 : vne n V (2 * u) (fun i => vat (iso_translation (tr_mul_iso t f)) i) (fun i => fval t i + s i)).
  { eapply vne_ext; [eapply vne_weak; [exact HV|apply (add_step n V HV 0 0 1 1 _ _ _ _ (vne_exact n V _ Ft) (vne_exact n V _ Fs) B2 B1)|]| |reflexivity]; try lra; [fold u; lra|].
    intros i Hi. unfold tr_mul_iso, iso_from_parts, tr_mul, tr_from_vector. cbn [iso_translation]. rewrite vat_vadd by exact Hi. reflexivity. }
  assert (L : forall (M : mat R n n) (x y : nat -> R) i, rsum n (fun j => mget M j i * x j) + rsum n (fun j => mget M j i * y j) = rigid M zero (fun k => x k + y k) i).
  { intros M x y i. transitivity (rsum n (fun j => mget M j i * (x j + y j))); [exact (eq_sym (rsum_lin n (fun j => mget M j i) x y))|]. symmetry. apply Rplus_0_r. }
  split; [|split; [|split; [|split]]].
  - refine (iso_app n V H24 Hn HV (rot_mul_tr r t) Q _ d (4 * d + 18 * u) 1 _ p _ (conj HQ (conj HB T1)) _ _ _ _ T2 Fp Np _ _); try (fold u; lra). intros i Hi. apply L.
  - refine (iso_app n V H24 Hn HV (iso_mul_tr f t) P _ d (4 * d + 21 * u) 2 _ p _ (conj HP (conj HA S1)) _ _ _ _ _ Fp Np _ _); try (fold u; lra).
    + eapply Rle_trans; [apply fnrm_tri|]. lra.
    + intros i Hi. rewrite (Rplus_comm (s i)), <- Rplus_assoc, L. unfold rigid, zero. ring.
  - refine (iso_app n V H24 Hn HV (tr_mul_iso t f) P _ d (2 * u) 2 _ p _ (conj HP (conj HA S2)) _ _ _ _ _ Fp Np _ _); try (fold u; lra).
    + eapply Rle_trans; [apply fnrm_tri|]. lra.
    + intros i Hi. unfold rigid. change (sum n ?h) with (rsum n h). ring.
  - refine (iso_app n V H24 Hn HV (iso_mul_rot f r) (mmul P Q) s (7 * d + 19 * u) 0 1 _ p _ (conj PQ1 (conj PQ2 (vne_exact n V _ Fs))) _ _ _ _ B1 Fp Np _ _); try (fold u; lra).
    intros i Hi. rewrite <- (rigid_comp_gen n P Q s zero (fval p) i Hi). f_equal. transitivity (s i + 0 * rsum n (fun j => mget P j i)); [ring|]. f_equal. rewrite rsum_scal. apply sum_ext. intros j Hj. unfold zero. ring.
  - refine (iso_app n V H24 Hn HV (rot_mul_iso r f) (mmul Q P) _ (7 * d + 19 * u) (4 * d + 18 * u) 1 _ p _ (conj QP1 (conj QP2 T5)) _ _ _ _ T6 Fp Np _ _); try (fold u; lra).
    intros i Hi. rewrite <- (rigid_comp_gen n Q P zero s (fval p) i Hi). f_equal. unfold zero. symmetry. apply Rplus_0_l.
Qed.

Theorem c160_example :
  let c : f64 := ndiv (f64_of_Z 3) (f64_of_Z 5) in let s : f64 := ndiv (f64_of_Z 4) (f64_of_Z 5) in
  let a : mat f64 2 2 := v2 (v2 c s) (v2 (nneg s) c) in let t : vec f64 2 := v2 (f64_of_Z 3) (f64_of_Z (-4)) in
  let q : mat R 2 2 := v2 (v2 (3 / 5) (4 / 5)) (v2 (- (4 / 5)) (3 / 5)) in
  vfnear (iso_apply_point (rot_mul_iso a (mkIsometry t a)) t) (rigid q (fun _ => 0) (rigid q (fval t) (fval t))) (147 * bpow radix2 (- 53) * 8) /\
  vfnear (iso_apply_point (iso_mul_tr (mkIsometry t a) t) t) (rigid q (fval t) (fun k => fval t k + fval t k)) (51 * bpow radix2 (- 53) * 8).
Proof.
  intros c s a t q. destruct c125_example as (E1 & E2 & E3 & E4). fold c s a t in E2, E3, E4.
  assert (u64 : 0 < bpow radix2 (- 53) <= / 1024) by exact u64_small.
  assert (W : bpow radix2 (31 - 1024) <= 8 <= bpow radix2 (1024 - 31)) by (change 8 with (bpow radix2 3); split; apply bpow_le; lia).
  assert (T : rlength 2 (fval t) <= 8) by (change (rlength 2 (fval t) = 5) in E4; lra).
  destruct (c160_mixed 53 1024 _ _ 2 (mkIsometry t a) a t t q q 8 (bpow radix2 (- 53)) ltac:(lia) ltac:(lia) ltac:(lia) W ltac:(lra) E1 E1) as (_ & G2 & _ & _ & G5).
  - intros j i Hj Hi. split; apply E2; assumption.
  - intros i Hi. split; [|split]; apply E3; exact Hi.
  - exact T.
  - exact T.
  - exact T.
  - split.
    + destruct G5 as (A & B). split; [exact A|]. eapply Rle_trans; [exact B|]. cbv zeta. change (Z.opp 53) with (-53)%Z. apply Req_le. ring.
    + destruct G2 as (A & B). split; [exact A|]. eapply Rle_trans; [exact B|]. cbv zeta. change (Z.opp 53) with (-53)%Z. apply Req_le. ring.
Qed.
