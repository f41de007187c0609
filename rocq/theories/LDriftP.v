(** Proofs of the property theorems about long products in floats (C122). *)

From Coq Require Import List Arith ZArith Lia Reals Lra Psatz.
From Flocq Require Import Core.Core IEEE754.BinarySingleNaN.
From Verif Require Import Base Scalar Spec SpecF SpecRot SpecDrift MVector MMatrix MComplex MQuat MReal MFloat
  LBase LVector LReal LVectorR LFloat LFloatAcc LFloatNormP LFloatExP LDrift LDriftM.

Local Open Scope R_scope.

Lemma qlength_vnorm a0 a1 a2 a3 : qlength (a0, a1, a2, a3) = vnorm (v4 a0 a1 a2 a3).
Proof. unfold qlength, vnorm. cbn. apply f_equal. ring. Qed.
Lemma qdistance_vdist a0 a1 a2 a3 b0 b1 b2 b3 :
  qdistance (a0, a1, a2, a3) (b0, b1, b2, b3) = vdist (v4 a0 a1 a2 a3) (v4 b0 b1 b2 b3).
Proof. unfold qdistance. rewrite qlength_vnorm. unfold vdist. unfold vnorm. cbn. apply f_equal. ring. Qed.
Lemma hamilton_length a b : qlength (hamilton a b) = qlength a * qlength b.
Proof.
  destruct a as (((a0, a1), a2), a3), b as (((b0, b1), b2), b3). unfold hamilton, qlength.
  rewrite <- sqrt_mult by nra. apply f_equal. ring.
Qed.
Lemma qdistance_mul a b c : qdistance (hamilton a c) (hamilton b c) = qdistance a b * qlength c.
Proof.
  destruct a as (((a0, a1), a2), a3), b as (((b0, b1), b2), b3), c as (((c0, c1), c2), c3).
  unfold qdistance. rewrite <- hamilton_length. unfold hamilton, qlength. apply f_equal. ring.
Qed.
Lemma qdistance_tri a b c : qdistance a c <= qdistance a b + qdistance b c.
Proof.
  destruct a as (((a0, a1), a2), a3), b as (((b0, b1), b2), b3), c as (((c0, c1), c2), c3).
  rewrite !qdistance_vdist. apply vdist_triangle.
Qed.
Lemma qdistance_refl a : qdistance a a = 0.
Proof.
  destruct a as (((a0, a1), a2), a3). unfold qdistance, qlength.
  rewrite <- sqrt_0. apply f_equal. ring.
Qed.
Lemma qdistance_0 a : qdistance a (0, 0, 0, 0) = qlength a.
Proof. destruct a as (((a0, a1), a2), a3). unfold qdistance, qlength. apply f_equal. ring. Qed.
Lemma qdistance_sym a b : qdistance a b = qdistance b a.
Proof.
  destruct a as (((a0, a1), a2), a3), b as (((b0, b1), b2), b3). unfold qdistance, qlength. apply f_equal. ring.
Qed.
Lemma qlength_dist a b : Rabs (qlength a - qlength b) <= qdistance a b.
Proof.
  rewrite <- !qdistance_0.
  pose proof (qdistance_tri a b (0, 0, 0, 0)). pose proof (qdistance_tri b a (0, 0, 0, 0)).
  rewrite (qdistance_sym b a) in *. apply Rabs_le. lra.
Qed.
Lemma qlength_pos a : 0 <= qlength a.
Proof. destruct a as (((a0, a1), a2), a3). apply sqrt_pos. Qed.

(** The values of a float quaternion and complex number. *)
Definition qval {prec emax} `{Hp : Prec_gt_0 prec} `{He : Prec_lt_emax prec emax} (q : quat (binary_float prec emax)) : rquat :=
  (B2R (vat (q : vec _ 4) 0), B2R (vat (q : vec _ 4) 1), B2R (vat (q : vec _ 4) 2), B2R (vat (q : vec _ 4) 3)).
Definition cval {prec emax} `{Hp : Prec_gt_0 prec} `{He : Prec_lt_emax prec emax} (z : complex (binary_float prec emax)) : rcomplex := (B2R (re z), B2R (im z)).
Definition qfin {prec emax} `{Hp : Prec_gt_0 prec} `{He : Prec_lt_emax prec emax} (q : quat (binary_float prec emax)) : Prop :=
  forall i, (i < 4)%nat -> is_finite (vat (q : vec _ 4) i) = true.
Definition cfin {prec emax} `{Hp : Prec_gt_0 prec} `{He : Prec_lt_emax prec emax} (z : complex (binary_float prec emax)) : Prop :=
  is_finite (re z) = true /\ is_finite (im z) = true.

Lemma sq_le_len a x : 0 <= x -> a * a <= x * x -> Rabs a <= x.
Proof. intros Hx H. apply Rsqr_le_abs_0 in H. rewrite (Rabs_pos_eq x) in H by exact Hx. exact H. Qed.
Lemma qcomp_le a0 a1 a2 a3 P : qlength (a0, a1, a2, a3) <= P ->
  Rabs a0 <= P /\ Rabs a1 <= P /\ Rabs a2 <= P /\ Rabs a3 <= P.
Proof.
  intros H. pose proof (qlength_pos (a0, a1, a2, a3)) as L. unfold qlength in H, L.
  set (t := a0 * a0 + a1 * a1 + a2 * a2 + a3 * a3) in *. assert (T : sqrt t * sqrt t = t) by (apply sqrt_sqrt; unfold t; nra).
  assert (t <= P * P) by (rewrite <- T; apply Rmult_le_compat; lra).
  pose proof (Rle_0_sqr a0). pose proof (Rle_0_sqr a1). pose proof (Rle_0_sqr a2). pose proof (Rle_0_sqr a3).
  unfold Rsqr, t in *. repeat split; (apply sq_le_len; lra).
Qed.
Lemma qlen_comp e a0 a1 a2 a3 : 0 <= e -> Rabs a0 <= e -> Rabs a1 <= e -> Rabs a2 <= e -> Rabs a3 <= e ->
  qlength (a0, a1, a2, a3) <= 2 * e.
Proof.
  intros He H0 H1 H2 H3. unfold qlength. rewrite <- (sqrt_square (2 * e)) by lra. apply sqrt_le_1_alt.
  assert (S : forall a, Rabs a <= e -> a * a <= e * e).
  { intros a Ha. rewrite <- (Rabs_pos_eq (a * a)) by nra. rewrite Rabs_mult. apply Rmult_le_compat; try apply Rabs_pos; lra. }
  apply S in H0, H1, H2, H3. lra.
Qed.

Lemma rclength_q a b : rclength (a, b) = qlength (a, b, 0, 0).
Proof. unfold rclength, qlength. cbn [fst snd]. apply f_equal. ring. Qed.
Lemma rcdistance_q a b c d : rcdistance (a, b) (c, d) = qdistance (a, b, 0, 0) (c, d, 0, 0).
Proof. unfold rcdistance, qdistance. rewrite rclength_q. cbn [fst snd]. unfold qlength. apply f_equal. ring. Qed.

Lemma wok12 emax x : (32 <= emax)%Z -> 1 <= x <= 2 -> (bpow radix2 (31 - emax) <= x <= bpow radix2 (emax - 31)).
Proof.
  intros He [L U]. split.
  - eapply Rle_trans; [|exact L]. change 1 with (bpow radix2 0). apply bpow_le. lia.
  - eapply Rle_trans; [exact U|]. change 2 with (bpow radix2 1). apply bpow_le. lia.
Qed.

Lemma c122_quaternion_products :
  forall (prec emax : Z) (Hp : Prec_gt_0 prec) (He : Prec_lt_emax prec emax) (d : R)
    (l : list (quat (binary_float prec emax))),
    (24 <= prec)%Z -> (32 <= emax)%Z -> (0 <= d)%R ->
    let u := bpow radix2 (- prec) in let k := INR (length l) in
    let val (q : quat (binary_float prec emax)) : rquat :=
      (B2R (vat (q : vec _ 4) 0), B2R (vat (q : vec _ 4) 1), B2R (vat (q : vec _ 4) 2), B2R (vat (q : vec _ 4) 3)) in
    (forall q, In q l ->
       (forall i, (i < 4)%nat -> is_finite (vat (q : vec _ 4) i) = true) /\ (Rabs (qlength (val q) - 1) <= d)%R) ->
    (k * (d + 30 * u) <= / 4)%R ->
    let r := fold_left qmul l qidentity in
    (forall i, (i < 4)%nat -> is_finite (vat (r : vec _ 4) i) = true) /\
    (qdistance (val r) (qproduct (map val l)) <= 60 * k * u)%R /\
    (Rabs (qlength (val r) - 1) <= 2 * k * (d + 30 * u))%R.
Proof.
  intros prec emax Hp He d l Hprec Hemax d0 u k val Hl Hk r.
  assert (u0 : 0 < u) by apply bpow_gt_0.
  assert (D : qfin r /\ qdistance (qval r) (qproduct (map qval l)) <= 2 * (INR (length l) * (30 * u)) /\
    Rabs (qlength (qval r) - 1) <= 2 * (INR (length l) * (d + 30 * u))).
  { apply (drift hamilton (1, 0, 0, 0) qlength qdistance qmul qidentity qval qfin (30 * u)).
    - apply hamilton_length.
    - unfold qlength. transitivity (sqrt 1); [apply f_equal; ring|apply sqrt_1].
    - apply qlength_pos.
    - apply qdistance_tri.
    - apply qdistance_refl.
    - apply qdistance_mul.
    - apply qlength_dist.
    - transitivity (B2R (n1 : binary_float prec emax), 0, 0, 0); [reflexivity|].
      cbn [n1 num_float]. rewrite (proj1 fbone). reflexivity.
    - intros i Hi. destruct i as [|[|[|[|i]]]]; [apply fbone|reflexivity|reflexivity|reflexivity|lia].
    - lra.
    - intros p q P N Fp Fq P1 N1 PN Lp Lq.
      assert (W : bpow radix2 (31 - emax) <= P * N <= bpow radix2 (emax - 31)) by (apply wok12; [exact Hemax|nra]).
      apply qcomp_le in Lp, Lq.
      destruct (c109_quaternion_product prec emax Hp He P N p q Hprec ltac:(lra) ltac:(lra) W) as (E0 & E1 & E2 & E3).
      { intros i Hi. split; [apply Fp; exact Hi|]. destruct Lp as (L0 & L1 & L2 & L3).
        destruct i as [|[|[|[|i]]]]; [exact L0|exact L1|exact L2|exact L3|lia]. }
      { intros i Hi. split; [apply Fq; exact Hi|]. destruct Lq as (L0 & L1 & L2 & L3).
        destruct i as [|[|[|[|i]]]]; [exact L0|exact L1|exact L2|exact L3|lia]. }
      destruct E0 as (F0 & E0), E1 as (F1 & E1), E2 as (F2 & E2), E3 as (F3 & E3).
      split.
      + intros i Hi. destruct i as [|[|[|[|i]]]]; [exact F0|exact F1|exact F2|exact F3|lia].
      + replace (30 * u * (P * N)) with (2 * (15 * bpow radix2 (- prec) * (P * N))) by (unfold u; ring).
        unfold qval, qdistance, hamilton. apply qlen_comp; [|exact E0|exact E1|exact E2|exact E3].
        fold u. apply Rmult_le_pos; [lra|apply Rmult_le_pos; lra].
    - exact d0.
    - exact Hl.
    - exact Hk. }
  destruct D as (D1 & D2 & D3). split; [exact D1|]. split.
  - eapply Rle_trans; [exact D2|]. fold k. lra.
  - eapply Rle_trans; [exact D3|]. fold k. lra.
Qed.

Lemma c122_complex_products :
  forall (prec emax : Z) (Hp : Prec_gt_0 prec) (He : Prec_lt_emax prec emax) (d : R)
    (l : list (complex (binary_float prec emax))),
    (24 <= prec)%Z -> (32 <= emax)%Z -> (0 <= d)%R ->
    let u := bpow radix2 (- prec) in let k := INR (length l) in
    let val (z : complex (binary_float prec emax)) : rcomplex := (B2R (re z), B2R (im z)) in
    (forall z, In z l ->
       is_finite (re z) = true /\ is_finite (im z) = true /\ (Rabs (rclength (val z) - 1) <= d)%R) ->
    (k * (d + 10 * u) <= / 4)%R ->
    let r := fold_left cmul l cidentity in
    is_finite (re r) = true /\ is_finite (im r) = true /\
    (rcdistance (val r) (rcproduct (map val l)) <= 20 * k * u)%R /\
    (Rabs (rclength (val r) - 1) <= 2 * k * (d + 10 * u))%R.
Proof.
  intros prec emax Hp He d l Hprec Hemax d0 u k val Hl Hk r.
  assert (u0 : 0 < u) by apply bpow_gt_0.
  assert (D : cfin r /\ rcdistance (cval r) (rcproduct (map cval l)) <= 2 * (INR (length l) * (10 * u)) /\
    Rabs (rclength (cval r) - 1) <= 2 * (INR (length l) * (d + 10 * u))).
  { apply (drift rcmul (1, 0) rclength rcdistance cmul cidentity cval cfin (10 * u)).
    - intros [a b] [a' b']. unfold rcmul, rclength; cbn [fst snd]. rewrite <- sqrt_mult by nra. apply f_equal. ring.
    - unfold rclength; cbn [fst snd]. transitivity (sqrt 1); [apply f_equal; ring|apply sqrt_1].
    - intros [a b]. apply sqrt_pos.
    - intros [a b] [a' b'] [a'' b'']. rewrite !rcdistance_q. apply qdistance_tri.
    - intros [a b]. rewrite rcdistance_q. apply qdistance_refl.
    - intros [a b] [a' b'] [c c']. unfold rcdistance, rcmul, rclength; cbn [fst snd].
      rewrite <- sqrt_mult by (apply Rplus_le_le_0_compat; apply Rle_0_sqr). apply f_equal. ring.
    - intros [a b] [a' b']. rewrite !rclength_q, rcdistance_q. apply qlength_dist.
    - transitivity (B2R (n1 : binary_float prec emax), 0); [reflexivity|].
      cbn [n1 num_float]. rewrite (proj1 fbone). reflexivity.
    - split; [apply fbone|reflexivity].
    - lra.
    - intros p q P N Fp Fq P1 N1 PN Lp Lq.
      assert (W : bpow radix2 (31 - emax) <= P * N <= bpow radix2 (emax - 31)) by (apply wok12; [exact Hemax|nra]).
      unfold cval in Lp, Lq. rewrite rclength_q in Lp, Lq. apply qcomp_le in Lp, Lq.
      destruct Lp as (A1 & A2 & _), Lq as (B1 & B2 & _).
      destruct (c109_complex_product prec emax Hp He P N p q Hprec ltac:(lra) ltac:(lra) W
        (conj (proj1 Fp) A1) (conj (proj2 Fp) A2) (conj (proj1 Fq) B1) (conj (proj2 Fq) B2)) as ((F0 & E0) & F1 & E1).
      split; [split; assumption|].
      replace (10 * u * (P * N)) with (2 * (5 * bpow radix2 (- prec) * (P * N))) by (unfold u; ring).
      unfold cval, rcdistance, rcmul. cbn [fst snd]. rewrite rclength_q. apply qlen_comp; [|exact E0|exact E1| |];
        rewrite ?Rabs_R0; fold u; (apply Rmult_le_pos; [lra|apply Rmult_le_pos; lra]).
    - exact d0.
    - intros q Hq. destruct (Hl q Hq) as (H1 & H2 & H3). split; [split; assumption|exact H3].
    - exact Hk. }
  destruct D as ((D1 & D1') & D2 & D3). split; [exact D1|]. split; [exact D1'|]. split.
  - eapply Rle_trans; [exact D2|]. fold k. lra.
  - eapply Rle_trans; [exact D3|]. fold k. lra.
Qed.

Lemma c122_matrix_products :
  forall (prec emax : Z) (Hp : Prec_gt_0 prec) (He : Prec_lt_emax prec emax) (n : nat) (d : R)
    (l : list (mat (binary_float prec emax) n n * mat R n n)),
    (24 <= prec)%Z -> (32 <= emax)%Z -> (n <= 4)%nat -> (0 <= d)%R ->
    let u := bpow radix2 (- prec) in let D := (INR (length l) * (INR n * (2 * d + 24 * u)))%R in
    (forall a q, In (a, q) l ->
       orthonormal_columns q /\
       (forall j i, (j < n)%nat -> (i < n)%nat -> fnear (mget a j i) (mget q j i) d)) ->
    (D <= / 4)%R ->
    let r := fold_left mmul (map fst l) (midentity n) in
    (forall j i, (j < n)%nat -> (i < n)%nat ->
       fnear (mget r j i) (rmatproduct n (map (fun p j i => mget (snd p) j i) l) j i) D) /\
    (forall i i', (i < n)%nat -> (i' < n)%nat ->
       (Rabs (sum n (fun j => (B2R (mget r j i) * B2R (mget r j i'))%R) - delta i i') <= 3 * D)%R).
Proof.
  intros prec emax Hp He n d l Hprec Hemax Hn d0 u D Hl HD r.
  destruct (matrix_drift Hprec Hemax n d l Hn d0 ltac:(intros [a q] Hq; exact (Hl a q Hq)) HD) as (O & F & E).
  fold r u D in O, F, E. set (e := fold_left mmul (map snd l) (midentity n)) in *.
  split.
  - intros j i Hj Hi. split; [apply F; assumption|].
    replace (rmatproduct n (map (fun p j i => mget (snd p) j i) l) j i) with (mget e j i).
    2:{ unfold e. rewrite rmatproduct_mmul by assumption. rewrite map_map. reflexivity. }
    eapply Rle_trans; [|apply (E i Hi)]. apply (fnrm_comp n (fun j => B2R (mget r j i) - mget e j i) j Hj).
  - intros i i' Hi Hi'. rewrite <- (orth_row n e i i' O Hi Hi').
    pose proof (E i Hi) as E1. pose proof (E i' Hi') as E2.
    set (f := fun j => B2R (mget r j i) - mget e j i) in *. set (g := fun j => B2R (mget r j i') - mget e j i') in *.
    assert (X : rsum n (fun j => B2R (mget r j i) * B2R (mget r j i')) - rsum n (fun j => mget e j i * mget e j i')
      = (rsum n (fun j => f j * mget e j i') + rsum n (fun j => mget e j i * g j)) + rsum n (fun j => f j * g j)).
    { unfold f, g. apply rsum_split2. }
    change (Rabs (rsum n (fun j => B2R (mget r j i) * B2R (mget r j i')) - rsum n (fun j => mget e j i * mget e j i')) <= 3 * D).
    rewrite X. eapply Rle_trans; [apply Rabs_triang|]. eapply Rle_trans; [apply Rplus_le_compat_r, Rabs_triang|].
    pose proof (fnrm_cs n f (fun j => mget e j i')) as T1. pose proof (fnrm_cs n (fun j => mget e j i) g) as T2.
    pose proof (fnrm_cs n f g) as T3. rewrite (orth_row_nrm n e i' O Hi') in T1. rewrite (orth_row_nrm n e i O Hi) in T2.
    assert (T4 : fnrm n f * fnrm n g <= D * D) by (apply Rmult_le_compat; try apply fnrm_pos; assumption).
    pose proof (fnrm_pos n f). nra.
Qed.

Lemma c122_example :
  let h : f64 := ndiv (f64_of_Z 1) (f64_of_Z 2) in let q : quat f64 := qnew h h h h in
  qlength (B2R (vat (q : vec _ 4) 0), B2R (vat (q : vec _ 4) 1), B2R (vat (q : vec _ 4) 2), B2R (vat (q : vec _ 4) 3)) = 1%R /\
  (forall i, (i < 4)%nat -> is_finite (vat (q : vec _ 4) i) = true) /\
  (IZR (2 ^ 40) * (0 + 30 * bpow radix2 (- 53)) <= / 4)%R.
Proof.
  intros h q.
  assert (E : h = @B754_finite 53 1024 false 4503599627370496 (-53) eq_refl) by (apply B2SF_inj; vm_compute; reflexivity).
  assert (V : B2R h = / 2).
  { rewrite E. unfold B2R, F2R; cbn -[IZR bpow]. change (bpow radix2 (-53)) with (/ IZR (2 ^ 53)).
    change (2 ^ 53)%Z with 9007199254740992%Z. lra. }
  split; [|split].
  - change (qlength (B2R h, B2R h, B2R h, B2R h) = 1). rewrite V. unfold qlength.
    transitivity (sqrt 1); [apply f_equal; field|apply sqrt_1].
  - intros i Hi. destruct i as [|[|[|[|i]]]]; [| | | |lia]; change (is_finite h = true); rewrite E; reflexivity.
  - change (bpow radix2 (-53)) with (/ IZR (2 ^ 53)). change (2 ^ 53)%Z with 9007199254740992%Z.
    change (2 ^ 40)%Z with 1099511627776%Z. lra.
Qed.

Lemma c122_matrix_example :
  let c : f64 := ndiv (f64_of_Z 3) (f64_of_Z 5) in let s : f64 := ndiv (f64_of_Z 4) (f64_of_Z 5) in
  let a : mat f64 2 2 := v2 (v2 c s) (v2 (nneg s) c) in
  let q : mat R 2 2 := v2 (v2 (3 / 5)%R (4 / 5)%R) (v2 (- (4 / 5))%R (3 / 5)%R) in
  orthonormal_columns q /\
  (forall j i, (j < 2)%nat -> (i < 2)%nat -> fnear (mget a j i) (mget q j i) (bpow radix2 (- 53))) /\
  (IZR (2 ^ 40) * (INR 2 * (2 * bpow radix2 (- 53) + 24 * bpow radix2 (- 53))) <= / 4)%R.
Proof.
  intros c s a q.
  assert (Ec : c = @B754_finite 53 1024 false 5404319552844595 (-53) eq_refl) by (apply B2SF_inj; vm_compute; reflexivity).
  assert (Es : s = @B754_finite 53 1024 false 7205759403792794 (-53) eq_refl) by (apply B2SF_inj; vm_compute; reflexivity).
  assert (U : bpow radix2 (- 53) = / 9007199254740992) by reflexivity.
  assert (Vc : B2R c = 5404319552844595 / 9007199254740992).
  { rewrite Ec. unfold B2R, F2R; cbn -[IZR bpow]. change (bpow radix2 (-53)) with (/ 9007199254740992). reflexivity. }
  assert (Vs : B2R s = 7205759403792794 / 9007199254740992).
  { rewrite Es. unfold B2R, F2R; cbn -[IZR bpow]. change (bpow radix2 (-53)) with (/ 9007199254740992). reflexivity. }
  assert (Fc : fnear c (3 / 5) (bpow radix2 (- 53))).
  { split; [rewrite Ec; reflexivity|]. rewrite Vc, U. apply Rabs_le. lra. }
  assert (Fs : fnear s (4 / 5) (bpow radix2 (- 53))).
  { split; [rewrite Es; reflexivity|]. rewrite Vs, U. apply Rabs_le. lra. }
  assert (Fn : fnear (Bopp s) (- (4 / 5)) (bpow radix2 (- 53))).
  { split; [rewrite is_finite_Bopp; apply Fs|]. rewrite B2R_Bopp, Vs, U. apply Rabs_le. lra. }
  split; [|split].
  - intros j k Hj Hk. destruct j as [|[|j]]; [| |lia]; (destruct k as [|[|k]]; [| |lia]); cbn; field.
  - intros j i Hj Hi. destruct j as [|[|j]]; [| |lia]; (destruct i as [|[|i]]; [| |lia]);
      [exact Fc|exact Fs|exact Fn|exact Fc].
  - rewrite U. change (2 ^ 40)%Z with 1099511627776%Z. cbn [INR]. lra.
Qed.
