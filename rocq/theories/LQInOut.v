(** Inner and outer products of quaternions in floats (C151). *)

From Coq Require Import List Arith ZArith Bool Lia Reals Lra Psatz.
From Flocq Require Import Core.Core IEEE754.BinarySingleNaN.
From Verif Require Import Base Scalar Spec SpecF SpecRigid SpecDrift MReal MVector MMatrix MQuat MFloat MFloatVec
  LBase LVector LFloat LFloatVec LFloatP LFloatAcc LFloatExP LTrScF LDriftM LDriftP LRigidF LNormF LSlerpS LArc LQFunH LQInvF LFloatNormP.
Import ListNotations.
Local Open Scope R_scope.

Section F.
Context {prec emax : Z} {Hp : Prec_gt_0 prec} {He : Prec_lt_emax prec emax}.
Notation fl := (binary_float prec emax).
Notation u := (bpow radix2 (- prec)).
Notation tiny := (bpow radix2 (2 - emax - prec)).
Notation fexp := (FLT_exp (3 - emax - prec) prec).
Notation rnd := (round radix2 fexp ZnearestE).
Notation half := (one_half : fl).

Lemma qmul_comm0 (p q : quat fl) : vat (qmul p q : vec fl 4) 0 = vat (qmul q p : vec fl 4) 0.
Proof.
  change (nsub (nmul (qscalar p) (qscalar q)) (vdot (qvector p) (qvector q)) = nsub (nmul (qscalar q) (qscalar p)) (vdot (qvector q) (qvector p))).
  rewrite (fmul_comm (qscalar p)). f_equal.
  assert (D : forall a b : vec fl 3, vdot a b = nadd (nadd (nadd n0 (nmul (vat a 0) (vat b 0))) (nmul (vat a 1) (vat b 1))) (nmul (vat a 2) (vat b 2))) by reflexivity. rewrite !D.
  rewrite (fmul_comm (vat (qvector p) 0)), (fmul_comm (vat (qvector p) 1)), (fmul_comm (vat (qvector p) 2)). reflexivity.
Qed.
Lemma inner_vat (p q : quat fl) i : (i < 4)%nat -> vat (qinner p q : vec fl 4) i = nmul (nadd (vat (qmul p q : vec fl 4) i) (vat (qmul q p : vec fl 4) i)) half.
Proof. intros Hi. destruct i as [|[|[|[|i]]]]; [reflexivity..|lia]. Qed.
Lemma outer_vat (p q : quat fl) i : (i < 4)%nat -> vat (qouter p q : vec fl 4) i = nmul (nsub (vat (qmul p q : vec fl 4) i) (vat (qmul q p : vec fl 4) i)) half.
Proof. intros Hi. destruct i as [|[|[|[|i]]]]; [reflexivity..|lia]. Qed.

Lemma sub_self (x : fl) : is_finite x = true -> nsub x x = B754_zero false.
Proof.
  intros F. destruct x as [[|]|s| |s m e H]; try discriminate F; try reflexivity.
  cbn [nsub num_float]. set (x := B754_finite s m e H).
  pose proof (Bminus_correct prec emax _ _ mode_NE x x eq_refl eq_refl) as C. replace (B2R x - B2R x) with 0 in C by ring.
  rewrite round_0 in C by auto with typeclass_instances. rewrite Rabs_R0, Rlt_bool_true in C by apply bpow_gt_0. destruct C as (C1 & C2 & C3).
  rewrite Rcompare_Eq in C3 by reflexivity. cbn [Bsign] in C3. replace (s && negb s)%bool with false in C3 by (destruct s; reflexivity).
  destruct (Bminus mode_NE x x) as [z|z| |z m' e' H'].
  - cbn in C3. destruct s; cbn in C3; subst z; reflexivity.
  - discriminate C2.
  - discriminate C2.
  - exfalso. apply (F2R_neq_0 radix2 {| Fnum := cond_Zopp z (Zpos m'); Fexp := e' |}); [destruct z; discriminate|exact C1].
Qed.
Hypothesis H24 : (24 <= prec)%Z.
Lemma half_val : is_finite half = true /\ B2R half = / 2.
Proof. exact (half_R H24). Qed.
Lemma zero_half : nmul (B754_zero false : fl) half = B754_zero false.
Proof.
  destruct half_val as (F & V). destruct half as [s|s| |[|] m e H]; try discriminate F; try reflexivity; exfalso.
  - cbn in V. lra.
  - assert (B2R (B754_finite true m e H : fl) < 0) by (apply (F2R_lt_0 radix2); reflexivity). lra.
Qed.

Variables (p q : quat fl) (P N : R).
Hypothesis P0 : 0 < P.
Hypothesis N0 : 0 < N.
Hypothesis W : bpow radix2 (31 - emax) <= P * N <= bpow radix2 (emax - 31).
Hypothesis Fp : qfin p.
Hypothesis Fq : qfin q.
Hypothesis Lp : qlength (qval p) <= P.
Hypothesis Lq : qlength (qval q) <= N.

Lemma tiny_W : tiny <= / 1024 * u * (P * N).
Proof.
  replace tiny with (bpow radix2 (-29) * u * bpow radix2 (31 - emax)) by (rewrite <- !bpow_plus; f_equal; lia).
  pose proof (bpow_gt_0 radix2 (- prec)) as U0. pose proof (bpow_gt_0 radix2 (31 - emax)) as V0.
  assert (B : bpow radix2 (-29) <= / 1024) by (change (/ 1024) with (bpow radix2 (-10)); apply bpow_le; lia). pose proof (bpow_gt_0 radix2 (-29)).
  rewrite !Rmult_assoc. apply Rmult_le_compat; [lra| |exact B|].
  - apply Rmult_le_pos; lra.
  - apply Rmult_le_compat_l; [lra|exact (proj1 W)].
Qed.

Lemma comb (a b S : fl) A B C : (S = nadd a b /\ C = A + B \/ S = nsub a b /\ C = A - B) ->
  fnear a A (15 * u * (P * N)) -> fnear b B (15 * u * (P * N)) -> Rabs A <= P * N -> Rabs B <= P * N ->
  is_finite S = true /\ fnear (nmul S half) (C / 2) (18 * u * (P * N)).
Proof.
  intros HS (Fa & Ea) (Fb & Eb) HA HB. pose proof tiny_W as T. pose proof (u_small H24) as U. pose proof (bpow_gt_0 radix2 (- prec)) as U0. set (w := P * N) in *.
  assert (W0 : 0 < w) by (unfold w; apply Rmult_lt_0_compat; assumption).
  assert (BW : 8 * w <= bpow radix2 (emax - 1)).
  { apply Rle_trans with (bpow radix2 3 * bpow radix2 (emax - 31)); [change (bpow radix2 3) with 8; destruct W; lra|]. rewrite <- bpow_plus. apply bpow_le. lia. }
  assert (uw : u * w <= / 1024 * w) by (apply Rmult_le_compat_r; lra). assert (uuw : u * (u * w) <= u * (/ 1024 * w)) by (apply Rmult_le_compat_l; lra).
  assert (uw0 : 0 < u * w) by (apply Rmult_lt_0_compat; lra).
  apply Rabs_le_inv in Ea, Eb, HA, HB.
  assert (K : is_finite S = true /\ exists z, Rabs (z - C) <= 30 * u * w /\ Rabs C <= 2 * w /\ Rabs (B2R S - z) <= u * Rabs z).
  { destruct HS as [(-> & ->)|(-> & ->)].
    - destruct (add_val a b Fa Fb) as (F & _ & E); [apply Rabs_le; lra|]. split; [exact F|]. exists (B2R a + B2R b). repeat split; [apply Rabs_le; lra|apply Rabs_le; lra|exact E].
    - destruct (sub_val a b Fa Fb) as (F & _ & E); [apply Rabs_le; lra|]. split; [exact F|]. exists (B2R a - B2R b). repeat split; [apply Rabs_le; lra|apply Rabs_le; lra|exact E]. }
  destruct K as (FS & z & K1 & K2 & K3). split; [exact FS|].
  assert (KZ : Rabs z <= 2 * w + 30 * u * w). { replace z with (C + (z - C)) by ring. eapply Rle_trans; [apply Rabs_triang|]. lra. }
  assert (KS : Rabs (B2R S - C) <= 33 * u * w).
  { replace (B2R S - C) with ((B2R S - z) + (z - C)) by ring. eapply Rle_trans; [apply Rabs_triang|]. assert (u * Rabs z <= u * (2 * w + 30 * u * w)) by (apply Rmult_le_compat_l; lra). nra. }
  destruct half_val as (Fh & Vh).
  apply Rabs_le_inv in KS, K2.
  destruct (mul_val S half FS Fh) as (FM & VM); [rewrite Vh; apply Rabs_le; lra|]. split; [exact FM|]. rewrite VM, Vh.
  pose proof (rnd_rel (prec := prec) (emax := emax) (B2R S * / 2)) as R.
  assert (Z2 : Rabs (B2R S * / 2) <= 17 / 16 * w) by (apply Rabs_le; lra). assert (u * Rabs (B2R S * / 2) <= u * (17 / 16 * w)) by (apply Rmult_le_compat_l; lra).
  apply Rabs_le_inv in R. apply Rabs_le. lra.
Qed.

Lemma prod_near (i : nat) : (i < 4)%nat -> exists A B, fnear (vat (qmul p q : vec fl 4) i) A (15 * u * (P * N)) /\ fnear (vat (qmul q p : vec fl 4) i) B (15 * u * (P * N)) /\
  Rabs A <= P * N /\ Rabs B <= P * N /\
  let a := fun i => B2R (vat (p : vec fl 4) i) in let b := fun i => B2R (vat (q : vec fl 4) i) in
  A = nth i [a 0%nat * b 0%nat - a 1%nat * b 1%nat - a 2%nat * b 2%nat - a 3%nat * b 3%nat; a 0%nat * b 1%nat + a 1%nat * b 0%nat + a 2%nat * b 3%nat - a 3%nat * b 2%nat;
    a 0%nat * b 2%nat - a 1%nat * b 3%nat + a 2%nat * b 0%nat + a 3%nat * b 1%nat; a 0%nat * b 3%nat + a 1%nat * b 2%nat - a 2%nat * b 1%nat + a 3%nat * b 0%nat] 0 /\
  B = nth i [b 0%nat * a 0%nat - b 1%nat * a 1%nat - b 2%nat * a 2%nat - b 3%nat * a 3%nat; b 0%nat * a 1%nat + b 1%nat * a 0%nat + b 2%nat * a 3%nat - b 3%nat * a 2%nat;
    b 0%nat * a 2%nat - b 1%nat * a 3%nat + b 2%nat * a 0%nat + b 3%nat * a 1%nat; b 0%nat * a 3%nat + b 1%nat * a 2%nat - b 2%nat * a 1%nat + b 3%nat * a 0%nat] 0.
Proof.
  intros Hi. pose proof (qcomp_le _ _ _ _ _ Lp) as (p0 & p1 & p2 & p3). pose proof (qcomp_le _ _ _ _ _ Lq) as (q0 & q1 & q2 & q3).
  assert (BP : forall i, (i < 4)%nat -> fbnd P (vat (p : vec fl 4) i)).
  { intros j Hj. split; [apply Fp, Hj|]. destruct j as [|[|[|[|j]]]]; [exact p0|exact p1|exact p2|exact p3|lia]. }
  assert (BQ : forall i, (i < 4)%nat -> fbnd N (vat (q : vec fl 4) i)).
  { intros j Hj. split; [apply Fq, Hj|]. destruct j as [|[|[|[|j]]]]; [exact q0|exact q1|exact q2|exact q3|lia]. }
  destruct (c109_quaternion_product prec emax Hp He P N p q H24 P0 N0 W BP BQ) as (E0 & E1 & E2 & E3).
  assert (W' : bpow radix2 (31 - emax) <= N * P <= bpow radix2 (emax - 31)) by (rewrite Rmult_comm; exact W).
  destruct (c109_quaternion_product prec emax Hp He N P q p H24 N0 P0 W' BQ BP) as (D0 & D1 & D2 & D3). rewrite (Rmult_comm N P) in D0, D1, D2, D3.
  assert (LH : qlength (hamilton (qval p) (qval q)) <= P * N) by (rewrite hamilton_length; apply Rmult_le_compat; try assumption; apply qlength_pos).
  assert (LK : qlength (hamilton (qval q) (qval p)) <= P * N) by (rewrite hamilton_length, (Rmult_comm P N); apply Rmult_le_compat; try assumption; apply qlength_pos).
  apply qcomp_le in LH, LK. destruct LH as (h0 & h1 & h2 & h3), LK as (k0 & k1 & k2 & k3).
  destruct i as [|[|[|[|i]]]]; [| | | |lia]; cbn [nth]; cbv beta zeta.
  - do 2 eexists. split; [exact E0|]. split; [exact D0|]. split; [exact h0|]. split; [exact k0|]. split; reflexivity.
  - do 2 eexists. split; [exact E1|]. split; [exact D1|]. split; [exact h1|]. split; [exact k1|]. split; reflexivity.
  - do 2 eexists. split; [exact E2|]. split; [exact D2|]. split; [exact h2|]. split; [exact k2|]. split; reflexivity.
  - do 2 eexists. split; [exact E3|]. split; [exact D3|]. split; [exact h3|]. split; [exact k3|]. split; reflexivity.
Qed.

Lemma inner_near i : (i < 4)%nat -> fnear (vat (qinner p q : vec fl 4) i)
  (match i with O => B2R (qscalar p) * B2R (qscalar q) - (B2R (vat (p : vec fl 4) 1) * B2R (vat (q : vec fl 4) 1) + B2R (vat (p : vec fl 4) 2) * B2R (vat (q : vec fl 4) 2) + B2R (vat (p : vec fl 4) 3) * B2R (vat (q : vec fl 4) 3))
   | _ => B2R (qscalar p) * B2R (vat (q : vec fl 4) i) + B2R (qscalar q) * B2R (vat (p : vec fl 4) i) end) (18 * u * (P * N)).
Proof.
  intros Hi. destruct (prod_near i Hi) as (A & B & HA & HB & LA & LB & EA & EB). destruct (comb _ _ _ A B _ (or_introl (conj eq_refl eq_refl)) HA HB LA LB) as (_ & (F & E)).
  rewrite inner_vat by exact Hi. split; [exact F|]. cbv beta zeta in EA, EB. subst A B. unfold qscalar. destruct i as [|[|[|[|i]]]]; [| | | |lia]; cbn [nth] in E; (eapply Rle_trans; [right|exact E]; f_equal; field).
Qed.
Lemma outer_near i : (0 < i < 4)%nat -> let a := fun i => B2R (vat (p : vec fl 4) i) in let b := fun i => B2R (vat (q : vec fl 4) i) in
  fnear (vat (qouter p q : vec fl 4) i) (match i with 1 => a 2%nat * b 3%nat - a 3%nat * b 2%nat | 2 => a 3%nat * b 1%nat - a 1%nat * b 3%nat | _ => a 1%nat * b 2%nat - a 2%nat * b 1%nat end) (18 * u * (P * N)).
Proof.
  intros Hi a b. destruct (prod_near i ltac:(lia)) as (A & B & HA & HB & LA & LB & EA & EB). destruct (comb _ _ _ A B _ (or_intror (conj eq_refl eq_refl)) HA HB LA LB) as (_ & (F & E)).
  rewrite outer_vat by lia. split; [exact F|]. cbv beta zeta in EA, EB. subst A B. unfold a, b. destruct i as [|[|[|[|i]]]]; [lia| | | |lia]; cbn [nth] in E; (eapply Rle_trans; [right|exact E]; f_equal; field).
Qed.
Lemma outer_scalar : vat (qouter p q : vec fl 4) 0 = B754_zero false.
Proof.
  destruct (prod_near 0 ltac:(lia)) as (A & B & (FA & _) & _). rewrite outer_vat by lia. rewrite <- (qmul_comm0 p q), (sub_self _ FA). exact zero_half.
Qed.
Lemma outer_anti i : (i < 4)%nat -> B2R (vat (qouter q p : vec fl 4) i) = - B2R (vat (qouter p q : vec fl 4) i).
Proof.
  intros Hi. destruct (prod_near i Hi) as (A & B & HA & HB & LA & LB & _). destruct (comb _ _ _ A B _ (or_intror (conj eq_refl eq_refl)) HA HB LA LB) as (F1 & (F2 & _)).
  destruct (comb _ _ _ B A _ (or_intror (conj eq_refl eq_refl)) HB HA LB LA) as (G1 & (G2 & _)). rewrite !outer_vat by exact Hi.
  rewrite (fmul_R _ _ F2), (fmul_R _ _ G2). rewrite !fsub_add_neg in *. rewrite (fadd_R _ _ F1), (fadd_R _ _ G1). cbn [nneg num_float]. rewrite !B2R_Bopp.
  rewrite <- round_NE_opp. f_equal. rewrite Ropp_mult_distr_l, <- round_NE_opp. f_equal. f_equal. ring.
Qed.
End F.

Theorem c151_inner_commutes :
  forall (prec emax : Z) (Hp : Prec_gt_0 prec) (He : Prec_lt_emax prec emax) (p q : quat (binary_float prec emax)), qinner p q = qinner q p.
Proof.
  intros prec emax Hp He p q. unfold qinner. f_equal. unfold qadd, vadd. f_equal; [apply fadd_comm|].
  apply (vec_ext n0). intros i Hi. destruct i as [|[|[|i]]]; [apply fadd_comm..|lia].
Qed.

Theorem c151_inner :
  forall (prec emax : Z) (Hp : Prec_gt_0 prec) (He : Prec_lt_emax prec emax) (p q : quat (binary_float prec emax)) (P N : R),
  (24 <= prec)%Z -> 0 < P -> 0 < N -> bpow radix2 (31 - emax) <= P * N <= bpow radix2 (emax - 31) ->
  (forall i, (i < 4)%nat -> is_finite (vat (p : vec _ 4) i) = true /\ is_finite (vat (q : vec _ 4) i) = true) ->
  let a := fun i => B2R (vat (p : vec _ 4) i) in let b := fun i => B2R (vat (q : vec _ 4) i) in let e := 18 * bpow radix2 (- prec) * (P * N) in
  rlength 4 a <= P -> rlength 4 b <= N ->
  fnear (vat (qinner p q : vec _ 4) 0) (a 0%nat * b 0%nat - (a 1%nat * b 1%nat + a 2%nat * b 2%nat + a 3%nat * b 3%nat)) e /\
  forall i, (1 <= i < 4)%nat -> fnear (vat (qinner p q : vec _ 4) i) (a 0%nat * b i + b 0%nat * a i) e.
Proof.
  intros prec emax Hp He p q P N H24 P0 N0 W F a b e La Lb.
  assert (Lp : qlength (qval p) <= P) by (eapply Rle_trans; [right; exact (qlength_fnrm a)|exact La]). assert (Lq : qlength (qval q) <= N) by (eapply Rle_trans; [right; exact (qlength_fnrm b)|exact Lb]).
  pose proof (inner_near H24 p q P N P0 N0 W (fun i Hi => proj1 (F i Hi)) (fun i Hi => proj2 (F i Hi)) Lp Lq) as H. split; [exact (H 0%nat ltac:(lia))|].
  intros [|i] Hi; [lia|]. exact (H (S i) ltac:(lia)).
Qed.

Theorem c151_outer :
  forall (prec emax : Z) (Hp : Prec_gt_0 prec) (He : Prec_lt_emax prec emax) (p q : quat (binary_float prec emax)) (P N : R),
  (24 <= prec)%Z -> 0 < P -> 0 < N -> bpow radix2 (31 - emax) <= P * N <= bpow radix2 (emax - 31) ->
  (forall i, (i < 4)%nat -> is_finite (vat (p : vec _ 4) i) = true /\ is_finite (vat (q : vec _ 4) i) = true) ->
  let a := fun i => B2R (vat (p : vec _ 4) i) in let b := fun i => B2R (vat (q : vec _ 4) i) in let e := 18 * bpow radix2 (- prec) * (P * N) in
  rlength 4 a <= P -> rlength 4 b <= N ->
  vat (qouter p q : vec _ 4) 0 = B754_zero false /\
  fnear (vat (qouter p q : vec _ 4) 1) (a 2%nat * b 3%nat - a 3%nat * b 2%nat) e /\
  fnear (vat (qouter p q : vec _ 4) 2) (a 3%nat * b 1%nat - a 1%nat * b 3%nat) e /\
  fnear (vat (qouter p q : vec _ 4) 3) (a 1%nat * b 2%nat - a 2%nat * b 1%nat) e /\
  forall i, (i < 4)%nat -> B2R (vat (qouter q p : vec _ 4) i) = - B2R (vat (qouter p q : vec _ 4) i).
Proof.
  intros prec emax Hp He p q P N H24 P0 N0 W F a b e La Lb.
  assert (Lp : qlength (qval p) <= P) by (eapply Rle_trans; [right; exact (qlength_fnrm a)|exact La]). assert (Lq : qlength (qval q) <= N) by (eapply Rle_trans; [right; exact (qlength_fnrm b)|exact Lb]).
  pose proof (fun i Hi => proj1 (F i Hi)) as Fp. pose proof (fun i Hi => proj2 (F i Hi)) as Fq.
  pose proof (outer_near H24 p q P N P0 N0 W Fp Fq Lp Lq) as H. split; [exact (outer_scalar H24 p q P N P0 N0 W Fp Fq Lp Lq)|].
  split; [exact (H 1%nat ltac:(lia))|]. split; [exact (H 2%nat ltac:(lia))|]. split; [exact (H 3%nat ltac:(lia))|]. exact (outer_anti H24 p q P N P0 N0 W Fp Fq Lp Lq).
Qed.

Theorem c151_outer_self :
  forall (prec emax : Z) (Hp : Prec_gt_0 prec) (He : Prec_lt_emax prec emax) (q : quat (binary_float prec emax)), (24 <= prec)%Z ->
  (forall i, (i < 4)%nat -> is_finite (vat (qsquared q : vec _ 4) i) = true) -> qouter q q = qzero.
Proof.
  intros prec emax Hp He q H24 F. apply (vec_ext n0 4). intros i Hi. change (vat (qouter q q : vec (binary_float prec emax) 4) i = vat (qzero : vec (binary_float prec emax) 4) i).
  rewrite outer_vat by exact Hi. rewrite (sub_self _ (F i Hi)), zero_half by exact H24. destruct i as [|[|[|[|i]]]]; [reflexivity..|lia].
Qed.

Theorem c151_overflow :
  exists p : quat f64, (forall i, (i < 4)%nat -> is_finite (vat (p : vec f64 4) i) = true) /\ qmul p qidentity = p /\ qmul qidentity p = p /\
  qscalar (qinner p qidentity) = B754_infinity false.
Proof.
  exists (qnew (f64_of_Z (2 ^ 1023)) n0 n0 n0). split; [intros i Hi; destruct i as [|[|[|[|i]]]]; [reflexivity..|lia]|]. split; [|split].
  - apply (vec_ext n0 4). intros i Hi. apply B2SF_inj. destruct i as [|[|[|[|i]]]]; [vm_compute; reflexivity..|lia].
  - apply (vec_ext n0 4). intros i Hi. apply B2SF_inj. destruct i as [|[|[|[|i]]]]; [vm_compute; reflexivity..|lia].
  - apply B2SF_inj. vm_compute. reflexivity.
Qed.

Theorem c151_example :
  let f := f64_of_Z in let p := qnew (f 1%Z) (f 2%Z) (f 3%Z) (f 4%Z) in let q := qnew (f 5%Z) (f 6%Z) (f 7%Z) (f 8%Z) in
  (bpow radix2 (31 - 1024) <= 6 * 14 <= bpow radix2 (1024 - 31) /\ rlength 4 (fun i => B2R (vat (p : vec f64 4) i)) <= 6 /\ rlength 4 (fun i => B2R (vat (q : vec f64 4) i)) <= 14 /\
   forall i, (i < 4)%nat -> is_finite (vat (p : vec f64 4) i) = true /\ is_finite (vat (q : vec f64 4) i) = true) /\
  qinner p q = qnew (f (-60)%Z) (f 16%Z) (f 22%Z) (f 28%Z) /\ qouter p q = qnew (f 0%Z) (f (-4)%Z) (f 8%Z) (f (-4)%Z).
Proof.
  intros f p q. split.
  - split; [|split; [|split]].
    + split; [apply Rle_trans with (bpow radix2 0)|apply Rle_trans with (bpow radix2 7)]; try (apply bpow_le; lia); change (bpow radix2 0) with 1 || change (bpow radix2 7) with 128; lra.
    + assert (V1 : B2R (f64_of_Z 1) = 1) by exact (proj1 (f64_of_Z_exact 1 ltac:(lia))). assert (V2 : B2R (f64_of_Z 2) = 2) by exact (proj1 (f64_of_Z_exact 2 ltac:(lia))).
      assert (V3 : B2R (f64_of_Z 3) = 3) by exact (proj1 (f64_of_Z_exact 3 ltac:(lia))). assert (V4 : B2R (f64_of_Z 4) = 4) by exact (proj1 (f64_of_Z_exact 4 ltac:(lia))).
      change (sqrt (0 + B2R (f64_of_Z 1) * B2R (f64_of_Z 1) + B2R (f64_of_Z 2) * B2R (f64_of_Z 2) + B2R (f64_of_Z 3) * B2R (f64_of_Z 3) + B2R (f64_of_Z 4) * B2R (f64_of_Z 4)) <= 6).
      rewrite V1, V2, V3, V4. rewrite <- (sqrt_square 6) by lra. apply sqrt_le_1_alt. lra.
    + assert (V5 : B2R (f64_of_Z 5) = 5) by exact (proj1 (f64_of_Z_exact 5 ltac:(lia))). assert (V6 : B2R (f64_of_Z 6) = 6) by exact (proj1 (f64_of_Z_exact 6 ltac:(lia))).
      assert (V7 : B2R (f64_of_Z 7) = 7) by exact (proj1 (f64_of_Z_exact 7 ltac:(lia))). assert (V8 : B2R (f64_of_Z 8) = 8) by exact (proj1 (f64_of_Z_exact 8 ltac:(lia))).
      change (sqrt (0 + B2R (f64_of_Z 5) * B2R (f64_of_Z 5) + B2R (f64_of_Z 6) * B2R (f64_of_Z 6) + B2R (f64_of_Z 7) * B2R (f64_of_Z 7) + B2R (f64_of_Z 8) * B2R (f64_of_Z 8)) <= 14).
      rewrite V5, V6, V7, V8. rewrite <- (sqrt_square 14) by lra. apply sqrt_le_1_alt. lra.
    + intros i Hi. destruct i as [|[|[|[|i]]]]; [split; reflexivity..|lia].
  - split; apply (vec_ext n0 4); intros i Hi; apply B2SF_inj; (destruct i as [|[|[|[|i]]]]; [vm_compute; reflexivity..|lia]).
Qed.
