(** Inverse and division of quaternions in floats: the statements of PQInvF.v. *)

From Coq Require Import List Arith ZArith Bool Lia Reals Lra Psatz.
From Flocq Require Import Core.Core IEEE754.BinarySingleNaN.
From Verif Require Import Base Scalar Spec SpecF SpecRigid SpecDrift SpecQInv MVector MMatrix MQuat MFloat MFloatVec MArcF MQInvF
  LBase LVector LVectorR LFloat LFloatNormP LDriftM LDriftP LRigidF LQInvF.
Local Open Scope R_scope.

Lemma c129_inverse :
  forall (prec emax : Z) (Hp : Prec_gt_0 prec) (He : Prec_lt_emax prec emax) (k : Z) (q : quat (binary_float prec emax)),
    let u := bpow radix2 (- prec) in
    let fin (q : quat (binary_float prec emax)) := forall i, (i < 4)%nat -> is_finite (vat (q : vec _ 4) i) = true in
    let val (q : quat (binary_float prec emax)) : rquat :=
      (B2R (vat (q : vec _ 4) 0), B2R (vat (q : vec _ 4) 1), B2R (vat (q : vec _ 4) 2), B2R (vat (q : vec _ 4) 3)) in
    let N := qlength (val q) in
    (24 <= prec)%Z -> (2 * prec <= emax)%Z -> (0 <= k)%Z -> (2 * k + 32 <= emax)%Z ->
    fin q -> bpow radix2 (- k) <= N <= bpow radix2 k -> bpow radix2 (2 - prec) <= N ->
    fqis_invertible q = true /\
    exists v, fqtry_inverse q = Some v /\ fin v /\ qdistance (val v) (rqinv (val q)) <= 10 * u / N /\
      fin (qmul q v) /\ qdistance (val (qmul q v)) (1, 0, 0, 0) <= 42 * u /\
      fin (qmul v q) /\ qdistance (val (qmul v q)) (1, 0, 0, 0) <= 42 * u.
Proof.
  intros prec emax Hp He k q u fin val N H24 H2 Hk Hr Fq HN HE. split.
  - exact (proj2 (some_case H24 k q Hr Fq HN H2 HE)).
  - exact (inverse_main H24 k q Hk Hr Fq HN H2 HE).
Qed.

Lemma c129_division :
  forall (prec emax : Z) (Hp : Prec_gt_0 prec) (He : Prec_lt_emax prec emax) (k : Z) (p q : quat (binary_float prec emax)) (P : R),
    let u := bpow radix2 (- prec) in
    let fin (q : quat (binary_float prec emax)) := forall i, (i < 4)%nat -> is_finite (vat (q : vec _ 4) i) = true in
    let val (q : quat (binary_float prec emax)) : rquat :=
      (B2R (vat (q : vec _ 4) 0), B2R (vat (q : vec _ 4) 1), B2R (vat (q : vec _ 4) 2), B2R (vat (q : vec _ 4) 3)) in
    let N := qlength (val q) in
    (24 <= prec)%Z -> (2 * prec <= emax)%Z -> (0 <= k)%Z -> (2 * k + 32 <= emax)%Z ->
    fin q -> bpow radix2 (- k) <= N <= bpow radix2 k -> bpow radix2 (2 - prec) <= N ->
    fin p -> bpow radix2 (- k) <= P <= bpow radix2 k -> qlength (val p) <= P ->
    exists l r, fqdiv_left p q = Some l /\ fqdiv_right p q = Some r /\ fin l /\ fin r /\
      qdistance (val l) (hamilton (rqinv (val q)) (val p)) <= 42 * u * (P / N) /\
      qdistance (val r) (hamilton (val p) (rqinv (val q))) <= 42 * u * (P / N) /\
      fin (qmul q l) /\ fin (qmul r q) /\
      qdistance (val (qmul q l)) (val p) <= 74 * u * P /\ qdistance (val (qmul r q)) (val p) <= 74 * u * P.
Proof.
  intros prec emax Hp He k p q P u fin val N H24 H2 Hk Hr Fq HN HE Fp HP Lp.
  exact (division_main H24 k q Hk Hr Fq HN H2 HE p P Fp HP Lp).
Qed.

Lemma c129_small :
  forall (prec emax : Z) (Hp : Prec_gt_0 prec) (He : Prec_lt_emax prec emax) (p q : quat (binary_float prec emax)),
    (24 <= prec)%Z -> (2 * prec + 31 <= emax)%Z ->
    (forall i, (i < 4)%nat -> is_finite (vat (q : vec _ 4) i) = true) ->
    qlength (B2R (vat (q : vec _ 4) 0), B2R (vat (q : vec _ 4) 1), B2R (vat (q : vec _ 4) 2), B2R (vat (q : vec _ 4) 3)) <= bpow radix2 (- prec) ->
    fqtry_inverse q = None /\ fqis_invertible q = false /\ fqdiv_left p q = None /\ fqdiv_right p q = None.
Proof.
  intros prec emax Hp He p q H24 H2 Fq HN. destruct (none_case H24 H2 q Fq HN) as (A & B).
  unfold fqdiv_left, fqdiv_right. rewrite A. auto.
Qed.

Lemma c129_refuted :
  (exists q : quat f64, (forall i, (i < 4)%nat -> is_finite (vat (q : vec f64 4) i) = true) /\ 0 < B2R (vat (q : vec f64 4) 0) /\
     is_finite (ndiv n1 (vat (q : vec f64 4) 0)) = true /\ fqtry_inverse q = None) /\
  (exists q v : quat f64, (forall i, (i < 4)%nat -> is_finite (vat (q : vec f64 4) i) = true) /\
     0 < B2R (ndiv n1 (vat (q : vec f64 4) 0)) /\ fqtry_inverse q = Some v /\ (forall i, (i < 4)%nat -> B2R (vat (v : vec f64 4) i) = 0) /\
     (forall i, (i < 4)%nat -> B2R (vat (qmul q v : vec f64 4) i) = 0)).
Proof.
  set (big := f64_of_Z (2 ^ 600)). set (small := ndiv (f64_of_Z 1) (f64_of_Z (2 ^ 60))).
  assert (PS : 0 < B2R small).
  { assert (E : B2SF small = SpecFloat.S754_finite false 4503599627370496%positive (-112)%Z) by (vm_compute; reflexivity).
    destruct small as [s|s| |s m e H]; try discriminate E. injection E as -> -> ->. apply F2R_gt_0. reflexivity. }
  assert (PB : 0 < B2R (ndiv (f64_of_Z 1) big)).
  { set (x := ndiv _ _). assert (E : B2SF x = SpecFloat.S754_finite false 4503599627370496%positive (-652)%Z) by (vm_compute; reflexivity).
    destruct x as [s|s| |s m e H]; try discriminate E. injection E as -> -> ->. apply F2R_gt_0. reflexivity. }
  assert (Z : forall x : f64, B2SF x = SpecFloat.S754_zero false \/ B2SF x = SpecFloat.S754_zero true -> B2R x = 0).
  { intros x [E|E]; destruct x; try discriminate E; reflexivity. }
  split.
  - exists (qnew small (f64_of_Z 0) (f64_of_Z 0) (f64_of_Z 0)). conjs.
    + intros i Hi. destruct i as [|[|[|[|i]]]]; [| | | |lia]; vm_compute; reflexivity.
    + exact PS.
    + vm_compute; reflexivity.
    + unfold fqtry_inverse. cbv zeta. replace (Bleb _ _) with true by (vm_compute; reflexivity). reflexivity.
  - exists (qnew big (f64_of_Z 0) (f64_of_Z 0) (f64_of_Z 0)). eexists. conjs.
    + intros i Hi. destruct i as [|[|[|[|i]]]]; [| | | |lia]; vm_compute; reflexivity.
    + exact PB.
    + unfold fqtry_inverse. cbv zeta. replace (Bleb _ _) with false by (vm_compute; reflexivity). reflexivity.
    + intros i Hi. apply Z. destruct i as [|[|[|[|i]]]]; [| | | |lia]; vm_compute; auto.
    + intros i Hi. apply Z. destruct i as [|[|[|[|i]]]]; [| | | |lia]; vm_compute; auto.
Qed.

Lemma c129_example :
  let q := qnew (f64_of_Z 1) (f64_of_Z 2) (f64_of_Z 2) (f64_of_Z 4) in
  let val (q : quat f64) : rquat := (B2R (vat (q : vec _ 4) 0), B2R (vat (q : vec _ 4) 1), B2R (vat (q : vec _ 4) 2), B2R (vat (q : vec _ 4) 3)) in
  (forall i, (i < 4)%nat -> is_finite (vat (q : vec f64 4) i) = true) /\ qlength (val q) = 5 /\
  bpow radix2 (- 10) <= 5 <= bpow radix2 10 /\ bpow radix2 (2 - 53) <= 5 /\ (2 * 10 + 32 <= 1024)%Z /\
  rqinv (val q) = (1 / 25, - 2 / 25, - 2 / 25, - 4 / 25).
Proof.
  intros q val.
  destruct (f64_of_Z_exact 1 ltac:(lia)) as (V1 & F1), (f64_of_Z_exact 2 ltac:(lia)) as (V2 & F2), (f64_of_Z_exact 4 ltac:(lia)) as (V4 & F4).
  assert (EV : val q = (1, 2, 2, 4)).
  { unfold val. change (vat (q : vec f64 4) 0) with (f64_of_Z 1). change (vat (q : vec f64 4) 1) with (f64_of_Z 2).
    change (vat (q : vec f64 4) 2) with (f64_of_Z 2). change (vat (q : vec f64 4) 3) with (f64_of_Z 4). rewrite V1, V2, V4. reflexivity. }
  rewrite EV. conjs.
  - intros i Hi. destruct i as [|[|[|[|i]]]]; [exact F1|exact F2|exact F2|exact F4|lia].
  - unfold qlength. replace (_ + _) with (5 * 5) by ring. apply sqrt_square. lra.
  - cbn. lra.
  - cbn. lra.
  - cbn. lra.
  - lia.
  - unfold rqinv. cbv zeta. repeat (apply f_equal2; [|field]). field.
Qed.
