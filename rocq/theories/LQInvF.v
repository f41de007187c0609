(** Inverse and division of quaternions in floats (C129). *)

From Coq Require Import List Arith ZArith Bool Lia Reals Lra Psatz.
From Flocq Require Import Core.Core IEEE754.BinarySingleNaN.
From Verif Require Import Base Scalar Spec SpecF SpecRigid SpecDrift SpecQInv MVector MMatrix MQuat MFloat MFloatVec MArcF MQInvF
  LBase LVector LVectorR LFloat LFloatVec LFloatP LFloatAcc LFloatNormP LFloatExP LDriftM LDriftP LRigidF LNormF LArc LArcN LArcP LRefF LRefFP.
Local Open Scope R_scope.

(** * Over the reals *)
Lemma qlen2 a0 a1 a2 a3 : qlength (a0, a1, a2, a3) * qlength (a0, a1, a2, a3) = a0 * a0 + a1 * a1 + a2 * a2 + a3 * a3.
Proof. unfold qlength. apply sqrt_sqrt. nra. Qed.
Lemma rqinv_mul a : 0 < qlength a -> hamilton a (rqinv a) = (1, 0, 0, 0) /\ hamilton (rqinv a) a = (1, 0, 0, 0).
Proof.
  destruct a as (((a0, a1), a2), a3). intros H. pose proof (qlen2 a0 a1 a2 a3) as L.
  assert (N : a0 * a0 + a1 * a1 + a2 * a2 + a3 * a3 <> 0) by nra.
  unfold rqinv, hamilton. cbv zeta. split; (repeat (apply f_equal2; [|field; exact N]); field; exact N).
Qed.
Lemma hamilton_assoc a b c : hamilton a (hamilton b c) = hamilton (hamilton a b) c.
Proof.
  destruct a as (((a0, a1), a2), a3), b as (((b0, b1), b2), b3), c as (((c0, c1), c2), c3). unfold hamilton.
  repeat (apply f_equal2; [|ring]). ring.
Qed.
Lemma hamilton_1 a : hamilton (1, 0, 0, 0) a = a /\ hamilton a (1, 0, 0, 0) = a.
Proof. destruct a as (((a0, a1), a2), a3). unfold hamilton. split; (repeat (apply f_equal2; [|ring]); ring). Qed.
Lemma qdistance_mul_l a b c : qdistance (hamilton c a) (hamilton c b) = qlength c * qdistance a b.
Proof.
  destruct a as (((a0, a1), a2), a3), b as (((b0, b1), b2), b3), c as (((c0, c1), c2), c3).
  unfold qdistance. rewrite <- hamilton_length. unfold hamilton, qlength. apply f_equal. ring.
Qed.
Lemma rqinv_len a : 0 < qlength a -> qlength (rqinv a) = / qlength a.
Proof.
  intros H. destruct (rqinv_mul a H) as (E & _). apply (f_equal qlength) in E. rewrite hamilton_length in E.
  assert (O : qlength (1, 0, 0, 0) = 1) by (unfold qlength; replace (_ + _) with 1 by ring; apply sqrt_1).
  rewrite O in E. apply (Rmult_eq_reg_l (qlength a)); [|lra]. rewrite E. field. lra.
Qed.
Lemma c129_spec : forall a b : rquat, 0 < qlength a ->
  hamilton a (rqinv a) = (1, 0, 0, 0) /\ hamilton (rqinv a) a = (1, 0, 0, 0) /\
  hamilton a (hamilton (rqinv a) b) = b /\ hamilton (hamilton b (rqinv a)) a = b /\ qlength (rqinv a) = / qlength a.
Proof.
  intros a b H. destruct (rqinv_mul a H) as (E & F). split; [exact E|]. split; [exact F|]. split; [|split].
  - rewrite hamilton_assoc, E. apply hamilton_1.
  - rewrite <- hamilton_assoc, F. apply hamilton_1.
  - apply rqinv_len, H.
Qed.

Lemma qlength_fnrm f : qlength (f 0%nat, f 1%nat, f 2%nat, f 3%nat) = fnrm 4 f.
Proof. unfold qlength. change (fnrm 4 f) with (rlength 4 f). unfold rlength. apply f_equal. cbn [sum]. rnum. ring. Qed.
Lemma qdistance_fnrm f g : qdistance (f 0%nat, f 1%nat, f 2%nat, f 3%nat) (g 0%nat, g 1%nat, g 2%nat, g 3%nat) = fnrm 4 (fun i => f i - g i).
Proof. exact (qlength_fnrm (fun i => f i - g i)). Qed.

Section QInv.
Context {prec emax : Z} {Hp : Prec_gt_0 prec} {He : Prec_lt_emax prec emax}.
Notation fl := (binary_float prec emax).
Notation u := (bpow radix2 (- prec)).
Notation t := (@ftiny prec emax).
Hypothesis H24 : (24 <= prec)%Z.

Lemma qmul_acc (p q : quat fl) P M : qfin p -> qfin q -> 0 < P -> 0 < M -> @wok emax (P * M) -> qlength (qval p) <= P -> qlength (qval q) <= M ->
  qfin (qmul p q) /\ qdistance (qval (qmul p q)) (hamilton (qval p) (qval q)) <= 30 * u * (P * M).
Proof.
  intros Fp Fq P0 M0 W Lp Lq. apply qcomp_le in Lp, Lq.
  destruct (c109_quaternion_product prec emax Hp He P M p q H24 P0 M0 W) as (E0 & E1 & E2 & E3).
  { intros i Hi. split; [apply Fp; exact Hi|]. destruct Lp as (L0 & L1 & L2 & L3).
    destruct i as [|[|[|[|i]]]]; [exact L0|exact L1|exact L2|exact L3|lia]. }
  { intros i Hi. split; [apply Fq; exact Hi|]. destruct Lq as (L0 & L1 & L2 & L3).
    destruct i as [|[|[|[|i]]]]; [exact L0|exact L1|exact L2|exact L3|lia]. }
  destruct E0 as (F0 & E0), E1 as (F1 & E1), E2 as (F2 & E2), E3 as (F3 & E3).
  split.
  - intros i Hi. destruct i as [|[|[|[|i]]]]; [exact F0|exact F1|exact F2|exact F3|lia].
  - replace (30 * u * (P * M)) with (2 * (15 * u * (P * M))) by ring.
    unfold qval, qdistance, hamilton. apply qlen_comp; [|exact E0|exact E1|exact E2|exact E3].
    pose proof (bpow_gt_0 radix2 (- prec)). apply Rmult_le_pos; [lra|apply Rmult_le_pos; lra].
Qed.

(** * The inverse *)
Variables (k : Z) (q : quat fl).
Hypothesis Hk : (0 <= k)%Z.
Hypothesis Hr : (2 * k + 32 <= emax)%Z.
Hypothesis Fq : qfin q.
Notation N := (qlength (qval q)).
Hypothesis HN : bpow radix2 (- k) <= N <= bpow radix2 k.
Notation Q := (fun i => B2R (vat (q : vec fl 4) i)).
Notation s := (qnorm_squared q).

Lemma N_pos : 0 < N.
Proof. pose proof (bpow_gt_0 radix2 (- k)). lra. Qed.
Lemma N_fnrm : N = fnrm 4 Q.
Proof. exact (qlength_fnrm Q). Qed.
Lemma norm2_acc : is_finite s = true /\ Rabs (B2R s - N * N) <= 8 * u * (N * N).
Proof.
  pose proof HN as HL. pose proof N_fnrm as EN. rewrite EN in *.
  assert (W : @wok emax (fnrm 4 Q * fnrm 4 Q)) by (apply (@wok_prod emax 4 k ltac:(lia) ltac:(lia)); exact HL).
  destruct (dotg H24 4 ltac:(lia) _ W 1 (fun i => vat (q : vec fl 4) i) (fun i => vat (q : vec fl 4) i) ltac:(lra) ltac:(lra) Fq Fq (Req_le _ _ (eq_sym (Rmult_1_l _)))) as (F & E).
  assert (ES : s = sum 4 (fun j => nmul (vat (q : vec fl 4) j) (vat (q : vec fl 4) j))) by (unfold qnorm_squared, qdot; apply vdot_sum).
  rewrite ES. split; [exact F|]. rewrite Rmult_1_r in E. eapply Rle_trans; [|exact E]. right. apply f_equal, f_equal.
  apply sqrt_sqrt. apply (rsum_nonneg 4 (fun j => Q j * Q j)). intros; apply Rle_0_sqr.
Qed.

Definition cj (i : nat) : fl := match i with 0%nat => vat (q : vec fl 4) 0 | _ => nneg (vat (q : vec fl 4) i) end.
Lemma inv_at (d : fl) i : (i < 4)%nat -> vat (qdiv_s (qconj q) d : vec fl 4) i = ndiv (cj i) d.
Proof. intros Hi. unfold cj. destruct q as (a0 & a1 & a2 & a3 & []). destruct i as [|[|[|[|i]]]]; [reflexivity|reflexivity|reflexivity|reflexivity|lia]. Qed.
Lemma cj_fin i : (i < 4)%nat -> is_finite (cj i) = true.
Proof.
  intros Hi. destruct i as [|i]; [apply Fq; lia|]. change (is_finite (Bopp (vat (q : vec fl 4) (S i))) = true). rewrite is_finite_Bopp. apply Fq, Hi.
Qed.
Lemma cj_val i : B2R (cj i) = match i with 0%nat => Q 0%nat | _ => - Q i end.
Proof. destruct i as [|i]; [reflexivity|]. apply B2R_Bopp. Qed.
Lemma cj_len : fnrm 4 (fun i => B2R (cj i)) = N.
Proof.
  rewrite N_fnrm. unfold fnrm. apply f_equal. apply sum_ext. intros i Hi. rewrite cj_val. destruct i; rnum; ring.
Qed.
Lemma inv_exact : rqinv (qval q) = (B2R (cj 0%nat) / (N * N), B2R (cj 1%nat) / (N * N), B2R (cj 2%nat) / (N * N), B2R (cj 3%nat) / (N * N)).
Proof.
  rewrite !cj_val. unfold qval. rewrite qlen2. reflexivity.
Qed.

Lemma inverse_acc : let v := qdiv_s (qconj q) s in qfin v /\ qdistance (qval v) (rqinv (qval q)) <= 10 * u / N.
Proof.
  intros v. destruct norm2_acc as (Fs & Es). pose proof N_pos as N0. pose proof (u_small H24) as U.
  set (n := N) in *. set (z := B2R s) in *. assert (NN : 0 < n * n) by nra.
  assert (Z1 : n * n * (1 - 8 * u) <= z) by (apply Rabs_le_inv in Es; lra).
  assert (Z0 : 0 < z) by nra.
  assert (IS : / z <= 101 / 100 * / (n * n)).
  { apply (Rmult_le_reg_r z); [exact Z0|]. rewrite Rinv_l by lra.
    apply Rle_trans with (101 / 100 * / (n * n) * (n * n * (1 - 8 * u))); [|apply Rmult_le_compat_l; [apply Rmult_le_pos; [lra|]; apply Rlt_le, Rinv_0_lt_compat; lra|exact Z1]].
    replace (101 / 100 * / (n * n) * (n * n * (1 - 8 * u))) with (101 / 100 * (1 - 8 * u)) by (field; nra). lra. }
  assert (I0 : 0 < / z) by (apply Rinv_0_lt_compat, Z0). assert (I1 : 0 < / (n * n)) by (apply Rinv_0_lt_compat, NN). assert (I2 : 0 < / n) by (apply Rinv_0_lt_compat, N0).
  assert (EI : n * / (n * n) = / n) by (field; lra).
  assert (RI : bpow radix2 (- k) <= / n <= bpow radix2 k) by (apply inv_rng; exact HN).
  assert (WI : @wok emax (/ n)).
  { split; (eapply Rle_trans; [|apply RI]) || (eapply Rle_trans; [apply RI|]); apply bpow_le; lia. }
  pose proof (@ftiny_w prec emax _ WI) as T. pose proof (@ftiny_pos prec emax) as T0. pose proof (V_max _ WI) as VM.
  assert (CL : forall i, (i < 4)%nat -> Rabs (B2R (cj i)) <= n).
  { intros i Hi. unfold n. rewrite <- cj_len. apply (fnrm_comp 4 (fun i => B2R (cj i)) i Hi). }
  assert (ST : forall i, (i < 4)%nat -> is_finite (ndiv (cj i) s) = true /\ Rabs (B2R (ndiv (cj i) s) - B2R (cj i) / (n * n)) <= 92 / 10 * u * / (n * n) * Rabs (B2R (cj i)) + t).
  { intros i Hi. set (c := B2R (cj i)). pose proof (CL i Hi) as Ci. fold c in Ci.
    assert (AC : Rabs (c / z) <= Rabs c * (101 / 100 * / (n * n))).
    { unfold Rdiv. rewrite Rabs_mult, (Rabs_pos_eq (/ z)) by lra. apply Rmult_le_compat_l; [apply Rabs_pos|exact IS]. }
    assert (AC2 : Rabs (c / z) <= 101 / 100 * / n).
    { eapply Rle_trans; [exact AC|]. apply Rle_trans with (n * (101 / 100 * / (n * n))); [apply Rmult_le_compat_r; lra|]. rewrite <- EI. lra. }
    assert (ZN : B2R s <> 0) by (fold z; lra).
    destruct (fdiv_fin (cj i) s (cj_fin i Hi) ZN) as (F & dl & ee & Hdl & Hee & E).
    { fold z. change (B2R (cj i)) with c. eapply Rle_trans; [exact AC2|]. lra. }
    split; [exact F|]. rewrite E. change (B2R (cj i)) with c. fold z. rewrite funit_eq in Hdl.
    assert (B1 : Rabs (c / z - c / (n * n)) <= Rabs c * (808 / 100 * u * / (n * n))).
    { replace (c / z - c / (n * n)) with (c * ((n * n - z) * / z * / (n * n))) by (field; split; lra).
      rewrite Rabs_mult. apply Rmult_le_compat_l; [apply Rabs_pos|]. rewrite !Rabs_mult, (Rabs_pos_eq (/ z)), (Rabs_pos_eq (/ (n * n))) by lra.
      apply Rmult_le_compat_r; [lra|]. rewrite Rabs_minus_sym.
      apply Rle_trans with (8 * u * (n * n) * (101 / 100 * / (n * n))); [apply Rmult_le_compat; [apply Rabs_pos|lra|exact Es|exact IS]|].
      right. field. lra. }
    replace (c / z * (1 + dl) + ee - c / (n * n)) with ((c / z - c / (n * n)) + dl * (c / z) + ee) by ring.
    eapply Rle_trans; [apply Rabs_triang|]. eapply Rle_trans; [apply Rplus_le_compat_r, Rabs_triang|]. rewrite (Rabs_mult dl).
    assert (B2 : Rabs dl * Rabs (c / z) <= u * (Rabs c * (101 / 100 * / (n * n)))) by (apply Rmult_le_compat; [apply Rabs_pos|apply Rabs_pos|exact Hdl|exact AC]).
    assert (B3 : 0 <= u * / (n * n) * Rabs c) by (apply Rmult_le_pos; [apply Rmult_le_pos; lra|apply Rabs_pos]).
    nra. }
  split; [intros i Hi; unfold v; rewrite inv_at by exact Hi; apply ST, Hi|].
  rewrite inv_exact. fold n. unfold qval.
  rewrite (qdistance_fnrm (fun i => B2R (vat (v : vec fl 4) i)) (fun i => B2R (cj i) / (n * n))).
  eapply Rle_trans; [apply (fnrm_le 4 _ (fun i => 92 / 10 * u * / (n * n) * Rabs (B2R (cj i)) + t))|].
  - intros i Hi. unfold v. rewrite inv_at by exact Hi. eapply Rle_trans; [apply ST, Hi|]. apply Rle_abs.
  - eapply Rle_trans; [apply (fnrm_tri 4 (fun i => 92 / 10 * u * / (n * n) * Rabs (B2R (cj i))) (fun _ => t))|].
    rewrite (fnrm_scale 4 (92 / 10 * u * / (n * n)) (fun i => Rabs (B2R (cj i)))), (abs_family 4 (fun i => B2R (cj i))), cj_len. fold n.
    rewrite Rabs_pos_eq by (apply Rmult_le_pos; lra).
    pose proof (fnrm_bound 4 (fun _ => t) t ltac:(lra) ltac:(intros; rewrite Rabs_pos_eq by lra; lra)) as B. pose proof (sqrt_INR_2 4 ltac:(lia)) as S2.
    assert (sqrt (INR 4) * t <= 2 * t) by (apply Rmult_le_compat_r; lra).
    replace (92 / 10 * u * / (n * n) * n) with (92 / 10 * u * / n) by (field; lra). unfold Rdiv in *.
    assert (0 < u * / n) by (apply Rmult_lt_0_compat; lra). nra.
Qed.

Hypothesis H2 : (2 * prec <= emax)%Z.
Hypothesis HE : bpow radix2 (2 - prec) <= N.
Lemma some_case : fqtry_inverse q = Some (qdiv_s (qconj q) s) /\ fqis_invertible q = true.
Proof.
  destruct norm2_acc as (Fs & Es). pose proof N_pos as N0. pose proof (u_small H24) as U.
  destruct (eps2_facts (prec := prec) (emax := emax) ltac:(lia) H2) as (_ & Fe & Ve).
  assert (G : B2R (nmul feps feps : fl) < B2R s).
  { rewrite Ve. set (n := N) in *. assert (n * n * (1 - 8 * u) <= B2R s) by (apply Rabs_le_inv in Es; lra).
    apply Rlt_le_trans with (n * n * / 2); [|nra].
    assert (B : bpow radix2 (2 - prec) * bpow radix2 (2 - prec) <= n * n) by (apply Rmult_le_compat; try apply bpow_ge_0; exact HE).
    rewrite <- bpow_plus in B. replace (2 - prec + (2 - prec))%Z with (2 - 2 * prec + 2)%Z in B by lia. rewrite bpow_plus in B.
    change (bpow radix2 2) with 4 in B. pose proof (bpow_gt_0 radix2 (2 - 2 * prec)). lra. }
  unfold fqtry_inverse, fqis_invertible. rewrite (Bleb_correct _ _ _ _ Fs Fe), (Bleb_correct _ _ _ _ Fe Fs).
  rewrite Rle_bool_false by exact G. rewrite Rle_bool_true by lra. split; reflexivity.
Qed.
End QInv.

Section Division.
Context {prec emax : Z} {Hp : Prec_gt_0 prec} {He : Prec_lt_emax prec emax}.
Notation fl := (binary_float prec emax).
Notation u := (bpow radix2 (- prec)).
Hypothesis H24 : (24 <= prec)%Z.

Lemma near_len (v : rquat) w e : qdistance v w <= e -> qlength v <= qlength w + e.
Proof. intros H. pose proof (qlength_dist v w) as D. apply Rabs_le_inv in D. lra. Qed.

(** Product of approximations, and its size. *)
Lemma mul_near (p q : quat fl) P M a b e f : qfin p -> qfin q -> 0 < P -> 0 < M ->
  qdistance (qval p) a <= e * P -> qdistance (qval q) b <= f * M -> qlength a <= P -> qlength b <= M ->
  0 <= e <= / 65536 -> 0 <= f <= / 65536 -> @wok emax (P * (1 + / 65536) * (M * (1 + / 65536))) ->
  qfin (qmul p q) /\ qdistance (qval (qmul p q)) (hamilton a b) <= (31 * u + 1001 / 1000 * (e + f)) * (P * M).
Proof.
  intros Fp Fq P0 M0 Dp Dq La Lb He' Hf W2. pose proof (u_small H24) as U.
  pose proof (near_len _ _ _ Dp) as Np. pose proof (near_len _ _ _ Dq) as Nq.
  assert (Np2 : qlength (qval p) <= P * (1 + / 65536)) by nra. assert (Nq2 : qlength (qval q) <= M * (1 + / 65536)) by nra.
  destruct (qmul_acc H24 p q (P * (1 + / 65536)) (M * (1 + / 65536)) Fp Fq ltac:(lra) ltac:(lra) W2 Np2 Nq2) as (F & E).
  split; [exact F|].
  pose proof (qdistance_tri (qval (qmul p q)) (hamilton (qval p) (qval q)) (hamilton a b)) as T1.
  pose proof (qdistance_tri (hamilton (qval p) (qval q)) (hamilton a (qval q)) (hamilton a b)) as T2.
  rewrite qdistance_mul, qdistance_mul_l in T2.
  assert (PM : 0 < P * M) by (apply Rmult_lt_0_compat; assumption).
  assert (A1 : qdistance (qval p) a * qlength (qval q) <= e * P * (M * (1 + / 65536))).
  { apply Rmult_le_compat; [|apply qlength_pos|exact Dp|exact Nq2]. destruct (qval p) as (((?, ?), ?), ?), a as (((?, ?), ?), ?). apply sqrt_pos. }
  assert (A2 : qlength a * qdistance (qval q) b <= P * (f * M)).
  { apply Rmult_le_compat; [apply qlength_pos| |exact La|exact Dq]. destruct (qval q) as (((?, ?), ?), ?), b as (((?, ?), ?), ?). apply sqrt_pos. }
  assert (e * (P * M) >= 0) by (apply Rle_ge, Rmult_le_pos; lra). assert (f * (P * M) >= 0) by (apply Rle_ge, Rmult_le_pos; lra).
  assert (0 < u * (P * M)) by (apply Rmult_lt_0_compat; lra). nra.
Qed.
Lemma wok2 k A B : (2 * k + 32 <= emax)%Z -> bpow radix2 (- k) <= A <= bpow radix2 k -> bpow radix2 (- k) <= B <= bpow radix2 k ->
  @wok emax (A * (1 + / 65536) * (B * (1 + / 65536))).
Proof.
  intros Hr HA HB. pose proof (bpow_gt_0 radix2 (- k)) as K.
  assert (L : bpow radix2 (- k) * bpow radix2 (- k) <= A * B) by (apply Rmult_le_compat; lra).
  assert (U : A * B <= bpow radix2 k * bpow radix2 k) by (apply Rmult_le_compat; lra).
  rewrite <- bpow_plus in L, U. assert (AB : 0 < A * B) by (apply Rmult_lt_0_compat; lra). split.
  - apply Rle_trans with (bpow radix2 (- k + - k)); [apply bpow_le; lia|]. nra.
  - apply Rle_trans with (bpow radix2 (k + k + 1)); [|apply bpow_le; lia]. rewrite bpow_plus. change (bpow radix2 1) with 2. nra.
Qed.
Lemma wok3 k A B : (2 * k + 32 <= emax)%Z -> (0 <= k)%Z -> 0 < A -> bpow radix2 (- k) <= B <= bpow radix2 k -> @wok emax (A * (1 + / 65536) * (B / A * (1 + / 65536))).
Proof.
  intros Hr Hk HA HB. replace (A * (1 + / 65536) * (B / A * (1 + / 65536))) with (1 * (1 + / 65536) * (B * (1 + / 65536))) by (field; lra).
  apply (wok2 k); [exact Hr| |exact HB]. split; [change 1 with (bpow radix2 0)|change 1 with (bpow radix2 0)]; apply bpow_le; lia.
Qed.
Lemma dist_same (a : rquat) : qdistance a a <= 0.
Proof. rewrite qdistance_refl. lra. Qed.

Variables (k : Z) (q : quat fl).
Hypothesis Hk : (0 <= k)%Z.
Hypothesis Hr : (2 * k + 32 <= emax)%Z.
Hypothesis Fq : qfin q.
Notation N := (qlength (qval q)).
Hypothesis HN : bpow radix2 (- k) <= N <= bpow radix2 k.
Hypothesis H2 : (2 * prec <= emax)%Z.
Hypothesis HE : bpow radix2 (2 - prec) <= N.

Lemma inverse_main : exists v, fqtry_inverse q = Some v /\ qfin v /\ qdistance (qval v) (rqinv (qval q)) <= 10 * u / N /\
  qfin (qmul q v) /\ qdistance (qval (qmul q v)) (1, 0, 0, 0) <= 42 * u /\ qfin (qmul v q) /\ qdistance (qval (qmul v q)) (1, 0, 0, 0) <= 42 * u.
Proof.
  destruct (some_case H24 k q Hr Fq HN H2 HE) as (E & _). destruct (inverse_acc H24 k q Hk Hr Fq HN) as (Fv & Dv).
  set (v := qdiv_s (qconj q) (qnorm_squared q)) in *. exists v. split; [exact E|]. split; [exact Fv|]. split; [exact Dv|].
  pose proof (N_pos k q HN) as N0. pose proof (u_small H24) as U. destruct (rqinv_mul _ N0) as (R1 & R2). pose proof (rqinv_len _ N0) as L.
  assert (I0 : 0 < / N) by (apply Rinv_0_lt_compat, N0).
  assert (ONE : N * / N = 1) by (field; lra).
  destruct (mul_near q v N (/ N) (qval q) (rqinv (qval q)) 0 (10 * u) Fq Fv N0 I0) as (F1 & D1).
  { rewrite Rmult_0_l. apply dist_same. } { exact Dv. } { lra. } { lra. } { lra. } { lra. }
  { apply (wok2 k); [exact Hr|exact HN|apply inv_rng, HN]. }
  destruct (mul_near v q (/ N) N (rqinv (qval q)) (qval q) (10 * u) 0 Fv Fq I0 N0) as (F3 & D3).
  { exact Dv. } { rewrite Rmult_0_l. apply dist_same. } { lra. } { lra. } { lra. } { lra. }
  { apply (wok2 k); [exact Hr|apply inv_rng, HN|exact HN]. }
  rewrite R1 in D1. rewrite R2 in D3. rewrite ONE in D1. rewrite (Rmult_comm (/ N)), ONE in D3.
  split; [exact F1|]. split; [lra|]. split; [exact F3|]. lra.
Qed.

Variables (p : quat fl) (P : R).
Hypothesis Fp : qfin p.
Hypothesis HP : bpow radix2 (- k) <= P <= bpow radix2 k.
Hypothesis Lp : qlength (qval p) <= P.
Lemma division_main : exists l r, fqdiv_left p q = Some l /\ fqdiv_right p q = Some r /\ qfin l /\ qfin r /\
  qdistance (qval l) (hamilton (rqinv (qval q)) (qval p)) <= 42 * u * (P / N) /\
  qdistance (qval r) (hamilton (qval p) (rqinv (qval q))) <= 42 * u * (P / N) /\
  qfin (qmul q l) /\ qfin (qmul r q) /\
  qdistance (qval (qmul q l)) (qval p) <= 74 * u * P /\ qdistance (qval (qmul r q)) (qval p) <= 74 * u * P.
Proof.
  destruct (some_case H24 k q Hr Fq HN H2 HE) as (E & _). destruct (inverse_acc H24 k q Hk Hr Fq HN) as (Fv & Dv).
  unfold fqdiv_left, fqdiv_right. rewrite E. set (v := qdiv_s (qconj q) (qnorm_squared q)) in *.
  exists (qmul v p), (qmul p v). split; [reflexivity|]. split; [reflexivity|].
  pose proof (N_pos k q HN) as N0. pose proof (u_small H24) as U. destruct (c129_spec _ (qval p) N0) as (R1 & R2 & R3 & R4 & L).
  assert (P0 : 0 < P) by (pose proof (bpow_gt_0 radix2 (- k)); lra).
  assert (I0 : 0 < / N) by (apply Rinv_0_lt_compat, N0).
  destruct (mul_near v p (/ N) P (rqinv (qval q)) (qval p) (10 * u) 0 Fv Fp I0 P0) as (F1 & D1).
  { exact Dv. } { rewrite Rmult_0_l. apply dist_same. } { lra. } { exact Lp. } { lra. } { lra. }
  { apply (wok2 k); [exact Hr|apply inv_rng, HN|exact HP]. }
  destruct (mul_near p v P (/ N) (qval p) (rqinv (qval q)) 0 (10 * u) Fp Fv P0 I0) as (F2 & D2).
  { rewrite Rmult_0_l. apply dist_same. } { exact Dv. } { exact Lp. } { lra. } { lra. } { lra. }
  { apply (wok2 k); [exact Hr|exact HP|apply inv_rng, HN]. }
  assert (PN : 0 < P / N) by (apply Rdiv_lt_0_compat; assumption).
  assert (E1 : qdistance (qval (qmul v p)) (hamilton (rqinv (qval q)) (qval p)) <= 42 * u * (P / N)).
  { eapply Rle_trans; [exact D1|]. replace (/ N * P) with (P / N) by (unfold Rdiv; ring). apply Rmult_le_compat_r; lra. }
  assert (E2 : qdistance (qval (qmul p v)) (hamilton (qval p) (rqinv (qval q))) <= 42 * u * (P / N)).
  { eapply Rle_trans; [exact D2|]. change (P * / N) with (P / N). apply Rmult_le_compat_r; lra. }
  assert (LL : qlength (hamilton (rqinv (qval q)) (qval p)) <= P / N).
  { rewrite hamilton_length, L. unfold Rdiv. rewrite Rmult_comm. apply Rmult_le_compat_r; lra. }
  assert (LR : qlength (hamilton (qval p) (rqinv (qval q))) <= P / N).
  { rewrite hamilton_length, L. unfold Rdiv. apply Rmult_le_compat_r; lra. }
  assert (CAN : N * (P / N) = P) by (field; lra).
  destruct (mul_near q (qmul v p) N (P / N) (qval q) (hamilton (rqinv (qval q)) (qval p)) 0 (42 * u) Fq F1 N0 PN) as (F3 & D3).
  { rewrite Rmult_0_l. apply dist_same. } { exact E1. } { lra. } { exact LL. } { lra. } { lra. } { apply (wok3 k); assumption. }
  destruct (mul_near (qmul p v) q (P / N) N (hamilton (qval p) (rqinv (qval q))) (qval q) (42 * u) 0 F2 Fq PN N0) as (F4 & D4).
  { exact E2. } { rewrite Rmult_0_l. apply dist_same. } { exact LR. } { lra. } { lra. } { lra. }
  { rewrite Rmult_comm. apply (wok3 k); assumption. }
  rewrite R3 in D3. rewrite R4 in D4. rewrite CAN in D3. rewrite (Rmult_comm (P / N)), CAN in D4.
  conjs; try assumption.
  - eapply Rle_trans; [exact D3|]. apply Rmult_le_compat_r; lra.
  - eapply Rle_trans; [exact D4|]. apply Rmult_le_compat_r; lra.
Qed.
End Division.

Section Small.
Context {prec emax : Z} {Hp : Prec_gt_0 prec} {He : Prec_lt_emax prec emax}.
Notation fl := (binary_float prec emax).
Notation u := (bpow radix2 (- prec)).
Hypothesis H24 : (24 <= prec)%Z.
Hypothesis H2 : (2 * prec + 31 <= emax)%Z.
Lemma none_case (q : quat fl) : qfin q -> qlength (qval q) <= u -> fqtry_inverse q = None /\ fqis_invertible q = false.
Proof.
  intros Fq HN. pose proof (u_small H24) as U. pose proof (N_fnrm q) as EN. rewrite EN in HN.
  destruct (eps2_facts (prec := prec) (emax := emax) ltac:(lia) ltac:(lia)) as (_ & Fe & Ve).
  assert (UU : u * u = bpow radix2 (- (2 * prec))) by (rewrite <- bpow_plus; f_equal; lia).
  assert (W : @wok emax (u * u)) by (rewrite UU; split; apply bpow_le; lia).
  set (Q := fun i => B2R (vat (q : vec fl 4) i)) in *.
  assert (LE : fnrm 4 Q * fnrm 4 Q <= 1 * (u * u)) by (rewrite Rmult_1_l; apply Rmult_le_compat; try apply fnrm_pos; exact HN).
  destruct (dotg H24 4 ltac:(lia) _ W 1 (fun i => vat (q : vec fl 4) i) (fun i => vat (q : vec fl 4) i) ltac:(lra) ltac:(lra) Fq Fq LE) as (F & E).
  assert (ES : qnorm_squared q = sum 4 (fun j => nmul (vat (q : vec fl 4) j) (vat (q : vec fl 4) j))) by (unfold qnorm_squared, qdot; apply vdot_sum).
  rewrite <- ES in F, E.
  assert (EQ : rsum 4 (fun j => Q j * Q j) = fnrm 4 Q * fnrm 4 Q) by (symmetry; apply sqrt_sqrt; apply (rsum_nonneg 4 (fun j => Q j * Q j)); intros; apply Rle_0_sqr).
  change (rsum 4 (fun j => B2R (vat (q : vec fl 4) j) * B2R (vat (q : vec fl 4) j))) with (rsum 4 (fun j => Q j * Q j)) in E. rewrite EQ in E.
  assert (G : B2R (qnorm_squared q) < B2R (nmul feps feps : fl)).
  { rewrite Ve. replace (2 - 2 * prec)%Z with (- (2 * prec) + 2)%Z by lia. rewrite bpow_plus, <- UU. change (bpow radix2 2) with 4.
    apply Rabs_le_inv in E. assert (0 < u * u) by (apply Rmult_lt_0_compat; lra). nra. }
  unfold fqtry_inverse, fqis_invertible. rewrite (Bleb_correct _ _ _ _ F Fe), (Bleb_correct _ _ _ _ Fe F).
  rewrite Rle_bool_true by lra. rewrite Rle_bool_false by exact G. split; reflexivity.
Qed.
End Small.
