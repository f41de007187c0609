(** Rounding errors of viewing frames in floats. *)

From Coq Require Import List Arith ZArith Lia Reals Lra Psatz.
From Flocq Require Import Core.Core IEEE754.BinarySingleNaN.
From Verif Require Import Base Scalar Spec SpecF SpecRigid SpecLook MVector MFloat MFloatVec MLookF LBase LVector LVectorR LFloat LFloatVec LFloatP LFloatAcc
  LFloatExP LDriftM LRigidF LNormF.
Local Open Scope R_scope.

(** * Families of three real numbers *)
Lemma rdot3 a b : rdot a b = a 0%nat * b 0%nat + a 1%nat * b 1%nat + a 2%nat * b 2%nat.
Proof. unfold rdot. cbn. ring. Qed.
Lemma len_rdot a : fnrm 3 a = sqrt (rdot a a).
Proof. reflexivity. Qed.
Lemma rdot_pos a : 0 <= rdot a a.
Proof. rewrite rdot3. nra. Qed.
Lemma len_sq a : fnrm 3 a * fnrm 3 a = rdot a a.
Proof. rewrite len_rdot. apply sqrt_sqrt, rdot_pos. Qed.
Lemma rdot_cs a b : Rabs (rdot a b) <= fnrm 3 a * fnrm 3 b.
Proof. exact (fnrm_cs 3 a b). Qed.
Lemma rdot_sym a b : rdot a b = rdot b a.
Proof. rewrite !rdot3. ring. Qed.
Lemma rdot_add_l a b c : rdot (fun i => a i + b i) c = rdot a c + rdot b c.
Proof. rewrite !rdot3. ring. Qed.
Lemma rdot_sub_l a b c : rdot (fun i => a i - b i) c = rdot a c - rdot b c.
Proof. rewrite !rdot3. ring. Qed.
Lemma rdot_scale_l k a c : rdot (fun i => k * a i) c = k * rdot a c.
Proof. rewrite !rdot3. ring. Qed.

Lemma lagrange a b : rdot (rcross a b) (rcross a b) = rdot a a * rdot b b - rdot a b * rdot a b.
Proof. rewrite !rdot3. unfold rcross. ring. Qed.
Lemma cross_len a b : fnrm 3 (rcross a b) <= fnrm 3 a * fnrm 3 b.
Proof.
  pose proof (fnrm_pos 3 a) as A. pose proof (fnrm_pos 3 b) as B.
  apply Rsqr_incr_0; [|apply fnrm_pos|apply Rmult_le_pos; assumption]. unfold Rsqr.
  rewrite len_sq, lagrange. replace (fnrm 3 a * fnrm 3 b * (fnrm 3 a * fnrm 3 b)) with ((fnrm 3 a * fnrm 3 a) * (fnrm 3 b * fnrm 3 b)) by ring.
  rewrite !len_sq. nra.
Qed.
Lemma cross_orth_len a b : rdot a b = 0 -> fnrm 3 (rcross a b) = fnrm 3 a * fnrm 3 b.
Proof.
  intros H. pose proof (fnrm_pos 3 a) as A. pose proof (fnrm_pos 3 b) as B.
  apply Rsqr_inj; [apply fnrm_pos|apply Rmult_le_pos; assumption|]. unfold Rsqr.
  rewrite len_sq, lagrange, H. replace (fnrm 3 a * fnrm 3 b * (fnrm 3 a * fnrm 3 b)) with ((fnrm 3 a * fnrm 3 a) * (fnrm 3 b * fnrm 3 b)) by ring.
  rewrite !len_sq. ring.
Qed.
Lemma cross_dot_l a b : rdot a (rcross a b) = 0.
Proof. rewrite rdot3. unfold rcross. ring. Qed.
Lemma cross_dot_r a b : rdot b (rcross a b) = 0.
Proof. rewrite rdot3. unfold rcross. ring. Qed.
Lemma cross_diff a a' b b' i : rcross a b i - rcross a' b' i = rcross (fun i => a i - a' i) b i + rcross a' (fun i => b i - b' i) i.
Proof. unfold rcross. destruct i as [|[|i]]; ring. Qed.
Lemma cross_diff_len a a' b b' : fnrm 3 (fun i => rcross a b i - rcross a' b' i) <= fnrm 3 (fun i => a i - a' i) * fnrm 3 b + fnrm 3 a' * fnrm 3 (fun i => b i - b' i).
Proof.
  rewrite (fnrm_ext 3 _ (fun i => rcross (fun i => a i - a' i) b i + rcross a' (fun i => b i - b' i) i)) by (intros; apply cross_diff).
  eapply Rle_trans; [apply fnrm_tri|]. apply Rplus_le_compat; apply cross_len.
Qed.

Lemma dir_len a : 0 < fnrm 3 a -> fnrm 3 (rdir a) = 1.
Proof.
  intros H. rewrite (fnrm_ext 3 _ (fun i => / fnrm 3 a * a i)).
  - rewrite fnrm_scale, Rabs_pos_eq by (left; apply Rinv_0_lt_compat; exact H). field. lra.
  - intros i _. unfold rdir. change (rlength 3 a) with (fnrm 3 a). unfold Rdiv. ring.
Qed.
Lemma dir_pert a b : 0 < fnrm 3 a -> 0 < fnrm 3 b -> fnrm 3 (fun i => rdir a i - rdir b i) <= 2 * fnrm 3 (fun i => a i - b i) / fnrm 3 b.
Proof.
  intros A B. set (e := fnrm 3 (fun i => a i - b i)).
  assert (D1 : fnrm 3 a <= fnrm 3 b + e) by (apply fnrm_near; unfold e; lra).
  assert (D2 : fnrm 3 b <= fnrm 3 a + e).
  { apply fnrm_near. unfold e. rewrite (fnrm_ext 3 _ (fun i => - (a i - b i))) by (intros; ring). rewrite fnrm_neg. lra. }
  rewrite (fnrm_ext 3 _ (fun i => / fnrm 3 b * (a i - b i) + (fnrm 3 b - fnrm 3 a) / (fnrm 3 a * fnrm 3 b) * a i)).
  2:{ intros i _. unfold rdir. change (rlength 3 a) with (fnrm 3 a). change (rlength 3 b) with (fnrm 3 b). field. lra. }
  eapply Rle_trans; [apply fnrm_tri|]. rewrite !fnrm_scale. fold e.
  rewrite (Rabs_pos_eq (/ fnrm 3 b)) by (left; apply Rinv_0_lt_compat; exact B).
  assert (AB : 0 < fnrm 3 a * fnrm 3 b) by (apply Rmult_lt_0_compat; assumption).
  assert (Q : Rabs ((fnrm 3 b - fnrm 3 a) / (fnrm 3 a * fnrm 3 b)) * fnrm 3 a <= e / fnrm 3 b).
  { unfold Rdiv at 1. rewrite Rabs_mult, (Rabs_pos_eq (/ _)) by (left; apply Rinv_0_lt_compat; exact AB).
    replace (Rabs (fnrm 3 b - fnrm 3 a) * / (fnrm 3 a * fnrm 3 b) * fnrm 3 a) with (Rabs (fnrm 3 b - fnrm 3 a) / fnrm 3 b) by (field; lra).
    apply Rmult_le_compat_r; [left; apply Rinv_0_lt_compat; exact B|]. apply Rabs_le. lra. }
  replace (2 * e / fnrm 3 b) with (/ fnrm 3 b * e + e / fnrm 3 b) by (field; lra). lra.
Qed.
Lemma dir_scale k a i : 0 < k -> 0 < fnrm 3 a -> rdir (fun i => k * a i) i = rdir a i.
Proof.
  intros K A. unfold rdir. change (rlength 3 ?f) with (fnrm 3 f). rewrite fnrm_scale, Rabs_pos_eq by lra. field. lra.
Qed.
Lemma dir_ext a b i : (forall j, (j < 3)%nat -> a j = b j) -> (i < 3)%nat -> rdir a i = rdir b i.
Proof. intros H Hi. unfold rdir. change (rlength 3 ?f) with (fnrm 3 f). rewrite (fnrm_ext 3 a b H), (H i Hi). reflexivity. Qed.

Lemma sqrt3_e e : 0 <= e -> sqrt (INR 3) * e <= 7 / 4 * e.
Proof.
  intros E. apply Rmult_le_compat_r; [exact E|]. replace (INR 3) with 3 by (cbn; lra).
  rewrite <- (sqrt_square (7 / 4)) by lra. apply sqrt_le_1_alt. lra.
Qed.
Lemma len3_bound f e : 0 <= e -> (forall i, (i < 3)%nat -> Rabs (f i) <= e) -> fnrm 3 f <= 7 / 4 * e.
Proof. intros E H. eapply Rle_trans; [apply (fnrm_bound 3 f e E H)|apply sqrt3_e; exact E]. Qed.

(** * One step: the two other axes from an approximate first one *)
Section Stage.
Context {prec emax : Z} {Hp : Prec_gt_0 prec} {He : Prec_lt_emax prec emax}.
Notation fl := (binary_float prec emax).
Notation u := (bpow radix2 (- prec)).
Hypothesis H24 : (24 <= prec)%Z.
Variable k : Z.
Hypothesis Hk : (0 <= k)%Z.
Hypothesis Hr : (2 * (k + prec) + 13 <= emax)%Z.
Variables (z up : vec fl 3) (Z : nat -> R) (s : R).
Hypothesis HZ : fnrm 3 Z = 1.
Hypothesis Hz : forall i, (i < 3)%nat -> fnear (vat z i) (Z i) (14 * u).
Hypothesis Fw : forall i, (i < 3)%nat -> is_finite (vat up i) = true.
Notation W := (fval up).
Hypothesis HW : bpow radix2 (- k) <= fnrm 3 W <= bpow radix2 k.
Hypothesis Hs : fnrm 3 (rcross W Z) = s * fnrm 3 W.
Hypothesis Hs1 : 1024 * u <= s.

Notation c := (rcross W Z).
Notation X := (rdir c).
Notation Y := (rcross Z X).
Notation x := (flook_x z up).
Notation y := (flook_y z up).

Lemma W_pos : 0 < fnrm 3 W.
Proof. pose proof (bpow_gt_0 radix2 (- k)). lra. Qed.
Lemma s_pos : 0 < s.
Proof. pose proof (u_small H24). lra. Qed.
Lemma s_le : s <= 1.
Proof.
  pose proof W_pos as P. pose proof (cross_len W Z) as L. rewrite Hs, HZ in L.
  apply (Rmult_le_reg_r (fnrm 3 W)); [exact P|lra].
Qed.
Lemma u_s a : 0 <= a -> a * u <= a * u / s.
Proof.
  intros A. pose proof s_pos as P. pose proof s_le as L. pose proof (u_small H24) as U.
  apply (Rmult_le_reg_r s); [exact P|]. replace (a * u / s * s) with (a * u) by (field; lra).
  assert (0 <= a * u) by (apply Rmult_le_pos; lra). nra.
Qed.
Lemma u_s1 : u / s <= / 1024.
Proof.
  pose proof s_pos as P. apply (Rmult_le_reg_r s); [exact P|]. replace (u / s * s) with u by (field; lra). lra.
Qed.

Lemma z_err : fnrm 3 (fun i => fval z i - Z i) <= 25 * u.
Proof.
  pose proof (u_small H24) as U.
  eapply Rle_trans; [apply (len3_bound _ (14 * u)); [lra|intros i Hi; apply (Hz i Hi)]|]. lra.
Qed.
Lemma z_len : fnrm 3 (fval z) <= 1 + 25 * u.
Proof. rewrite <- HZ. apply fnrm_near, z_err. Qed.
Lemma z_bnd i : (i < 3)%nat -> fbnd (1 + / 1024) (vat z i).
Proof.
  intros Hi. split; [apply (Hz i Hi)|]. pose proof (u_small H24) as U. pose proof z_len as L.
  pose proof (fnrm_comp 3 (fval z) i Hi) as C. change (fval z i) with (B2R (vat z i)) in C. lra.
Qed.

(** The rounded cross product of two float vectors, in Euclidean length. *)
Lemma cross_step P N (a b : vec fl 3) : 0 < P -> 0 < N -> @wok emax (P * N) ->
  (forall i, (i < 3)%nat -> fbnd P (vat a i)) -> (forall i, (i < 3)%nat -> fbnd N (vat b i)) ->
  (forall i, (i < 3)%nat -> is_finite (vat (vcross a b) i) = true) /\
  fnrm 3 (fun i => fval (vcross a b) i - rcross (fval a) (fval b) i) <= 35 / 4 * u * (P * N).
Proof.
  intros P0 N0 WK A B. destruct (c109_cross_product prec emax Hp He P N a b H24 P0 N0 WK A B) as (C0 & C1 & C2).
  pose proof (u_small H24) as U. assert (PN : 0 < P * N) by (apply Rmult_lt_0_compat; assumption).
  assert (E : 0 <= 5 * u * (P * N)) by (apply Rmult_le_pos; lra).
  split.
  - intros i Hi. destruct i as [|[|[|i]]]; [apply C0|apply C1|apply C2|lia].
  - eapply Rle_trans; [apply (len3_bound _ (5 * u * (P * N)) E)|lra].
    intros i Hi. destruct i as [|[|[|i]]]; [apply C0|apply C1|apply C2|lia].
Qed.

Lemma c_err : (forall i, (i < 3)%nat -> is_finite (vat (vcross up z) i) = true) /\
  fnrm 3 (fun i => fval (vcross up z) i - c i) <= 34 * u * fnrm 3 W.
Proof.
  pose proof (u_small H24) as U. pose proof W_pos as P. pose proof (bpow_gt_0 radix2 (-k)) as B0.
  destruct (cross_step (fnrm 3 W) (1 + / 1024) up z) as (F & E).
  - exact P.
  - lra.
  - split.
    + apply Rle_trans with (bpow radix2 (- k)); [apply bpow_le; lia|]. nra.
    + apply Rle_trans with (bpow radix2 (k + 1)); [rewrite bpow_plus; change (bpow radix2 1) with 2; nra|apply bpow_le; lia].
  - intros i Hi. split; [apply Fw; exact Hi|]. exact (fnrm_comp 3 W i Hi).
  - exact z_bnd.
  - split; [exact F|].
    eapply Rle_trans; [apply (fnrm_tri3 3 _ (rcross W (fval z)) _ _ _ E (cross_diff_len W W (fval z) Z))|].
    rewrite (fnrm_ext 3 (fun i => W i - W i) (fun i => 0 * W i)) by (intros; ring). rewrite fnrm_scale, Rabs_R0.
    pose proof z_err as Ze. assert (fnrm 3 W * fnrm 3 (fun i => fval z i - Z i) <= fnrm 3 W * (25 * u)) by (apply Rmult_le_compat_l; lra).
    assert (0 < u * fnrm 3 W) by (apply Rmult_lt_0_compat; lra). lra.
Qed.

Lemma c_len : bpow radix2 (9 - prec - k) <= fnrm 3 (fval (vcross up z)) <= bpow radix2 (k + 1) /\ 0 < fnrm 3 c.
Proof.
  pose proof (u_small H24) as U. pose proof W_pos as P. pose proof s_pos as S0. destruct c_err as (_ & E).
  assert (C0 : 0 < fnrm 3 c) by (rewrite Hs; apply Rmult_lt_0_compat; lra). split; [|exact C0].
  assert (E2 : 34 * u * fnrm 3 W <= / 2 * fnrm 3 c).
  { rewrite Hs. assert (34 * u * fnrm 3 W <= / 2 * s * fnrm 3 W) by (apply Rmult_le_compat_r; lra). lra. }
  assert (D : fnrm 3 c <= fnrm 3 (fval (vcross up z)) + 34 * u * fnrm 3 W).
  { apply fnrm_near. rewrite (fnrm_ext 3 _ (fun i => - (fval (vcross up z) i - c i))) by (intros; ring). rewrite fnrm_neg. exact E. }
  split.
  - apply Rle_trans with (/ 2 * fnrm 3 c); [|lra]. rewrite Hs.
    apply Rle_trans with (/ 2 * (1024 * u * bpow radix2 (- k))).
    + right. replace (/ 2 * (1024 * u * bpow radix2 (- k))) with (bpow radix2 9 * u * bpow radix2 (- k)) by (change (bpow radix2 9) with 512; lra).
      rewrite <- !bpow_plus. f_equal.
    + apply Rmult_le_compat_l; [lra|]. pose proof (bpow_gt_0 radix2 (-k)). apply Rmult_le_compat; lra.
  - eapply Rle_trans; [apply (fnrm_near 3 _ _ _ E)|]. pose proof (cross_len W Z) as L. rewrite HZ in L.
    rewrite bpow_plus. change (bpow radix2 1) with 2. nra.
Qed.

Lemma x_comp i : (i < 3)%nat -> fnear (vat x i) (rdir (fval (vcross up z)) i) (12 * u).
Proof.
  intros Hi. destruct c_len as (L & _). destruct c_err as (F & _).
  apply (normalize_gen H24 3 (k + prec - 9)); try lia; [exact F|].
  change (rlength 3 ?f) with (fnrm 3 f). split.
  - eapply Rle_trans; [|apply L]. apply bpow_le. lia.
  - eapply Rle_trans; [apply L|]. apply bpow_le. lia.
Qed.
Lemma x_dir : fnrm 3 (fun i => fval x i - rdir (fval (vcross up z)) i) <= 21 * u.
Proof.
  pose proof (u_small H24) as U. eapply Rle_trans; [apply (len3_bound _ (12 * u)); [lra|intros i Hi; apply (x_comp i Hi)]|]. lra.
Qed.
Lemma cf_pos : 0 < fnrm 3 (fval (vcross up z)).
Proof. destruct c_len as ((L & _) & _). pose proof (bpow_gt_0 radix2 (9 - prec - k)). lra. Qed.
Lemma x_err : fnrm 3 (fun i => fval x i - X i) <= 89 * u / s.
Proof.
  pose proof x_dir as D. destruct c_err as (_ & E). destruct c_len as (_ & C0). pose proof W_pos as P. pose proof s_pos as S0.
  pose proof (dir_pert _ c cf_pos C0) as Q.
  eapply Rle_trans; [apply (fnrm_tri3 3 _ _ _ _ _ D Q)|].
  assert (2 * fnrm 3 (fun i => fval (vcross up z) i - c i) / fnrm 3 c <= 68 * u / s).
  { rewrite Hs. apply Rle_trans with (2 * (34 * u * fnrm 3 W) / (s * fnrm 3 W)).
    - apply Rmult_le_compat_r; [left; apply Rinv_0_lt_compat, Rmult_lt_0_compat; assumption|lra].
    - right. field. lra. }
  pose proof (u_s 21 ltac:(lra)). unfold Rdiv in *. lra.
Qed.
Lemma near1 a b e : fnrm 3 b = 1 -> fnrm 3 (fun i => a i - b i) <= e -> Rabs (fnrm 3 a - 1) <= e.
Proof.
  intros B E. apply Rabs_le. rewrite <- B. split.
  - assert (fnrm 3 b <= fnrm 3 a + e); [|lra]. apply fnrm_near. rewrite (fnrm_ext 3 _ (fun i => - (a i - b i))) by (intros; ring). rewrite fnrm_neg. exact E.
  - pose proof (fnrm_near 3 a b e E). lra.
Qed.
Lemma x_unit : Rabs (fnrm 3 (fval x) - 1) <= 21 * u.
Proof. apply (near1 _ _ _ (dir_len _ cf_pos) x_dir). Qed.
Lemma x_bnd i : (i < 3)%nat -> fbnd (1 + / 1024) (vat x i).
Proof.
  intros Hi. split; [apply (x_comp i Hi)|]. pose proof (u_small H24) as U. pose proof x_unit as L. apply Rabs_le_inv in L.
  pose proof (fnrm_comp 3 (fval x) i Hi) as C. change (fval x i) with (B2R (vat x i)) in C. lra.
Qed.
Lemma X_len : fnrm 3 X = 1.
Proof. destruct c_len as (_ & C0). apply dir_len, C0. Qed.
Lemma ZX : rdot Z X = 0.
Proof.
  transitivity (/ fnrm 3 c * rdot Z (rcross W Z)).
  - rewrite !rdot3. unfold rdir. change (rlength 3 c) with (fnrm 3 c). unfold Rdiv. ring.
  - rewrite cross_dot_r. ring.
Qed.
Lemma Y_len : fnrm 3 Y = 1.
Proof. rewrite cross_orth_len by exact ZX. rewrite HZ, X_len. ring. Qed.

Lemma g_err : (forall i, (i < 3)%nat -> is_finite (vat (vcross z x) i) = true) /\
  fnrm 3 (fun i => fval (vcross z x) i - rcross (fval z) (fval x) i) <= 9 * u.
Proof.
  pose proof (u_small H24) as U.
  destruct (cross_step (1 + / 1024) (1 + / 1024) z x) as (F & E); try lra; try exact z_bnd; try exact x_bnd.
  - split; [apply Rle_trans with 1|apply Rle_trans with 2]; try lra.
    + change 1 with (bpow radix2 0). apply bpow_le. lia.
    + change 2 with (bpow radix2 1). apply bpow_le. lia.
  - split; [exact F|]. eapply Rle_trans; [exact E|]. lra.
Qed.
Lemma g_near : fnrm 3 (fun i => fval (vcross z x) i - Y i) <= 126 * u / s.
Proof.
  destruct g_err as (_ & E). pose proof (u_small H24) as U. pose proof x_unit as L. apply Rabs_le_inv in L.
  eapply Rle_trans; [apply (fnrm_tri3 3 _ _ _ _ _ E (cross_diff_len (fval z) Z (fval x) X))|].
  pose proof z_err as Ze. pose proof x_err as Xe. rewrite HZ.
  assert (fnrm 3 (fun i => fval z i - Z i) * fnrm 3 (fval x) <= 25 * u * (11 / 10)) by (apply Rmult_le_compat; try apply fnrm_pos; lra).
  pose proof (u_s 37 ltac:(lra)). unfold Rdiv in *. lra.
Qed.
Lemma g_len : / 2 <= fnrm 3 (fval (vcross z x)) <= 2.
Proof.
  pose proof (near1 _ _ _ Y_len g_near) as H. apply Rabs_le_inv in H. pose proof u_s1 as U. unfold Rdiv in *. lra.
Qed.
Lemma y_comp i : (i < 3)%nat -> fnear (vat y i) (rdir (fval (vcross z x)) i) (12 * u).
Proof.
  intros Hi. pose proof g_len as L. destruct g_err as (F & _).
  apply (normalize_gen H24 3 1); try lia; [exact F|].
  change (rlength 3 ?f) with (fnrm 3 f). change (bpow radix2 (-(1))) with (/ 2). change (bpow radix2 1) with 2. exact L.
Qed.
Lemma y_dir : fnrm 3 (fun i => fval y i - rdir (fval (vcross z x)) i) <= 21 * u.
Proof.
  pose proof (u_small H24) as U. eapply Rle_trans; [apply (len3_bound _ (12 * u)); [lra|intros i Hi; apply (y_comp i Hi)]|]. lra.
Qed.
Lemma g_pos : 0 < fnrm 3 (fval (vcross z x)).
Proof. pose proof g_len. lra. Qed.
Lemma y_unit : Rabs (fnrm 3 (fval y) - 1) <= 21 * u.
Proof. apply (near1 _ _ _ (dir_len _ g_pos) y_dir). Qed.
Lemma y_err : fnrm 3 (fun i => fval y i - Y i) <= 273 * u / s.
Proof.
  pose proof y_dir as D. pose proof g_near as E. pose proof Y_len as L.
  pose proof (dir_pert _ Y g_pos ltac:(rewrite L; lra)) as Q. rewrite L in Q.
  rewrite (fnrm_ext 3 _ (fun i => rdir (fval (vcross z x)) i - Y i)) in Q
    by (intros i _; f_equal; unfold rdir at 1; change (rlength 3 Y) with (fnrm 3 Y); rewrite L; field).
  eapply Rle_trans; [apply (fnrm_tri3 3 _ _ _ _ _ D Q)|].
  pose proof (u_s 21 ltac:(lra)). unfold Rdiv in *. lra.
Qed.

(** The second axis is at right angles to the other two, whatever [s] is. *)
Lemma y_orth (a : nat -> R) : fnrm 3 a <= 11 / 10 -> rdot a (rcross (fval z) (fval x)) = 0 -> Rabs (rdot (fval y) a) <= 44 * u.
Proof.
  intros A O. pose proof (u_small H24) as U. destruct g_err as (_ & E). pose proof g_len as L. pose proof y_dir as D.
  replace (rdot (fval y) a) with (rdot (fun i => fval y i - rdir (fval (vcross z x)) i) a + rdot (rdir (fval (vcross z x))) a)
    by (rewrite !rdot3; ring).
  eapply Rle_trans; [apply Rabs_triang|].
  assert (Rabs (rdot (fun i => fval y i - rdir (fval (vcross z x)) i) a) <= 21 * u * (11 / 10)).
  { eapply Rle_trans; [apply rdot_cs|]. apply Rmult_le_compat; try apply fnrm_pos; lra. }
  assert (Rabs (rdot (rdir (fval (vcross z x))) a) <= 2 * (9 * u * (11 / 10))).
  { replace (rdot (rdir (fval (vcross z x))) a) with (/ fnrm 3 (fval (vcross z x)) * rdot (fun i => fval (vcross z x) i - rcross (fval z) (fval x) i) a).
    - rewrite Rabs_mult, Rabs_pos_eq by (left; apply Rinv_0_lt_compat; lra).
      apply Rmult_le_compat; [left; apply Rinv_0_lt_compat; lra|apply Rabs_pos| |].
      + rewrite <- (Rinv_inv 2). apply Rinv_le; lra.
      + eapply Rle_trans; [apply rdot_cs|]. apply Rmult_le_compat; try apply fnrm_pos; lra.
    - rewrite rdot_sub_l, (rdot_sym (rcross _ _) a), O. rewrite !rdot3. unfold rdir. change (rlength 3 ?f) with (fnrm 3 f). unfold Rdiv. ring. }
  lra.
Qed.
Lemma yz : Rabs (rdot (fval y) (fval z)) <= 44 * u.
Proof. apply y_orth; [pose proof z_len; pose proof (u_small H24); lra|apply cross_dot_l]. Qed.
Lemma yx : Rabs (rdot (fval y) (fval x)) <= 44 * u.
Proof. apply y_orth; [pose proof x_unit as L; apply Rabs_le_inv in L; pose proof (u_small H24); lra|apply cross_dot_r]. Qed.
Lemma xz : Rabs (rdot (fval x) (fval z)) <= 124 * u / s.
Proof.
  replace (rdot (fval x) (fval z)) with (rdot (fun i => fval x i - X i) (fval z) + rdot (fun i => fval z i - Z i) X).
  2:{ rewrite !rdot_sub_l, ZX, (rdot_sym (fval z) X). ring. }
  eapply Rle_trans; [apply Rabs_triang|].
  pose proof (rdot_cs (fun i => fval x i - X i) (fval z)) as A. pose proof (rdot_cs (fun i => fval z i - Z i) X) as B.
  rewrite X_len in B. pose proof z_err as Ze. pose proof x_err as Xe. pose proof z_len as L. pose proof (u_small H24) as U.
  assert (fnrm 3 (fun i => fval x i - X i) * fnrm 3 (fval z) <= 89 * u / s * (11 / 10)) by (apply Rmult_le_compat; try apply fnrm_pos; lra).
  pose proof (u_s 25 ltac:(lra)). pose proof s_pos as S0. assert (0 < u / s) by (apply Rdiv_lt_0_compat; lra). unfold Rdiv in *. lra.
Qed.
End Stage.
