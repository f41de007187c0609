(** Reflections and projections in floats: the statements of PRefF.v. *)

From Coq Require Import List Arith ZArith Lia Reals Lra Psatz.
From Flocq Require Import Core.Core IEEE754.BinarySingleNaN.
From Verif Require Import Base Scalar Spec SpecF SpecRigid SpecMirror MVector MMatrix MPoint MQuat MTransform MFloat MFloatVec MRefF
  LBase LVector LVectorR LFloat LFloatVec LFloatP LFloatAcc LFloatNormP LDriftM LRigidF LNormF LLookGP LRefF.
Local Open Scope R_scope.

(** * Mirror images and projections over the reals *)
Lemma sum_sq_lin n w a c : rsum n (fun i => (w i + c * a i) * (w i + c * a i)) = rsum n (fun i => w i * w i) + 2 * c * rsum n (fun i => w i * a i) + c * c * rsum n (fun i => a i * a i).
Proof. induction n as [|n IH]; [cbn; ring|]. rewrite !rsum_S, IH. ring. Qed.
Lemma sum_lin n w a c : rsum n (fun i => (w i + c * a i) * a i) = rsum n (fun i => w i * a i) + c * rsum n (fun i => a i * a i).
Proof. induction n as [|n IH]; [cbn; ring|]. rewrite !rsum_S, IH. ring. Qed.
Lemma sum_diff n x y a : rsum n (fun i => x i * a i) - rsum n (fun i => y i * a i) = rsum n (fun i => (x i - y i) * a i).
Proof. induction n as [|n IH]; [cbn; ring|]. rewrite !rsum_S. rewrite <- IH. ring. Qed.
Lemma unit_sq n a : fnrm n a = 1 -> rsum n (fun i => a i * a i) = 1.
Proof.
  intros H. unfold fnrm in H. change (sqrt (rsum n (fun i => a i * a i)) = 1) in H. set (q := rsum n _) in *.
  assert (Q : 0 <= q) by (apply rsum_nonneg; intros; apply Rle_0_sqr). rewrite <- (sqrt_sqrt q Q), H. ring.
Qed.
Lemma house_len n a w : fnrm n a = 1 -> fnrm n (fun i => w i - 2 * rsum n (fun j => w j * a j) * a i) = fnrm n w.
Proof.
  intros H. unfold fnrm. apply f_equal. set (s := rsum n (fun j => w j * a j)).
  transitivity (rsum n (fun i => (w i + (- 2 * s) * a i) * (w i + (- 2 * s) * a i))); [apply sum_ext; intros; ring|].
  rewrite sum_sq_lin, (unit_sq n a H). fold s. change (sum n (fun i => w i * w i)) with (rsum n (fun i => w i * w i)). ring.
Qed.
Lemma mirror_dist n a b x y : fnrm n a = 1 -> fnrm n (fun i => mirror n a b x i - mirror n a b y i) = fnrm n (fun i => x i - y i).
Proof.
  intros H. rewrite <- (house_len n a (fun i => x i - y i) H). apply fnrm_ext. intros i Hi. unfold mirror.
  rewrite <- (sum_diff n x y a). change (sum n ?f) with (rsum n f).
  replace (rsum n (fun j => (x j - b j) * a j)) with (rsum n (fun j => x j * a j) - rsum n (fun j => b j * a j)) by apply sum_diff.
  replace (rsum n (fun j => (y j - b j) * a j)) with (rsum n (fun j => y j * a j) - rsum n (fun j => b j * a j)) by apply sum_diff.
  ring.
Qed.
Lemma mirror_base n a b x : fnrm n a = 1 -> fnrm n (fun i => mirror n a b x i - b i) = fnrm n (fun i => x i - b i).
Proof.
  intros H. rewrite <- (house_len n a (fun i => x i - b i) H). apply fnrm_ext. intros i Hi. unfold mirror. change (sum n ?f) with (rsum n f). ring.
Qed.
Lemma mirror_side n a b x : fnrm n a = 1 -> rsum n (fun i => (mirror n a b x i - b i) * a i) = - rsum n (fun i => (x i - b i) * a i).
Proof.
  intros H. unfold mirror. change (sum n ?f) with (rsum n f). set (s := rsum n (fun j => (x j - b j) * a j)).
  transitivity (rsum n (fun i => ((x i - b i) + (- 2 * s) * a i) * a i)); [apply sum_ext; intros; ring|].
  rewrite (sum_lin n (fun i => x i - b i)), (unit_sq n a H). fold s. ring.
Qed.
Lemma mirror_invol n a b x i : fnrm n a = 1 -> mirror n a b (mirror n a b x) i = x i.
Proof.
  intros H. unfold mirror at 1. change (sum n ?f) with (rsum n f). rewrite (mirror_side n a b x H). unfold mirror. change (sum n ?f) with (rsum n f). ring.
Qed.
Lemma c128_mirror : forall (n : nat) (a b x y : nat -> R), rlength n a = 1 ->
  sum n (fun i => ((x i + mirror n a b x i) / 2 - b i) * a i) = 0 /\
  (exists t, forall i, x i - mirror n a b x i = t * a i) /\
  (forall i, mirror n a b (mirror n a b x) i = x i) /\
  rlength n (fun i => mirror n a b x i - mirror n a b y i) = rlength n (fun i => x i - y i).
Proof.
  intros n a b x y H. change (rlength n ?f) with (fnrm n f) in *. split; [|split; [|split]].
  - set (s := rsum n (fun j => (x j - b j) * a j)).
    change (rsum n (fun i => ((x i + mirror n a b x i) / 2 - b i) * a i) = 0).
    transitivity (rsum n (fun i => ((x i - b i) + (- s) * a i) * a i)).
    + apply sum_ext. intros i Hi. unfold mirror. change (sum n ?f) with (rsum n f). fold s. field.
    + rewrite (sum_lin n (fun i => x i - b i)), (unit_sq n a H). fold s. ring.
  - exists (2 * rsum n (fun j => (x j - b j) * a j)). intros i. unfold mirror. change (sum n ?f) with (rsum n f). ring.
  - intros i. apply mirror_invol, H.
  - apply mirror_dist, H.
Qed.
Lemma c128_shadow : forall (n : nat) (o x : nat -> R), 0 < rlength n o ->
  sum n (fun i => (x i - shadow n o x i) * o i) = 0 /\ (exists t, forall i, shadow n o x i = t * o i) /\
  rlength n (shadow n o x) <= rlength n x.
Proof.
  intros n o x H. change (rlength n ?f) with (fnrm n f) in *.
  assert (Q : 0 < rsum n (fun i => o i * o i)).
  { destruct (Rlt_or_le 0 (rsum n (fun i => o i * o i))) as [G|G]; [exact G|]. unfold fnrm in H. rewrite sqrt_neg_0 in H by exact G. lra. }
  assert (RR : fnrm n o * fnrm n o = rsum n (fun i => o i * o i)) by (apply sqrt_sqrt; change (0 <= rsum n (fun i => o i * o i)); lra).
  split; [|split].
  - change (rsum n (fun i => (x i - rsum n (fun j => x j * o j) / rsum n (fun j => o j * o j) * o i) * o i) = 0).
    set (c := rsum n (fun j => x j * o j)). set (q := rsum n (fun j => o j * o j)) in *.
    transitivity (rsum n (fun i => (x i + (- (c / q)) * o i) * o i)); [apply sum_ext; intros; ring|].
    rewrite sum_lin. fold c q. field. lra.
  - eexists. intros i. reflexivity.
  - unfold shadow. change (fnrm n (fun i => rsum n (fun j => x j * o j) / rsum n (fun j => o j * o j) * o i) <= fnrm n x).
    rewrite fnrm_scale. unfold Rdiv. rewrite Rabs_mult, Rabs_inv, (Rabs_pos_eq (rsum n (fun i => o i * o i))) by lra.
    rewrite <- RR. pose proof (fnrm_cs n x o) as C. rewrite Rinv_mult.
    apply Rle_trans with (fnrm n x * fnrm n o * (/ fnrm n o * / fnrm n o) * fnrm n o).
    + apply Rmult_le_compat_r; [lra|]. apply Rmult_le_compat_r; [|exact C]. assert (0 < / fnrm n o) by (apply Rinv_0_lt_compat; lra). nra.
    + right. field. lra.
Qed.

(** * Reflections *)
Section Refl.
Context {prec emax : Z} {Hp : Prec_gt_0 prec} {He : Prec_lt_emax prec emax}.
Notation fl := (binary_float prec emax).
Notation u := (bpow radix2 (- prec)).
Hypothesis H24 : (24 <= prec)%Z.
Variable n : nat.
Hypothesis Hn : (n <= 4)%nat.
Variables (V d : R) (N bias : vec fl n) (a : nat -> R).
Hypothesis HV : @wok emax V.
Hypothesis Ha : fnrm n a = 1.
Hypothesis d0 : 0 <= d <= / 8.
Hypothesis HN : vfnear N a d.
Notation vn := (@vne prec emax n V).
Let f := re_from_normal_bias N bias.

Lemma vec_step e B (x : vec fl n) r : vn e (fun i => vat x i) r -> fnrm n r <= B * V -> 0 <= e <= / 8 -> 1 <= B <= 64 ->
  vn (17 / 4 * B * d + 29 / 8 * e + 34 * B * u) (fun i => vat (re_apply_vector f x) i) (mirror n a (fun _ => 0) r).
Proof.
  intros Hx HB e0 HB2. pose proof (u_small H24) as U. destruct HN as (FN & EN).
  pose proof (mirror_term H24 n Hn V HV (fun j => vat N j) a d (proj1 d0) (proj2 d0) Ha FN EN e B _ r Hx HB e0 (proj1 HB2) (proj2 HB2) _ (or_introl eq_refl)) as T.
  set (s := rsum n (fun j => r j * a j)) in T.
  assert (G : fnrm n (fun i => a i * (2 * s)) <= 2 * B * V).
  { rewrite (fnrm_ext n _ (fun i => (2 * s) * a i)) by (intros; ring). rewrite fnrm_scale, Ha, Rmult_1_r, Rabs_mult, Rabs_pos_eq by lra.
    assert (Rabs s <= B * V); [|lra]. unfold s. eapply Rle_trans; [apply fnrm_cs|]. rewrite Ha. lra. }
  assert (BD : 0 <= B * d <= B / 8) by nra. assert (BU : u <= B * u <= B / 16777216) by nra.
  assert (S := sub_step n V HV _ _ _ _ _ _ _ _ Hx T HB G (proj1 e0) ltac:(lra) ltac:(lra)).
  eapply vne_ext; [eapply vne_weak; [exact HV|exact S|]| |].
  - assert (Q : 0 <= (3 * B + e + (17 / 4 * B * d + 81 / 32 * e + 30 * B * u)) * u <= (4 * B) * u).
    { split; [apply Rmult_le_pos; lra|]. apply Rmult_le_compat_r; lra. }
    lra.
  - intros i Hi. unfold re_apply_vector. cbv zeta. rewrite vat_vsub, vat_vmul_s, vdot_sum by exact Hi. reflexivity.
  - intros i Hi. unfold mirror. replace (sum n (fun j => (r j - 0) * a j)) with s by (apply sum_ext; intros; ring). ring.
Qed.

Lemma point_step e B C (x : vec fl n) r : vn e (fun i => vat x i) r -> fnrm n r <= B * V -> fnrm n (fun i => r i - fval bias i) <= C * V ->
  (forall i, (i < n)%nat -> is_finite (vat bias i) = true) -> fnrm n (fval bias) <= V -> 0 <= e <= / 16 -> 1 <= B <= 32 -> 1 <= C <= 32 ->
  vn (17 / 4 * C * d + 29 / 8 * e + 34 * C * u + 4 * (B + 1) * u) (fun i => vat (re_apply_point f x) i) (mirror n a (fval bias) r).
Proof.
  intros Hx HB HC Fb Nb e0 HB2 HC2. pose proof (u_small H24) as U. destruct HN as (FN & EN).
  assert (S1 := sub_step n V HV _ _ _ _ _ _ _ _ Hx (vne_exact n V (fun i => vat bias i) Fb) HB (Rle_trans _ _ (1 * V) Nb ltac:(lra)) (proj1 e0) ltac:(lra) ltac:(lra)).
  set (e' := e + 0 + (B + 1 + e + 0) * u) in S1.
  assert (Q1 : 0 <= e * u <= / 16 * u) by (split; [apply Rmult_le_pos; lra|apply Rmult_le_compat_r; lra]).
  assert (BU : u <= B * u <= B / 16777216) by nra. assert (CU : u <= C * u <= C / 16777216) by nra. assert (CD : 0 <= C * d <= C / 8) by nra.
  assert (E0 : 0 <= e' <= / 8) by (unfold e'; lra).
  pose proof (mirror_term H24 n Hn V HV (fun j => vat N j) a d (proj1 d0) (proj2 d0) Ha FN EN e' C _ _ S1 HC E0 (proj1 HC2) ltac:(lra) _ (or_introl eq_refl)) as T.
  set (s := rsum n (fun j => (r j - B2R (vat bias j)) * a j)) in T.
  assert (G : fnrm n (fun i => a i * (2 * s)) <= 2 * C * V).
  { rewrite (fnrm_ext n _ (fun i => (2 * s) * a i)) by (intros; ring). rewrite fnrm_scale, Ha, Rmult_1_r, Rabs_mult, Rabs_pos_eq by lra.
    assert (Rabs s <= C * V); [|lra]. unfold s. eapply Rle_trans; [apply (fnrm_cs n (fun j => r j - B2R (vat bias j)) a)|]. rewrite Ha, Rmult_1_r. exact HC. }
  assert (S := sub_step n V HV _ _ _ _ _ _ _ _ Hx T HB G (proj1 e0) ltac:(lra) ltac:(lra)).
  eapply vne_ext; [eapply vne_weak; [exact HV|exact S|]| |].
  - assert (Q : 0 <= (B + 2 * C + e + (17 / 4 * C * d + 81 / 32 * e' + 30 * C * u)) * u <= (B + 3 * C + / 2) * u).
    { split; [apply Rmult_le_pos; lra|]. apply Rmult_le_compat_r; lra. }
    unfold e' in *. lra.
  - intros i Hi. unfold re_apply_point, psub, pdiff. cbv zeta. rewrite vat_vsub, vat_vmul_s, vdot_sum by exact Hi.
    change (re_normal f) with N. change (re_bias f) with bias.
    rewrite (sum_ext n (fun j => nmul (vat (vsub x bias) j) (vat N j)) (fun j => nmul (nsub (vat x j) (vat bias j)) (vat N j))); [reflexivity|].
    intros j Hj. rewrite vat_vsub by exact Hj. reflexivity.
  - intros i Hi. unfold mirror, fval. change (sum n ?f) with (rsum n f). fold s. ring.
Qed.
End Refl.

Lemma c128_reflect :
  forall (prec emax : Z) (Hp : Prec_gt_0 prec) (He : Prec_lt_emax prec emax) (n : nat)
    (normal v p bias : vec (binary_float prec emax) n) (a : nat -> R) (d V : R),
    let u := bpow radix2 (- prec) in let f := re_from_normal_bias normal bias in
    (24 <= prec)%Z -> (n <= 4)%nat -> bpow radix2 (31 - emax) <= V <= bpow radix2 (emax - 31) ->
    rlength n a = 1 -> 0 <= d <= / 8 -> vfnear normal a d ->
    (forall i, (i < n)%nat -> is_finite (vat v i) = true) -> rlength n (fval v) <= V ->
    (forall i, (i < n)%nat -> is_finite (vat p i) = true) -> rlength n (fval p) <= V ->
    (forall i, (i < n)%nat -> is_finite (vat bias i) = true) -> rlength n (fval bias) <= V ->
    vfnear (re_apply_vector f v) (mirror n a (fun _ => 0) (fval v)) ((17 / 4 * d + 34 * u) * V) /\
    vfnear (re_apply_point f p) (mirror n a (fval bias) (fval p)) ((17 / 2 * d + 76 * u) * V) /\
    (d <= / 256 ->
     vfnear (re_inverse_apply_vector f (re_apply_vector f v)) (fval v) ((20 * d + 158 * u) * V) /\
     vfnear (re_inverse_apply_point f (re_apply_point f p)) (fval p) ((40 * d + 360 * u) * V)).
Proof.
  intros prec emax Hp He n N v p bias a d V u f H24 Hn HV Ha Hd HN Fv Nv Fp Np Fb Nb.
  pose proof (u_small H24) as U. fold u in U. change (rlength n ?f) with (fnrm n f) in *.
  assert (WV : @wok emax V) by exact HV. pose proof (wok_pos _ WV) as V0.
  assert (A1 := vec_step H24 n Hn V d N bias a WV Ha Hd HN 0 1 v (fval v) (vne_exact n V (fun i => vat v i) Fv) ltac:(lra) ltac:(lra) ltac:(lra)).
  assert (PB : fnrm n (fun i => fval p i - fval bias i) <= 2 * V).
  { eapply Rle_trans; [apply (fnrm_tri n (fval p) (fun i => - fval bias i))|]. rewrite fnrm_neg. lra. }
  assert (A2 := point_step H24 n Hn V d N bias a WV Ha Hd HN 0 1 2 p (fval p) (vne_exact n V (fun i => vat p i) Fp) ltac:(lra) PB Fb Nb ltac:(lra) ltac:(lra) ltac:(lra)).
  fold u f in A1, A2. split; [|split].
  - destruct A1 as (F & E). split; [exact F|]. eapply Rle_trans; [exact E|]. apply Rmult_le_compat_r; lra.
  - destruct A2 as (F & E). split; [exact F|]. eapply Rle_trans; [exact E|]. apply Rmult_le_compat_r; lra.
  - intros D6. split.
    + assert (M1 : fnrm n (mirror n a (fun _ => 0) (fval v)) <= 1 * V).
      { rewrite (fnrm_ext n _ (fun i => mirror n a (fun _ => 0) (fval v) i - 0)) by (intros; ring). rewrite (mirror_base n a (fun _ => 0) (fval v) Ha).
        rewrite (fnrm_ext n _ (fval v)) by (intros; ring). lra. }
      assert (B1 := vec_step H24 n Hn V d N bias a WV Ha Hd HN _ 1 _ _ A1 M1 ltac:(lra) ltac:(lra)). fold u f in B1.
      destruct B1 as (F & E). split; [exact F|]. change (rlength n ?f) with (fnrm n f).
      rewrite (fnrm_ext n _ (fun i => B2R (vat (re_apply_vector f (re_apply_vector f v)) i) - mirror n a (fun _ => 0) (mirror n a (fun _ => 0) (fval v)) i)).
      * eapply Rle_trans; [exact E|]. apply Rmult_le_compat_r; lra.
      * intros i Hi. rewrite mirror_invol by exact Ha. reflexivity.
    + assert (M1 : fnrm n (fun i => mirror n a (fval bias) (fval p) i - fval bias i) <= 2 * V) by (rewrite mirror_base by exact Ha; exact PB).
      assert (M2 : fnrm n (mirror n a (fval bias) (fval p)) <= 3 * V).
      { eapply Rle_trans; [apply (fnrm_near n _ (fval bias) _ M1)|]. lra. }
      assert (B1 := point_step H24 n Hn V d N bias a WV Ha Hd HN _ 3 2 _ _ A2 M2 M1 Fb Nb ltac:(lra) ltac:(lra) ltac:(lra)). fold u f in B1.
      destruct B1 as (F & E). split; [exact F|]. change (rlength n ?f) with (fnrm n f).
      rewrite (fnrm_ext n _ (fun i => B2R (vat (re_apply_point f (re_apply_point f p)) i) - mirror n a (fval bias) (mirror n a (fval bias) (fval p)) i)).
      * eapply Rle_trans; [exact E|]. apply Rmult_le_compat_r; lra.
      * intros i Hi. rewrite mirror_invol by exact Ha. reflexivity.
Qed.

Lemma c128_distance :
  forall (prec emax : Z) (Hp : Prec_gt_0 prec) (He : Prec_lt_emax prec emax) (n : nat)
    (normal p q bias : vec (binary_float prec emax) n) (a : nat -> R) (d V : R),
    let u := bpow radix2 (- prec) in let f := re_from_normal_bias normal bias in
    (24 <= prec)%Z -> (n <= 4)%nat -> bpow radix2 (31 - emax) <= V <= bpow radix2 (emax - 31) ->
    rlength n a = 1 -> 0 <= d <= / 8 -> vfnear normal a d ->
    (forall i, (i < n)%nat -> is_finite (vat p i) = true) -> rlength n (fval p) <= V ->
    (forall i, (i < n)%nat -> is_finite (vat q i) = true) -> rlength n (fval q) <= V ->
    (forall i, (i < n)%nat -> is_finite (vat bias i) = true) -> rlength n (fval bias) <= V ->
    Rabs (rlength n (fun i => fval (re_apply_point f p) i - fval (re_apply_point f q) i) - rlength n (fun i => fval p i - fval q i)) <= (17 * d + 152 * u) * V.
Proof.
  intros prec emax Hp He n N p q bias a d V u f H24 Hn HV Ha Hd HN Fp Np Fq Nq Fb Nb.
  destruct (c128_reflect prec emax Hp He n N p p bias a d V H24 Hn HV Ha Hd HN Fp Np Fp Np Fb Nb) as (_ & (_ & E1) & _).
  destruct (c128_reflect prec emax Hp He n N q q bias a d V H24 Hn HV Ha Hd HN Fq Nq Fq Nq Fb Nb) as (_ & (_ & E2) & _).
  fold u f in E1, E2. change (rlength n ?f) with (fnrm n f) in *.
  set (P := re_apply_point f p) in *. set (Q := re_apply_point f q) in *. set (m := mirror n a (fval bias)) in *.
  rewrite <- (mirror_dist n a (fval bias) (fval p) (fval q) Ha). fold m.
  assert (T1 : fnrm n (fun i => fval P i - fval Q i) <= fnrm n (fun i => m (fval p) i - m (fval q) i) + (17 * d + 152 * u) * V).
  { apply fnrm_near. rewrite (fnrm_ext n _ (fun i => (fval P i - m (fval p) i) + - (fval Q i - m (fval q) i))) by (intros; ring).
    eapply Rle_trans; [apply fnrm_tri|]. rewrite fnrm_neg. lra. }
  assert (T2 : fnrm n (fun i => m (fval p) i - m (fval q) i) <= fnrm n (fun i => fval P i - fval Q i) + (17 * d + 152 * u) * V).
  { apply fnrm_near. rewrite (fnrm_ext n _ (fun i => - (fval P i - m (fval p) i) + (fval Q i - m (fval q) i))) by (intros; ring).
    eapply Rle_trans; [apply fnrm_tri|]. rewrite fnrm_neg. lra. }
  apply Rabs_le. lra.
Qed.

Lemma unit_near {prec emax} {Hp : Prec_gt_0 prec} {He : Prec_lt_emax prec emax} n k (v : vec (binary_float prec emax) n) :
  (24 <= prec)%Z -> (n <= 4)%nat -> (0 <= k)%Z -> (2 * k + 31 <= emax)%Z ->
  (forall i, (i < n)%nat -> is_finite (vat v i) = true) -> bpow radix2 (- k) <= rlength n (fval v) <= bpow radix2 k ->
  fnrm n (fun i => fval v i / rlength n (fval v)) = 1 /\
  vfnear (fvnormalize v) (fun i => fval v i / rlength n (fval v)) (24 * bpow radix2 (- prec)).
Proof.
  intros H24 Hn Hk Hr Fv HR. pose proof (u_small H24) as U. change (rlength n (fval v)) with (fnrm n (fval v)) in *.
  assert (R0 : 0 < fnrm n (fval v)) by (pose proof (bpow_gt_0 radix2 (- k)); lra). split.
  - rewrite (fnrm_ext n _ (fun i => / fnrm n (fval v) * fval v i)) by (intros; unfold Rdiv; ring). rewrite fnrm_scale, Rabs_pos_eq.
    + field. lra.
    + apply Rlt_le, Rinv_0_lt_compat, R0.
  - destruct (c97_any prec emax Hp He n k v H24 Hn Hk Hr Fv HR) as (_ & G). split; [intros i Hi; apply G, Hi|].
    change (rlength n ?f) with (fnrm n f). eapply Rle_trans; [apply (fnrm_bound n _ (12 * bpow radix2 (- prec))); [lra|]; intros i Hi; apply G, Hi|].
    pose proof (sqrt_INR_2 n Hn) as S2. replace (24 * bpow radix2 (- prec)) with (2 * (12 * bpow radix2 (- prec))) by ring.
    apply Rmult_le_compat_r; lra.
Qed.

Lemma c128_reflect_any :
  forall (prec emax : Z) (Hp : Prec_gt_0 prec) (He : Prec_lt_emax prec emax) (n : nat) (k : Z)
    (v normal : vec (binary_float prec emax) n) (V : R),
    let u := bpow radix2 (- prec) in let r := rlength n (fval normal) in
    (24 <= prec)%Z -> (n <= 4)%nat -> (0 <= k)%Z -> (2 * k + 31 <= emax)%Z -> bpow radix2 (31 - emax) <= V <= bpow radix2 (emax - 31) ->
    (forall i, (i < n)%nat -> is_finite (vat normal i) = true) -> bpow radix2 (- k) <= r <= bpow radix2 k ->
    (forall i, (i < n)%nat -> is_finite (vat v i) = true) -> rlength n (fval v) <= V ->
    vfnear (fvreflect v normal) (mirror n (fun i => fval normal i / r) (fun _ => 0) (fval v)) (136 * u * V).
Proof.
  intros prec emax Hp He n k v N V u r H24 Hn Hk Hr HV FN HR Fv Nv.
  destruct (unit_near n k N H24 Hn Hk Hr FN HR) as (Ha & HN). fold u r in HN, Ha.
  pose proof (u_small H24) as U. fold u in U.
  assert (Z0 : rlength n (fval (vzero n : vec (binary_float prec emax) n)) <= V).
  { change (rlength n ?f) with (fnrm n f) in *. rewrite (fnrm_ext n _ (fun i => 0 * fval v i)).
    - rewrite fnrm_scale, Rabs_R0, Rmult_0_l. pose proof (fnrm_pos n (fval v)). lra.
    - intros i Hi. unfold fval. rewrite vat_vzero by exact Hi. cbn. ring. }
  assert (ZF : forall i, (i < n)%nat -> is_finite (vat (vzero n : vec (binary_float prec emax) n) i) = true) by (intros i Hi; rewrite vat_vzero by exact Hi; reflexivity).
  assert (A := proj1 (c128_reflect prec emax Hp He n (fvnormalize N) v v (vzero n) _ (24 * u) V H24 Hn HV Ha ltac:(lra) HN Fv Nv Fv Nv ZF Z0)).
  fold u in A. replace (136 * u * V) with ((17 / 4 * (24 * u) + 34 * u) * V) by field.
  destruct A as (F & E).
  assert (EQ : forall i, (i < n)%nat -> vat (fvreflect v N) i = vat (re_apply_vector (re_from_normal_bias (fvnormalize N) (vzero n)) v) i).
  { intros i Hi. unfold fvreflect, re_apply_vector. cbv zeta. rewrite !vat_vsub, !vat_vmul_s by exact Hi. cbn [re_normal re_from_normal_bias].
    rewrite fmul_comm with (x := nadd n1 n1). reflexivity. }
  split; [intros i Hi; rewrite EQ by exact Hi; apply F, Hi|].
  change (rlength n ?f) with (fnrm n f) in *. eapply Rle_trans; [|exact E]. right. apply fnrm_ext. intros i Hi. unfold fval. rewrite EQ by exact Hi. reflexivity.
Qed.

(** * Projection *)
Section Proj.
Context {prec emax : Z} {Hp : Prec_gt_0 prec} {He : Prec_lt_emax prec emax}.
Notation fl := (binary_float prec emax).
Notation u := (bpow radix2 (- prec)).
Hypothesis H24 : (24 <= prec)%Z.
Variables (n : nat) (k : Z).
Hypothesis Hn : (n <= 4)%nat.
Hypothesis Hk : (0 <= k)%Z.
Hypothesis Hr : (2 * k + 31 <= emax)%Z.
Variables (x o : nat -> fl) (V : R).
Hypothesis HV : bpow radix2 (- k) <= V <= bpow radix2 k.
Hypothesis Fx : forall i, (i < n)%nat -> is_finite (x i) = true.
Hypothesis Fo : forall i, (i < n)%nat -> is_finite (o i) = true.
Notation X := (fun i => B2R (x i)).
Notation O := (fun i => B2R (o i)).
Hypothesis Nx : fnrm n X <= V.
Notation L := (fnrm n O).
Hypothesis HL : bpow radix2 (- k) <= L <= bpow radix2 k.
Notation vn := (@vne prec emax n V).

Lemma pos_V : 0 < V.
Proof. pose proof (bpow_gt_0 radix2 (- k)). lra. Qed.
Lemma pos_L : 0 < L.
Proof. pose proof (bpow_gt_0 radix2 (- k)). lra. Qed.
Lemma wok_k : @wok emax V.
Proof. split; (eapply Rle_trans; [|apply HV]) || (eapply Rle_trans; [apply HV|]); apply bpow_le; lia. Qed.
Lemma wok_prod A B : bpow radix2 (- k) <= A <= bpow radix2 k -> bpow radix2 (- k) <= B <= bpow radix2 k -> @wok emax (A * B).
Proof.
  intros HA HB. pose proof (bpow_gt_0 radix2 (- k)). split.
  - apply Rle_trans with (bpow radix2 (- k) * bpow radix2 (- k)); [rewrite <- bpow_plus; apply bpow_le; lia|apply Rmult_le_compat; lra].
  - apply Rle_trans with (bpow radix2 k * bpow radix2 k); [apply Rmult_le_compat; lra|rewrite <- bpow_plus; apply bpow_le; lia].
Qed.
Lemma inv_rng A : bpow radix2 (- k) <= A <= bpow radix2 k -> bpow radix2 (- k) <= / A <= bpow radix2 k.
Proof.
  intros HA. pose proof (bpow_gt_0 radix2 (- k)). split.
  - rewrite bpow_opp. apply Rinv_le; lra.
  - replace (bpow radix2 k) with (/ bpow radix2 (- k)) by (rewrite bpow_opp; apply Rinv_inv). apply Rinv_le; lra.
Qed.

Notation D0 := (rsum n (fun j => B2R (x j) * B2R (o j))).
Notation S0 := (rsum n (fun j => B2R (o j) * B2R (o j))).
Lemma S0_eq : S0 = L * L.
Proof. symmetry. apply sqrt_sqrt. apply (rsum_nonneg n (fun j => B2R (o j) * B2R (o j))). intros; apply Rle_0_sqr. Qed.

Lemma quotient :
  let q := ndiv (sum n (fun j => nmul (x j) (o j))) (sum n (fun j => nmul (o j) (o j))) in
  is_finite q = true /\ Rabs (B2R q - D0 / S0) <= 18 * u * (V / L) /\ Rabs (D0 / S0) <= V / L.
Proof.
  intros q. pose proof pos_V as V0. pose proof pos_L as L0. pose proof (u_small H24) as U. pose proof wok_k as WV.
  assert (N0 : L * L > 0) by nra.
  destruct (dotg H24 n Hn (V * L) (wok_prod V L HV HL) 1 x o ltac:(lra) ltac:(lra) Fx Fo) as (FD & ED).
  { rewrite Rmult_1_l. apply Rmult_le_compat; try apply fnrm_pos; lra. }
  destruct (dotg H24 n Hn (L * L) (wok_prod L L HL HL) 1 o o ltac:(lra) ltac:(lra) Fo Fo ltac:(lra)) as (FS & ES).
  set (D := sum n (fun j => nmul (x j) (o j))) in *. set (S := sum n (fun j => nmul (o j) (o j))) in *.
  rewrite S0_eq in *. pose proof (fnrm_cs n X O) as CS. cbv beta in CS. set (c := D0) in *.
  assert (C1 : Rabs c <= V * L) by (eapply Rle_trans; [exact CS|]; apply Rmult_le_compat_r; lra).
  set (b := B2R D) in *. set (s := B2R S) in *. set (l := L) in *.
  assert (SP : l * l * (1 - 8 * u) <= s) by (apply Rabs_le_inv in ES; lra).
  assert (SP2 : 0 < l * l * / 2) by lra. assert (S9 : l * l * / 2 <= s) by nra. assert (s0 : 0 < s) by lra.
  assert (IS : / s <= 101 / 100 * / (l * l)).
  { apply (Rmult_le_reg_r s); [exact s0|]. rewrite Rinv_l by lra.
    apply Rle_trans with (101 / 100 * / (l * l) * (l * l * (1 - 8 * u))); [|apply Rmult_le_compat_l; [apply Rmult_le_pos; [lra|]; apply Rlt_le, Rinv_0_lt_compat; lra|exact SP]].
    replace (101 / 100 * / (l * l) * (l * l * (1 - 8 * u))) with (101 / 100 * (1 - 8 * u)) by (field; nra). lra. }
  set (W := V / l). assert (W0 : 0 < W) by (apply Rdiv_lt_0_compat; assumption).
  assert (EV : V * l * / (l * l) = W) by (unfold W; field; lra).
  assert (Q0 : Rabs (c / (l * l)) <= W).
  { unfold Rdiv. rewrite Rabs_mult, (Rabs_pos_eq (/ _)) by (apply Rlt_le, Rinv_0_lt_compat; lra). rewrite <- EV.
    apply Rmult_le_compat_r; [apply Rlt_le, Rinv_0_lt_compat; lra|exact C1]. }
  assert (Q1 : Rabs (b / s - c / (l * l)) <= 164 / 10 * u * W).
  { replace (b / s - c / (l * l)) with ((b - c) * / s + c / (l * l) * ((l * l - s) * / s)) by (field; split; nra).
    eapply Rle_trans; [apply Rabs_triang|]. rewrite !Rabs_mult, (Rabs_pos_eq (/ s)) by (apply Rlt_le, Rinv_0_lt_compat; lra).
    assert (I0 : 0 < / s) by (apply Rinv_0_lt_compat; lra).
    assert (T1 : Rabs (b - c) * / s <= (8 * u * 1 * (V * l)) * (101 / 100 * / (l * l))).
    { apply Rmult_le_compat; [apply Rabs_pos|lra|exact ED|exact IS]. }
    assert (T2 : Rabs (l * l - s) * / s <= (8 * u * 1 * (l * l)) * (101 / 100 * / (l * l))).
    { apply Rmult_le_compat; [apply Rabs_pos|lra|rewrite Rabs_minus_sym; exact ES|exact IS]. }
    replace (8 * u * 1 * (l * l) * (101 / 100 * / (l * l))) with (808 / 100 * u) in T2 by (field; nra).
    replace (8 * u * 1 * (V * l) * (101 / 100 * / (l * l))) with (808 / 100 * u * W) in T1 by (rewrite <- EV; field; nra).
    assert (T3 : Rabs (c / (l * l)) * (Rabs (l * l - s) * / s) <= W * (808 / 100 * u)).
    { apply Rmult_le_compat; [apply Rabs_pos| |exact Q0|exact T2]. apply Rmult_le_pos; [apply Rabs_pos|lra]. }
    nra. }
  assert (WW : @wok emax W) by (apply wok_prod; [exact HV|apply inv_rng; exact HL]).
  assert (BQ : Rabs (b / s) <= 2 * W).
  { replace (b / s) with (c / (l * l) + (b / s - c / (l * l))) by ring. eapply Rle_trans; [apply Rabs_triang|]. nra. }
  destruct (fdiv_fin D S FD ltac:(fold s; lra)) as (Fq & dl & ee & Hdl & Hee & Eq).
  { fold b s. eapply Rle_trans; [exact BQ|]. pose proof (V_max W WW). lra. }
  fold q b s in Fq, Eq. split; [exact Fq|]. split; [|exact Q0].
  rewrite Eq. rewrite funit_eq in Hdl. pose proof (@ftiny_w prec emax _ WW) as T.
  replace (b / s * (1 + dl) + ee - c / (l * l)) with ((b / s - c / (l * l)) + dl * (b / s) + ee) by ring.
  eapply Rle_trans; [apply Rabs_triang|]. eapply Rle_trans; [apply Rplus_le_compat_r, Rabs_triang|]. rewrite Rabs_mult.
  assert (BQ2 : Rabs (b / s) <= 3 / 2 * W).
  { replace (b / s) with (c / (l * l) + (b / s - c / (l * l))) by ring. eapply Rle_trans; [apply Rabs_triang|]. nra. }
  assert (Rabs dl * Rabs (b / s) <= u * (3 / 2 * W)) by (apply Rmult_le_compat; [apply Rabs_pos|apply Rabs_pos|exact Hdl|exact BQ2]).
  nra.
Qed.

Lemma proj_step :
  let q := ndiv (sum n (fun j => nmul (x j) (o j))) (sum n (fun j => nmul (o j) (o j))) in
  vn (20 * u) (fun i => nmul (o i) q) (shadow n O X).
Proof.
  intros q. destruct quotient as (Fq & Eq & Gq). fold q in Fq, Eq. pose proof pos_V as V0. pose proof pos_L as L0. pose proof (u_small H24) as U.
  assert (W0 : 0 < V / L) by (apply Rdiv_lt_0_compat; assumption).
  assert (Z : fnrm n (fun j => B2R (o j) - B2R (o j)) <= 0).
  { rewrite (fnrm_ext n _ (fun j => 0 * B2R (o j))) by (intros; ring). rewrite fnrm_scale, Rabs_R0. lra. }
  assert (LW : L * (V / L) <= 1 * V) by (right; field; lra).
  pose proof (scale_step H24 n Hn V wok_k q _ (V / L) (18 * u) 1 1 0 L 0 o O Fq ltac:(lra) Eq ltac:(lra) ltac:(lra) ltac:(lra) Fo Z ltac:(lra) LW ltac:(lra) ltac:(lra)) as P.
  eapply vne_ext; [eapply vne_weak; [exact wok_k|exact P|]| |].
  - assert (18 * u * u <= u / 1024) by nra. lra.
  - intros i Hi. reflexivity.
  - intros i Hi. unfold shadow. change (B2R (o i) * (D0 / S0) = D0 / S0 * B2R (o i)). ring.
Qed.
Lemma shadow_len : fnrm n (shadow n O X) <= V.
Proof. eapply Rle_trans; [apply (c128_shadow n O X pos_L)|exact Nx]. Qed.
Lemma reject_step :
  let q := ndiv (sum n (fun j => nmul (x j) (o j))) (sum n (fun j => nmul (o j) (o j))) in
  vn (23 * u) (fun i => nsub (x i) (nmul (o i) q)) (fun i => X i - shadow n O X i).
Proof.
  intros q. pose proof (u_small H24) as U. pose proof pos_V.
  assert (S := sub_step n V wok_k _ _ _ _ _ _ _ _ (vne_exact n V x Fx) proj_step (Rle_trans _ _ (1 * V) Nx ltac:(lra)) (Rle_trans _ _ (1 * V) shadow_len ltac:(lra)) ltac:(lra) ltac:(lra) ltac:(lra)).
  eapply vne_weak; [exact wok_k|exact S|]. assert (20 * u * u <= u / 1024) by nra. lra.
Qed.
Lemma orth_of e (y : nat -> R) : fnrm n (fun i => y i - (X i - shadow n O X i)) <= e * V -> Rabs (rsum n (fun i => y i * O i)) <= e * V * L.
Proof.
  intros E. destruct (c128_shadow n O X pos_L) as (Z & _).
  replace (rsum n (fun i => y i * O i)) with (rsum n (fun i => (y i - (X i - shadow n O X i)) * O i)).
  - eapply Rle_trans; [apply fnrm_cs|]. apply Rmult_le_compat_r; [apply fnrm_pos|exact E].
  - rewrite <- sum_diff. change (sum n (fun i => (X i - shadow n O X i) * O i) = 0) in Z. unfold rsum at 2. rewrite Z. ring.
Qed.
End Proj.

Lemma c128_project :
  forall (prec emax : Z) (Hp : Prec_gt_0 prec) (He : Prec_lt_emax prec emax) (n : nat) (k : Z)
    (v o : vec (binary_float prec emax) n) (V : R),
    let u := bpow radix2 (- prec) in
    (24 <= prec)%Z -> (n <= 4)%nat -> (0 <= k)%Z -> (2 * k + 31 <= emax)%Z ->
    (forall i, (i < n)%nat -> is_finite (vat v i) = true) -> (forall i, (i < n)%nat -> is_finite (vat o i) = true) ->
    bpow radix2 (- k) <= V <= bpow radix2 k -> rlength n (fval v) <= V -> bpow radix2 (- k) <= rlength n (fval o) <= bpow radix2 k ->
    vfnear (vproject v o) (shadow n (fval o) (fval v)) (20 * u * V) /\
    Rabs (sum n (fun i => (fval v i - fval (vproject v o) i) * fval o i)) <= 20 * u * V * rlength n (fval o).
Proof.
  intros prec emax Hp He n k v o V u H24 Hn Hk Hr Fv Fo HV Nv HL.
  pose proof (proj_step H24 n k Hn Hk Hr (fun i => vat v i) (fun i => vat o i) V HV Fv Fo Nv HL) as P. cbv zeta in P.
  assert (Q : forall i, (i < n)%nat -> vat (vproject v o) i = nmul (vat o i) (ndiv (sum n (fun j => nmul (vat v j) (vat o j))) (sum n (fun j => nmul (vat o j) (vat o j))))).
  { intros i Hi. unfold vproject, vnorm_squared. rewrite vat_vmul_s, !vdot_sum by exact Hi. reflexivity. }
  assert (P2 : vfnear (vproject v o) (shadow n (fval o) (fval v)) (20 * u * V)).
  { eapply vne_ext in P; [exact P| |intros; reflexivity]. intros i Hi. symmetry. apply Q, Hi. }
  split; [exact P2|].
  apply (orth_of n k (fun i => vat v i) (fun i => vat o i) V HL (20 * u) (fun i => fval v i - fval (vproject v o) i)).
  destruct P2 as (_ & E). rewrite (fnrm_ext n _ (fun i => - (fval (vproject v o) i - shadow n (fval o) (fval v) i))); [rewrite fnrm_neg; exact E|].
  intros i Hi. unfold fval. ring.
Qed.

Lemma qpos (P : nat -> Prop) : P 0%nat -> P 1%nat -> P 2%nat -> P 3%nat -> forall i, (i < 4)%nat -> P i.
Proof. intros A B C D i Hi. destruct i as [|[|[|[|i]]]]; auto; lia. Qed.
Lemma c128_quaternion :
  forall (prec emax : Z) (Hp : Prec_gt_0 prec) (He : Prec_lt_emax prec emax) (k : Z)
    (p q : quat (binary_float prec emax)) (V : R),
    let u := bpow radix2 (- prec) in let P := fval (p : vec _ 4) in let Q := fval (q : vec _ 4) in
    (24 <= prec)%Z -> (0 <= k)%Z -> (2 * k + 31 <= emax)%Z ->
    (forall i, (i < 4)%nat -> is_finite (vat (p : vec _ 4) i) = true) -> (forall i, (i < 4)%nat -> is_finite (vat (q : vec _ 4) i) = true) ->
    bpow radix2 (- k) <= V <= bpow radix2 k -> rlength 4 P <= V -> bpow radix2 (- k) <= rlength 4 Q <= bpow radix2 k ->
    vfnear (qproject p q : vec _ 4) (shadow 4 Q P) (20 * u * V) /\
    vfnear (qreject p q : vec _ 4) (fun i => P i - shadow 4 Q P i) (23 * u * V) /\
    Rabs (sum 4 (fun i => fval (qreject p q : vec _ 4) i * Q i)) <= 23 * u * V * rlength 4 Q.
Proof.
  intros prec emax Hp He k p q V u P Q H24 Hk Hr Fp Fq HV Np HL.
  assert (H4 : (4 <= 4)%nat) by lia.
  set (c := ndiv (sum 4 (fun j => nmul (vat (p : vec _ 4) j) (vat (q : vec _ 4) j))) (sum 4 (fun j => nmul (vat (q : vec _ 4) j) (vat (q : vec _ 4) j)))).
  assert (EC : ndiv (qdot p q) (qnorm_squared q) = c).
  { unfold qnorm_squared, qdot. rewrite !vdot_sum. reflexivity. }
  assert (E1 : forall i, (i < 4)%nat -> vat (qproject p q : vec _ 4) i = nmul (vat (q : vec _ 4) i) c).
  { unfold qproject. rewrite EC. generalize c. intros c'. destruct q as (a0 & a1 & a2 & a3 & []). apply qpos; reflexivity. }
  assert (E2 : forall i, (i < 4)%nat -> vat (qreject p q : vec _ 4) i = nsub (vat (p : vec _ 4) i) (nmul (vat (q : vec _ 4) i) c)).
  { unfold qreject, qproject. rewrite EC. generalize c. intros c'. destruct q as (a0 & a1 & a2 & a3 & []). destruct p as (b0 & b1 & b2 & b3 & []).
    apply qpos; reflexivity. }
  pose proof (proj_step H24 4 k H4 Hk Hr (fun i => vat (p : vec _ 4) i) (fun i => vat (q : vec _ 4) i) V HV Fp Fq Np HL) as S1. cbv zeta in S1.
  pose proof (reject_step H24 4 k H4 Hk Hr (fun i => vat (p : vec _ 4) i) (fun i => vat (q : vec _ 4) i) V HV Fp Fq Np HL) as S2. cbv zeta in S2.
  fold c in S1, S2.
  assert (R2 : vfnear (qreject p q : vec _ 4) (fun i => P i - shadow 4 Q P i) (23 * u * V)).
  { eapply vne_ext in S2; [exact S2| |intros; reflexivity]. intros i Hi. symmetry. apply E2, Hi. }
  split; [|split; [exact R2|]].
  - eapply vne_ext in S1; [exact S1| |intros; reflexivity]. intros i Hi. symmetry. apply E1, Hi.
  - apply (orth_of 4 k (fun i => vat (p : vec _ 4) i) (fun i => vat (q : vec _ 4) i) V HL (23 * u) (fun i => fval (qreject p q : vec _ 4) i)).
    exact (proj2 R2).
Qed.

Lemma c128_example :
  let nd := vz 3 4 0 in let x := vz 1 2 2 in let a := fun i => fval nd i / rlength 3 (fval nd) in
  (forall i, (i < 3)%nat -> is_finite (vat nd i) = true) /\ (forall i, (i < 3)%nat -> is_finite (vat x i) = true) /\
  (2 * 10 + 31 <= 1024)%Z /\ bpow radix2 (31 - 1024) <= 4 <= bpow radix2 (1024 - 31) /\ bpow radix2 (- 10) <= 4 <= bpow radix2 10 /\
  rlength 3 (fval x) <= 4 /\ bpow radix2 (- 10) <= rlength 3 (fval nd) <= bpow radix2 10 /\
  rlength 3 a = 1 /\ vfnear (fvnormalize nd) a (24 * bpow radix2 (- 53)) /\ 24 * bpow radix2 (- 53) <= / 256 /\
  mirror 3 a (fun _ => 0) (fval x) 0 = -41 / 25 /\ mirror 3 a (fun _ => 0) (fval x) 2 = 2 /\
  shadow 3 (fval nd) (fval x) 0 = 33 / 25 /\ shadow 3 (fval nd) (fval x) 1 = 44 / 25.
Proof.
  intros nd x a.
  destruct (vz_val 3 4 0 ltac:(lia) ltac:(lia) ltac:(lia)) as (A & B & C & F). fold nd in A, B, C, F.
  destruct (vz_val 1 2 2 ltac:(lia) ltac:(lia) ltac:(lia)) as (A' & B' & C' & F'). fold x in A', B', C', F'.
  assert (Ld : rlength 3 (fval nd) = 5) by (rewrite rlen3, A, B, C; replace (_ + _) with (5 * 5) by lra; apply sqrt_square; lra).
  assert (Lx : rlength 3 (fval x) = 3) by (rewrite rlen3, A', B', C'; replace (_ + _) with (3 * 3) by lra; apply sqrt_square; lra).
  assert (P1 : bpow radix2 (- 10) <= 1 / 1024) by (cbn; lra).
  assert (P2 : 1024 <= bpow radix2 10) by (cbn; lra).
  assert (P3 : bpow radix2 (31 - 1024) <= bpow radix2 (- 10)) by (apply bpow_le; lia).
  assert (P4 : bpow radix2 10 <= bpow radix2 (1024 - 31)) by (apply bpow_le; lia).
  assert (P5 : 24 * bpow radix2 (- 53) <= / 256) by (cbn; lra).
  assert (R : bpow radix2 (- 10) <= rlength 3 (fval nd) <= bpow radix2 10) by (rewrite Ld; lra).
  destruct (unit_near 3 10 nd ltac:(lia) ltac:(lia) ltac:(lia) ltac:(lia) F R) as (U1 & U2).
  conjs; try assumption; try lia; try lra.
  - unfold mirror, a. cbn [sum]. rnum. rewrite Ld, A, B, C, A', B', C'. field.
  - unfold mirror, a. cbn [sum]. rnum. rewrite Ld, A, B, C, A', B', C'. field.
  - unfold shadow. cbn [sum]. rnum. rewrite A, B, C, A', B', C'. field.
  - unfold shadow. cbn [sum]. rnum. rewrite A, B, C, A', B', C'. field.
Qed.
