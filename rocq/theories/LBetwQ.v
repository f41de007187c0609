(** Lemmas for C135 and C136: images under the computed rotations, and where they fail. *)

From Coq Require Import List Arith ZArith Bool Lia Reals Lra Psatz.
From Flocq Require Import Core.Core IEEE754.BinarySingleNaN.
From Verif Require Import Base Scalar Spec SpecF SpecDrift SpecRot SpecRotF SpecRigid SpecLook SpecBetw SpecLibm SpecCR SpecArc MVector MMatrix MQuat MFloat MFloatVec MSign MComplexF MRotF MTransform MArcF
  LBase LVector LVectorR LFloat LFloatVec LFloatP LFloatAcc LFloatExP LDriftM LDriftP LRigidF LNormF LLookF LBetw LComplexHP LArc LArcN LArcP LArcQ LRotFP LTrScF LSlerpS LSlerpW LDegF
  LComplexLP LLibmP LTrigB LFloatNormP LBetwF LBetwP.
Local Open Scope R_scope.

(** * Images under a matrix *)
Lemma rodrigues_linear (x a : vec R 3) t i : (i < 3)%nat ->
  sum 3 (fun j => (vat (rodrigues x t (axis3 j)) i * vat a j)%R) = vat (rodrigues x t a) i.
Proof.
  intros Hi. destruct x as [x0 [x1 [x2 []]]]. destruct a as [a0 [a1 [a2 []]]].
  destruct i as [|[|[|i]]]; [| | |lia]; cbv [rodrigues axis3 delta Nat.eqb sum vat vget fst snd v3 nadd nmul n0 n1 num_R]; ring.
Qed.
Lemma image_err (m r : nat -> nat -> R) (a : nat -> R) e i : 0 <= e -> fnrm 3 a = 1 -> (i < 3)%nat ->
  (forall j, (j < 3)%nat -> Rabs (m j i - r j i) <= e) ->
  Rabs (rdot (fun j => m j i) a - rdot (fun j => r j i) a) <= 7 / 4 * e.
Proof.
  intros E Ha Hi H.
  replace (rdot (fun j => m j i) a - rdot (fun j => r j i) a) with (rdot (fun j => m j i - r j i) a) by (rewrite !rdot3; ring).
  eapply Rle_trans; [apply rdot_cs|]. rewrite Ha, Rmult_1_r. apply len3_bound; assumption.
Qed.
Lemma id_linear (a : nat -> R) i : (i < 3)%nat -> rdot (fun j => vat (axis3 j) i) a = a i.
Proof. intros Hi. rewrite rdot3. destruct i as [|[|[|i]]]; [| | |lia]; cbv [axis3 delta Nat.eqb vat vget fst snd v3 n0 n1 num_R]; ring. Qed.
Lemma sandwich_id j i : (j < 3)%nat -> (i < 3)%nat -> vat (qsandwich (1, 0, 0, 0) (axis3 j)) i = vat (axis3 j) i.
Proof.
  intros Hj Hi. unfold qsandwich. assert (E : qlength (1, 0, 0, 0) = 1) by (unfold qlength; transitivity (sqrt 1); [apply f_equal; ring|apply sqrt_1]). rewrite E.
  destruct j as [|[|[|j]]]; [| | |lia]; (destruct i as [|[|[|i]]]; [| | |lia]); cbv [hamilton rqconj axis3 delta Nat.eqb vat vget fst snd v3 n0 n1 num_R]; field.
Qed.

Section Im.
Variables (prec emax : Z) (Hp : Prec_gt_0 prec) (He : Prec_lt_emax prec emax).
Notation fl := (binary_float prec emax).
Notation u := (bpow radix2 (- prec)).
Lemma qmat_near_id (q : quat fl) e : (24 <= prec)%Z -> (34 <= emax)%Z -> 0 <= e <= / 16 ->
  (forall i, (i < 4)%nat -> fnear (vat (q : vec fl 4) i) (delta i 0) e) ->
  forall j i, (j < 3)%nat -> (i < 3)%nat -> fnear (mget (qto_matrix q) j i) (vat (axis3 j) i) (12 * e + 80 * u).
Proof.
  intros H24 H34 E0 N j i Hj Hi.
  destruct (N 0%nat ltac:(lia)) as (F0 & X0). destruct (N 1%nat ltac:(lia)) as (F1 & X1). destruct (N 2%nat ltac:(lia)) as (F2 & X2). destruct (N 3%nat ltac:(lia)) as (F3 & X3).
  change (delta 0 0) with 1 in X0. change (delta 1 0) with 0 in X1. change (delta 2 0) with 0 in X2. change (delta 3 0) with 0 in X3.
  assert (U4 : 1 * 1 + 0 * 0 + 0 * 0 + 0 * 0 = 1) by ring.
  pose proof (pert_n e _ _ _ _ _ _ _ _ (proj1 E0) (proj2 E0) X0 X1 X2 X3 U4) as PN. apply Rabs_le_inv in PN.
  assert (M : forall l, (l < 4)%nat -> is_finite (vat (q : vec _ 4) l) = true) by (intros l Hl; apply N, Hl).
  pose proof (c124_quaternion_matrix prec emax Hp He 1 q H24 ltac:(lia) ltac:(lia) M) as T. cbv zeta in T.
  assert (LQ : bpow radix2 (- (1)) <= qlength (B2R (vat (q : vec _ 4) 0), B2R (vat (q : vec _ 4) 1), B2R (vat (q : vec _ 4) 2), B2R (vat (q : vec _ 4) 3)) <= bpow radix2 1).
  { unfold qlength. match goal with |- _ <= sqrt ?NQ <= _ => set (NN := NQ) in * end.
    assert (B : / 4 <= NN <= 4) by lra.
    replace (bpow radix2 (- (1))) with (sqrt (/ 4)).
    - replace (bpow radix2 1) with (sqrt 4).
      + split; apply sqrt_le_1_alt; lra.
      + replace 4 with (2 * 2) by ring. rewrite sqrt_square by lra. cbn. lra.
    - replace (/ 4) with (/ 2 * / 2) by field. rewrite sqrt_square by lra. cbn. lra. }
  specialize (T LQ j i Hj Hi). eapply fnear_tri; [exact T|].
  rewrite <- (sandwich_id j i Hj Hi). apply pert_sandwich; (assumption || lra).
Qed.
End Im.

Section Final.
Variables (prec emax : Z) (Hp : Prec_gt_0 prec) (He : Prec_lt_emax prec emax).
Notation fl := (binary_float prec emax).
Notation u := (bpow radix2 (- prec)).
Variable k : Z.
Variable L : libm fl.
Variable arccos : fl -> fl.
Variables v w : vec fl 3.
Variable d : R.
Hypothesis H24 : (24 <= prec)%Z.
Hypothesis Hr2 : (2 * prec + 31 <= emax)%Z.
Hypothesis Hk : (0 <= k)%Z.
Hypothesis Hr : (2 * k + 31 <= emax)%Z.
Hypothesis Fv : forall i, (i < 3)%nat -> is_finite (vat v i) = true.
Hypothesis Fw : forall i, (i < 3)%nat -> is_finite (vat w i) = true.
Hypothesis HV : bpow radix2 (- k) <= rlength 3 (fval v) <= bpow radix2 k.
Hypothesis HW : bpow radix2 (- k) <= rlength 3 (fval w) <= bpow radix2 k.
Hypothesis Hd : 0 <= d <= / 256.
Hypothesis HL : turn_lib L arccos d.
Notation V := (fval v).
Notation W := (fval w).
Let V0 : 0 < rlength 3 V := len_pos k v HV.
Let W0 : 0 < rlength 3 W := len_pos k w HW.
Notation s := (rsine V W).

Lemma rod_image (m : mat fl 3 3) e : 0 <= e -> 0 < s ->
  (forall j i, (j < 3)%nat -> (i < 3)%nat -> fnear (mget m j i) (vat (rodrigues (turn_axis V W) (turn_angle V W) (axis3 j)) i) e) ->
  forall i, (i < 3)%nat -> Rabs (rdot (fun j => B2R (mget m j i)) (rdir V) - rdir W i) <= 7 / 4 * e.
Proof.
  intros E S N i Hi.
  assert (Q : rdot (fun j => vat (rodrigues (turn_axis V W) (turn_angle V W) (axis3 j)) i) (rdir V) = rdir W i).
  { rewrite <- (vat_vdir W i Hi), <- (c135_exact V W S V0 W0), <- rodrigues_linear by exact Hi. reflexivity. }
  rewrite <- Q. apply (image_err (fun j i => B2R (mget m j i)) (fun j i => vat (rodrigues (turn_axis V W) (turn_angle V W) (axis3 j)) i)); auto.
  - apply dir_len, V0.
  - intros j Hj. apply N; assumption.
Qed.
Lemma s_big : 512 * u <= s * s -> 0 < s /\ u / s <= sqrt u / 22.
Proof.
  intros Hs. assert (P : 0 < s).
  { pose proof (u_small H24) as U. pose proof (fnrm_pos 3 (rcross (rdir V) (rdir W))) as P. rewrite (dir_sine V W V0 W0) in P. destruct P as [P|P]; [exact P|]. rewrite <- P in Hs. lra. } split; [exact P|]. destruct (r_facts H24) as (R0 & R2). set (r := sqrt u) in *.
  assert (S : 22 * r <= s) by (apply Rsqr_incr_0; [unfold Rsqr; nra|lra|lra]).
  apply (Rmult_le_reg_r s); [exact P|]. replace (u / s * s) with u by (field; lra). rewrite <- R2. nra.
Qed.
Lemma image : 0 < rcosine V W \/ 512 * u <= s * s ->
  exists r, frot3rotation_between L arccos v w = Some r /\
  forall i, (i < 3)%nat -> Rabs (rdot (fun j => B2R (mget r j i)) (rdir V) - rdir W i) <= 130 * d + 700 * sqrt u.
Proof.
  intros H. destruct (r_facts H24) as (R0 & R2). pose proof (u_small H24) as U.
  destruct (Rle_or_lt (512 * u) (s * s)) as [Hs|Hs].
  - destruct (apart_r prec emax Hp He k L arccos v w d H24 Hr2 Hk Hr Fv Fw HV HW Hd HL Hs) as (r & E & N). destruct (s_big Hs) as (S & B).
    exists r. split; [exact E|]. intros i Hi.
    assert (E2 : 4280 * u / s <= 195 * sqrt u) by (replace (4280 * u / s) with (4280 * (u / s)) by (field; lra); lra).
    assert (P : 0 < 4280 * u / s) by (apply Rdiv_lt_0_compat; lra).
    assert (P2 : 0 <= 72 * d + 4280 * u / s) by lra. eapply Rle_trans; [apply (rod_image r _ P2 S N i Hi)|]. lra.
  - assert (C : 0 < rcosine V W) by (destruct H; lra).
    destruct (par_q prec emax Hp He k L arccos v w d H24 Hr2 Hk Hr Fv Fw HV HW Hd HL C (Rlt_le _ _ Hs)) as (q & E & N & D).
    exists (qto_matrix q). split; [unfold frot3rotation_between; rewrite E; reflexivity|]. intros i Hi.
    assert (E16 : 0 <= 30 * sqrt u + 4 * d <= / 16) by lra.
    pose proof (qmat_near_id prec emax Hp He q _ H24 ltac:(lia) E16 N) as M.
    assert (E17 : 0 <= 12 * (30 * sqrt u + 4 * d) + 80 * u) by lra.
    pose proof (image_err (fun j i => B2R (mget (qto_matrix q) j i)) (fun j i => vat (axis3 j) i) (rdir V) (12 * (30 * sqrt u + 4 * d) + 80 * u) i E17 (dir_len V V0) Hi) as I.
    cbv beta in I. rewrite id_linear in I by exact Hi.
    specialize (I (fun j Hj => proj2 (M j i Hj Hi))).
    pose proof (fnrm_comp 3 (fun i => rdir W i - rdir V i) i Hi) as DC. cbv beta in DC. change (rlength 3 ?f) with (fnrm 3 f) in D.
    replace (rdot (fun j => B2R (mget (qto_matrix q) j i)) (rdir V) - rdir W i)
      with ((rdot (fun j => B2R (mget (qto_matrix q) j i)) (rdir V) - rdir V i) - (rdir W i - rdir V i)) by ring.
    eapply Rle_trans; [apply Rabs_triang|]. rewrite Rabs_Ropp.
    assert (UR : u <= sqrt u * / 4096) by (rewrite <- R2 at 1; apply Rmult_le_compat_l; lra). lra.
Qed.
End Final.

(** * Nearly opposite vectors *)
Lemma sandwich_axis (w x y z : R) (a : vec R 3) : 0 < w * w + x * x + y * y + z * z ->
  x * vat (qsandwich (w, x, y, z) a) 0 + y * vat (qsandwich (w, x, y, z) a) 1 + z * vat (qsandwich (w, x, y, z) a) 2
  = x * vat a 0 + y * vat a 1 + z * vat a 2.
Proof.
  intros N. unfold qsandwich. destruct a as [a0 [a1 [a2 []]]].
  assert (E : qlength (w, x, y, z) * qlength (w, x, y, z) = w * w + x * x + y * y + z * z) by (unfold qlength; apply sqrt_sqrt; lra). rewrite E.
  cbv [hamilton rqconj vat vget fst snd v3 n0 n1 num_R]. field. lra.
Qed.
Ltac decide_if v := match goal with |- context [if ?b then _ else _] => let E := fresh in assert (E : b = v) by (vm_compute; reflexivity); rewrite E; clear E end.
Notation F n := (f64_of_Z n).
Definition ov : vec f64 3 := v3 (F 7) (F 13) (F 8).
Definition ow : vec f64 3 := v3 (F (- (7 * 2 ^ 49 + 3))) (F (- (13 * 2 ^ 49))) (F (- (2 ^ 52))).
Definition oax : vec f64 3 := fvnormalize (vcross (fvnormalize ov) (fvnormalize ow)).
Definition oct : f64 := vdot (fvnormalize ov) (fvnormalize ow).
Lemma between_compute {prec emax : Z} {Hp : Prec_gt_0 prec} {He : Prec_lt_emax prec emax} (L : libm (binary_float prec emax)) arccos (v w : vec (binary_float prec emax) 3) :
  let a := fvnormalize v in let b := fvnormalize w in
  Bltb (n0 * n0)%N_ (vnorm_squared v) = true -> Bltb (n0 * n0)%N_ (vnorm_squared w) = true ->
  Bltb (feps * feps)%N_ (vnorm_squared (vcross a b)) = true -> Bleb (vdot a b) (nneg n1) = false ->
  fqrotation_between L arccos v w =
  if Bleb n1 (vdot a b) then Some qidentity else Some (gqfrom_axis_angle (m_sin L) (m_cos L) (fvnormalize (vcross a b)) (arccos (vdot a b))).
Proof.
  intros a b E1 E2 E3 E4. unfold fqrotation_between, fvtry_unit. cbv zeta. rewrite E1, E2. unfold fqrotation_between_axis, fvtry_unit. cbv zeta.
  fold a b. rewrite E3, E4. reflexivity.
Qed.
Lemma o_eq (L : libm f64) arccos : fqrotation_between L arccos ov ow = Some (gqfrom_axis_angle (m_sin L) (m_cos L) oax (arccos oct)).
Proof.
  rewrite (between_compute L arccos ov ow); [|vm_compute; reflexivity..]. fold oct. fold oax.
  decide_if false. reflexivity.
Qed.
Definition fis_zero (x : f64) : bool := match x with B754_zero _ => true | _ => false end.
Lemma le64 (x y : f64) : is_finite x = true -> is_finite y = true -> Bleb x y = true -> B2R x <= B2R y.
Proof. intros Fx Fy E. rewrite (Bleb_correct _ _ x y Fx Fy) in E. revert E. case Rle_bool_spec; [auto|discriminate]. Qed.
Lemma f64_one : is_finite (n1 : f64) = true /\ B2R (n1 : f64) = 1.
Proof. destruct (@one_facts 53 1024 _ _) as (F1 & V1 & _). split; [exact F1|exact V1]. Qed.
Lemma f64_half : is_finite (ndiv n1 (nadd n1 n1) : f64) = true /\ B2R (ndiv n1 (nadd n1 n1) : f64) = / 2.
Proof. destruct (half_const (prec:=53) (emax:=1024) ltac:(lia) ltac:(lia)) as (Fh & Vh). split; [exact Fh|exact Vh]. Qed.
Lemma oct_val : is_finite oct = true /\ -1 <= B2R oct <= 0.
Proof.
  assert (Fo : is_finite oct = true) by (vm_compute; reflexivity). split; [exact Fo|].
  destruct f64_one as (F1 & V1).
  assert (Fm : is_finite (nneg n1 : f64) = true) by exact (eq_trans (is_finite_Bopp _ _ (n1 : f64)) F1).
  assert (Vm : B2R (nneg n1 : f64) = -1) by (transitivity (- B2R (n1 : f64)); [exact (B2R_Bopp _ _ (n1 : f64))|rewrite V1; lra]).
  split.
  - rewrite <- Vm. apply le64; [exact Fm|exact Fo|vm_compute; reflexivity].
  - change 0 with (B2R (n0 : f64)). apply le64; [exact Fo|reflexivity|vm_compute; reflexivity].
Qed.
Lemma oax_val : B2R (vat oax 0) = 0 /\ B2R (vat oax 1) = - B2R (vat oax 2) /\ / 2 <= B2R (vat oax 2) <= 1 /\
  (forall i, (i < 3)%nat -> is_finite (vat oax i) = true).
Proof.
  assert (F3 : forall i, (i < 3)%nat -> is_finite (vat oax i) = true) by (intros i Hi; destruct i as [|[|[|i]]]; [| | |lia]; vm_compute; reflexivity).
  assert (F2 := F3 2%nat ltac:(lia)).
  refine (conj _ (conj _ (conj (conj _ _) _))).
  - assert (Z : forall x : f64, fis_zero x = true -> B2R x = 0) by (intros x; destruct x; [reflexivity|discriminate..]). apply Z. vm_compute. reflexivity.
  - assert (E : vat oax 1 = nneg (vat oax 2)) by (apply B2SF_inj; vm_compute; reflexivity). rewrite E. exact (B2R_Bopp _ _ (vat oax 2)).
  - destruct f64_half as (Fh & Vh). rewrite <- Vh. apply le64; [exact Fh|exact F2|vm_compute; reflexivity].
  - destruct f64_one as (F1 & V1). rewrite <- V1. apply le64; [exact F2|exact F1|vm_compute; reflexivity].
  - exact F3.
Qed.
Lemma zval z : (Z.abs z <? 2 ^ 53)%Z = true -> B2R (F z) = IZR z.
Proof. intros H. apply f64_of_Z_exact. apply Z.ltb_lt. exact H. Qed.
Lemma ov_val : fval ov 0%nat = 7 /\ fval ov 1%nat = 13 /\ fval ov 2%nat = 8.
Proof. exact (conj (zval 7 eq_refl) (conj (zval 13 eq_refl) (zval 8 eq_refl))). Qed.
Lemma ow_val : fval ow 0%nat = - (7 * 2 ^ 49 + 3) /\ fval ow 1%nat = - (13 * 2 ^ 49) /\ fval ow 2%nat = - (2 ^ 52).
Proof.
  assert (P : (2 ^ 49 = IZR (2 ^ 49)) /\ (2 ^ 52 = IZR (2 ^ 52))) by (split; rewrite pow_IZR; reflexivity). destruct P as (P49 & P52).
  refine (conj _ (conj _ _)).
  - transitivity (IZR (- (7 * 2 ^ 49 + 3))); [exact (zval (- (7 * 2 ^ 49 + 3)) eq_refl)|]. rewrite opp_IZR, plus_IZR, mult_IZR, P49. reflexivity.
  - transitivity (IZR (- (13 * 2 ^ 49))); [exact (zval (- (13 * 2 ^ 49)) eq_refl)|]. rewrite opp_IZR, mult_IZR, P49. reflexivity.
  - transitivity (IZR (- (2 ^ 52))); [exact (zval (- (2 ^ 52)) eq_refl)|]. rewrite opp_IZR, P52. reflexivity.
Qed.
Lemma len3_le (x : nat -> R) m : 0 <= m -> x 0%nat * x 0%nat + x 1%nat * x 1%nat + x 2%nat * x 2%nat <= m * m -> rlength 3 x <= m.
Proof.
  intros M H. change (rlength 3 x) with (fnrm 3 x). apply Rsqr_incr_0; [|apply fnrm_pos|exact M]. unfold Rsqr. rewrite len_sq, rdot3. exact H.
Qed.
Lemma len3_ge (x : nat -> R) m : 0 <= m -> m * m <= x 0%nat * x 0%nat + x 1%nat * x 1%nat + x 2%nat * x 2%nat -> m <= rlength 3 x.
Proof.
  intros M H. change (rlength 3 x) with (fnrm 3 x). apply Rsqr_incr_0; [|exact M|apply fnrm_pos]. unfold Rsqr. rewrite len_sq, rdot3. exact H.
Qed.
Lemma ov_len : 16 <= rlength 3 (fval ov) <= 17.
Proof.
  destruct ov_val as (E0 & E1 & E2). split; [apply len3_ge|apply len3_le]; try lra; rewrite E0, E1, E2; lra.
Qed.
Lemma ow_len : 16 * 2 ^ 49 <= rlength 3 (fval ow) <= 17 * 2 ^ 49.
Proof.
  destruct ow_val as (E0 & E1 & E2). split; [apply len3_ge|apply len3_le]; try lra; rewrite E0, E1, E2; lra.
Qed.

Lemma o_sine (L : libm f64) arccos : turn_lib L arccos (/ 256) ->
  let half := nmul (arccos oct) (ndiv n1 (nadd n1 n1)) : f64 in is_finite (m_sin L half) = true /\ / 2 <= B2R (m_sin L half) <= 2.
Proof.
  intros (HA & HT) half. destruct oct_val as (Fo & Ro). destruct (HA oct Fo ltac:(apply Rabs_le; lra)) as (Fa & Ea).
  destruct f64_half as (Fh & Vh). pose proof (acos_bound (B2R oct)) as AB. pose proof PI_4 as P4. pose proof PI2_3_2 as P3.
  set (th := arccos oct) in *. set (al := acos (B2R oct)) in *. apply Rabs_le_inv in Ea.
  assert (AL : PI / 2 <= al).
  { apply Rnot_lt_le. intros Q. assert (C : 0 < cos al) by (apply cos_gt_0; lra). unfold al in C. rewrite cos_acos in C by lra. lra. }
  assert (SL : 2 / 3 <= sin (al / 2)).
  { apply Rle_trans with (sin (3 / 4)); [|apply sin_incr_1; lra]. destruct (sin_taylor (3 / 4) ltac:(lra)) as (T & _). lra. }
  assert (T6 : Rabs (B2R th * B2R (ndiv n1 (nadd n1 n1) : f64)) <= 5 / 2) by (rewrite Vh, Rabs_mult, (Rabs_pos_eq (/ 2)) by lra; assert (Rabs (B2R th) <= 5) by (apply Rabs_le; lra); lra).
  destruct (mul_val th (ndiv n1 (nadd n1 n1) : f64) Fa Fh) as (FH & VH).
  { eapply Rle_trans; [exact T6|]. apply Rle_trans with (bpow radix2 2); [change (bpow radix2 2) with 4; lra|apply bpow_le; lia]. }
  assert (FH' : is_finite half = true) by exact FH. assert (VH' : B2R half = round radix2 (FLT_exp (3 - 1024 - 53) 53) ZnearestE (B2R th * / 2)) by (rewrite <- Vh; exact VH).
  pose proof (rnd_rel (prec:=53) (emax:=1024) (B2R th * / 2)) as RR. rewrite <- VH' in RR.
  assert (TT : bpow radix2 (2 - 1024 - 53) <= / 65536) by (change (/ 65536) with (bpow radix2 (-16)); apply bpow_le; lia).
  assert (TU : bpow radix2 (- (53)) <= / 65536) by (change (/ 65536) with (bpow radix2 (-16)); apply bpow_le; lia).
  assert (T7 : Rabs (B2R th * / 2) <= 5 / 2) by (rewrite <- Vh; exact T6).
  assert (T8 : bpow radix2 (- (53)) * Rabs (B2R th * / 2) <= / 65536 * (5 / 2)) by (apply Rmult_le_compat; try assumption; [apply bpow_ge_0|apply Rabs_pos]).
  assert (HH : Rabs (B2R half - al / 2) <= / 256) by (apply Rabs_le_inv in RR; apply Rabs_le; lra).
  assert (H5 : Rabs (B2R half) <= 5) by (apply Rabs_le_inv in HH; apply Rabs_le; lra).
  destruct (HT half FH' H5) as ((FS & ES) & _). split; [exact FS|]. pose proof (sin_lip (B2R half) (al / 2)) as SLp.
  pose proof (SIN_bound (al / 2)) as SB. apply Rabs_le_inv in ES. assert (SLq : Rabs (sin (B2R half) - sin (al / 2)) <= / 256) by (eapply Rle_trans; [exact SLp|exact HH]). apply Rabs_le_inv in SLq.
  assert (G : forall x y z : R, - / 256 <= x - y <= / 256 -> - / 256 <= y - z <= / 256 -> 2 / 3 <= z -> -1 <= z <= 1 -> / 2 <= x <= 2) by (intros; lra).
  exact (G _ _ _ ES SLq SL SB).
Qed.

Lemma c136_nearly_opposite : 
  let v : vec f64 3 := v3 (f64_of_Z 7) (f64_of_Z 13) (f64_of_Z 8) in
  let w : vec f64 3 := v3 (f64_of_Z (- (7 * 2 ^ 49 + 3))) (f64_of_Z (- (13 * 2 ^ 49))) (f64_of_Z (- (2 ^ 52))) in
  forall (L : libm f64) (arccos : f64 -> f64), turn_lib L arccos (/ 256) ->
  exists q : quat f64, fqrotation_between L arccos v w = Some q /\
    let val : rquat := (B2R (vat (q : vec f64 4) 0), B2R (vat (q : vec f64 4) 1), B2R (vat (q : vec f64 4) 2), B2R (vat (q : vec f64 4) 3)) in
    2 / 5 <= rlength 3 (fun i => vat (qsandwich val (vdir (fval v))) i - rdir (fval w) i).
Proof.
  intros v w L arccos HL. exists (gqfrom_axis_angle (m_sin L) (m_cos L) oax (arccos oct)). split; [exact (o_eq L arccos)|].
  set (q := gqfrom_axis_angle (m_sin L) (m_cos L) oax (arccos oct)). intros val.
  destruct (o_sine L arccos HL) as (FS & BS). set (half := nmul (arccos oct) (ndiv n1 (nadd n1 n1)) : f64) in *. set (S := m_sin L half) in *.
  destruct oax_val as (X0 & X1 & X2 & FX).
  assert (Q1 : vat (q : vec f64 4) 1 = nmul (vat oax 0) S) by reflexivity. assert (Q2 : vat (q : vec f64 4) 2 = nmul (vat oax 1) S) by reflexivity.
  assert (Q3 : vat (q : vec f64 4) 3 = nmul (vat oax 2) S) by reflexivity.
  assert (MV : forall i, (i < 3)%nat -> B2R (nmul (vat oax i) S : f64) = round radix2 (FLT_exp (3 - 1024 - 53) 53) ZnearestE (B2R (vat oax i) * B2R S)).
  { intros i Hi. apply (mul_val (vat oax i) S (FX i Hi) FS).
    assert (Rabs (B2R (vat oax i)) <= 1) by (destruct i as [|[|[|i]]]; [rewrite X0, Rabs_R0; lra|rewrite X1, Rabs_Ropp, Rabs_pos_eq; lra|rewrite Rabs_pos_eq; lra|lia]).
    rewrite Rabs_mult. assert (BS2 : Rabs (B2R S) <= 2) by (rewrite Rabs_pos_eq; [exact (proj2 BS)|eapply Rle_trans; [|exact (proj1 BS)]; lra]).
    apply Rle_trans with (1 * 2); [apply Rmult_le_compat; try apply Rabs_pos; assumption|].
    apply Rle_trans with (bpow radix2 1); [change (bpow radix2 1) with 2; lra|apply bpow_le; lia]. }
  set (g := B2R (vat (q : vec f64 4) 3)) in *.
  assert (G1 : B2R (vat (q : vec f64 4) 1) = 0) by (rewrite Q1, (MV 0%nat) by lia; rewrite X0, Rmult_0_l; apply round_0; auto with typeclass_instances).
  assert (G2 : B2R (vat (q : vec f64 4) 2) = - g).
  { unfold g. rewrite Q2, Q3, (MV 1%nat), (MV 2%nat) by lia. rewrite X1. replace (- B2R (vat oax 2) * B2R S) with (- (B2R (vat oax 2) * B2R S)) by ring. apply round_NE_opp. }
  assert (G3 : / 4 <= g).
  { unfold g. rewrite Q3, (MV 2%nat) by lia. change (/ 4) with (bpow radix2 (-2)). apply round_ge_generic; auto with typeclass_instances.
    - apply generic_format_bpow. unfold FLT_exp. lia.
    - change (bpow radix2 (-2)) with (/ 4). assert (G : forall h r : R, / 2 <= h <= 1 -> / 2 <= r <= 2 -> / 4 <= h * r) by (intros; nra). exact (G _ _ X2 BS). }
  set (w0 := B2R (vat (q : vec f64 4) 0)) in *.
  assert (EV : val = (w0, 0, - g, g)) by (unfold val; rewrite G1, G2; reflexivity). rewrite EV. clear val EV.
  pose proof (sandwich_axis w0 0 (- g) g (vdir (fval v)) ltac:(nra)) as SX.
  set (Y := qsandwich (w0, 0, - g, g) (vdir (fval v))) in *.
  assert (VY : vat (vdir (fval v)) 1 = 13 / rlength 3 (fval v) /\ vat (vdir (fval v)) 2 = 8 / rlength 3 (fval v)).
  { rewrite !vat_vdir by lia. unfold rdir. destruct ov_val as (_ & E1 & E2). split; [rewrite <- E1|rewrite <- E2]; reflexivity. }
  destruct VY as (VY1 & VY2). rewrite VY1, VY2 in SX. pose proof ov_len as LV. pose proof ow_len as LW.
  assert (LV' : 16 <= rlength 3 (fval v) <= 17) by exact LV. assert (LW' : 16 * 2 ^ 49 <= rlength 3 (fval w) <= 17 * 2 ^ 49) by exact LW.
  set (lv := rlength 3 (fval v)) in *. 
  assert (WY : rdir (fval w) 1%nat = - (13 * 2 ^ 49) / rlength 3 (fval w) /\ rdir (fval w) 2%nat = - (2 ^ 52) / rlength 3 (fval w)).
  { unfold rdir. destruct ow_val as (_ & E1 & E2). split; [rewrite <- E1|rewrite <- E2]; reflexivity. }
  destruct WY as (WY1 & WY2). set (lw := rlength 3 (fval w)) in *. clear LV LW.
  set (X := fun i : nat => match i with 0%nat => 0 | 1%nat => - g | _ => g end).
  pose proof (rdot_cs X (fun i => vat Y i - rdir (fval w) i)) as CS. rewrite rdot3 in CS. cbn [X] in CS. rewrite WY1, WY2 in CS.
  assert (LX : fnrm 3 X <= 142 / 100 * g) by (apply (len3_le X); [lra|cbn [X]; nra]).
  set (y := fnrm 3 (fun i => vat Y i - rdir (fval w) i)) in *. change (2 / 5 <= y).
  assert (IV : / 17 <= / lv) by (apply Rinv_le_contravar; lra).
  assert (IW : 2 ^ 49 * / lw >= / 17).
  { apply Rle_ge. apply (Rmult_le_reg_r lw); [lra|]. rewrite Rmult_assoc, Rinv_l by lra. lra. }
  match type of CS with Rabs ?e <= _ => assert (EE : e = - g * (5 * / lv + 5 * (2 ^ 49 * / lw))) end.
  { replace (2 ^ 52) with (8 * 2 ^ 49) by ring. unfold Rdiv in *. clear - SX. 
    replace (0 * (vat Y 0 - rdir (fval w) 0%nat) + - g * (vat Y 1 - - (13 * 2 ^ 49) * / lw) + g * (vat Y 2 - - (8 * 2 ^ 49) * / lw))
      with ((0 * vat Y 0 + - g * vat Y 1 + g * vat Y 2) - g * (5 * (2 ^ 49 * / lw))) by ring.
    rewrite SX. ring. }
  rewrite EE in CS. assert (E2 : Rabs (- g * (5 * / lv + 5 * (2 ^ 49 * / lw))) = g * (5 * / lv + 5 * (2 ^ 49 * / lw))).
  { rewrite Rabs_mult, Rabs_Ropp, !Rabs_pos_eq by lra. reflexivity. }
  rewrite E2 in CS. set (z := 5 * / lv + 5 * (2 ^ 49 * / lw)) in *. assert (Z0 : 10 / 17 <= z) by (unfold z; lra).
  assert (Y0 : 0 <= y) by apply fnrm_pos.
  assert (C2 : g * (10 / 17) <= 142 / 100 * g * y).
  { apply Rle_trans with (g * z); [apply Rmult_le_compat_l; lra|]. eapply Rle_trans; [exact CS|]. apply Rmult_le_compat_r; assumption. }
  assert (C3 : 10 / 17 <= 142 / 100 * y) by (apply (Rmult_le_reg_l g); lra). lra.
Qed.

(** * Small angles *)
Lemma c136_small_angle :
  let v : vec f64 3 := v3 (f64_of_Z (2 ^ 27)) (f64_of_Z 0) (f64_of_Z 0) in
  let w : vec f64 3 := v3 (f64_of_Z (2 ^ 27)) (f64_of_Z 1) (f64_of_Z 0) in
  (forall (L : libm f64) (arccos : f64 -> f64), fqrotation_between L arccos v w = Some qidentity) /\
  bpow radix2 (- 28) <= rdir (fval w) 1%nat - rdir (fval v) 1%nat.
Proof.
  intros v w. split.
  - intros L arccos. rewrite (between_compute L arccos v w); [|vm_compute; reflexivity..]. decide_if true. reflexivity.
  - assert (V1 : fval v 1%nat = 0) by exact (zval 0 eq_refl). assert (W1 : fval w 1%nat = 1) by exact (zval 1 eq_refl).
    assert (W0 : fval w 0%nat = IZR (2 ^ 27)) by exact (zval (2 ^ 27) eq_refl). assert (W2 : fval w 2%nat = 0) by exact (zval 0 eq_refl).
    unfold rdir. rewrite V1, W1.
    assert (LW : rlength 3 (fval w) <= IZR (2 ^ 28)) by (apply len3_le; [apply IZR_le; lia|rewrite W0, W1, W2; replace (IZR (2 ^ 28)) with (2 * IZR (2 ^ 27)) by (rewrite <- mult_IZR; reflexivity);
      assert (1 <= IZR (2 ^ 27)) by (apply IZR_le; lia); nra]).
    assert (LG : 1 <= rlength 3 (fval w)) by (apply len3_ge; [lra|rewrite W0, W1, W2; nra]).
    unfold Rdiv. rewrite Rmult_0_l, Rminus_0_r, Rmult_1_l. change (bpow radix2 (- 28)) with (/ IZR (2 ^ 28)). apply Rinv_le_contravar; lra.
Qed.
