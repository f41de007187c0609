(** Viewing matrices in floats: the proofs of the property theorems of PLookF.v. *)

From Coq Require Import List Arith ZArith Lia Reals Lra Psatz.
From Flocq Require Import Core.Core IEEE754.BinarySingleNaN.
From Verif Require Import Base Scalar Spec SpecF SpecRigid SpecLook MVector MMatrix MPoint MFloat MFloatVec MLookF LBase LVector LVectorR LFloat LFloatVec LFloatP LFloatAcc
  LFloatExP LDriftM LRigidF LNormF LLookF.
Local Open Scope R_scope.

(** * The exact frame *)
Lemma len_pos_iff a : 0 < fnrm 3 a -> 0 < rdot a a.
Proof. intros H. rewrite <- len_sq. apply Rmult_lt_0_compat; exact H. Qed.
Lemma len_scaled t a : fnrm 3 (fun i => t * a i) = Rabs t * fnrm 3 a.
Proof. apply fnrm_scale. Qed.
Lemma cross_nonzero_len a b : 0 < fnrm 3 (rcross a b) -> 0 < fnrm 3 a /\ 0 < fnrm 3 b.
Proof.
  intros H. pose proof (cross_len a b) as L. pose proof (fnrm_pos 3 a) as A. pose proof (fnrm_pos 3 b) as B.
  split; apply Rnot_le_lt; intros C.
  - replace (fnrm 3 a) with 0 in L by lra. lra.
  - replace (fnrm 3 b) with 0 in L by lra. lra.
Qed.
Lemma rdot_dir_l a b : rdot (rdir a) b = rdot a b / fnrm 3 a.
Proof. rewrite !rdot3. unfold rdir. change (rlength 3 a) with (fnrm 3 a). unfold Rdiv. ring. Qed.
Lemma rdot_dir_r a b : rdot b (rdir a) = rdot b a / fnrm 3 a.
Proof. rewrite rdot_sym, rdot_dir_l, rdot_sym. reflexivity. Qed.
Lemma cross_dir_r a b i : rcross a (rdir b) i = / fnrm 3 b * rcross a b i.
Proof. unfold rcross, rdir. change (rlength 3 b) with (fnrm 3 b). destruct i as [|[|i]]; unfold Rdiv; ring. Qed.
Lemma cross_dir_len a b : 0 < fnrm 3 b -> fnrm 3 (rcross a (rdir b)) = fnrm 3 (rcross a b) / fnrm 3 b.
Proof.
  intros B. rewrite (fnrm_ext 3 _ (fun i => / fnrm 3 b * rcross a b i)) by (intros; apply cross_dir_r).
  rewrite fnrm_scale, Rabs_pos_eq by (left; apply Rinv_0_lt_compat; exact B). unfold Rdiv. ring.
Qed.
Lemma right_dir d up i : 0 < fnrm 3 (rcross up d) -> (i < 3)%nat -> rdir (rcross up (rdir d)) i = right d up i.
Proof.
  intros C Hi. destruct (cross_nonzero_len _ _ C) as (_ & D). unfold right.
  rewrite (dir_ext (rcross up (rdir d)) (fun i => / fnrm 3 d * rcross up d i) i) by (intros; try apply cross_dir_r; assumption).
  apply dir_scale; [apply Rinv_0_lt_compat; exact D|exact C].
Qed.
Lemma triple a b c : rdot a (rcross b c) = rdot c (rcross a b).
Proof. rewrite !rdot3. unfold rcross. ring. Qed.
Lemma cross_neg a b i : rcross a (fun j => - b j) i = - rcross a b i.
Proof. unfold rcross. destruct i as [|[|i]]; ring. Qed.
Lemma sine_neg a b : rsine a (fun i => - b i) = rsine a b.
Proof.
  unfold rsine. change (rlength 3 ?f) with (fnrm 3 f).
  rewrite (fnrm_ext 3 _ (fun i => - rcross a b i)) by (intros; apply cross_neg). rewrite !fnrm_neg. reflexivity.
Qed.

Lemma c127_frame : forall d up : nat -> R, 0 < rlength 3 (rcross up d) ->
  (forall i j, (i < 3)%nat -> (j < 3)%nat -> rdot (frame d up i) (frame d up j) = if Nat.eqb i j then 1 else 0) /\
  (forall i, (i < 3)%nat -> rcross (frame d up 1) (frame d up 2) i = frame d up 0 i) /\
  rdot (frame d up 2) d = rlength 3 d /\ rdot (frame d up 0) up = 0 /\ 0 < rdot (frame d up 1) up.
Proof.
  intros d up C. change (rlength 3 (rcross up d)) with (fnrm 3 (rcross up d)) in C. change (rlength 3 d) with (fnrm 3 d).
  destruct (cross_nonzero_len _ _ C) as (W0 & D0).
  assert (F1 : rdot (front d) (front d) = 1) by (rewrite <- len_sq; unfold front; rewrite dir_len by exact D0; ring).
  assert (R1 : rdot (right d up) (right d up) = 1) by (rewrite <- len_sq; unfold right; rewrite dir_len by exact C; ring).
  assert (FR : rdot (front d) (right d up) = 0).
  { unfold front, right. rewrite rdot_dir_l, rdot_dir_r, cross_dot_r. unfold Rdiv. ring. }
  assert (T1 : rdot (top d up) (top d up) = 1) by (unfold top; rewrite lagrange, F1, R1, FR; ring).
  assert (FT : rdot (front d) (top d up) = 0) by apply cross_dot_l.
  assert (RT : rdot (right d up) (top d up) = 0) by apply cross_dot_r.
  split; [|split; [|split; [|split]]].
  - intros i j Hi Hj. destruct i as [|[|[|i]]]; [| | |lia]; (destruct j as [|[|[|j]]]; [| | |lia]); cbn [frame Nat.eqb]; try assumption; rewrite rdot_sym; assumption.
  - intros i Hi. cbn [frame]. unfold top.
    assert (E : rcross (rcross (front d) (right d up)) (front d) i = rdot (front d) (front d) * right d up i - rdot (front d) (right d up) * front d i).
    { rewrite !rdot3. unfold rcross. destruct i as [|[|[|i]]]; [| | |lia]; ring. }
    rewrite E, F1, FR. ring.
  - cbn [frame]. unfold front. rewrite rdot_dir_l, <- len_sq. field. lra.
  - cbn [frame]. unfold right. rewrite rdot_dir_l, rdot_sym, cross_dot_l. unfold Rdiv. ring.
  - cbn [frame]. unfold top. rewrite rdot_sym, triple. unfold right, front. rewrite rdot_dir_l.
    replace (rdot (rcross up d) (rcross up (rdir d))) with (/ fnrm 3 d * rdot (rcross up d) (rcross up d)).
    + apply Rdiv_lt_0_compat; [|exact C]. apply Rmult_lt_0_compat; [apply Rinv_0_lt_compat; exact D0|apply len_pos_iff, C].
    + rewrite !rdot3, !cross_dir_r. ring.
Qed.

(** * The float axes *)
Section View.
Context {prec emax : Z} {Hp : Prec_gt_0 prec} {He : Prec_lt_emax prec emax}.
Notation fl := (binary_float prec emax).
Notation u := (bpow radix2 (- prec)).
Hypothesis H24 : (24 <= prec)%Z.
Variable k : Z.
Hypothesis Hk : (0 <= k)%Z.
Hypothesis Hr : (2 * (k + prec) + 13 <= emax)%Z.

Definition axis_of (z up : vec fl 3) (i : nat) : vec fl 3 := match i with 0%nat => flook_x z up | 1%nat => flook_y z up | _ => z end.

Definition nearly_orthonormal (row : nat -> nat -> R) (s : R) : Prop :=
  (forall i, (i < 3)%nat -> Rabs (rlength 3 (row i) - 1) <= 25 * u) /\
  Rabs (rdot (row 0%nat) (row 1%nat)) <= 44 * u /\ Rabs (rdot (row 1%nat) (row 2%nat)) <= 44 * u /\
  Rabs (rdot (row 0%nat) (row 2%nat)) <= 124 * u / s.

Section One.
Variables (z up : vec fl 3) (D : nat -> R).
Hypothesis Hz : forall i, (i < 3)%nat -> fnear (vat z i) (rdir D i) (14 * u).
Hypothesis Fw : forall i, (i < 3)%nat -> is_finite (vat up i) = true.
Notation W := (fval up).
Hypothesis HW : bpow radix2 (- k) <= rlength 3 W <= bpow radix2 k.
Hypothesis HD : 0 < rlength 3 D.
Notation s := (rsine W D).
Hypothesis Hs1 : 1024 * u <= s.

Lemma W0 : 0 < fnrm 3 W.
Proof. pose proof (bpow_gt_0 radix2 (- k)). change (fnrm 3 W) with (rlength 3 W). lra. Qed.
Lemma s_eq : fnrm 3 (rcross W (rdir D)) = s * fnrm 3 W.
Proof.
  rewrite cross_dir_len by exact HD. unfold rsine. change (rlength 3 ?f) with (fnrm 3 f). pose proof W0. change (rlength 3 D) with (fnrm 3 D) in HD. field. lra.
Qed.
Lemma C0 : 0 < fnrm 3 (rcross W D).
Proof.
  pose proof (u_small H24) as U. pose proof W0 as P. assert (Q : 0 < s * fnrm 3 W) by (apply Rmult_lt_0_compat; lra).
  rewrite <- s_eq, cross_dir_len in Q by exact HD.
  replace (fnrm 3 (rcross W D)) with (fnrm 3 (rcross W D) / fnrm 3 D * fnrm 3 D) by (field; change (rlength 3 D) with (fnrm 3 D) in HD; lra).
  apply Rmult_lt_0_compat; [exact Q|exact HD].
Qed.

Lemma axes_near i : (i < 3)%nat -> vfnear (axis_of z up i) (frame D W i) (273 * u / s).
Proof.
  intros Hi. pose proof (dir_len D HD) as L. pose proof C0 as C. pose proof (u_small H24) as U.
  assert (S0 : 0 < s) by lra. assert (US : 0 < u / s) by (apply Rdiv_lt_0_compat; lra).
  destruct i as [|[|[|i]]]; [| | |lia]; cbn [axis_of frame]; split.
  - intros j Hj. apply (x_comp H24 k Hk Hr z up (rdir D) s L Hz Fw HW s_eq Hs1 j Hj).
  - pose proof (x_err H24 k Hk Hr z up (rdir D) s L Hz Fw HW s_eq Hs1) as E.
    change (rlength 3 ?f) with (fnrm 3 f). rewrite (fnrm_ext 3 _ (fun i => fval (flook_x z up) i - rdir (rcross W (rdir D)) i)).
    + unfold Rdiv in *. lra.
    + intros j Hj. rewrite right_dir by assumption. reflexivity.
  - intros j Hj. apply (y_comp H24 k Hk Hr z up (rdir D) s L Hz Fw HW s_eq Hs1 j Hj).
  - pose proof (y_err H24 k Hk Hr z up (rdir D) s L Hz Fw HW s_eq Hs1) as E.
    change (rlength 3 ?f) with (fnrm 3 f). rewrite (fnrm_ext 3 _ (fun i => fval (flook_y z up) i - rcross (rdir D) (rdir (rcross W (rdir D))) i)); [exact E|].
    intros j Hj. f_equal. unfold top, front, rcross. fold (rcross W (rdir D)). rewrite !right_dir by (assumption || lia). reflexivity.
  - intros j Hj. apply (Hz j Hj).
  - pose proof (z_err H24 z (rdir D) Hz) as E. change (rlength 3 ?f) with (fnrm 3 f).
    apply Rle_trans with (25 * u); [exact E|].
    apply Rle_trans with (25 * u / s); [|unfold Rdiv in *; lra].
    apply (Rmult_le_reg_r s); [exact S0|]. replace (25 * u / s * s) with (25 * u) by (field; lra).
    assert (s <= 1); [|nra]. unfold rsine. change (rlength 3 ?f) with (fnrm 3 f). pose proof (cross_len W D) as CL.
    change (rlength 3 D) with (fnrm 3 D) in HD. pose proof W0. assert (0 < fnrm 3 W * fnrm 3 D) by (apply Rmult_lt_0_compat; assumption).
    apply (Rmult_le_reg_r (fnrm 3 W * fnrm 3 D)); [assumption|]. unfold Rdiv. rewrite Rmult_assoc, Rinv_l by lra. lra.
Qed.

Lemma axes_orth : nearly_orthonormal (fun i => fval (axis_of z up i)) s.
Proof.
  pose proof (dir_len D HD) as L. pose proof (u_small H24) as U. split; [|split; [|split]].
  - intros i Hi. change (rlength 3 ?f) with (fnrm 3 f). destruct i as [|[|[|i]]]; [| | |lia]; cbn [axis_of].
    + eapply Rle_trans; [apply (x_unit H24 k Hk Hr z up (rdir D) s L Hz Fw HW s_eq Hs1)|]. lra.
    + eapply Rle_trans; [apply (y_unit H24 k Hk Hr z up (rdir D) s L Hz Fw HW s_eq Hs1)|]. lra.
    + apply (near1 _ _ _ L (z_err H24 z (rdir D) Hz)).
  - cbn [axis_of]. rewrite rdot_sym. apply (yx H24 k Hk Hr z up (rdir D) s L Hz Fw HW s_eq Hs1).
  - cbn [axis_of]. apply (yz H24 k Hk Hr z up (rdir D) s L Hz Fw HW s_eq Hs1).
  - cbn [axis_of]. apply (xz H24 k Hk Hr z up (rdir D) s L Hz Fw HW s_eq Hs1).
Qed.
End One.

(** * The z-axes *)
Lemma norm_z (d : vec fl 3) i : (forall i, (i < 3)%nat -> is_finite (vat d i) = true) ->
  bpow radix2 (- k - 1) <= fnrm 3 (fval d) <= bpow radix2 (k + 1) -> (i < 3)%nat -> fnear (vat (fvnormalize d) i) (rdir (fval d) i) (12 * u).
Proof.
  intros F R Hi. apply (normalize_gen H24 3 (k + 1)); try lia; [exact F|]. change (rlength 3 ?f) with (fnrm 3 f).
  replace (- (k + 1))%Z with (- k - 1)%Z by lia. exact R.
Qed.
Lemma fval_neg (d : vec fl 3) i : (i < 3)%nat -> fval (vneg d) i = - fval d i.
Proof. intros Hi. unfold fval. rewrite vat_vneg by exact Hi. cbn [nneg num_float]. apply B2R_Bopp. Qed.
Lemma fin_neg (d : vec fl 3) : (forall i, (i < 3)%nat -> is_finite (vat d i) = true) -> forall i, (i < 3)%nat -> is_finite (vat (vneg d) i) = true.
Proof. intros F i Hi. rewrite vat_vneg by exact Hi. cbn [nneg num_float]. rewrite is_finite_Bopp. apply F, Hi. Qed.
Lemma dir_neg a i : rdir (fun j => - a j) i = - rdir a i.
Proof. unfold rdir. change (rlength 3 ?f) with (fnrm 3 f). rewrite fnrm_neg. unfold Rdiv. ring. Qed.

Lemma z_neg (z : vec fl 3) D i : (i < 3)%nat -> fnear (vat z i) (rdir D i) (14 * u) -> fnear (vat (vneg z) i) (rdir (fun j => - D j) i) (14 * u).
Proof.
  intros Hi (F & E). split; [rewrite vat_vneg by exact Hi; cbn [nneg num_float]; rewrite is_finite_Bopp; exact F|].
  pose proof (fval_neg z i Hi) as N. unfold fval in N. rewrite N, dir_neg.
  replace (- B2R (vat z i) - - rdir D i) with (- (B2R (vat z i) - rdir D i)) by ring. rewrite Rabs_Ropp. exact E.
Qed.

(** A direction within a relative error of one unit roundoff. *)
Lemma z_of (d : vec fl 3) D : (forall i, (i < 3)%nat -> is_finite (vat d i) = true) ->
  bpow radix2 (- k) <= fnrm 3 D <= bpow radix2 k -> fnrm 3 (fun i => fval d i - D i) <= u * fnrm 3 D ->
  forall i, (i < 3)%nat -> fnear (vat (fvnormalize d) i) (rdir D i) (14 * u).
Proof.
  intros F R E i Hi. pose proof (u_small H24) as U. pose proof (bpow_gt_0 radix2 (- k)) as B0.
  assert (D0 : 0 < fnrm 3 D) by lra.
  assert (L1 : fnrm 3 (fval d) <= 2 * fnrm 3 D) by (pose proof (fnrm_near 3 _ _ _ E); nra).
  assert (L2 : / 2 * fnrm 3 D <= fnrm 3 (fval d)).
  { assert (fnrm 3 D <= fnrm 3 (fval d) + u * fnrm 3 D); [|nra]. apply fnrm_near.
    rewrite (fnrm_ext 3 _ (fun i => - (fval d i - D i))) by (intros; ring). rewrite fnrm_neg. exact E. }
  destruct (norm_z d i F) as (Fi & Ei); [|exact Hi|].
  - unfold Zminus. rewrite !bpow_plus. change (bpow radix2 (-(1))) with (/ 2). change (bpow radix2 1) with 2. lra.
  - split; [exact Fi|].
    replace (B2R (vat (fvnormalize d) i) - rdir D i) with ((B2R (vat (fvnormalize d) i) - rdir (fval d) i) + (rdir (fval d) i - rdir D i)) by ring.
    eapply Rle_trans; [apply Rabs_triang|].
    assert (Rabs (rdir (fval d) i - rdir D i) <= 2 * u).
    { eapply Rle_trans; [apply (fnrm_comp 3 (fun i => rdir (fval d) i - rdir D i) i Hi)|].
      eapply Rle_trans; [apply dir_pert; lra|]. apply (Rmult_le_reg_r (fnrm 3 D)); [exact D0|]. unfold Rdiv. rewrite Rmult_assoc, Rinv_l by lra. lra. }
    lra.
Qed.
Lemma z_to (d : vec fl 3) : (forall i, (i < 3)%nat -> is_finite (vat d i) = true) ->
  bpow radix2 (- k) <= fnrm 3 (fval d) <= bpow radix2 k -> forall i, (i < 3)%nat -> fnear (vat (fvnormalize d) i) (rdir (fval d) i) (14 * u).
Proof.
  intros F R. pose proof (u_small H24) as U. apply (z_of d (fval d) F R).
  rewrite (fnrm_ext 3 _ (fun i => 0 * fval d i)) by (intros; ring). rewrite fnrm_scale, Rabs_R0, Rmult_0_l.
  apply Rmult_le_pos; [lra|apply fnrm_pos].
Qed.
Lemma neg_rng (d : vec fl 3) : fnrm 3 (fval (vneg d)) = fnrm 3 (fval d).
Proof. rewrite (fnrm_ext 3 _ (fun i => - fval d i)) by (intros; apply fval_neg; assumption). apply fnrm_neg. Qed.

(** The difference of two points. *)
Lemma diff_near (p q : vec fl 3) : (forall i, (i < 3)%nat -> is_finite (vat p i) = true) -> (forall i, (i < 3)%nat -> is_finite (vat q i) = true) ->
  fnrm 3 (fun i => fval p i - fval q i) <= bpow radix2 k ->
  (forall i, (i < 3)%nat -> is_finite (vat (pdiff p q) i) = true) /\
  fnrm 3 (fun i => fval (pdiff p q) i - (fval p i - fval q i)) <= u * fnrm 3 (fun i => fval p i - fval q i).
Proof.
  intros Fp Fq R. pose proof (u_small H24) as U.
  assert (A : forall i, (i < 3)%nat -> is_finite (vat (pdiff p q) i) = true /\
            Rabs (fval (pdiff p q) i - (fval p i - fval q i)) <= Rabs (u * (fval p i - fval q i))).
  { intros i Hi. unfold fval. unfold pdiff. rewrite vat_vsub by exact Hi. rewrite fsub_add_neg.
    assert (Fn : is_finite (nneg (vat q i)) = true) by (cbn [nneg num_float]; rewrite is_finite_Bopp; apply Fq, Hi).
    assert (En : B2R (nneg (vat q i)) = - B2R (vat q i)) by (cbn [nneg num_float]; apply B2R_Bopp).
    assert (Fs : is_finite (nadd (vat p i) (nneg (vat q i))) = true).
    { apply fadd_fin; [apply Fp, Hi|exact Fn|]. rewrite En.
      pose proof (fnrm_comp 3 (fun i => fval p i - fval q i) i Hi) as C. change (Rabs (B2R (vat p i) + - B2R (vat q i)) <= fnrm 3 (fun i => fval p i - fval q i)) in C.
      apply Rle_trans with (bpow radix2 k); [exact (Rle_trans _ _ _ C R)|apply bpow_le; lia]. }
    split; [exact Fs|]. destruct (fadd_err _ _ Fs) as (dd & Hd & V). rewrite V, En, funit_eq in *.
    replace ((B2R (vat p i) + - B2R (vat q i)) * (1 + dd) - (B2R (vat p i) - B2R (vat q i))) with (dd * (B2R (vat p i) - B2R (vat q i))) by ring.
    rewrite !Rabs_mult. apply Rmult_le_compat_r; [apply Rabs_pos|]. rewrite (Rabs_pos_eq u) by lra. exact Hd. }
  split; [intros i Hi; apply A, Hi|].
  rewrite <- (Rabs_pos_eq u) at 1 by lra. rewrite <- (fnrm_scale 3 u). apply fnrm_le. intros i Hi. apply A, Hi.
Qed.

(** * The translation part *)
Lemma sub0 (x : fl) : is_finite x = true -> is_finite (nsub x n0) = true /\ B2R (nsub x n0) = B2R x.
Proof.
  intros F. rewrite fsub_add_neg.
  assert (En : B2R (nneg (n0 : fl)) = 0) by (cbn; lra).
  assert (Fs : is_finite (nadd x (nneg (n0 : fl))) = true).
  { destruct x as [[|]|s| |s m e B]; try discriminate F; reflexivity. }
  split; [exact Fs|]. rewrite fadd_R by exact Fs. rewrite En, Rplus_0_r. apply round_generic; auto with typeclass_instances. apply generic_format_B2R.
Qed.

Lemma eye_step V (eye ax : vec fl 3) A e : @wok emax V -> (forall i, (i < 3)%nat -> is_finite (vat eye i) = true) -> fnrm 3 (fval eye) <= V ->
  vfnear ax A e -> fnrm 3 (fval ax) <= 11 / 10 ->
  fnear (nneg (vdot (pdiff eye (porigin 3)) ax)) (- rdot (fval eye) A) ((e + 8 * u) * V).
Proof.
  intros WV Fe Ve (Fa & Ea) La. pose proof (u_small H24) as U0. assert (U : 0 < u <= / 1024) by lra.
  pose proof (wok_pos V WV) as V0. pose proof (@t_le prec emax V WV) as T. pose proof (@ftiny_pos prec emax) as T0.
  set (x := fun i => vat (pdiff eye (porigin 3)) i).
  assert (X : forall i, (i < 3)%nat -> is_finite (x i) = true /\ B2R (x i) = fval eye i).
  { intros i Hi. unfold x, pdiff. rewrite vat_vsub by exact Hi. replace (vat (porigin 3) i) with (n0 : fl).
    - apply sub0. apply Fe, Hi.
    - destruct i as [|[|[|i]]]; [| | |lia]; reflexivity. }
  assert (SA : rsum 3 (fun i => Rabs (B2R (x i) * B2R (vat ax i))) <= 11 / 10 * V).
  { apply Rle_trans with (rsum 3 (fun i => Rabs (fval eye i) * Rabs (fval ax i))).
    - right. apply sum_ext. intros i Hi. rewrite Rabs_mult. destruct (X i Hi) as (_ & ->). reflexivity.
    - apply Rle_trans with (1 := Rle_abs _). eapply Rle_trans; [apply (fnrm_cs 3 (fun i => Rabs (fval eye i)) (fun i => Rabs (fval ax i)))|].
      rewrite Rmult_comm. apply Rmult_le_compat; try apply fnrm_pos.
      + eapply Rle_trans; [apply (fnrm_le 3 _ (fval ax))|exact La]. intros i _. rewrite Rabs_Rabsolu. lra.
      + eapply Rle_trans; [apply (fnrm_le 3 _ (fval eye))|exact Ve]. intros i _. rewrite Rabs_Rabsolu. lra. }
  assert (S0 : 0 <= rsum 3 (fun i => Rabs (B2R (x i) * B2R (vat ax i)))) by (apply rsum_nonneg; intros; apply Rabs_pos).
  pose proof (pow_u_bound u 4 U ltac:(lia)) as P4. pose proof (pow_u_bound u 3 U ltac:(lia)) as P3.
  assert (I3 : INR 3 = 3) by (cbn; lra).
  assert (T3 : INR 3 * @ftiny prec emax * (1 + u) ^ 3 <= (3 * (u * V * / 4096)) * 2).
  { rewrite I3. apply Rmult_le_compat; try lra. }
  assert (uV : 0 < u * V) by (apply Rmult_lt_0_compat; lra).
  assert (uV2 : u * V <= / 1024 * V) by (apply Rmult_le_compat_r; lra).
  assert (Fd : is_finite (sum 3 (fun i => nmul (x i) (vat ax i))) = true).
  { apply dot_fin; [intros i Hi; apply X, Hi|exact Fa|]. rewrite funit_eq.
    pose proof (IZR_small 4 V ltac:(lia) WV) as I4.
    assert (rsum 3 (fun i => Rabs (B2R (x i) * B2R (vat ax i))) * (1 + u) ^ 4 <= 11 / 10 * V * 2) by (apply Rmult_le_compat; lra).
    lra. }
  pose proof (dot_err_bound 3 x (vat ax) Fd) as E. rewrite funit_eq in E.
  rewrite vdot_sum. fold x. cbv beta in Fd. split; [cbn [nneg num_float]; rewrite is_finite_Bopp; exact Fd|].
  cbn [nneg num_float]. rewrite B2R_Bopp.
  set (q := B2R (sum 3 _)) in *.
  assert (ES : rsum 3 (fun i => B2R (x i) * B2R (vat ax i)) = rdot (fval eye) (fval ax)).
  { apply sum_ext. intros i Hi. destruct (X i Hi) as (_ & ->). reflexivity. }
  rewrite ES in E.
  replace (- q - - rdot (fval eye) A) with (- ((q - rdot (fval eye) (fval ax)) + rdot (fval eye) (fun i => fval ax i - A i))) by (rewrite !rdot3; ring).
  rewrite Rabs_Ropp. eapply Rle_trans; [apply Rabs_triang|].
  assert (E1 : ((1 + u) ^ 4 - 1) * rsum 3 (fun i => Rabs (B2R (x i) * B2R (vat ax i))) <= 7 * u * (11 / 10 * V)) by (apply Rmult_le_compat; lra).
  assert (E2 : Rabs (rdot (fval eye) (fun i => fval ax i - A i)) <= V * e).
  { eapply Rle_trans; [apply rdot_cs|]. apply Rmult_le_compat; try apply fnrm_pos; assumption. }
  lra.
Qed.
End View.
