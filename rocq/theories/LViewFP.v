(** The theorems about inverse viewing matrices and viewing isometries in floats (C158). *)

From Coq Require Import List Arith ZArith Lia Reals Lra Psatz.
From Flocq Require Import Core.Core IEEE754.BinarySingleNaN.
From Verif Require Import Base Scalar Spec SpecF SpecRot SpecRigid SpecLook MVector MMatrix MPoint MReal MFloat MFloatVec MTransform MLookF MViewF
  LBase LVector LMatrix LTransform LReal LVectorR LRot LTransformR LFloat LFloatVec LFloatAcc LFloatNormP LFloatP LDrift LDriftM LFloatExP LComplexJP LNormF LRigidF LRigidFP
  LLookF LLookFP LLookGP LSimFP LViewF.
Local Open Scope R_scope.

Section G.
Context {prec emax : Z} {Hp : Prec_gt_0 prec} {He : Prec_lt_emax prec emax}.
Notation fl := (binary_float prec emax).
Notation u := (bpow radix2 (- prec)).
Variables (k : Z) (D : nat -> R) (d up : vec fl 3) (h : bool).
Notation W := (fval up).
Notation s := (rsine W D).
Notation D' := (fun i => if h then D i else - D i).
Hypothesis OK : view_ok prec emax k D W.
Hypothesis Hs : 16384 * u <= s.
Hypothesis Fd : forall i, (i < 3)%nat -> is_finite (vat d i) = true.
Hypothesis Fw : forall i, (i < 3)%nat -> is_finite (vat up i) = true.
Hypothesis Hd : fnrm 3 (fun i => fval d i - D i) <= u * fnrm 3 D.

Lemma g24 : (24 <= prec)%Z. Proof. apply OK. Qed.
Lemma s_pos : 0 < s.
Proof. pose proof (bpow_gt_0 radix2 (- prec)). lra. Qed.
Lemma s_D' : rsine W D' = s.
Proof. destruct h; [reflexivity|apply sine_neg]. Qed.
Lemma s_le1 : s <= 1.
Proof.
  destruct OK as (_ & _ & _ & (A & _) & (B & _) & _). pose proof (bpow_gt_0 radix2 (- k)). unfold rsine. change (rlength 3 ?f) with (fnrm 3 f) in *. pose proof (cross_len W D) as CL.
  assert (0 < fnrm 3 W * fnrm 3 D) by (apply Rmult_lt_0_compat; lra).
  apply (Rmult_le_reg_r (fnrm 3 W * fnrm 3 D)); [assumption|]. unfold Rdiv. rewrite Rmult_assoc, Rinv_l by lra. lra.
Qed.
Lemma us : u <= u / s.
Proof.
  pose proof s_pos as S. pose proof s_le1. pose proof (bpow_gt_0 radix2 (- prec)). apply (Rmult_le_reg_r s); [exact S|]. unfold Rdiv. rewrite Rmult_assoc, Rinv_l by lra. nra.
Qed.
Lemma ds : 0 <= 273 * u / s <= / 60.
Proof.
  pose proof s_pos as S. pose proof (bpow_gt_0 radix2 (- prec)). split; [unfold Rdiv; apply Rmult_le_pos; [lra|left; apply Rinv_0_lt_compat; exact S]|].
  apply (Rmult_le_reg_r s); [exact S|]. unfold Rdiv. rewrite Rmult_assoc, Rinv_l by lra. lra.
Qed.
Lemma ortho : orthoframe (frame D' W).
Proof.
  assert (C : 0 < rlength 3 (rcross W D')).
  { change (0 < fnrm 3 (rcross W D')). destruct (Rle_lt_or_eq_dec 0 _ (fnrm_pos 3 (rcross W D'))) as [P|P]; [exact P|].
    pose proof s_pos as S. rewrite <- s_D' in S. unfold rsine in S. change (rlength 3 (rcross W D')) with (fnrm 3 (rcross W D')) in S. rewrite <- P in S. unfold Rdiv in S. lra. }
  destruct (c127_frame _ _ C) as (O & _). exact O.
Qed.
Lemma entries i j : (i < 3)%nat -> (j < 3)%nat -> fnear (mget ((if h then fm3look_to_lh else fm3look_to_rh) d up) j i) (frame D' W i j) (273 * u / s).
Proof. destruct h; [apply (m_lh k D d up OK Fd Fw Hd)|apply (m_rh k D d up OK Fd Fw Hd)]. Qed.
Notation a := ((if h then fm3look_to_lh else fm3look_to_rh) d up).
Notation Q := (rows_of (frame D' W)).
Lemma HQ : orthonormal_columns Q.
Proof. apply rows_orth, ortho. Qed.
Lemma HM j i : (j < 3)%nat -> (i < 3)%nat -> fnear (mget a j i) (mget Q j i) (273 * u / s).
Proof. intros Hj Hi. rewrite rows_get by assumption. apply entries; assumption. Qed.
Lemma HMt j i : (j < 3)%nat -> (i < 3)%nat -> fnear (mget (mtranspose a) j i) (mget (mtranspose Q) j i) (273 * u / s).
Proof. intros Hj Hi. rewrite !mget_mtranspose by assumption. apply HM; assumption. Qed.

Lemma weak (v : vec fl 3) x e e' : vfnear v x e -> e <= e' -> vfnear v x e'.
Proof. intros (F & E) H. split; [exact F|lra]. Qed.

Lemma g_round V (v : vec fl 3) : @wok emax V -> (forall i, (i < 3)%nat -> is_finite (vat v i) = true) -> rlength 3 (fval v) <= V ->
  vfnear (mmulv (mtranspose a) (mmulv a v)) (fval v) (2500 * u / s * V) /\ vfnear (mmulv a (mmulv (mtranspose a) v)) (fval v) (2500 * u / s * V).
Proof.
  intros WV Fv Nv. pose proof (wok_pos V WV) as V0. pose proof us as US. pose proof (bpow_gt_0 radix2 (- prec)) as UP.
  assert (K : (9 * (273 * u / s) + 38 * u) * V <= 2500 * u / s * V) by (apply Rmult_le_compat_r; unfold Rdiv in *; lra).
  split.
  - eapply weak; [exact (round_trip g24 V WV a Q _ v HQ ds HM Fv Nv)|exact K].
  - pose proof (round_trip g24 V WV (mtranspose a) (mtranspose Q) _ v (orth_inverse 3 Q HQ) ds HMt Fv Nv) as R. rewrite mtranspose_invol in R.
    eapply weak; [exact R|exact K].
Qed.

Lemma q_apply (x : nat -> R) i : (i < 3)%nat -> rsum 3 (fun j => mget Q j i * x j) = rdot (frame D' W i) x.
Proof. intros Hi. apply sum_ext. intros j Hj. rewrite rows_get by assumption. reflexivity. Qed.
Lemma qt_apply (x : nat -> R) i : (i < 3)%nat -> rsum 3 (fun j => mget (mtranspose Q) j i * x j) = rdot (fun j => frame D' W j i) x.
Proof. intros Hi. apply sum_ext. intros j Hj. rewrite mget_mtranspose, rows_get by assumption. reflexivity. Qed.

Lemma vf_ext (v : vec fl 3) x y e : vfnear v x e -> (forall i, (i < 3)%nat -> x i = y i) -> vfnear v y e.
Proof.
  intros (F & E) H. split; [exact F|]. change (rlength 3 ?f) with (fnrm 3 f) in *. rewrite (fnrm_ext 3 _ (fun i => fval v i - x i)); [exact E|]. intros i Hi. rewrite H by exact Hi. reflexivity.
Qed.

Lemma g_iso V (eye p : vec fl 3) : @wok emax V -> (forall i, (i < 3)%nat -> is_finite (vat eye i) = true) -> rlength 3 (fval eye) <= V ->
  (forall i, (i < 3)%nat -> is_finite (vat p i) = true) -> rlength 3 (fval p) <= V ->
  vfnear (iso_apply_point (fiso3view eye a) p) (fun i => rdot (frame D' W i) (fun j => fval p j - fval eye j)) (2250 * u / s * V) /\
  vfnear (iso_apply_point (fiso3view eye (mtranspose a)) p) (fun i => rdot (fun j => frame D' W j i) (fun j => fval p j - fval eye j)) (2250 * u / s * V).
Proof.
  intros WV Fe Ne Fp Np. pose proof (wok_pos V WV) as V0. pose proof us as US. pose proof (bpow_gt_0 radix2 (- prec)) as UP.
  assert (K : (8 * (273 * u / s) + 39 * u) * V <= 2250 * u / s * V) by (apply Rmult_le_compat_r; unfold Rdiv in *; lra).
  split.
  - eapply weak; [eapply vf_ext; [exact (view_apply g24 V WV a Q _ eye p HQ ds HM Fe Ne Fp Np)|]|exact K]. intros i Hi. apply (q_apply (fun j => fval p j - fval eye j) i Hi).
  - eapply weak; [eapply vf_ext; [exact (view_apply g24 V WV (mtranspose a) (mtranspose Q) _ eye p (orth_inverse 3 Q HQ) ds HMt Fe Ne Fp Np)|]|exact K].
    intros i Hi. apply (qt_apply (fun j => fval p j - fval eye j) i Hi).
Qed.

(** The 4x4 inverse. *)
Lemma cols4 (x y z : vec fl 3) eye :
  let m := fm4look_cols x y z eye in let ax := fun i => match i with 0%nat => x | 1%nat => y | _ => z end in
  (forall i j, (i < 3)%nat -> (j < 3)%nat -> mget m j i = vat (ax j) i) /\
  (forall i, (i < 3)%nat -> mget m 3 i = vdot (pdiff eye (porigin 3)) (ax i)) /\
  (forall j, (j < 3)%nat -> mget m j 3 = n0) /\ mget m 3 3 = n1.
Proof.
  cbv zeta. unfold fm4look_cols. cbv zeta. set (ex := vdot _ x). set (ey := vdot _ y). set (ez := vdot _ z).
  split; [|split; [|split]].
  - intros i j Hi Hj. destruct i as [|[|[|i]]]; [| | |lia]; (destruct j as [|[|[|j]]]; [| | |lia]); reflexivity.
  - intros i Hi. destruct i as [|[|[|i]]]; [| | |lia]; reflexivity.
  - intros j Hj. destruct j as [|[|[|j]]]; [| | |lia]; reflexivity.
  - reflexivity.
Qed.
Lemma g_cols V (eye : vec fl 3) m (f := frame D' W) : @wok emax V -> (forall i, (i < 3)%nat -> is_finite (vat eye i) = true) -> rlength 3 (fval eye) <= V ->
  m = (if h then fm4look_to_lh_inv else fm4look_to_rh_inv) eye d up ->
  (forall i j, (i < 3)%nat -> (j < 3)%nat -> fnear (mget m j i) (f j i) (273 * u / s)) /\
  (forall i, (i < 3)%nat -> fnear (mget m 3 i) (rdot (fval eye) (f i)) (281 * u / s * V)) /\
  (forall j, (j < 3)%nat -> mget m j 3 = n0) /\ mget m 3 3 = n1.
Proof.
  intros WV Fe Ne ->. pose proof OK as (H24 & Hk & Hr & HD & HW & Hs1). pose proof us as US. pose proof (bpow_gt_0 radix2 (- prec)) as UP. pose proof (wok_pos V WV) as V0.
  set (z := if h then fvnormalize d else fvnormalize (vneg d)).
  assert (Hz : forall i, (i < 3)%nat -> fnear (vat z i) (rdir D' i) (14 * u)) by (unfold z; destruct h; [exact (z1 k D d up OK Fd Hd)|exact (z3 k D d up OK Fd Hd)]).
  assert (HD' : 0 < rlength 3 D') by (destruct h; [exact (D_pos k D up OK)|exact (D_neg k D up OK)]).
  assert (Hs' : 1024 * u <= rsine W D') by (rewrite s_D'; exact Hs1).
  replace ((if h then fm4look_to_lh_inv else fm4look_to_rh_inv) eye d up) with (fm4look_cols (flook_x z up) (flook_y z up) z eye) by (unfold z; destruct h; reflexivity).
  destruct (cols4 (flook_x z up) (flook_y z up) z eye) as (A & B & C & E). split; [|split; [|split; [exact C|exact E]]].
  - intros i j Hi Hj. rewrite A by assumption. pose proof (axes_near H24 k Hk Hr z up D' Hz Fw HW HD' Hs' j Hj) as N. rewrite s_D' in N. exact (vfnear_comp _ _ _ i N Hi).
  - intros i Hi. rewrite B by assumption. pose proof (axes_near H24 k Hk Hr z up D' Hz Fw HW HD' Hs' i Hi) as N. rewrite s_D' in N.
    destruct (axes_orth H24 k Hk Hr z up D' Hz Fw HW HD' Hs') as (O & _). specialize (O i Hi). cbv beta in O. apply Rabs_le_inv in O. pose proof (u_small H24) as U.
    assert (L : fnrm 3 (fval (axis_of z up i)) <= 11 / 10) by (change (fnrm 3 ?f) with (rlength 3 f); lra).
    destruct (eye_step H24 V eye _ _ _ WV Fe Ne N L) as (F1 & E1). cbn [nneg num_float] in F1, E1. rewrite is_finite_Bopp in F1. rewrite B2R_Bopp in E1.
    split; [exact F1|]. eapply Rle_trans; [|eapply Rle_trans; [exact E1|]].
    + right. rewrite <- Rabs_Ropp. apply f_equal. unfold f. change (axis_of z up i) with (match i with 0%nat => flook_x z up | 1%nat => flook_y z up | _ => z end). ring.
    + apply Rmult_le_compat_r; [lra|]. unfold Rdiv in *. lra.
Qed.
End G.

(** The direction that is used: given, or from the eye to the target. *)
Lemma used {prec emax} {Hp : Prec_gt_0 prec} {He : Prec_lt_emax prec emax} (k : Z) (dir eye target up : vec (binary_float prec emax) 3) (aim : bool) :
  let D := fun i => if aim then fval target i - fval eye i else fval dir i in let u := bpow radix2 (- prec) in
  (24 <= prec)%Z -> (0 <= k)%Z -> (2 * (k + prec) + 13 <= emax)%Z ->
  (forall i, (i < 3)%nat -> is_finite (vat dir i) = true) -> (forall i, (i < 3)%nat -> is_finite (vat eye i) = true) -> (forall i, (i < 3)%nat -> is_finite (vat target i) = true) ->
  bpow radix2 (- k) <= rlength 3 D <= bpow radix2 k -> bpow radix2 (- k) <= rlength 3 (fval up) <= bpow radix2 k -> 16384 * u <= rsine (fval up) D ->
  view_ok prec emax k D (fval up) /\ let d := if aim then pdiff target eye else dir in
  (forall i, (i < 3)%nat -> is_finite (vat d i) = true) /\ fnrm 3 (fun i => fval d i - D i) <= u * fnrm 3 D.
Proof.
  intros D u H24 Hk Hr Fd Fe Ft HD HW Hs. split; [unfold view_ok; split; [exact H24|]; split; [exact Hk|]; split; [exact Hr|]; split; [exact HD|]; split; [exact HW|]|].
  - pose proof (bpow_gt_0 radix2 (- prec)). unfold u in Hs. lra.
  - intros d. unfold d, D in *. destruct aim.
    + apply (diff_near H24 k Hk Hr target eye Ft Fe). apply HD.
    + split; [exact Fd|apply to_self].
Qed.

Theorem c158_inverse :
  forall (prec emax : Z) (Hp : Prec_gt_0 prec) (He : Prec_lt_emax prec emax) (k : Z) (dir eye target up v : vec (binary_float prec emax) 3) (V : R) (aim left : bool),
    let u := bpow radix2 (- prec) in let D := fun i => if aim then fval target i - fval eye i else fval dir i in let s := rsine (fval up) D in
    let f := frame (fun i => if left then D i else - D i) (fval up) in
    let a := if aim then (if left then fm3look_at_lh else fm3look_at_rh) eye target up else (if left then fm3look_to_lh else fm3look_to_rh) dir up in
    let b := if aim then (if left then fm3look_at_lh_inv else fm3look_at_rh_inv) eye target up else (if left then fm3look_to_lh_inv else fm3look_to_rh_inv) dir up in
    (24 <= prec)%Z -> (0 <= k)%Z -> (2 * (k + prec) + 13 <= emax)%Z ->
    (forall i, (i < 3)%nat -> is_finite (vat dir i) = true) -> (forall i, (i < 3)%nat -> is_finite (vat eye i) = true) ->
    (forall i, (i < 3)%nat -> is_finite (vat target i) = true) -> (forall i, (i < 3)%nat -> is_finite (vat up i) = true) ->
    bpow radix2 (- k) <= rlength 3 D <= bpow radix2 k -> bpow radix2 (- k) <= rlength 3 (fval up) <= bpow radix2 k -> 16384 * u <= s ->
    bpow radix2 (31 - emax) <= V <= bpow radix2 (emax - 31) -> (forall i, (i < 3)%nat -> is_finite (vat v i) = true) -> rlength 3 (fval v) <= V ->
    (forall i j, (i < 3)%nat -> (j < 3)%nat -> fnear (mget b j i) (f j i) (273 * u / s)) /\
    vfnear (mmulv b (mmulv a v)) (fval v) (2500 * u / s * V) /\ vfnear (mmulv a (mmulv b v)) (fval v) (2500 * u / s * V).
Proof.
  intros prec emax Hp He k dir eye target up v V aim left u D s f a b H24 Hk Hr Fd Fe Ft Fw HD HW Hs WV Fv Nv.
  destruct (used k dir eye target up aim H24 Hk Hr Fd Fe Ft HD HW Hs) as (OK & G). cbv zeta in G. destruct G as (Fu & Hu). fold D in OK, Hu.
  set (d := if aim then pdiff target eye else dir) in *.
  assert (Ea : a = (if left then fm3look_to_lh else fm3look_to_rh) d up) by (unfold a, d; destruct aim, left; reflexivity).
  assert (Eb : b = mtranspose a) by (unfold a, b; destruct aim, left; reflexivity).
  rewrite Eb, Ea. split.
  - intros i j Hi Hj. rewrite mget_mtranspose by assumption. exact (entries k D d up left OK Fu Fw Hu j i Hj Hi).
  - exact (g_round k D d up left OK Hs Fu Fw Hu V v WV Fv Nv).
Qed.

Theorem c158_isometry :
  forall (prec emax : Z) (Hp : Prec_gt_0 prec) (He : Prec_lt_emax prec emax) (k : Z) (dir eye target up p : vec (binary_float prec emax) 3) (V : R) (aim left : bool),
    let u := bpow radix2 (- prec) in let D := fun i => if aim then fval target i - fval eye i else fval dir i in let s := rsine (fval up) D in
    let f := frame (fun i => if left then D i else - D i) (fval up) in
    let iso := if aim then (if left then fiso3look_at_lh else fiso3look_at_rh) eye target up else (if left then fiso3look_to_lh else fiso3look_to_rh) eye dir up in
    let sim := if aim then (if left then fsim3look_at_lh else fsim3look_at_rh) eye target up else (if left then fsim3look_to_lh else fsim3look_to_rh) eye dir up in
    (24 <= prec)%Z -> (0 <= k)%Z -> (2 * (k + prec) + 13 <= emax)%Z ->
    (forall i, (i < 3)%nat -> is_finite (vat dir i) = true) -> (forall i, (i < 3)%nat -> is_finite (vat eye i) = true) ->
    (forall i, (i < 3)%nat -> is_finite (vat target i) = true) -> (forall i, (i < 3)%nat -> is_finite (vat up i) = true) ->
    bpow radix2 (- k) <= rlength 3 D <= bpow radix2 k -> bpow radix2 (- k) <= rlength 3 (fval up) <= bpow radix2 k -> 16384 * u <= s ->
    bpow radix2 (31 - emax) <= V <= bpow radix2 (emax - 31) -> rlength 3 (fval eye) <= V -> (forall i, (i < 3)%nat -> is_finite (vat p i) = true) -> rlength 3 (fval p) <= V ->
    vfnear (iso_apply_point iso p) (fun i => rdot (f i) (fun j => fval p j - fval eye j)) (2250 * u / s * V) /\
    vfnear (sim_apply_point sim p) (fun i => rdot (f i) (fun j => fval p j - fval eye j)) (2250 * u / s * V).
Proof.
  intros prec emax Hp He k dir eye target up p V aim left u D s f iso sim H24 Hk Hr Fd Fe Ft Fw HD HW Hs WV Ne Fp Np.
  destruct (used k dir eye target up aim H24 Hk Hr Fd Fe Ft HD HW Hs) as (OK & G). cbv zeta in G. destruct G as (Fu & Hu). fold D in OK, Hu.
  set (d := if aim then pdiff target eye else dir) in *.
  assert (Ei : iso = fiso3view eye ((if left then fm3look_to_lh else fm3look_to_rh) d up)) by (unfold iso, d; destruct aim, left; reflexivity).
  assert (Es : sim = sim_from_isometry iso) by (unfold sim, iso; destruct aim, left; reflexivity).
  assert (Ep : sim_apply_point sim p = iso_apply_point iso p).
  { rewrite Es. exact (proj1 (c157_exact prec emax Hp He 3 sim iso (iso_translation iso) (iso_rotation iso) p)). }
  rewrite Ep, Ei. destruct (g_iso k D d up left OK Hs Fu Fw Hu V eye p WV Fe Ne Fp Np) as (A & _). split; exact A.
Qed.

Theorem c158_isometry_inverse :
  forall (prec emax : Z) (Hp : Prec_gt_0 prec) (He : Prec_lt_emax prec emax) (k : Z) (dir eye target up p : vec (binary_float prec emax) 3) (V : R) (aim left : bool),
    let u := bpow radix2 (- prec) in let D := fun i => if aim then fval target i - fval eye i else fval dir i in let s := rsine (fval up) D in
    let f := frame (fun i => if left then D i else - D i) (fval up) in
    let iso := if aim then (if left then fiso3look_at_lh_inv else fiso3look_at_rh_inv) eye target up else (if left then fiso3look_to_lh_inv else fiso3look_to_rh_inv) eye dir up in
    let m := if aim then (if left then fm4look_at_lh_inv else fm4look_at_rh_inv) eye target up else (if left then fm4look_to_lh_inv else fm4look_to_rh_inv) eye dir up in
    (24 <= prec)%Z -> (0 <= k)%Z -> (2 * (k + prec) + 13 <= emax)%Z ->
    (forall i, (i < 3)%nat -> is_finite (vat dir i) = true) -> (forall i, (i < 3)%nat -> is_finite (vat eye i) = true) ->
    (forall i, (i < 3)%nat -> is_finite (vat target i) = true) -> (forall i, (i < 3)%nat -> is_finite (vat up i) = true) ->
    bpow radix2 (- k) <= rlength 3 D <= bpow radix2 k -> bpow radix2 (- k) <= rlength 3 (fval up) <= bpow radix2 k -> 16384 * u <= s ->
    bpow radix2 (31 - emax) <= V <= bpow radix2 (emax - 31) -> rlength 3 (fval eye) <= V -> (forall i, (i < 3)%nat -> is_finite (vat p i) = true) -> rlength 3 (fval p) <= V ->
    vfnear (iso_apply_point iso p) (fun i => rdot (fun j => f j i) (fun j => fval p j - fval eye j)) (2250 * u / s * V) /\
    (forall i j, (i < 3)%nat -> (j < 3)%nat -> fnear (mget m j i) (f j i) (273 * u / s)) /\
    (forall i, (i < 3)%nat -> fnear (mget m 3 i) (rdot (fval eye) (f i)) (281 * u / s * V)) /\
    (forall j, (j < 3)%nat -> mget m j 3 = n0) /\ mget m 3 3 = n1.
Proof.
  intros prec emax Hp He k dir eye target up p V aim left u D s f iso m H24 Hk Hr Fd Fe Ft Fw HD HW Hs WV Ne Fp Np.
  destruct (used k dir eye target up aim H24 Hk Hr Fd Fe Ft HD HW Hs) as (OK & G). cbv zeta in G. destruct G as (Fu & Hu). fold D in OK, Hu.
  set (d := if aim then pdiff target eye else dir) in *.
  assert (Ei : iso = fiso3view eye (mtranspose ((if left then fm3look_to_lh else fm3look_to_rh) d up))) by (unfold iso, d; destruct aim, left; reflexivity).
  assert (Em : m = (if left then fm4look_to_lh_inv else fm4look_to_rh_inv) eye d up) by (unfold m, d; destruct aim, left; reflexivity).
  rewrite Ei. split; [apply (g_iso k D d up left OK Hs Fu Fw Hu V eye p WV Fe Ne Fp Np)|].
  exact (g_cols k D d up left OK Hs Fu Fw Hu V eye m WV Fe Ne Em).
Qed.

Theorem c158_inverse_refuted :
  exists eye dir up p : vec f64 3,
    let q := iso_apply_point (fiso3look_to_lh_inv eye dir up) (iso_apply_point (fiso3look_to_lh eye dir up) p) in
    let m := mmul (fm4look_to_lh_inv eye dir up) (fm4look_to_lh eye dir up) in
    fval p 0%nat = 1 /\ fval q 0%nat = 0 /\ B2R (mget m 3 0) = -1.
Proof.
  exists (vz 1 0 0), (vz 1 0 0), (vz 0 1 0), (vz 1 0 0). cbv zeta. unfold fval.
  assert (Z : forall (x : f64), B2SF x = SpecFloat.S754_zero false \/ B2SF x = SpecFloat.S754_zero true -> B2R x = 0).
  { intros x H. rewrite <- SF2R_B2SF. destruct H as [-> | ->]; reflexivity. }
  split; [|split].
  - destruct (vz_val 1 0 0 ltac:(lia) ltac:(lia) ltac:(lia)) as (X & _). exact X.
  - apply Z. vm_compute. first [left; reflexivity|right; reflexivity].
  - destruct (vz_val (-1) 0 0 ltac:(lia) ltac:(lia) ltac:(lia)) as (X & _). unfold fval in X. rewrite <- X. apply f_equal. apply B2SF_inj. vm_compute. reflexivity.
Qed.

Theorem c158_example :
  let dir := vz 3 4 0 in let up := vz 0 1 0 in let eye := vz 1 2 3 in
  (2 * (10 + 53) + 13 <= 1024)%Z /\ bpow radix2 (- 10) <= rlength 3 (fval dir) <= bpow radix2 10 /\ rsine (fval up) (fval dir) = 3 / 5 /\
  16384 * bpow radix2 (- 53) <= 3 / 5 /\ rlength 3 (fval eye) <= 4 /\ bpow radix2 (31 - 1024) <= 4 <= bpow radix2 (1024 - 31).
Proof.
  intros dir up eye. destruct c127_example as (_ & _ & A & B & _ & C & _). split; [exact A|]. split; [exact B|]. split; [exact C|].
  split; [change (bpow radix2 (-53)) with (/ 9007199254740992); lra|]. split.
  - destruct (vz_val 1 2 3 ltac:(lia) ltac:(lia) ltac:(lia)) as (X & Y & T & _). fold eye in X, Y, T. rewrite rlen3, X, Y, T.
    replace 4 with (sqrt (4 * 4)) by (apply sqrt_square; lra). apply sqrt_le_1; lra.
  - change 4 with (bpow radix2 2). split; apply bpow_le; lia.
Qed.
