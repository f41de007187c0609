(** Viewing matrices in floats: the statements of PLookF.v. *)

From Coq Require Import List Arith ZArith Lia Reals Lra Psatz.
From Flocq Require Import Core.Core IEEE754.BinarySingleNaN.
From Verif Require Import Base Scalar Spec SpecF SpecRigid SpecLook MVector MMatrix MPoint MFloat MFloatVec MLookF LBase LVector LVectorR LFloat LFloatVec LFloatP LFloatAcc
  LFloatNormP LComplexJP LFloatExP LDriftM LRigidF LNormF LLookF LLookFP.
Local Open Scope R_scope.

Section Matrices.
Context {prec emax : Z} {Hp : Prec_gt_0 prec} {He : Prec_lt_emax prec emax}.
Notation fl := (binary_float prec emax).
Notation u := (bpow radix2 (- prec)).

Lemma rows3 (z up : vec fl 3) i j : (i < 3)%nat -> (j < 3)%nat ->
  mget (fm3look_rows (flook_x z up) (flook_y z up) z) j i = vat (axis_of z up i) j.
Proof.
  intros Hi Hj. unfold axis_of. generalize (flook_x z up) as x, (flook_y z up) as y. intros x y.
  destruct i as [|[|[|i]]]; [| | |lia]; (destruct j as [|[|[|j]]]; [| | |lia]); reflexivity.
Qed.
Lemma rows4 (z up : vec fl 3) eye :
  let m := fm4look_rows (flook_x z up) (flook_y z up) z eye in
  (forall i j, (i < 3)%nat -> (j < 3)%nat -> mget m j i = vat (axis_of z up i) j) /\
  (forall i, (i < 3)%nat -> mget m 3 i = nneg (vdot (pdiff eye (porigin 3)) (axis_of z up i))) /\
  (forall j, (j < 3)%nat -> mget m j 3 = n0) /\ mget m 3 3 = n1.
Proof.
  unfold axis_of. generalize (flook_x z up) as x, (flook_y z up) as y. intros x y. cbv zeta. unfold fm4look_rows.
  assert (G : forall a b c : fl,
    let m := m4new (vat x 0) (vat y 0) (vat z 0) n0 (vat x 1) (vat y 1) (vat z 1) n0 (vat x 2) (vat y 2) (vat z 2) n0 a b c n1 in
    mget m 3 0 = a /\ mget m 3 1 = b /\ mget m 3 2 = c) by (intros; split; [|split]; reflexivity).
  specialize (G (nneg (vdot (pdiff eye (porigin 3)) x)) (nneg (vdot (pdiff eye (porigin 3)) y)) (nneg (vdot (pdiff eye (porigin 3)) z))).
  cbv zeta in G. destruct G as (Ga & Gb & Gc).
  split; [|split; [|split]].
  - intros i j Hi Hj. destruct i as [|[|[|i]]]; [| | |lia]; (destruct j as [|[|[|j]]]; [| | |lia]); reflexivity.
  - intros i Hi. destruct i as [|[|[|i]]]; [exact Ga|exact Gb|exact Gc|lia].
  - intros j Hj. destruct j as [|[|[|j]]]; [| | |lia]; reflexivity.
  - reflexivity.
Qed.
Lemma vfnear_comp (v : vec fl 3) r e j : vfnear v r e -> (j < 3)%nat -> fnear (vat v j) (r j) e.
Proof.
  intros (F & E) Hj. split; [apply F, Hj|]. exact (Rle_trans _ _ _ (fnrm_comp 3 (fun i => fval v i - r i) j Hj) E).
Qed.
Lemma orth_ext row row' s : (forall i j, (i < 3)%nat -> (j < 3)%nat -> row i j = row' i j) ->
  @nearly_orthonormal prec row s -> @nearly_orthonormal prec row' s.
Proof.
  intros H (A & B & C & D).
  assert (X : forall i k, (i < 3)%nat -> (k < 3)%nat -> rdot (row i) (row k) = rdot (row' i) (row' k)).
  { intros i k Hi Hk. rewrite !rdot3, !H by lia. reflexivity. }
  split; [|split; [|split]].
  - intros i Hi. specialize (A i Hi). change (rlength 3 ?f) with (fnrm 3 f) in *. rewrite <- (fnrm_ext 3 (row i) (row' i)); [exact A|]. intros; apply H; assumption.
  - rewrite <- X by lia. exact B.
  - rewrite <- X by lia. exact C.
  - rewrite <- X by lia. exact D.
Qed.
End Matrices.

(** Hypotheses shared by the theorems: a format with at least the precision of [f32], lengths of the direction [D] and of [up]
    between 2^-k and 2^k, and the two not nearly parallel. *)
Definition view_ok (prec emax k : Z) (D W : nat -> R) : Prop :=
  (24 <= prec)%Z /\ (0 <= k)%Z /\ (2 * (k + prec) + 13 <= emax)%Z /\
  bpow radix2 (- k) <= rlength 3 D <= bpow radix2 k /\ bpow radix2 (- k) <= rlength 3 W <= bpow radix2 k /\
  1024 * bpow radix2 (- prec) <= rsine W D.

Section Main.
Context {prec emax : Z} {Hp : Prec_gt_0 prec} {He : Prec_lt_emax prec emax}.
Notation fl := (binary_float prec emax).
Notation u := (bpow radix2 (- prec)).
Variables (k : Z) (D : nat -> R) (d up : vec fl 3).
Notation W := (fval up).
Hypothesis OK : view_ok prec emax k D W.
Hypothesis Fd : forall i, (i < 3)%nat -> is_finite (vat d i) = true.
Hypothesis Fw : forall i, (i < 3)%nat -> is_finite (vat up i) = true.
Hypothesis Hd : fnrm 3 (fun i => fval d i - D i) <= u * fnrm 3 D.
Notation s := (rsine W D).

Lemma D_pos : 0 < rlength 3 D.
Proof. destruct OK as (_ & _ & _ & (A & _) & _). pose proof (bpow_gt_0 radix2 (- k)). lra. Qed.
Lemma D_neg : 0 < rlength 3 (fun i => - D i).
Proof. change (0 < fnrm 3 (fun i => - D i)). rewrite fnrm_neg. exact D_pos. Qed.
Lemma ok_neg : 1024 * u <= rsine W (fun i => - D i).
Proof. rewrite sine_neg. apply OK. Qed.

Lemma z1 : forall i, (i < 3)%nat -> fnear (vat (fvnormalize d) i) (rdir D i) (14 * u).
Proof. destruct OK as (H24 & Hk & Hr & HD & _). exact (z_of H24 k Hk Hr d D Fd HD Hd). Qed.
Lemma z2 : forall i, (i < 3)%nat -> fnear (vat (vneg (fvnormalize d)) i) (rdir (fun j => - D j) i) (14 * u).
Proof. intros i Hi. apply z_neg; [exact Hi|]. apply z1, Hi. Qed.
Lemma z3 : forall i, (i < 3)%nat -> fnear (vat (fvnormalize (vneg d)) i) (rdir (fun j => - D j) i) (14 * u).
Proof.
  destruct OK as (H24 & Hk & Hr & HD & _). apply (z_of H24 k Hk Hr).
  - apply fin_neg, Fd.
  - rewrite fnrm_neg. exact HD.
  - rewrite fnrm_neg. rewrite (fnrm_ext 3 _ (fun i => - (fval d i - D i))); [rewrite fnrm_neg; exact Hd|].
    intros i Hi. rewrite fval_neg by exact Hi. ring.
Qed.

Lemma m_lh i j : (i < 3)%nat -> (j < 3)%nat -> fnear (mget (fm3look_to_lh d up) j i) (frame D W i j) (273 * u / s).
Proof.
  intros Hi Hj. pose proof OK as (H24 & Hk & Hr & HD & HW & Hs). unfold fm3look_to_lh. cbv zeta. rewrite rows3 by assumption.
  apply vfnear_comp; [|exact Hj]. exact (axes_near H24 k Hk Hr _ up D z1 Fw HW D_pos Hs i Hi).
Qed.
Lemma m_rh i j : (i < 3)%nat -> (j < 3)%nat -> fnear (mget (fm3look_to_rh d up) j i) (frame (fun a => - D a) W i j) (273 * u / s).
Proof.
  intros Hi Hj. pose proof OK as (H24 & Hk & Hr & HD & HW & Hs). unfold fm3look_to_rh. cbv zeta. rewrite rows3 by assumption.
  apply vfnear_comp; [|exact Hj]. rewrite <- sine_neg. exact (axes_near H24 k Hk Hr _ up _ z2 Fw HW D_neg ok_neg i Hi).
Qed.
Lemma o_lh : @nearly_orthonormal prec (fun i j => B2R (mget (fm3look_to_lh d up) j i)) s.
Proof.
  pose proof OK as (H24 & Hk & Hr & HD & HW & Hs). eapply orth_ext; [|exact (axes_orth H24 k Hk Hr _ up D z1 Fw HW D_pos Hs)].
  intros i j Hi Hj. unfold fm3look_to_lh. cbv zeta. rewrite rows3 by assumption. reflexivity.
Qed.
Lemma o_rh : @nearly_orthonormal prec (fun i j => B2R (mget (fm3look_to_rh d up) j i)) s.
Proof.
  pose proof OK as (H24 & Hk & Hr & HD & HW & Hs). rewrite <- sine_neg. eapply orth_ext; [|exact (axes_orth H24 k Hk Hr _ up _ z2 Fw HW D_neg ok_neg)].
  intros i j Hi Hj. unfold fm3look_to_rh. cbv zeta. rewrite rows3 by assumption. reflexivity.
Qed.

(** The 4x4 matrix whose rows are given by a frame [f] and which moves the eye [E] to the origin. *)
Definition near_view (m : mat fl 4 4) (f : nat -> nat -> R) (E : nat -> R) (e V : R) : Prop :=
  (forall i j, (i < 3)%nat -> (j < 3)%nat -> fnear (mget m j i) (f i j) e) /\
  (forall i, (i < 3)%nat -> fnear (mget m 3 i) (- rdot E (f i)) (281 / 273 * e * V)) /\
  (forall j, (j < 3)%nat -> mget m j 3 = n0) /\ mget m 3 3 = n1.

Lemma view4 (eye z : vec fl 3) (D' : nat -> R) V : @wok emax V -> (forall i, (i < 3)%nat -> is_finite (vat eye i) = true) -> fnrm 3 (fval eye) <= V ->
  (forall i, (i < 3)%nat -> fnear (vat z i) (rdir D' i) (14 * u)) -> 0 < rlength 3 D' -> rsine W D' = s ->
  near_view (fm4look_rows (flook_x z up) (flook_y z up) z eye) (frame D' W) (fval eye) (273 * u / s) V.
Proof.
  intros WV Fe Ve Hz HD' Es. pose proof OK as (H24 & Hk & Hr & HD & HW & Hs). rewrite <- Es in *.
  destruct (rows4 z up eye) as (A & B & C & E). split; [|split; [|split; [exact C|exact E]]].
  - intros i j Hi Hj. rewrite A by assumption. apply vfnear_comp; [|exact Hj]. exact (axes_near H24 k Hk Hr z up D' Hz Fw HW HD' Hs i Hi).
  - intros i Hi. rewrite B by assumption.
    pose proof (axes_near H24 k Hk Hr z up D' Hz Fw HW HD' Hs i Hi) as N. destruct (axes_orth H24 k Hk Hr z up D' Hz Fw HW HD' Hs) as (O & _).
    specialize (O i Hi). cbv beta in O. apply Rabs_le_inv in O. pose proof (u_small H24) as U.
    assert (L : fnrm 3 (fval (axis_of z up i)) <= 11 / 10) by (change (fnrm 3 ?f) with (rlength 3 f); lra).
    destruct (eye_step H24 V eye _ _ _ WV Fe Ve N L) as (F1 & E1). split; [exact F1|]. eapply Rle_trans; [exact E1|].
    apply Rmult_le_compat_r; [pose proof (wok_pos V WV); lra|].
    assert (S0 : 0 < rsine W D') by lra.
    assert (S1 : rsine W D' <= 1).
    { unfold rsine. pose proof (cross_len W D') as CL. change (rlength 3 ?f) with (fnrm 3 f) in *. pose proof (W0 k up HW).
      assert (0 < fnrm 3 W * fnrm 3 D') by (apply Rmult_lt_0_compat; assumption).
      apply (Rmult_le_reg_r (fnrm 3 W * fnrm 3 D')); [assumption|]. unfold Rdiv. rewrite Rmult_assoc, Rinv_l by lra. lra. }
    assert (8 * u <= 8 * u / rsine W D').
    { apply (Rmult_le_reg_r (rsine W D')); [exact S0|]. replace (8 * u / rsine W D' * rsine W D') with (8 * u) by (field; lra). nra. }
    unfold Rdiv in *. lra.
Qed.

Lemma v_lh (eye : vec fl 3) V : @wok emax V -> (forall i, (i < 3)%nat -> is_finite (vat eye i) = true) -> fnrm 3 (fval eye) <= V ->
  near_view (fm4look_to_lh eye d up) (frame D W) (fval eye) (273 * u / s) V /\
  near_view (fm4look_to_rh eye d up) (frame (fun a => - D a) W) (fval eye) (273 * u / s) V.
Proof.
  intros WV Fe Ve. split.
  - apply (view4 eye _ D V WV Fe Ve z1 D_pos eq_refl).
  - apply (view4 eye _ _ V WV Fe Ve z3 D_neg (sine_neg _ _)).
Qed.
End Main.

(** * Statements *)
Lemma to_self {prec emax} {Hp : Prec_gt_0 prec} {He : Prec_lt_emax prec emax} (d : vec (binary_float prec emax) 3) :
  fnrm 3 (fun i => fval d i - fval d i) <= bpow radix2 (- prec) * fnrm 3 (fval d).
Proof.
  rewrite (fnrm_ext 3 _ (fun i => 0 * fval d i)) by (intros; ring). rewrite fnrm_scale, Rabs_R0, Rmult_0_l.
  apply Rmult_le_pos; [apply bpow_ge_0|apply fnrm_pos].
Qed.

Lemma c127_look_to :
  forall (prec emax : Z) (Hp : Prec_gt_0 prec) (He : Prec_lt_emax prec emax) (k : Z) (d up : vec (binary_float prec emax) 3),
    let u := bpow radix2 (- prec) in let s := rsine (fval up) (fval d) in
    (24 <= prec)%Z -> (0 <= k)%Z -> (2 * (k + prec) + 13 <= emax)%Z ->
    (forall i, (i < 3)%nat -> is_finite (vat d i) = true) -> (forall i, (i < 3)%nat -> is_finite (vat up i) = true) ->
    bpow radix2 (- k) <= rlength 3 (fval d) <= bpow radix2 k -> bpow radix2 (- k) <= rlength 3 (fval up) <= bpow radix2 k ->
    1024 * u <= s ->
    forall i j, (i < 3)%nat -> (j < 3)%nat ->
      fnear (mget (fm3look_to_lh d up) j i) (frame (fval d) (fval up) i j) (273 * u / s) /\
      fnear (mget (fm3look_to_rh d up) j i) (frame (fun a => - fval d a) (fval up) i j) (273 * u / s).
Proof.
  intros prec emax Hp He k d up u s H24 Hk Hr Fd Fw HD HW Hs i j Hi Hj.
  assert (OK : view_ok prec emax k (fval d) (fval up)) by (repeat split; try assumption; first [apply HD|apply HW]).
  split; [apply (m_lh k (fval d) d up OK Fd Fw (to_self d) i j Hi Hj)|apply (m_rh k (fval d) d up OK Fd Fw (to_self d) i j Hi Hj)].
Qed.

Lemma c127_orthonormal :
  forall (prec emax : Z) (Hp : Prec_gt_0 prec) (He : Prec_lt_emax prec emax) (k : Z) (d up : vec (binary_float prec emax) 3)
    (m : mat (binary_float prec emax) 3 3),
    let u := bpow radix2 (- prec) in let s := rsine (fval up) (fval d) in
    let row := fun i j => B2R (mget m j i) in
    (24 <= prec)%Z -> (0 <= k)%Z -> (2 * (k + prec) + 13 <= emax)%Z ->
    (forall i, (i < 3)%nat -> is_finite (vat d i) = true) -> (forall i, (i < 3)%nat -> is_finite (vat up i) = true) ->
    bpow radix2 (- k) <= rlength 3 (fval d) <= bpow radix2 k -> bpow radix2 (- k) <= rlength 3 (fval up) <= bpow radix2 k ->
    1024 * u <= s ->
    m = fm3look_to_lh d up \/ m = fm3look_to_rh d up ->
    (forall i, (i < 3)%nat -> Rabs (rlength 3 (row i) - 1) <= 25 * u) /\
    Rabs (rdot (row 0%nat) (row 1%nat)) <= 44 * u /\ Rabs (rdot (row 1%nat) (row 2%nat)) <= 44 * u /\
    Rabs (rdot (row 0%nat) (row 2%nat)) <= 124 * u / s.
Proof.
  intros prec emax Hp He k d up m u s row H24 Hk Hr Fd Fw HD HW Hs M.
  assert (OK : view_ok prec emax k (fval d) (fval up)) by (repeat split; try assumption; first [apply HD|apply HW]).
  destruct M; subst m; [exact (o_lh k (fval d) d up OK Fd Fw (to_self d))|exact (o_rh k (fval d) d up OK Fd Fw (to_self d))].
Qed.

Lemma at_ok {prec emax} {Hp : Prec_gt_0 prec} {He : Prec_lt_emax prec emax} (k : Z) (eye target up : vec (binary_float prec emax) 3) :
  view_ok prec emax k (fun i => fval target i - fval eye i) (fval up) ->
  (forall i, (i < 3)%nat -> is_finite (vat eye i) = true) -> (forall i, (i < 3)%nat -> is_finite (vat target i) = true) ->
  (forall i, (i < 3)%nat -> is_finite (vat (pdiff target eye) i) = true) /\
  fnrm 3 (fun i => fval (pdiff target eye) i - (fval target i - fval eye i)) <= bpow radix2 (- prec) * fnrm 3 (fun i => fval target i - fval eye i).
Proof.
  intros (H24 & Hk & Hr & HD & _) Fe Ft. exact (diff_near H24 k Hk Hr target eye Ft Fe (proj2 HD)).
Qed.

Lemma c127_look_at :
  forall (prec emax : Z) (Hp : Prec_gt_0 prec) (He : Prec_lt_emax prec emax) (k : Z) (eye target up : vec (binary_float prec emax) 3),
    let u := bpow radix2 (- prec) in let D := fun i => fval target i - fval eye i in let s := rsine (fval up) D in
    (24 <= prec)%Z -> (0 <= k)%Z -> (2 * (k + prec) + 13 <= emax)%Z ->
    (forall i, (i < 3)%nat -> is_finite (vat eye i) = true) -> (forall i, (i < 3)%nat -> is_finite (vat target i) = true) ->
    (forall i, (i < 3)%nat -> is_finite (vat up i) = true) ->
    bpow radix2 (- k) <= rlength 3 D <= bpow radix2 k -> bpow radix2 (- k) <= rlength 3 (fval up) <= bpow radix2 k ->
    1024 * u <= s ->
    forall i j, (i < 3)%nat -> (j < 3)%nat ->
      fnear (mget (fm3look_at_lh eye target up) j i) (frame D (fval up) i j) (273 * u / s) /\
      fnear (mget (fm3look_at_rh eye target up) j i) (frame (fun a => - D a) (fval up) i j) (273 * u / s).
Proof.
  intros prec emax Hp He k eye target up u D s H24 Hk Hr Fe Ft Fw HD HW Hs i j Hi Hj.
  assert (OK : view_ok prec emax k D (fval up)) by (repeat split; try assumption; first [apply HD|apply HW]).
  destruct (at_ok k eye target up OK Fe Ft) as (Fd & Hd).
  split; [apply (m_lh k D _ up OK Fd Fw Hd i j Hi Hj)|apply (m_rh k D _ up OK Fd Fw Hd i j Hi Hj)].
Qed.

Lemma c127_look_4x4 :
  forall (prec emax : Z) (Hp : Prec_gt_0 prec) (He : Prec_lt_emax prec emax) (k : Z) (eye target up : vec (binary_float prec emax) 3) (V : R)
    (m : mat (binary_float prec emax) 4 4) (f : nat -> nat -> R),
    let u := bpow radix2 (- prec) in let D := fun i => fval target i - fval eye i in let s := rsine (fval up) D in
    (24 <= prec)%Z -> (0 <= k)%Z -> (2 * (k + prec) + 13 <= emax)%Z ->
    (forall i, (i < 3)%nat -> is_finite (vat eye i) = true) -> (forall i, (i < 3)%nat -> is_finite (vat target i) = true) ->
    (forall i, (i < 3)%nat -> is_finite (vat up i) = true) ->
    bpow radix2 (- k) <= rlength 3 D <= bpow radix2 k -> bpow radix2 (- k) <= rlength 3 (fval up) <= bpow radix2 k ->
    1024 * u <= s ->
    bpow radix2 (31 - emax) <= V <= bpow radix2 (emax - 31) -> rlength 3 (fval eye) <= V ->
    m = fm4look_at_lh eye target up /\ f = frame D (fval up) \/
    m = fm4look_at_rh eye target up /\ f = frame (fun a => - D a) (fval up) ->
    (forall i j, (i < 3)%nat -> (j < 3)%nat -> fnear (mget m j i) (f i j) (273 * u / s)) /\
    (forall i, (i < 3)%nat -> fnear (mget m 3 i) (- rdot (fval eye) (f i)) (281 * u / s * V)) /\
    (forall j, (j < 3)%nat -> mget m j 3 = n0) /\ mget m 3 3 = n1.
Proof.
  intros prec emax Hp He k eye target up V m f u D s H24 Hk Hr Fe Ft Fw HD HW Hs WV Ve M.
  assert (OK : view_ok prec emax k D (fval up)) by (repeat split; try assumption; first [apply HD|apply HW]).
  destruct (at_ok k eye target up OK Fe Ft) as (Fd & Hd).
  destruct (v_lh k D _ up OK Fd Fw Hd eye V WV Fe Ve) as (A & B).
  replace (281 * u / s) with (281 / 273 * (273 * u / s)) by (field; unfold s; pose proof (u_small H24) as U; fold u in U; fold s; lra).
  destruct M as [(-> & ->)|(-> & ->)]; assumption.
Qed.

Lemma c127_look_to_4x4 :
  forall (prec emax : Z) (Hp : Prec_gt_0 prec) (He : Prec_lt_emax prec emax) (k : Z) (eye d up : vec (binary_float prec emax) 3) (V : R)
    (m : mat (binary_float prec emax) 4 4) (f : nat -> nat -> R),
    let u := bpow radix2 (- prec) in let s := rsine (fval up) (fval d) in
    (24 <= prec)%Z -> (0 <= k)%Z -> (2 * (k + prec) + 13 <= emax)%Z ->
    (forall i, (i < 3)%nat -> is_finite (vat eye i) = true) -> (forall i, (i < 3)%nat -> is_finite (vat d i) = true) ->
    (forall i, (i < 3)%nat -> is_finite (vat up i) = true) ->
    bpow radix2 (- k) <= rlength 3 (fval d) <= bpow radix2 k -> bpow radix2 (- k) <= rlength 3 (fval up) <= bpow radix2 k ->
    1024 * u <= s ->
    bpow radix2 (31 - emax) <= V <= bpow radix2 (emax - 31) -> rlength 3 (fval eye) <= V ->
    m = fm4look_to_lh eye d up /\ f = frame (fval d) (fval up) \/
    m = fm4look_to_rh eye d up /\ f = frame (fun a => - fval d a) (fval up) ->
    (forall i j, (i < 3)%nat -> (j < 3)%nat -> fnear (mget m j i) (f i j) (273 * u / s)) /\
    (forall i, (i < 3)%nat -> fnear (mget m 3 i) (- rdot (fval eye) (f i)) (281 * u / s * V)) /\
    (forall j, (j < 3)%nat -> mget m j 3 = n0) /\ mget m 3 3 = n1.
Proof.
  intros prec emax Hp He k eye d up V m f u s H24 Hk Hr Fe Fd Fw HD HW Hs WV Ve M.
  assert (OK : view_ok prec emax k (fval d) (fval up)) by (repeat split; try assumption; first [apply HD|apply HW]).
  destruct (v_lh k (fval d) _ up OK Fd Fw (to_self d) eye V WV Fe Ve) as (A & B).
  replace (281 * u / s) with (281 / 273 * (273 * u / s)) by (field; unfold s; pose proof (u_small H24) as U; fold u in U; fold s; lra).
  destruct M as [(-> & ->)|(-> & ->)]; assumption.
Qed.

(** * Witnesses *)
Definition vz (a b c : Z) : vec f64 3 := v3 (f64_of_Z a) (f64_of_Z b) (f64_of_Z c).
Lemma vz_val a b c : (Z.abs a < 2 ^ 53)%Z -> (Z.abs b < 2 ^ 53)%Z -> (Z.abs c < 2 ^ 53)%Z ->
  fval (vz a b c) 0 = IZR a /\ fval (vz a b c) 1 = IZR b /\ fval (vz a b c) 2 = IZR c /\
  forall i, (i < 3)%nat -> is_finite (vat (vz a b c) i) = true.
Proof.
  intros Ha Hb Hc. destruct (f64_of_Z_exact a Ha) as (Va & Fa), (f64_of_Z_exact b Hb) as (Vb & Fb), (f64_of_Z_exact c Hc) as (Vc & Fc).
  split; [exact Va|split; [exact Vb|split; [exact Vc|]]].
  intros i Hi. destruct i as [|[|[|i]]]; [exact Fa|exact Fb|exact Fc|lia].
Qed.
Lemma rlen3 f : rlength 3 f = sqrt (f 0%nat * f 0%nat + f 1%nat * f 1%nat + f 2%nat * f 2%nat).
Proof. unfold rlength. f_equal. cbn [sum]. rnum. ring. Qed.

Lemma c127_nan_refuted :
  exists d up : vec f64 3,
    (forall i, (i < 3)%nat -> is_finite (vat d i) = true) /\ (forall i, (i < 3)%nat -> is_finite (vat up i) = true) /\
    0 < rlength 3 (rcross (fval up) (fval d)) /\
    forall j, (j < 3)%nat -> mget (fm3look_to_lh d up) j 0 = B754_nan /\ mget (fm3look_to_rh d up) j 0 = B754_nan.
Proof.
  exists (vz 7 6 0), (vz (7 * 2 ^ 50 + 1) (6 * 2 ^ 50) 0).
  destruct (vz_val 7 6 0 ltac:(lia) ltac:(lia) ltac:(lia)) as (A & B & C & F).
  destruct (vz_val (7 * 2 ^ 50 + 1) (6 * 2 ^ 50) 0 ltac:(lia) ltac:(lia) ltac:(lia)) as (A' & B' & C' & F').
  split; [exact F|]. split; [exact F'|]. split.
  - rewrite rlen3. unfold rcross. rewrite A, B, C, A', B', C'. apply sqrt_lt_R0.
    change (7 * 2 ^ 50 + 1)%Z with 7881299347898369%Z. change (6 * 2 ^ 50)%Z with 6755399441055744%Z. lra.
  - intros j Hj. destruct j as [|[|[|j]]]; [| | |lia]; (split; apply B2SF_inj; vm_compute; reflexivity).
Qed.

Lemma c127_orthonormal_refuted :
  exists d up : vec f64 3,
    let m := fm3look_to_lh d up in
    (forall i, (i < 3)%nat -> is_finite (vat d i) = true) /\ (forall i, (i < 3)%nat -> is_finite (vat up i) = true) /\
    0 < rlength 3 (rcross (fval up) (fval d)) /\
    (forall i j, (i < 3)%nat -> (j < 3)%nat -> is_finite (mget m j i) = true) /\
    / 2 < Rabs (rdot (fun j => B2R (mget m j 0)) (fun j => B2R (mget m j 2))).
Proof.
  exists (vz 6 5 4), (vz (6 * 2 ^ 50) (5 * 2 ^ 50 + 1) (4 * 2 ^ 50)). intros m.
  destruct (vz_val 6 5 4 ltac:(lia) ltac:(lia) ltac:(lia)) as (A & B & C & F).
  destruct (vz_val (6 * 2 ^ 50) (5 * 2 ^ 50 + 1) (4 * 2 ^ 50) ltac:(lia) ltac:(lia) ltac:(lia)) as (A' & B' & C' & F').
  split; [exact F|]. split; [exact F'|]. split; [|split].
  - rewrite rlen3. unfold rcross. rewrite A, B, C, A', B', C'. apply sqrt_lt_R0.
    change (6 * 2 ^ 50)%Z with 6755399441055744%Z. change (5 * 2 ^ 50 + 1)%Z with 5629499534213121%Z. change (4 * 2 ^ 50)%Z with 4503599627370496%Z. lra.
  - intros i j Hi Hj. destruct i as [|[|[|i]]]; [| | |lia]; (destruct j as [|[|[|j]]]; [| | |lia]); vm_compute; reflexivity.
  - assert (X0 : mget m 0 0 = @B754_finite 53 1024 false 4503599627370496 (-52) eq_refl) by lit.
    assert (X1 : mget m 1 0 = B754_zero false) by lit. assert (X2 : mget m 2 0 = B754_zero false) by lit.
    assert (Z0 : mget m 0 2 = @B754_finite 53 1024 false 6158793716142628 (-53) eq_refl) by lit.
    clearbody m.
    assert (Y0 : B2R (mget m 0 0) = 1).
    { rewrite X0. unfold B2R, F2R; cbn -[IZR bpow]. change (bpow radix2 (-52)) with (/ 4503599627370496). lra. }
    assert (Y2 : B2R (mget m 0 2) = 6158793716142628 / 9007199254740992).
    { rewrite Z0. unfold B2R, F2R; cbn -[IZR bpow]. change (bpow radix2 (-53)) with (/ 9007199254740992). reflexivity. }
    rewrite rdot3, Y0, Y2, X1, X2. change (B2R (B754_zero false)) with 0. rewrite Rabs_right; lra.
Qed.

Lemma c127_example :
  let d := vz 3 4 0 in let up := vz 0 1 0 in
  (forall i, (i < 3)%nat -> is_finite (vat d i) = true) /\ (forall i, (i < 3)%nat -> is_finite (vat up i) = true) /\
  (2 * (10 + 53) + 13 <= 1024)%Z /\
  bpow radix2 (- 10) <= rlength 3 (fval d) <= bpow radix2 10 /\ bpow radix2 (- 10) <= rlength 3 (fval up) <= bpow radix2 10 /\
  rsine (fval up) (fval d) = 3 / 5 /\ 1024 * bpow radix2 (- 53) <= 3 / 5 /\
  frame (fval d) (fval up) 0 2 = -1 /\ frame (fval d) (fval up) 1 1 = 3 / 5 /\ frame (fval d) (fval up) 2 1 = 4 / 5.
Proof.
  intros d up.
  destruct (vz_val 3 4 0 ltac:(lia) ltac:(lia) ltac:(lia)) as (A & B & C & F). fold d in A, B, C, F.
  destruct (vz_val 0 1 0 ltac:(lia) ltac:(lia) ltac:(lia)) as (A' & B' & C' & F'). fold up in A', B', C', F'.
  assert (Ld : rlength 3 (fval d) = 5) by (rewrite rlen3, A, B, C; replace (_ + _) with (5 * 5) by lra; apply sqrt_square; lra).
  assert (Lu : rlength 3 (fval up) = 1) by (rewrite rlen3, A', B', C'; replace (_ + _) with (1 * 1) by lra; apply sqrt_square; lra).
  assert (Lc : rlength 3 (rcross (fval up) (fval d)) = 3).
  { rewrite rlen3. unfold rcross. rewrite A, B, C, A', B', C'. replace (_ + _) with (3 * 3) by lra. apply sqrt_square. lra. }
  split; [exact F|]. split; [exact F'|]. split; [lia|]. rewrite Ld, Lu.
  change (bpow radix2 (-10)) with (/ 1024). change (bpow radix2 10) with 1024. change (bpow radix2 (-53)) with (/ 9007199254740992).
  split; [lra|]. split; [lra|]. split; [unfold rsine; rewrite Ld, Lu, Lc; field|]. split; [lra|].
  unfold frame, top, right, front, rdir. rewrite Lc, Ld. unfold rcross. rewrite A, B, C, A', B', C'. repeat split; field.
Qed.
