(** Rounding errors of rotations of the plane. *)

From Coq Require Import List Arith ZArith Bool Lia Reals Lra Psatz.
From Flocq Require Import Core.Core IEEE754.BinarySingleNaN.
From Verif Require Import Base Scalar Spec SpecF SpecDrift SpecRot SpecRotF SpecRigid SpecLook SpecAng MReal MVector MMatrix MQuat MFloat MFloatVec MSign MComplexF MRotF MTransform MArcF MAngF
  LBase LVector LVectorR LReal LFloat LFloatVec LFloatP LFloatAcc LFloatExP LDriftM LDriftP LRigidF LNormF LLookF LBetw LComplexHP LArc LArcN LArcP LArcQ LRotFP LTrScF LSlerpS LSlerpW LDegF LComplexLP LAng LBetwP LAngF.
Local Open Scope R_scope.

Section Plane.
Context {prec emax : Z} {Hp : Prec_gt_0 prec} {He : Prec_lt_emax prec emax}.
Notation fl := (binary_float prec emax).
Notation u := (bpow radix2 (- prec)).
Variable L : libm fl.
Variables arccos arcsin : fl -> fl.
Variable d : R.
Hypothesis Hd : 0 <= d <= / 64.
Hypothesis HL : ang_lib L arccos arcsin d.

Lemma angle2_near (r : rotation fl 2) t e : 0 <= e <= / 8 -> - PI <= t <= PI ->
  (forall j i, (j < 2)%nat -> (i < 2)%nat -> fnear (mget r j i) (vat (turn2 t (axis2 j)) i) e) ->
  fnear_turn (frot2angle L r) t (d + 2 * e).
Proof.
  intros E T N. unfold frot2angle. replace (2 * e) with (2 * e / 1) by field. apply (atan2_near L arccos arcsin d Hd HL _ _ t 1 e); [lra|lra|lra|exact T| |].
  - eapply fnear_eq; [apply (N 0%nat 0%nat); lia|]. cbv [turn2 axis2 delta Nat.eqb vat vget fst snd v2 n0 n1 num_R]. ring.
  - eapply fnear_eq; [apply (N 0%nat 1%nat); lia|]. cbv [turn2 axis2 delta Nat.eqb vat vget fst snd v2 n0 n1 num_R]. ring.
Qed.

Lemma from_angle2 (x : fl) t e : 0 <= e <= 1 -> fnear_turn x t e ->
  forall j i, (j < 2)%nat -> (i < 2)%nat -> fnear (mget (frot2from_angle L x) j i) (vat (turn2 t (axis2 j)) i) (d + e).
Proof.
  intros E T. destruct (trig_turn L arccos arcsin d HL x t e E T) as (S & C).
  exact (proj1 (c124_coordinate_angles prec emax Hp He (m_sin L) (m_cos L) x t (d + e) ltac:(lra) S C)).
Qed.

Hypothesis H24 : (24 <= prec)%Z.
Hypothesis Hr2 : (2 * prec + 31 <= emax)%Z.
Variable k : Z.
Hypothesis Hk : (0 <= k)%Z.
Hypothesis Hr : (2 * k + 31 <= emax)%Z.
Section Vec.
Variable v : vec fl 2.
Hypothesis Fv : forall i, (i < 2)%nat -> is_finite (vat v i) = true.
Hypothesis HV : bpow radix2 (- k) <= rlength 2 (fval v) <= bpow radix2 k.
Lemma dir2_unit : vat (dir2 (fval v)) 0 * vat (dir2 (fval v)) 0 + vat (dir2 (fval v)) 1 * vat (dir2 (fval v)) 1 = 1.
Proof.
  assert (P : 0 < rlength 2 (fval v)) by (pose proof (bpow_gt_0 radix2 (- k)); lra).
  cbv [dir2 vat vget fst snd v2]. set (l := rlength 2 (fval v)) in *.
  assert (Q : l * l = fval v 0%nat * fval v 0%nat + fval v 1%nat * fval v 1%nat).
  { unfold l, rlength. rewrite sqrt_sqrt; [cbn; ring|]. cbn. pose proof (Rle_0_sqr (fval v 0%nat)) as A. pose proof (Rle_0_sqr (fval v 1%nat)) as B. unfold Rsqr in A, B. lra. }
  replace (fval v 0%nat / l * (fval v 0%nat / l) + fval v 1%nat / l * (fval v 1%nat / l)) with ((fval v 0%nat * fval v 0%nat + fval v 1%nat * fval v 1%nat) / (l * l)) by (field; lra).
  rewrite <- Q. field. lra.
Qed.
Lemma unit2_near i : (i < 2)%nat -> fnear (vat (fvnormalize v) i) (vat (dir2 (fval v)) i) (12 * u).
Proof.
  intros Hi. pose proof (proj2 (c97_any prec emax Hp He 2 k v H24 ltac:(lia) Hk Hr Fv HV) i Hi) as N. destruct i as [|[|i]]; [exact N|exact N|lia].
Qed.
Lemma try_unit2 : fvtry_unit v n0 = Some (fvnormalize v).
Proof.
  unfold fvtry_unit. cbv zeta.
  destruct (c97_any prec emax Hp He 2 k v H24 ltac:(lia) Hk Hr Fv HV) as ((F & E) & _). pose proof (u_small H24) as U.
  assert (P : 0 < rlength 2 (fval v)) by (pose proof (bpow_gt_0 radix2 (- k)); lra). set (l := rlength 2 (fval v)) in *.
  assert (G : 0 < B2R (fvnorm v)) by (apply Rabs_le_inv in E; assert (8 * u * l <= / 1024 * l) by (apply Rmult_le_compat_r; lra); lra).
  pose proof (nn_norm2 2 v Fv) as NN. assert (Z0 : (n0 * n0 : fl)%N_ = B754_zero false) by reflexivity. rewrite Z0.
  destruct (nn_cases _ NN) as [I|(FF & Q)]; [rewrite I; reflexivity|].
  rewrite (Bltb_correct prec emax (B754_zero false) (vnorm_squared v) eq_refl FF), Rlt_bool_true; [reflexivity|]. cbn [B2R].
  destruct (Rle_lt_or_eq_dec _ _ Q) as [H|H]; [exact H|exfalso].
  destruct (sqrt_R _ NN FF) as (_ & VS). change (fsqrt (vnorm_squared v)) with (fvnorm v) in VS. rewrite <- H, sqrt_0, round_0 in VS by apply valid_rnd_N. lra.
Qed.
End Vec.

Variables v w : vec fl 2.
Hypothesis Fv : forall i, (i < 2)%nat -> is_finite (vat v i) = true.
Hypothesis Fw : forall i, (i < 2)%nat -> is_finite (vat w i) = true.
Hypothesis HV : bpow radix2 (- k) <= rlength 2 (fval v) <= bpow radix2 k.
Hypothesis HW : bpow radix2 (- k) <= rlength 2 (fval w) <= bpow radix2 k.
Notation a := (fvnormalize v).
Notation b := (fvnormalize w).
Notation A := (vat (dir2 (fval v))).
Notation B := (vat (dir2 (fval w))).
Notation cc := (A 0%nat * B 0%nat + A 1%nat * B 1%nat).
Notation ss := (A 0%nat * B 1%nat - A 1%nat * B 0%nat).
Notation t := (ratan2 ss cc).
Lemma cs_unit : ss * ss + cc * cc = 1.
Proof. pose proof (dir2_unit v HV) as X. pose proof (dir2_unit w HW) as Y. replace (ss * ss + cc * cc) with ((A 0%nat * A 0%nat + A 1%nat * A 1%nat) * (B 0%nat * B 0%nat + B 1%nat * B 1%nat)) by ring. rewrite X, Y. ring. Qed.
Lemma t_trig : cos t = cc /\ sin t = ss.
Proof.
  pose proof cs_unit as U.
  pose proof (ratan2_spec cc ss) as Q.
  replace (cc * cc + ss * ss) with 1 in Q by lra. rewrite sqrt_1, !Rmult_1_l in Q. exact Q.
Qed.
Lemma turns : turn2 t (dir2 (fval v)) = dir2 (fval w).
Proof.
  destruct t_trig as (C & S). pose proof (dir2_unit v HV) as X. unfold turn2. rewrite C, S.
  assert (Y : forall x0 x1 y0 y1 : R, x0 * x0 + x1 * x1 = 1 -> (x0 * y0 + x1 * y1) * x0 - (x0 * y1 - x1 * y0) * x1 = y0 /\ (x0 * y1 - x1 * y0) * x0 + (x0 * y0 + x1 * y1) * x1 = y1).
  { intros x0 x1 y0 y1 H. split; [transitivity ((x0 * x0 + x1 * x1) * y0)|transitivity ((x0 * x0 + x1 * x1) * y1)]; try ring; rewrite H; ring. }
  destruct (Y _ _ (B 0%nat) (B 1%nat) X) as (Y0 & Y1). rewrite Y0, Y1. reflexivity.
Qed.
Lemma comp2 x y : x * x + y * y = 1 -> Rabs x <= 1 /\ Rabs y <= 1.
Proof. intros H. split; apply Rabs_le; split; nra. Qed.
Lemma prod_near (x y : fl) X Y : fnear x X (12 * u) -> fnear y Y (12 * u) -> Rabs X <= 1 -> Rabs Y <= 1 ->
  fnear (nmul x y) (X * Y) (27 * u).
Proof.
  intros (Fx & Ex) (Fy & Ey) BX BY. pose proof (u_small H24) as U.
  assert (Bx : Rabs (B2R x) <= 1 + / 1024) by (apply Rabs_le_inv in Ex, BX; apply Rabs_le; lra).
  assert (By : Rabs (B2R y) <= 1 + / 1024) by (apply Rabs_le_inv in Ey, BY; apply Rabs_le; lra).
  assert (P : Rabs (B2R x * B2R y) <= 5 / 4).
  { rewrite Rabs_mult. apply Rle_trans with ((1 + / 1024) * (1 + / 1024)); [apply Rmult_le_compat; try apply Rabs_pos; assumption|lra]. }
  assert (B4 : 4 <= bpow radix2 (emax - 1)) by (change 4 with (bpow radix2 2); apply bpow_le; lia).
  destruct (mul_val (Hp:=Hp) (He:=He) x y Fx Fy) as (F & V); [lra|]. split; [exact F|]. rewrite V.
  pose proof (rnd_rel (Hp:=Hp) (emax:=emax) (B2R x * B2R y)) as RR.
  assert (TT : bpow radix2 (2 - emax - prec) <= / 8 * u) by (change (/ 8) with (bpow radix2 (-3)); rewrite <- bpow_plus; apply bpow_le; lia).
  assert (M : u * Rabs (B2R x * B2R y) <= u * (5 / 4)) by (apply Rmult_le_compat_l; lra).
  assert (D : Rabs (B2R x * B2R y - X * Y) <= 25 * u).
  { replace (B2R x * B2R y - X * Y) with ((B2R x - X) * B2R y + X * (B2R y - Y)) by ring. eapply Rle_trans; [apply Rabs_triang|]. rewrite !Rabs_mult.
    assert (Rabs (B2R x - X) * Rabs (B2R y) <= 12 * u * (1 + / 1024)) by (apply Rmult_le_compat; try apply Rabs_pos; assumption).
    assert (Rabs X * Rabs (B2R y - Y) <= 1 * (12 * u)) by (apply Rmult_le_compat; try apply Rabs_pos; assumption). lra. }
  apply Rabs_le_inv in D. set (p := B2R x * B2R y) in *. assert (RR' : Rabs (round radix2 (FLT_exp (3 - emax - prec) prec) ZnearestE p - p) <= 11 / 8 * u) by lra.
  apply Rabs_le_inv in RR'. apply Rabs_le. lra.
Qed.
Lemma addsub_near (x y : fl) X Y : fnear x X (27 * u) -> fnear y Y (27 * u) -> Rabs X <= 1 -> Rabs Y <= 1 ->
  fnear (nadd x y) (X + Y) (60 * u) /\ fnear (nsub x y) (X - Y) (60 * u).
Proof.
  intros (Fx & Ex) (Fy & Ey) BX BY. pose proof (u_small H24) as U. apply Rabs_le_inv in Ex, Ey, BX, BY.
  assert (B4 : 4 <= bpow radix2 (emax - 1)) by (change 4 with (bpow radix2 2); apply bpow_le; lia).
  destruct (add_val (Hp:=Hp) (He:=He) x y Fx Fy) as (F1 & _ & E1); [apply Rabs_le; lra|].
  destruct (sub_val (Hp:=Hp) (He:=He) x y Fx Fy) as (F2 & _ & E2); [apply Rabs_le; lra|].
  assert (M1 : u * Rabs (B2R x + B2R y) <= u * 3) by (apply Rmult_le_compat_l; [lra|apply Rabs_le; lra]).
  assert (M2 : u * Rabs (B2R x - B2R y) <= u * 3) by (apply Rmult_le_compat_l; [lra|apply Rabs_le; lra]).
  apply (Rle_trans _ _ _ E1) in M1. apply (Rle_trans _ _ _ E2) in M2. apply Rabs_le_inv in M1, M2.
  split; (split; [assumption|apply Rabs_le; lra]).
Qed.
Lemma between2 : exists t, - PI <= t <= PI /\ turn2 t (dir2 (fval v)) = dir2 (fval w) /\
  forall j i, (j < 2)%nat -> (i < 2)%nat -> fnear (mget (frot2rotation_between L v w) j i) (vat (turn2 t (axis2 j)) i) (2 * d + 120 * u).
Proof.
  exists t. pose proof (ratan2_range cc ss) as TR. split; [lra|]. split; [exact turns|].
  unfold frot2rotation_between. rewrite (try_unit2 v Fv HV), (try_unit2 w Fw HW). unfold frot2rotation_between_axis. cbv zeta.
  pose proof (u_small H24) as U. destruct (comp2 _ _ (dir2_unit v HV)) as (A0 & A1). destruct (comp2 _ _ (dir2_unit w HW)) as (B0 & B1).
  pose proof (unit2_near v Fv HV 0%nat ltac:(lia)) as NA0. pose proof (unit2_near v Fv HV 1%nat ltac:(lia)) as NA1.
  pose proof (unit2_near w Fw HW 0%nat ltac:(lia)) as NB0. pose proof (unit2_near w Fw HW 1%nat ltac:(lia)) as NB1.
  assert (PB : forall x y : R, Rabs x <= 1 -> Rabs y <= 1 -> Rabs (x * y) <= 1).
  { intros x y X Y. rewrite Rabs_mult. replace 1 with (1 * 1) by ring. apply Rmult_le_compat; try apply Rabs_pos; assumption. }
  destruct (addsub_near (nmul (vat a 0) (vat b 0)) (nmul (vat a 1) (vat b 1)) _ _ (prod_near _ _ _ _ NA0 NB0 A0 B0) (prod_near _ _ _ _ NA1 NB1 A1 B1)) as (NC & _); [apply PB; assumption..|].
  destruct (addsub_near (nmul (vat a 0) (vat b 1)) (nmul (vat a 1) (vat b 0)) _ _ (prod_near _ _ _ _ NA0 NB1 A0 B1) (prod_near _ _ _ _ NA1 NB0 A1 B0)) as (_ & NS); [apply PB; assumption..|].
  assert (DE : fnear (vdot a b) cc (60 * u)).
  { destruct NC as (FC & EC). assert (Z : vdot a b = nadd (nadd n0 (nmul (vat a 0) (vat b 0))) (nmul (vat a 1) (vat b 1))) by reflexivity.
    rewrite Z. apply addsub_near; [|exact (prod_near _ _ _ _ NA1 NB1 A1 B1)|apply PB; assumption|apply PB; assumption].
    destruct (prod_near _ _ _ _ NA0 NB0 A0 B0) as (FP & EP).
    assert (BP : Rabs (A 0%nat * B 0%nat) <= 1) by (apply PB; assumption).
    assert (B4 : 4 <= bpow radix2 (emax - 1)) by (change 4 with (bpow radix2 2); apply bpow_le; lia).
    set (p := nmul (vat a 0) (vat b 0)) in *.
    assert (FZ : is_finite (n0 : fl) = true) by reflexivity.
    destruct (add_val (Hp:=Hp) (He:=He) n0 p FZ FP) as (F0 & V0 & _).
    { change (B2R (n0 : fl)) with 0. rewrite Rplus_0_l. apply Rabs_le_inv in EP, BP. apply Rabs_le. lra. }
    split; [exact F0|]. rewrite V0. change (B2R (n0 : fl)) with 0. rewrite Rplus_0_l, round_generic; [exact EP|apply valid_rnd_N|apply generic_format_B2R]. }
  destruct t_trig as (C & S).
  replace (2 * d + 120 * u) with (d + (d + 2 * (60 * u) / 1)) by field.
  apply from_angle2; [lra|]. apply (atan2_near L arccos arcsin d Hd HL _ _ t 1 (60 * u)); [lra|lra|lra|lra| |].
  - rewrite C, Rmult_1_l. exact DE.
  - rewrite S, Rmult_1_l. exact NS.
Qed.
End Plane.
