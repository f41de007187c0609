(** Rounding errors of the angle and the axis of a rotation matrix. *)

From Coq Require Import List Arith ZArith Bool Lia Reals Lra Psatz.
From Flocq Require Import Core.Core IEEE754.BinarySingleNaN.
From Verif Require Import Base Scalar Spec SpecF SpecDrift SpecRot SpecRotF SpecRigid SpecLook SpecAng MVector MMatrix MQuat MFloat MFloatVec MSign MComplexF MRotF MTransform MArcF MAngF
  LBase LVector LVectorR LFloat LFloatVec LFloatP LFloatAcc LFloatExP LDriftM LDriftP LRigidF LNormF LLookF LBetw LComplexHP LArc LArcN LArcP LArcQ LRotFP LTrScF LSlerpS LSlerpW LDegF LComplexLP LAng LBetwP LAngF LRigidGP LRot.
Local Open Scope R_scope.

Section AxisAngle.
Context {prec emax : Z} {Hp : Prec_gt_0 prec} {He : Prec_lt_emax prec emax}.
Notation fl := (binary_float prec emax).
Notation u := (bpow radix2 (- prec)).
Hypothesis H24 : (24 <= prec)%Z.
Hypothesis Hr2 : (2 * prec + 31 <= emax)%Z.
Variable L : libm fl.
Variables arccos arcsin : fl -> fl.
Variable d : R.
Hypothesis Hd : 0 <= d.
Hypothesis HL : ang_lib L arccos arcsin d.
Variable r : rotation fl 3.
Variable a : vec R 3.
Variables t e : R.
Hypothesis Ha : sum 3 (fun i => vat a i * vat a i) = 1.
Hypothesis Ht : 0 <= t <= PI.
Hypothesis He0 : 0 <= e.
Notation s := (sin t).
Hypothesis S0 : 0 < s.
Hypothesis HS : 64 * (e + u) <= s * s.
Hypothesis N : forall j i, (j < 3)%nat -> (i < 3)%nat -> fnear (mget r j i) (vat (rodrigues a t (axis3 j)) i) e.
Lemma s1 : s <= 1.
Proof. apply SIN_bound. Qed.
Lemma eu : e + u <= / 64.
Proof. pose proof s1. nra. Qed.
Lemma u0 : 0 < u <= / 16777216.
Proof. apply (u_small H24). Qed.
Lemma unit3 : vat a 0 * vat a 0 + vat a 1 * vat a 1 + vat a 2 * vat a 2 = 1.
Proof. rewrite <- Ha. cbv [sum nadd n0 num_R]. ring. Qed.
Lemma comp1 i : (i < 3)%nat -> Rabs (vat a i) <= 1.
Proof. intros Hi. pose proof unit3 as U. apply Rabs_le. destruct i as [|[|[|i]]]; [| | |lia]; split; nra. Qed.
Ltac rod := cbv [rodrigues axis3 delta Nat.eqb sum vat vget fst snd v3 nadd nmul n0 n1 num_R].
Lemma rod_le j i : (j < 3)%nat -> (i < 3)%nat -> Rabs (vat (rodrigues a t (axis3 j)) i) <= 1.
Proof.
  intros Hj Hi. pose proof unit3 as U. pose proof (sin2_cos2 t) as P. unfold Rsqr in P.
  assert (NA : vnorm a = 1) by (unfold vnorm, vnorm_squared; rewrite vdot_sum; rewrite <- sqrt_1; f_equal; exact Ha).
  destruct (m3from_axis_angle_rot a t NA) as (O & _). specialize (O j j Hj Hj). unfold delta in O. rewrite Nat.eqb_refl in O.
  assert (Q : vat (rodrigues a t (axis3 j)) 0 * vat (rodrigues a t (axis3 j)) 0 + vat (rodrigues a t (axis3 j)) 1 * vat (rodrigues a t (axis3 j)) 1
    + vat (rodrigues a t (axis3 j)) 2 * vat (rodrigues a t (axis3 j)) 2 = 1).
  { rewrite <- !(rodrigues_col a t) by lia. etransitivity; [|exact O]. cbn. ring. }
  apply Rabs_le. destruct i as [|[|[|i]]]; [| | |lia]; split; nra.
Qed.
Lemma trace_rod : vat (rodrigues a t (axis3 0)) 0 + vat (rodrigues a t (axis3 1)) 1 + vat (rodrigues a t (axis3 2)) 2 = 1 + 2 * cos t.
Proof.
  pose proof unit3 as U. destruct a as (a0 & a1 & a2 & []). revert U. cbv [vat vget fst snd]. intros U. assert (A0 : a0 * a0 = 1 - a1 * a1 - a2 * a2) by lra. rod. ring [A0].
Qed.
Lemma ent_bnd j i : (j < 3)%nat -> (i < 3)%nat -> is_finite (mget r j i) = true /\ Rabs (B2R (mget r j i)) <= 9 / 8.
Proof.
  intros Hj Hi. destruct (N j i Hj Hi) as (F & E). split; [exact F|]. pose proof (rod_le j i Hj Hi) as B. pose proof eu. pose proof u0.
  apply Rabs_le_inv in E, B. apply Rabs_le. lra.
Qed.
Lemma big8 : 8 <= bpow radix2 (emax - 1).
Proof. change 8 with (bpow radix2 3). apply bpow_le. lia. Qed.

Lemma half_trace : fnear (ndiv (nsub (nadd (nadd (mget r 0 0) (mget r 1 1)) (mget r 2 2)) n1) (nadd n1 n1) : fl) (cos t) (3 / 2 * e + 10 * u).
Proof.
  pose proof u0 as U. pose proof big8 as B8. pose proof eu as EU. pose proof trace_rod as T.
  destruct (ent_bnd 0 0) as (F0 & B0); [lia|lia|]. destruct (ent_bnd 1 1) as (F1 & B1); [lia|lia|]. destruct (ent_bnd 2 2) as (F2 & B2); [lia|lia|].
  destruct (N 0%nat 0%nat) as (_ & E0); [lia|lia|]. destruct (N 1%nat 1%nat) as (_ & E1); [lia|lia|]. destruct (N 2%nat 2%nat) as (_ & E2); [lia|lia|].
  apply Rabs_le_inv in B0, B1, B2, E0, E1, E2.
  set (x := mget r 0 0) in *. set (y := mget r 1 1) in *. set (z := mget r 2 2) in *.
  destruct (add_val (Hp:=Hp) (He:=He) x y F0 F1) as (Fa & _ & Ea); [apply Rabs_le; lra|].
  assert (Ma : u * Rabs (B2R x + B2R y) <= u * (9 / 4)) by (apply Rmult_le_compat_l; [lra|apply Rabs_le; lra]).
  apply (Rle_trans _ _ _ Ea) in Ma. apply Rabs_le_inv in Ma. set (p := nadd x y) in *.
  destruct (add_val (Hp:=Hp) (He:=He) p z Fa F2) as (Fb & _ & Eb); [apply Rabs_le; lra|].
  assert (Mb : u * Rabs (B2R p + B2R z) <= u * 4) by (apply Rmult_le_compat_l; [lra|apply Rabs_le; lra]).
  apply (Rle_trans _ _ _ Eb) in Mb. apply Rabs_le_inv in Mb. set (q := nadd p z) in *.
  assert (O1 : is_finite (n1 : fl) = true /\ B2R (n1 : fl) = 1) by (destruct (@fbone prec emax Hp He) as (O & Fo & _); split; assumption).
  destruct O1 as (FO & VO).
  destruct (sub_val (Hp:=Hp) (He:=He) q n1 Fb FO) as (Fc & _ & Ec); [rewrite VO; apply Rabs_le; lra|].
  assert (Mc : u * Rabs (B2R q - B2R (n1 : fl)) <= u * 5) by (rewrite VO; apply Rmult_le_compat_l; [lra|apply Rabs_le; lra]).
  apply (Rle_trans _ _ _ Ec) in Mc. rewrite VO in Mc. apply Rabs_le_inv in Mc. set (w := nsub q n1) in *.
  destruct (two_val (prec:=prec) (emax:=emax)) as (FT & VT); try lia. set (two := nadd n1 n1 : fl) in *. 
  destruct (div_val (Hp:=Hp) (He:=He) w two Fc) as (Fd & Vd); [rewrite VT; lra|rewrite VT; apply Rabs_le; lra|].
  split; [exact Fd|]. rewrite Vd. rewrite VT.
  pose proof (rnd_rel (Hp:=Hp) (emax:=emax) (B2R w / 2)) as RR.
  assert (TT : bpow radix2 (2 - emax - prec) <= u) by (apply bpow_le; lia).
  assert (Md : u * Rabs (B2R w / 2) <= u * (5 / 2)) by (apply Rmult_le_compat_l; [lra|apply Rabs_le; lra]).
  assert (G : forall rv wv : R, Rabs (rv - wv / 2) <= u * (5 / 2) + u -> - (u * 5) <= wv - (B2R q - 1) <= u * 5 -> Rabs (rv - cos t) <= 3 / 2 * e + 10 * u).
  { intros rv wv A1 A2. apply Rabs_le_inv in A1. apply Rabs_le. lra. }
  apply (G _ (B2R w)); [lra|exact Mc].
Qed.
Lemma angle_near : fnear (frot3angle arccos r) t (d + (2 * e + 13 * u) / s).
Proof.
  destruct half_trace as (F & E). unfold frot3angle. cbv zeta. set (x := ndiv _ _) in *.
  pose proof (sin2_cos2 t) as P. unfold Rsqr in P. pose proof u0 as U.
  destruct (acos_pert (B2R x) (cos t) s (3 / 2 * e + 10 * u) S0 ltac:(lra) ltac:(lra) E ltac:(lra)) as (D & B).
  destruct HL as (LA & _). destruct (LA x F ltac:(lra)) as ((FA & EA) & _). split; [exact FA|].
  rewrite (acos_cos t Ht) in D. replace (B2R (arccos x) - t) with ((B2R (arccos x) - acos (B2R x)) + (acos (B2R x) - t)) by ring.
  eapply Rle_trans; [apply Rabs_triang|]. apply Rplus_le_compat; [exact EA|]. eapply Rle_trans; [exact D|].
  apply Rmult_le_compat_r; [left; apply Rinv_0_lt_compat; exact S0|]. lra.
Qed.

(** * The axis *)
Notation w := (v3 (nsub (mget r 1 2) (mget r 2 1)) (nsub (mget r 2 0) (mget r 0 2)) (nsub (mget r 0 1) (mget r 1 0)) : vec fl 3).
Notation W := (fun i => 2 * s * vat a i).
Lemma diff_near (x y : fl) rx ry v : fnear x rx e -> fnear y ry e -> Rabs (B2R x) <= 9 / 8 -> Rabs (B2R y) <= 9 / 8 -> rx - ry = v ->
  is_finite (nsub x y) = true /\ Rabs (B2R (nsub x y) - v) <= 2 * e + 3 * u.
Proof.
  intros (Fx & Ex) (Fy & Ey) Bx By <-. pose proof u0 as U. pose proof big8 as B8. apply Rabs_le_inv in Ex, Ey, Bx, By.
  destruct (sub_val (Hp:=Hp) (He:=He) x y Fx Fy) as (F & _ & E); [apply Rabs_le; lra|]. split; [exact F|].
  assert (M : u * Rabs (B2R x - B2R y) <= u * 3) by (apply Rmult_le_compat_l; [lra|apply Rabs_le; lra]). apply (Rle_trans _ _ _ E) in M. apply Rabs_le_inv in M.
  apply Rabs_le. lra.
Qed.
Lemma w_near i : (i < 3)%nat -> is_finite (vat w i) = true /\ Rabs (fval w i - W i) <= 2 * e + 3 * u.
Proof.
  intros Hi. destruct i as [|[|[|i]]]; [| | |lia].
  - apply (diff_near (mget r 1 2) (mget r 2 1) _ _ _ (N 1%nat 2%nat ltac:(lia) ltac:(lia)) (N 2%nat 1%nat ltac:(lia) ltac:(lia)));
      [apply ent_bnd; lia|apply ent_bnd; lia|]. destruct a as (a0 & a1 & a2 & []). rod. ring.
  - apply (diff_near (mget r 2 0) (mget r 0 2) _ _ _ (N 2%nat 0%nat ltac:(lia) ltac:(lia)) (N 0%nat 2%nat ltac:(lia) ltac:(lia)));
      [apply ent_bnd; lia|apply ent_bnd; lia|]. destruct a as (a0 & a1 & a2 & []). rod. ring.
  - apply (diff_near (mget r 0 1) (mget r 1 0) _ _ _ (N 0%nat 1%nat ltac:(lia) ltac:(lia)) (N 1%nat 0%nat ltac:(lia) ltac:(lia)));
      [apply ent_bnd; lia|apply ent_bnd; lia|]. destruct a as (a0 & a1 & a2 & []). rod. ring.
Qed.
Lemma W_len : fnrm 3 W = 2 * s.
Proof.
  rewrite (fnrm_scale 3 (2 * s) (vat a)), Rabs_pos_eq by lra. replace (fnrm 3 (vat a)) with 1; [ring|].
  unfold fnrm. rewrite <- sqrt_1. f_equal. symmetry. exact Ha.
Qed.
Lemma w_err : fnrm 3 (fun i => fval w i - W i) <= 7 / 2 * e + 21 / 4 * u.
Proof.
  pose proof u0 as U. eapply Rle_trans; [apply (len3_bound _ (2 * e + 3 * u)); [lra|intros i Hi; apply (w_near i Hi)]|]. lra.
Qed.
Lemma w_len : s <= fnrm 3 (fval w) <= 3.
Proof.
  pose proof w_err as E. pose proof W_len as WL. pose proof u0 as U. pose proof s1 as S1. assert (S2 : s * s <= s) by nra.
  assert (D1 : fnrm 3 (fval w) <= 2 * s + (7 / 2 * e + 21 / 4 * u)) by (rewrite <- WL; apply fnrm_near; exact E).
  assert (D2 : 2 * s <= fnrm 3 (fval w) + (7 / 2 * e + 21 / 4 * u)).
  { rewrite <- WL. apply fnrm_near. rewrite (fnrm_ext 3 _ (fun i => - (fval w i - W i))) by (intros; ring). rewrite fnrm_neg. exact E. }
  lra.
Qed.
Lemma axis_dir i : (i < 3)%nat -> rdir W i = vat a i.
Proof. intros Hi. unfold rdir. change (rlength 3 W) with (fnrm 3 W). rewrite W_len. field. lra. Qed.
Lemma axis_near i : (i < 3)%nat -> fnear (vat (fvnormalize w) i) (vat a i) ((7 / 2 * e + 18 * u) / s).
Proof.
  intros Hi. pose proof u0 as U. pose proof w_len as WL. pose proof s1 as S1. assert (S2 : s * s <= s) by nra.
  destruct (c97_any prec emax Hp He 3 prec w H24 ltac:(lia) ltac:(lia) Hr2 (fun i Hi => proj1 (w_near i Hi))) as (_ & NN).
  { change (rlength 3 (fval w)) with (fnrm 3 (fval w)). split; [lra|]. apply Rle_trans with (bpow radix2 2); [change (bpow radix2 2) with 4; lra|apply bpow_le; lia]. }
  destruct (NN i Hi) as (FN & EN). split; [exact FN|]. change (fval w i / rlength 3 (fval w)) with (rdir (fval w) i) in EN.
  assert (D : fnrm 3 (fun i => rdir (fval w) i - rdir W i) <= (7 / 2 * e + 21 / 4 * u) / s).
  { eapply Rle_trans; [apply dir_pert; [lra|rewrite W_len; lra]|]. rewrite W_len. pose proof w_err as E.
    replace (2 * fnrm 3 (fun i0 => fval w i0 - W i0) / (2 * s)) with (fnrm 3 (fun i0 => fval w i0 - W i0) / s) by (field; lra).
    apply Rmult_le_compat_r; [left; apply Rinv_0_lt_compat; exact S0|exact E]. }
  pose proof (fnrm_comp 3 (fun i => rdir (fval w) i - rdir W i) i Hi) as D2. cbv beta in D2. rewrite (axis_dir i Hi) in D2.
  assert (US : 12 * u <= 12 * u / s).
  { apply Rmult_le_reg_r with s; [exact S0|]. replace (12 * u / s * s) with (12 * u) by (field; lra). nra. }
  replace ((7 / 2 * e + 18 * u) / s) with ((7 / 2 * e + 21 / 4 * u) / s + 51 / 4 * u / s) by (field; lra).
  assert (X : 12 * u / s <= 51 / 4 * u / s) by (apply Rmult_le_compat_r; [left; apply Rinv_0_lt_compat; exact S0|lra]).
  replace (B2R (vat (fvnormalize w) i) - vat a i) with ((B2R (vat (fvnormalize w) i) - rdir (fval w) i) + (rdir (fval w) i - vat a i)) by ring.
  eapply Rle_trans; [apply Rabs_triang|]. lra.
Qed.
Lemma axis_some : frot3axis r = Some (fvnormalize w).
Proof.
  unfold frot3axis, fvtry_unit. cbv zeta. destruct eps2_facts as (Ne & F2 & V2); try lia. pose proof w_len as C. pose proof u0 as U. pose proof s1 as S1.
  assert (Fx : forall i, (i < 3)%nat -> is_finite (vat w i) = true) by (intros i Hi; apply (w_near i Hi)).
  assert (S2 : s * s <= s) by nra.
  destruct (c97_any prec emax Hp He 3 prec w H24 ltac:(lia) ltac:(lia) Hr2 Fx) as ((FN & EN) & _).
  { change (rlength 3 (fval w)) with (fnrm 3 (fval w)). split; [lra|]. apply Rle_trans with (bpow radix2 2); [change (bpow radix2 2) with 4; lra|apply bpow_le; lia]. }
  change (rlength 3 (fval w)) with (fnrm 3 (fval w)) in EN.
  pose proof (nn_norm2 3 w Fx) as NN.
  destruct (nn_cases _ NN) as [I|(FF & P)].
  { rewrite I. destruct (feps * feps)%N_ as [z|z| |z m ex B]; try discriminate F2; destruct z; reflexivity. }
  rewrite (Bltb_correct prec emax _ _ F2 FF), V2, Rlt_bool_true; [reflexivity|].
  apply Rnot_le_lt. intros H.
  destruct (sqrt_R _ NN FF) as (_ & VS). change (fsqrt (vnorm_squared w)) with (fvnorm w) in VS.
  assert (G : B2R (fvnorm w) <= bpow radix2 (1 - prec)).
  { rewrite VS. apply round_le_generic; [apply (FLT_exp_valid (3 - emax - prec) prec)|apply valid_rnd_N| |].
    - apply generic_format_FLT_bpow; [exact Hp|lia].
    - apply Rle_trans with (sqrt (bpow radix2 (2 - 2 * prec))); [apply sqrt_le_1_alt; exact H|].
      replace (2 - 2 * prec)%Z with ((1 - prec) + (1 - prec))%Z by ring. rewrite bpow_plus, sqrt_square by apply bpow_ge_0. apply Rle_refl. }
  assert (B2 : bpow radix2 (1 - prec) = 2 * u) by (unfold Zminus; rewrite bpow_plus; reflexivity).
  apply Rabs_le_inv in EN. set (l := fnrm 3 (fval w)) in *.
  assert (8 * u * l <= / 1024 * l) by (apply Rmult_le_compat_r; lra). lra.
Qed.
Lemma axis_angle_near : exists axis angle, frot3axis_angle arccos r = Some (axis, angle) /\
  (forall i, (i < 3)%nat -> fnear (vat axis i) (vat a i) ((7 / 2 * e + 18 * u) / s)) /\ fnear angle t (d + (2 * e + 13 * u) / s).
Proof.
  exists (fvnormalize w), (frot3angle arccos r). split; [unfold frot3axis_angle; rewrite axis_some; reflexivity|]. split; [exact axis_near|exact angle_near].
Qed.
End AxisAngle.
