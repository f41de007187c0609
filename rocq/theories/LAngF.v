(** Rounding errors of angles and axes recovered from matrices. *)

From Coq Require Import List Arith ZArith Bool Lia Reals Lra Psatz.
From Flocq Require Import Core.Core IEEE754.BinarySingleNaN.
From Verif Require Import Base Scalar Spec SpecF SpecDrift SpecRot SpecRotF SpecRigid SpecLook SpecAng MVector MMatrix MQuat MFloat MFloatVec MSign MComplexF MRotF MTransform MArcF MAngF
  LBase LVector LVectorR LFloat LFloatVec LFloatP LFloatAcc LFloatExP LDriftM LDriftP LRigidF LNormF LLookF LBetw LComplexHP LArc LArcN LArcP LArcQ LRotFP LTrScF LSlerpS LSlerpW LDegF LComplexLP LAng LBetwP.
Local Open Scope R_scope.

Lemma fnear_wk {prec emax} (x : binary_float prec emax) r e f : fnear x r e -> e <= f -> fnear x r f.
Proof. intros (A & B) H. split; [exact A|lra]. Qed.

Section Ang.
Context {prec emax : Z} {Hp : Prec_gt_0 prec} {He : Prec_lt_emax prec emax}.
Notation fl := (binary_float prec emax).
Notation u := (bpow radix2 (- prec)).
Variable L : libm fl.
Variables arccos arcsin : fl -> fl.
Variable d : R.
Hypothesis Hd : 0 <= d <= / 64.
Hypothesis HL : ang_lib L arccos arcsin d.

Lemma atan2_near (y x : fl) a rho e : 0 < rho -> 0 <= e -> 8 * e <= rho -> - PI <= a <= PI ->
  fnear x (rho * cos a) e -> fnear y (rho * sin a) e -> fnear_turn (m_atan2 L y x) a (d + 2 * e / rho).
Proof.
  intros R0 E0 E8 A (Fx & X) (Fy & Y). destruct HL as (_ & LA & _).
  assert (NZ : B2R y <> 0 \/ B2R x <> 0).
  { destruct (Req_dec (B2R y) 0) as [Zy|N]; [|left; exact N]. destruct (Req_dec (B2R x) 0) as [Zx|N]; [|right; exact N]. exfalso.
    rewrite Zx, Rminus_0_l, Rabs_Ropp in X. rewrite Zy, Rminus_0_l, Rabs_Ropp in Y.
    pose proof (unit_comb a _ _ e E0 X Y) as U. pose proof (sin2_cos2 a) as P. unfold Rsqr in P.
    replace (rho * cos a * cos a + rho * sin a * sin a) with (rho * (sin a * sin a + cos a * cos a)) in U by ring. rewrite P, Rmult_1_r, Rabs_pos_eq in U by lra. lra. }
  destruct (LA y x Fy Fx NZ) as (phi & PB & PA & (FN & N)).
  destruct (polar_pert a rho e (B2R x) (B2R y) phi R0 E0 E8 A PB X Y PA) as (k & K & K0).
  assert (Q0 : 0 <= 2 * e / rho) by (apply Rmult_le_pos; [lra|left; apply Rinv_0_lt_compat; exact R0]).
  split; [|exists k; split].
  - replace (B2R (m_atan2 L y x)) with ((B2R (m_atan2 L y x) - phi) + phi) by ring. eapply Rle_trans; [apply Rabs_triang|].
    assert (Rabs phi <= PI) by (apply Rabs_le; lra). lra.
  - split; [exact FN|]. replace (B2R (m_atan2 L y x) - (a + IZR k * (2 * PI))) with ((B2R (m_atan2 L y x) - phi) + (phi - (a + IZR k * (2 * PI)))) by ring.
    eapply Rle_trans; [apply Rabs_triang|]. lra.
  - intros H. apply K0. lra.
Qed.

(** * Euler angles *)
Section Euler.
Variable r : rotation fl 3.
Variables a b c e : R.
Hypothesis Ha : - PI <= a <= PI.
Hypothesis Hb : - (PI / 2) <= b <= PI / 2.
Hypothesis Hc : - PI <= c <= PI.
Hypothesis He0 : 0 <= e.
Hypothesis C0 : 0 < cos b.
Hypothesis He8 : 8 * e <= cos b * cos b.
Hypothesis Hdb : 4 * d <= cos b.
Hypothesis N : forall j i, (j < 3)%nat -> (i < 3)%nat -> fnear (mget r j i) (vat (euler_turn a b c (axis3 j)) i) e.
Lemma entry j i v : (j < 3)%nat -> (i < 3)%nat -> vat (euler_turn a b c (axis3 j)) i = v -> fnear (mget r j i) v e.
Proof. intros Hj Hi <-. apply N; assumption. Qed.
Ltac ent := cbv [euler_turn rodrigues axis3 delta Nat.eqb sum vat vget fst snd v3 nadd nmul n0 n1 num_R]; 
  pose proof (sin2_cos2 a) as PA; pose proof (sin2_cos2 b) as PB; pose proof (sin2_cos2 c) as PC; unfold Rsqr in PA, PB, PC.
Lemma e20 : fnear (mget r 2 0) (sin b) e.
Proof. apply entry; [lia|lia|]. ent; ring. Qed.
Lemma e21 : fnear (mget r 2 1) (- (cos b * sin a)) e.
Proof. apply entry; [lia|lia|]. ent; ring. Qed.
Lemma e22 : fnear (mget r 2 2) (cos b * cos a) e.
Proof. apply entry; [lia|lia|]. ent; ring. Qed.
Lemma e10 : fnear (mget r 1 0) (- (cos b * sin c)) e.
Proof. apply entry; [lia|lia|]. ent; ring. Qed.
Lemma e00 : fnear (mget r 0 0) (cos b * cos c) e.
Proof. apply entry; [lia|lia|]. ent; ring. Qed.
Lemma cb1 : cos b <= 1.
Proof. apply COS_bound. Qed.
Lemma e8c : 8 * e <= cos b.
Proof. pose proof cb1. nra. Qed.
Lemma yaw_near : fnear (arcsin (mget r 2 0)) b (d + 5 / 4 * e / cos b) /\ 5 / 4 * e / cos b <= 5 / 32 * cos b.
Proof.
  destruct e20 as (F & E). destruct (asin_pert (B2R (mget r 2 0)) b e C0 Hb He0 E ltac:(lra)) as (D & B).
  destruct HL as (LA & _). destruct (LA (mget r 2 0) F ltac:(lra)) as (_ & (FA & EA)). split.
  - split; [exact FA|]. replace (B2R (arcsin (mget r 2 0)) - b) with ((B2R (arcsin (mget r 2 0)) - asin (B2R (mget r 2 0))) + (asin (B2R (mget r 2 0)) - b)) by ring.
    eapply Rle_trans; [apply Rabs_triang|]. lra.
  - apply Rmult_le_reg_r with (cos b); [exact C0|]. replace (5 / 4 * e / cos b * cos b) with (5 / 4 * e) by (field; lra). lra.
Qed.
Lemma yaw_cos : nis0 (fabs (m_cos L (arcsin (mget r 2 0)))) = false.
Proof.
  destruct yaw_near as ((F & E) & S). pose proof cb1 as C1. destruct HL as (_ & _ & LT). pose proof PI_4 as P4.
  assert (YB : Rabs (B2R (arcsin (mget r 2 0))) <= 5).
  { replace (B2R (arcsin (mget r 2 0))) with ((B2R (arcsin (mget r 2 0)) - b) + b) by ring. eapply Rle_trans; [apply Rabs_triang|].
    assert (Rabs b <= 2) by (apply Rabs_le; lra). lra. }
  destruct (LT _ F YB) as (_ & (FC & EC)). pose proof (cos_lip (B2R (arcsin (mget r 2 0))) b) as CL.
  assert (G : 0 < B2R (m_cos L (arcsin (mget r 2 0)))) by (apply Rabs_le_inv in EC, CL; lra).
  set (z := m_cos L (arcsin (mget r 2 0))) in *. destruct z as [s|s| |s m ex H]; cbn in *; try lra; reflexivity.
Qed.
Lemma euler_near :
  let '(x, y, z) := frot3euler_angles L arcsin r in
  fnear_turn x a (d + 2 * e / cos b) /\ fnear y b (d + 5 / 4 * e / cos b) /\ fnear_turn z c (d + 2 * e / cos b).
Proof.
  unfold frot3euler_angles. cbv zeta. rewrite yaw_cos. split; [|split].
  - apply atan2_near; [exact C0|exact He0|exact e8c|exact Ha|exact e22|]. eapply fnear_neg; [exact e21|ring].
  - exact (proj1 yaw_near).
  - apply atan2_near; [exact C0|exact He0|exact e8c|exact Hc|exact e00|]. eapply fnear_neg; [exact e10|ring].
Qed.
End Euler.
End Ang.

Lemma turn_period t (k : Z) : sin (t + IZR k * (2 * PI)) = sin t /\ cos (t + IZR k * (2 * PI)) = cos t.
Proof.
  destruct k as [|p|p].
  - replace (t + 0 * (2 * PI)) with t by ring. split; reflexivity.
  - rewrite <- (positive_nat_Z p), <- INR_IZR_INZ. replace (t + INR (Pos.to_nat p) * (2 * PI)) with (t + 2 * INR (Pos.to_nat p) * PI) by ring.
    split; [apply sin_period|apply cos_period].
  - change (Z.neg p) with (- Z.pos p)%Z. rewrite opp_IZR, <- (positive_nat_Z p), <- INR_IZR_INZ.
    set (z := t + - INR (Pos.to_nat p) * (2 * PI)). replace t with (z + 2 * INR (Pos.to_nat p) * PI) by (unfold z; ring).
    rewrite sin_period, cos_period. split; reflexivity.
Qed.

Section Rebuild.
Context {prec emax : Z} {Hp : Prec_gt_0 prec} {He : Prec_lt_emax prec emax}.
Notation fl := (binary_float prec emax).
Notation u := (bpow radix2 (- prec)).
Variable L : libm fl.
Variables arccos arcsin : fl -> fl.
Variable d : R.
Hypothesis Hd : 0 <= d <= / 64.
Hypothesis HL : ang_lib L arccos arcsin d.
Lemma trig_turn (x : fl) t e : 0 <= e <= 1 -> fnear_turn x t e -> fnear (m_sin L x) (sin t) (d + e) /\ fnear (m_cos L x) (cos t) (d + e).
Proof.
  intros E (B & k & (F & N) & _). destruct HL as (_ & _ & LT). pose proof PI_4 as P4. destruct (LT x F ltac:(lra)) as ((FS & ES) & (FC & EC)).
  destruct (turn_period t k) as (PS & PC). set (t' := t + IZR k * (2 * PI)) in *. rewrite <- PS, <- PC.
  pose proof (sin_lip (B2R x) t') as SL. pose proof (cos_lip (B2R x) t') as CL. split; (split; [assumption|]).
  - replace (B2R (m_sin L x) - sin t') with ((B2R (m_sin L x) - sin (B2R x)) + (sin (B2R x) - sin t')) by ring. eapply Rle_trans; [apply Rabs_triang|]. lra.
  - replace (B2R (m_cos L x) - cos t') with ((B2R (m_cos L x) - cos (B2R x)) + (cos (B2R x) - cos t')) by ring. eapply Rle_trans; [apply Rabs_triang|]. lra.
Qed.
Hypothesis H24 : (24 <= prec)%Z.
Hypothesis H34 : (34 <= emax)%Z.
Lemma rebuild (r : rotation fl 3) a b c e : - PI <= a <= PI -> - (PI / 2) <= b <= PI / 2 -> - PI <= c <= PI -> 0 <= e -> 0 < cos b ->
  32 * e <= cos b * cos b -> 4 * d <= cos b ->
  (forall j i, (j < 3)%nat -> (i < 3)%nat -> fnear (mget r j i) (vat (euler_turn a b c (axis3 j)) i) e) ->
  let '(x, y, z) := frot3euler_angles L arcsin r in
  forall j i, (j < 3)%nat -> (i < 3)%nat ->
    fnear (mget (frot3from_euler_angles L x y z) j i) (vat (euler_turn a b c (axis3 j)) i) (12 * d + 12 * e / cos b + 8 * u) /\
    Rabs (B2R (mget (frot3from_euler_angles L x y z) j i) - B2R (mget r j i)) <= 12 * d + 12 * e / cos b + 8 * u + e.
Proof.
  intros Ha Hb Hc E0 C0 E32 D4 N. pose proof (euler_near L arccos arcsin d Hd HL r a b c e Ha Hb Hc E0 C0 ltac:(lra) D4 N) as Q.
  destruct (frot3euler_angles L arcsin r) as ((x, y), z). destruct Q as (X & (FY & Y) & Z). intros j i Hj Hi.
  pose proof (COS_bound b) as CB. assert (Q0 : 0 <= e / cos b) by (apply Rmult_le_pos; [lra|left; apply Rinv_0_lt_compat; exact C0]).
  assert (Q1 : e / cos b <= / 32 * cos b).
  { apply Rmult_le_reg_r with (cos b); [exact C0|]. replace (e / cos b * cos b) with e by (field; lra). lra. }
  assert (E2 : 2 * e / cos b = 2 * (e / cos b)) by (unfold Rdiv; ring). assert (E54 : 5 / 4 * e / cos b = 5 / 4 * (e / cos b)) by (unfold Rdiv; ring).
  rewrite E2 in X, Z. rewrite E54 in Y.
  destruct (trig_turn x a (d + 2 * (e / cos b)) ltac:(lra) X) as (SX & CX). destruct (trig_turn z c (d + 2 * (e / cos b)) ltac:(lra) Z) as (SZ & CZ).
  assert (Y' : fnear_turn y b (d + 2 * (e / cos b))).
  { split.
    - replace (B2R y) with ((B2R y - b) + b) by ring. eapply Rle_trans; [apply Rabs_triang|]. pose proof PI_RGT_0. assert (Rabs b <= PI) by (apply Rabs_le; lra). lra.
    - exists 0%Z. split; [|reflexivity]. replace (b + 0 * (2 * PI)) with b by ring. split; [exact FY|lra]. }
  destruct (trig_turn y b (d + 2 * (e / cos b)) ltac:(lra) Y') as (SY & CY).
  assert (M := c124_euler prec emax Hp He (m_sin L) (m_cos L) x y z a b c (d + (d + 2 * (e / cos b))) H24 H34 ltac:(lra) SX CX SY CY SZ CZ j i Hj Hi).
  replace (12 * d + 12 * e / cos b + 8 * u) with (6 * (d + (d + 2 * (e / cos b))) + 8 * u) by (unfold Rdiv; ring).
  split; [exact M|]. destruct M as (FM & M). destruct (N j i Hj Hi) as (FR & RR). 
  assert (G : forall m0 r0 t0 e0 f0 : R, Rabs (m0 - t0) <= e0 -> Rabs (r0 - t0) <= f0 -> Rabs (m0 - r0) <= e0 + f0).
  { intros m0 r0 t0 e0 f0 A1 A2. replace (m0 - r0) with ((m0 - t0) + - (r0 - t0)) by ring. eapply Rle_trans; [apply Rabs_triang|]. rewrite Rabs_Ropp. lra. }
  exact (G _ _ _ _ _ M RR).
Qed.
End Rebuild.
