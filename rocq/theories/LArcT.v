(** The lemmas of LArcP.v to LArcR.v in the form of PArcF.v. *)

From Coq Require Import Arith ZArith Lia Reals.
From Flocq Require Import Core.Core IEEE754.BinarySingleNaN.
From Verif Require Import Base Scalar Spec SpecF SpecDrift SpecLibm SpecCR SpecArc MVector MMatrix MQuat MFloat MFloatVec MComplexF MRotF MTransform MArcF
  LFloatNormP LArcP LArcQ LArcS LArcA LArcR.
Local Open Scope R_scope.

Section T.
Context (prec emax : Z) (Hp : Prec_gt_0 prec) (He : Prec_lt_emax prec emax).
Notation fl := (binary_float prec emax).
Variables (L : libm fl) (arccos arcsin : fl -> fl).

Lemma c126_ln_all (q : quat fl) : (24 <= prec)%Z -> (2 * prec <= emax)%Z -> libm_special L -> libm_arc L arccos arcsin ->
  all_finite (q : vec fl 4) ->
  is_nan (vat (fqln L arccos q : vec fl 4) 0) = false /\
  forall i, (i < 3)%nat -> is_finite (vat (fqln L arccos q : vec fl 4) (S i)) = true /\ Rabs (B2R (vat (fqln L arccos q : vec fl 4) (S i))) <= 8.
Proof. intros H1 H2 LS LA. assert (h1 : (1 < prec)%Z) by lia. apply (c126_ln h1 H2 L arccos arcsin LS LA). Qed.
Lemma c126_slerp_all (p q : quat fl) (a t : fl) : (24 <= prec)%Z -> (2 * prec <= emax)%Z -> libm_special L -> libm_arc L arccos arcsin ->
  all_finite (p : vec fl 4) -> all_finite (q : vec fl 4) -> is_finite a = true -> 0 <= B2R a <= 1 ->
  / 2 <= qlength (B2R (vat (p : vec fl 4) 0), B2R (vat (p : vec fl 4) 1), B2R (vat (p : vec fl 4) 2), B2R (vat (p : vec fl 4) 3)) <= 2 ->
  / 2 <= qlength (B2R (vat (q : vec fl 4) 0), B2R (vat (q : vec fl 4) 1), B2R (vat (q : vec fl 4) 2), B2R (vat (q : vec fl 4) 3)) <= 2 ->
  all_finite (fqslerp_eps L arccos p q a t : vec fl 4).
Proof. intros H1 H2 LS LA. apply (c126_slerp H1 H2 L arccos arcsin LS LA). Qed.
Lemma c126_rotation_between_all (v1 v2 : vec fl 3) : (24 <= prec)%Z -> (2 * prec <= emax)%Z -> libm_special L -> libm_arc L arccos arcsin ->
  all_finite v1 -> all_finite v2 ->
  (forall q, fqrotation_between L arccos v1 v2 = Some q -> all_finite (q : vec fl 4)) /\
  (forall r, frot3rotation_between L arccos v1 v2 = Some r -> forall j i, (j < 3)%nat -> (i < 3)%nat -> is_finite (mget r j i) = true).
Proof. intros H1 H2 LS LA. apply (c126_rotation_between H1 H2 L arccos arcsin LS LA). Qed.
Lemma c126_angle_coordinate_all (angle : fl) : (24 <= prec)%Z -> (2 * prec <= emax)%Z -> libm_special L -> libm_arc L arccos arcsin ->
  is_finite angle = true ->
  forall r, r = frot3from_angle_x L angle \/ r = frot3from_angle_y L angle \/ r = frot3from_angle_z L angle ->
  is_finite (frot3angle arccos r) = true /\ 0 <= B2R (frot3angle arccos r) <= 4.
Proof.
  intros H1 H2 LS LA F r [->|[->| ->]].
  - exact (c126_angle_coordinate H1 H2 L arccos arcsin LS LA angle 0 F ltac:(lia)).
  - exact (c126_angle_coordinate H1 H2 L arccos arcsin LS LA angle 1 F ltac:(lia)).
  - exact (c126_angle_coordinate H1 H2 L arccos arcsin LS LA angle 2 F ltac:(lia)).
Qed.
Lemma c126_angle_all (axis : vec fl 3) (angle : fl) (a : vec R 3) (t d : R) :
  (24 <= prec)%Z -> (2 * prec <= emax)%Z -> libm_special L -> libm_arc L arccos arcsin ->
  0 <= d <= / 8 -> sum 3 (fun i => vat a i * vat a i)%R = 1 -> is_finite angle = true ->
  (forall i, (i < 3)%nat -> fnear (vat axis i) (vat a i) d /\ Rabs (B2R (vat axis i)) <= 1) ->
  fnear (m_sin L angle) (sin t) d -> fnear (m_cos L angle) (cos t) d ->
  -1 + 12 * d + 71 * bpow radix2 (- prec) <= cos t ->
  let th := frot3angle arccos (frot3from_axis_angle L axis angle) in
  is_finite th = true /\ 0 <= B2R th <= 4 /\
  ((forall x, is_finite x = true -> Rabs (B2R x) <= 1 -> Rabs (B2R (arccos x) - acos (B2R x)) <= d) ->
   Rabs (cos (B2R th) - cos t) <= 13 * d + 71 * bpow radix2 (- prec)).
Proof. intros H1 H2 LS LA. apply (c126_angle H1 H2 L arccos arcsin LS LA). Qed.
Lemma c126_euler_all (ax ay az : fl) : (24 <= prec)%Z -> (2 * prec <= emax)%Z -> libm_special L -> libm_arc L arccos arcsin ->
  is_finite ax = true -> is_finite ay = true -> is_finite az = true ->
  let e := frot3euler_angles L arcsin (frot3from_euler_angles L ax ay az) in
  is_finite (fst (fst e)) = true /\ is_finite (snd (fst e)) = true /\ is_finite (snd e) = true /\ snd (fst e) = arcsin (m_sin L ay).
Proof. intros H1 H2 LS LA. apply (c126_euler H1 H2 L arccos arcsin LS LA). Qed.
End T.

Lemma c126_matrix_refuted (L : libm f64) (arccos arcsin : f64 -> f64) : libm_arc L arccos arcsin ->
  exists v1 v2 : vec f64 3, all_finite v1 /\ all_finite v2 /\
  exists m, fm3rotation_between L arccos v1 v2 = Some m /\ mget m 0 0 = B754_nan.
Proof.
  intros LA. exists w1, w2. split; [|split; [|exact (c126_matrix_between_nan L arccos arcsin LA)]];
    intros [|[|[|i]]] Hi; [vm_compute; reflexivity..|lia].
Qed.
Lemma c126_half_turn_refuted (L : libm f64) (arccos arcsin : f64 -> f64) (angle : f64) : libm_arc L arccos arcsin -> m_cos L angle = nneg n1 ->
  exists v : vec f64 3, all_finite v /\ fvtry_unit v feps = Some (fvnormalize v) /\
  frot3angle arccos (frot3from_axis_angle L (fvnormalize v) angle) = B754_nan.
Proof.
  intros LA C. exists (v3 (f64_of_Z 0) (f64_of_Z 1) (f64_of_Z 1)). split; [intros [|[|[|i]]] Hi; [vm_compute; reflexivity..|lia]|].
  split; [|exact (c126_half_turn_nan L arccos arcsin angle LA C)].
  unfold fvtry_unit. cbv zeta. match goal with |- (if ?b then _ else _) = _ => assert (E : b = true) by (vm_compute; reflexivity); rewrite E end. reflexivity.
Qed.
Lemma c126_angle_refuted (L : libm f64) (arccos arcsin : f64 -> f64) : libm_arc L arccos arcsin ->
  exists q : quat f64, all_finite (q : vec f64 4) /\
  frot3angle arccos (rot_mul (rot_inverse (frot3from_quaternion q)) (frot3from_quaternion q)) = B754_nan.
Proof.
  intros LA. exists q1. split; [intros [|[|[|[|i]]]] Hi; [vm_compute; reflexivity..|lia]|]. exact (c126_inverse_angle_nan L arccos arcsin LA).
Qed.
Lemma c126_euler_refuted (L : libm f64) (arccos arcsin : f64 -> f64) : libm_arc L arccos arcsin ->
  exists q : quat f64, all_finite (q : vec f64 4) /\ snd (fst (frot3euler_angles L arcsin (frot3from_quaternion q))) = B754_nan.
Proof.
  intros LA. exists q2. split; [intros [|[|[|[|i]]]] Hi; [vm_compute; reflexivity..|lia]|]. exact (c126_euler_nan L arccos arcsin LA).
Qed.
