(** Interpolation of quaternions in floats: the property lemmas. *)

From Coq Require Import List Arith ZArith Bool Lia Reals Lra Psatz.
From Flocq Require Import Core.Core IEEE754.BinarySingleNaN.
From Verif Require Import Base Scalar Spec SpecF SpecRigid SpecSlerp SpecArc SpecLibm SpecCR LBase MVector MQuat LVector MFloat LFloat LFloatP MFloatVec LFloatVec LTrScF LAngleFP
  MSign MComplexF MRotF MArcF LLibmP LFloatNormP LArcP LDriftM LRigidF LQMatF LSlerp LSlerpG LSlerpF LSlerpS LSlerpW LSlerpP.
Local Open Scope R_scope.

(** The specification itself. *)
Lemma c132_great_circle :
  forall (P Q : nat -> R) (t : R), rlength 4 P = 1 -> rlength 4 Q = 1 -> - 1 < dot4 P Q < 1 ->
    rlength 4 (great_circle P Q t) = 1 /\ dot4 P (great_circle P Q t) = cos (t * acos (dot4 P Q)) /\
    (forall i, great_circle P Q 0 i = P i) /\ (forall i, great_circle P Q 1 i = Q i).
Proof.
  intros P Q t HP HQ Hc. set (c := dot4 P Q) in *. pose proof (unit4 P HP) as UP. pose proof (unit4 Q HQ) as UQ.
  set (a := acos c). assert (Ca : cos a = c) by (apply cos_acos; lra). assert (Sa : 0 < sin a).
  { pose proof (acos_bound c) as B. fold a in B. destruct (proj1 B) as [B0|B0]; [|exfalso; rewrite <- B0, cos_0 in Ca; lra].
    destruct (proj2 B) as [B1|B1]; [apply sin_gt_0; assumption|exfalso; rewrite B1, cos_PI in Ca; lra]. }
  assert (G : forall s i, great_circle P Q s i = sin ((1 - s) * a) / sin a * P i + sin (s * a) / sin a * Q i).
  { intros s i. unfold great_circle. cbv zeta. fold c. fold a. destruct (Req_EM_T (sin a) 0) as [X|_]; [lra|]. field. lra. }
  assert (E : sin ((1 - t) * a) / sin a = cos (t * a) - c * (sin (t * a) / sin a)).
  { replace ((1 - t) * a) with (a - t * a) by ring. rewrite sin_minus, Ca. field. lra. }
  assert (B2 : sin (t * a) / sin a * (sin (t * a) / sin a) * (1 - c * c) = sin (t * a) * sin (t * a)).
  { pose proof (sin2_cos2 a) as Z. unfold Rsqr in Z. rewrite Ca in Z. replace (1 - c * c) with (sin a * sin a) by lra. field. lra. }
  assert (D : dot4 P (great_circle P Q t) = cos (t * a)).
  { rewrite dot4_eq, !G, E. set (B := sin (t * a) / sin a) in *. set (A := cos (t * a) - c * B).
    transitivity (A * (P 0%nat * P 0%nat + P 1%nat * P 1%nat + P 2%nat * P 2%nat + P 3%nat * P 3%nat) + B * dot4 P Q); [rewrite dot4_eq; ring|].
    fold c. rewrite UP. unfold A. ring. }
  split; [|split; [exact D|split]].
  - assert (N : rlength 4 (great_circle P Q t) * rlength 4 (great_circle P Q t) = 1). 
    2:{ assert (P0 : 0 <= rlength 4 (great_circle P Q t)) by apply sqrt_pos. set (l := rlength 4 (great_circle P Q t)) in *.
    assert (X : (l - 1) * (l + 1) = 0) by (replace ((l - 1) * (l + 1)) with (l * l - 1) by ring; rewrite N; ring).
    apply Rmult_integral in X. destruct X as [X|X]; lra. }
    { rewrite len4_sq, dot4_eq, !G, E. set (B := sin (t * a) / sin a) in *. set (A := cos (t * a) - c * B).
      transitivity (A * A * (P 0%nat * P 0%nat + P 1%nat * P 1%nat + P 2%nat * P 2%nat + P 3%nat * P 3%nat) + 2 * A * B * dot4 P Q
        + B * B * (Q 0%nat * Q 0%nat + Q 1%nat * Q 1%nat + Q 2%nat * Q 2%nat + Q 3%nat * Q 3%nat)); [rewrite dot4_eq; ring|].
      fold c. rewrite UP, UQ. pose proof (sin2_cos2 (t * a)) as Z. unfold Rsqr in Z. unfold A.
      transitivity (cos (t * a) * cos (t * a) + B * B * (1 - c * c)); [ring|]. rewrite B2. lra. }
  - intros i. rewrite G. replace ((1 - 0) * a) with a by ring. rewrite Rmult_0_l, sin_0. field. lra.
  - intros i. rewrite G. replace ((1 - 1) * a) with 0 by ring. rewrite Rmult_1_l, sin_0. field. lra.
Qed.

Lemma c132_nlerp :
  forall (prec emax : Z) (Hp : Prec_gt_0 prec) (He : Prec_lt_emax prec emax) (d : R) (P Q : nat -> R)
      (p q : quat (binary_float prec emax)) (amount : binary_float prec emax),
    (24 <= prec)%Z -> (2 * prec + 31 <= emax)%Z -> bpow radix2 (- prec) <= d <= / 65536 ->
    rlength 4 P = 1 -> rlength 4 Q = 1 ->
    (forall i, (i < 4)%nat -> fnear (vat (p : vec _ 4) i) (P i) d) -> (forall i, (i < 4)%nat -> fnear (vat (q : vec _ 4) i) (Q i) d) ->
    is_finite amount = true -> 0 <= B2R amount <= 1 ->
    let s := rlength 4 (chord P Q (B2R amount)) in
    64 * d <= s ->
    forall i, (i < 4)%nat -> fnear (vat (fqnlerp p q amount : vec _ 4) i) (chord P Q (B2R amount) i / s) (36 * d / s).
Proof. intros prec emax Hp He d P Q p q a H1 H2 Hd HP HQ np nq Fa Ba s Hs. exact (nlerp_near H1 H2 d Hd P Q HP HQ p q np nq a Fa Ba s eq_refl Hs). Qed.

Section Sign.
Context {prec emax : Z} {Hp : Prec_gt_0 prec} {He : Prec_lt_emax prec emax}.
Notation fl := (binary_float prec emax).
Hypothesis H24 : (24 <= prec)%Z.
Variables (d : R) (P Q : nat -> R) (p q : vec fl 4).
Hypothesis Hd : bpow radix2 (- prec) <= d <= / 65536.
Hypothesis HP : rlength 4 P = 1.
Hypothesis HQ : rlength 4 Q = 1.
Hypothesis np : forall i, (i < 4)%nat -> fnear (vat p i) (P i) d.
Hypothesis nq : forall i, (i < 4)%nat -> fnear (vat q i) (Q i) d.
Lemma sign_near : exists g, (g = 1 \/ g = -1) /\ - (24 * d) <= g * dot4 P Q /\ dot4 (fun i => g * P i) Q = g * dot4 P Q /\
  rlength 4 (fun i => g * P i) = 1 /\
  forall i, (i < 4)%nat -> fnear (vat ((if Bltb (qdot p q) n0 then qneg p else p) : vec fl 4) i) (g * P i) d.
Proof.
  destruct (dot_near H24 d Hd P Q HP HQ p q np nq) as (F & E). pose proof (Rabs_le_inv _ _ E) as E'.
  assert (X : forall g, dot4 (fun i => g * P i) Q = g * dot4 P Q) by (intros g; rewrite !dot4_eq; ring).
  assert (Y : forall g, g = 1 \/ g = -1 -> rlength 4 (fun i => g * P i) = 1).
  { intros g G. change (fnrm 4 (fun i => g * P i) = 1). rewrite fnrm_scale. change (fnrm 4 P) with (rlength 4 P). rewrite HP.
    destruct G as [->| ->]; [rewrite Rabs_R1|rewrite Rabs_left by lra]; ring. }
  assert (Z0 : is_finite (n0 : fl) = true) by reflexivity. rewrite (Bltb_correct _ _ _ _ F Z0). change (B2R (n0 : fl)) with 0.
  case Rlt_bool_spec; intros S.
  - exists (-1). split; [right; reflexivity|]. split; [lra|]. split; [apply X|]. split; [apply Y; right; reflexivity|].
    intros i Hi. replace (vat (qneg p : vec fl 4) i) with (nneg (vat p i) : fl) by (destruct i as [|[|[|[|i]]]]; [reflexivity..|lia]).
    replace (-1 * P i) with (- P i) by ring. apply (n_neg _ _ _ (np i Hi)).
  - exists 1. split; [left; reflexivity|]. split; [lra|]. split; [apply X|]. split; [apply Y; left; reflexivity|].
    intros i Hi. rewrite Rmult_1_l. exact (np i Hi).
Qed.
End Sign.

Lemma c132_slerp :
  forall (prec emax : Z) (Hp : Prec_gt_0 prec) (He : Prec_lt_emax prec emax) (L : libm (binary_float prec emax))
      (arccos : binary_float prec emax -> binary_float prec emax) (d : R) (P Q : nat -> R)
      (p q : quat (binary_float prec emax)) (amount threshold : binary_float prec emax),
    (24 <= prec)%Z -> (2 * prec + 31 <= emax)%Z -> bpow radix2 (- prec) <= d <= / 65536 -> accurate_arc L arccos d ->
    rlength 4 P = 1 -> rlength 4 Q = 1 ->
    (forall i, (i < 4)%nat -> fnear (vat (p : vec _ 4) i) (P i) d) -> (forall i, (i < 4)%nat -> fnear (vat (q : vec _ 4) i) (Q i) d) ->
    is_finite amount = true -> 0 <= B2R amount <= 1 -> is_finite threshold = true -> 0 <= B2R threshold <= / 2 ->
    exists g, (g = 1 \/ g = -1) /\ - (24 * d) <= g * dot4 P Q /\
      forall i, (i < 4)%nat -> fnear (vat (fqslerp_eps L arccos p q amount threshold : vec _ 4) i)
        (great_circle (fun i => g * P i) Q (B2R amount) i) (12 * sqrt d + 5 * (B2R threshold * B2R threshold)).
Proof.
  intros prec emax Hp He L arccos d P Q p q a thr H1 H2 Hd HL HP HQ np nq Fa Ba Ft Bt.
  destruct (sign_near H1 d P Q p q Hd HP HQ np nq) as (g & G & C & D & N & R). exists g. split; [exact G|]. split; [exact C|].
  intros i Hi. refine (tail_near H1 H2 L arccos d Hd HL a Fa Ba _ Q N HQ _ q R nq _ thr Ft Bt i Hi). rewrite D. exact C.
Qed.

Lemma c132_slerp_apart :
  forall (prec emax : Z) (Hp : Prec_gt_0 prec) (He : Prec_lt_emax prec emax) (L : libm (binary_float prec emax))
      (arccos : binary_float prec emax -> binary_float prec emax) (d k : R) (P Q : nat -> R)
      (p q : quat (binary_float prec emax)) (amount threshold : binary_float prec emax),
    (24 <= prec)%Z -> (2 * prec + 31 <= emax)%Z -> bpow radix2 (- prec) <= d <= / 65536 -> accurate_arc L arccos d ->
    rlength 4 P = 1 -> rlength 4 Q = 1 ->
    (forall i, (i < 4)%nat -> fnear (vat (p : vec _ 4) i) (P i) d) -> (forall i, (i < 4)%nat -> fnear (vat (q : vec _ 4) i) (Q i) d) ->
    is_finite amount = true -> 0 <= B2R amount <= 1 -> is_finite threshold = true ->
    48 * d <= k -> B2R threshold * B2R threshold <= k / 4 -> Rabs (dot4 P Q) <= 1 - k ->
    exists g, (g = 1 \/ g = -1) /\ - (24 * d) <= g * dot4 P Q /\
      forall i, (i < 4)%nat -> fnear (vat (fqslerp_eps L arccos p q amount threshold : vec _ 4) i)
        (great_circle (fun i => g * P i) Q (B2R amount) i) (232 * d + 22 * bpow radix2 (- prec) / k).
Proof.
  intros prec emax Hp He L arccos d k P Q p q a thr H1 H2 Hd HL HP HQ np nq Fa Ba Ft K1 K2 K3.
  destruct (sign_near H1 d P Q p q Hd HP HQ np nq) as (g & G & C & D & N & R). exists g. split; [exact G|]. split; [exact C|].
  intros i Hi. refine (tail_apart H1 H2 L arccos d Hd HL a Fa Ba _ Q N HQ _ q R nq _ thr Ft k _ K1 K2 i Hi); rewrite D; [exact C|].
  apply Rabs_le_inv in K3. destruct G as [->| ->]; lra.
Qed.

Lemma unit_of P : dot4 P P = 1 -> rlength 4 P = 1.
Proof. intros H. change (sqrt (dot4 P P) = 1). rewrite H. apply sqrt_1. Qed.

(** The order of the first bound cannot be improved. *)
Definition near_p : nat -> R := fun i => match i with O => 1 | _ => 0 end.
Definition near_q : nat -> R := fun i => match i with O => sqrt (1 - bpow radix2 (- 54)) | S O => bpow radix2 (- 27) | _ => 0 end.
Definition two_27 : f64 := Bldexp mode_NE (f64_of_Z 1) (- 27).
Lemma two_27_val : B2R two_27 = bpow radix2 (- 27) /\ is_finite two_27 = true.
Proof.
  assert (E : B2SF two_27 = SpecFloat.S754_finite false 4503599627370496 (- 79)) by (vm_compute; reflexivity).
  destruct two_27 as [s|s| |s m e B]; cbn in E; try discriminate E. injection E as -> -> ->. split; [|reflexivity].
  unfold B2R, F2R. cbn [Fnum Fexp cond_Zopp]. replace (-27)%Z with (52 + -79)%Z by reflexivity. rewrite bpow_plus. f_equal.
Qed.
Lemma c132_sharp :
  exists (P Q : nat -> R) (p q : quat f64),
    rlength 4 P = 1 /\ rlength 4 Q = 1 /\ 0 < dot4 P Q < 1 /\
    (forall i, (i < 4)%nat -> fnear (vat (p : vec f64 4) i) (P i) (bpow radix2 (- 53))) /\
    (forall i, (i < 4)%nat -> fnear (vat (q : vec f64 4) i) (Q i) (bpow radix2 (- 53))) /\
    forall (L : libm f64) (arccos : f64 -> f64) (threshold : f64),
      fqslerp_eps L arccos p q n1 threshold = p /\
      Rabs (B2R (vat (p : vec f64 4) 1) - great_circle P Q 1 1) = sqrt (bpow radix2 (- 53)) / sqrt 2.
Proof.
  assert (B54 : bpow radix2 (- 54) = bpow radix2 (- 27) * bpow radix2 (- 27)) by (rewrite <- bpow_plus; reflexivity).
  assert (B27 : 0 < bpow radix2 (- 27) <= / 65536) by (split; [apply bpow_gt_0|change (/ 65536) with (bpow radix2 (- 16)); apply bpow_le; lia]).
  assert (B53 : bpow radix2 (- 53) = 2 * bpow radix2 (- 54)) by (replace (- 53)%Z with (1 + - 54)%Z by lia; rewrite bpow_plus; reflexivity).
  assert (S54 : 0 < bpow radix2 (- 54) <= / 65536).
  { split; [apply bpow_gt_0|change (/ 65536) with (bpow radix2 (- 16)); apply bpow_le; lia]. }
  set (w := bpow radix2 (- 54)) in *. set (h := bpow radix2 (- 27)) in *. set (s := sqrt (1 - w)).
  assert (Ss : s * s = 1 - w) by (apply sqrt_sqrt; lra). assert (s0 : 0 < s) by (apply sqrt_lt_R0; lra).
  assert (s1 : s < 1) by (destruct (Rlt_le_dec s 1) as [X|X]; [exact X|exfalso; assert (1 * 1 <= s * s) by (apply Rmult_le_compat; lra); lra]).
  assert (s2 : 1 - w <= s) by (rewrite <- Ss; assert (s * s <= s * 1) by (apply Rmult_le_compat_l; lra); lra).
  exists near_p, near_q, (v4 n1 n0 n0 n0), (v4 n1 two_27 n0 n0).
  assert (UP : rlength 4 near_p = 1).
  { unfold rlength. cbn. replace (_ + _) with 1 by ring. apply sqrt_1. }
  assert (UQ : rlength 4 near_q = 1).
  { apply unit_of. rewrite dot4_eq. unfold near_q. cbv beta iota. fold w h s. lra. }
  assert (D : dot4 near_p near_q = s) by (rewrite dot4_eq; unfold near_p, near_q; cbv beta iota; fold w s; ring).
  destruct two_27_val as (V & F). destruct (@fbone 53 1024 _ _) as (O1 & F1 & _).
  split; [exact UP|]. split; [exact UQ|]. split; [rewrite D; lra|].
  split.
  { intros [|[|[|[|i]]]] Hi; try lia; (split; [reflexivity || exact F1|]); cbn [near_p].
    - change (B2R (vat _ _)) with (B2R (Bone : f64)). rewrite O1, Rminus_diag_eq, Rabs_R0 by reflexivity. lra.
    - change (B2R (vat _ _)) with 0. rewrite Rminus_diag_eq, Rabs_R0 by reflexivity. lra.
    - change (B2R (vat _ _)) with 0. rewrite Rminus_diag_eq, Rabs_R0 by reflexivity. lra.
    - change (B2R (vat _ _)) with 0. rewrite Rminus_diag_eq, Rabs_R0 by reflexivity. lra. }
  split.
  { intros [|[|[|[|i]]]] Hi; try lia; (split; [reflexivity || exact F1 || exact F|]); cbn [near_q].
    - change (B2R (vat _ _)) with (B2R (Bone : f64)). rewrite O1. fold w s. rewrite Rabs_pos_eq; lra.
    - change (B2R (vat _ _)) with (B2R two_27). rewrite V, Rminus_diag_eq, Rabs_R0 by reflexivity. lra.
    - change (B2R (vat _ _)) with 0. rewrite Rminus_diag_eq, Rabs_R0 by reflexivity. lra.
    - change (B2R (vat _ _)) with 0. rewrite Rminus_diag_eq, Rabs_R0 by reflexivity. lra. }
  intros L arccos thr. split.
  - unfold fqslerp_eps. cbv zeta.
    match goal with |- context [if Bltb (qdot ?x ?y) n0 then _ else _] => replace (Bltb (qdot x y) n0) with false by (vm_compute; reflexivity) end.
    match goal with |- context [if Bleb n1 ?x then _ else _] => replace (Bleb n1 x) with true by (vm_compute; reflexivity) end. reflexivity.
  - destruct (c132_great_circle near_p near_q 1 UP UQ ltac:(rewrite D; lra)) as (_ & _ & _ & G). rewrite G. cbn [near_q].
    change (B2R (vat _ _)) with 0. fold h. rewrite Rminus_0_l, Rabs_Ropp, Rabs_pos_eq by lra.
    rewrite B53, sqrt_mult by lra. rewrite B54, sqrt_square by lra. field. pose proof (sqrt_lt_R0 2 ltac:(lra)). lra.
Qed.

(** The correctly rounded library, and a pair of quaternions half a right angle or so apart. *)
Lemma cr_accurate (prec emax : Z) (Hp : Prec_gt_0 prec) (He : Prec_lt_emax prec emax) (nb : bool) : (24 <= prec)%Z ->
  accurate_arc (cr_libm nb : libm (binary_float prec emax)) cr_acos (bpow radix2 (- prec)).
Proof.
  intros H24. pose proof He as P2. unfold Prec_lt_emax in P2. pose proof PI_4 as PB. split.
  - intros x F B. unfold cr_acos. rewrite F. destruct Rle_dec as [_|N]; [|contradiction]. pose proof (acos_bound (B2R x)) as AB.
    destruct (cr_bounded (acos (B2R x)) false 2) as (A & _ & E & _); [lia|rewrite Rabs_pos_eq by lra; change (bpow radix2 2) with 4; lra|].
    split; [exact A|]. rewrite E. pose proof (rnd_rel (prec := prec) (emax := emax) (acos (B2R x))) as R. rewrite (Rabs_pos_eq (acos (B2R x))) in R by lra. exact R.
  - intros x F B. cbn [m_sin cr_libm]. rewrite F.
    destruct (cr_bounded (sin (B2R x)) (Bsign x) 0) as (A & _ & E & _); [lia|apply Rabs_le; pose proof (SIN_bound (B2R x)); cbn; lra|].
    split; [exact A|]. rewrite E. apply rnd_rel.
Qed.
Definition ex_p : nat -> R := fun i => match i with O => 1 | _ => 0 end.
Definition ex_q : nat -> R := fun i => match i with O => 3 / 5 | S O => 4 / 5 | _ => 0 end.
Definition zq (m n : Z) : f64 := ndiv (f64_of_Z m) (f64_of_Z n).
Lemma zq_near m n : (0 < m < n)%Z -> (n < 2 ^ 53)%Z -> fnear (zq m n) (IZR m / IZR n) (bpow radix2 (- 53)).
Proof.
  intros Hm Hn. destruct (f64_of_Z_exact m ltac:(lia)) as (Vm & Fm). destruct (f64_of_Z_exact n ltac:(lia)) as (Vn & Fn).
  assert (A0 : 0 < IZR m) by (apply IZR_lt; lia). assert (A1 : IZR m + 1 <= IZR n) by (rewrite <- plus_IZR; apply IZR_le; lia).
  assert (Q : 0 < IZR m / IZR n) by (apply Rmult_lt_0_compat; [exact A0|apply Rinv_0_lt_compat; lra]).
  assert (Q1 : IZR m / IZR n <= 1 - bpow radix2 (- 53)).
  { apply (Rmult_le_reg_r (IZR n)); [lra|]. unfold Rdiv. rewrite Rmult_assoc, Rinv_l by lra.
    assert (bpow radix2 (- 53) * IZR n <= bpow radix2 (- 53) * bpow radix2 53).
    { apply Rmult_le_compat_l; [apply bpow_ge_0|]. change (bpow radix2 53) with (IZR (2 ^ 53)). apply IZR_le. lia. }
    rewrite <- bpow_plus in H. change (bpow radix2 (- 53 + 53)) with 1 in H. lra. }
  destruct (div_val (f64_of_Z m) (f64_of_Z n) Fm) as (F & E); [rewrite Vn; lra|rewrite Vm, Vn; rewrite Rabs_pos_eq by lra|].
  { apply Rle_trans with (bpow radix2 0); [pose proof (bpow_gt_0 radix2 (- 53)); cbn [bpow]; lra|apply bpow_le; lia]. }
  split; [exact F|]. rewrite Vm, Vn in E. assert (E' : B2R (zq m n) = round radix2 (FLT_exp (3 - 1024 - 53) 53) ZnearestE (IZR m / IZR n)) by exact E.
  rewrite E'. eapply Rle_trans; [apply rnd_rel|]. rewrite Rabs_pos_eq by lra. change (Z.opp 53) with (-53)%Z. change (2 - 1024 - 53)%Z with (-1075)%Z.
  set (x := IZR m / IZR n) in *. assert (bpow radix2 (- 53) * x <= bpow radix2 (- 53) * (1 - bpow radix2 (- 53))) by (apply Rmult_le_compat_l; [apply bpow_ge_0|exact Q1]).
  assert (bpow radix2 (- 1075) <= bpow radix2 (- 53) * bpow radix2 (- 53)) by (rewrite <- bpow_plus; apply bpow_le; lia). lra.
Qed.
Lemma c132_example :
  let p : quat f64 := v4 n1 n0 n0 n0 in let q : quat f64 := v4 (zq 3 5) (zq 4 5) n0 n0 in let d := bpow radix2 (- 53) in
  accurate_arc (cr_libm true : libm f64) cr_acos d /\
  rlength 4 ex_p = 1 /\ rlength 4 ex_q = 1 /\
  (forall i, (i < 4)%nat -> fnear (vat (p : vec f64 4) i) (ex_p i) d) /\ (forall i, (i < 4)%nat -> fnear (vat (q : vec f64 4) i) (ex_q i) d) /\
  is_finite (zq 1 4) = true /\ 0 <= B2R (zq 1 4) <= 1 /\ is_finite (zq 5 10000) = true /\ 0 <= B2R (zq 5 10000) <= / 2 /\
  48 * d <= 2 / 5 /\ B2R (zq 5 10000) * B2R (zq 5 10000) <= 2 / 5 / 4 /\ Rabs (dot4 ex_p ex_q) <= 1 - 2 / 5 /\
  64 * d <= rlength 4 (chord ex_p ex_q (B2R (zq 1 4))).
Proof.
  cbv zeta. assert (U : 0 < bpow radix2 (- 53) <= / 65536) by (split; [apply bpow_gt_0|change (/ 65536) with (bpow radix2 (- 16)); apply bpow_le; lia]).
  destruct (@fbone 53 1024 _ _) as (O1 & F1 & _).
  pose proof (zq_near 3 5 ltac:(lia) ltac:(lia)) as N3. pose proof (zq_near 4 5 ltac:(lia) ltac:(lia)) as N4.
  destruct (zq_near 1 4 ltac:(lia) ltac:(lia)) as (Fa & Ea). destruct (zq_near 5 10000 ltac:(lia) ltac:(lia)) as (Ft & Et).
  apply Rabs_le_inv in Ea, Et. set (t := B2R (zq 5 10000)) in *. set (a := B2R (zq 1 4)) in *.
  assert (UP : rlength 4 ex_p = 1) by (unfold rlength; cbn; replace (_ + _) with 1 by ring; apply sqrt_1).
  assert (UQ : rlength 4 ex_q = 1) by (unfold rlength; cbn; replace (_ + _) with 1 by field; apply sqrt_1).
  split; [apply cr_accurate; lia|]. split; [exact UP|]. split; [exact UQ|].
  split.
  { intros [|[|[|[|i]]]] Hi; try lia; (split; [reflexivity || exact F1|]); cbn [ex_p].
    - change (B2R (vat _ _)) with (B2R (Bone : f64)). rewrite O1, Rminus_diag_eq, Rabs_R0 by reflexivity. lra.
    - change (B2R (vat _ _)) with 0. rewrite Rminus_diag_eq, Rabs_R0 by reflexivity. lra.
    - change (B2R (vat _ _)) with 0. rewrite Rminus_diag_eq, Rabs_R0 by reflexivity. lra.
    - change (B2R (vat _ _)) with 0. rewrite Rminus_diag_eq, Rabs_R0 by reflexivity. lra. }
  split.
  { intros [|[|[|[|i]]]] Hi; try lia; [exact N3|exact N4| |]; (split; [reflexivity|]); cbn [ex_q];
      change (B2R (vat _ _)) with 0; rewrite Rminus_diag_eq, Rabs_R0 by reflexivity; lra. }
  split; [exact Fa|]. split; [lra|]. split; [exact Ft|]. split; [lra|]. split; [lra|].
  split; [assert (t * t <= / 4 * / 4) by (apply Rmult_le_compat; lra); lra|].
  assert (D : dot4 ex_p ex_q = 3 / 5) by (rewrite dot4_eq; cbn; field). rewrite D, Rabs_pos_eq by lra. split; [lra|].
  pose proof (chord_ge ex_p ex_q UP UQ a ltac:(lra) ltac:(rewrite D; lra)) as G. rewrite D in G. lra.
Qed.
