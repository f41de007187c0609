(** Proofs of the theorems of PQFunF.v. *)

From Coq Require Import List Arith ZArith Bool Lia Reals Lra Psatz.
From Flocq Require Import Core.Core Relative IEEE754.BinarySingleNaN.
From Verif Require Import Base Scalar Spec SpecF SpecRigid SpecLook SpecCplx SpecCR SpecArc SpecAng SpecQFun MVector MMatrix MQuat MFloat MFloatVec MSign MComplexF MRotF MArcF MQFunF
  LBase LVector LFloat LFloatP LFloatVec LTrScF LDegF LArc LArcP LComplexHP LComplexLP LComplexKP LLibmP LCplxF LCplxFP LBetwQ LAngR LQFunF LQFunG LQFunH LQFunI.
From Verif Require LCplxFQ LReal.
Local Open Scope R_scope.

Lemma c139_exponential :
  forall (prec emax : Z) (Hp : Prec_gt_0 prec) (He : Prec_lt_emax prec emax) (L : libm (binary_float prec emax)) (d : R) (q : quat (binary_float prec emax)),
    let u := bpow radix2 (- prec) in let s := B2R (qscalar q) in let v := fval (qvector q) in let n := rlength 3 v in
    (24 <= prec)%Z -> (2 * prec + 33 <= emax)%Z -> 0 <= d <= / 16 -> all_finite (q : vec _ 4) -> 128 * u * n <= 1 -> exp s <= bpow radix2 (emax - 7) ->
    lib_at d exp (m_exp L) (qscalar q) -> lib_at d cos (m_cos L) (fvnorm (qvector q)) -> lib_at d sin (m_sin L) (fvnorm (qvector q)) ->
    qclose (fqexp L q) (exp s * cos n) (exp s * sin n) v ((5 / 2 * d + 12 * u * n + 19 * u) * exp s + bpow radix2 (3 - emax)).
Proof. intros prec emax Hp He L d q u s v n H24 Hr D F N E A B C. exact (exp_close L H24 q d Hr D F N E A B C). Qed.

Lemma c139_hyperbolic :
  forall (prec emax : Z) (Hp : Prec_gt_0 prec) (He : Prec_lt_emax prec emax) (L : libm (binary_float prec emax)) (d : R) (k : Z) (q : quat (binary_float prec emax)),
    let u := bpow radix2 (- prec) in let s := B2R (qscalar q) in let v := fval (qvector q) in let n := rlength 3 v in
    (24 <= prec <= k)%Z -> (2 * k + 31 <= emax)%Z -> 0 <= d <= / 16 -> all_finite (q : vec _ 4) -> 128 * u * n <= 1 -> n = 0 \/ bpow radix2 (- k) <= n -> cosh s <= bpow radix2 (emax - 7) ->
    lib_at d cosh (m_cosh L) (qscalar q) -> lib_at d sinh (m_sinh L) (qscalar q) -> lib_at d cos (m_cos L) (fvnorm (qvector q)) -> lib_at d sin (m_sin L) (fvnorm (qvector q)) ->
    let e := (5 / 2 * d + 12 * u * n + 19 * u) * cosh s + bpow radix2 (3 - emax) in
    qclose (fqcosh L q) (cosh s * cos n) (sinh s * sin n) v e /\ qclose (fqsinh L q) (sinh s * cos n) (cosh s * sin n) v e.
Proof. intros prec emax Hp He L d k q u s v n (H24 & Hk) Hr D F N E A B C G I. exact (hyper_close L H24 q d k Hk Hr D F N E A B C G I). Qed.

Lemma c139_trigonometric :
  forall (prec emax : Z) (Hp : Prec_gt_0 prec) (He : Prec_lt_emax prec emax) (L : libm (binary_float prec emax)) (d : R) (k : Z) (q : quat (binary_float prec emax)),
    let u := bpow radix2 (- prec) in let s := B2R (qscalar q) in let v := fval (qvector q) in let n := rlength 3 v in
    (24 <= prec <= k)%Z -> (2 * k + 31 <= emax)%Z -> 0 <= d <= / 18 -> all_finite (q : vec _ 4) -> 1024 * u * n <= 1 -> n = 0 \/ bpow radix2 (- k) <= n -> cosh n <= bpow radix2 (emax - 7) ->
    lib_at d cos (m_cos L) (qscalar q) -> lib_at d sin (m_sin L) (qscalar q) -> lib_at d cosh (m_cosh L) (fvnorm (qvector q)) -> lib_at d sinh (m_sinh L) (fvnorm (qvector q)) ->
    let e := (11 / 4 * d + 24 * u * n + 19 * u) * cosh n + bpow radix2 (3 - emax) in
    qclose (fqcos L q) (cos s * cosh n) (- sin s * sinh n) v e /\ qclose (fqsin L q) (sin s * cosh n) (cos s * sinh n) v e.
Proof. intros prec emax Hp He L d k q u s v n (H24 & Hk) Hr D F N E A B C G I. exact (trig_close L H24 q d k Hk Hr D F N E A B C G I). Qed.

Lemma c140_square_root_partial :
  forall (prec emax : Z) (Hp : Prec_gt_0 prec) (He : Prec_lt_emax prec emax) (k : Z) (q : quat (binary_float prec emax)),
    let u := bpow radix2 (- prec) in let Q := fval (q : vec _ 4) in let s := B2R (qscalar q) in let n := rlength 3 (fval (qvector q)) in let r := rlength 4 Q in
    (24 <= prec < k)%Z -> (2 * k + 31 <= emax)%Z -> all_finite (q : vec _ 4) -> r <= bpow radix2 k ->
    (forall kappa, 3 * u < n -> 1 <= kappa -> 256 * u * kappa <= 1 -> r <= kappa * (r + s) ->
       exists p, principal_root Q p /\ forall i, (i < 4)%nat -> near_rel (24 * u * kappa) (vat (fqsqrt q : vec _ 4) i) (p i)) /\
    (1 <= s -> exists p, principal_root Q p /\ forall i, (i < 4)%nat -> fnear (vat (fqsqrt q : vec _ 4) i) (p i) (25 * u * sqrt r)).
Proof.
  intros prec emax Hp He k q u Q s n r (H24 & Hk) Hr F R. assert (Hk' : (prec + 1 <= k)%Z) by lia. split.
  - intros kappa NL K1 K2 KT. destruct (sqrt_main H24 q k Hk' Hr F R kappa NL K1 K2 KT) as (T & M). exists (root_of Q). split; [apply root_is; exact T|exact M].
  - intros S1. exists (root_of Q). split; [|exact (sqrt_big H24 q k Hk' Hr F R S1)]. apply root_is. pose proof (LDriftM.fnrm_pos 4 Q) as P. change (LDriftM.fnrm 4 Q) with (rlength 4 Q) in P. change (0 < rlength 4 Q + s). lra.
Qed.

Lemma c140_logarithm_partial :
  forall (prec emax : Z) (Hp : Prec_gt_0 prec) (He : Prec_lt_emax prec emax) (L : libm (binary_float prec emax)) (arccos arcsin : binary_float prec emax -> binary_float prec emax)
         (d theta : R) (q : quat (binary_float prec emax)),
    let u := bpow radix2 (- prec) in let v := fval (qvector q) in let n := rlength 3 v in let r := rlength 4 (fval (q : vec _ 4)) in
    (24 <= prec)%Z -> (2 * prec + 33 <= emax)%Z -> 0 <= d <= / 64 -> ang_lib L arccos arcsin d -> all_finite (q : vec _ 4) -> 4 * u * r <= 1 ->
    0 <= theta <= PI -> r * cos theta = B2R (qscalar q) -> r * sin theta = n -> 3 * u < n -> 64 * u * (r * r) <= n * n -> lib_at d ln (m_ln L) (fqnorm q) ->
    fnear (qscalar (fqln L arccos q)) (ln r) (d * Rabs (ln r) + 10 * u) /\
    forall i, (i < 3)%nat -> fnear (vat (qvector (fqln L arccos q)) i) (theta * rdir v i) (5 / 4 * d + 14 * u / sin theta + 48 * u).
Proof. intros prec emax Hp He L arccos arcsin d theta q u v n r H24 Hr D HL F R T TC TS N1 N2 LN. exact (ln_close H24 L arccos arcsin d D HL Hr q F R theta T TC TS N1 N2 LN). Qed.

Lemma c140_angle_partial :
  forall (prec emax : Z) (Hp : Prec_gt_0 prec) (He : Prec_lt_emax prec emax) (L : libm (binary_float prec emax)) (arccos arcsin : binary_float prec emax -> binary_float prec emax)
         (d theta : R) (q : quat (binary_float prec emax)),
    let u := bpow radix2 (- prec) in let s := B2R (qscalar q) in let n := rlength 3 (fval (qvector q)) in let r := rlength 4 (fval (q : vec _ 4)) in
    (24 <= prec)%Z -> (2 * prec + 33 <= emax)%Z -> 0 <= d <= / 64 -> ang_lib L arccos arcsin d -> all_finite (q : vec _ 4) -> 4 * u * r <= 1 ->
    0 <= theta <= PI -> r * cos theta = s -> r * sin theta = n -> 4 * u <= Rabs s -> n = 0 \/ bpow radix2 (- (prec + 1)) <= n ->
    fnear_turn (fqarg L q) theta (d + 16 * u).
Proof. intros prec emax Hp He L arccos arcsin d theta q u s n r H24 Hr D HL F R T TC TS N1 N2. exact (arg_close H24 L arccos arcsin d D HL Hr q F R theta T TC TS N1 N2). Qed.

(** *** The branches taken *)
Section Steps.
Context {prec emax : Z} {Hprec : Prec_gt_0 prec} {Hemax : Prec_lt_emax prec emax}.
Notation fl := (binary_float prec emax).
Variable L : libm fl.
Lemma ln_at arccos (q : quat fl) (a n : fl) : Bleb (vnorm_squared (qvector q)) (nmul feps feps) = false -> ndiv (qscalar q) (fqnorm q) = a -> fsqrt (vnorm_squared (qvector q)) = n ->
  vat (qvector (fqln L arccos q)) 0 = nmul (vat (qvector q) 0) (ndiv (arccos a) n).
Proof. intros B A N. unfold fqln, fqln_eps. cbv zeta. rewrite B, A, N. destruct q as (q0 & q1 & q2 & q3 & []). reflexivity. Qed.
Lemma arg_at (q : quat fl) : Bleb (nmul (qscalar q) (qscalar q)) (nmul feps feps) = true -> fqarg L q = m_frac_pi_2 L.
Proof. intros B. unfold fqarg, fqarg_eps. rewrite B. reflexivity. Qed.
Lemma tan_at tangent (q : quat fl) (n a b : fl) : fvnorm (qvector q) = n -> nis0 n = false -> nmul (m_cosh L n) (m_sinh L n) = a -> nmul (m_sinh L n) (m_sinh L n) = b ->
  vat (fqtan L tangent q : vec fl 4) 1 = nmul (vat (qvector q) 0) (ndiv a (nmul (nadd (nmul (m_cos L (qscalar q)) (m_cos L (qscalar q))) b) n)).
Proof. intros N Z1 A B. unfold fqtan. cbv zeta. rewrite N, Z1, A, B. destruct q as (q0 & q1 & q2 & q3 & []). reflexivity. Qed.
End Steps.

(** *** Inputs with no accuracy left *)
Definition pow2 (k : Z) : f64 := Bdiv mode_NE Bone (f64_of_Z (2 ^ k)).
Definition q_root : quat f64 := qnew (f64_of_Z (-1)) (pow2 27) n0 n0.
Definition q_axis : quat f64 := qnew (f64_of_Z (-1)) n0 (pow2 60) n0.

Lemma p27 : is_finite (pow2 27) = true /\ B2R (pow2 27) = bpow radix2 (-27).
Proof.
  split; [vm_compute; reflexivity|]. rewrite <- SF2R_B2SF. replace (B2SF (pow2 27)) with (SpecFloat.S754_finite false (2 ^ 52) (-79)) by (vm_compute; reflexivity).
  cbn [SF2R cond_Zopp]. unfold F2R. cbn [Fnum Fexp]. change (Z.pos (2 ^ 52)) with (Zpower radix2 52). rewrite (IZR_Zpower radix2 52) by lia. rewrite <- bpow_plus. reflexivity.
Qed.
Lemma p60 : is_finite (pow2 60) = true /\ B2R (pow2 60) = bpow radix2 (-60).
Proof.
  split; [vm_compute; reflexivity|]. rewrite <- SF2R_B2SF. replace (B2SF (pow2 60)) with (SpecFloat.S754_finite false (2 ^ 52) (-112)) by (vm_compute; reflexivity).
  cbn [SF2R cond_Zopp]. unfold F2R. cbn [Fnum Fexp]. change (Z.pos (2 ^ 52)) with (Zpower radix2 52). rewrite (IZR_Zpower radix2 52) by lia. rewrite <- bpow_plus. reflexivity.
Qed.

Lemma len4_eq (Q : nat -> R) : rlength 4 Q = sqrt (Q 0%nat * Q 0%nat + (Q 1%nat * Q 1%nat + Q 2%nat * Q 2%nat + Q 3%nat * Q 3%nat)).
Proof. unfold rlength. f_equal. change (0 + Q 0%nat * Q 0%nat + Q 1%nat * Q 1%nat + Q 2%nat * Q 2%nat + Q 3%nat * Q 3%nat = Q 0%nat * Q 0%nat + (Q 1%nat * Q 1%nat + Q 2%nat * Q 2%nat + Q 3%nat * Q 3%nat)). ring. Qed.
Lemma off_axis (Q : nat -> R) w : Q 0%nat = -1 -> 0 < w -> Q 1%nat * Q 1%nat + Q 2%nat * Q 2%nat + Q 3%nat * Q 3%nat = w -> 0 < rlength 4 Q + Q 0%nat.
Proof.
  intros E W H. rewrite len4_eq, H, E. assert (1 < sqrt (-1 * -1 + w)); [|lra]. rewrite <- sqrt_1 at 1. apply sqrt_lt_1; lra.
Qed.

Lemma c140_square_root_refuted : exists q : quat f64, all_finite (q : vec f64 4) /\ (exists p, principal_root (fval (q : vec f64 4)) p) /\
  vat (fqsqrt q : vec f64 4) 0 = B754_nan /\ vat (fqsqrt q : vec f64 4) 1 = B754_infinity false.
Proof.
  exists q_root. split; [|split; [|split]].
  - intros [|[|[|[|i]]]] Hi; try lia; vm_compute; reflexivity.
  - exists (root_of (fval (q_root : vec f64 4))). apply root_is. apply (off_axis _ (bpow radix2 (-27) * bpow radix2 (-27))).
    + exact (zval (-1) ltac:(lia)).
    + apply Rmult_lt_0_compat; apply bpow_gt_0.
    + change (fval (q_root : vec f64 4) 1) with (B2R (pow2 27)). change (fval (q_root : vec f64 4) 2) with 0. change (fval (q_root : vec f64 4) 3) with 0. rewrite (proj2 p27). ring.
  - apply B2SF_inj. vm_compute. reflexivity.
  - apply B2SF_inj. vm_compute. reflexivity.
Qed.

Lemma c140_square_root_axis_refuted : exists q : quat f64, all_finite (q : vec f64 4) /\ vat (fqsqrt q : vec f64 4) 1 = n1 /\ vat (fqsqrt q : vec f64 4) 2 = n0 /\
  exists p, principal_root (fval (q : vec f64 4)) p /\ p 1%nat = 0 /\ 1 <= p 2%nat.
Proof.
  exists q_axis. split; [|split; [|split]].
  - intros [|[|[|[|i]]]] Hi; try lia; vm_compute; reflexivity.
  - apply B2SF_inj. vm_compute. reflexivity.
  - apply B2SF_inj. vm_compute. reflexivity.
  - set (Q := fval (q_axis : vec f64 4)). exists (root_of Q).
    assert (E0 : Q 0%nat = -1) by exact (zval (-1) ltac:(lia)). assert (E1 : Q 1%nat = 0) by reflexivity. assert (E2 : Q 2%nat = bpow radix2 (-60)) by exact (proj2 p60). assert (E3 : Q 3%nat = 0) by reflexivity.
    assert (P : 0 < bpow radix2 (-60)) by apply bpow_gt_0.
    assert (R : principal_root Q (root_of Q)).
    { apply root_is. apply (off_axis _ (bpow radix2 (-60) * bpow radix2 (-60)) E0); [apply Rmult_lt_0_compat; exact P|]. rewrite E1, E2, E3. ring. }
    split; [exact R|]. assert (Z1 : root_of Q 1%nat = 0) by (unfold root_of; cbv zeta; rewrite E1; ring). assert (Z3 : root_of Q 3%nat = 0) by (unfold root_of; cbv zeta; rewrite E3; ring).
    split; [exact Z1|]. destruct R as (P0 & P1 & P2). rewrite Z1, Z3, E0 in P1. specialize (P2 2%nat ltac:(lia)). rewrite E2 in P2.
    assert (0 < root_of Q 2%nat) by nra. nra.
Qed.

Definition q_ln : quat f64 := qnew n1 (pow2 27) n0 n0.
Lemma c140_logarithm_refuted : forall (L : libm f64) (arccos : f64 -> f64), fnear (arccos n1) 0 (bpow radix2 (-40)) ->
  exists q : quat f64, all_finite (q : vec f64 4) /\ Rabs (B2R (vat (qvector (fqln L arccos q)) 0)) <= bpow radix2 (-40) /\
    forall theta, 0 <= theta -> rlength 4 (fval (q : vec f64 4)) * sin theta = B2R (vat (qvector q) 0) -> bpow radix2 (-28) <= theta.
Proof.
  intros L arccos (FA & EA). rewrite Rminus_0_r in EA. exists q_ln. split; [|split].
  - intros [|[|[|[|i]]]] Hi; try lia; vm_compute; reflexivity.
  - assert (B : Bleb (vnorm_squared (qvector q_ln)) (nmul feps feps) = false) by (vm_compute; reflexivity).
    assert (Z1 : (ndiv (qscalar q_ln) (fqnorm q_ln) : f64) = n1) by (apply B2SF_inj; vm_compute; reflexivity).
    assert (Z2 : (fsqrt (vnorm_squared (qvector q_ln)) : f64) = pow2 27) by (apply B2SF_inj; vm_compute; reflexivity).
    pose proof (ln_at L arccos q_ln n1 (pow2 27) B Z1 Z2) as E. refine (eq_ind_r (fun z : f64 => Rabs (B2R z) <= bpow radix2 (-40)) _ E). clear E. change (vat (qvector q_ln) 0) with (pow2 27).
    assert (FB : @fb 53 1024 (-40) (arccos n1)) by (split; [exact FA|exact EA]).
    destruct (@fb_div 53 1024 _ _ (-40) (-27) (arccos n1) (pow2 27) FB) as (D & _); [rewrite (proj2 p27), Rabs_pos_eq by apply bpow_ge_0; apply Rle_refl|lia|].
    assert (F2 : @fb 53 1024 (-27) (pow2 27)) by (split; [exact (proj1 p27)|rewrite (proj2 p27), Rabs_pos_eq by apply bpow_ge_0; apply Rle_refl]).
    destruct (@fb_mul 53 1024 _ _ (-27) (-13) _ _ F2 D ltac:(lia)) as ((_ & M) & _). exact M.
  - intros theta T E. change (B2R (vat (qvector q_ln) 0)) with (B2R (pow2 27)) in E. rewrite (proj2 p27) in E.
    assert (R2 : rlength 4 (fval (q_ln : vec f64 4)) <= 2).
    { rewrite len4_eq. change (fval (q_ln : vec f64 4) 2) with 0. change (fval (q_ln : vec f64 4) 3) with 0. change (fval (q_ln : vec f64 4) 1) with (B2R (pow2 27)). rewrite (proj2 p27).
      replace (fval (q_ln : vec f64 4) 0) with 1 by (symmetry; exact (zval 1 ltac:(lia))).
      assert (bpow radix2 (-27) <= 1) by (apply (bpow_le radix2 (-27) 0); lia). pose proof (bpow_ge_0 radix2 (-27)).
      rewrite <- (sqrt_square 2) by lra. apply sqrt_le_1_alt. nra. }
    pose proof (LSlerpW.sin_abs theta) as SA. rewrite (Rabs_pos_eq theta) in SA by exact T. pose proof (Rle_abs (sin theta)) as SB. pose proof (bpow_gt_0 radix2 (-27)) as P.
    assert (R0 : 0 <= rlength 4 (fval (q_ln : vec f64 4))) by apply (LDriftM.fnrm_pos 4).
    assert (H2 : bpow radix2 (-27) = 2 * bpow radix2 (-28)) by exact (bpow_plus radix2 1 (-28)).
    set (R4 := rlength 4 (fval (q_ln : vec f64 4))) in *. assert (R4 * sin theta <= R4 * theta) by (apply Rmult_le_compat_l; lra). assert (R4 * theta <= 2 * theta) by (apply Rmult_le_compat_r; lra). lra.
Qed.

Definition q_arg : quat f64 := qnew (pow2 60) (pow2 60) n0 n0.
Lemma c140_angle_refuted : forall (L : libm f64), fnear (m_frac_pi_2 L) (PI / 2) (/ 10) ->
  exists q : quat f64, all_finite (q : vec f64 4) /\ 14 / 10 <= B2R (fqarg L q) /\
    let r := rlength 4 (fval (q : vec f64 4)) in r * cos (PI / 4) = B2R (qscalar q) /\ r * sin (PI / 4) = rlength 3 (fval (qvector q)).
Proof.
  intros L (F & E). exists q_arg. split; [|split].
  - intros [|[|[|[|i]]]] Hi; try lia; vm_compute; reflexivity.
  - assert (B : Bleb (nmul (qscalar q_arg) (qscalar q_arg)) (nmul feps feps) = true) by (vm_compute; reflexivity).
    pose proof (arg_at L q_arg B) as E2. refine (eq_ind_r (fun z : f64 => 14 / 10 <= B2R z) _ E2). pose proof PI_digits. apply Rabs_le_inv in E. destruct E as (E & _). assert (G : 14 / 10 <= PI / 2 - / 10) by lra. apply (Rle_trans _ _ _ G). assert (forall x y z, - x <= y - z -> z - x <= y) as W by (intros; lra). apply W. exact E.
  - set (x := bpow radix2 (-60)). assert (X : 0 < x) by apply bpow_gt_0.
    assert (L3 : rlength 3 (fval (qvector q_arg)) = x).
    { unfold rlength. rewrite <- (sqrt_square x) by lra. f_equal. change (0 + B2R (pow2 60) * B2R (pow2 60) + 0 * 0 + 0 * 0 = x * x). rewrite (proj2 p60). fold x. ring. }
    assert (L4 : rlength 4 (fval (q_arg : vec f64 4)) = sqrt 2 * x).
    { rewrite len4_eq. change (fval (q_arg : vec f64 4) 2) with 0. change (fval (q_arg : vec f64 4) 3) with 0. change (fval (q_arg : vec f64 4) 0) with (B2R (pow2 60)). change (fval (q_arg : vec f64 4) 1) with (B2R (pow2 60)). rewrite (proj2 p60). fold x.
      replace (x * x + (x * x + 0 * 0 + 0 * 0)) with (2 * (x * x)) by ring. rewrite sqrt_mult_alt by lra. rewrite sqrt_square by lra. reflexivity. }
    cbv zeta. rewrite L3, L4. change (B2R (qscalar q_arg)) with (B2R (pow2 60)). rewrite (proj2 p60). fold x. rewrite cos_PI4, sin_PI4. pose proof sqrt2_neq_0. split; field; assumption.
Qed.

Definition q_tan : quat f64 := qnew n0 (f64_of_Z 600) n0 n0.
Lemma mul_over (x y : f64) : is_finite x = true -> is_finite y = true -> bpow radix2 512 <= B2R x -> bpow radix2 512 <= B2R y -> nmul x y = B754_infinity false :> f64.
Proof.
  intros Fx Fy X Y. apply B2SF_inj. pose proof (Bmult_correct 53 1024 _ _ mode_NE x y) as C. rewrite Rlt_bool_false in C.
  - change (nmul x y : f64) with (Bmult mode_NE x y). rewrite C.
    assert (P : 0 < bpow radix2 512) by apply bpow_gt_0. rewrite (LAngleFP.pos_sign x), (LAngleFP.pos_sign y) by lra. reflexivity.
  - assert (G : generic_format radix2 (FLT_exp (3 - 1024 - 53) 53) (bpow radix2 1024)) by (apply generic_format_bpow; unfold FLT_exp; lia).
    eapply Rle_trans; [|apply RRle_abs]. apply round_ge_generic; [apply FLT_exp_valid; reflexivity|apply valid_rnd_N|exact G|].
    replace (bpow radix2 1024) with (bpow radix2 512 * bpow radix2 512) by (rewrite <- bpow_plus; reflexivity). apply Rmult_le_compat; try apply bpow_ge_0; assumption.
Qed.
Lemma sinh_600 : bpow radix2 598 <= sinh 600 /\ bpow radix2 598 <= cosh 600.
Proof. assert (A : Prec_gt_0 53) by reflexivity. assert (B : Prec_lt_emax 53 598) by reflexivity. apply (@sinh_big 53 598 A B). lra. Qed.

Lemma half_big (x s d b : R) : 0 <= d <= / 2 -> 0 < b -> 2 * b <= s -> Rabs (x - s) <= d * Rabs s -> b <= x.
Proof. intros D B S E. rewrite (Rabs_pos_eq s) in E by lra. apply Rabs_le_inv in E. assert (d * s <= / 2 * s) by (apply Rmult_le_compat_r; lra). lra. Qed.

Lemma c140_tangent_refuted : forall (L : libm f64) (tangent : f64 -> f64) (d : R), 0 <= d <= / 2 ->
  lib_at d cosh (m_cosh L) (f64_of_Z 600) -> lib_at d sinh (m_sinh L) (f64_of_Z 600) -> is_finite (m_cos L n0) = true -> is_finite (m_sin L n0) = true -> Rabs (B2R (m_cos L n0)) <= 2 ->
  exists q : quat f64, all_finite (q : vec f64 4) /\ rlength 3 (fval (qvector q)) = 600 /\ qscalar q = n0 /\ 0 < cosh 600 * sinh 600 / (cos 0 * cos 0 + sinh 600 * sinh 600) < 2 /\
    vat (fqtan L tangent q : vec f64 4) 1 = B754_nan.
Proof.
  intros L tangent d D (FC & EC) (FS & ES) F0 F1 B0. exists q_tan. split; [|split; [|split; [|split]]].
  - intros [|[|[|[|i]]]] Hi; try lia; vm_compute; reflexivity.
  - assert (V : B2R (f64_of_Z 600) = 600) by exact (zval 600 ltac:(lia)). change (sqrt (0 + B2R (f64_of_Z 600) * B2R (f64_of_Z 600) + 0 * 0 + 0 * 0) = 600). rewrite V.
    replace (0 + 600 * 600 + 0 * 0 + 0 * 0) with (600 * 600) by ring. apply sqrt_square. lra.
  - reflexivity.
  - destruct sinh_600 as (S1 & S2). assert (P : 1 <= bpow radix2 598) by (apply (bpow_le radix2 0 598); lia). pose proof (LReal.cosh2_sinh2 600) as CS. rewrite cos_0.
    assert (C2 : cosh 600 * cosh 600 = 1 * 1 + sinh 600 * sinh 600) by lra. rewrite <- C2. replace (cosh 600 * sinh 600 / (cosh 600 * cosh 600)) with (sinh 600 / cosh 600) by (field; lra).
    assert (SC : sinh 600 <= cosh 600) by nra. split; [apply Rdiv_lt_0_compat; lra|]. apply (Rle_lt_trans _ 1); [|lra]. apply (Rmult_le_reg_r (cosh 600)); [lra|]. unfold Rdiv. rewrite Rmult_assoc, Rinv_l by lra. lra.
  - assert (N : (fvnorm (qvector q_tan) : f64) = f64_of_Z 600) by (apply B2SF_inj; vm_compute; reflexivity).
    assert (N0 : nis0 (f64_of_Z 600) = false) by (vm_compute; reflexivity).
    assert (V : B2R (f64_of_Z 600) = 600) by exact (zval 600 ltac:(lia)). rewrite V in EC, ES. destruct sinh_600 as (S1 & S2).
    assert (P : 0 < bpow radix2 598) by apply bpow_gt_0. assert (H : 2 * bpow radix2 512 <= bpow radix2 598) by (rewrite <- (bpow_plus radix2 1 512 : bpow radix2 (1 + 512) = 2 * bpow radix2 512); apply bpow_le; lia).
    assert (GC : bpow radix2 512 <= B2R (m_cosh L (f64_of_Z 600))) by (apply (half_big _ (cosh 600) d); [exact D|apply bpow_gt_0|lra|exact EC]).
    assert (GS : bpow radix2 512 <= B2R (m_sinh L (f64_of_Z 600))) by (apply (half_big _ (sinh 600) d); [exact D|apply bpow_gt_0|lra|exact ES]).
    pose proof (tan_at L tangent q_tan _ _ _ N N0 (mul_over _ _ FC FS GC GS) (mul_over _ _ FS FS GS GS)) as E. refine (eq_trans E _). clear E.
    change (qscalar q_tan) with (n0 : f64).
    assert (FB : @fb 53 1024 1 (m_cos L n0)) by (split; [exact F0|exact B0]).
    destruct (@fb_mul 53 1024 _ _ 1 1 _ _ FB FB ltac:(lia)) as ((FM & _) & _).
    assert (I : forall c2 : f64, is_finite c2 = true -> nmul (vat (qvector q_tan) 0) (ndiv (B754_infinity false) (nmul (nadd c2 (B754_infinity false)) (f64_of_Z 600))) = (B754_nan : f64)).
    { intros c2 Fc. destruct c2; try discriminate Fc; apply B2SF_inj; vm_compute; reflexivity. }
    apply I. exact FM.
Qed.

(** *** The hypotheses can be met *)
Notation h64 := LCplxFQ.half64.
Notation dd := LCplxFQ.dd.
Definition q_half : quat f64 := qnew h64 h64 n0 n0.
Definition q_pure : quat f64 := qnew n0 h64 n0 n0.
Lemma half_fv : (fvnorm (qvector q_half) : f64) = h64 /\ (fvnorm (qvector q_pure) : f64) = h64 /\ (fqnorm q_pure : f64) = h64.
Proof. conjs; apply B2SF_inj; vm_compute; reflexivity. Qed.
Lemma half_len : rlength 3 (fval (qvector q_half)) = / 2 /\ rlength 3 (fval (qvector q_pure)) = / 2 /\ rlength 4 (fval (q_pure : vec f64 4)) = / 2 /\ rlength 4 (fval (q_half : vec f64 4)) = sqrt 2 * / 2.
Proof.
  pose proof (proj2 LCplxFQ.half_val) as V. assert (L3 : sqrt (0 + B2R h64 * B2R h64 + 0 * 0 + 0 * 0) = / 2).
  { rewrite V. replace (0 + / 2 * / 2 + 0 * 0 + 0 * 0) with (/ 2 * / 2) by lra. apply sqrt_square. lra. }
  split; [exact L3|split; [exact L3|split]].
  - rewrite len4_eq. change (sqrt (0 * 0 + (B2R h64 * B2R h64 + 0 * 0 + 0 * 0)) = / 2). rewrite <- L3. f_equal. ring.
  - rewrite len4_eq. change (sqrt (B2R h64 * B2R h64 + (B2R h64 * B2R h64 + 0 * 0 + 0 * 0)) = sqrt 2 * / 2). rewrite V.
    replace (/ 2 * / 2 + (/ 2 * / 2 + 0 * 0 + 0 * 0)) with (2 * (/ 2 * / 2)) by lra. rewrite sqrt_mult_alt by lra. rewrite sqrt_square by lra. reflexivity.
Qed.

Lemma c139_example :
  let L := cr_libm true : libm f64 in let q := q_half in
  let u := bpow radix2 (- (53)) in let s := B2R (qscalar q) in let v := fval (qvector q) in let n := rlength 3 v in
  0 <= dd <= / 18 /\ all_finite (q : vec f64 4) /\ s = / 2 /\ n = / 2 /\ 1024 * u * n <= 1 /\ exp s <= bpow radix2 (1024 - 7) /\ cosh s <= bpow radix2 (1024 - 7) /\ cosh n <= bpow radix2 (1024 - 7) /\ bpow radix2 (- (60)) <= n /\
  (lib_at dd exp (m_exp L) (qscalar q) /\ lib_at dd cos (m_cos L) (qscalar q) /\ lib_at dd sin (m_sin L) (qscalar q) /\ lib_at dd cosh (m_cosh L) (qscalar q) /\ lib_at dd sinh (m_sinh L) (qscalar q)) /\
  (lib_at dd cos (m_cos L) (fvnorm (qvector q)) /\ lib_at dd sin (m_sin L) (fvnorm (qvector q)) /\ lib_at dd cosh (m_cosh L) (fvnorm (qvector q)) /\ lib_at dd sinh (m_sinh L) (fvnorm (qvector q))).
Proof.
  intros L q u s v n. destruct LCplxFQ.half_val as (FH & VH). destruct half_len as (L3 & _).
  assert (S : s = / 2) by exact VH. assert (N : n = / 2) by exact L3. assert (FV : fvnorm (qvector q) = h64) by exact (proj1 half_fv).
  assert (X1 : Rabs (/ 2) <= 1) by (rewrite Rabs_pos_eq; lra). assert (X2 : / 4 <= Rabs (/ 2) <= 1) by (rewrite Rabs_pos_eq; lra). assert (X3 : Rabs (/ 2) <= 3 / 2) by (rewrite Rabs_pos_eq; lra).
  assert (LC : lib_at dd cos (m_cos L) h64) by (apply LCplxFQ.lib_cos; [exact FH|rewrite VH; apply LCplxFQ.cos_bd; exact X1]).
  assert (LS : lib_at dd sin (m_sin L) h64) by (apply LCplxFQ.lib_sin; [exact FH|rewrite VH; apply LCplxFQ.sin_bd; lra]).
  assert (LCH : lib_at dd cosh (m_cosh L) h64) by (apply LCplxFQ.lib_cosh; [exact FH|rewrite VH; apply (LCplxFQ.cosh_bd _ X1)]).
  assert (LSH : lib_at dd sinh (m_sinh L) h64) by (apply LCplxFQ.lib_sinh; [exact FH|rewrite VH; apply (LCplxFQ.sinh_bd _ X2)]).
  destruct (LCplxFQ.exp_bd _ X3) as (E1 & E2). specialize (E2 X1).
  assert (LE : lib_at dd exp (m_exp L) h64) by (apply LCplxFQ.lib_exp; [exact FH|rewrite VH, Rabs_pos_eq by lra; lra]).
  destruct (LCplxFQ.cosh_bd _ X1) as (_ & CH). assert (B4 : 4 <= bpow radix2 (1024 - 7)) by (apply (bpow_le radix2 2 (1024 - 7)); lia).
  rewrite FV, S, N. change (qscalar q) with h64.
  assert (U : u = / 9007199254740992) by reflexivity. pose proof LCplxFQ.dd_val as DV.
  split; [lra|split; [intros [|[|[|[|i]]]] Hi; try lia; vm_compute; reflexivity|]].
  split; [reflexivity|split; [reflexivity|split; [rewrite U; lra|split; [lra|split; [lra|split; [lra|split]]]]]].
  - apply (bpow_le radix2 (-60) (-1)). lia.
  - conjs; assumption.
Qed.

Lemma c140_example :
  let L := cr_libm true : libm f64 in let d := bpow radix2 (-50) in let u := bpow radix2 (- (53)) in
  ang_lib L cr_acos cr_asin d /\ 0 <= d <= / 64 /\
  (let q := q_pure in let n := rlength 3 (fval (qvector q)) in let r := rlength 4 (fval (q : vec f64 4)) in
   all_finite (q : vec f64 4) /\ 4 * u * r <= 1 /\ r * cos (PI / 2) = B2R (qscalar q) /\ r * sin (PI / 2) = n /\ 3 * u < n /\ 64 * u * (r * r) <= n * n /\ lib_at d ln (m_ln L) (fqnorm q)) /\
  (let q := q_half in let s := B2R (qscalar q) in let n := rlength 3 (fval (qvector q)) in let r := rlength 4 (fval (q : vec f64 4)) in
   all_finite (q : vec f64 4) /\ 4 * u * r <= 1 /\ r * cos (PI / 4) = s /\ r * sin (PI / 4) = n /\ 4 * u <= Rabs s /\ bpow radix2 (- (53 + 1)) <= n /\
   r <= bpow radix2 60 /\ 3 * u < n /\ 256 * u * 1 <= 1 /\ r <= 1 * (r + s)).
Proof.
  intros L d u. destruct LCplxFQ.half_val as (FH & VH). destruct half_len as (A1 & A2 & A3 & A4). destruct half_fv as (_ & _ & FQ).
  assert (U : u = / 9007199254740992) by reflexivity. assert (DV : d = / 1125899906842624) by reflexivity.
  assert (R2 : 1 <= sqrt 2 <= 2).
  { split; [rewrite <- sqrt_1 at 1; apply sqrt_le_1_alt; lra|]. rewrite <- (sqrt_square 2) at 2 by lra. apply sqrt_le_1_alt. lra. }
  split; [|split; [lra|split]].
  - pose proof (cr_ang 53 1024 eq_refl eq_refl true ltac:(lia) ltac:(lia)) as (H1 & H2 & H3). assert (LE : bpow radix2 (2 - 53) <= d) by (apply bpow_le; lia).
    assert (W : forall (x : f64) y, fnear x y (bpow radix2 (2 - 53)) -> fnear x y d) by (intros x y (F & E); split; [exact F|exact (Rle_trans _ _ _ E LE)]).
    split; [|split].
    + intros x F B. destruct (H1 x F B) as (P & Q). split; apply W; assumption.
    + intros y x F F' NZ. destruct (H2 y x F F' NZ) as (phi & P & Q & W'). exists phi. split; [exact P|split; [exact Q|apply W; exact W']].
    + intros x F B. destruct (H3 x F B) as (P & Q). split; apply W; assumption.
  - cbv zeta. rewrite A2, A3. split; [intros [|[|[|[|i]]]] Hi; try lia; vm_compute; reflexivity|]. rewrite U, cos_PI2, sin_PI2.
    split; [lra|split; [change (B2R (qscalar q_pure)) with 0; lra|split; [lra|split; [lra|split; [lra|]]]]].
    rewrite FQ. apply LCplxFQ.lib_ln; [exact FH|rewrite VH; lra|]. rewrite VH. rewrite ln_Rinv by lra. rewrite Rabs_Ropp.
    pose proof ln_lt_2. assert (ln 2 < 1). { rewrite <- (ln_exp 1). apply ln_increasing; [lra|]. pose proof (exp_ineq1 1). lra. } rewrite Rabs_pos_eq by lra. lra.
  - cbv zeta. rewrite A1, A4. split; [intros [|[|[|[|i]]]] Hi; try lia; vm_compute; reflexivity|]. change (qscalar q_half) with h64. rewrite VH, U, cos_PI4, sin_PI4. pose proof sqrt2_neq_0.
    split; [lra|split; [field; assumption|split; [field; assumption|split; [rewrite Rabs_pos_eq; lra|split; [apply (bpow_le radix2 (-54) (-1)); lia|split; [|lra]]]]]].
    assert (2 <= bpow radix2 60) by (apply (bpow_le radix2 1 60); lia). lra.
Qed.
