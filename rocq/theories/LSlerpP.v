(** Interpolation of quaternions in floats: statements. *)

From Coq Require Import List Arith ZArith Bool Lia Reals Lra Psatz.
From Flocq Require Import Core.Core IEEE754.BinarySingleNaN.
From Verif Require Import Base Scalar Spec SpecF SpecRigid SpecSlerp LBase MVector MQuat LVector MFloat LFloat LFloatP MFloatVec LFloatVec LTrScF LAngleFP
  MSign MComplexF MRotF MArcF LArcP LDriftM LRigidF LQMatF LSlerp LSlerpG LSlerpF LSlerpS LSlerpW.
Local Open Scope R_scope.

Section SlerpP.
Context {prec emax : Z} {Hp : Prec_gt_0 prec} {He : Prec_lt_emax prec emax}.
Notation fl := (binary_float prec emax).
Notation u := (bpow radix2 (- prec)).
Hypothesis H24 : (24 <= prec)%Z.
Hypothesis Hrange : (2 * prec + 31 <= emax)%Z.
Variables (L : libm fl) (arccos : fl -> fl) (d : R).
Hypothesis Hd : u <= d <= / 65536.
Hypothesis HL : accurate_arc L arccos d.
Variable a : fl.
Hypothesis Fa : is_finite a = true.
Hypothesis Ba : 0 <= B2R a <= 1.

(** The part of [slerp] after the choice of sign. *)
Definition arc_part (r q : quat fl) (c : fl) : quat fl :=
  let sin_half_theta := fsqrt (nsub n1 (nmul c c)) in
  let half_theta := arccos c in
  let a' := ndiv (m_sin L (nmul (nsub n1 a) half_theta)) sin_half_theta in
  let b' := ndiv (m_sin L (nmul a half_theta)) sin_half_theta in
  qfrom_parts (nadd (nmul (qscalar r) a') (nmul (qscalar q) b')) (vadd (vmul_s (qvector r) a') (vmul_s (qvector q) b')).
Definition tail (r q : quat fl) (thr : fl) : quat fl :=
  let c := qdot r q in
  if Bleb n1 (fabs c) then r
  else if Bltb (fabs (fsqrt (nsub n1 (nmul c c)))) thr then fqnlerp r q a else arc_part r q c.

Section Pair.
Variables P Q : nat -> R.
Hypothesis HP : rlength 4 P = 1.
Hypothesis HQ : rlength 4 Q = 1.
Variables r q : vec fl 4.
Hypothesis nr : forall i, (i < 4)%nat -> fnear (vat r i) (P i) d.
Hypothesis nq : forall i, (i < 4)%nat -> fnear (vat q i) (Q i) d.
Hypothesis Hc0 : - (24 * d) <= dot4 P Q.
Notation c0 := (dot4 P Q).
Notation c := (qdot r q : fl).

Lemma c_facts : is_finite c = true /\ Rabs (B2R c - c0) <= 24 * d /\ c0 <= 1 /\ - (48 * d) <= B2R c.
Proof.
  destruct (dot_near H24 d Hd P Q HP HQ r q nr nq) as (F & E). pose proof (Rabs_le_inv _ _ E).
  split; [exact F|]. split; [exact E|]. split; [exact (dot_le_1 P Q HP HQ)|lra].
Qed.

Lemma arc_near rho : B2R c < 1 -> u <= 9 / 8 * rho -> rho <= / 16 -> (u <= rho * (1 - B2R c) \/ 1 - B2R c <= rho) ->
  forall i, (i < 4)%nat -> fnear (vat (arc_part r q c : vec fl 4) i) (great_circle P Q (B2R a) i) (232 * d + 11 * rho).
Proof.
  intros C1 R1 R2 R3 i Hi. destruct c_facts as (Fc & Ec & B0 & Cl). pose proof (u_small H24) as Hu.
  assert (Bc : - / 8 <= B2R c < 1) by lra. assert (Bc0 : - / 8 <= c0 <= 1) by lra. set (t := B2R a) in *.
  rewrite great_weight by (assumption || lra).
  assert (W : forall tau (v : fl), 0 <= tau <= 1 -> fnear v tau u ->
    fnear (ndiv (m_sin L (nmul v (arccos c))) (fsqrt (nsub n1 (nmul c c))) : fl) (weight tau c0) (111 * d + 55 / 10 * rho) /\ Rabs (weight tau c0) <= 9 / 8).
  { intros tau v T V. destruct (weight_quo H24 Hrange L arccos d Hd HL c Fc Bc tau T v V rho R1 R2 R3) as (F & E).
    pose proof (weight_near tau T (B2R c) c0 (conj (proj1 Bc) (Rlt_le _ _ (proj2 Bc))) Bc0) as N. pose proof (weight_range tau T c0 Bc0) as W. split; [|rewrite Rabs_pos_eq; lra].
    split; [exact F|]. match goal with |- Rabs (?x - _) <= _ => replace (x - weight tau c0) with ((x - weight tau (B2R c)) + (weight tau (B2R c) - weight tau c0)) by ring end.
    eapply Rle_trans; [apply Rabs_triang|]. lra. }
  destruct (W (1 - t) (nsub n1 a) ltac:(lra) (co_near H24 a Fa Ba)) as (WA & BA).
  assert (na : fnear a t u) by (eapply n_weak; [exact (n_self a Fa)|lra]).
  destruct (W t a Ba na) as (WB & BB). clear W.
  set (A := ndiv (m_sin L (nmul (nsub n1 a) (arccos c))) (fsqrt (nsub n1 (nmul c c))) : fl) in *.
  set (B := ndiv (m_sin L (nmul a (arccos c))) (fsqrt (nsub n1 (nmul c c))) : fl) in *.
  replace (vat (arc_part r q c : vec fl 4) i) with (nadd (nmul (vat r i) A) (nmul (vat q i) B) : fl)
    by (destruct i as [|[|[|[|i]]]]; [reflexivity..|exfalso; lia]).
  set (E := 111 * d + 55 / 10 * rho) in *. assert (E0 : 0 <= E <= 346 / 1000) by (unfold E; lra).
  pose proof (unit4_comp P i HP Hi) as BP. pose proof (unit4_comp Q i HQ Hi) as BQ.
  assert (DE : d * E <= d * (346 / 1000)) by (apply Rmult_le_compat_l; lra).
  assert (DE2 : d * E <= / 65536 * E) by (apply Rmult_le_compat_r; lra).
  assert (BD : (1 + d) * (9 / 8 + E) <= 1472 / 1000) by lra.
  assert (DE0 : 0 <= d * E) by (apply Rmult_le_pos; lra).
  assert (UD : ((1 + d) * (9 / 8 + E) + / 4096) * u <= 1473 / 1000 * d) by (apply Rmult_le_compat; lra).
  assert (M : forall (x y : fl) r s, fnear x r d -> fnear y s E -> Rabs r <= 1 -> Rabs s <= 9 / 8 -> fnear (nmul x y) (s * r) (E + 295 / 100 * d) /\ Rabs (s * r) <= 9 / 8).
  { intros x y r' s' Hx Hy Hr Hs. rewrite (Rmult_comm s'). split.
    - eapply n_weak; [apply (n_prod H24 x y r' s' d E 1 (9 / 8) Hx Hy Hr Hs); lra|]. lra.
    - rewrite Rabs_mult. replace (9 / 8) with (1 * (9 / 8)) by lra. apply Rmult_le_compat; try apply Rabs_pos; assumption. }
  destruct (M _ _ _ _ (nr i Hi) WA BP BA) as (M1 & B1). destruct (M _ _ _ _ (nq i Hi) WB BQ BB) as (M2 & B2). clear M.
  eapply n_weak; [apply (n_add H24 _ _ _ _ _ _ (295 / 100) M1 M2)|]; [|lra|unfold E; lra].
  eapply Rle_trans; [apply Rabs_triang|]. pose proof (n_abs _ _ _ _ M1 B1). pose proof (n_abs _ _ _ _ M2 B2). lra.
Qed.

Variable thr : fl.
Hypothesis Ft : is_finite thr = true.

Lemma sqrt_small x y : 0 <= y -> x <= y * y -> sqrt x <= y.
Proof. intros Y H. apply Rle_trans with (sqrt (y * y)); [apply sqrt_le_1_alt; exact H|]. rewrite sqrt_square by exact Y. lra. Qed.

Lemma tail_near : 0 <= B2R thr <= / 2 ->
  forall i, (i < 4)%nat -> fnear (vat (tail r q thr : vec fl 4) i) (great_circle P Q (B2R a) i) (12 * sqrt d + 5 * (B2R thr * B2R thr)).
Proof.
  intros Bt i Hi. destruct c_facts as (Fc & Ec & B0 & Cl). pose proof (u_small H24) as Hu. pose proof (Rabs_le_inv _ _ Ec) as Ec'.
  set (T := B2R thr) in *. assert (T2 : 0 <= T * T <= / 4) by (split; [apply Rle_0_sqr|replace (/ 4) with (/ 2 * / 2) by lra; apply Rmult_le_compat; lra]).
  assert (Qs : sqrt d * sqrt d = d) by (apply sqrt_sqrt; lra). assert (Qp : 0 < sqrt d) by (apply sqrt_lt_R0; lra).
  assert (Ql : sqrt d <= / 256) by (apply sqrt_small; lra).
  assert (Qd : d <= / 256 * sqrt d) by (rewrite <- Qs at 1; apply Rmult_le_compat_r; lra).
  destruct one_val as (F1 & V1). destruct (fabs_R c) as (VA & FA).
  unfold tail. cbv zeta. rewrite Bleb_correct by (rewrite ?FA; assumption). rewrite V1, VA. case Rle_bool_spec; intros K.
  { assert (C1 : 1 <= B2R c) by (destruct (Rcase_abs (B2R c)) as [N|N]; [rewrite Rabs_left in K by exact N; lra|rewrite Rabs_right in K by exact N; exact K]).
    destruct (nr i Hi) as (F & E). split; [exact F|]. pose proof (great_end P Q HP HQ (B2R a) i Ba ltac:(lra) Hi) as G.
    assert (Z : sqrt (2 * (1 - c0)) <= 7 * sqrt d) by (apply sqrt_small; lra).
    match goal with |- Rabs (?x - ?y) <= _ => replace (x - y) with ((x - P i) + (P i - y)) by ring end.
    eapply Rle_trans; [apply Rabs_triang|]. lra. }
  assert (C1 : B2R c < 1) by (apply Rle_lt_trans with (2 := K), Rle_abs).
  set (rho := sqrt u). assert (Rs : rho * rho = u) by (apply sqrt_sqrt; lra). assert (R0 : 0 < rho) by (apply sqrt_lt_R0; lra).
  assert (Rl : rho <= / 4096) by (apply sqrt_small; lra). assert (Rd : rho <= sqrt d) by (apply sqrt_le_1_alt; lra).
  assert (R1 : u <= 9 / 8 * rho) by (rewrite <- Rs; apply Rmult_le_compat_r; lra). assert (R2 : rho <= / 16) by lra.
  assert (R3 : u <= rho * (1 - B2R c) \/ 1 - B2R c <= rho).
  { destruct (Rle_lt_dec (1 - B2R c) rho) as [X|X]; [right; exact X|left; rewrite <- Rs; apply Rmult_le_compat_l; lra]. }
  assert (Bc : - / 8 <= B2R c < 1) by lra.
  destruct (sin_near H24 Hrange c Fc Bc rho R1 R2 R3) as (Fs & Es). destruct (S0_pos H24 Hrange c Bc) as (SP & _ & _).
  set (S := fsqrt (nsub n1 (nmul c c) : fl)) in *. destruct (fabs_R S) as (VS & FS).
  assert (RS : rho * S0 c <= / 4096 * S0 c) by (apply Rmult_le_compat_r; lra). pose proof (Rabs_le_inv _ _ Es) as Es'.
  rewrite Bltb_correct by (rewrite ?FS; assumption). rewrite VS, (Rabs_pos_eq (B2R S)) by lra. fold T. case Rlt_bool_spec; intros KS.
  2:{ eapply n_weak; [apply (arc_near rho C1 R1 R2 R3 i Hi)|]. lra. }
  assert (ST : S0 c <= 1002 / 1000 * T) by lra.
  assert (WT : 1 - B2R c * B2R c <= 1005 / 1000 * (T * T)).
  { rewrite <- (S0_sq H24 Hrange c Bc). apply Rle_trans with ((1002 / 1000 * T) * (1002 / 1000 * T)); [apply Rmult_le_compat; lra|]. lra. }
  assert (C86 : 86 / 100 <= B2R c).
  { destruct (Rle_lt_dec (86 / 100) (B2R c)) as [X|X]; [exact X|exfalso].
    assert (Rabs (B2R c) <= 86 / 100) by (apply Rabs_le; lra).
    assert (B2R c * B2R c <= 86 / 100 * (86 / 100)); [|lra].
    replace (B2R c * B2R c) with (Rabs (B2R c) * Rabs (B2R c)) by (rewrite <- Rabs_mult; apply Rabs_pos_eq, Rle_0_sqr).
    apply Rmult_le_compat; try apply Rabs_pos; assumption. }
  assert (ET : 1 - B2R c <= 55 / 100 * (T * T)).
  { assert ((186 / 100) * (1 - B2R c) <= (1 + B2R c) * (1 - B2R c)) by (apply Rmult_le_compat_r; lra). lra. }
  assert (c2 : / 2 <= c0) by lra.
  pose proof (chord_great P Q HP HQ (B2R a) i Ba c2 Hi) as CG. set (s := rlength 4 (chord P Q (B2R a))) in *.
  assert (s2 : 86 / 100 <= s).
  { pose proof (chord_sq P Q HP HQ (B2R a)) as CS. fold s in CS. assert (sp : 0 <= s) by apply sqrt_pos.
    assert (B2R a * (1 - B2R a) <= / 4) by (pose proof (Rle_0_sqr (B2R a - / 2)) as Z; unfold Rsqr in Z; lra).
    assert (2 * (B2R a * (1 - B2R a)) * (1 - c0) <= / 2 * / 2) by (apply Rmult_le_compat; [|lra..]; apply Rmult_le_pos; [lra|apply Rmult_le_pos; lra]).
    destruct (Rle_lt_dec (86 / 100) s) as [X|X]; [exact X|exfalso].
    assert (s * s <= 86 / 100 * (86 / 100)) by (apply Rmult_le_compat; lra). lra. }
  destruct (nlerp_near H24 Hrange d Hd P Q HP HQ r q nr nq a Fa Ba s eq_refl ltac:(lra) i Hi) as (F & E). split; [exact F|].
  assert (36 * d / s <= 42 * d).
  { apply (Rmult_le_reg_r s); [lra|]. replace (36 * d / s * s) with (36 * d) by (field; lra).
    assert (42 * d * (86 / 100) <= 42 * d * s) by (apply Rmult_le_compat_l; lra). lra. }
  match goal with |- Rabs (?x - ?y) <= _ => replace (x - y) with ((x - chord P Q (B2R a) i / s) + (chord P Q (B2R a) i / s - y)) by ring end.
  eapply Rle_trans; [apply Rabs_triang|]. lra.
Qed.

Lemma tail_apart kap : kap <= 1 - c0 -> 48 * d <= kap -> B2R thr * B2R thr <= kap / 4 ->
  forall i, (i < 4)%nat -> fnear (vat (tail r q thr : vec fl 4) i) (great_circle P Q (B2R a) i) (232 * d + 22 * u / kap).
Proof.
  intros K1 K2 K3 i Hi. destruct c_facts as (Fc & Ec & B0 & Cl). pose proof (u_small H24) as Hu. pose proof (Rabs_le_inv _ _ Ec) as Ec'.
  set (T := B2R thr) in *. destruct one_val as (F1 & V1). destruct (fabs_R c) as (VA & FA).
  unfold tail. cbv zeta. rewrite Bleb_correct by (rewrite ?FA; assumption). rewrite V1, VA. case Rle_bool_spec; intros K.
  { exfalso. destruct (Rcase_abs (B2R c)) as [N|N]; [rewrite Rabs_left in K by exact N; lra|rewrite Rabs_right in K by exact N; lra]. }
  assert (C1 : B2R c < 1) by (apply Rle_lt_trans with (2 := K), Rle_abs). assert (Bc : - / 8 <= B2R c < 1) by lra.
  assert (EK : kap / 2 <= 1 - B2R c) by lra. assert (k0 : 0 < kap) by lra.
  set (rho := 2 * u / kap). assert (RK : rho * kap = 2 * u) by (unfold rho; field; lra).
  assert (R0 : 0 < rho) by (unfold rho; apply Rmult_lt_0_compat; [lra|apply Rinv_0_lt_compat; lra]).
  assert (R1 : u <= 9 / 8 * rho).
  { assert (rho * kap <= rho * (1 + 24 * d)) by (apply Rmult_le_compat_l; lra). assert (rho * d <= rho * / 65536) by (apply Rmult_le_compat_l; lra). lra. }
  assert (R2 : rho <= / 24).
  { apply (Rmult_le_reg_r kap); [exact k0|]. rewrite RK. lra. }
  assert (R3 : u <= rho * (1 - B2R c) \/ 1 - B2R c <= rho).
  { left. assert (rho * (kap / 2) <= rho * (1 - B2R c)) by (apply Rmult_le_compat_l; lra). lra. }
  destruct (sin_near H24 Hrange c Fc Bc rho R1 ltac:(lra) R3) as (Fs & Es). destruct (S0_pos H24 Hrange c Bc) as (SP & _ & _).
  set (S := fsqrt (nsub n1 (nmul c c) : fl)) in *. destruct (fabs_R S) as (VS & FS).
  assert (RS : rho * S0 c <= / 24 * S0 c) by (apply Rmult_le_compat_r; lra). pose proof (Rabs_le_inv _ _ Es) as Es'.
  rewrite Bltb_correct by (rewrite ?FS; assumption). rewrite VS, (Rabs_pos_eq (B2R S)) by lra. fold T. case Rlt_bool_spec; intros KS.
  2:{ eapply n_weak; [apply (arc_near rho C1 R1 ltac:(lra) R3 i Hi)|]. unfold rho. right. field. lra. }
  exfalso. assert (ST : S0 c <= 119 / 100 * T) by lra.
  assert (WT : 1 - B2R c * B2R c <= 142 / 100 * (T * T)).
  { rewrite <- (S0_sq H24 Hrange c Bc). apply Rle_trans with ((119 / 100 * T) * (119 / 100 * T)); [apply Rmult_le_compat; lra|]. pose proof (Rle_0_sqr T) as Z. unfold Rsqr in Z. lra. }
  assert ((7 / 8) * (1 - B2R c) <= (1 + B2R c) * (1 - B2R c)) by (apply Rmult_le_compat_r; lra). lra.
Qed.
End Pair.
End SlerpP.
