(** Proofs of the theorems of PQPowF.v. *)

From Coq Require Import List Arith ZArith Bool Lia Reals Lra Psatz.
From Flocq Require Import Core.Core Relative IEEE754.BinarySingleNaN.
From Verif Require Import Base Scalar Spec SpecF SpecRigid SpecLook SpecCplx SpecCR SpecArc SpecAng SpecQFun MVector MMatrix MQuat MFloat MFloatVec MSign MComplexF MRotF MArcF MQFunF
  LBase LVector LFloat LFloatP LFloatVec LTrScF LDegF LArc LArcP LComplexHP LComplexLP LComplexKP LLibmP LNormF LCplxF LCplxFP LBetwQ LAngR LQFunF LQFunG LQFunH LQFunI LQFunR LQFunP LQFunT.
From Verif Require LCplxFQ LReal.
Local Open Scope R_scope.

Lemma c142_power :
  forall (prec emax : Z) (Hp : Prec_gt_0 prec) (He : Prec_lt_emax prec emax) (L : libm (binary_float prec emax)) (arccos arcsin : binary_float prec emax -> binary_float prec emax)
         (d theta : R) (q : quat (binary_float prec emax)) (t : binary_float prec emax),
    let u := bpow radix2 (- prec) in let v := fval (qvector q) in let n := rlength 3 v in let r := rlength 4 (fval (q : vec _ 4)) in let w := qscale (fqln L arccos q) t in
    let T := B2R t in let E := Rabs T * (d * (2 + Rabs (ln r)) + 14 * u / sin theta + 64 * u * (1 + Rabs (ln r))) + u in
    (24 <= prec)%Z -> (2 * prec + 33 <= emax)%Z -> 0 <= d <= / 64 -> ang_lib L arccos arcsin d -> all_finite (q : vec _ 4) -> is_finite t = true -> 4 * u * r <= 1 ->
    0 <= theta <= PI -> r * cos theta = B2R (qscalar q) -> r * sin theta = n -> 3 * u < n -> 64 * u * (r * r) <= n * n -> E <= / 16 -> Rpower r T <= bpow radix2 (emax - 8) ->
    lib_at d ln (m_ln L) (fqnorm q) -> lib_at d exp (m_exp L) (qscalar w) -> lib_at d cos (m_cos L) (fvnorm (qvector w)) -> lib_at d sin (m_sin L) (fvnorm (qvector w)) ->
    qclose (fqpowf L arccos q t) (Rpower r T * cos (T * theta)) (Rpower r T * sin (T * theta)) v ((9 * E + 3 * d + 40 * u) * Rpower r T + bpow radix2 (3 - emax)).
Proof.
  intros prec emax Hp He L arccos arcsin d theta q t u v n r w T E H24 Hr D HL F Ft R TH TC TS N1 N2 E16 PB LN LE LC LS.
  exact (pow_close H24 L arccos arcsin d D HL Hr q F R theta TH TC TS t Ft N1 N2 LN E16 PB LE LC LS).
Qed.

Lemma c142_tangent :
  forall (prec emax : Z) (Hp : Prec_gt_0 prec) (He : Prec_lt_emax prec emax) (L : libm (binary_float prec emax)) (tangent : binary_float prec emax -> binary_float prec emax) (d x y : R) (k : Z)
         (q : quat (binary_float prec emax)),
    let u := bpow radix2 (- prec) in let s := B2R (qscalar q) in let v := fval (qvector q) in let n := rlength 3 v in let e := 5 / 4 * d + 16 * u * (1 + n) in
    (24 <= prec <= k)%Z -> (3 * k + 31 <= emax)%Z -> 0 <= d -> e <= / 64 -> all_finite (q : vec _ 4) -> bpow radix2 (- k) <= n -> cosh n * cosh n * (1 + n) <= bpow radix2 (emax - 3) ->
    lib_at d cos (m_cos L) (qscalar q) -> lib_at d sin (m_sin L) (qscalar q) -> lib_at d cosh (m_cosh L) (fvnorm (qvector q)) -> lib_at d sinh (m_sinh L) (fvnorm (qvector q)) ->
    x * (cos s * cosh n) + y * (sin s * sinh n) = sin s * cosh n -> y * (cos s * cosh n) - x * (sin s * sinh n) = cos s * sinh n ->
    fnear (vget (B754_zero false) (fqtan L tangent q : vec _ 4) 0) x (6 * e * Rabs x + bpow radix2 (2 * k + 4 - emax - prec)) /\
    forall i, (i < 3)%nat -> near_rel (9 * e) (vget (B754_zero false) (fqtan L tangent q : vec _ 4) (S i)) (y * rdir v i).
Proof.
  intros prec emax Hp He L tangent d x y k q u s v n e (H24 & Hk) Hr D E F NK OV A B C G X Y. exact (tan_close H24 L q d k D E F Hk Hr NK tangent x y OV A B C G X Y).
Qed.

Lemma c142_hyperbolic_tangent :
  forall (prec emax : Z) (Hp : Prec_gt_0 prec) (He : Prec_lt_emax prec emax) (L : libm (binary_float prec emax)) (tangenth : binary_float prec emax -> binary_float prec emax) (d x y : R) (k : Z)
         (q : quat (binary_float prec emax)),
    let u := bpow radix2 (- prec) in let s := B2R (qscalar q) in let v := fval (qvector q) in let n := rlength 3 v in
    let D := sinh s * sinh s + cos n * cos n in let m := Rmin 1 (sqrt D) in let e := d + 8 * u * (1 + n) in
    (24 <= prec <= k)%Z -> (3 * k + 31 <= emax)%Z -> 0 <= d -> 64 * e <= m -> all_finite (q : vec _ 4) -> bpow radix2 (- k) <= n -> cosh s * cosh s * (1 + n) <= bpow radix2 (emax - 3) ->
    lib_at d cosh (m_cosh L) (qscalar q) -> lib_at d sinh (m_sinh L) (qscalar q) -> lib_at d cos (m_cos L) (fvnorm (qvector q)) -> lib_at d sin (m_sin L) (fvnorm (qvector q)) ->
    x * (cosh s * cos n) - y * (sinh s * sin n) = sinh s * cos n -> y * (cosh s * cos n) + x * (sinh s * sin n) = cosh s * sin n ->
    fnear (vget (B754_zero false) (fqtanh L tangenth q : vec _ 4) 0) x (9 * (e / m) * Rabs x + bpow radix2 (prec - emax)) /\
    forall i, (i < 3)%nat -> fnear (vget (B754_zero false) (fqtanh L tangenth q : vec _ 4) (S i)) (y * rdir v i) (12 * (e / D) + bpow radix2 (2 - emax - prec)).
Proof.
  intros prec emax Hp He L tangenth d x y k q u s v n D m e (H24 & Hk) Hr D0 E F NK OV A B C G X Y. exact (tanh_close H24 L q d k D0 F Hk Hr NK tangenth x y E OV A B C G X Y).
Qed.

Lemma c142_real :
  forall (prec emax : Z) (Hp : Prec_gt_0 prec) (He : Prec_lt_emax prec emax) (L : libm (binary_float prec emax)) (tangent tangenth : binary_float prec emax -> binary_float prec emax)
         (q : quat (binary_float prec emax)),
    all_finite (q : vec _ 4) -> rlength 3 (fval (qvector q)) = 0 -> let z := B754_zero false in
    (vget z (fqtan L tangent q : vec _ 4) 0 = tangent (qscalar q) /\ vget z (fqtanh L tangenth q : vec _ 4) 0 = tangenth (qscalar q)) /\
    forall i, (i < 3)%nat -> vget z (fqtan L tangent q : vec _ 4) (S i) = z /\ vget z (fqtanh L tangenth q : vec _ 4) (S i) = z.
Proof.
  intros prec emax Hp He L tangent tangenth q F N z.
  assert (Fv : forall i, (i < 3)%nat -> is_finite (vat (qvector q) i) = true) by (intros [|[|[|i]]] Hi; try lia; [exact (F 1%nat ltac:(lia))|exact (F 2%nat ltac:(lia))|exact (F 3%nat ltac:(lia))]).
  destruct (norm_zero (qvector q) Fv N) as (FN & ZN). pose proof (nis0_zero _ FN ZN) as NZ. unfold fqtan, fqtanh. cbv zeta. rewrite NZ. split; [split; reflexivity|].
  intros [|[|[|i]]] Hi; try lia; split; reflexivity.
Qed.

(** *** tanh overflows *)
Lemma tanh_at {prec emax : Z} {Hp : Prec_gt_0 prec} {He : Prec_lt_emax prec emax} (L : libm (binary_float prec emax)) tangenth (q : quat (binary_float prec emax)) (n a b : binary_float prec emax) :
  fvnorm (qvector q) = n -> nis0 n = false -> nmul (m_cosh L (qscalar q)) (m_sinh L (qscalar q)) = a -> nmul (m_sinh L (qscalar q)) (m_sinh L (qscalar q)) = b ->
  vat (fqtanh L tangenth q : vec _ 4) 0 = ndiv a (nadd b (nmul (m_cos L n) (m_cos L n))).
Proof. intros N Z1 A B. unfold fqtanh. cbv zeta. rewrite N, Z1, A, B. destruct q as (q0 & q1 & q2 & q3 & []). reflexivity. Qed.
Definition q_tanh : quat f64 := qnew (f64_of_Z 600) (f64_of_Z 1) n0 n0.

Lemma c140_hyperbolic_tangent_refuted : forall (L : libm f64) (tangenth : f64 -> f64) (d : R), 0 <= d <= / 2 ->
  lib_at d cosh (m_cosh L) (f64_of_Z 600) -> lib_at d sinh (m_sinh L) (f64_of_Z 600) -> fnear (m_cos L (f64_of_Z 1)) (cos 1) d ->
  exists q : quat f64, all_finite (q : vec f64 4) /\ rlength 3 (fval (qvector q)) = 1 /\ B2R (qscalar q) = 600 /\ 0 < cosh 600 * sinh 600 / (sinh 600 * sinh 600 + cos 1 * cos 1) < 2 /\
    vat (fqtanh L tangenth q : vec f64 4) 0 = B754_nan.
Proof.
  intros L tangenth d D (FC & EC) (FS & ES) (F0 & B0). exists q_tanh. assert (V : B2R (f64_of_Z 600) = 600) by exact (zval 600 ltac:(lia)). split; [|split; [|split; [|split]]].
  - intros [|[|[|[|i]]]] Hi; try lia; vm_compute; reflexivity.
  - assert (V1 : B2R (f64_of_Z 1) = 1) by exact (zval 1 ltac:(lia)). change (sqrt (0 + B2R (f64_of_Z 1) * B2R (f64_of_Z 1) + 0 * 0 + 0 * 0) = 1). rewrite V1.
    replace (0 + 1 * 1 + 0 * 0 + 0 * 0) with (1 * 1) by ring. apply sqrt_square. lra.
  - exact V.
  - destruct sinh_600 as (S1 & S2). assert (P : 4 <= bpow radix2 598) by (apply (bpow_le radix2 2 598); lia). pose proof (LReal.cosh2_sinh2 600) as CS. pose proof (Rle_0_sqr (cos 1)) as C0. unfold Rsqr in C0.
    set (ch := cosh 600) in *. set (sh := sinh 600) in *. set (c := cos 1) in *. assert (SS : 0 < sh * sh) by (apply Rmult_lt_0_compat; lra).
    split; [apply Rdiv_lt_0_compat; [apply Rmult_lt_0_compat; lra|lra]|]. apply (Rmult_lt_reg_r (sh * sh + c * c)); [lra|]. unfold Rdiv. rewrite Rmult_assoc, Rinv_l by lra. rewrite Rmult_1_r.
    assert (4 * 4 <= sh * sh) by (apply Rmult_le_compat; lra). assert (C2 : ch * ch = 1 * 1 + sh * sh) by lra. assert (ch < 2 * sh) by nra. assert (ch * sh < 2 * sh * sh) by (apply Rmult_lt_compat_r; lra). lra.
  - assert (N : (fvnorm (qvector q_tanh) : f64) = f64_of_Z 1) by (apply B2SF_inj; vm_compute; reflexivity).
    assert (N0 : nis0 (f64_of_Z 1) = false) by (vm_compute; reflexivity).
    rewrite V in EC, ES. destruct sinh_600 as (S1 & S2).
    assert (P : 0 < bpow radix2 598) by apply bpow_gt_0. assert (H : 2 * bpow radix2 512 <= bpow radix2 598) by (rewrite <- (bpow_plus radix2 1 512 : bpow radix2 (1 + 512) = 2 * bpow radix2 512); apply bpow_le; lia).
    assert (GC : bpow radix2 512 <= B2R (m_cosh L (f64_of_Z 600))) by (apply (half_big _ (cosh 600) d); [exact D|apply bpow_gt_0|lra|exact EC]).
    assert (GS : bpow radix2 512 <= B2R (m_sinh L (f64_of_Z 600))) by (apply (half_big _ (sinh 600) d); [exact D|apply bpow_gt_0|lra|exact ES]).
    pose proof (tanh_at L tangenth q_tanh _ _ _ N N0 (mul_over _ _ FC FS GC GS) (mul_over _ _ FS FS GS GS)) as E. refine (eq_trans E _). clear E.
    assert (FB : @fb 53 1024 1 (m_cos L (f64_of_Z 1))).
    { split; [exact F0|]. change (bpow radix2 1) with 2. pose proof (COS_bound 1) as CB. apply Rabs_le_inv in B0. apply Rabs_le.
      assert (W : forall x : R, - d <= x - cos 1 <= d -> - 2 <= x <= 2) by (intros; lra). apply W. exact B0. }
    destruct (@fb_mul 53 1024 _ _ 1 1 _ _ FB FB ltac:(lia)) as ((FM & _) & _).
    assert (I : forall c2 : f64, is_finite c2 = true -> ndiv (B754_infinity false) (nadd (B754_infinity false) c2) = (B754_nan : f64)).
    { intros c2 Fc. destruct c2; try discriminate Fc; apply B2SF_inj; vm_compute; reflexivity. }
    apply I. exact FM.
Qed.

(** *** The hypotheses can be met *)
Notation h64 := LCplxFQ.half64.
Notation dd := LCplxFQ.dd.

Lemma exp_range (x : R) : Rabs x <= 1 -> / 1000000 <= Rabs (exp x) <= 4.
Proof. intros B. destruct (LCplxFQ.exp_bd x ltac:(lra)) as (Q1 & Q2). specialize (Q2 B). rewrite Rabs_pos_eq by lra. lra. Qed.

Lemma c142_example :
  let L := cr_libm true : libm f64 in let d := bpow radix2 (-50) in let u := bpow radix2 (- (53)) in
  (let q := q_pure in let t := ndiv (f64_of_Z 1) (f64_of_Z 2) in let T := B2R t in let theta := PI / 2 in
   let n := rlength 3 (fval (qvector q)) in let r := rlength 4 (fval (q : vec f64 4)) in let w := qscale (fqln L cr_acos q) t in
   let E := Rabs T * (d * (2 + Rabs (ln r)) + 14 * u / sin theta + 64 * u * (1 + Rabs (ln r))) + u in
   ang_lib L cr_acos cr_asin d /\ all_finite (q : vec f64 4) /\ is_finite t = true /\ T = / 2 /\ r = / 2 /\ 4 * u * r <= 1 /\ r * cos theta = B2R (qscalar q) /\ r * sin theta = n /\ 3 * u < n /\ 64 * u * (r * r) <= n * n /\
   E <= / 16 /\ Rpower r T <= bpow radix2 (1024 - 8) /\
   lib_at d ln (m_ln L) (fqnorm q) /\ lib_at d exp (m_exp L) (qscalar w) /\ lib_at d cos (m_cos L) (fvnorm (qvector w)) /\ lib_at d sin (m_sin L) (fvnorm (qvector w))) /\
  (let q := q_half in let s := B2R (qscalar q) in let n := rlength 3 (fval (qvector q)) in let D := sinh s * sinh s + cos n * cos n in
   5 / 4 * d + 16 * u * (1 + n) <= / 64 /\ 64 * (d + 8 * u * (1 + n)) <= Rmin 1 (sqrt D) /\ all_finite (q : vec f64 4) /\ bpow radix2 (- (60)) <= n /\
   cosh n * cosh n * (1 + n) <= bpow radix2 (1024 - 3) /\ cosh s * cosh s * (1 + n) <= bpow radix2 (1024 - 3) /\
   exists x y, x * (cos s * cosh n) + y * (sin s * sinh n) = sin s * cosh n /\ y * (cos s * cosh n) - x * (sin s * sinh n) = cos s * sinh n).
Proof.
  intros L d u. destruct c140_example as (AL & D64 & (F1 & R1 & C1 & S1 & N1 & NN1 & LN) & _). destruct c139_example as (_ & F2 & S2 & N2 & _). fold L in AL, LN.
  destruct half_len as (A1 & A2 & A3 & A4). destruct LCplxFQ.half_val as (FH & VH). pose proof PI_digits as PD.
  assert (U : u = / 9007199254740992) by reflexivity. assert (DV : d = / 1125899906842624) by reflexivity.
  assert (L2 : 0 < ln 2 < 1). { pose proof ln_lt_2. split; [lra|]. rewrite <- (ln_exp 1). apply ln_increasing; [lra|]. pose proof (exp_ineq1 1). lra. }
  assert (LR : ln (/ 2) = - ln 2) by (apply ln_Rinv; lra).
  split.
  - cbv zeta. change (ndiv (f64_of_Z 1) (f64_of_Z 2)) with h64.
    set (E := Rabs (B2R h64) * (d * (2 + Rabs (ln (rlength 4 (fval (q_pure : vec f64 4))))) + 14 * u / sin (PI / 2) + 64 * u * (1 + Rabs (ln (rlength 4 (fval (q_pure : vec f64 4)))))) + u).
    assert (EV : E <= 2 * d + 80 * u).
    { unfold E. rewrite A3, VH, LR, Rabs_Ropp, sin_PI2, (Rabs_pos_eq (/ 2)), (Rabs_pos_eq (ln 2)) by lra. rewrite DV, U. lra. }
    assert (E16 : E <= / 16) by lra.
    destruct (@pow_parts 53 1024 _ _ ltac:(lia) L cr_acos cr_asin d D64 AL ltac:(lia) q_pure F1 R1 (PI / 2) ltac:(lra) C1 S1 h64 FH N1 NN1 LN E16) as ((G0 & W0) & W1).
    set (w := qscale (fqln L cr_acos q_pure) h64) in *. 
    assert (W0' : Rabs (B2R (qscalar w) - B2R h64 * ln (rlength 4 (fval (q_pure : vec f64 4)))) <= E) by exact W0. rewrite A3, VH, LR in W0'. clear W0.
    assert (LE : lib_at d exp (m_exp L) (qscalar w)).
    { apply LCplxFQ.lib_exp; [exact G0|]. apply Rabs_le_inv in W0'. assert (B : Rabs (B2R (qscalar w)) <= 1) by (apply Rabs_le; lra).
      exact (exp_range _ B). }
    (* the vector part is about pi / 4 along i *)
    assert (DR : rdir (fval (qvector q_pure)) 0 = 1 /\ rdir (fval (qvector q_pure)) 1 = 0 /\ rdir (fval (qvector q_pure)) 2 = 0).
    { unfold rdir. rewrite A2. change (fval (qvector q_pure) 0) with (B2R h64). change (fval (qvector q_pure) 1) with 0. change (fval (qvector q_pure) 2) with 0. rewrite VH. repeat split; field. }
    destruct DR as (DR0 & DR1 & DR2). destruct (W1 0%nat ltac:(lia)) as (G1 & X1). destruct (W1 1%nat ltac:(lia)) as (G2 & X2). destruct (W1 2%nat ltac:(lia)) as (G3 & X3). 
    set (x := fval (qvector w)). assert (Y1 : Rabs (x 0%nat - B2R h64 * (PI / 2 * rdir (fval (qvector q_pure)) 0)) <= E) by exact X1. rewrite DR0, VH in Y1. assert (Y2 : Rabs (x 1%nat - B2R h64 * (PI / 2 * rdir (fval (qvector q_pure)) 1)) <= E) by exact X2. rewrite DR1, VH in Y2. assert (Y3 : Rabs (x 2%nat - B2R h64 * (PI / 2 * rdir (fval (qvector q_pure)) 2)) <= E) by exact X3. rewrite DR2, VH in Y3.
    apply Rabs_le_inv in Y1, Y2, Y3.
    assert (E0 : 0 <= E) by lra. assert (NB : 7 / 10 <= rlength 3 x <= 8 / 10).
    { assert (Q : rlength 3 x * rlength 3 x = x 0%nat * x 0%nat + x 1%nat * x 1%nat + x 2%nat * x 2%nat).
      { unfold rlength. rewrite sqrt_sqrt; [change (0 + x 0%nat * x 0%nat + x 1%nat * x 1%nat + x 2%nat * x 2%nat = x 0%nat * x 0%nat + x 1%nat * x 1%nat + x 2%nat * x 2%nat); ring|].
        change (0 <= 0 + x 0%nat * x 0%nat + x 1%nat * x 1%nat + x 2%nat * x 2%nat). pose proof (Rle_0_sqr (x 0%nat)). pose proof (Rle_0_sqr (x 1%nat)). pose proof (Rle_0_sqr (x 2%nat)). unfold Rsqr in *. lra. }
      assert (P : 0 <= rlength 3 x) by apply sqrt_pos. assert (ES : E <= / 1000000) by lra. set (l := rlength 3 x) in *. clearbody l.
      assert (Z1 : 78 / 100 <= x 0%nat <= 79 / 100) by lra. assert (Z2 : - / 1000 <= x 1%nat <= / 1000) by lra. assert (Z3 : - / 1000 <= x 2%nat <= / 1000) by lra. set (a := x 0%nat) in *. set (b := x 1%nat) in *. set (c := x 2%nat) in *. clearbody a b c.
      clear - Q P Z1 Z2 Z3. split; nra. }
    assert (Fw : forall i, (i < 3)%nat -> is_finite (vat (qvector w) i) = true) by (intros [|[|[|i]]] Hi; try lia; assumption).
    assert (K : bpow radix2 (- (60)) <= rlength 3 x <= bpow radix2 60).
    { split; [apply (Rle_trans _ (/ 2)); [apply (bpow_le radix2 (-60) (-1)); lia|lra]|apply (Rle_trans _ 1); [lra|apply (bpow_le radix2 0 60); lia]]. }
    destruct (c97_any 53 1024 _ _ 3 60 (qvector w) ltac:(lia) ltac:(lia) ltac:(lia) ltac:(lia) Fw K) as ((FN & EN) & _).
    assert (EN' : Rabs (B2R (fvnorm (qvector w)) - rlength 3 x) <= 8 * u * rlength 3 x) by exact EN. apply Rabs_le_inv in EN'. rewrite U in EN'.
    assert (NW : 6 / 10 <= B2R (fvnorm (qvector w)) <= 9 / 10) by lra. assert (X5 : Rabs (B2R (fvnorm (qvector w))) <= 1) by (apply Rabs_le; lra).
    assert (LC : lib_at d cos (m_cos L) (fvnorm (qvector w))) by (apply LCplxFQ.lib_cos; [exact FN|apply LCplxFQ.cos_bd; exact X5]).
    assert (LS : lib_at d sin (m_sin L) (fvnorm (qvector w))) by (apply LCplxFQ.lib_sin; [exact FN|apply LCplxFQ.sin_bd; lra]).
    split; [exact AL|]. split; [exact F1|]. split; [exact FH|]. split; [exact VH|]. split; [exact A3|]. split; [exact R1|]. split; [exact C1|]. split; [exact S1|]. split; [exact N1|]. split; [exact NN1|]. split; [exact E16|].
    split; [|split; [exact LN|split; [exact LE|split; [exact LC|exact LS]]]].
    rewrite A3, VH. unfold Rpower. rewrite LR. apply (Rle_trans _ 1); [|apply (bpow_le radix2 0 (1024 - 8)); lia]. rewrite <- exp_0. left. apply exp_increasing. lra.
  - cbv zeta. cbv zeta in S2, N2. rewrite N2, S2. assert (X1 : Rabs (/ 2) <= 1) by (rewrite Rabs_pos_eq; lra). destruct (LCplxFQ.cosh_bd _ X1) as (_ & CH). pose proof (cosh_ge1 (/ 2)) as CH1.
    assert (B4 : 16 <= bpow radix2 (1024 - 3)) by (apply (bpow_le radix2 4 (1024 - 3)); lia). assert (CC : cosh (/ 2) * cosh (/ 2) <= 3 * 3) by (apply Rmult_le_compat; lra).
    split; [rewrite U, DV; lra|]. split; [|split; [exact F2|split; [apply (bpow_le radix2 (-60) (-1)); lia|split; [lra|split; [lra|]]]]].
    + pose proof (LCplxFQ.cos_ge (/ 2)) as CG. assert (C8 : 1 / 2 <= cos (/ 2)) by lra. assert (SQ : / 2 <= sqrt (sinh (/ 2) * sinh (/ 2) + cos (/ 2) * cos (/ 2))).
      { rewrite <- (sqrt_square (/ 2)) at 1 by lra. apply sqrt_le_1_alt. pose proof (Rle_0_sqr (sinh (/ 2))) as Q. unfold Rsqr in Q. nra. }
      apply Rmin_glb; rewrite U, DV; lra.
    + set (c := cos (/ 2)). set (t := sin (/ 2)). set (ch := cosh (/ 2)) in *. set (sh := sinh (/ 2)). assert (H : 0 < c * c + sh * sh).
      { pose proof (LCplxFQ.cos_ge (/ 2)) as CG. fold c in CG. pose proof (Rle_0_sqr sh) as Q. unfold Rsqr in Q. nra. }
      assert (CS : ch * ch = 1 + sh * sh) by apply cosh_sinh2. pose proof (sin2_cos2 (/ 2)) as SC. unfold Rsqr in SC. fold c t in SC. assert (T2 : t * t = 1 - c * c) by lra.
      exists (c * t / (c * c + sh * sh)), (ch * sh / (c * c + sh * sh)).
      split; apply (Rmult_eq_reg_r (c * c + sh * sh)); try lra.
      * replace ((c * t / (c * c + sh * sh) * (c * ch) + ch * sh / (c * c + sh * sh) * (t * sh)) * (c * c + sh * sh)) with (t * ch * (c * c + sh * sh)) by (field; lra). ring.
      * replace ((ch * sh / (c * c + sh * sh) * (c * ch) - c * t / (c * c + sh * sh) * (t * sh)) * (c * c + sh * sh)) with (c * sh * (ch * ch - t * t)) by (field; lra). rewrite CS, T2. ring.
Qed.
