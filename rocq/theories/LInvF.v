(** Hyperbolic arc sine, arc cosine and hyperbolic arc tangent of a complex number in floats: the theorems. *)

From Coq Require Import List Arith ZArith Bool Lia Reals Lra Psatz.
From Flocq Require Import Core.Core Relative IEEE754.BinarySingleNaN.
From Verif Require Import Base Scalar Spec SpecF SpecCplx SpecInv MReal MVector MFloat MFloatVec MSign MComplex MComplexF
  LBase LVector LReal LFloat LFloatP LFloatVec LComplexHP LComplexIP LComplexLP LTrScF LSlerpS LDegF LCplxF LCplxFP LInvA LInvB LInvC LInvD LInvE.
Local Open Scope R_scope.

Section E.
Context {prec emax : Z} {Hp : Prec_gt_0 prec} {He : Prec_lt_emax prec emax}.
Notation fl := (binary_float prec emax).
Notation u := (bpow radix2 (- prec)).
Notation tiny := (bpow radix2 (2 - emax - prec)).
Notation fexp := (FLT_exp (3 - emax - prec) prec).
Notation rnd := (round radix2 fexp ZnearestE).
Hypothesis H24 : (24 <= prec)%Z.
Variable L : libm fl.
Variable d : R.
Hypothesis Hd : u <= d <= / 65536.
Notation zx z := (B2R (re z)).
Notation zy z := (B2R (im z)).

Lemma one_fl : is_finite (n1 : fl) = true /\ B2R (n1 : fl) = 1 /\ is_finite (n0 : fl) = true /\ B2R (n0 : fl) = 0.
Proof. destruct (@fbone prec emax _ _) as (V1 & Fo & _). split; [exact Fo|]. split; [exact V1|]. split; reflexivity. Qed.

Lemma rt_axis x : 0 <= x -> rt_im x 0 = 0.
Proof.
  intros X. unfold rt_im. assert (E : ratan2 0 x = 0).
  { unfold ratan2. destruct (Rlt_dec 0 x) as [P|P]; [replace (0 / x) with 0 by (field; lra); apply atan_0|]. destruct (Rlt_dec x 0); [lra|]. repeat destruct Rlt_dec; lra. }
  rewrite E. replace (0 / 2) with 0 by field. rewrite sin_0. ring.
Qed.

Lemma asinh_near (z : complex fl) (kappa : R) (k : Z) : cis_finite z = true -> (prec <= k)%Z -> (2 * k + 40 <= emax)%Z ->
  let a := zx z in let b := zy z in
  1 + a * a + b * b <= bpow radix2 k -> a * b = 0 \/ bpow radix2 (3 - emax) <= Rabs (a * b) -> 0 <= a -> (a = 0 -> -1 <= b) ->
  1 + a * a + b * b <= kappa * nm (1 + (a * a - b * b)) (2 * a * b) -> d * kappa <= / 65536 ->
  let s := cadd cone (cmul z z) in root_at d L s -> log_at d L (cadd z (fc_sqrt L s)) ->
  exists X Y : R, 0 <= X /\ - (PI / 2) <= Y <= PI / 2 /\ sinh X * cos Y = a /\ cosh X * sin Y = b /\
    fnear (re (fc_asinh L z)) X (d * X + 60 * (d * kappa)) /\ fnear (im (fc_asinh L z)) Y (60 * (d * kappa)).
Proof.
  intros F Kp K a b NK AB A0 B0 HK DK s Rs Lw. pose proof (@u_le prec H24) as U. destruct one_fl as (F1 & V1 & F0 & V0). pose proof He as He0. unfold Prec_lt_emax in He0.
  set (N := 1 + a * a + b * b) in *. pose proof (ssq a b) as SQ. assert (N1 : 1 <= N) by (unfold N; lra).
  pose proof (Rle_0_sqr a) as A2. pose proof (Rle_0_sqr b) as B2. unfold Rsqr in A2, B2.
  assert (NB : N <= bpow radix2 (emax - 4)) by (apply Rle_trans with (bpow radix2 k); [exact NK|apply bpow_le; lia]).
  destruct (sq_parts H24 z F ltac:(lia) NB) as (FM & EM & EV & Z0 & Z1). fold a b in EM, EV, Z0, Z1. fold N in EM, EV.
  unfold cis_finite in FM. apply andb_prop in FM. destruct FM as (FM1 & FM2). set (m := zx (cmul z z)) in *. set (v := zy (cmul z z)) in *.
  assert (UN : u * N <= / 16777216 * N) by (apply Rmult_le_compat_r; lra). assert (UN0 : 0 <= u * N) by (apply Rmult_le_pos; lra).
  assert (EM' : Rabs (m - (a * a - b * b)) <= / 1000 * N) by lra.
  assert (M1 : Rabs (1 + m) <= 101 / 100 * N) by (apply Rabs_le_inv in EM'; apply Rabs_le; unfold N in *; lra).
  assert (NB1 : 8 * N <= bpow radix2 (emax - 1)) by (replace (emax - 1)%Z with (3 + (emax - 4))%Z by ring; rewrite bpow_plus; change (bpow radix2 3) with 8; lra).
  destruct (add_val n1 (re (cmul z z)) F1 FM1) as (G1 & _ & R1); [rewrite V1; fold m; lra|]. rewrite V1 in R1. fold m in R1.
  destruct (add_exact n0 (im (cmul z z)) F0 FM2 (or_introl V0)) as (G2 & R2 & _). rewrite V0, Rplus_0_l in R2. fold v in R2.
  set (x := 1 + (a * a - b * b)) in *. set (y := 2 * a * b) in *.
  assert (FS : cis_finite s = true) by (unfold s, cis_finite, cadd, cone, cidentity; cbn [re im]; rewrite G1, G2; reflexivity).
  assert (SX : zx s = B2R (nadd n1 (re (cmul z z)))) by reflexivity. assert (SY : zy s = v) by exact R2.
  assert (O : off s x y <= 6 * u * N).
  { unfold off. eapply Rle_trans; [apply nm_xy|]. rewrite SY, SX. assert (u * Rabs (1 + m) <= u * (101 / 100 * N)) by (apply Rmult_le_compat_l; lra).
    assert (Rabs (B2R (nadd n1 (re (cmul z z))) - x) <= u * (101 / 100 * N) + 11 / 5 * u * N).
    { replace (B2R (nadd n1 (re (cmul z z))) - x) with ((B2R (nadd n1 (re (cmul z z))) - (1 + m)) + (m - (a * a - b * b))) by (unfold x; ring). eapply Rle_trans; [apply Rabs_triang|lra]. }
    lra. }
  assert (Sg : 0 < y * zy s \/ (y = 0 /\ zy s = 0)).
  { rewrite SY. destruct AB as [E|E]; [right; split; [unfold y; lra|apply Z0, E]|left]. pose proof (Z1 E). unfold y. lra. }
  assert (XN : nm x y <= N). { apply nm_le; [lra|]. unfold x, y, N. pose proof (Rle_0_sqr b). unfold Rsqr in *. nra. }
  destruct (root_core H24 L d Hd z kappa k Kp K NK DK s x y FS HK XN O Sg Rs) as (FR & OR & K1).
  destruct (rt_sq x y) as (E1 & E2). set (p := rt_re x y) in *. set (q := rt_im x y) in *. assert (P0 : 0 <= p) by apply rt_re_pos.
  assert (BQ : 0 <= b * q).
  { destruct (Rlt_or_le b 0) as [BN|BN].
    - destruct A0 as [A0|A0].
      + assert (Y0 : y < 0) by (unfold y; assert (0 < a * - b) by (apply Rmult_lt_0_compat; lra); lra). pose proof (rt_im_down x y Y0) as Q. fold q in Q. pose proof (Rmult_le_pos (- b) (- q) ltac:(lra) ltac:(lra)). lra.
      + assert (Y0 : y = 0) by (unfold y; rewrite <- A0; ring). assert (X0 : 0 <= x). { unfold x. rewrite <- A0. specialize (B0 (eq_sym A0)). assert (0 <= (1 + b) * (1 - b)) by (apply Rmult_le_pos; lra). lra. }
        unfold q. rewrite Y0, (rt_axis x X0). lra.
    - assert (Y0 : 0 <= y) by (unfold y; pose proof (Rmult_le_pos _ _ A0 BN); lra). pose proof (rt_im_up x y Y0) as Q. fold q in Q. apply Rmult_le_pos; assumption. }
  pose proof (quadrant a b p q A0 P0 BQ) as QD. set (W := nm (a + p) (b + q)) in *.
  assert (NS : nm p q * nm p q = nm x y) by (unfold p, q; rewrite rt_nm; apply sqrt_sqrt, nm_pos).
  assert (W1 : 1 <= W). { apply Rsqr_incr_0; [unfold Rsqr|lra|apply nm_pos]. pose proof (nm_sq a b) as S1. pose proof (nm_x x y) as S2. pose proof (Rle_abs x) as S3. unfold x in S3 at 1. lra. }
  assert (PN : nm p q <= N). { apply Rsqr_incr_0; [unfold Rsqr|apply nm_pos|lra]. rewrite NS. assert (N * 1 <= N * N) by (apply Rmult_le_compat_l; lra). lra. }
  assert (NZ : a + p <> 0 \/ b + q <> 0).
  { destruct (Req_dec (a + p) 0) as [Y1|Y1]; [|left; exact Y1]. destruct (Req_dec (b + q) 0) as [Y2|Y2]; [|right; exact Y2]. exfalso. unfold W in W1. rewrite Y1, Y2, nm_0 in W1. lra. }
  pose proof (arg_right (a + p) (b + q) ltac:(lra) NZ) as AR.
  destruct (log_core H24 L d Hd z kappa k Kp K NK DK z (fc_sqrt L s) a b p q F FR K1 eq_refl eq_refl (z_le z) PN OR QD W1 (cadd z (fc_sqrt L s)) (or_introl eq_refl) Lw) as (X0 & LX & LY).
  { pose proof (ratan2_range (zx (cadd z (fc_sqrt L s))) (zy (cadd z (fc_sqrt L s)))) as AR'. apply Rabs_le. lra. }
  destruct (polar (a + p) (b + q)) as (PX & PY).
  destruct (asinh_exact a b p q W (ratan2 (b + q) (a + p)) ltac:(lra) E1 E2 PX PY) as (C1 & C2).
  exists (ln W), (ratan2 (b + q) (a + p)). rewrite (asinh_finite L z F). auto 8.
Qed.

(** Products with i and -i. *)
Lemma unit_mul (x t : fl) (c : R) : is_finite x = true -> is_finite t = true -> B2R t = c -> (c = 1 \/ c = -1) -> is_finite (nmul t x) = true /\ B2R (nmul t x) = c * B2R x.
Proof.
  intros Fx Ft Et C. assert (G : rnd (c * B2R x) = c * B2R x).
  { destruct C as [-> | ->]; [rewrite Rmult_1_l|replace (-1 * B2R x) with (B2R (Bopp x)) by (rewrite B2R_Bopp; ring)]; apply round_generic; try apply valid_rnd_N; apply generic_format_B2R. }
  pose proof (Bmult_correct prec emax _ _ mode_NE t x) as M. change (round_mode mode_NE) with ZnearestE in M. change (SpecFloat.fexp prec emax) with fexp in M. rewrite Et, G in M.
  rewrite Rlt_bool_true in M. { destruct M as (M1 & M2 & _). rewrite Fx, Ft in M2. auto. }
  destruct C as [-> | ->]; [rewrite Rmult_1_l|replace (-1 * B2R x) with (- B2R x) by ring; rewrite Rabs_Ropp]; apply abs_B2R_lt_emax.
Qed.
Lemma mul_i (w : complex fl) : cis_finite w = true -> cis_finite (cmul cunit_im w) = true /\ zx (cmul cunit_im w) = - zy w /\ zy (cmul cunit_im w) = zx w.
Proof.
  intros F. unfold cis_finite in F. apply andb_prop in F. destruct F as (Fx & Fy). destruct one_fl as (F1 & V1 & F0 & V0).
  destruct (unit_mul (im w) n1 1 Fy F1 V1 (or_introl eq_refl)) as (A1 & A2). destruct (unit_mul (re w) n1 1 Fx F1 V1 (or_introl eq_refl)) as (A3 & A4).
  destruct (zero_mul n0 (re w) F0 Fx V0) as (Z1 & Z2 & _). destruct (zero_mul n0 (im w) F0 Fy V0) as (Z3 & Z4 & _).
  destruct (add_exact _ _ Z1 A1 (or_introl Z2)) as (_ & _ & S1 & S2). destruct (add_exact _ _ Z3 A3 (or_introl Z4)) as (S3 & S4 & _).
  unfold cis_finite, cmul, cunit_im. cbn [re im]. rewrite S1, S2, S3, S4, A2, A4, Z2, Z4. split; [reflexivity|]. split; ring.
Qed.
Lemma mul_neg_i (w : complex fl) X Y e f : fnear (re w) X e -> fnear (im w) Y f ->
  fnear (re (cmul (cneg cunit_im) w)) Y f /\ fnear (im (cmul (cneg cunit_im) w)) (- X) e.
Proof.
  intros (Fx & Ex) (Fy & Ey). destruct one_fl as (F1 & V1 & F0 & V0).
  assert (Fm : is_finite (nneg n1 : fl) = true) by (cbn [nneg num_float]; rewrite is_finite_Bopp; exact F1). assert (Vm : B2R (nneg n1 : fl) = -1) by (cbn [nneg num_float]; rewrite B2R_Bopp; change (Bone : fl) with (n1 : fl); rewrite V1; ring).
  assert (Fk : is_finite (nneg n0 : fl) = true) by reflexivity. assert (Vk : B2R (nneg n0 : fl) = 0) by reflexivity.
  destruct (unit_mul (im w) _ _ Fy Fm Vm (or_intror eq_refl)) as (A1 & A2). destruct (unit_mul (re w) _ _ Fx Fm Vm (or_intror eq_refl)) as (A3 & A4).
  destruct (zero_mul _ (re w) Fk Fx Vk) as (Z1 & Z2 & _). destruct (zero_mul _ (im w) Fk Fy Vk) as (Z3 & Z4 & _).
  destruct (add_exact _ _ Z1 A1 (or_introl Z2)) as (_ & _ & S1 & S2). destruct (add_exact _ _ Z3 A3 (or_introl Z4)) as (S3 & S4 & _).
  unfold cmul, cneg, cunit_im. cbn [re im]. split; (split; [assumption|]).
  - rewrite S2, Z2, A2. replace (0 - -1 * zy w - Y) with (zy w - Y) by ring. exact Ey.
  - rewrite S4, Z4, A4. replace (0 + -1 * zx w - - X) with (- (zx w - X)) by ring. rewrite Rabs_Ropp. exact Ex.
Qed.
Lemma acos_finite z : cis_finite z = true -> (zx z <> 0 \/ zy z <> 0) -> fc_acos L z = cmul (cneg cunit_im) (fc_ln L (cadd (cmul cunit_im (fc_sqrt L (csub cone (cmul z z)))) z)).
Proof.
  destruct z as [x y]. unfold cis_finite, fc_acos. cbn [re im]. intros F N. apply andb_prop in F. destruct F as (Fx & Fy).
  destruct x as [s|s| |s m e B]; try discriminate Fx; destruct y as [s'|s'| |s' m' e' B']; try discriminate Fy; try destruct s; try destruct s'; try reflexivity;
    exfalso; cbn in N; destruct N; lra.
Qed.

Lemma acos_near (z : complex fl) (kappa : R) (k : Z) : cis_finite z = true -> (prec <= k)%Z -> (2 * k + 40 <= emax)%Z ->
  let a := zx z in let b := zy z in
  (a <> 0 \/ b <> 0) -> 1 + a * a + b * b <= bpow radix2 k -> a * b = 0 \/ bpow radix2 (3 - emax) <= Rabs (a * b) -> 0 <= b -> (b = 0 -> a <= 1) ->
  1 + a * a + b * b <= kappa * nm (1 - (a * a - b * b)) (2 * a * b) -> d * kappa <= / 65536 ->
  let s := csub cone (cmul z z) in let w := cadd (cmul cunit_im (fc_sqrt L s)) z in root_at d L s -> log_at d L w -> (0 <= a \/ 0 <= zy w) ->
  exists X Y : R, 0 <= X <= PI /\ Y <= 0 /\ cos X * cosh Y = a /\ - (sin X * sinh Y) = b /\
    fnear (re (fc_acos L z)) X (60 * (d * kappa)) /\ fnear (im (fc_acos L z)) Y (d * Rabs Y + 60 * (d * kappa)).
Proof.
  intros F Kp K a b NZ0 NK AB B0 A0 HK DK s w Rs Lw HW. pose proof (@u_le prec H24) as U. destruct one_fl as (F1 & V1 & F0 & V0). pose proof He as He0. unfold Prec_lt_emax in He0.
  set (N := 1 + a * a + b * b) in *. pose proof (ssq a b) as SQ. assert (N1 : 1 <= N) by (unfold N; lra).
  pose proof (Rle_0_sqr a) as A2. pose proof (Rle_0_sqr b) as B2. unfold Rsqr in A2, B2.
  assert (NB : N <= bpow radix2 (emax - 4)) by (apply Rle_trans with (bpow radix2 k); [exact NK|apply bpow_le; lia]).
  destruct (sq_parts H24 z F ltac:(lia) NB) as (FM & EM & EV & Z0 & Z1). fold a b in EM, EV, Z0, Z1. fold N in EM, EV.
  unfold cis_finite in FM. apply andb_prop in FM. destruct FM as (FM1 & FM2). set (m := zx (cmul z z)) in *. set (v := zy (cmul z z)) in *.
  assert (UN : u * N <= / 16777216 * N) by (apply Rmult_le_compat_r; lra). assert (UN0 : 0 <= u * N) by (apply Rmult_le_pos; lra).
  assert (EM' : Rabs (m - (a * a - b * b)) <= / 1000 * N) by lra.
  assert (M1 : Rabs (1 - m) <= 101 / 100 * N) by (apply Rabs_le_inv in EM'; apply Rabs_le; unfold N in *; lra).
  assert (NB1 : 8 * N <= bpow radix2 (emax - 1)) by (replace (emax - 1)%Z with (3 + (emax - 4))%Z by ring; rewrite bpow_plus; change (bpow radix2 3) with 8; lra).
  destruct (sub_val n1 (re (cmul z z)) F1 FM1) as (G1 & _ & R1); [rewrite V1; fold m; lra|]. rewrite V1 in R1. fold m in R1.
  destruct (add_exact n0 (im (cmul z z)) F0 FM2 (or_introl V0)) as (_ & _ & G2 & R2). rewrite V0, Rminus_0_l in R2. fold v in R2.
  set (x := 1 - (a * a - b * b)) in *. set (y := - (2 * a * b)).
  assert (HK' : N <= kappa * nm x y) by (unfold y; replace (nm x (- (2 * a * b))) with (nm x (2 * a * b)) by (unfold nm; f_equal; ring); exact HK).
  assert (FS : cis_finite s = true) by (unfold s, cis_finite, csub, cone, cidentity; cbn [re im]; rewrite G1, G2; reflexivity).
  assert (SX : zx s = B2R (nsub n1 (re (cmul z z)))) by reflexivity. assert (SY : zy s = - v) by exact R2.
  assert (O : off s x y <= 6 * u * N).
  { unfold off. eapply Rle_trans; [apply nm_xy|]. rewrite SY, SX. assert (u * Rabs (1 - m) <= u * (101 / 100 * N)) by (apply Rmult_le_compat_l; lra).
    assert (Rabs (B2R (nsub n1 (re (cmul z z))) - x) <= u * (101 / 100 * N) + 11 / 5 * u * N).
    { replace (B2R (nsub n1 (re (cmul z z))) - x) with ((B2R (nsub n1 (re (cmul z z))) - (1 - m)) + - (m - (a * a - b * b))) by (unfold x; ring). eapply Rle_trans; [apply Rabs_triang|]. rewrite Rabs_Ropp. lra. }
    unfold y. replace (- v - - (2 * a * b)) with (- (v - 2 * a * b)) by ring. rewrite Rabs_Ropp. lra. }
  assert (Sg : 0 < y * zy s \/ (y = 0 /\ zy s = 0)).
  { rewrite SY. destruct AB as [E|E]; [right; rewrite (Z0 E); split; unfold y; lra|left]. pose proof (Z1 E). unfold y. lra. }
  assert (XN : nm x y <= N). { apply nm_le; [lra|]. unfold x, y, N. pose proof (Rle_0_sqr b). unfold Rsqr in *. nra. }
  destruct (root_core H24 L d Hd z kappa k Kp K NK DK s x y FS HK' XN O Sg Rs) as (FR & OR & K1).
  destruct (rt_sq x y) as (E1 & E2). set (p := rt_re x y) in *. set (q := rt_im x y) in *. assert (P0 : 0 <= p) by apply rt_re_pos.
  assert (AQ : 0 <= a * - q).
  { destruct (Rlt_or_le 0 a) as [AN|AN].
    - destruct B0 as [B0|B0].
      + assert (Y0 : y < 0) by (unfold y; assert (0 < a * b) by (apply Rmult_lt_0_compat; lra); lra). pose proof (rt_im_down x y Y0) as Q. fold q in Q. apply Rmult_le_pos; lra.
      + assert (Y0 : y = 0) by (unfold y; rewrite <- B0; ring). assert (X0 : 0 <= x). { unfold x. rewrite <- B0. specialize (A0 (eq_sym B0)). assert (0 <= (1 + a) * (1 - a)) by (apply Rmult_le_pos; lra). lra. }
        unfold q. rewrite Y0, (rt_axis x X0). lra.
    - assert (Y0 : 0 <= y) by (unfold y; pose proof (Rmult_le_pos (- a) b ltac:(lra) B0); lra). pose proof (rt_im_up x y Y0) as Q. fold q in Q. pose proof (Rmult_le_pos (- a) q ltac:(lra) Q). lra. }
  destruct (mul_i _ FR) as (FI & IX & IY).
  assert (OI : off (cmul cunit_im (fc_sqrt L s)) (- q) p <= 37 * (d * kappa) * nm (- q) p).
  { replace (nm (- q) p) with (nm p q) by (unfold nm; f_equal; ring). eapply Rle_trans; [|exact OR]. right. unfold off. rewrite IX, IY. unfold nm. f_equal. ring. }
  assert (QD : nm a b * nm a b + nm (- q) p * nm (- q) p <= nm (a + - q) (b + p) * nm (a + - q) (b + p)) by (rewrite !nm_sq; pose proof (Rmult_le_pos _ _ B0 P0); lra).
  set (W := nm (a + - q) (b + p)) in *.
  assert (NQ : nm (- q) p = nm p q) by (unfold nm; f_equal; ring). assert (NS : nm (- q) p * nm (- q) p = nm x y) by (rewrite NQ; unfold p, q; rewrite rt_nm; apply sqrt_sqrt, nm_pos).
  assert (W1 : 1 <= W). { apply Rsqr_incr_0; [unfold Rsqr|lra|apply nm_pos]. pose proof (nm_sq a b) as S1. pose proof (nm_x x y) as S2. pose proof (Rle_abs x) as S3. unfold x in S3 at 1. lra. }
  assert (PN : nm (- q) p <= N). { apply Rsqr_incr_0; [unfold Rsqr|apply nm_pos|lra]. rewrite NS. assert (N * 1 <= N * N) by (apply Rmult_le_compat_l; lra). lra. }
  assert (NZ : a + - q <> 0 \/ b + p <> 0).
  { destruct (Req_dec (a + - q) 0) as [Y1|Y1]; [|left; exact Y1]. destruct (Req_dec (b + p) 0) as [Y2|Y2]; [|right; exact Y2]. exfalso. unfold W in W1. rewrite Y1, Y2, nm_0 in W1. lra. }
  pose proof (arg_up (a + - q) (b + p) ltac:(lra) NZ) as AU.
  destruct (log_core H24 L d Hd z kappa k Kp K NK DK z (cmul cunit_im (fc_sqrt L s)) a b (- q) p F FI K1 eq_refl eq_refl (z_le z) PN OI QD W1 w (or_intror eq_refl) Lw) as (X0 & LX & LY).
  { pose proof (ratan2_range (zx w) (zy w)) as AR'. pose proof PI_RGT_0. apply Rabs_le. destruct HW as [HW|HW].
    - assert (Q0 : 0 <= a + - q).
      { destruct HW as [HW|HW]; [|].
        + assert (0 <= - q) by (destruct (Rle_or_lt 0 (- q)) as [G|G]; [exact G|]; exfalso; pose proof (Rmult_lt_compat_l _ _ _ HW G); lra). lra.
        + assert (Y0 : y = 0) by (unfold y; rewrite <- HW; ring). assert (X0 : 0 <= x) by (unfold x; rewrite <- HW; lra). unfold q. rewrite Y0, (rt_axis x X0). lra. }
      pose proof (arg_right (a + - q) (b + p) Q0 NZ). lra.
    - destruct (arg_at_std L d w (proj1 Lw)) as (WP & _). assert (NZw : zx w <> 0 \/ zy w <> 0).
      { destruct (Req_dec (zx w) 0) as [Y1|Y1]; [|left; exact Y1]. destruct (Req_dec (zy w) 0) as [Y2|Y2]; [|right; exact Y2]. exfalso. rewrite Y1, Y2, nm_0 in WP. lra. }
      pose proof (arg_up (zx w) (zy w) HW NZw). lra. }
  destruct (polar (a + - q) (b + p)) as (PX & PY).
  destruct (acos_exact a b p q W (ratan2 (b + p) (a + - q)) ltac:(lra) E1 E2 PX PY) as (C1 & C2).
  exists (ratan2 (b + p) (a + - q)), (- ln W). change (ln (nm (a + - q) (b + p))) with (ln W) in X0, LX. rewrite (acos_finite z F NZ0). destruct (mul_neg_i _ _ _ _ _ LX LY) as (M2 & M3).
  change (cadd (cmul cunit_im (fc_sqrt L (csub cone (cmul z z)))) z) with w. rewrite Rabs_Ropp, (Rabs_pos_eq (ln W)) by exact X0.
  split; [exact AU|]. split; [lra|]. split; [exact C1|]. split; [exact C2|]. split; [exact M2|exact M3].
Qed.
End E.
