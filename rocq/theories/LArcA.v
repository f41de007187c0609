(** The angle of a rotation built from an axis and an angle; the Euler angles of a rotation built from Euler angles. *)

From Coq Require Import Arith ZArith Bool Lia Reals Lra.
From Flocq Require Import Core.Core Mult_error IEEE754.BinarySingleNaN.
From Verif Require Import Base Scalar Spec SpecF SpecDrift SpecRot SpecRotF LBase MVector LVector MMatrix MFloat MFloatVec MSign LFloat LFloatVec LFloatEx LComplexHP LComplexLP LLibmP SpecLibm
  MQuat MComplexF MRotF MTransform MArcF SpecArc LArc LArcN LArcP LArcQ LArcS LRotFP.
Local Open Scope R_scope.

Section ArcA.
Context {prec emax : Z} {Hp : Prec_gt_0 prec} {He : Prec_lt_emax prec emax}.
Notation fl := (binary_float prec emax).
Notation fexp := (FLT_exp (3 - emax - prec) prec).
Notation rnd := (round radix2 fexp ZnearestE).
Notation u := (bpow radix2 (- prec)).
Hypothesis H1 : (24 <= prec)%Z.
Hypothesis H2 : (2 * prec <= emax)%Z.
Let h1 : (1 < prec)%Z. Proof. lia. Qed.

Lemma fmt_int z : (Z.abs z <= 4)%Z -> generic_format radix2 fexp (IZR z).
Proof.
  intros Z4. apply int_format. apply Z.le_lt_trans with (1 := Z4).
  apply Z.lt_le_trans with (2 ^ 24)%Z; [reflexivity|]. apply Z.pow_le_mono_r; lia.
Qed.
Lemma rnd_le_int r z : (Z.abs z <= 4)%Z -> r <= IZR z -> rnd r <= IZR z.
Proof. intros Z4 H. apply round_le_generic; auto with typeclass_instances. apply fmt_int, Z4. Qed.
Lemma rnd_ge_int r z : (Z.abs z <= 4)%Z -> IZR z <= r -> IZR z <= rnd r.
Proof. intros Z4 H. apply round_ge_generic; auto with typeclass_instances. apply fmt_int, Z4. Qed.

(** 1 + u lies half way between 1 and the next float; it rounds to 1. *)
Lemma one_plus_u : rnd (1 + u) = 1.
Proof.
  pose proof Hp as P0. unfold Prec_gt_0 in P0. pose proof (bpow_gt_0 radix2 (- prec)) as U0. pose proof (u_small H1) as US.
  assert (C : cexp radix2 fexp (1 + u) = (1 - prec)%Z).
  { unfold cexp. rewrite (mag_unique radix2 (1 + u) 1).
    - unfold FLT_exp. lia.
    - rewrite Rabs_pos_eq by lra. change (bpow radix2 (1 - 1)) with 1. change (bpow radix2 1) with 2. lra. }
  unfold round, scaled_mantissa. rewrite C.
  assert (E : (1 + u) * bpow radix2 (- (1 - prec)) = IZR (2 ^ (prec - 1)) + / 2).
  { change 2%Z with (radix_val radix2). rewrite IZR_Zpower by lia. rewrite Rmult_plus_distr_r, <- bpow_plus, Rmult_1_l.
    replace (- (1 - prec))%Z with (prec - 1)%Z by lia. replace (- prec + (prec - 1))%Z with (-1)%Z by lia. reflexivity. }
  rewrite E.
  assert (F : Zfloor (IZR (2 ^ (prec - 1)) + / 2) = (2 ^ (prec - 1))%Z) by (apply Zfloor_imp; rewrite plus_IZR; lra).
  unfold Znearest. rewrite F. replace (IZR (2 ^ (prec - 1)) + / 2 - IZR (2 ^ (prec - 1))) with (/ 2) by ring.
  rewrite Rcompare_Eq by reflexivity.
  assert (Ev : Z.even (2 ^ (prec - 1)) = true).
  { replace (prec - 1)%Z with (1 + (prec - 2))%Z by lia. rewrite Z.pow_add_r by lia. rewrite Z.even_mul. reflexivity. }
  rewrite Ev. cbn [negb]. unfold F2R. cbn [Fnum Fexp]. change 2%Z with (radix_val radix2). rewrite IZR_Zpower by lia.
  rewrite <- bpow_plus. replace (prec - 1 + (1 - prec))%Z with 0%Z by lia. reflexivity.
Qed.
Lemma rnd_err_half r k : (3 - emax <= k)%Z -> Rabs r <= bpow radix2 k -> Rabs (rnd r - r) <= bpow radix2 k * u / 2.
Proof.
  pose proof Hp as P0. unfold Prec_gt_0 in P0. intros K [B|B].
  - apply Rle_trans with (/ 2 * ulp radix2 fexp r); [apply error_le_half_ulp; auto with typeclass_instances|].
    assert (X : ulp radix2 fexp r <= bpow radix2 k * u); [|lra]. rewrite <- bpow_plus.
    destruct (Req_dec r 0) as [Z|Z].
    + subst r. apply Rle_trans with (bpow radix2 (3 - emax - prec)); [|apply bpow_le; lia]. right; apply (ulp_FLT_small radix2 (3 - emax - prec) prec). rewrite Rabs_R0. apply bpow_gt_0.
    + rewrite ulp_neq_0 by exact Z. apply bpow_le. unfold cexp, FLT_exp.
      assert (M : (mag radix2 r <= k)%Z) by (apply mag_le_bpow; assumption). lia.
  - assert (G : generic_format radix2 fexp r).
    { apply generic_format_abs_inv. rewrite B. apply generic_format_bpow. unfold FLT_exp. lia. }
    rewrite round_generic by auto with typeclass_instances. replace (r - r) with 0 by ring. rewrite Rabs_R0.
    pose proof (bpow_gt_0 radix2 k). pose proof (bpow_gt_0 radix2 (- prec)). nra.
Qed.

Variable L : libm fl.
Variables arccos arcsin : fl -> fl.
Hypothesis LS : libm_special L.
Hypothesis LA : libm_arc L arccos arcsin.

(** The diagonal entry (1 - c) x x + c. *)
Definition ent (c x : fl) : fl := ((1 - c) * x * x + c)%N_.
Lemma k_facts (c : fl) : fb 0 c -> fb 1 (1 - c)%N_ /\ B2R (1 - c)%N_ = rnd (1 - B2R c) /\ Rabs (rnd (1 - B2R c) - (1 - B2R c)) <= u.
Proof.
  intros Fc. pose proof Hp as P0. unfold Prec_gt_0 in P0. destruct (@one_facts prec emax _ _) as (Fo & Vo & _).
  destruct (fb_sub 0 (1%N_ : fl) c (fb_1 0 ltac:(lia)) Fc ltac:(lia)) as (Fk & Ek). rewrite Vo in Ek.
  split; [exact Fk|]. split; [exact Ek|].
  assert (B : Rabs (1 - B2R c) <= bpow radix2 1).
  { destruct Fc as (_ & Bc). change (bpow radix2 0) with 1 in Bc. change (bpow radix2 1) with 2. apply Rabs_le_inv in Bc. apply Rabs_le. lra. }
  pose proof (rnd_err_half (1 - B2R c) 1 ltac:(lia) B) as X. change (bpow radix2 1) with 2 in X. lra.
Qed.
Lemma ent_le (c x : fl) : fb 0 c -> fb 0 x -> fb 3 (ent c x) /\ B2R (ent c x) <= 1.
Proof.
  intros Fc Fx. pose proof Hp as P0. unfold Prec_gt_0 in P0.
  destruct (k_facts c Fc) as (Fk & Ek & Er). set (k := (1 - c)%N_) in *.
  pose proof (proj2 Fc) as Bc. pose proof (proj2 Fx) as Bx. change (bpow radix2 0) with 1 in Bc, Bx. apply Rabs_le_inv in Bc.
  destruct (fb_mul 1 0 k x Fk Fx ltac:(lia)) as (F1 & E1). destruct (fb_mul 1 0 (k * x)%N_ x F1 Fx ltac:(lia)) as (F2 & E2).
  destruct (fb_add 1 (k * x * x)%N_ c F2 (fb_weak 0 1 c Fc ltac:(lia)) ltac:(lia)) as (F3 & E3).
  split; [apply (fb_weak 2 3); [exact F3|lia]|]. unfold ent. fold k. rewrite E3.
  assert (K0 : 0 <= B2R k) by (rewrite Ek; apply round_ge_generic; auto with typeclass_instances; [apply generic_format_0|lra]).
  assert (M1 : Rabs (B2R (k * x)%N_) <= B2R k).
  { rewrite E1. rewrite <- round_NE_abs by auto with typeclass_instances. apply round_le_generic; auto with typeclass_instances; [apply generic_format_B2R|].
    rewrite Rabs_mult, (Rabs_pos_eq (B2R k)) by exact K0. pose proof (Rabs_pos (B2R x)). nra. }
  assert (M2 : B2R (k * x * x)%N_ <= B2R k).
  { rewrite E2. apply round_le_generic; auto with typeclass_instances; [apply generic_format_B2R|].
    apply Rle_trans with (1 := Rle_abs _). rewrite Rabs_mult. pose proof (Rabs_pos (B2R x)). pose proof (Rabs_pos (B2R (k * x)%N_)). nra. }
  rewrite <- one_plus_u. apply round_le; auto with typeclass_instances. apply Rabs_le_inv in Er. rewrite <- Ek in Er. lra.
Qed.

(** The argument of the arc cosine for three diagonal entries. *)
Definition targ (a b c : fl) : fl := ((a + b + c - 1) / (1 + 1))%N_.
Lemma targ_steps (a b c : fl) : fb 3 a -> fb 3 b -> fb 3 c ->
  is_finite (targ a b c) = true /\ B2R (targ a b c) = rnd (rnd (rnd (rnd (B2R a + B2R b) + B2R c) - 1) / 2).
Proof.
  intros Fa Fb Fc. pose proof Hp as P0. unfold Prec_gt_0 in P0. destruct (@one_facts prec emax _ _) as (Fo & Vo & _).
  destruct (@two_val prec emax _ _) as (F2 & V2).
  destruct (fb_add 3 a b Fa Fb ltac:(lia)) as (F3 & E3).
  destruct (fb_add 4 _ c F3 (fb_weak 3 4 c Fc ltac:(lia)) ltac:(lia)) as (F4 & E4).
  destruct (fb_sub 5 _ (1%N_ : fl) F4 (fb_1 5 ltac:(lia)) ltac:(lia)) as (F5 & E5).
  assert (T : bpow radix2 1 <= Rabs (B2R (1 + 1 : fl)%N_)) by (rewrite V2, Rabs_pos_eq by lra; right; reflexivity).
  destruct (fb_div 6 1 _ (1 + 1 : fl)%N_ F5 T ltac:(lia)) as (F6 & E6).
  split; [exact (fb_fin _ _ F6)|]. unfold targ. rewrite E6, V2, E5, Vo, E4, E3. reflexivity.
Qed.

Lemma targ_le (a b c : fl) : fb 3 a -> fb 3 b -> fb 3 c -> B2R a <= 1 -> B2R b <= 1 -> B2R c <= 1 -> B2R (targ a b c) <= 1.
Proof.
  intros Fa Fb Fc A B C. rewrite (proj2 (targ_steps a b c Fa Fb Fc)).
  assert (X : rnd (B2R a + B2R b) <= 2) by (apply (rnd_le_int _ 2); [lia|lra]).
  assert (Y : rnd (rnd (B2R a + B2R b) + B2R c) <= 3) by (apply (rnd_le_int _ 3); [lia|lra]).
  assert (Z : rnd (rnd (rnd (B2R a + B2R b) + B2R c) - 1) <= 2) by (apply (rnd_le_int _ 2); [lia|lra]).
  apply (rnd_le_int _ 1); [lia|lra].
Qed.
Lemma targ_ge (a b c : fl) : fb 3 a -> fb 3 b -> fb 3 c -> -1 <= rnd (B2R a + B2R b) + B2R c -> -1 <= B2R (targ a b c).
Proof.
  intros Fa Fb Fc A. rewrite (proj2 (targ_steps a b c Fa Fb Fc)).
  assert (Y : -1 <= rnd (rnd (B2R a + B2R b) + B2R c)) by (apply (rnd_ge_int _ (-1)); [lia|lra]).
  assert (Z : -2 <= rnd (rnd (rnd (B2R a + B2R b) + B2R c) - 1)) by (apply (rnd_ge_int _ (-2)); [lia|lra]).
  apply (rnd_ge_int _ (-1)); [lia|lra].
Qed.

Lemma angle_eq (axis : vec fl 3) (angle : fl) :
  frot3angle arccos (frot3from_axis_angle L axis angle)
  = arccos (targ (ent (m_cos L angle) (vat axis 0)) (ent (m_cos L angle) (vat axis 1)) (ent (m_cos L angle) (vat axis 2))).
Proof. reflexivity. Qed.

(** About a coordinate axis: the entries are 1 - u or 1, and c twice. *)
Lemma ent_0 (c : fl) : fb 0 c -> fb 3 (ent c n0) /\ B2R (ent c n0) = B2R c.
Proof.
  intros Fc. destruct (ent_le c n0 Fc (fb_0 0)) as (F & _). split; [exact F|]. pose proof Hp as P0. unfold Prec_gt_0 in P0.
  destruct (k_facts c Fc) as (Fk & _ & _). set (k := (1 - c)%N_) in *.
  destruct (fb_mul 1 0 k n0 Fk (fb_0 0) ltac:(lia)) as (F1 & E1). destruct (fb_mul 1 0 (k * n0)%N_ n0 F1 (fb_0 0) ltac:(lia)) as (F2 & E2).
  destruct (fb_add 1 (k * n0 * n0)%N_ c F2 (fb_weak 0 1 c Fc ltac:(lia)) ltac:(lia)) as (F3 & E3).
  change (ent c n0) with (k * n0 * n0 + c)%N_. rewrite E3, E2. change (B2R (n0 : fl)) with 0. rewrite Rmult_0_r, round_0 by auto with typeclass_instances.
  rewrite Rplus_0_l. apply round_generic; auto with typeclass_instances. apply generic_format_B2R.
Qed.
Lemma ent_1 (c : fl) : fb 0 c -> fb 3 (ent c n1) /\ B2R (ent c n1) <= 1 /\ 0 <= B2R c + B2R (ent c n1).
Proof.
  intros Fc. destruct (ent_le c n1 Fc (fb_1 0 ltac:(lia))) as (F & B). split; [exact F|]. split; [exact B|]. pose proof Hp as P0. unfold Prec_gt_0 in P0.
  pose proof (bpow_gt_0 radix2 (- prec)) as U0. pose proof (u_small H1) as US.
  destruct (@one_facts prec emax _ _) as (Fo & Vo & _).
  destruct (k_facts c Fc) as (Fk & Ek & Er). set (k := (1 - c)%N_) in *.
  destruct (fb_mul 1 0 k n1 Fk (fb_1 0 ltac:(lia)) ltac:(lia)) as (F1 & E1). destruct (fb_mul 1 0 (k * n1)%N_ n1 F1 (fb_1 0 ltac:(lia)) ltac:(lia)) as (F2 & E2).
  destruct (fb_add 1 (k * n1 * n1)%N_ c F2 (fb_weak 0 1 c Fc ltac:(lia)) ltac:(lia)) as (F3 & E3).
  change (ent c n1) with (k * n1 * n1 + c)%N_. rewrite E3, E2, E1. rewrite Vo, !Rmult_1_r.
  assert (R1 : rnd (B2R k) = B2R k) by (apply round_generic; auto with typeclass_instances; apply generic_format_B2R).
  rewrite !R1. clear R1 E1 E2 E3 F1 F2 F3.
  pose proof (proj2 Fc) as Bc. change (bpow radix2 0) with 1 in Bc.
  apply Rabs_le_inv in Er. rewrite <- Ek in Er.
  destruct (Req_dec (B2R c) (-1)) as [C|C].
  - assert (K2 : B2R k = 2).
    { rewrite Ek, C. replace (1 - -1) with 2 by ring. apply round_generic; auto with typeclass_instances. apply (fmt_int 2). lia. }
    rewrite K2, C. replace (2 + -1) with 1 by ring. rewrite round_generic; [lra|auto with typeclass_instances|apply (fmt_int 1); lia].
  - assert (P : pred radix2 fexp 1 = 1 - u).
    { change 1 with (bpow radix2 0). rewrite pred_bpow by auto with typeclass_instances. f_equal. unfold FLT_exp. f_equal. lia. }
    assert (G1 : generic_format radix2 fexp 1) by (apply (fmt_int 1); lia).
    assert (C1 : - 1 + u <= B2R c).
    { apply Rabs_le_inv in Bc. assert (- B2R c <= pred radix2 fexp 1); [|lra].
      apply pred_ge_gt; auto with typeclass_instances; [apply generic_format_opp, generic_format_B2R|]. lra. }
    assert (1 - u <= rnd (B2R k + B2R c)); [|lra]. rewrite <- P. apply round_ge_generic; auto with typeclass_instances; [apply generic_format_pred; auto with typeclass_instances|]. rewrite P. lra.
Qed.

Lemma c126_angle_coordinate (angle : fl) j : is_finite angle = true -> (j < 3)%nat ->
  let axis : vec fl 3 := v3 (if Nat.eqb j 0 then n1 else n0) (if Nat.eqb j 1 then n1 else n0) (if Nat.eqb j 2 then n1 else n0) in
  is_finite (frot3angle arccos (frot3from_axis_angle L axis angle)) = true /\
  0 <= B2R (frot3angle arccos (frot3from_axis_angle L axis angle)) <= 4.
Proof.
  intros Fa Hj axis. rewrite angle_eq. set (c := m_cos L angle).
  assert (Fc : fb 0 c) by (exact (sp_cos L LS angle Fa)).
  destruct (ent_0 c Fc) as (F0 & E0). destruct (ent_1 c Fc) as (F1 & L1 & S1).
  pose proof (proj2 Fc) as Bc. change (bpow radix2 0) with 1 in Bc. apply Rabs_le_inv in Bc.
  assert (L0 : B2R (ent c n0) <= 1) by lra.
  assert (P : 0 <= rnd (B2R c + B2R (ent c n1))) by (apply (rnd_ge_int _ 0); [lia|exact S1]).
  destruct j as [|[|[|j]]]; [| | |lia]; subst axis; cbn [Nat.eqb].
  - match goal with |- context [arccos ?t] => change t with (targ (ent c n1) (ent c n0) (ent c n0)) end.
    apply (arc_acos _ _ _ LA); [apply targ_steps; assumption|]. apply Rabs_le. split; [|apply targ_le; assumption].
    apply targ_ge; try assumption. rewrite E0, (Rplus_comm (B2R (ent c n1))). lra.
  - match goal with |- context [arccos ?t] => change t with (targ (ent c n0) (ent c n1) (ent c n0)) end.
    apply (arc_acos _ _ _ LA); [apply targ_steps; assumption|]. apply Rabs_le. split; [|apply targ_le; assumption].
    apply targ_ge; try assumption. rewrite E0. lra.
  - match goal with |- context [arccos ?t] => change t with (targ (ent c n0) (ent c n0) (ent c n1)) end.
    apply (arc_acos _ _ _ LA); [apply targ_steps; assumption|]. apply Rabs_le. split; [|apply targ_le; assumption].
    apply targ_ge; try assumption. rewrite E0.
    assert (D : rnd (B2R c + B2R c) = B2R c + B2R c); [|rewrite D; lra].
    replace (B2R c + B2R c) with (B2R c * bpow radix2 1) by (change (bpow radix2 1) with 2; ring).
    apply round_generic; auto with typeclass_instances. apply mult_bpow_pos_exact_FLT; [apply generic_format_B2R|lia].
Qed.

Lemma cos_lip a b : Rabs (cos a - cos b) <= Rabs (a - b).
Proof.
  destruct (MVT_abs cos (fun x => - sin x) b a) as (c & E & _).
  - intros c _. apply derivable_pt_lim_cos.
  - rewrite E, Rabs_Ropp. assert (Rabs (sin c) <= 1) by (apply Rabs_le; destruct (SIN_bound c); lra).
    pose proof (Rabs_pos (a - b)). nra.
Qed.

Lemma targ_err (a b c : fl) r s t E : fb 3 a -> fb 3 b -> fb 3 c ->
  Rabs (B2R a - r) <= E -> Rabs (B2R b - s) <= E -> Rabs (B2R c - t) <= E ->
  Rabs r <= 1 -> Rabs s <= 1 -> Rabs t <= 1 -> E <= 4 ->
  Rabs (B2R (targ a b c) - (r + s + t - 1) / 2) <= 3 / 2 * E + 48 * u.
Proof.
  intros Fa Fb Fc Ea Eb Ec Br Bs Bt E4. rewrite (proj2 (targ_steps a b c Fa Fb Fc)). pose proof Hp as P0. unfold Prec_gt_0 in P0.
  pose proof (bpow_gt_0 radix2 (- prec)) as U0. pose proof (u_small H1) as US.
  apply Rabs_le_inv in Ea, Eb, Ec, Br, Bs, Bt.
  assert (S1 : Rabs (B2R a + B2R b) <= bpow radix2 4) by (change (bpow radix2 4) with 16; apply Rabs_le; lra).
  pose proof (rnd_err_half _ 4 ltac:(lia) S1) as X1. set (x1 := rnd (B2R a + B2R b)) in *. change (bpow radix2 4) with 16 in X1. apply Rabs_le_inv in X1.
  assert (S2 : Rabs (x1 + B2R c) <= bpow radix2 4) by (change (bpow radix2 4) with 16; apply Rabs_le; lra).
  pose proof (rnd_err_half _ 4 ltac:(lia) S2) as X2. set (x2 := rnd (x1 + B2R c)) in *. change (bpow radix2 4) with 16 in X2. apply Rabs_le_inv in X2.
  assert (S3 : Rabs (x2 - 1) <= bpow radix2 5) by (change (bpow radix2 5) with 32; apply Rabs_le; lra).
  pose proof (rnd_err_half _ 5 ltac:(lia) S3) as X3. set (x3 := rnd (x2 - 1)) in *. change (bpow radix2 5) with 32 in X3. apply Rabs_le_inv in X3.
  assert (S4 : Rabs (x3 / 2) <= bpow radix2 5) by (change (bpow radix2 5) with 32; apply Rabs_le; lra).
  pose proof (rnd_err_half _ 5 ltac:(lia) S4) as X4. set (x4 := rnd (x3 / 2)) in *. change (bpow radix2 5) with 32 in X4. apply Rabs_le_inv in X4.
  apply Rabs_le. lra.
Qed.

Lemma c126_angle (axis : vec fl 3) (angle : fl) (a : vec R 3) (t d : R) :
  0 <= d <= / 8 -> sum 3 (fun i => vat a i * vat a i)%R = 1 -> is_finite angle = true ->
  (forall i, (i < 3)%nat -> fnear (vat axis i) (vat a i) d /\ Rabs (B2R (vat axis i)) <= 1) ->
  fnear (m_sin L angle) (sin t) d -> fnear (m_cos L angle) (cos t) d ->
  -1 + 12 * d + 71 * u <= cos t ->
  let th := frot3angle arccos (frot3from_axis_angle L axis angle) in
  is_finite th = true /\ 0 <= B2R th <= 4 /\
  ((forall x, is_finite x = true -> Rabs (B2R x) <= 1 -> Rabs (B2R (arccos x) - acos (B2R x)) <= d) ->
   Rabs (cos (B2R th) - cos t) <= 13 * d + 71 * u).
Proof.
  intros Hd Ha Fan HA HS HC Ht th. subst th. rewrite angle_eq. set (c := m_cos L angle).
  pose proof (bpow_gt_0 radix2 (- prec)) as U0. pose proof (u_small H1) as US.
  assert (Fc : fb 0 c) by (exact (sp_cos L LS angle Fan)).
  assert (Fx : forall i, (i < 3)%nat -> fb 0 (vat axis i)).
  { intros i Hi. destruct (HA i Hi) as ((F & _) & B). split; [exact F|exact B]. }
  pose proof (fun i Hi => ent_le c (vat axis i) Fc (Fx i Hi)) as EN.
  pose proof (c124_axis_angle_matrix prec emax Hp He (m_sin L) (m_cos L) axis angle a t d H1 ltac:(lia) Hd Ha (fun i Hi => proj1 (HA i Hi)) HS HC) as AC.
  pose proof (AC 0%nat 0%nat ltac:(lia) ltac:(lia)) as (_ & A0). pose proof (AC 1%nat 1%nat ltac:(lia) ltac:(lia)) as (_ & A1). pose proof (AC 2%nat 2%nat ltac:(lia) ltac:(lia)) as (_ & A2). clear AC.
  change (mget (gm3from_axis_angle (m_sin L) (m_cos L) axis angle) 0 0) with (ent c (vat axis 0)) in A0.
  change (mget (gm3from_axis_angle (m_sin L) (m_cos L) axis angle) 1 1) with (ent c (vat axis 1)) in A1.
  change (mget (gm3from_axis_angle (m_sin L) (m_cos L) axis angle) 2 2) with (ent c (vat axis 2)) in A2.
  destruct (EN 0%nat ltac:(lia)) as (F0 & L0). destruct (EN 1%nat ltac:(lia)) as (F1 & L1). destruct (EN 2%nat ltac:(lia)) as (F2 & L2). clear EN.
  set (e0 := ent c (vat axis 0)) in *. set (e1 := ent c (vat axis 1)) in *. set (e2 := ent c (vat axis 2)) in *.
  assert (D : forall i, (i < 3)%nat -> vat (rodrigues a t (axis3 i)) i = (1 - cos t) * (vat a i * vat a i) + cos t).
  { intros i Hi. destruct a as [x [y [z []]]]. destruct i as [|[|[|i]]]; [| | |lia];
    cbv [rodrigues axis3 delta Nat.eqb sum vat vget fst snd v3 nadd nmul n0 n1 num_R]; ring. }
  rewrite D in A0, A1, A2 by lia. clear D.
  assert (Ha' : vat a 0 * vat a 0 + vat a 1 * vat a 1 + vat a 2 * vat a 2 = 1) by (revert Ha; cbv [sum nadd n0 num_R]; lra).
  assert (G : forall i, (i < 3)%nat -> Rabs ((1 - cos t) * (vat a i * vat a i) + cos t) <= 1).
  { intros i Hi. pose proof (COS_bound t) as CB. assert (0 <= vat a i * vat a i <= 1).
    { pose proof (Rle_0_sqr (vat a 0)) as X0. pose proof (Rle_0_sqr (vat a 1)) as X1. pose proof (Rle_0_sqr (vat a 2)) as X2. unfold Rsqr in X0, X1, X2.
      destruct i as [|[|[|i]]]; lra || lia. }
    apply Rabs_le. nra. }
  pose proof (targ_err e0 e1 e2 _ _ _ _ F0 F1 F2 A0 A1 A2 (G 0%nat ltac:(lia)) (G 1%nat ltac:(lia)) (G 2%nat ltac:(lia)) ltac:(lra)) as TE.
  replace (((1 - cos t) * (vat a 0 * vat a 0) + cos t + ((1 - cos t) * (vat a 1 * vat a 1) + cos t) + ((1 - cos t) * (vat a 2 * vat a 2) + cos t) - 1) / 2) with (cos t) in TE.
  2: { replace ((1 - cos t) * (vat a 0 * vat a 0) + cos t + ((1 - cos t) * (vat a 1 * vat a 1) + cos t) + ((1 - cos t) * (vat a 2 * vat a 2) + cos t))
       with ((1 - cos t) * (vat a 0 * vat a 0 + vat a 1 * vat a 1 + vat a 2 * vat a 2) + 3 * cos t) by ring. rewrite Ha'. lra. }
  destruct (targ_steps e0 e1 e2 F0 F1 F2) as (FT & _). pose proof (targ_le e0 e1 e2 F0 F1 F2 L0 L1 L2) as TL.
  set (x := targ e0 e1 e2) in *.
  assert (BX : Rabs (B2R x) <= 1) by (apply Rabs_le; apply Rabs_le_inv in TE; lra).
  destruct (arc_acos _ _ _ LA x FT BX) as (FA & BA). split; [exact FA|]. split; [exact BA|].
  intros AC. pose proof (AC x FT BX) as E. pose proof (cos_lip (B2R (arccos x)) (acos (B2R x))) as CL.
  rewrite cos_acos in CL by (apply Rabs_le_inv in BX; lra).
  replace (cos (B2R (arccos x)) - cos t) with ((cos (B2R (arccos x)) - B2R x) + (B2R x - cos t)) by ring.
  apply Rle_trans with (1 := Rabs_triang _ _). lra.
Qed.

Lemma fnneg_fb k (x : fl) : fb k x -> fb k (nneg x). Proof. apply fb_neg. Qed.

Lemma c126_euler (ax ay az : fl) : is_finite ax = true -> is_finite ay = true -> is_finite az = true ->
  let e := frot3euler_angles L arcsin (geuler_to_matrix (m_sin L) (m_cos L) ax ay az) in
  is_finite (fst (fst e)) = true /\ is_finite (snd (fst e)) = true /\ is_finite (snd e) = true /\
  snd (fst e) = arcsin (m_sin L ay).
Proof.
  intros Fx Fy Fz. pose proof Hp as P0. unfold Prec_gt_0 in P0.
  assert (A1 : fb 0 (m_sin L ax)) by exact (sp_sin L LS ax Fx). assert (A2 : fb 0 (m_cos L ax)) by exact (sp_cos L LS ax Fx).
  assert (B1 : fb 0 (m_sin L ay)) by exact (sp_sin L LS ay Fy). assert (B2 : fb 0 (m_cos L ay)) by exact (sp_cos L LS ay Fy).
  assert (C1 : fb 0 (m_sin L az)) by exact (sp_sin L LS az Fz). assert (C2 : fb 0 (m_cos L az)) by exact (sp_cos L LS az Fz).
  destruct (arc_asin _ _ _ LA _ (proj1 B1) (proj2 B1)) as (FY & _).
  assert (M : forall x y : fl, fb 0 x -> fb 0 y -> fb 0 (x * y)%N_) by (intros x y X Y; apply (fb_mul 0 0); auto; lia).
  assert (T : forall x y : fl, is_finite x = true -> is_finite y = true -> is_finite (m_atan2 L x y) = true) by (intros x y X Y; apply (sp_atan2 L LS x y X Y)).
  assert (N : forall x : fl, fb 0 x -> fb 0 (- x)%N_) by (intros x X; apply fb_neg; exact X).
  unfold frot3euler_angles, geuler_to_matrix. cbv zeta. cbv [mget mget_d vget fst snd m3new v3].
  destruct (nis0 _); cbv [fst snd]; repeat split; try reflexivity; try exact FY; apply T.
  - refine (fb_fin _ _ (proj1 (fb_add 0 _ _ _ _ _))); auto; lia.
  - refine (fb_fin _ _ (proj1 (fb_sub 0 _ _ _ _ _))); auto; lia.
  - apply (fb_fin 0). auto.
  - apply (fb_fin 0). auto.
  - apply (fb_fin 0). auto.
  - apply (fb_fin 0). auto.
Qed.
End ArcA.
