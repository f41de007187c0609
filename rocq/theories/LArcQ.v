(** The rotation between two finite vectors has finite components. *)

From Coq Require Import Arith ZArith Bool Lia Reals Lra.
From Flocq Require Import Core.Core IEEE754.BinarySingleNaN.
From Verif Require Import Base Scalar Spec SpecF SpecDrift SpecRotF LBase MVector LVector MMatrix MFloat MFloatVec MSign LFloat LFloatVec LComplexHP LComplexLP LLibmP SpecLibm
  MQuat MComplexF MRotF MTransform MArcF SpecArc LArc LArcN LArcP LRotFP.
Local Open Scope R_scope.

Section ArcQ.
Context {prec emax : Z} {Hp : Prec_gt_0 prec} {He : Prec_lt_emax prec emax}.
Notation fl := (binary_float prec emax).
Notation fexp := (FLT_exp (3 - emax - prec) prec).
Notation rnd := (round radix2 fexp ZnearestE).
Hypothesis H1 : (24 <= prec)%Z.
Hypothesis H2 : (2 * prec <= emax)%Z.
Variable L : libm fl.
Variables arccos arcsin : fl -> fl.
Hypothesis LS : libm_special L.
Hypothesis LA : libm_arc L arccos arcsin.
Let h1 : (1 < prec)%Z. Proof. lia. Qed.

Lemma nn_norm2 n (v : vec fl n) : all_finite v -> nn (vnorm_squared v).
Proof. intros A. rewrite vnorm2_sum. apply nn_sum. intros i Hi. apply fin_nn_nan, A, Hi. Qed.

Lemma try_unit_fb n (v u : vec fl n) (t : fl) : all_finite v -> is_finite t = true -> fvtry_unit v t = Some u ->
  forall i, (i < n)%nat -> fb 1 (vat u i).
Proof.
  intros A Ft. unfold fvtry_unit. cbv zeta. destruct (Bltb _ _) eqn:B; [|discriminate]. intros E; injection E as <-.
  apply normalize_fb; auto. pose proof (nn_norm2 n v A) as N. pose proof (nn_sq t (fin_nn_nan t Ft)) as Nt.
  destruct (ltb_nn _ _ Nt N B) as [E|(F1 & F2 & P)]; [left; exact E|right]. split; [exact F2|].
  destruct (nn_cases _ Nt) as [E|(_ & P')]; [rewrite E in F1; discriminate F1|]. lra.
Qed.

(** A vector that is longer than epsilon has a normalised component that is not small. *)
Lemma try_unit_big (v u : vec fl 3) (t : fl) : (forall i, (i < 3)%nat -> fb 3 (vat v i)) -> fvtry_unit v feps = Some u ->
  exists i, (i < 3)%nat /\ bpow radix2 (- 3) <= Rabs (B2R (vat u i)).
Proof.
  intros A. pose proof Hp as P0. pose proof He as P2. unfold Prec_gt_0, Prec_lt_emax in P0, P2.
  assert (Af : all_finite v) by (intros i Hi; apply (fb_fin 3), A, Hi).
  unfold fvtry_unit. cbv zeta. destruct (Bltb _ _) eqn:B; [|discriminate]. intros E; injection E as <-.
  destruct (@eps2_facts prec emax _ _ h1 H2) as (Ne & Fe & Ve).
  pose proof (nn_norm2 3 v Af) as N.
  assert (Sq : forall j i, (3 - emax - prec <= j)%Z -> (2 * j < emax)%Z -> (4 - emax - prec <= 2 * j)%Z -> (i < 3)%nat -> Rabs (B2R (vat v i)) <= bpow radix2 j -> fb (2 * j) (vat v i * vat v i)%N_).
  { intros j i J1 J2 J3 Hi C. assert (Fi : fb j (vat v i)) by (split; [exact (Af i Hi)|exact C]).
    destruct (fb_mul j j _ _ Fi Fi ltac:(lia)) as (M & _). replace (2 * j)%Z with (j + j)%Z by lia. exact M. }
  assert (Sum : forall j, (- prec - 4 <= j <= 3)%Z -> (forall i, (i < 3)%nat -> Rabs (B2R (vat v i)) <= bpow radix2 j) -> fb (2 * j + 3) (vnorm_squared v)).
  { intros j J C. change (vnorm_squared v) with (n0 + vat v 0 * vat v 0 + vat v 1 * vat v 1 + vat v 2 * vat v 2)%N_.
    pose proof (Sq j 0%nat ltac:(lia) ltac:(lia) ltac:(lia) ltac:(lia) (C 0%nat ltac:(lia))) as S0.
    pose proof (Sq j 1%nat ltac:(lia) ltac:(lia) ltac:(lia) ltac:(lia) (C 1%nat ltac:(lia))) as S1.
    pose proof (Sq j 2%nat ltac:(lia) ltac:(lia) ltac:(lia) ltac:(lia) (C 2%nat ltac:(lia))) as S2.
    destruct (fb_add (2 * j) n0 _ (fb_0 _) S0 ltac:(lia)) as (A0 & _).
    destruct (fb_add (2 * j + 1) _ _ A0 (fb_weak (2 * j) (2 * j + 1) _ S1 ltac:(lia)) ltac:(lia)) as (A1 & _).
    destruct (fb_add (2 * j + 1 + 1) _ _ A1 (fb_weak (2 * j) (2 * j + 1 + 1) _ S2 ltac:(lia)) ltac:(lia)) as (A2 & _).
    apply fb_weak with (1 := A2). lia. }
  assert (F : is_finite (vnorm_squared v) = true) by (apply (fb_fin (2 * 3 + 3)), Sum; [lia|]; intros i Hi; apply A, Hi).
  destruct (ltb_nn _ _ Ne N B) as [E|(_ & _ & P)]; [rewrite E in F; discriminate F|]. rewrite Ve in P.
  pose proof (bpow_gt_0 radix2 (2 - 2 * prec)) as Pb.
  destruct (norm_scale h1 H2 3 v Af F ltac:(lra)) as (k & K & Fn & (Nl & Nu) & (Sl & Su) & C).
  assert (K2 : (2 - 2 * prec < 2 * k + 2)%Z) by (apply (lt_bpow radix2); lra).
  assert (K3 : (2 * k <= 9)%Z).
  { apply (le_bpow radix2). apply Rle_trans with (1 := Sl). apply Rle_trans with (1 := Rle_abs _). apply (Sum 3%Z); [lia|]. intros i Hi. apply A, Hi. }
  assert (Big : exists i, (i < 3)%nat /\ bpow radix2 (k - 2) <= Rabs (B2R (vat v i))).
  { destruct (Rle_lt_dec (bpow radix2 (k - 2)) (Rabs (B2R (vat v 0)))) as [D0|D0]; [exists 0%nat; auto with arith|].
    destruct (Rle_lt_dec (bpow radix2 (k - 2)) (Rabs (B2R (vat v 1)))) as [D1|D1]; [exists 1%nat; auto with arith|].
    destruct (Rle_lt_dec (bpow radix2 (k - 2)) (Rabs (B2R (vat v 2)))) as [D2|D2]; [exists 2%nat; auto with arith|].
    exfalso. destruct (Sum (k - 2)%Z ltac:(lia)) as (_ & G).
    { intros [|[|[|i]]] Hi; lra || lia. }
    apply (Rle_trans _ _ _ (Rle_abs _)) in G. replace (2 * (k - 2) + 3)%Z with (2 * k - 1)%Z in G by lia.
    pose proof (bpow_lt radix2 (2 * k - 1) (2 * k) ltac:(lia)). lra. }
  destruct Big as (i & Hi & D). exists i. split; [exact Hi|]. rewrite normalize_at by exact Hi.
  assert (Na : bpow radix2 k <= Rabs (B2R (fvnorm v))) by (apply Rle_trans with (1 := Nl), Rle_abs).
  destruct (fb_div 0 k (1%N_ : fl) (fvnorm v) (fb_1 0 ltac:(lia)) Na ltac:(lia)) as (Dv & Ev).
  assert (Lr : bpow radix2 (- (k + 1)) <= B2R (1 / fvnorm v)%N_).
  { rewrite Ev. apply rnd_ge_bpow; [lia|]. destruct (@one_facts prec emax _ _) as (_ & -> & _).
    rewrite bpow_opp. unfold Rdiv. rewrite Rmult_1_l. apply Rinv_le_contravar; [|exact Nu].
    pose proof (bpow_gt_0 radix2 k). lra. }
  assert (Fi : fb (k + 1) (vat v i)) by (split; [exact (Af i Hi)|exact (C i Hi)]).
  destruct (fb_mul (k + 1) (0 - k) (vat v i) (1 / fvnorm v)%N_ Fi Dv ltac:(lia)) as (_ & Em). rewrite Em.
  rewrite <- round_NE_abs by auto with typeclass_instances. apply rnd_ge_bpow; [lia|].
  rewrite Rabs_mult. pose proof (bpow_gt_0 radix2 (- (k + 1))). rewrite (Rabs_pos_eq (B2R (1 / fvnorm v)%N_)) by lra.
  apply Rle_trans with (bpow radix2 (k - 2) * bpow radix2 (- (k + 1))); [rewrite <- bpow_plus; apply bpow_le; lia|].
  apply Rmult_le_compat; auto using bpow_ge_0.
Qed.

Lemma half_val : fb (- 1) (1 / (1 + 1) : fl)%N_.
Proof.
  pose proof Hp as P0. pose proof He as P2. unfold Prec_gt_0, Prec_lt_emax in P0, P2.
  destruct (@two_val prec emax _ _) as (F & V).
  destruct (fb_div 0 1 (1%N_ : fl) (1 + 1)%N_ (fb_1 0 ltac:(lia))) as (D & _); [rewrite V, Rabs_pos_eq; cbn; lra|lia|exact D].
Qed.

(** [from_axis_angle] for an axis with components up to 2 and a finite angle. *)
Lemma axis_angle_q (axis : vec fl 3) (a : fl) : (forall i, (i < 3)%nat -> fb 1 (vat axis i)) -> fb 2 a ->
  let q := gqfrom_axis_angle (m_sin L) (m_cos L) axis a in
  (forall i, (i < 4)%nat -> fb 1 (vat (q : vec fl 4) i)) /\
  ((exists i, (i < 3)%nat /\ bpow radix2 (- 3) <= Rabs (B2R (vat axis i))) ->
   exists i, (i < 4)%nat /\ bpow radix2 (- 4) <= Rabs (B2R (vat (q : vec fl 4) i))).
Proof.
  intros A Fa. pose proof Hp as P0. pose proof He as P2. unfold Prec_gt_0, Prec_lt_emax in P0, P2.
  destruct (fb_mul 2 (- 1) a _ Fa half_val ltac:(lia)) as (Fh & _).
  unfold gqfrom_axis_angle. cbv zeta. set (h := (a * (1 / (1 + 1)))%N_) in *.
  destruct (sp_sin L LS h (fb_fin _ _ Fh)) as (Fs & Bs). destruct (sp_cos L LS h (fb_fin _ _ Fh)) as (Fc & Bc).
  set (s := m_sin L h) in *. set (c := m_cos L h) in *.
  assert (S0 : fb 0 s) by (split; [exact Fs|exact Bs]). assert (C0 : fb 0 c) by (split; [exact Fc|exact Bc]).
  assert (M : forall i, (i < 3)%nat -> fb 1 (vat axis i * s)%N_ /\ B2R (vat axis i * s)%N_ = rnd (B2R (vat axis i) * B2R s)).
  { intros i Hi. destruct (fb_mul 1 0 _ _ (A i Hi) S0 ltac:(lia)) as (M1 & M2). split; [exact M1|exact M2]. }
  split.
  - intros [|[|[|[|i]]]] Hi; [apply fb_weak with 0%Z; [exact C0|lia]|apply (M 0%nat); lia|apply (M 1%nat); lia|apply (M 2%nat); lia|lia].
  - intros (i & Hi & Bi). pose proof (arc_pythagoras _ _ _ LA h (fb_fin _ _ Fh)) as Py. fold s c in Py.
    destruct (Rle_lt_dec (bpow radix2 (- 4)) (Rabs (B2R c))) as [D|D]; [exists 0%nat; split; [lia|exact D]|].
    assert (Sb : / 2 <= Rabs (B2R s)).
    { change (bpow radix2 (-4)) with (/ 16) in D. apply Rnot_lt_le. intros X.
      assert (B2R s * B2R s <= / 2 * / 2).
      { replace (B2R s * B2R s) with (Rabs (B2R s) * Rabs (B2R s)) by (rewrite <- Rabs_mult; apply Rabs_pos_eq; nra).
        pose proof (Rabs_pos (B2R s)). nra. }
      assert (B2R c * B2R c <= / 16 * / 16).
      { replace (B2R c * B2R c) with (Rabs (B2R c) * Rabs (B2R c)) by (rewrite <- Rabs_mult; apply Rabs_pos_eq; nra).
        pose proof (Rabs_pos (B2R c)). nra. }
      lra. }
    exists (S i). split; [lia|].
    assert (G : bpow radix2 (- 4) <= Rabs (B2R (vat axis i * s)%N_)).
    { rewrite (proj2 (M i Hi)). rewrite <- round_NE_abs by auto with typeclass_instances. apply rnd_ge_bpow; [lia|].
      rewrite Rabs_mult. apply Rle_trans with (bpow radix2 (- 3) * / 2); [change (bpow radix2 (- 3)) with (/ 8); change (bpow radix2 (- 4)) with (/ 16); lra|].
      apply Rmult_le_compat; auto using bpow_ge_0; lra. }
    destruct i as [|[|[|i]]]; [exact G|exact G|exact G|lia].
Qed.

Lemma dot_fb (u v : vec fl 3) : (forall i, (i < 3)%nat -> fb 1 (vat u i)) -> (forall i, (i < 3)%nat -> fb 1 (vat v i)) -> fb 5 (vdot u v).
Proof.
  intros A B. pose proof Hp as P0. pose proof He as P2. unfold Prec_gt_0, Prec_lt_emax in P0, P2.
  change (vdot u v) with (n0 + vat u 0 * vat v 0 + vat u 1 * vat v 1 + vat u 2 * vat v 2)%N_.
  assert (M : forall i, (i < 3)%nat -> fb 2 (vat u i * vat v i)%N_) by (intros i Hi; apply (fb_mul 1 1); auto; lia).
  destruct (fb_add 2 n0 _ (fb_0 _) (M 0%nat ltac:(lia)) ltac:(lia)) as (A0 & _).
  destruct (fb_add 3 _ _ A0 (fb_weak 2 3 _ (M 1%nat ltac:(lia)) ltac:(lia)) ltac:(lia)) as (A1 & _).
  destruct (fb_add 4 _ _ A1 (fb_weak 2 4 _ (M 2%nat ltac:(lia)) ltac:(lia)) ltac:(lia)) as (A2 & _). exact A2.
Qed.
Lemma cross_fb (u v : vec fl 3) : (forall i, (i < 3)%nat -> fb 1 (vat u i)) -> (forall i, (i < 3)%nat -> fb 1 (vat v i)) ->
  forall i, (i < 3)%nat -> fb 3 (vat (vcross u v) i).
Proof.
  intros A B. pose proof Hp as P0. pose proof He as P2. unfold Prec_gt_0, Prec_lt_emax in P0, P2.
  assert (M : forall i j, (i < 3)%nat -> (j < 3)%nat -> fb 2 (vat u i * vat v j)%N_) by (intros i j Hi Hj; apply (fb_mul 1 1); auto; lia).
  intros [|[|[|i]]] Hi; [| | |lia]; refine (proj1 (fb_sub 2 _ _ _ _ _)); try apply M; lia.
Qed.

Lemma q_identity i : (i < 4)%nat -> fb 1 (vat (qidentity : vec fl 4) i).
Proof. intros Hi. destruct i as [|[|[|[|i]]]]; [apply fb_1; lia|apply fb_0|apply fb_0|apply fb_0|lia]. Qed.

Lemma between_axis (v1 v2 : vec fl 3) (q : quat fl) :
  (forall i, (i < 3)%nat -> fb 1 (vat v1 i)) -> (forall i, (i < 3)%nat -> fb 1 (vat v2 i)) ->
  fqrotation_between_axis L arccos v1 v2 = Some q ->
  (forall i, (i < 4)%nat -> fb 1 (vat (q : vec fl 4) i)) /\ exists i, (i < 4)%nat /\ bpow radix2 (- 4) <= Rabs (B2R (vat (q : vec fl 4) i)).
Proof.
  intros A B. destruct (@one_facts prec emax _ _) as (Fo & Vo & _).
  assert (Id : Some qidentity = Some q -> (forall i, (i < 4)%nat -> fb 1 (vat (q : vec fl 4) i)) /\ exists i, (i < 4)%nat /\ bpow radix2 (- 4) <= Rabs (B2R (vat (q : vec fl 4) i))).
  { intros E; injection E as <-. split; [apply q_identity|]. exists 0%nat. split; [lia|].
    change (vat (qidentity : vec fl 4) 0) with (1%N_ : fl). rewrite Vo, Rabs_R1. change (bpow radix2 (-4)) with (/ 16). lra. }
  unfold fqrotation_between_axis. cbv zeta. pose proof (cross_fb v1 v2 A B) as Cr. pose proof (dot_fb v1 v2 A B) as Dt.
  destruct (fvtry_unit (vcross v1 v2) feps) as [axis|] eqn:U; [|destruct (Bltb _ _); [discriminate|exact Id]].
  assert (Ac : all_finite (vcross v1 v2)) by (intros i Hi; apply (fb_fin 3), Cr, Hi).
  pose proof (try_unit_fb 3 _ _ _ Ac (proj1 (@feps_facts prec emax _ _ h1 H2)) U) as Ax.
  pose proof (try_unit_big _ _ n0 Cr U) as Bg.
  destruct (Bleb (vdot v1 v2) (nneg n1)) eqn:B1; [discriminate|]. destruct (Bleb n1 (vdot v1 v2)) eqn:B2; [exact Id|].
  intros E; injection E as <-. destruct Dt as (Fd & _).
  assert (Fm : is_finite (nneg n1 : fl) = true) by (cbn [nneg num_float]; rewrite is_finite_Bopp; exact Fo).
  rewrite Bleb_correct in B1 by assumption. rewrite Bleb_correct in B2 by assumption.
  revert B1 B2. case Rle_bool_spec; [discriminate|intros B1 _]. case Rle_bool_spec; [discriminate|intros B2 _].
  cbn [nneg num_float] in B1. rewrite B2R_Bopp in B1. change (Bone : fl) with (1%N_ : fl) in B1. change (Bone : fl) with (1%N_ : fl) in B2.
  rewrite Vo in B1, B2.
  destruct (arc_acos _ _ _ LA _ Fd) as (Fa & Ba); [apply Rabs_le; lra|].
  assert (Fa2 : fb 2 (arccos (vdot v1 v2))) by (split; [exact Fa|rewrite Rabs_pos_eq by lra; change (bpow radix2 2) with 4; lra]).
  destruct (axis_angle_q axis _ Ax Fa2) as (Q1 & Q2). split; [exact Q1|]. apply Q2, Bg.
Qed.

Lemma between (v1 v2 : vec fl 3) (q : quat fl) : all_finite v1 -> all_finite v2 -> fqrotation_between L arccos v1 v2 = Some q ->
  (forall i, (i < 4)%nat -> fb 1 (vat (q : vec fl 4) i)) /\ exists i, (i < 4)%nat /\ bpow radix2 (- 4) <= Rabs (B2R (vat (q : vec fl 4) i)).
Proof.
  intros A B. destruct (@one_facts prec emax _ _) as (Fo & Vo & _).
  assert (Id : Some qidentity = Some q -> (forall i, (i < 4)%nat -> fb 1 (vat (q : vec fl 4) i)) /\ exists i, (i < 4)%nat /\ bpow radix2 (- 4) <= Rabs (B2R (vat (q : vec fl 4) i))).
  { intros E; injection E as <-. split; [apply q_identity|]. exists 0%nat. split; [lia|].
    change (vat (qidentity : vec fl 4) 0) with (1%N_ : fl). rewrite Vo, Rabs_R1. change (bpow radix2 (-4)) with (/ 16). lra. }
  unfold fqrotation_between. destruct (fvtry_unit v1 n0) as [u1|] eqn:U1; [|exact Id]. destruct (fvtry_unit v2 n0) as [u2|] eqn:U2; [|exact Id].
  apply between_axis; [apply (try_unit_fb 3 v1 u1 n0)|apply (try_unit_fb 3 v2 u2 n0)]; auto.
Qed.

Lemma c126_rotation_between (v1 v2 : vec fl 3) : all_finite v1 -> all_finite v2 ->
  (forall q, fqrotation_between L arccos v1 v2 = Some q -> all_finite (q : vec fl 4)) /\
  (forall r, frot3rotation_between L arccos v1 v2 = Some r -> forall j i, (j < 3)%nat -> (i < 3)%nat -> is_finite (mget r j i) = true).
Proof.
  intros A B. split.
  - intros q E i Hi. apply (fb_fin 1). apply (between v1 v2 q A B E). exact Hi.
  - unfold frot3rotation_between. destruct (fqrotation_between L arccos v1 v2) as [q|] eqn:E; [|discriminate].
    cbn [option_map]. intros r X; injection X as <-. destruct (between v1 v2 q A B E) as (F & i0 & Hi0 & G).
    intros j i Hj Hi. refine (proj1 (c124_quaternion_matrix prec emax Hp He 4 q H1 _ _ _ _ j i Hj Hi)); try lia.
    + intros m Hm. apply (fb_fin 1), F, Hm.
    + unfold qlength.
      assert (Sq : forall m, (m < 4)%nat -> 0 <= B2R (vat (q : vec fl 4) m) * B2R (vat (q : vec fl 4) m) <= 4).
      { intros m Hm. destruct (F m Hm) as (_ & Bm). change (bpow radix2 1) with 2 in Bm. apply Rabs_le_inv in Bm. nra. }
      assert (Lo : / 16 * / 16 <= B2R (vat (q : vec fl 4) i0) * B2R (vat (q : vec fl 4) i0)).
      { change (bpow radix2 (-4)) with (/ 16) in G.
        replace (B2R (vat (q : vec fl 4) i0) * B2R (vat (q : vec fl 4) i0)) with (Rabs (B2R (vat (q : vec fl 4) i0)) * Rabs (B2R (vat (q : vec fl 4) i0))) by (rewrite <- Rabs_mult; apply Rabs_pos_eq; nra).
        nra. }
      pose proof (Sq 0%nat ltac:(lia)). pose proof (Sq 1%nat ltac:(lia)). pose proof (Sq 2%nat ltac:(lia)). pose proof (Sq 3%nat ltac:(lia)).
      split; [apply Rle_trans with (/ 16); [right; reflexivity|]|apply Rle_trans with 16; [|right; reflexivity]].
      * rewrite <- (sqrt_square (/ 16)) by lra. apply sqrt_le_1_alt. destruct i0 as [|[|[|[|i0]]]]; lra || lia.
      * rewrite <- (sqrt_square 16) by lra. apply sqrt_le_1_alt. lra.
Qed.
End ArcQ.
