(** The quaternion logarithm and the rotation between two vectors never give NaN. *)

From Coq Require Import Arith ZArith Bool Lia Reals Lra.
From Flocq Require Import Core.Core IEEE754.BinarySingleNaN.
From Verif Require Import Base Scalar Spec LBase MVector LVector MMatrix MFloat MFloatVec MSign LFloat LFloatVec LComplexLP LLibmP SpecLibm
  MQuat MComplexF MRotF MTransform MArcF SpecArc LArc LArcN.
Local Open Scope R_scope.

Section ArcP.
Context {prec emax : Z} {Hp : Prec_gt_0 prec} {He : Prec_lt_emax prec emax}.
Notation fl := (binary_float prec emax).
Notation fexp := (FLT_exp (3 - emax - prec) prec).
Notation rnd := (round radix2 fexp ZnearestE).
Hypothesis H1 : (1 < prec)%Z.
Hypothesis H2 : (2 * prec <= emax)%Z.
Variable L : libm fl.
Variables arccos arcsin : fl -> fl.
Hypothesis LS : libm_special L.
Hypothesis LA : libm_arc L arccos arcsin.

Lemma feps_facts : is_finite (feps : fl) = true /\ B2R (feps : fl) = bpow radix2 (1 - prec).
Proof.
  pose proof Hp as P0. pose proof He as P2. unfold Prec_gt_0, Prec_lt_emax in P0, P2.
  pose proof (binary_normalize_correct prec emax Hp He mode_NE 1 (1 - prec) false) as C.
  assert (V : F2R (Float radix2 1 (1 - prec)) = bpow radix2 (1 - prec)) by (unfold F2R; cbn [Fnum Fexp]; lra).
  cbv zeta in C. rewrite V in C.
  assert (R : round radix2 (SpecFloat.fexp prec emax) (round_mode mode_NE) (bpow radix2 (1 - prec)) = bpow radix2 (1 - prec)).
  { apply (round_generic radix2 fexp ZnearestE). apply generic_format_bpow. unfold FLT_exp. lia. }
  rewrite R in C. rewrite Rlt_bool_true in C by (rewrite Rabs_pos_eq by apply bpow_ge_0; apply bpow_lt; lia). split; apply C.
Qed.
Lemma eps2_facts : nn (feps * feps : fl)%N_ /\ is_finite (feps * feps : fl)%N_ = true /\ B2R (feps * feps : fl)%N_ = bpow radix2 (2 - 2 * prec).
Proof.
  pose proof Hp as P0. pose proof He as P2. unfold Prec_gt_0, Prec_lt_emax in P0, P2.
  destruct feps_facts as (F & V).
  split; [apply nn_sq, fin_nn_nan, F|].
  assert (B : fb (1 - prec) (feps : fl)) by (split; [exact F|rewrite V, Rabs_pos_eq by apply bpow_ge_0; lra]).
  destruct (fb_mul _ _ _ _ B B ltac:(lia)) as (M & E). split; [apply M|]. rewrite E, V, <- bpow_plus.
  replace (1 - prec + (1 - prec))%Z with (2 - 2 * prec)%Z by lia.
  apply round_generic; auto with typeclass_instances. apply generic_format_bpow. unfold FLT_exp. lia.
Qed.

Lemma fabs_R (x : fl) : B2R (fabs x) = Rabs (B2R x) /\ is_finite (fabs x) = is_finite x.
Proof. unfold fabs. rewrite set_sign_R, set_sign_fin. split; reflexivity. Qed.

Lemma ln_abs (s : fl) : is_finite s = true -> is_nan (m_ln L (fabs s)) = false.
Proof.
  intros F. destruct (Req_dec (B2R s) 0) as [E|N].
  - replace (fabs s) with (B754_zero false : fl); [rewrite (sp_ln_0 L LS); reflexivity|].
    pose proof (fin_val0 s F E) as Z0. destruct s as [t|t| |t m e H]; try discriminate F; [reflexivity|].
    cbn in Z0. destruct t; discriminate Z0.
  - apply fin_nn_nan, (sp_ln L LS).
    + rewrite (proj2 (fabs_R s)). exact F.
    + rewrite (proj1 (fabs_R s)). apply Rabs_pos_lt, N.
Qed.

Lemma div_inf (x : fl) : is_finite x = true -> exists t, (x / B754_infinity false)%N_ = B754_zero t :> fl.
Proof. destruct x as [s|s| |s m e B]; try discriminate; intros _; cbn; eauto. Qed.
Lemma mul_zero (x : fl) t : is_finite x = true -> exists u, (x * B754_zero t)%N_ = B754_zero u :> fl.
Proof. destruct x as [s|s| |s m e B]; try discriminate; intros _; cbn; eauto. Qed.

Lemma sqrt_eps (N : fl) : nn N -> is_finite N = true -> bpow radix2 (2 - 2 * prec) < B2R N -> bpow radix2 (1 - prec) <= B2R (fsqrt N).
Proof.
  intros Nn F P. pose proof He as P2. unfold Prec_lt_emax in P2. destruct (sqrt_R N Nn F) as (_ & E). rewrite E.
  apply rnd_ge_bpow; [lia|]. apply Rle_trans with (sqrt (bpow radix2 (2 - 2 * prec))).
  - replace (2 - 2 * prec)%Z with ((1 - prec) + (1 - prec))%Z by lia. rewrite bpow_plus, sqrt_square by apply bpow_ge_0. lra.
  - apply sqrt_le_1_alt. lra.
Qed.

Lemma af {n} {v : vec fl n} {i} : all_finite v -> (i < n)%nat -> is_finite (vat v i) = true.
Proof. intros A Hi. exact (A i Hi). Qed.
Lemma v3_finite (v : vec fl 3) : all_finite v -> is_finite (vat v 0) = true /\ is_finite (vat v 1) = true /\ is_finite (vat v 2) = true.
Proof. intros A. repeat split; apply A; lia. Qed.

Lemma norm_v_le (s x y z : fl) : is_finite s = true -> is_finite x = true -> is_finite y = true -> is_finite z = true ->
  fle (fvnorm (v3 x y z)) (fvnorm (v4 s x y z)).
Proof.
  intros Fs Fx Fy Fz. apply fin_nn_nan in Fs, Fx, Fy, Fz. unfold fvnorm.
  change (vnorm_squared (v4 s x y z)) with (n0 + s * s + x * x + y * y + z * z)%N_.
  change (vnorm_squared (v3 x y z)) with (n0 + x * x + y * y + z * z)%N_.
  assert (S : forall t : fl, is_nan t = false -> nn (t * t)%N_) by (intros; apply nn_sq; assumption).
  pose proof (@nn_0 prec emax _ _) as N0.
  assert (A : forall a b : fl, nn a -> nn b -> nn (a + b)%N_) by (intros; apply nn_add; assumption).
  apply fle_sqrt; [repeat first [apply A|apply S|assumption]..|].
  do 3 (apply fle_add_mono; [repeat first [apply A|apply S|assumption]..|]).
  apply fle_add_l; auto.
Qed.

Lemma c126_ln (q : quat fl) : all_finite (q : vec fl 4) ->
  is_nan (vat (fqln L arccos q : vec fl 4) 0) = false /\
  forall i, (i < 3)%nat -> is_finite (vat (fqln L arccos q : vec fl 4) (S i)) = true /\ Rabs (B2R (vat (fqln L arccos q : vec fl 4) (S i))) <= 8.
Proof.
  intros A. pose proof Hp as P0. pose proof He as P2. unfold Prec_gt_0, Prec_lt_emax in P0, P2.
  destruct q as (s & x & y & z & []).
  pose proof (A 0%nat ltac:(lia)) as Fs. pose proof (A 1%nat ltac:(lia)) as Fx. pose proof (A 2%nat ltac:(lia)) as Fy. pose proof (A 3%nat ltac:(lia)) as Fz.
  cbn in Fs, Fx, Fy, Fz. clear A.
  unfold fqln, fqln_eps. cbv zeta. change (qvector (s, (x, (y, (z, tt))))) with (v3 x y z). change (qscalar (s, (x, (y, (z, tt))))) with s.
  assert (Av : all_finite (v3 x y z)) by (intros [|[|[|i]]] Hi; cbn; auto; lia).
  assert (Nv : nn (vnorm_squared (v3 x y z))).
  { rewrite vnorm2_sum. apply nn_sum. intros i Hi. apply fin_nn_nan, Av, Hi. }
  destruct eps2_facts as (Ne & Fe & Ve).
  destruct (Bleb _ _) eqn:B.
  { split; [apply ln_abs, Fs|]. intros [|[|[|i]]] Hi; [| | |lia]; (split; [reflexivity|cbn; rewrite Rabs_R0; lra]). }
  apply leb_nn_false in B; auto. rewrite Ve in B.
  change (fqnorm (s, (x, (y, (z, tt))))) with (fvnorm (v4 s x y z)).
  pose proof (norm_v_le s x y z Fs Fx Fy Fz) as Lv.
  set (norm := fvnorm (v4 s x y z)) in *. change (fsqrt (vnorm_squared (v3 x y z))) with (fvnorm (v3 x y z)).
  assert (Nn : nn norm).
  { unfold norm, fvnorm. apply nn_sqrt. rewrite vnorm2_sum. apply nn_sum. intros [|[|[|[|i]]]] Hi; try lia; apply fin_nn_nan; assumption. }
  assert (Hn : norm = B754_infinity false \/ is_finite norm = true /\ bpow radix2 (1 - prec) <= B2R norm /\ Rabs (B2R s) <= B2R norm).
  { destruct (nn_cases norm Nn) as [E|(Fn & _)]; [left; exact E|right]. split; [exact Fn|].
    destruct Lv as [E|(Fv & _ & Lv)]; [rewrite E in Fn; discriminate Fn|].
    assert (Le : bpow radix2 (1 - prec) <= B2R norm).
    { apply Rle_trans with (2 := Lv). pose proof (fsqrt_finite _ Fv) as Fq. destruct B as [B|(_ & B)]; [rewrite B in Fq; discriminate Fq|].
      apply sqrt_eps; assumption. }
    split; [exact Le|]. destruct (Rle_lt_dec (Rabs (B2R s)) (bpow radix2 (1 - prec))) as [C|C]; [lra|].
    destruct (comp_le_fnorm H1 H2 4 (v4 s x y z) 0 ltac:(lia)) as [E|(_ & E)].
    - intros [|[|[|[|i]]]] Hi; cbn; auto; lia.
    - change (vat (v4 s x y z) 0) with s. lra.
    - fold norm in E. rewrite E in Fn. discriminate Fn.
    - exact E. }
  assert (Hq : is_finite (s / norm)%N_ = true /\ Rabs (B2R (s / norm)%N_) <= 1).
  { destruct Hn as [E|(Fn & Le & Ls)].
    - rewrite E. destruct (div_inf s Fs) as (t & ->). split; [reflexivity|]. cbn. rewrite Rabs_R0. lra.
    - pose proof (bpow_gt_0 radix2 (1 - prec)) as Pb. cbn [ndiv numdiv_float].
      pose proof (Bdiv_correct prec emax _ _ mode_NE s norm ltac:(lra)) as C. change (round_mode mode_NE) with ZnearestE in C.
      assert (Q : Rabs (B2R s / B2R norm) <= bpow radix2 0).
      { unfold Rdiv. rewrite Rabs_mult, Rabs_inv, (Rabs_pos_eq (B2R norm)) by lra. cbn. apply Rmult_le_reg_r with (B2R norm); [lra|].
        rewrite Rmult_assoc, Rinv_l by lra. lra. }
      rewrite Rlt_bool_true in C by (apply (lt_emax 0); [lia|exact Q]). destruct C as (E & F & _). split; [rewrite F; exact Fs|].
      rewrite E. apply (rnd_le_bpow _ 0); [lia|exact Q]. }
  destruct (arc_acos _ _ _ LA _ (proj1 Hq) (proj2 Hq)) as (Fa & Ba). set (ac := arccos (s / norm)%N_) in *.
  split.
  { cbn. destruct Hn as [E|(Fn & Le & _)]; [rewrite E, (sp_ln_inf L LS); reflexivity|].
    apply fin_nn_nan, (sp_ln L LS); [exact Fn|]. pose proof (bpow_gt_0 radix2 (1 - prec)). lra. }
  assert (W : forall t i, (i < 3)%nat -> t = vat (v3 x y z) i -> is_finite (t * (ac / fvnorm (v3 x y z)))%N_ = true /\ Rabs (B2R (t * (ac / fvnorm (v3 x y z)))%N_) <= 8).
  { intros t i Hi ->. destruct B as [E|(F & P)].
    - replace (fvnorm (v3 x y z)) with (B754_infinity false : fl) by (unfold fvnorm; rewrite E; reflexivity).
      destruct (div_inf ac Fa) as (t & ->). destruct (mul_zero (vat (v3 x y z) i) t (af Av Hi)) as (u & ->).
      split; [reflexivity|]. cbn. rewrite Rabs_R0. lra.
    - pose proof (bpow_gt_0 radix2 (2 - 2 * prec)) as Pb.
      destruct (norm_scale H1 H2 3 (v3 x y z) Av F ltac:(lra)) as (k & K & Fn & (Nl & _) & (_ & Nu) & C).
      assert (K2 : (2 - 2 * prec < 2 * k + 2)%Z) by (apply (lt_bpow radix2); lra).
      assert (Na : bpow radix2 k <= Rabs (B2R (fvnorm (v3 x y z)))) by (apply Rle_trans with (1 := Nl), Rle_abs).
      assert (A2 : fb 2 ac) by (split; [exact Fa|rewrite Rabs_pos_eq by lra; cbn; lra]).
      destruct (fb_div 2 k ac _ A2 Na ltac:(lia)) as (D & _).
      assert (Fi : fb (k + 1) (vat (v3 x y z) i)) by (split; [exact (Av i Hi)|exact (C i Hi)]).
      destruct (fb_mul _ _ _ _ Fi D ltac:(lia)) as (M & _). replace (k + 1 + (2 - k))%Z with 3%Z in M by lia. destruct M as (M1 & M2). split; [exact M1|].
      change (bpow radix2 3) with 8 in M2. exact M2. }
  intros [|[|[|i]]] Hi; [| | |lia]; cbn -[ndiv nmul fvnorm v3]; apply (W _ _ Hi); reflexivity.
Qed.
End ArcP.
