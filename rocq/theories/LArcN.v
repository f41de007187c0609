(** Normalisation of arbitrary finite vectors; the components of the result. *)

From Coq Require Import Arith ZArith Bool Lia Reals Lra.
From Flocq Require Import Core.Core IEEE754.BinarySingleNaN.
From Verif Require Import Base Scalar Spec LBase MVector LVector MFloat MFloatVec LFloat LFloatVec LComplexLP LLibmP MQuat MComplexF MArcF SpecArc LArc.
Local Open Scope R_scope.

Section ArcN.
Context {prec emax : Z} {Hp : Prec_gt_0 prec} {He : Prec_lt_emax prec emax}.
Notation fl := (binary_float prec emax).
Notation fexp := (FLT_exp (3 - emax - prec) prec).
Notation rnd := (round radix2 fexp ZnearestE).
Hypothesis H1 : (1 < prec)%Z.
Hypothesis H2 : (2 * prec <= emax)%Z.

Lemma fin_nn_nan (x : fl) : is_finite x = true -> is_nan x = false.
Proof. destruct x; try discriminate; reflexivity. Qed.

Lemma ltb_nn (a b : fl) : nn a -> nn b -> Bltb a b = true ->
  b = B754_infinity false \/ is_finite a = true /\ is_finite b = true /\ B2R a < B2R b.
Proof.
  intros Na Nb H. destruct (nn_cases b Nb) as [E|(Fb & Pb)]; [left; exact E|right].
  destruct (nn_cases a Na) as [E|(Fa & Pa)].
  { subst a. destruct b as [s|s| |s m e B]; try discriminate Fb; discriminate H. }
  repeat split; auto. rewrite Bltb_correct in H by assumption. revert H. case Rlt_bool_spec; [auto|discriminate].
Qed.
Lemma leb_nn_false (a b : fl) : nn a -> nn b -> is_finite b = true -> Bleb a b = false ->
  a = B754_infinity false \/ is_finite a = true /\ B2R b < B2R a.
Proof.
  intros Na Nb Fb H. destruct (nn_cases a Na) as [E|(Fa & Pa)]; [left; exact E|right]. split; [exact Fa|].
  rewrite Bleb_correct in H by assumption. revert H. case Rle_bool_spec; [discriminate|auto].
Qed.

Lemma rnd_ge_bpow r k : (3 - emax - prec <= k)%Z -> bpow radix2 k <= r -> bpow radix2 k <= rnd r.
Proof.
  clear H1 H2. intros K H. apply round_ge_generic; auto with typeclass_instances. apply generic_format_bpow. unfold FLT_exp. unfold Prec_gt_0 in Hp. lia.
Qed.

(** [norm] is within a factor two of 2^k; no component is much larger. *)
Lemma norm_scale n (v : vec fl n) : all_finite v -> is_finite (vnorm_squared v) = true -> 0 < B2R (vnorm_squared v) ->
  exists k, (1 - emax - prec < 2 * k < emax)%Z /\ is_finite (fvnorm v) = true /\ bpow radix2 k <= B2R (fvnorm v) <= bpow radix2 (k + 1) /\
    bpow radix2 (2 * k) <= B2R (vnorm_squared v) < bpow radix2 (2 * k + 2) /\
    (forall i, (i < n)%nat -> Rabs (B2R (vat v i)) <= bpow radix2 (k + 1)).
Proof.
  intros A F P. pose proof Hp as P0. pose proof He as P2. unfold Prec_gt_0, Prec_lt_emax in P0, P2.
  assert (Nv : forall i, (i < n)%nat -> is_nan (vat v i) = false) by (intros i Hi; apply fin_nn_nan, A, Hi).
  assert (N : nn (vnorm_squared v)) by (rewrite vnorm2_sum; apply nn_sum; exact Nv).
  destruct (sqrt_R _ N F) as (Fn & En).
  set (s := B2R (vnorm_squared v)) in *.
  assert (Ps : 0 < sqrt s) by (apply sqrt_lt_R0, P).
  destruct (mag radix2 (sqrt s)) as (m & M). specialize (M ltac:(lra)). rewrite Rabs_pos_eq in M by lra.
  assert (S2 : sqrt s * sqrt s = s) by (apply sqrt_sqrt; lra).
  assert (L : bpow radix2 (2 * (m - 1)) <= s < bpow radix2 (2 * m)).
  { replace (2 * (m - 1))%Z with ((m - 1) + (m - 1))%Z by lia. replace (2 * m)%Z with (m + m)%Z by lia. rewrite !bpow_plus.
    pose proof (bpow_gt_0 radix2 (m - 1)). nra. }
  assert (Lo : bpow radix2 (3 - emax - prec) <= s).
  { apply (generic_format_ge_bpow radix2 fexp); [intros; unfold FLT_exp; lia|exact P|apply generic_format_B2R]. }
  assert (Up : s < bpow radix2 emax).
  { apply Rle_lt_trans with (1 := Rle_abs _). apply abs_B2R_lt_emax. }
  assert (K1 : (3 - emax - prec < 2 * m)%Z) by (apply (lt_bpow radix2); lra).
  assert (K2 : (2 * (m - 1) < emax)%Z) by (apply (lt_bpow radix2); lra).
  exists (m - 1)%Z. replace (m - 1 + 1)%Z with m by lia. replace (2 * (m - 1) + 2)%Z with (2 * m)%Z by lia.
  split; [lia|]. split; [exact Fn|]. split; [|split; [exact L|]].
  - unfold fvnorm. rewrite En. split; [apply rnd_ge_bpow; [lia|apply M]|].
    assert (Kx : (4 - emax - prec <= m)%Z) by lia.
    assert (B : Rabs (sqrt s) <= bpow radix2 m) by (rewrite Rabs_pos_eq; lra).
    apply Rle_trans with (1 := Rle_abs _). apply rnd_le_bpow; assumption.
  - intros i Hi. apply Rnot_lt_le. intros C.
    pose proof (sq_le_sum n (vat v) i Hi Nv) as Q. rewrite <- vnorm2_sum in Q.
    destruct Q as [Q|(Fq & _ & Q)]; [rewrite Q in F; discriminate F|]. fold s in Q.
    rewrite fmul_R in Q by exact Fq.
    assert (bpow radix2 (2 * m) <= rnd (B2R (vat v i) * B2R (vat v i))).
    { apply rnd_ge_bpow; [lia|]. replace (2 * m)%Z with (m + m)%Z by lia. rewrite bpow_plus.
      replace (B2R (vat v i) * B2R (vat v i)) with (Rabs (B2R (vat v i)) * Rabs (B2R (vat v i))) by (rewrite <- Rabs_mult; apply Rabs_pos_eq; nra).
      pose proof (bpow_gt_0 radix2 m). nra. }
    lra.
Qed.

Lemma normalize_at n (v : vec fl n) i : (i < n)%nat -> vat (fvnormalize v) i = (vat v i * (1 / fvnorm v))%N_.
Proof. intros Hi. unfold fvnormalize. rewrite vat_vmul_s by exact Hi. reflexivity. Qed.

(** The components of a normalised vector are at most 2 in absolute value, whatever the length. *)
Lemma normalize_fb n (v : vec fl n) : all_finite v ->
  vnorm_squared v = B754_infinity false \/ is_finite (vnorm_squared v) = true /\ 0 < B2R (vnorm_squared v) ->
  forall i, (i < n)%nat -> fb 1 (vat (fvnormalize v) i).
Proof.
  intros A [E|(F & P)] i Hi; rewrite normalize_at by exact Hi.
  - assert (En : fvnorm v = B754_infinity false) by (unfold fvnorm; rewrite E; reflexivity). rewrite En.
    replace (1 / B754_infinity false)%N_ with (B754_zero false : fl).
    + pose proof (A i Hi) as Fi. destruct (vat v i) as [s|s| |s m e B] eqn:V; unfold vat in V; cbn [n0 num_float] in V; rewrite V in Fi; try discriminate Fi; split; try reflexivity;
      cbn; rewrite Rabs_R0; lra.
    + destruct (@one_facts prec emax _ _) as (Fo & _ & So). cbn [ndiv numdiv_float].
      destruct (1%N_ : fl) as [s|s| |s m e B]; try discriminate Fo; cbn in *; subst; reflexivity.
  - destruct (norm_scale n v A F P) as (k & K & Fn & (Nl & _) & _ & C). pose proof Hp as P0. pose proof He as P2.
    unfold Prec_gt_0, Prec_lt_emax in P0, P2.
    assert (Na : bpow radix2 k <= Rabs (B2R (fvnorm v))) by (apply Rle_trans with (1 := Nl), Rle_abs).
    destruct (fb_div 0 k (1%N_ : fl) (fvnorm v) (fb_1 0 ltac:(lia)) Na ltac:(lia)) as (D & _).
    assert (Fi : fb (k + 1) (vat v i)) by (split; [exact (A i Hi)|exact (C i Hi)]).
    destruct (fb_mul (k + 1) (0 - k) (vat v i) (1 / fvnorm v)%N_ Fi D ltac:(lia)) as (M & _).
    replace (k + 1 + (0 - k))%Z with 1%Z in M by lia. exact M.
Qed.

(** No component exceeds the norm. *)
Lemma comp_le_fnorm n (v : vec fl n) i : (i < n)%nat -> all_finite v -> bpow radix2 (1 - prec) <= Rabs (B2R (vat v i)) ->
  fvnorm v = B754_infinity false \/ is_finite (fvnorm v) = true /\ Rabs (B2R (vat v i)) <= B2R (fvnorm v).
Proof.
  intros Hi A L. assert (Nv : forall i, (i < n)%nat -> is_nan (vat v i) = false) by (intros j Hj; apply fin_nn_nan, A, Hj).
  assert (N : nn (vnorm_squared v)) by (rewrite vnorm2_sum; apply nn_sum; exact Nv).
  pose proof (sq_le_sum n (vat v) i Hi Nv) as Q. rewrite <- vnorm2_sum in Q.
  pose proof (nn_sq (vat v i) (Nv i Hi)) as Ni.
  pose proof (fle_sqrt _ _ Ni N Q) as R. change (fsqrt (vnorm_squared v)) with (fvnorm v) in R.
  destruct R as [R|(F1 & F2 & R)]; [left; exact R|right]. split; [exact F2|].
  apply Rle_trans with (2 := R). apply fsqrt_finite in F1. destruct (sqrt_R _ Ni F1) as (_ & E). rewrite E, fmul_R by exact F1.
  apply sqrt_sq; auto. apply generic_format_B2R.
Qed.
End ArcN.
