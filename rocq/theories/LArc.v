(** Bounds by powers of two, sums of squares and their roots: no rounded component exceeds the rounded norm. *)

From Coq Require Import Arith ZArith Bool Lia Reals Lra.
From Flocq Require Import Core.Core IEEE754.BinarySingleNaN.
From Verif Require Import Base Scalar Spec MVector LVector MFloat MFloatVec LFloat LFloatVec LComplexLP LLibmP.
Local Open Scope R_scope.

(** ** The root of the rounded square *)
Section SqrtSq.
Context {prec emax : Z} {Hp : Prec_gt_0 prec} {He : Prec_lt_emax prec emax}.
Notation fexp := (FLT_exp (3 - emax - prec) prec).
Notation rnd := (round radix2 fexp ZnearestE).

Lemma sqrt_sq_pos x e : generic_format radix2 fexp x -> (2 - emax <= 2 * e)%Z -> bpow radix2 e <= x < bpow radix2 (e + 1) ->
  (1 < prec)%Z -> x <= rnd (sqrt (rnd (x * x))).
Proof.
  intros G E (L & U) P1. pose proof Hp as P0. pose proof He as P2. unfold Prec_gt_0, Prec_lt_emax in P0, P2.
  pose proof (bpow_gt_0 radix2 e) as Pe.
  assert (M : mag radix2 x = (e + 1)%Z :> Z).
  { apply mag_unique_pos. replace (e + 1 - 1)%Z with e by lia. split; assumption. }
  destruct (Req_dec x (bpow radix2 e)) as [Ex|Nx].
  { rewrite (round_generic radix2 fexp ZnearestE (x * x)).
    - rewrite sqrt_square by lra. rewrite round_generic; auto with typeclass_instances. lra.
    - rewrite Ex, <- bpow_plus. apply generic_format_bpow. unfold FLT_exp. lia. }
  assert (Ux : ulp radix2 fexp x = bpow radix2 (e + 1 - prec)).
  { rewrite ulp_neq_0 by lra. unfold cexp. rewrite M. unfold FLT_exp. f_equal. lia. }
  set (u := bpow radix2 (e + 1 - prec)) in *.
  assert (Pu : 0 < u) by apply bpow_gt_0.
  assert (Pr : pred radix2 fexp x = x - u).
  { rewrite pred_eq_pos by lra. unfold pred_pos. rewrite M. replace (e + 1 - 1)%Z with e by lia.
    rewrite Req_bool_false by assumption. rewrite Ux. reflexivity. }
  assert (Lx : bpow radix2 e + u <= x).
  { assert (Gb : generic_format radix2 fexp (bpow radix2 e)) by (apply generic_format_bpow; unfold FLT_exp; lia).
    pose proof (succ_le_lt radix2 fexp (bpow radix2 e) x Gb G ltac:(lra)) as S.
    rewrite succ_eq_pos in S by lra. rewrite ulp_neq_0 in S by lra. unfold cexp in S. rewrite mag_bpow in S. unfold FLT_exp in S.
    replace (Z.max (e + 1 - prec) (3 - emax - prec)) with (e + 1 - prec)%Z in S by lia. exact S. }
  assert (XX : bpow radix2 (2 * e) <= x * x < bpow radix2 (2 * e + 2)).
  { replace (2 * e + 2)%Z with ((e + 1) + (e + 1))%Z by lia. replace (2 * e)%Z with (e + e)%Z by lia. rewrite !bpow_plus.
    pose proof (bpow_plus radix2 e 1) as B1. rewrite B1 in U. cbn in *. nra. }
  assert (Er : x * x - bpow radix2 (2 * e + 1 - prec) <= rnd (x * x)).
  { pose proof (error_le_half_ulp radix2 fexp (fun t => negb (Z.even t)) (x * x)) as H.
    assert (Hu : ulp radix2 fexp (x * x) <= bpow radix2 (2 * e + 2 - prec)).
    { rewrite ulp_neq_0 by nra. apply bpow_le. unfold cexp, FLT_exp.
      assert (mag radix2 (x * x) <= 2 * e + 2)%Z by (apply mag_le_bpow; [nra|rewrite Rabs_pos_eq by nra; lra]). lia. }
    replace (2 * e + 2 - prec)%Z with (1 + (2 * e + 1 - prec))%Z in Hu by lia. rewrite bpow_plus in Hu. cbn [bpow] in Hu.
    change (IZR (Z.pow_pos radix2 1)) with 2 in Hu. apply Rabs_le_inv in H. lra. }
  apply round_N_ge_midp; auto with typeclass_instances.
  rewrite Pr. apply Rle_lt_trans with (sqrt ((x - u / 2) * (x - u / 2))).
  { rewrite sqrt_square; lra. }
  apply sqrt_lt_1_alt. split; [nra|].
  assert (D : bpow radix2 (2 * e + 1 - prec) = bpow radix2 e * u) by (unfold u; rewrite <- bpow_plus; f_equal; lia).
  rewrite D in Er. nra.
Qed.

Lemma sqrt_sq x : generic_format radix2 fexp x -> (1 < prec)%Z -> (2 * prec <= emax)%Z -> bpow radix2 (1 - prec) <= Rabs x ->
  Rabs x <= rnd (sqrt (rnd (x * x))).
Proof.
  intros G P1 P2 L. replace (x * x) with (Rabs x * Rabs x) by (rewrite <- Rabs_mult; apply Rabs_pos_eq; nra).
  pose proof (bpow_gt_0 radix2 (1 - prec)) as B.
  destruct (mag radix2 (Rabs x)) as (m & M). specialize (M ltac:(lra)). rewrite Rabs_Rabsolu in M.
  apply sqrt_sq_pos with (m - 1)%Z; [apply generic_format_abs, G| |replace (m - 1 + 1)%Z with m by lia; exact M|exact P1].
  assert (1 - prec < m)%Z by (apply (lt_bpow radix2); lra). lia.
Qed.
End SqrtSq.

(** ** Floats bounded by a power of two *)
Section Fb.
Context {prec emax : Z} {Hp : Prec_gt_0 prec} {He : Prec_lt_emax prec emax}.
Notation fl := (binary_float prec emax).
Notation fexp := (FLT_exp (3 - emax - prec) prec).
Notation rnd := (round radix2 fexp ZnearestE).

Definition fb (k : Z) (x : fl) : Prop := is_finite x = true /\ Rabs (B2R x) <= bpow radix2 k.

Lemma fb_weak j k (x : fl) : fb j x -> (j <= k)%Z -> fb k x.
Proof. intros (F & B) H. split; [exact F|]. pose proof (bpow_le radix2 _ _ H). lra. Qed.
Lemma fb_fin k (x : fl) : fb k x -> is_finite x = true.
Proof. intros H; apply H. Qed.
Lemma fb_0 k : fb k (n0 : fl).
Proof. split; [reflexivity|]. cbn. rewrite Rabs_R0. apply bpow_ge_0. Qed.
Lemma fb_1 k : (0 <= k)%Z -> fb k (n1 : fl).
Proof.
  intros H. destruct (@one_facts prec emax _ _) as (F & O & _). split; [exact F|]. rewrite O, Rabs_R1.
  apply (bpow_le radix2 0 k H).
Qed.
Lemma fb_neg k (x : fl) : fb k x -> fb k (- x)%N_.
Proof. intros (F & B). cbn [nneg num_float]. split; [rewrite is_finite_Bopp; exact F|rewrite B2R_Bopp, Rabs_Ropp; exact B]. Qed.

Lemma lt_emax k r : (4 - emax - prec <= k < emax)%Z -> Rabs r <= bpow radix2 k -> Rabs (rnd r) < bpow radix2 emax.
Proof. intros K H. assert (K1 : (4 - emax - prec <= k)%Z) by lia. pose proof (rnd_le_bpow r k K1 H). pose proof (bpow_lt radix2 k emax ltac:(lia)). lra. Qed.

Lemma fb_add k (x y : fl) : fb k x -> fb k y -> (3 - emax - prec <= k < emax - 1)%Z ->
  fb (k + 1) (x + y)%N_ /\ B2R (x + y)%N_ = rnd (B2R x + B2R y).
Proof.
  intros (Fx & Bx) (Fy & By) K. cbn [nadd num_float].
  assert (H : Rabs (B2R x + B2R y) <= bpow radix2 (k + 1)).
  { rewrite bpow_plus. cbn. pose proof (Rabs_triang (B2R x) (B2R y)). change (IZR (Z.pow_pos 2 1)) with 2. lra. }
  pose proof (Bplus_correct prec emax _ _ mode_NE x y Fx Fy) as C.
  rewrite Rlt_bool_true in C by (apply (lt_emax (k + 1)); [lia|exact H]). destruct C as (E & F & _).
  split; [|exact E]. split; [exact F|]. rewrite E. apply rnd_le_bpow; [lia|exact H].
Qed.
Lemma fb_sub k (x y : fl) : fb k x -> fb k y -> (3 - emax - prec <= k < emax - 1)%Z ->
  fb (k + 1) (x - y)%N_ /\ B2R (x - y)%N_ = rnd (B2R x - B2R y).
Proof.
  intros X Y K. rewrite fsub_add_neg. destruct (fb_add k x (- y)%N_ X (fb_neg k y Y) K) as (A & E). split; [exact A|].
  rewrite E. cbn [nneg num_float]. rewrite B2R_Bopp. reflexivity.
Qed.
Lemma fb_mul j k (x y : fl) : fb j x -> fb k y -> (4 - emax - prec <= j + k < emax)%Z ->
  fb (j + k) (x * y)%N_ /\ B2R (x * y)%N_ = rnd (B2R x * B2R y).
Proof.
  intros (Fx & Bx) (Fy & By) K. cbn [nmul num_float].
  assert (H : Rabs (B2R x * B2R y) <= bpow radix2 (j + k)).
  { rewrite Rabs_mult, bpow_plus. apply Rmult_le_compat; auto using Rabs_pos. }
  pose proof (Bmult_correct prec emax _ _ mode_NE x y) as C.
  rewrite Rlt_bool_true in C by (apply (lt_emax (j + k)); [lia|exact H]). destruct C as (E & F & _).
  split; [|exact E]. split; [rewrite F, Fx, Fy; reflexivity|]. rewrite E. apply rnd_le_bpow; [lia|exact H].
Qed.
Lemma fb_div j m (x y : fl) : fb j x -> bpow radix2 m <= Rabs (B2R y) -> (4 - emax - prec <= j - m < emax)%Z ->
  fb (j - m) (x / y)%N_ /\ B2R (x / y)%N_ = rnd (B2R x / B2R y).
Proof.
  intros (Fx & Bx) By K. cbn [ndiv numdiv_float]. pose proof (bpow_gt_0 radix2 m) as Pm.
  assert (Ny : B2R y <> 0) by (intros E; rewrite E, Rabs_R0 in By; lra).
  assert (H : Rabs (B2R x / B2R y) <= bpow radix2 (j - m)).
  { unfold Rdiv. rewrite Rabs_mult, Rabs_inv. replace (j - m)%Z with (j + - m)%Z by lia. rewrite bpow_plus, bpow_opp.
    apply Rmult_le_compat; auto using Rabs_pos; [|apply Rinv_le_contravar; assumption].
    apply Rlt_le, Rinv_0_lt_compat. lra. }
  pose proof (Bdiv_correct prec emax _ _ mode_NE x y Ny) as C.
  rewrite Rlt_bool_true in C by (apply (lt_emax (j - m)); [lia|exact H]). destruct C as (E & F & _).
  split; [|exact E]. split; [rewrite F; exact Fx|]. rewrite E. apply rnd_le_bpow; [lia|exact H].
Qed.

(** ** Nonnegative floats, with infinity *)
Definition nn (x : fl) : Prop := Bsign x = false /\ is_nan x = false.
Lemma nn_add (x y : fl) : nn x -> nn y -> nn (x + y)%N_.
Proof. intros (A & B) (C & D). apply add_nn; assumption. Qed.
Lemma nn_sq (x : fl) : is_nan x = false -> nn (x * x)%N_.
Proof. apply sq_nn. Qed.
Lemma nn_sqrt (x : fl) : nn x -> nn (fsqrt x).
Proof. intros (A & B). apply sqrt_nn; assumption. Qed.
Lemma nn_0 : nn (n0 : fl).
Proof. split; reflexivity. Qed.
Lemma nn_cases (x : fl) : nn x -> x = B754_infinity false \/ is_finite x = true /\ 0 <= B2R x.
Proof.
  intros (A & B). destruct x as [s|s| |s m e H]; try discriminate B; cbn [Bsign] in A; subst s; auto.
  - right. split; [reflexivity|]. cbn. lra.
  - right. split; [reflexivity|]. cbn [B2R cond_Zopp]. apply F2R_ge_0. cbn. lia.
Qed.

Definition fle (x y : fl) : Prop := y = B754_infinity false \/ is_finite x = true /\ is_finite y = true /\ B2R x <= B2R y.
Lemma fle_refl (x : fl) : nn x -> fle x x.
Proof. intros H. destruct (nn_cases x H) as [E|(F & _)]; [left; exact E|right; auto with real]. Qed.
Lemma fle_trans (x y z : fl) : fle x y -> fle y z -> fle x z.
Proof.
  intros [E|(Fx & Fy & A)] [E'|(Fy' & Fz & B)]; try (left; assumption).
  - subst y. discriminate Fy'.
  - right. repeat split; auto. lra.
Qed.
Lemma inf_add (y : fl) : nn y -> (B754_infinity false + y)%N_ = B754_infinity false :> fl.
Proof. intros (A & B). destruct y as [s|s| |s m e H]; try discriminate B; cbn in *; subst; reflexivity. Qed.

Lemma add_R_nn (x y : fl) : is_finite x = true -> is_finite y = true -> 0 <= B2R x -> 0 <= B2R y ->
  Bsign x = false ->
  (x + y)%N_ = B754_infinity false \/ is_finite (x + y)%N_ = true /\ B2R (x + y)%N_ = rnd (B2R x + B2R y).
Proof.
  intros Fx Fy Px Py S. cbn [nadd num_float]. pose proof (Bplus_correct prec emax _ _ mode_NE x y Fx Fy) as C.
  destruct (Rlt_bool _ _); [right; split; apply C|left].
  destruct C as (C & _). rewrite S in C. cbn in C. apply B2SF_inj. exact C.
Qed.

Lemma fle_add_mono (a b c : fl) : nn a -> nn b -> nn c -> fle a b -> fle (a + c)%N_ (b + c)%N_.
Proof.
  intros Na Nb Nc [E|(Fa & Fb & H)].
  { subst b. left. apply inf_add, Nc. }
  destruct (nn_cases c Nc) as [Ec|(Fc & Pc)].
  { left. rewrite Ec, fadd_comm. apply inf_add, Nb. }
  destruct (nn_cases a Na) as [Ea|(_ & Pa)]; [subst a; discriminate Fa|].
  destruct (add_R_nn b c Fb Fc ltac:(lra) Pc) as [E|(F & E)]; [apply Nb|left; exact E|right].
  assert (R : rnd (B2R a + B2R c) <= rnd (B2R b + B2R c)) by (apply round_le; auto with typeclass_instances; lra).
  destruct (add_R_nn a c Fa Fc Pa Pc) as [Ei|(F' & E')]; [apply Na| |].
  - exfalso. cbn [nadd num_float] in Ei. pose proof (Bplus_correct prec emax _ _ mode_NE a c Fa Fc) as C.
    rewrite Rlt_bool_true in C.
    + destruct C as (_ & C & _). rewrite Ei in C. discriminate C.
    + change (round_mode mode_NE) with ZnearestE.
      assert (0 <= rnd (B2R a + B2R c)).
      { rewrite <- (round_0 radix2 fexp ZnearestE). apply round_le; auto with typeclass_instances. lra. }
      rewrite Rabs_pos_eq by assumption. apply Rle_lt_trans with (1 := R). rewrite <- E.
      apply Rle_lt_trans with (1 := Rle_abs _). apply abs_B2R_lt_emax.
  - repeat split; auto. rewrite E, E'. exact R.
Qed.

Lemma fle_add_l (x y : fl) : nn x -> nn y -> fle x (x + y)%N_.
Proof.
  intros Nx Ny. destruct (nn_cases x Nx) as [E|(F & P)].
  { left. rewrite E. apply inf_add, Ny. }
  destruct (nn_cases y Ny) as [E|(Fy & Py)].
  { left. rewrite E, fadd_comm. apply inf_add, Nx. }
  destruct (add_R_nn x y F Fy P Py) as [E|(F' & E)]; [apply Nx|left; exact E|right].
  repeat split; auto. rewrite E. rewrite <- (round_generic radix2 fexp ZnearestE (B2R x)) at 1 by apply generic_format_B2R.
  apply round_le; auto with typeclass_instances. lra.
Qed.
Lemma fle_add_r (x y : fl) : nn x -> nn y -> fle y (x + y)%N_.
Proof. intros. rewrite fadd_comm. apply fle_add_l; assumption. Qed.

Lemma sqrt_R (x : fl) : nn x -> is_finite x = true -> is_finite (fsqrt x) = true /\ B2R (fsqrt x) = rnd (sqrt (B2R x)).
Proof.
  intros N F. unfold fsqrt. destruct (Bsqrt_correct prec emax _ _ mode_NE x) as (E & G & _). split; [|exact E].
  rewrite G. destruct N as (S & _). destruct x as [s|s| |s m e B]; try discriminate F; cbn in *; subst; reflexivity.
Qed.
Lemma fle_sqrt (x y : fl) : nn x -> nn y -> fle x y -> fle (fsqrt x) (fsqrt y).
Proof.
  intros Nx Ny [E|(Fx & Fy & H)]; [left; rewrite E; reflexivity|right].
  destruct (sqrt_R x Nx Fx) as (A & B), (sqrt_R y Ny Fy) as (C & D). repeat split; auto. rewrite B, D.
  apply round_le; auto with typeclass_instances. apply sqrt_le_1_alt. exact H.
Qed.

(** ** Sums of squares *)
Lemma nn_sum n (x : nat -> fl) : (forall i, (i < n)%nat -> is_nan (x i) = false) -> nn (sum n (fun i => (x i * x i)%N_)).
Proof.
  induction n as [|n IH]; intros H; [apply nn_0|]. cbn [sum]. apply nn_add; [apply IH; intros; apply H; lia|apply nn_sq, H; lia].
Qed.
Lemma sq_le_sum n (x : nat -> fl) i : (i < n)%nat -> (forall i, (i < n)%nat -> is_nan (x i) = false) ->
  fle (x i * x i)%N_ (sum n (fun i => (x i * x i)%N_)).
Proof.
  induction n as [|n IH]; intros Hi H; [lia|]. cbn [sum].
  assert (N1 : nn (sum n (fun i => (x i * x i)%N_))) by (apply nn_sum; intros; apply H; lia).
  assert (N2 : nn (x n * x n)%N_) by (apply nn_sq, H; lia).
  destruct (Nat.eq_dec i n) as [->|D]; [apply fle_add_r; assumption|].
  apply fle_trans with (2 := fle_add_l _ _ N1 N2). apply IH; [lia|]. intros; apply H; lia.
Qed.
Lemma vnorm2_sum n (v : vec fl n) : vnorm_squared v = sum n (fun i => (vat v i * vat v i)%N_).
Proof. apply vdot_sum. Qed.
End Fb.
