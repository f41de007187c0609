(** The Lp norm in floats: the proofs of the property theorems of PLpF.v. *)

From Coq Require Import List Arith ZArith Bool Lia Reals Lra Psatz.
From Flocq Require Import Core.Core IEEE754.BinarySingleNaN.
From Verif Require Import Base Scalar Spec LBase MVector MMisc MFloat LFloat LFloatVec LFloatNormP MSign MDegF LDegF LTrScF LNormFA SpecCR LLibmP SpecLpF MLpF LLpFA.
Local Open Scope R_scope.

(** ** The exponent 1/p *)
Lemma recip64 p : (1 <= p < 2 ^ 32)%Z -> is_finite (ndiv 1%N_ (f64_of_Z p)) = true /\
  Rabs (B2R (ndiv 1%N_ (f64_of_Z p)) * IZR p - 1) <= bpow radix2 (-53) /\ bpow radix2 (-32) <= B2R (ndiv 1%N_ (f64_of_Z p)) <= 1.
Proof.
  intros P. destruct (f64_of_Z_exact p ltac:(lia)) as (E & F).
  assert (P1 : 1 <= IZR p) by (apply IZR_le; lia).
  assert (P2 : IZR p <= bpow radix2 32). { change (bpow radix2 32) with (IZR (2 ^ 32)). apply IZR_le. lia. }
  assert (IP : bpow radix2 (-32) <= / IZR p <= 1).
  { split; [change (bpow radix2 (-32)) with (/ bpow radix2 32)|rewrite <- Rinv_1]; apply Rinv_le; lra. }
  assert (V : 1 / IZR p = / IZR p) by (unfold Rdiv; ring).
  assert (O : B2R (1%N_ : f64) = 1) by exact (Bone_correct 53 1024 prec64 emax64).
  assert (L0 : 0 < bpow radix2 (-32)) by apply bpow_gt_0.
  destruct (div_val (prec := 53) (emax := 1024) (He := emax64) (Hp := prec64) (1%N_ : f64) (f64_of_Z p)) as (Fd & Ed).
  - reflexivity.
  - rewrite E. lra.
  - rewrite E, O, V. rewrite Rabs_pos_eq by lra. apply Rle_trans with 1; [lra|]. change 1 with (bpow radix2 0). apply bpow_le. lia.
  - split; [exact Fd|]. rewrite O, E, V in Ed.
    assert (N : Rabs (round radix2 (FLT_exp (3 - 1024 - 53) 53) ZnearestE (/ IZR p) - / IZR p) <= bpow radix2 (-53) * Rabs (/ IZR p)).
    { apply (rnd_normal (prec := 53) (emax := 1024) (Hp := prec64) (/ IZR p)). rewrite Rabs_pos_eq by lra. eapply Rle_trans; [|apply IP]. apply bpow_le. lia. }
    set (q := B2R (ndiv 1%N_ (f64_of_Z p))) in *. assert (Ed' : q = round radix2 (FLT_exp (3 - 1024 - 53) 53) ZnearestE (/ IZR p)) by exact Ed.
    split.
    + rewrite <- Ed' in N. rewrite (Rabs_pos_eq (/ IZR p)) in N by lra.
      replace (q * IZR p - 1) with ((q - / IZR p) * IZR p) by (field; lra). rewrite Rabs_mult, (Rabs_pos_eq (IZR p)) by lra.
      replace (bpow radix2 (-53)) with (bpow radix2 (-53) * / IZR p * IZR p) by (field; lra). apply Rmult_le_compat_r; lra.
    + rewrite Ed'.
      assert (G : forall k, (-100 <= k <= 0)%Z -> round radix2 (FLT_exp (3 - 1024 - 53) 53) ZnearestE (bpow radix2 k) = bpow radix2 k).
      { intros k Hk. apply round_generic; [apply valid_rnd_N|]. apply generic_format_bpow. unfold FLT_exp. lia. }
      split.
      * rewrite <- (G (-32)%Z) by lia. apply round_le; [apply FLT_exp_valid; reflexivity|apply valid_rnd_N|apply IP].
      * change 1 with (bpow radix2 0). rewrite <- (G 0%Z) by lia. apply round_le; [apply FLT_exp_valid; reflexivity|apply valid_rnd_N|apply IP].
Qed.

Lemma conv32 (x : f64) : is_finite x = true -> Rabs (B2R x) <= 1 -> is_finite (f32_of_f64 x) = true /\
  B2R (f32_of_f64 x) = round radix2 (FLT_exp (3 - 128 - 24) 24) ZnearestE (B2R x).
Proof.
  intros F B. destruct x as [s|s| |s m e H]; try discriminate.
  - split; [reflexivity|]. cbn [f32_of_f64 B2R]. symmetry. apply round_0. apply valid_rnd_N.
  - cbn [f32_of_f64]. pose proof (binary_normalize_correct 24 128 prec32 emax32 mode_NE (cond_Zopp s (Zpos m)) e s) as C. cbv zeta in C.
    change (F2R (Float radix2 (cond_Zopp s (Zpos m)) e)) with (B2R (B754_finite s m e H : f64)) in C.
    change (SpecFloat.fexp 24 128) with (FLT_exp (3 - 128 - 24) 24) in C. change (round_mode mode_NE) with ZnearestE in C.
    rewrite Rlt_bool_true in C.
    + destruct C as (C1 & C2 & _). split; [exact C2|exact C1].
    + apply Rle_lt_trans with (bpow radix2 0); [|apply bpow_lt; lia].
      apply (rnd_le_bpow (prec := 24) (emax := 128) (Hprec := prec32)); [lia|exact B].
Qed.

Lemma recip32 p : (1 <= p < 2 ^ 32)%Z -> is_finite (f32_of_f64 (ndiv 1%N_ (f64_of_Z p))) = true /\
  Rabs (B2R (f32_of_f64 (ndiv 1%N_ (f64_of_Z p))) * IZR p - 1) <= 17 / 16 * bpow radix2 (-24) /\ 0 < B2R (f32_of_f64 (ndiv 1%N_ (f64_of_Z p))).
Proof.
  intros P. destruct (recip64 p P) as (F & E & L & H). set (x := ndiv 1%N_ (f64_of_Z p)) in *.
  assert (L0 : 0 < bpow radix2 (-32)) by apply bpow_gt_0.
  destruct (conv32 x F) as (F' & E'); [rewrite Rabs_pos_eq; lra|]. split; [exact F'|]. rewrite E'.
  assert (N : Rabs (round radix2 (FLT_exp (3 - 128 - 24) 24) ZnearestE (B2R x) - B2R x) <= bpow radix2 (-24) * Rabs (B2R x)).
  { apply (rnd_normal (prec := 24) (emax := 128) (Hp := prec32) (B2R x)). rewrite Rabs_pos_eq by lra. eapply Rle_trans; [|exact L]. apply bpow_le. lia. }
  rewrite (Rabs_pos_eq (B2R x)) in N by lra. set (y := round _ _ _ _) in *.
  assert (P1 : 1 <= IZR p) by (apply IZR_le; lia).
  assert (U1 : bpow radix2 (-53) <= / 64 * bpow radix2 (-24)).
  { change (/ 64) with (bpow radix2 (-6)). rewrite <- bpow_plus. apply bpow_le. lia. }
  assert (U2 : bpow radix2 (-24) <= / 64) by (change (/ 64) with (bpow radix2 (-6)); apply bpow_le; lia).
  assert (U0 : 0 < bpow radix2 (-24)) by apply bpow_gt_0.
  split.
  - replace (y * IZR p - 1) with ((y - B2R x) * IZR p + (B2R x * IZR p - 1)) by ring. eapply Rle_trans; [apply Rabs_triang|].
    rewrite Rabs_mult, (Rabs_pos_eq (IZR p)) by lra.
    assert (A : Rabs (y - B2R x) * IZR p <= bpow radix2 (-24) * B2R x * IZR p) by (apply Rmult_le_compat_r; lra).
    apply Rabs_le_inv in E. rewrite Rmult_assoc in A.
    assert (C : bpow radix2 (-24) * (B2R x * IZR p) <= bpow radix2 (-24) * (1 + bpow radix2 (-53))) by (apply Rmult_le_compat_l; lra).
    assert (bpow radix2 (-24) * bpow radix2 (-53) <= bpow radix2 (-24) * / 64) by (apply Rmult_le_compat_l; lra).
    assert (Rabs (B2R x * IZR p - 1) <= bpow radix2 (-53)) by (apply Rabs_le; lra). lra.
  - apply Rabs_le_inv in N. assert (bpow radix2 (-24) * B2R x <= / 64 * B2R x) by (apply Rmult_le_compat_r; lra). lra.
Qed.

Lemma as_i32 p : (p < 2 ^ 31)%Z -> u32_as_i32 p = p.
Proof. intros H. unfold u32_as_i32. destruct (Z.ltb_spec p (2 ^ 31)); [reflexivity|lia]. Qed.

(** ** Accuracy *)
Theorem c148_accuracy64 (powi : f64 -> Z -> f64) (powf : f64 -> f64 -> f64) (n : nat) (v : vec f64 n) (p : Z) (k k' : R) :
  (1 <= p < 2 ^ 31)%Z -> (1 <= n)%nat -> powi_ok powi p k -> powf_ok powf k' -> 0 <= k ->
  (forall i, (i < n)%nat -> is_finite (vat v i) = true) ->
  (forall i, (i < n)%nat -> B2R (vat v i) = 0 \/ bpow radix2 (3 - 1024) <= powerRZ (Rabs (B2R (vat v i))) p) ->
  0 < lp_sum v p <= bpow radix2 (1024 - 3) -> 16 * (k + INR n + Rabs (ln (lp_sum v p))) * bpow radix2 (- 53) <= 1 ->
  let N := Rpower (lp_sum v p) (/ IZR p) in
  is_finite (lp_norm64 powi powf v p) = true /\
  Rabs (B2R (lp_norm64 powi powf v p) - N) <= 3 / 2 * (k' + (k + INR n + Rabs (ln (lp_sum v p))) / IZR p) * bpow radix2 (- 53) * N.
Proof.
  intros P Hn Ki Kf k0 F R S B N. unfold lp_norm64, flp_norm. rewrite as_i32 by lia.
  destruct (recip64 p ltac:(lia)) as (Fq & Q & _).
  apply (lp_near powi powf n v p k k' (ndiv 1%N_ (f64_of_Z p)) ltac:(lia) Hn Ki Kf k0 Fq); try assumption.
  pose proof (bpow_gt_0 radix2 (-53)). change (- (53))%Z with (-53)%Z. lra.
Qed.

Theorem c148_accuracy32 (powi : f32 -> Z -> f32) (powf : f32 -> f32 -> f32) (n : nat) (v : vec f32 n) (p : Z) (k k' : R) :
  (1 <= p < 2 ^ 31)%Z -> (1 <= n)%nat -> powi_ok powi p k -> powf_ok powf k' -> 0 <= k ->
  (forall i, (i < n)%nat -> is_finite (vat v i) = true) ->
  (forall i, (i < n)%nat -> B2R (vat v i) = 0 \/ bpow radix2 (3 - 128) <= powerRZ (Rabs (B2R (vat v i))) p) ->
  0 < lp_sum v p <= bpow radix2 (128 - 3) -> 16 * (k + INR n + Rabs (ln (lp_sum v p))) * bpow radix2 (- 24) <= 1 ->
  let N := Rpower (lp_sum v p) (/ IZR p) in
  is_finite (lp_norm32 powi powf v p) = true /\
  Rabs (B2R (lp_norm32 powi powf v p) - N) <= 3 / 2 * (k' + (k + INR n + Rabs (ln (lp_sum v p))) / IZR p) * bpow radix2 (- 24) * N.
Proof.
  intros P Hn Ki Kf k0 F R S B N. unfold lp_norm32, flp_norm. rewrite as_i32 by lia.
  destruct (recip32 p ltac:(lia)) as (Fq & Q & _).
  exact (lp_near powi powf n v p k k' (f32_of_f64 (ndiv 1%N_ (f64_of_Z p))) ltac:(lia) Hn Ki Kf k0 Fq Q F R S B).
Qed.

(** ** Special values *)
Section Special.
Context {prec emax : Z} {Hp : Prec_gt_0 prec} {He : Prec_lt_emax prec emax}.
Notation fl := (binary_float prec emax).
Variables (powi : fl -> Z -> fl) (powf : fl -> fl -> fl).

Lemma is_zero (x : fl) : is_finite x = true -> B2R x = 0 -> exists b, x = B754_zero b.
Proof.
  intros F E. destruct x as [b|b| |b m e Hb]; try discriminate; [exists b; reflexivity|]. exfalso. cbn in E.
  apply eq_0_F2R in E. destruct b; discriminate.
Qed.

Lemma lp_special n (v : vec fl n) p k k' (q : fl) : (0 < p)%Z -> powi_ok powi p k -> powf_ok powf k' -> is_finite q = true -> 0 < B2R q ->
  let r := powf (sumn n (fun i => powi (fabs (vat v i)) p)) q in
  ((forall i, (i < n)%nat -> is_finite (vat v i) = true /\ B2R (vat v i) = 0) -> r = B754_zero false) /\
  ((exists i, (i < n)%nat /\ is_nan (vat v i) = true) -> r = B754_nan) /\
  ((forall i, (i < n)%nat -> is_nan (vat v i) = false) ->
   (exists i, (i < n)%nat /\ is_finite (vat v i) = true /\ bpow radix2 emax <= powerRZ (Rabs (B2R (vat v i))) p) -> r = B754_infinity false).
Proof.
  intros P Ki Kf Fq Q r. split; [|split].
  - intros H. assert (Z : sumn n (fun i => powi (fabs (vat v i)) p) = B754_zero false).
    { assert (Zi : forall i, (i < n)%nat -> powi (fabs (vat v i)) p = B754_zero false).
      { intros i Hi. destruct (H i Hi) as (F & E). destruct (is_zero _ F E) as (b & ->).
        replace (fabs (B754_zero b)) with (B754_zero false : fl) by reflexivity. rewrite (pi_zero _ _ _ Ki) by exact P. reflexivity. }
      apply sumn_zero; [|exact Zi]. intros i Hi. rewrite Zi by exact Hi. apply pos_0. }
    unfold r. rewrite Z. exact (pf_zero _ _ Kf q Fq Q).
  - intros (i & Hi & Ni). assert (E : is_nan (sumn n (fun i => powi (fabs (vat v i)) p)) = true).
    { apply sumn_nan.
      - intros j Hj Nj. apply (pi_sign _ _ _ Ki); [rewrite nan_abs|].
        + destruct (is_nan (vat v j)) eqn:Q1; [|reflexivity]. exfalso. destruct (vat v j); try discriminate.
          replace (fabs B754_nan) with (B754_nan : fl) in Nj by reflexivity. rewrite (pi_nan _ _ _ Ki) in Nj by lia. discriminate.
        + destruct (is_nan (vat v j)) eqn:Q1; [|apply pos_abs; exact Q1]. exfalso. destruct (vat v j); try discriminate.
          replace (fabs B754_nan) with (B754_nan : fl) in Nj by reflexivity. rewrite (pi_nan _ _ _ Ki) in Nj by lia. discriminate.
      - exists i. split; [exact Hi|]. destruct (vat v i); try discriminate.
        replace (fabs B754_nan) with (B754_nan : fl) by reflexivity. rewrite (pi_nan _ _ _ Ki) by lia. reflexivity. }
    unfold r. destruct (sumn _ _); try discriminate. exact (pf_nan _ _ Kf q Fq Q).
  - intros N (i & Hi & Fi & Oi). destruct (sumn_pos n _ (pows_pos powi n v p k Ki N)) as (A & B).
    specialize (B i Hi). cbv beta in B.
    assert (Z : powi (fabs (vat v i)) p = B754_infinity false).
    { apply (pi_over _ _ _ Ki); [rewrite fin_abs; exact Fi| |rewrite R_abs; exact Oi]. rewrite R_abs.
      destruct (Rtotal_order (Rabs (B2R (vat v i))) 0) as [L|[E|L]]; [pose proof (Rabs_pos (B2R (vat v i))); lra| |exact L].
      rewrite E, powerRZ_0 in Oi by exact P. pose proof (bpow_gt_0 radix2 emax). lra. }
    rewrite Z in B. unfold r. destruct B as [B|[B|(B & _)]]; [discriminate|rewrite B|discriminate]. exact (pf_inf _ _ Kf q Fq Q).
Qed.

Lemma lp_zero_exponent n (v : vec fl n) k k' : (2 <= n)%nat -> (1 < emax)%Z -> powi_ok powi 0 k -> powf_ok powf k' ->
  powf (sumn n (fun i => powi (fabs (vat v i)) 0)) (B754_infinity false) = B754_infinity false.
Proof.
  intros Hn Em Ki Kf. apply (pf_top _ _ Kf).
  assert (One : pos (Bone : fl)). { split; [apply is_nan_Bone|apply Bsign_Bone]. }
  assert (E : forall m, sumn m (fun i => powi (fabs (vat v i)) 0) = sumn m (fun _ => Bone : fl)).
  { induction m as [|m IH]; [reflexivity|]. rewrite !sumn_S, IH, (pi_unit _ _ _ Ki) by reflexivity. reflexivity. }
  rewrite E. clear E.
  assert (Two : is_finite (sumn 2 (fun _ => Bone : fl)) = true /\ B2R (sumn 2 (fun _ => Bone : fl)) = 2).
  { change (sumn 2 (fun _ => Bone : fl)) with (nadd (nadd (B754_zero false) (Bone : fl)) (Bone : fl)). rewrite add_0_l by exact One.
    destruct (add_val (Bone : fl) (Bone : fl)) as (A & B); try apply is_finite_Bone.
    - rewrite Bone_correct. replace (1 + 1) with (bpow radix2 1) by (cbn; ring). rewrite Rabs_pos_eq by apply bpow_ge_0. apply bpow_le. lia.
    - split; [exact A|]. rewrite (proj1 B), Bone_correct. replace (1 + 1) with (bpow radix2 1) by (cbn; ring). rewrite round_generic.
      + reflexivity.
      + apply valid_rnd_N.
      + apply generic_format_bpow. unfold FLT_exp. unfold Prec_gt_0, Prec_lt_emax in *. lia. }
  assert (M : forall m, pos (sumn (2 + m) (fun _ => Bone : fl)) /\ le (sumn 2 (fun _ => Bone : fl)) (sumn (2 + m) (fun _ => Bone : fl))).
  { induction m as [|m (IH1 & IH2)].
    - cbn [Nat.add]. assert (Q : pos (sumn 2 (fun _ => Bone : fl))) by (apply sumn_pos; intros; exact One). split; [exact Q|apply le_refl, Q].
    - replace (2 + S m)%nat with (S (2 + m)) by lia. rewrite sumn_S. destruct (add_pos _ _ IH1 One) as (A & B & _).
      split; [exact A|]. eapply le_trans; [exact IH2|exact B]. }
  specialize (M (n - 2)%nat). replace (2 + (n - 2))%nat with n in M by lia. destruct M as (_ & [M|[M|(_ & _ & M)]]).
  - exfalso. destruct Two as (T & _). rewrite M in T. discriminate.
  - left. exact M.
  - right. destruct Two as (_ & T). rewrite T in M. lra.
Qed.
End Special.

Theorem c148_special64 (powi : f64 -> Z -> f64) (powf : f64 -> f64 -> f64) (n : nat) (v : vec f64 n) (p : Z) (k k' : R) :
  (0 <= p < 2 ^ 31)%Z -> powi_ok powi p k -> powf_ok powf k' ->
  ((p = 0)%Z -> (2 <= n)%nat -> lp_norm64 powi powf v p = B754_infinity false) /\
  ((1 <= p)%Z ->
    ((forall i, (i < n)%nat -> is_finite (vat v i) = true /\ B2R (vat v i) = 0) -> lp_norm64 powi powf v p = B754_zero false) /\
    ((exists i, (i < n)%nat /\ is_nan (vat v i) = true) -> lp_norm64 powi powf v p = B754_nan) /\
    ((forall i, (i < n)%nat -> is_nan (vat v i) = false) ->
     (exists i, (i < n)%nat /\ is_finite (vat v i) = true /\ bpow radix2 1024 <= powerRZ (Rabs (B2R (vat v i))) p) ->
     lp_norm64 powi powf v p = B754_infinity false)).
Proof.
  intros P Ki Kf. unfold lp_norm64, flp_norm. rewrite as_i32 by lia. split.
  - intros -> Hn. replace (ndiv 1%N_ (f64_of_Z 0)) with (B754_infinity false : f64) by reflexivity.
    exact (lp_zero_exponent powi powf n v k k' Hn ltac:(lia) Ki Kf).
  - intros P1. destruct (recip64 p ltac:(lia)) as (Fq & _ & Q & _).
    apply (lp_special powi powf n v p k k' (ndiv 1%N_ (f64_of_Z p)) ltac:(lia) Ki Kf Fq).
    eapply Rlt_le_trans; [apply bpow_gt_0|exact Q].
Qed.

Theorem c148_special32 (powi : f32 -> Z -> f32) (powf : f32 -> f32 -> f32) (n : nat) (v : vec f32 n) (p : Z) (k k' : R) :
  (0 <= p < 2 ^ 31)%Z -> powi_ok powi p k -> powf_ok powf k' ->
  ((p = 0)%Z -> (2 <= n)%nat -> lp_norm32 powi powf v p = B754_infinity false) /\
  ((1 <= p)%Z ->
    ((forall i, (i < n)%nat -> is_finite (vat v i) = true /\ B2R (vat v i) = 0) -> lp_norm32 powi powf v p = B754_zero false) /\
    ((exists i, (i < n)%nat /\ is_nan (vat v i) = true) -> lp_norm32 powi powf v p = B754_nan) /\
    ((forall i, (i < n)%nat -> is_nan (vat v i) = false) ->
     (exists i, (i < n)%nat /\ is_finite (vat v i) = true /\ bpow radix2 128 <= powerRZ (Rabs (B2R (vat v i))) p) ->
     lp_norm32 powi powf v p = B754_infinity false)).
Proof.
  intros P Ki Kf. unfold lp_norm32, flp_norm. rewrite as_i32 by lia. split.
  - intros -> Hn. replace (f32_of_f64 (ndiv 1%N_ (f64_of_Z 0))) with (B754_infinity false : f32) by reflexivity.
    exact (lp_zero_exponent powi powf n v k k' Hn ltac:(lia) Ki Kf).
  - intros P1. destruct (recip32 p ltac:(lia)) as (Fq & _ & Q).
    exact (lp_special powi powf n v p k k' (f32_of_f64 (ndiv 1%N_ (f64_of_Z p))) ltac:(lia) Ki Kf Fq Q).
Qed.

(** ** What fails *)
Lemma f64_pow2 e : (-1074 <= e < 1024)%Z -> exists x : f64, is_finite x = true /\ B2R x = bpow radix2 e.
Proof.
  intros H. pose proof (binary_normalize_correct 53 1024 prec64 emax64 mode_NE 1 e false) as C. cbv zeta in C.
  assert (E : F2R (Float radix2 1 e) = bpow radix2 e) by (unfold F2R; cbn; lra). rewrite E in C.
  change (SpecFloat.fexp 53 1024) with (FLT_exp (3 - 1024 - 53) 53) in C.
  rewrite round_generic in C; [|apply valid_rnd_round_mode|apply generic_format_FLT_bpow; [reflexivity|lia]].
  rewrite Rlt_bool_true in C by (rewrite Rabs_pos_eq by apply bpow_ge_0; apply bpow_lt; lia).
  exists (binary_normalize 53 1024 prec64 emax64 mode_NE 1 e false). split; [apply C|apply C].
Qed.
Lemma pow2_powerRZ e p : powerRZ (bpow radix2 e) p = bpow radix2 (e * p).
Proof.
  assert (A : forall n, bpow radix2 e ^ n = bpow radix2 (e * Z.of_nat n)).
  { induction n as [|n IH]; [rewrite Z.mul_0_r; reflexivity|]. cbn [pow]. rewrite IH, <- bpow_plus. f_equal. lia. }
  destruct p as [|q|q]; cbn [powerRZ]; rewrite ?A, ?positive_nat_Z; [rewrite Z.mul_0_r; reflexivity|reflexivity|].
  rewrite <- bpow_opp. f_equal. lia.
Qed.

Theorem c148_range_refuted (powi : f64 -> Z -> f64) (powf : f64 -> f64 -> f64) (k k' : R) :
  powi_ok powi 2 k -> powf_ok powf k' ->
  exists v w : vec f64 1, is_finite (vat v 0) = true /\ is_finite (vat w 0) = true /\
    Rpower (lp_sum v 2) (/ IZR 2) = bpow radix2 600 /\ lp_norm64 powi powf v 2 = B754_infinity false /\
    Rpower (lp_sum w 2) (/ IZR 2) = bpow radix2 (-600) /\ lp_norm64 powi powf w 2 = B754_zero false.
Proof.
  intros Ki Kf. destruct (f64_pow2 600 ltac:(lia)) as (x & Fx & Ex). destruct (f64_pow2 (-600) ltac:(lia)) as (y & Fy & Ey).
  assert (Hpow : forall z e, B2R (z : f64) = bpow radix2 e -> powerRZ (Rabs (B2R z)) 2 = bpow radix2 (e * 2)).
  { intros z e E. rewrite E, Rabs_pos_eq by apply bpow_ge_0. apply pow2_powerRZ. }
  assert (Hroot : forall z e, B2R (z : f64) = bpow radix2 e -> Rpower (lp_sum (v1 z : vec f64 1) 2) (/ IZR 2) = bpow radix2 e).
  { intros z e E. replace (lp_sum (v1 z : vec f64 1) 2) with (bpow radix2 e * bpow radix2 e).
    - unfold Rpower. rewrite ln_mult by apply bpow_gt_0. replace (/ 2 * (ln (bpow radix2 e) + ln (bpow radix2 e))) with (ln (bpow radix2 e)) by field.
      apply exp_ln, bpow_gt_0.
    - rewrite <- bpow_plus. replace (e + e)%Z with (e * 2)%Z by lia. rewrite <- (Hpow z e E). 
      change (powerRZ (Rabs (B2R z)) 2 = 0 + powerRZ (Rabs (B2R z)) 2). ring. }
  exists (v1 x), (v1 y). split; [exact Fx|]. split; [exact Fy|]. split; [apply Hroot; exact Ex|]. split.
  - destruct (c148_special64 powi powf 1 (v1 x) 2 k k' ltac:(lia) Ki Kf) as (_ & A). destruct (A ltac:(lia)) as (_ & _ & B). apply B.
    + intros [|i] Hi; [|lia]. change (is_nan x = false). destruct x; try reflexivity; discriminate.
    + exists 0%nat. split; [lia|]. split; [exact Fx|]. change (bpow radix2 1024 <= powerRZ (Rabs (B2R x)) 2). rewrite (Hpow x 600%Z Ex). apply bpow_le. lia.
  - split; [apply Hroot; exact Ey|]. unfold lp_norm64, flp_norm. rewrite as_i32 by lia.
    destruct (recip64 2 ltac:(lia)) as (Fq & _ & Q & _).
    assert (Z : powi (fabs y) 2%Z = B754_zero false).
    { apply (pi_under _ _ _ Ki); [rewrite fin_abs; exact Fy|rewrite R_abs, Ey, Rabs_pos_eq by apply bpow_ge_0; apply bpow_gt_0|].
      rewrite R_abs, (Hpow y (-600)%Z Ey). apply bpow_le. lia. }
    change (powf (nadd 0%N_ (powi (fabs y) 2%Z)) (ndiv 1%N_ (f64_of_Z 2)) = B754_zero false). rewrite Z.
    change (nadd (0%N_ : f64) (B754_zero false)) with (B754_zero false : f64).
    apply (pf_zero _ _ Kf); [exact Fq|]. eapply Rlt_le_trans; [apply bpow_gt_0|exact Q].
Qed.

Theorem c148_wrap_refuted (powi : f64 -> Z -> f64) (powf : f64 -> f64 -> f64) (k k' : R) :
  powi_ok powi (- 2 ^ 31) k -> powf_ok powf k' ->
  exists (v : vec f64 1) (p : Z), (0 < p < 2 ^ 32)%Z /\ B2R (vat v 0) = 2 /\ lp_norm64 powi powf v p = B754_zero false.
Proof.
  intros Ki Kf. destruct (f64_pow2 1 ltac:(lia)) as (x & Fx & Ex). exists (v1 x), (2 ^ 31)%Z. split; [lia|]. split; [exact Ex|].
  unfold lp_norm64, flp_norm. replace (u32_as_i32 (2 ^ 31)) with (- 2 ^ 31)%Z by reflexivity.
  destruct (recip64 (2 ^ 31) ltac:(lia)) as (Fq & _ & Q & _).
  assert (Z : powi (fabs x) (- 2 ^ 31)%Z = B754_zero false).
  { apply (pi_under _ _ _ Ki); [rewrite fin_abs; exact Fx|rewrite R_abs, Ex, Rabs_pos_eq by apply bpow_ge_0; apply bpow_gt_0|].
    rewrite R_abs, Ex, Rabs_pos_eq by apply bpow_ge_0. rewrite pow2_powerRZ. apply bpow_le. lia. }
  change (powf (nadd 0%N_ (powi (fabs x) (- 2 ^ 31)%Z)) (ndiv 1%N_ (f64_of_Z (2 ^ 31))) = B754_zero false). rewrite Z.
  change (nadd (0%N_ : f64) (B754_zero false)) with (B754_zero false : f64).
  apply (pf_zero _ _ Kf); [exact Fq|]. eapply Rlt_le_trans; [apply bpow_gt_0|exact Q].
Qed.

(** ** A library that meets the requirements *)
Section Lib.
Context {prec emax : Z} {Hp : Prec_gt_0 prec} {He : Prec_lt_emax prec emax}.
Notation fl := (binary_float prec emax).
Notation u := (bpow radix2 (- prec)).
Notation fexp := (FLT_exp (3 - emax - prec) prec).
Notation rnd := (round radix2 fexp ZnearestE).

Definition cr_powi (x : fl) (n : Z) : fl :=
  if Z.eqb n 0 then Bone else
  match x with
  | B754_nan => B754_nan
  | B754_zero s => if Z.ltb 0 n then B754_zero (andb s (Z.odd n)) else B754_infinity (andb s (Z.odd n))
  | B754_infinity s => if Z.ltb 0 n then B754_infinity (andb s (Z.odd n)) else B754_zero (andb s (Z.odd n))
  | _ => cr (powerRZ (B2R x) n) false
  end.
Definition cr_powf (x y : fl) : fl :=
  match x with
  | B754_nan => B754_nan
  | B754_zero s => B754_zero false
  | B754_infinity s => B754_infinity false
  | _ => if is_finite y then cr (Rpower (B2R x) (B2R y)) false else B754_infinity false
  end.

Lemma cr_pos r : 0 < r -> pos (cr r false : fl).
Proof.
  intros H. destruct (Rlt_dec (Rabs (rnd r)) (bpow radix2 emax)) as [L|L].
  - destruct (cr_R r false L) as (F & _ & S). split; [destruct (cr r false); try reflexivity; discriminate|].
    rewrite S. unfold cr_sign. destruct Rlt_dec; [lra|]. destruct Rlt_dec; [reflexivity|lra].
  - unfold cr. destruct Rlt_dec; [contradiction|]. split; [reflexivity|]. cbn. unfold cr_sign. destruct Rlt_dec; [lra|]. destruct Rlt_dec; [reflexivity|lra].
Qed.
Lemma cr_near r : bpow radix2 (2 - emax) <= r <= bpow radix2 (emax - 1) ->
  is_finite (cr r false : fl) = true /\ Bsign (cr r false : fl) = false /\ Rabs (B2R (cr r false : fl) - r) <= 1 * u * r.
Proof.
  intros H. pose proof (bpow_gt_0 radix2 (2 - emax)) as P. destruct (cr_pos r ltac:(lra)) as (_ & S).
  destruct (cr_bounded r false (emax - 1)) as (F & _ & V & _); [unfold Prec_gt_0, Prec_lt_emax in *; lia|rewrite Rabs_pos_eq; lra|].
  split; [exact F|]. split; [exact S|]. rewrite V, Rmult_1_l. pose proof (rnd_normal (prec := prec) (emax := emax) r) as N.
  rewrite (Rabs_pos_eq r) in N by lra. apply N. lra.
Qed.
Lemma cr_under r : 0 < r -> r <= bpow radix2 (- emax - prec) -> cr r false = (B754_zero false : fl).
Proof.
  intros P H. destruct (cr_pos r P) as (_ & S).
  assert (B : Rabs (rnd r) <= bpow radix2 (1 - emax - prec)).
  { pose proof (rnd_best (B754_zero false : fl) r) as R. cbn [B2R] in R. rewrite Rminus_0_l, Rabs_Ropp, (Rabs_pos_eq r) in R by lra.
    replace (rnd r) with ((rnd r - r) + r) by ring. eapply Rle_trans; [apply Rabs_triang|]. rewrite (Rabs_pos_eq r) by lra.
    replace (1 - emax - prec)%Z with (1 + (- emax - prec))%Z by lia. rewrite bpow_plus. change (bpow radix2 1) with 2. lra. }
  destruct (cr_R r false) as (F & V & _).
  { eapply Rle_lt_trans; [exact B|]. apply bpow_lt. unfold Prec_gt_0, Prec_lt_emax in *. lia. }
  destruct (cr r false : fl) as [s|s| |s m e Hb] eqn:E; try discriminate.
  - cbn in S. subst s. reflexivity.
  - exfalso. pose proof (abs_B2R_ge_emin prec emax (B754_finite s m e Hb) eq_refl) as G. rewrite V in G.
    assert (bpow radix2 (1 - emax - prec) < bpow radix2 (SpecFloat.emin prec emax)) by (apply bpow_lt; unfold SpecFloat.emin; lia). lra.
Qed.

Lemma cr_powi_ok n : powi_ok cr_powi n 1.
Proof.
  assert (C : forall x : fl, is_finite x = true -> 0 < B2R x -> n <> 0%Z -> cr_powi x n = cr (powerRZ (B2R x) n) false).
  { intros x F P N. unfold cr_powi. destruct (Z.eqb_spec n 0); [contradiction|]. destruct x; try discriminate; [cbn in P; lra|reflexivity]. }
  assert (O : B2R (Bone : fl) = 1) by apply Bone_correct.
  assert (Em : (1 < emax)%Z) by (unfold Prec_gt_0, Prec_lt_emax in *; lia).
  split.
  - intros x F P H. destruct (Z.eq_dec n 0) as [->|N].
    + unfold cr_powi. cbn [Z.eqb powerRZ]. rewrite is_finite_Bone, Bsign_Bone, O. split; [reflexivity|]. split; [reflexivity|].
      rewrite Rminus_eq_0, Rabs_R0. pose proof (bpow_gt_0 radix2 (- prec)). lra.
    + rewrite (C x F P N). apply cr_near. exact H.
  - intros x F P H. destruct (Z.eq_dec n 0) as [->|N].
    + exfalso. cbn in H. assert (bpow radix2 0 < bpow radix2 emax) by (apply bpow_lt; lia). cbn [bpow] in H0. lra.
    + rewrite (C x F P N). apply cr_over. exact H.
  - intros x F P H. destruct (Z.eq_dec n 0) as [->|N].
    + exfalso. cbn [powerRZ] in H. assert (bpow radix2 (- emax - prec) < bpow radix2 0) by (apply bpow_lt; unfold Prec_gt_0 in Hp; lia). cbn [bpow] in H0. lra.
    + rewrite (C x F P N). apply cr_under; [apply powerRZ_lt; exact P|exact H].
  - intros x Nx Sx. unfold cr_powi. destruct (Z.eqb n 0); [split; [apply is_nan_Bone|apply Bsign_Bone]|].
    destruct x as [s|s| |s m e Hb]; try discriminate; cbn in Sx; subst s; try (destruct (Z.ltb 0 n); split; reflexivity).
    apply cr_pos. apply powerRZ_lt. apply F2R_gt_0. reflexivity.
  - intros s P. unfold cr_powi. destruct (Z.eqb_spec n 0); [lia|]. destruct (Z.ltb_spec 0 n); [reflexivity|lia].
  - intros x ->. reflexivity.
  - intros N. unfold cr_powi. destruct (Z.eqb_spec n 0); [contradiction|reflexivity].
Qed.
Lemma cr_powf_ok : powf_ok cr_powf 1.
Proof.
  split.
  - intros x y Fx Fy P H. destruct x as [s|s| |s m e Hb]; try discriminate; [cbn in P; lra|]. unfold cr_powf. rewrite Fy.
    destruct (cr_near _ H) as (A & _ & B). split; [exact A|exact B].
  - reflexivity.
  - reflexivity.
  - reflexivity.
  - intros x [->|P]; [reflexivity|]. destruct x as [s|s| |s m e Hb]; try (cbn in P; lra). reflexivity.
Qed.
End Lib.

Theorem c148_library (prec emax : Z) (Hp : Prec_gt_0 prec) (He : Prec_lt_emax prec emax) :
  exists (powi : binary_float prec emax -> Z -> binary_float prec emax) (powf : binary_float prec emax -> binary_float prec emax -> binary_float prec emax),
    (forall n, powi_ok powi n 1) /\ powf_ok powf 1.
Proof. exists cr_powi, cr_powf. split; [exact cr_powi_ok|exact cr_powf_ok]. Qed.

Theorem c148_example :
  let v : vec f64 2 := v2 (f64_of_Z 3) (f64_of_Z (-4)) in
  lp_sum v 3 = 91 /\ (forall i, (i < 2)%nat -> is_finite (vat v i) = true) /\
  (forall i, (i < 2)%nat -> B2R (vat v i) = 0 \/ bpow radix2 (3 - 1024) <= powerRZ (Rabs (B2R (vat v i))) 3) /\
  0 < lp_sum v 3 <= bpow radix2 (1024 - 3) /\ 16 * (1 + INR 2 + Rabs (ln (lp_sum v 3))) * bpow radix2 (- 53) <= 1.
Proof.
  destruct (f64_of_Z_exact 3 ltac:(lia)) as (E1 & F1). destruct (f64_of_Z_exact (-4) ltac:(lia)) as (E2 & F2). intros v.
  assert (V0 : B2R (vat v 0) = 3) by exact E1. assert (V1 : B2R (vat v 1) = -4) by exact E2.
  assert (L : bpow radix2 (3 - 1024) <= 1) by (change 1 with (bpow radix2 0); apply bpow_le; lia).
  assert (M : 4096 <= bpow radix2 (1024 - 3)) by (change 4096 with (bpow radix2 12); apply bpow_le; lia).
  assert (T : bpow radix2 (-53) <= / 4096) by (change (/ 4096) with (bpow radix2 (-12)); apply bpow_le; lia).
  assert (T0 : 0 < bpow radix2 (-53)) by apply bpow_gt_0.
  assert (A3 : Rabs 3 = 3) by (apply Rabs_pos_eq; lra). assert (A4 : Rabs (-4) = 4) by (rewrite Rabs_left; lra).
  assert (S : lp_sum v 3 = 91).
  { change (0 + powerRZ (Rabs (B2R (vat v 0))) 3 + powerRZ (Rabs (B2R (vat v 1))) 3 = 91). rewrite V0, V1, A3, A4. cbn [powerRZ]. change (Pos.to_nat 3) with 3%nat. cbn [pow]. ring. }
  split; [exact S|]. split; [|split; [|split]].
  - intros [|[|i]] Hi; [exact F1|exact F2|lia].
  - intros [|[|i]] Hi; [right|right|lia].
    + rewrite V0, A3. cbn [powerRZ]. change (Pos.to_nat 3) with 3%nat. cbn [pow]. lra.
    + rewrite V1, A4. cbn [powerRZ]. change (Pos.to_nat 3) with 3%nat. cbn [pow]. lra.
  - rewrite S. lra.
  - rewrite S. assert (L91 : 0 <= ln 91 <= 90).
    { split; [rewrite <- ln_1; apply LLpFA.ln_le; lra|]. rewrite <- (ln_exp 90). apply LLpFA.ln_le; [lra|]. pose proof (exp_ineq1_le 90) as Q. apply Rle_trans with (1 + 90); [lra|exact Q]. }
    rewrite Rabs_pos_eq by lra. change (- (53))%Z with (-53)%Z. cbn [INR].
    assert (16 * (1 + (1 + 1) + ln 91) * bpow radix2 (-53) <= 2000 * bpow radix2 (-53)) by (apply Rmult_le_compat_r; lra). lra.
Qed.
