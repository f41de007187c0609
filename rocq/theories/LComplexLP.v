(** Lemmas for C115: conjugation of acosh and asinh at finite arguments. *)

From Coq Require Import ZArith Bool Reals Lia Lra Floats.SpecFloat.
From Flocq Require Import Core.Core Plus_error IEEE754.BinarySingleNaN.
From Verif Require Import Base Scalar MComplex MFloat MFloatVec MSign MComplexF SpecLibm SpecLibmS LFloat LFloatVec LAngleFP LComplexFP LComplexGP LComplexIP LComplexHP.
Local Open Scope R_scope.

Section Sgn.
Context {prec emax : Z} {Hprec : Prec_gt_0 prec} {Hemax : Prec_lt_emax prec emax}.
Notation fl := (binary_float prec emax).
Notation fexp := (FLT_exp (3 - emax - prec) prec).
Notation rnd := (round radix2 fexp ZnearestE).
Local Instance vexpL : Valid_exp fexp := FLT_exp_valid _ _.

(** NaN, or of sign [s]. *)
Definition fsg (s : bool) (x : fl) : Prop := is_nan x = true \/ Bsign x = s.

Lemma sg_self (x : fl) : fsg (Bsign x) x.
Proof. right; reflexivity. Qed.
Lemma sg_neg s (x : fl) : fsg s x -> fsg (negb s) (- x)%N_.
Proof. intros [H|H]; [left; rewrite nan_neg; exact H|]. unfold fsg. destruct x; cbn in *; (left; reflexivity) || (right; congruence). Qed.
Lemma sg_mul s t (x y : fl) : fsg s x -> fsg t y -> fsg (xorb s t) (x * y)%N_.
Proof.
  intros Hx Hy. destruct (is_nan (x * y)%N_) eqn:N; [left; exact N|right].
  assert (Sx : Bsign x = s) by (destruct Hx as [E|E]; [apply is_nan_eq in E; subst x; discriminate N|exact E]).
  assert (Sy : Bsign y = t) by (destruct Hy as [E|E]; [apply is_nan_eq in E; subst y; rewrite nan_mul_r in N; discriminate N|exact E]).
  cbn [nmul num_float] in *. pose proof (Bmult_correct prec emax _ _ mode_NE x y) as H. rewrite Sx, Sy in H.
  destruct (Rlt_bool _ _).
  - apply H, N.
  - destruct (Bmult mode_NE x y); cbn in H; try discriminate H; inversion H; reflexivity.
Qed.
Lemma sg_div s (x y : fl) : fsg s x -> fsg false y -> fsg s (x / y)%N_.
Proof.
  intros Hx Hy. destruct (is_nan (x / y)%N_) eqn:N; [left; exact N|right].
  assert (Sx : Bsign x = s) by (destruct Hx as [E|E]; [apply is_nan_eq in E; subst x; discriminate N|exact E]).
  assert (Sy : Bsign y = false).
  { destruct Hy as [E|E]; [apply is_nan_eq in E; subst y; destruct x; discriminate N|exact E]. }
  destruct y as [t|t| |t m e H].
  - destruct x as [u|u| |u n f G]; cbn in *; subst; try discriminate N; reflexivity || apply xorb_false_r.
  - destruct x as [u|u| |u n f G]; cbn in *; subst; try discriminate N; reflexivity || apply xorb_false_r.
  - destruct x; discriminate N.
  - cbn [ndiv numdiv_float] in *.
    pose proof (Bdiv_correct prec emax _ _ mode_NE x (B754_finite t m e H)) as C.
    assert (NZ : B2R (B754_finite t m e H) <> 0).
    { cbn [B2R Bsign] in *. subst t. apply Rgt_not_eq, F2R_gt_0. reflexivity. }
    specialize (C NZ). rewrite Sx, Sy in C.
    destruct (Rlt_bool _ _).
    + rewrite (proj2 (proj2 C) N). apply xorb_false_r.
    + destruct (Bdiv mode_NE x _); cbn in C; try discriminate C; inversion C; apply xorb_false_r.
Qed.
Lemma sg_add0 s t (x : fl) : fsg s x -> nis0 x = false -> fsg s (x + B754_zero t)%N_.
Proof. intros H N. rewrite add_0_r; assumption. Qed.

(** Numbers of the same sign do not cancel. *)
Lemma add_neg_same s (x y : fl) : fsg s x -> fsg s y -> (- x + - y)%N_ = (- (x + y))%N_.
Proof.
  intros [Hx|Hx].
  { apply is_nan_eq in Hx. subst x. reflexivity. }
  intros [Hy|Hy].
  { apply is_nan_eq in Hy. subst y. destruct x; reflexivity. }
  cbn [nadd nneg num_float].
  destruct x as [sx|sx| |sx mx ex Px], y as [sy|sy| |sy my ey Py]; cbn [Bsign] in *; subst; auto; try (destruct s; reflexivity).
  cbn [Bopp Bplus]. rewrite fplus_naive_neg. apply binary_normalize_neg.
  unfold Fplus_naive. destruct s; cbn [cond_Zopp]; lia.
Qed.

Lemma fin_no_nan (x : fl) : is_finite x = true -> is_nan x = false.
Proof. destruct x; try discriminate; reflexivity. Qed.
Lemma fin_val0 (x : fl) : is_finite x = true -> B2R x = 0 -> nis0 x = true.
Proof.
  destruct x as [t|t| |t m e H]; try discriminate; [reflexivity|]. intros _ E. exfalso.
  cbn [B2R] in E. destruct t; [pose proof (F2R_lt_0 radix2 (Float radix2 (cond_Zopp true (Z.pos m)) e) ltac:(reflexivity))|
    pose proof (F2R_gt_0 radix2 (Float radix2 (cond_Zopp false (Z.pos m)) e) ltac:(reflexivity))]; lra.
Qed.

(** A factor of modulus at least one does not underflow. *)
Lemma mul_ge (a b : fl) : is_finite b = true -> 1 <= Rabs (B2R b) -> nis0 a = false -> nis0 (a * b)%N_ = false.
Proof.
  intros Fb B N. destruct (is_finite a) eqn:Fa.
  - destruct (nis0 (a * b)%N_) eqn:Z; [|reflexivity]. exfalso.
    apply is0_iff in Z. destruct Z as (t & Z).
    assert (F : is_finite (a * b)%N_ = true) by (rewrite Z; reflexivity).
    pose proof (fmul_R _ _ F) as V. rewrite Z in V. cbn [B2R] in V.
    assert (Rabs (B2R a) <= 0).
    { rewrite <- Rabs_R0, V. apply abs_round_ge_generic; [apply vexpL|apply valid_rnd_N|apply generic_format_abs, generic_format_B2R|].
      rewrite Rabs_mult. pose proof (Rabs_pos (B2R a)). nra. }
    assert (B2R a = 0) by (pose proof (Rle_abs (B2R a)); pose proof (Rle_abs (- B2R a)); rewrite Rabs_Ropp in *; lra).
    rewrite fin_val0 in N; congruence.
  - destruct a as [t|t| |t m e H]; try discriminate Fa; [|reflexivity].
    destruct b as [u|u| |u n f G]; try discriminate Fb; try reflexivity.
    destruct t, u; reflexivity.
Qed.

Lemma pos_sg (x : fl) : is_finite x = true -> 0 < B2R x -> Bsign x = false.
Proof. intros _. apply pos_sign. Qed.
Lemma two_sg : fsg false (1 + 1 : fl)%N_.
Proof. destruct (@two_val prec emax _ _) as (F & V). right. apply pos_sg; [exact F|]. rewrite V. lra. Qed.
Lemma two_nz : nis0 (1 + 1 : fl)%N_ = false.
Proof. destruct (@two_val prec emax _ _) as (F & V). apply pos_nz. rewrite V. lra. Qed.
Lemma mul2_nz (a : fl) : nis0 a = false -> nis0 (a * (1 + 1))%N_ = false.
Proof.
  destruct (@two_val prec emax _ _) as (F & V). apply mul_ge; [exact F|]. rewrite V, Rabs_pos_eq; lra.
Qed.
Notation four := ((1 + 1) * (1 + 1) + B754_zero false * B754_zero false)%N_.
Lemma four_eq : four = ((1 + 1) * (1 + 1) : fl)%N_.
Proof. apply (add_0_r false). apply mul2_nz, two_nz. Qed.
Lemma four_sg : fsg false (four : fl).
Proof. rewrite four_eq. apply (sg_mul false false); apply two_sg. Qed.
Lemma four_nz : nis0 (four : fl) = false.
Proof. rewrite four_eq. apply mul2_nz, two_nz. Qed.
Hypothesis H3 : (3 <= emax)%Z.
Lemma four_fin : is_finite (four : fl) = true.
Proof.
  rewrite four_eq. destruct (@two_val prec emax _ _) as (F & V). apply fmul_fin; try exact F. rewrite V.
  rewrite Rabs_pos_eq by lra. pose proof (bpow_le radix2 2 (emax - 1) ltac:(lia)) as B. cbn in B. lra.
Qed.

Lemma mul_0_cases (a : fl) t : (exists u, (a * B754_zero t)%N_ = B754_zero u) \/ (a * B754_zero t)%N_ = B754_nan.
Proof. destruct a as [u|u| |u m e H]; cbn; eauto. Qed.
Lemma sub_0_r (x : fl) t : nis0 x = false -> (x - B754_zero t)%N_ = x.
Proof. intros N. rewrite fsub_add_neg. change (- B754_zero t)%N_ with (B754_zero (negb t) : fl). apply add_0_r, N. Qed.

(** Half of a complex number whose imaginary part is not zero. *)
Lemma half_conj (a y : fl) : is_finite y = true -> nis0 y = false -> (nis0 a = true -> a = B754_zero false) ->
  cdiv (mkC a (- y)%N_) (cadd cone cone) = cconj (cdiv (mkC a y) (cadd cone cone)) /\
  fsg (Bsign y) (im (cdiv (mkC a y) (cadd cone cone))).
Proof.
  intros F N A. rewrite c_two. unfold cdiv, cmodulus_squared, cconj. cbv zeta. cbn [re im].
  assert (Y0 : forall u : fl, is_finite u = true -> exists t, (u * B754_zero false)%N_ = B754_zero t) by (intros u Fu; destruct u; try discriminate Fu; cbn; eauto).
  assert (Q : forall t, (a * (1 + 1) + B754_zero t)%N_ = (a * (1 + 1) + B754_zero false)%N_).
  { intros t. destruct (nis0 a) eqn:Za.
    - rewrite (A eq_refl). pose proof two_sg as P2. destruct (@two_val prec emax _ _) as (F2 & V2).
      pose proof (pos_sg (1 + 1)%N_ F2 ltac:(rewrite V2; lra)) as G2. clear A Za.
      generalize dependent (1 + 1 : fl)%N_. intros w _ F2 _ G2. destruct w as [u|u| |u m e H]; try discriminate F2; cbn [Bsign] in G2; subst u; destruct t; reflexivity.
    - rewrite !add_0_r by (apply mul2_nz, Za). reflexivity. }
  destruct (Y0 y F) as (t1 & E1). destruct (Y0 (- y)%N_ ltac:(rewrite fin_neg; exact F)) as (t2 & E2).
  split.
  - f_equal.
    + rewrite E1, E2, (Q t1), (Q t2). reflexivity.
    + rewrite <- fdiv_neg_l. f_equal. rewrite fmul_neg_l. destruct (mul_0_cases a false) as [(u & ->)| ->].
      * rewrite !sub_0_r by (rewrite ?is0_neg; apply mul2_nz, N). reflexivity.
      * rewrite !nan_sub_r. reflexivity.
  - apply sg_div; [|apply four_sg]. destruct (mul_0_cases a false) as [(u & ->)| ->].
    + rewrite sub_0_r by apply mul2_nz, N. rewrite <- (xorb_false_r (Bsign y)). apply sg_mul; [apply sg_self|apply two_sg].
    + rewrite nan_sub_r. left; reflexivity.
Qed.

(** Real numbers that are not negative, with imaginary parts that are zeros of any sign; or NaN. *)
Definition zrel (z w : complex fl) : Prop :=
  (im z = B754_nan /\ im w = B754_nan) \/
  (re z = re w /\ Bsign (re z) = false /\ is_nan (re z) = false /\ nis0 (im z) = true /\ nis0 (im w) = true).

Lemma half_real (z w : complex fl) : zrel z w -> zrel (cdiv z (cadd cone cone)) (cdiv w (cadd cone cone)).
Proof.
  rewrite c_two. unfold cdiv, cmodulus_squared. cbv zeta. destruct z as [a b], w as [a' b']. cbn [re im].
  intros [(E1 & E2)|(E & A & NA & Zb & Zb')]; cbn [re im] in *.
  { left. cbn [im]. subst. split; reflexivity. }
  subst a'. apply is0_iff in Zb, Zb'. destruct Zb as (s & ->), Zb' as (s' & ->).
  pose proof four_sg as G4. pose proof four_nz as Z4. pose proof four_fin as F4. set (f := four) in *. pose proof (fin_no_nan f F4) as N4.
  assert (G4' : Bsign f = false) by (destruct G4; congruence). clear G4.
  pose proof (@two_sg) as P2. destruct (@two_val prec emax _ _) as (F2 & V2). pose proof two_nz as Z2.
  pose proof (mul2_nz a) as Z2a. set (t := (1 + 1 : fl)%N_) in *.
  assert (P2' : Bsign t = false) by (destruct P2 as [P2|P2]; [rewrite (fin_no_nan t F2) in P2; discriminate|exact P2]). clear P2.
  assert (M0 : forall v, (B754_zero v * t)%N_ = B754_zero v) by (intros v; destruct t; try discriminate F2; cbn in *; subst; cbn; rewrite xorb_false_r; reflexivity).
  assert (MA : Bsign (a * t)%N_ = false /\ is_nan (a * t)%N_ = false).
  { assert (NM : is_nan (a * t)%N_ = false).
    { destruct a as [u|u| |u m e H]; try discriminate NA.
      - destruct t; try discriminate F2; reflexivity.
      - destruct t; try discriminate F2; try discriminate Z2; reflexivity.
      - cbn [nmul num_float]. pose proof (Bmult_correct prec emax _ _ mode_NE (B754_finite u m e H) t) as C. destruct (Rlt_bool _ _).
        + apply fin_no_nan. destruct C as (_ & C & _). rewrite C, F2. reflexivity.
        + destruct (Bmult mode_NE _ t); cbn in C; try discriminate C; reflexivity. }
    split; [|exact NM]. destruct (sg_mul false false a t) as [E|E]; try (right; assumption); [congruence|exact E]. }
  destruct MA as (MA1 & MA2).
  assert (AD : forall v, (a * t + B754_zero v * B754_zero false)%N_ = (a * t)%N_).
  { intros v. replace (B754_zero v * B754_zero false)%N_ with (B754_zero v : fl) by (cbn; rewrite xorb_false_r; reflexivity).
    destruct (nis0 (a * t)%N_) eqn:Z; [|apply add_0_r, Z]. apply is0_iff in Z. destruct Z as (w & Z). rewrite Z in *. cbn in MA1. subst w. destruct v; reflexivity. }
  rewrite !AD, !M0.
  clear AD Z2a. set (w := (a * t)%N_) in *. clearbody w f.
  destruct f as [v|v| |v n g G]; try discriminate; cbn [Bsign] in G4'; subst v.
  assert (NZ : B2R (B754_finite false n g G) <> 0) by (apply Rgt_not_eq, F2R_gt_0; reflexivity).
  destruct (mul_0_cases a false) as [(u & E)|E]; rewrite E; [right|left; cbn [im]; rewrite !nan_sub_r; split; reflexivity].
  cbn [re im]. split; [reflexivity|]. split; [|split].
  - destruct (sg_div false w (B754_finite false n g G)) as [Q|Q]; try (right; assumption || reflexivity); [|exact Q].
    apply is_nan_eq in Q. rewrite Q. reflexivity.
  - destruct w as [q|q| |q m e H]; try discriminate MA2; try reflexivity.
    cbn [ndiv numdiv_float].
    pose proof (Bdiv_correct prec emax _ _ mode_NE (B754_finite q m e H) (B754_finite false n g G) NZ) as C.
    destruct (Rlt_bool _ _).
    + apply fin_no_nan. rewrite (proj1 (proj2 C)). reflexivity.
    + destruct (Bdiv mode_NE _ _); cbn in C; try discriminate C; reflexivity.
  - destruct s, s', u; split; reflexivity.
Qed.
End Sgn.

Section Inv.
Context {prec emax : Z} {Hprec : Prec_gt_0 prec} {Hemax : Prec_lt_emax prec emax}.
Notation fl := (binary_float prec emax).
Notation fexp := (FLT_exp (3 - emax - prec) prec).
Notation rnd := (round radix2 fexp ZnearestE).
Notation p0 := (B754_zero false : fl).
Local Instance vexpM : Valid_exp fexp := FLT_exp_valid _ _.
Variable L : libm fl.
Hypothesis S : libm_symmetric L.
Hypothesis P : libm_special L.
Hypothesis G : libm_signs L.

Lemma half_angle (a : fl) : is_finite a = true -> Rabs (B2R a) <= 4 ->
  is_finite (a / (1 + 1))%N_ = true /\ Rabs (B2R (a / (1 + 1))%N_) <= 2 /\ Bsign (a / (1 + 1))%N_ = Bsign a.
Proof.
  intros F B. pose proof (half_fin a F) as Fh. split; [exact Fh|].
  destruct (@two_val prec emax _ _) as (_ & V).
  assert (PE : (0 < prec < emax)%Z) by (unfold Prec_gt_0, Prec_lt_emax in *; lia).
  split.
  - cbn [ndiv numdiv_float] in *. pose proof (Bdiv_correct prec emax _ _ mode_NE a (1 + 1)%N_) as C. rewrite V in C. specialize (C ltac:(lra)).
    destruct (Rlt_bool _ _).
    + destruct C as (C & _). rewrite C.
      apply abs_round_le_generic; [apply vexpM|apply valid_rnd_N|apply (generic_format_bpow radix2 _ 1); unfold SpecFloat.fexp, SpecFloat.emin; lia|].
      unfold Rdiv. rewrite Rabs_mult, (Rabs_pos_eq (/ 2)) by lra. lra.
    + exfalso. apply (ovf_not_finite _ _ C Fh).
  - destruct (sg_div (Bsign a) a (1 + 1)%N_ (sg_self a) two_sg) as [E|E]; [|exact E]. rewrite fin_no_nan in E by exact Fh. discriminate E.
Qed.

Lemma fsqrt_sg (x : fl) : fnonneg x -> fnonneg (fsqrt x).
Proof.
  intros H. destruct (is_finite x) eqn:F; [right; apply fsqrt_fin; assumption|].
  destruct x as [s|s| |s m e B]; try discriminate F; [|left; reflexivity].
  destruct H as [H|H]; cbn in H; [discriminate|subst s; right; reflexivity].
Qed.

Lemma sqrt_sg s (z : complex fl) : fsg s (im z) -> fsg s (im (fc_sqrt L z)).
Proof.
  intros H. destruct z as [x y]. cbn [im] in H. destruct (is_nan y) eqn:Ny.
  { apply is_nan_eq in Ny. subst y. left. rewrite sqrt_im_nan by exact S. reflexivity. }
  destruct H as [H|H]; [congruence|].
  destruct (is_nan x) eqn:Nx.
  { apply is_nan_eq in Nx. subst x. left. reflexivity. }
  unfold fc_sqrt, fc_arg. cbv zeta. cbn [re im].
  destruct (sg_atan2 L G y x Ny Nx) as (A1 & A2 & A3). destruct (half_angle _ A1 A2) as (B1 & B2 & B3).
  pose proof (sg_sin L G _ B1 B2) as C. rewrite B3, A3, H in C.
  rewrite <- (xorb_false_l s). apply sg_mul; [|right; exact C].
  apply fsqrt_sg. unfold fc_norm. apply fsqrt_sg, msq_nonneg.
Qed.

Lemma arg_real (u : fl) : Bsign u = false -> is_nan u = false -> m_atan2 L p0 u = p0.
Proof.
  intros A N. destruct u as [s|s| |s m e B]; try discriminate N; cbn [Bsign] in A; subst s.
  - apply (sp_atan2_0 L P).
  - apply (sg_atan2_inf L G).
  - apply (sp_atan2_pos L P); [reflexivity|]. apply F2R_gt_0. reflexivity.
Qed.

Lemma add_nn (x y : fl) : Bsign x = false -> is_nan x = false -> Bsign y = false -> is_nan y = false ->
  Bsign (x + y)%N_ = false /\ is_nan (x + y)%N_ = false.
Proof.
  intros A B C D.
  assert (N : is_nan (x + y)%N_ = false).
  { destruct (is_finite x) eqn:Fx; [destruct (is_finite y) eqn:Fy|].
    - cbn [nadd num_float]. pose proof (Bplus_correct prec emax _ _ mode_NE x y Fx Fy) as H. destruct (Rlt_bool _ _).
      + apply fin_no_nan, H.
      + destruct H as (H & _). destruct (Bplus mode_NE x y); cbn in H; try discriminate H; reflexivity.
    - destruct x, y; try discriminate; reflexivity.
    - destruct x as [s|s| |s m e H], y as [t|t| |t n f K]; try discriminate; cbn in A, C; subst; reflexivity. }
  split; [|exact N]. destruct (fadd_sign x y) as [E|E]; try (right; assumption); [congruence|exact E].
Qed.
Lemma sq_nn (x : fl) : is_nan x = false -> Bsign (x * x)%N_ = false /\ is_nan (x * x)%N_ = false.
Proof.
  intros N. assert (M : is_nan (x * x)%N_ = false).
  { destruct (is_finite x) eqn:F.
    - cbn [nmul num_float]. pose proof (Bmult_correct prec emax _ _ mode_NE x x) as H. destruct (Rlt_bool _ _).
      + apply fin_no_nan. destruct H as (_ & H & _). rewrite H, F. reflexivity.
      + destruct (Bmult mode_NE x x); cbn in H; try discriminate H; reflexivity.
    - destruct x; try discriminate; reflexivity. }
  split; [|exact M]. destruct (fmul_square_sign x) as [E|E]; [congruence|exact E].
Qed.
Lemma sqrt_nn (x : fl) : Bsign x = false -> is_nan x = false -> Bsign (fsqrt x) = false /\ is_nan (fsqrt x) = false.
Proof.
  intros A N. destruct (is_finite x) eqn:F.
  - destruct (fsqrt_fin x (or_intror A) F) as (B & C). split; [exact C|apply fin_no_nan, B].
  - destruct x as [s|s| |s m e H]; try discriminate. cbn in A. subst s. split; reflexivity.
Qed.
Lemma one_facts : is_finite (1%N_ : fl) = true /\ B2R (1%N_ : fl) = 1 /\ Bsign (1%N_ : fl) = false.
Proof. destruct (@fbone prec emax _ _) as (O & F & B). change (Bone : fl) with (1%N_ : fl) in *. auto. Qed.
Lemma mul_1_nn (x : fl) : Bsign x = false -> is_nan x = false -> Bsign (x * 1)%N_ = false /\ is_nan (x * 1)%N_ = false.
Proof.
  intros A N. destruct one_facts as (Fo & O & So).
  assert (M : is_nan (x * 1)%N_ = false).
  { destruct (is_finite x) eqn:F.
    - apply fin_no_nan. apply (fmul_le1 x (1%N_ : fl) F Fo). rewrite O, Rabs_R1. lra.
    - destruct x as [s|s| |s m e H]; try discriminate. generalize dependent (1%N_ : fl). intros o Fo O _.
      destruct o; try discriminate Fo; [cbn in O; lra|reflexivity]. }
  split; [|exact M]. destruct (sg_mul false false x (1%N_ : fl)) as [E|E]; try (right; assumption); [congruence|exact E].
Qed.

(** The square root of such numbers is again one. *)
Lemma sqrt_zero (p : fl) s : fc_sqrt L (mkC p (B754_zero s)) = if s then cconj (fc_sqrt L (mkC p p0)) else fc_sqrt L (mkC p p0).
Proof. destruct s; [|reflexivity]. rewrite <- sqrt_conj by exact S. reflexivity. Qed.
Lemma sqrt_real_nn (z w : complex fl) : zrel z w -> zrel (fc_sqrt L z) (fc_sqrt L w).
Proof.
  destruct z as [p q], w as [p' q']. intros [(E1 & E2)|(E & A & N & Z1 & Z2)]; cbn [re im] in *.
  { left. subst. split; apply sqrt_im_nan, S. }
  subst p'. apply is0_iff in Z1, Z2. destruct Z1 as (s & ->), Z2 as (s' & ->). rewrite (sqrt_zero p s), (sqrt_zero p s').
  assert (Q : let r := fc_sqrt L (mkC p p0) in im r = B754_nan \/ (im r = p0 /\ Bsign (re r) = false /\ is_nan (re r) = false)).
  { destruct (sq_nn p N) as (M1 & M2). assert (Z0 : (p0 * p0)%N_ = p0) by reflexivity.
    destruct (add_nn (p * p)%N_ p0 M1 M2 eq_refl eq_refl) as (M3 & M4).
    destruct (sqrt_nn _ M3 M4) as (M5 & M6). destruct (sqrt_nn _ M5 M6) as (M7 & M8). destruct (mul_1_nn _ M7 M8) as (M9 & M10).
    unfold fc_sqrt, fc_arg. cbv zeta. cbn [re im]. rewrite (arg_real p A N), half_0, (sp_cos_0 L P), (sp_sin_0 L P).
    unfold fc_norm, cmodulus_squared. cbn [re im]. rewrite Z0.
    set (x := fsqrt (fsqrt (p * p + p0)%N_)) in *. destruct (mul_0_cases x false) as [(t & E)|E]; [right|left; exact E].
    split; [|split; assumption]. destruct x as [v|v| |v m e H]; try discriminate E; try discriminate M8; cbn in M7; subst v; reflexivity. }
  cbv zeta in Q. destruct (fc_sqrt L (mkC p p0)) as [u v]. cbn [re im] in Q. destruct Q as [->|(-> & B & C)].
  - left. destruct s, s'; split; reflexivity.
  - right. destruct s, s'; cbn [re im cconj]; repeat split; assumption || reflexivity.
Qed.
Lemma add_real_nn (z w z' w' : complex fl) : zrel z w -> zrel z' w' -> zrel (cadd z z') (cadd w w').
Proof.
  intros [(E1 & E2)|(E & A & N & Z1 & Z2)]; [left; cbn [im cadd]; rewrite E1, E2; split; reflexivity|].
  intros [(E1' & E2')|(E' & A' & N' & Z1' & Z2')]; [left; cbn [im cadd]; rewrite E1', E2', !nan_add_r; split; reflexivity|].
  right. cbn [re im cadd]. rewrite <- E, <- E'. destruct (add_nn _ _ A N A' N') as (B & C). split; [reflexivity|]. split; [exact B|]. split; [exact C|].
  apply is0_iff in Z1, Z2, Z1', Z2'. destruct Z1 as (a & ->), Z2 as (b & ->), Z1' as (c & ->), Z2' as (d & ->).
  destruct (add_00 (prec := prec) (emax := emax) a c) as (t & ->), (add_00 (prec := prec) (emax := emax) b d) as (t' & ->). split; reflexivity.
Qed.

(** Their logarithms are conjugate, up to signs of zeros. *)
Lemma zn_neg (x y : fl) : nis0 x = true -> nis0 y = true -> feqv x (- y)%N_.
Proof. intros X Y. apply is0_iff in X, Y. destruct X as (s & ->), Y as (t & ->). apply feqv_zero. Qed.
Lemma arg_zero (u : fl) s : Bsign u = false -> is_nan u = false -> nis0 (m_atan2 L (B754_zero s) u) = true.
Proof.
  intros A N. destruct s; [|rewrite arg_real by assumption; reflexivity].
  change (B754_zero true : fl) with (- p0)%N_. rewrite (sym_atan2 L S), arg_real by assumption. reflexivity.
Qed.
Lemma ln_real_nn (z w : complex fl) : zrel z w -> ceqv (fc_ln L z) (cconj (fc_ln L w)).
Proof.
  destruct z as [p q], w as [p' q']. intros [(E1 & E2)|(E & A & N & Z1 & Z2)]; cbn [re im] in *.
  { subst. rewrite !ln_im_nan by exact S. apply ceqv_eq. reflexivity. }
  subst p'. apply is0_iff in Z1, Z2. destruct Z1 as (s & ->), Z2 as (s' & ->).
  unfold fc_ln, fc_arg, cconj. split; cbn [re im].
  - apply feqv_eq. unfold fc_norm, cmodulus_squared. cbn [re im]. do 3 f_equal. destruct s, s'; reflexivity.
  - apply zn_neg; apply arg_zero; assumption.
Qed.

Lemma mul2_ceqv (z w : complex fl) : ceqv z w -> ceqv (cmul (cadd cone cone) z) (cmul (cadd cone cone) w).
Proof.
  intros (A & B). rewrite c_two. unfold cmul. cbn [re im].
  assert (M : forall x y y' : fl, feqv y y' -> feqv (x * y)%N_ (x * y')%N_) by (intros x y y' H; rewrite !(fmul_comm x); apply feqv_mul_l, H).
  split; cbn [re im]; [apply feqv_sub|apply feqv_add]; apply M; assumption.
Qed.
Lemma mul2_conj (z : complex fl) : ceqv (cmul (cadd cone cone) (cconj z)) (cconj (cmul (cadd cone cone) z)).
Proof.
  rewrite c_two. destruct z as [a b]. unfold cmul, cconj. cbn [re im]. split; cbn [re im].
  - apply feqv_sub; [apply feqv_refl|]. rewrite fmul_neg_r, (fmul_comm p0). apply feqv_sym, mul_zero.
  - eapply feqv_trans; [|apply feqv_add_neg]. rewrite fmul_neg_r. apply feqv_add; [apply feqv_refl|]. rewrite (fmul_comm p0). apply mul_zero.
Qed.
Lemma sqrt_add_conj s (z w : complex fl) : fsg s (im z) -> fsg s (im w) ->
  cadd (fc_sqrt L (cconj z)) (fc_sqrt L (cconj w)) = cconj (cadd (fc_sqrt L z) (fc_sqrt L w)).
Proof.
  intros A B. rewrite !sqrt_conj by exact S. unfold cadd, cconj. cbn [re im]. f_equal.
  apply (add_neg_same s); apply sqrt_sg; assumption.
Qed.

Hypothesis H3 : (3 <= emax)%Z.

Lemma add_zero (x y : fl) : is_finite x = true -> is_finite y = true -> nis0 (x + y)%N_ = true ->
  B2R x + B2R y = 0 /\ (x + y)%N_ = B754_zero (andb (Bsign x) (Bsign y)).
Proof.
  intros Fx Fy Z. apply is0_iff in Z. destruct Z as (t & Z). rewrite Z.
  cbn [nadd num_float] in Z. pose proof (Bplus_correct prec emax _ _ mode_NE x y Fx Fy) as C. rewrite Z in C.
  destruct (Rlt_bool _ _).
  - destruct C as (V & _ & C). cbn [B2R Bsign] in *.
    assert (E : B2R x + B2R y = 0).
    { destruct (Req_dec (B2R x + B2R y) 0) as [E|E]; [exact E|exfalso].
      apply (round_plus_neq_0 radix2 fexp ZnearestE (B2R x) (B2R y)); try apply generic_format_B2R; try apply vexpM; try apply valid_rnd_N; try exact E.
      symmetry. exact V. }
    split; [exact E|]. rewrite E, Rcompare_Eq in C by reflexivity. rewrite C. reflexivity.
  - destruct C as (C & _). discriminate C.
Qed.
Lemma add_nonneg (x y : fl) : is_finite x = true -> is_finite y = true -> Bsign x = false -> 0 <= B2R x + B2R y ->
  Bsign (x + y)%N_ = false /\ is_nan (x + y)%N_ = false.
Proof.
  intros Fx Fy Sx V. cbn [nadd num_float]. pose proof (Bplus_correct prec emax _ _ mode_NE x y Fx Fy) as C.
  destruct (Rlt_bool _ _).
  - destruct C as (_ & F & C). split; [|apply fin_no_nan, F]. rewrite C.
    destruct (Rcompare_spec (B2R x + B2R y) 0); [lra|rewrite Sx; reflexivity|reflexivity].
  - destruct C as (C & _). rewrite Sx in C. destruct (Bplus mode_NE x y); cbn in C; try discriminate C. inversion C. split; reflexivity.
Qed.

Definition acosh_body (z : complex fl) : complex fl :=
  cmul (cadd cone cone) (fc_ln L (cadd (fc_sqrt L (cdiv (cadd z cone) (cadd cone cone))) (fc_sqrt L (cdiv (csub z cone) (cadd cone cone))))).
Lemma acosh_finite z : cis_finite z = true -> fc_acosh L z = acosh_body z.
Proof.
  destruct z as [x y]. unfold cis_finite, fc_acosh. cbn [re im]. intros F. apply andb_prop in F. destruct F as (Fx & Fy).
  destruct x; try discriminate Fx; destruct y; try discriminate Fy; reflexivity.
Qed.

Lemma acosh_fin_conj (z : complex fl) : cis_finite z = true -> (nis0 (im z) = true -> 1 <= B2R (re z)) ->
  ceqv (fc_acosh L (cconj z)) (cconj (fc_acosh L z)).
Proof.
  intros F H. rewrite !acosh_finite by (rewrite ?conj_nf; exact F). apply andb_prop in F. destruct F as (Fx & Fy).
  destruct z as [x y]. cbn [re im] in *. destruct one_facts as (Fo & O & So).
  destruct (nis0 y) eqn:N.
  - specialize (H eq_refl). apply is0_iff in N. destruct N as (s & ->).
    assert (Sx : Bsign x = false) by (apply pos_sign; lra). pose proof (fin_no_nan x Fx) as Nx.
    destruct (add_nn x (1%N_ : fl) Sx Nx So (fin_no_nan _ Fo)) as (A1 & A2).
    destruct (add_nonneg x (- (1%N_ : fl))%N_ Fx ltac:(rewrite fin_neg; exact Fo) Sx) as (B1 & B2).
    { assert (B2R (- (1%N_ : fl))%N_ = -1) as ->; [|lra]. cbn [nneg num_float]. rewrite B2R_Bopp. rewrite O. reflexivity. }
    rewrite <- fsub_add_neg in B1, B2.
    unfold acosh_body. eapply ceqv_trans; [|apply mul2_conj]. apply mul2_ceqv, ln_real_nn.
    apply add_real_nn; apply sqrt_real_nn, half_real; try exact H3; right; cbn [re im cadd csub cconj cone cidentity];
      (split; [reflexivity|split; [assumption|split; [assumption|split; destruct s; reflexivity]]]).
  - assert (Y1 : (y + 0)%N_ = y) by (apply (add_0_r false), N). assert (Y2 : (y - 0)%N_ = y) by (apply sub_0_r, N).
    assert (Y3 : (- y + 0)%N_ = (- y)%N_) by (apply (add_0_r false); rewrite is0_neg; exact N).
    assert (Y4 : (- y - 0)%N_ = (- y)%N_) by (apply sub_0_r; rewrite is0_neg; exact N).
    unfold acosh_body. change (cconj (mkC x y)) with (mkC x (- y)%N_).
    change (cadd (mkC x (- y)%N_) cone) with (mkC (x + 1) (- y + 0))%N_. change (csub (mkC x (- y)%N_) cone) with (mkC (x - 1) (- y - 0))%N_.
    change (cadd (mkC x y) cone) with (mkC (x + 1) (y + 0))%N_. change (csub (mkC x y) cone) with (mkC (x - 1) (y - 0))%N_.
    rewrite Y1, Y2, Y3, Y4.
    destruct (half_conj (x + 1)%N_ y Fy N) as (U1 & U2).
    { intros Z. destruct (add_zero x (1%N_ : fl) Fx Fo Z) as (_ & ->). rewrite So, andb_false_r. reflexivity. }
    destruct (half_conj (x - 1)%N_ y Fy N) as (V1 & V2).
    { rewrite fsub_add_neg. intros Z. destruct (add_zero x (- (1%N_ : fl))%N_ Fx ltac:(rewrite fin_neg; exact Fo) Z) as (E & ->).
      assert (Q : B2R (- (1%N_ : fl))%N_ = -1) by (cbn [nneg num_float]; rewrite B2R_Bopp; rewrite O; reflexivity).
      rewrite Q in E. rewrite (pos_sign x) by lra. reflexivity. }
    rewrite U1, V1, (sqrt_add_conj (Bsign y) _ _ U2 V2), ln_conj by exact S. apply mul2_conj.
Qed.

(** asinh in the right half-plane. *)
Definition asinh_body (z : complex fl) : complex fl := fc_ln L (cadd z (fc_sqrt L (cadd cone (cmul z z)))).
Lemma asinh_finite z : cis_finite z = true -> fc_asinh L z = asinh_body z.
Proof.
  destruct z as [x y]. unfold cis_finite, fc_asinh. cbn [re im]. intros F. apply andb_prop in F. destruct F as (Fx & Fy).
  destruct x; try discriminate Fx; destruct y; try discriminate Fy; reflexivity.
Qed.
Lemma fin_nonneg_sg (x : fl) : is_finite x = true -> 0 <= B2R x -> nis0 x = false -> Bsign x = false.
Proof.
  intros F V N. apply pos_sign. destruct V as [V|V]; [exact V|]. rewrite (fin_val0 x F (eq_sym V)) in N. discriminate N.
Qed.
Lemma double_0 (x : fl) : nis0 (x + x)%N_ = true -> nis0 x = true.
Proof.
  intros Z. destruct (is_finite x) eqn:F.
  - destruct (add_zero x x F F Z) as (E & _). apply fin_val0; [exact F|lra].
  - destruct x as [s|s| |s m e H]; try discriminate F; [destruct s; discriminate Z|discriminate Z].
Qed.
Lemma double_sg s (x : fl) : fsg s x -> fsg s (x + x)%N_.
Proof.
  intros H. destruct s.
  - apply sg_neg in H. cbn [negb] in H. pose proof (fadd_sign _ _ H H) as Q. rewrite fdouble_neg in Q. apply (sg_neg false) in Q.
    rewrite fneg_invol in Q. exact Q.
  - apply fadd_sign; exact H.
Qed.

Lemma asinh_fin_conj (z : complex fl) : cis_finite z = true -> 0 <= B2R (re z) -> (B2R (re z) = 0 -> Rabs (B2R (im z)) <= 1) ->
  ceqv (fc_asinh L (cconj z)) (cconj (fc_asinh L z)).
Proof.
  intros F V H. rewrite !asinh_finite by (rewrite ?conj_nf; exact F). apply andb_prop in F. destruct F as (Fa & Fb).
  destruct z as [a b]. cbn [re im] in *. destruct one_facts as (Fo & O & So).
  unfold asinh_body. change (cconj (mkC a b)) with (mkC a (- b)%N_).
  assert (Q1 : cmul (mkC a (- b)%N_) (mkC a (- b)%N_) = mkC (a * a - b * b)%N_ (- (a * b + a * b))%N_).
  { unfold cmul. cbn [re im]. rewrite fmul_neg_neg, fmul_neg_l, fmul_neg_r, (fmul_comm b a), fdouble_neg. reflexivity. }
  assert (Q2 : cmul (mkC a b) (mkC a b) = mkC (a * a - b * b)%N_ (a * b + a * b)%N_).
  { unfold cmul. cbn [re im]. rewrite (fmul_comm b a). reflexivity. }
  rewrite Q1, Q2. clear Q1 Q2. set (c := (a * b + a * b)%N_).
  change (cadd cone (mkC (a * a - b * b)%N_ (- c)%N_)) with (mkC (1 + (a * a - b * b)) (0 + - c))%N_.
  change (cadd cone (mkC (a * a - b * b)%N_ c)) with (mkC (1 + (a * a - b * b)) (0 + c))%N_.
  set (r := (1 + (a * a - b * b))%N_).
  destruct (nis0 c) eqn:Nc.
  - (* the square is real up to underflow *)
    assert (Nab : nis0 (a * b)%N_ = true) by (apply double_0; exact Nc).
    assert (B1 : Rabs (B2R b) <= 1).
    { destruct (Rle_dec 1 (Rabs (B2R b))) as [B|B]; [|lra]. destruct (nis0 a) eqn:Na.
      - apply H. apply is0_iff in Na. destruct Na as (t & ->). reflexivity.
      - rewrite (mul_ge a b Fb B Na) in Nab. discriminate Nab. }
    destruct (fmul_le1 b b Fb Fb B1) as (Fbb & Bbb).
    destruct (sq_nn a (fin_no_nan a Fa)) as (Aa1 & Aa2). destruct (sq_nn b (fin_no_nan b Fb)) as (Bb1 & Bb2).
    assert (Vbb : 0 <= B2R (b * b)%N_ <= 1).
    { split; [apply fnonneg_R; right; exact Bb1|]. pose proof (Rle_abs (B2R (b * b)%N_)). lra. }
    assert (R : Bsign r = false /\ is_nan r = false).
    { unfold r. destruct (is_finite (a * a)%N_) eqn:Faa.
      - pose proof (fnonneg_R _ (or_intror Aa1 : fnonneg (a * a)%N_)) as Vaa.
        rewrite fsub_add_neg.
        assert (Nb : B2R (- (b * b))%N_ = - B2R (b * b)%N_) by (cbn [nneg num_float]; apply B2R_Bopp).
        assert (Fd : is_finite (a * a + - (b * b))%N_ = true).
        { cbn [nadd num_float].
          pose proof (Bplus_correct prec emax _ _ mode_NE (a * a)%N_ (- (b * b))%N_ Faa ltac:(rewrite fin_neg; exact Fbb)) as C.
          rewrite Rlt_bool_true in C; [apply C|]. rewrite Nb.
          apply (Rle_lt_trans _ (Rmax (B2R (a * a)%N_) (B2R (1%N_ : fl)))).
          - apply abs_round_le_generic; [apply vexpM|apply valid_rnd_N| |].
            + unfold Rmax. destruct Rle_dec; apply generic_format_B2R.
            + rewrite O. apply Rabs_le. pose proof (Rmax_l (B2R (a * a)%N_) 1). pose proof (Rmax_r (B2R (a * a)%N_) 1). lra.
          - unfold Rmax. destruct Rle_dec.
            + pose proof (abs_B2R_lt_emax prec emax (1%N_ : fl)) as Q. rewrite Rabs_pos_eq in Q by (rewrite O; lra). exact Q.
            + pose proof (abs_B2R_lt_emax prec emax (a * a)%N_) as Q. rewrite Rabs_pos_eq in Q by exact Vaa. exact Q. }
        apply add_nonneg; [exact Fo|exact Fd|exact So|]. rewrite O, (fadd_R _ _ Fd), Nb.
        assert (- (1) <= rnd (B2R (a * a)%N_ + - B2R (b * b)%N_)); [|lra].
        apply round_ge_generic; [apply vexpM|apply valid_rnd_N| |lra].
        replace (- (1)) with (- B2R (1%N_ : fl)) by (rewrite O; ring). apply generic_format_opp, generic_format_B2R.
      - destruct (a * a)%N_ as [s|s| |s m e K]; try discriminate Faa; try discriminate Aa2. cbn [Bsign] in Aa1. subst s.
        replace (B754_infinity false - b * b)%N_ with (B754_infinity false : fl) by (destruct (b * b)%N_; try discriminate Fbb; reflexivity).
        generalize dependent (1%N_ : fl). intros o Fo _ _. destruct o; try discriminate Fo; split; reflexivity. }
    destruct R as (R1 & R2).
    replace (0 + - c)%N_ with p0 by (apply is0_iff in Nc; destruct Nc as (t & ->); destruct t; reflexivity).
    replace (0 + c)%N_ with p0 by (apply is0_iff in Nc; destruct Nc as (t & ->); destruct t; reflexivity).
    assert (Z : zrel (fc_sqrt L (mkC r p0)) (fc_sqrt L (mkC r p0))).
    { apply sqrt_real_nn. right. cbn [re im]. repeat split; assumption. }
    destruct (nis0 b) eqn:N0.
    + set (q := fc_sqrt L (mkC r p0)) in *.
      assert (A : exists a', Bsign a' = false /\ is_nan a' = false /\ (im q = B754_nan \/ (a + re q)%N_ = (a' + re q)%N_)).
      { destruct (nis0 a) eqn:Na.
        - exists p0. split; [reflexivity|]. split; [reflexivity|]. destruct Z as [(Z & _)|(_ & Zs & Zn & _)]; [left; exact Z|right].
          apply is0_iff in Na. destruct Na as (t & ->). destruct (re q) as [v|v| |v m e K]; try discriminate Zn; try reflexivity.
          cbn [Bsign] in Zs. subst v. destruct t; reflexivity.
        - exists a. split; [apply fin_nonneg_sg; assumption|]. split; [apply fin_no_nan, Fa|right; reflexivity]. }
      destruct A as (a' & A1 & A2 & A3). apply is0_iff in N0. destruct N0 as (t & ->).
      apply ln_real_nn. destruct A3 as [A3|A3].
      * left. cbn [im cadd]. rewrite A3, !nan_add_r. split; reflexivity.
      * assert (E : forall b', cadd (mkC a b') q = cadd (mkC a' b') q) by (intros b'; unfold cadd; cbn [re im]; rewrite A3; reflexivity).
        rewrite !E. apply add_real_nn; [|exact Z]. right. cbn [re im]. repeat split; try assumption; destruct t; reflexivity.
    + apply ceqv_eq. rewrite <- ln_conj by exact S. f_equal. unfold cadd, cconj. cbn [re im]. f_equal.
      destruct Z as [(Z & _)|(_ & _ & _ & Z & _)].
      * rewrite Z, !nan_add_r. reflexivity.
      * apply is0_iff in Z. destruct Z as (t & ->). rewrite !add_0_r by (rewrite ?is0_neg; exact N0). reflexivity.
  - assert (Na : nis0 a = false).
    { destruct (nis0 a) eqn:Na; [|reflexivity]. apply is0_iff in Na. destruct Na as (t & ->). unfold c in Nc. destruct b as [u|u| |u m e K]; try discriminate Fb; destruct t, u; discriminate Nc. }
    pose proof (fin_nonneg_sg a Fa V Na) as Sa.
    replace (0 + - c)%N_ with (- c)%N_ by (symmetry; apply (add_0_l false); rewrite is0_neg; exact Nc).
    replace (0 + c)%N_ with c by (symmetry; apply (add_0_l false); exact Nc).
    assert (Sc : fsg (Bsign b) c).
    { apply double_sg. rewrite <- (xorb_false_l (Bsign b)). apply sg_mul; [right; exact Sa|apply sg_self]. }
    change (mkC r (- c)%N_) with (cconj (mkC r c)). rewrite sqrt_conj by exact S.
    apply ceqv_eq. rewrite <- ln_conj by exact S. f_equal. unfold cadd, cconj. cbn [re im]. f_equal.
    apply (add_neg_same (Bsign b)); [apply sg_self|]. apply sqrt_sg. exact Sc.
Qed.
End Inv.
