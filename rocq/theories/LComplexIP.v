(** Lemmas for C115: finite arguments of the inverse functions. *)

From Coq Require Import ZArith Bool Reals Lia Lra Floats.SpecFloat.
From Flocq Require Import Core.Core IEEE754.BinarySingleNaN.
From Verif Require Import Base Scalar MComplex MFloat MFloatVec MSign MComplexF SpecLibm LFloat LComplexFP LComplexGP.
Local Open Scope num_scope.

Section Lem.
Context {prec emax : Z} {Hprec : Prec_gt_0 prec} {Hemax : Prec_lt_emax prec emax}.
Notation fl := (binary_float prec emax).

Lemma add_0_l (s : bool) (x : fl) : nis0 x = false -> (B754_zero s : fl) + x = x.
Proof. destruct x as [t|t| |t m e H]; cbn; intros E; try discriminate; reflexivity. Qed.
Lemma add_0_r (s : bool) (x : fl) : nis0 x = false -> x + (B754_zero s : fl) = x.
Proof. destruct x as [t|t| |t m e H]; cbn; intros E; try discriminate; reflexivity. Qed.
Lemma add_00 s t : exists u, (B754_zero s : fl) + B754_zero t = B754_zero u.
Proof. cbn. destruct (Bool.eqb s t); eauto. Qed.

Lemma feqv_sym (x y : fl) : feqv x y -> feqv y x.
Proof. intros [->|(s & t & -> & ->)]; [left; reflexivity|right; eauto]. Qed.
Lemma feqv_add (x x' y y' : fl) : feqv x x' -> feqv y y' -> feqv (x + y) (x' + y').
Proof.
  intros [->|(s & t & -> & ->)] [->|(s' & t' & -> & ->)].
  - apply feqv_refl.
  - destruct (nis0 x') eqn:N; [|rewrite !add_0_r by exact N; apply feqv_refl].
    apply is0_iff in N. destruct N as (u & ->). destruct (add_00 u s') as (a & ->), (add_00 u t') as (b & ->). apply feqv_zero.
  - destruct (nis0 y') eqn:N; [|rewrite !add_0_l by exact N; apply feqv_refl].
    apply is0_iff in N. destruct N as (u & ->). destruct (add_00 s u) as (a & ->), (add_00 t u) as (b & ->). apply feqv_zero.
  - destruct (add_00 s s') as (a & ->), (add_00 t t') as (b & ->). apply feqv_zero.
Qed.
Lemma feqv_sub (x x' y y' : fl) : feqv x x' -> feqv y y' -> feqv (x - y) (x' - y').
Proof. intros A B. rewrite !fsub_add_neg. apply feqv_add; [exact A|apply feqv_opp, B]. Qed.
Lemma feqv_mul_l (x x' y : fl) : feqv x x' -> feqv (x * y) (x' * y).
Proof.
  intros [->|(s & t & -> & ->)]; [apply feqv_refl|]. destruct y as [u|u| |u m e H]; cbn; try apply feqv_zero; apply feqv_refl.
Qed.
Lemma feqv_div_l (x x' y : fl) : feqv x x' -> feqv (x / y) (x' / y).
Proof.
  intros [->|(s & t & -> & ->)]; [apply feqv_refl|]. destruct y as [u|u| |u m e H]; cbn; try apply feqv_zero; apply feqv_refl.
Qed.
Lemma feqv_add_neg (x y : fl) : feqv (- x + - y) (- (x + y)).
Proof. destruct (fadd_neg x y) as [->|(-> & ->)]; [apply feqv_refl|apply feqv_zero]. Qed.
Lemma feqv_sub_neg (x y : fl) : feqv (- x - - y) (- (x - y)).
Proof. rewrite !fsub_add_neg. apply feqv_add_neg. Qed.
Lemma feqv_sub_swap (x y : fl) : feqv (y - x) (- (x - y)).
Proof.
  rewrite !fsub_add_neg. eapply feqv_trans; [|apply feqv_add_neg]. rewrite fneg_invol.
  rewrite fadd_comm. apply feqv_refl.
Qed.

(** Division by the complex number two. *)
Lemma mul_zero (s : bool) (x : fl) : feqv (x * B754_zero s) (- (x * B754_zero s)).
Proof. destruct x as [t|t| |t m e H]; cbn; try apply feqv_zero; apply feqv_refl. Qed.
Lemma c_two : cadd cone cone = mkC (1 + 1) (B754_zero false) :> complex fl.
Proof. reflexivity. Qed.
Lemma div2_ceqv (z w : complex fl) : ceqv z w -> ceqv (cdiv z (cadd cone cone)) (cdiv w (cadd cone cone)).
Proof.
  intros (A & B). rewrite c_two. unfold cdiv. cbv zeta. split; cbn [re im]; apply feqv_div_l.
  - apply feqv_add; apply feqv_mul_l; assumption.
  - apply feqv_sub; apply feqv_mul_l; assumption.
Qed.
Lemma div2_conj (z : complex fl) : ceqv (cdiv (cconj z) (cadd cone cone)) (cconj (cdiv z (cadd cone cone))).
Proof.
  rewrite c_two. destruct z as [a b]. unfold cdiv, cconj. cbv zeta. cbn [re im]. split; cbn [re im].
  - apply feqv_div_l, feqv_add; [apply feqv_refl|]. rewrite fmul_neg_l. apply feqv_sym, mul_zero.
  - rewrite <- fdiv_neg_l. apply feqv_div_l. rewrite fmul_neg_l. eapply feqv_trans; [|apply feqv_sub_neg].
    apply feqv_sub; [apply feqv_refl|apply mul_zero].
Qed.
Lemma div2_neg (z : complex fl) : ceqv (cdiv (cneg z) (cadd cone cone)) (cneg (cdiv z (cadd cone cone))).
Proof.
  rewrite c_two. destruct z as [a b]. unfold cdiv, cneg. cbv zeta. cbn [re im]. split; cbn [re im]; rewrite <- fdiv_neg_l; apply feqv_div_l; rewrite !fmul_neg_l.
  - apply feqv_add_neg.
  - apply feqv_sub_neg.
Qed.
Lemma sub_conj (z w : complex fl) : ceqv (csub (cconj z) (cconj w)) (cconj (csub z w)).
Proof. split; cbn [re im csub cconj]; [apply feqv_refl|apply feqv_sub_neg]. Qed.
Lemma sub_swap (z w : complex fl) : ceqv (csub w z) (cneg (csub z w)).
Proof. split; cbn [re im csub cneg]; apply feqv_sub_swap. Qed.

Lemma eqb_neg (x y : fl) : Beqb (- x) (- y) = Beqb x y.
Proof.
  unfold Beqb. rewrite !B2SF_neg. destruct x as [[]|[]| |[] m e H], y as [[]|[]| |[] m' e' H']; try reflexivity.
  all: unfold SFeqb, SFcompare; cbn [B2SF SFopp negb]; destruct (e ?= e')%Z; try reflexivity; destruct (Pos.compare_cont Eq m m'); reflexivity.
Qed.

Lemma eqb_0neg (y : fl) : Beqb (- y) 0 = Beqb y 0.
Proof. destruct y as [[]|[]| |[] m e H]; reflexivity. Qed.
Lemma eqb_neg0 (y : fl) : Beqb y (- 0) = Beqb y 0.
Proof. destruct y as [[]|[]| |[] m e H]; reflexivity. Qed.
Lemma ceqb_conj (z : complex fl) : fc_eqb (cconj z) cone = fc_eqb z cone.
Proof. destruct z as [x y]. unfold fc_eqb. cbn [re im cconj cone cidentity]. rewrite eqb_0neg. reflexivity. Qed.
Lemma ceqb_conjn (z : complex fl) : fc_eqb (cconj z) (cneg cone) = fc_eqb z (cneg cone).
Proof. destruct z as [x y]. unfold fc_eqb. cbn [re im cconj cone cidentity cneg]. rewrite !eqb_neg0, eqb_0neg. reflexivity. Qed.
Lemma ceqb_neg (z : complex fl) : fc_eqb (cneg z) (cneg cone) = fc_eqb z cone.
Proof. destruct z as [x y]. unfold fc_eqb. cbn [re im cneg cone cidentity]. rewrite !eqb_neg. reflexivity. Qed.
Lemma ceqb_neg1 (z : complex fl) : fc_eqb (cneg z) cone = fc_eqb z (cneg cone).
Proof.
  rewrite <- ceqb_neg. unfold cneg at 1. destruct z as [x y]. unfold cneg. cbn [re im]. rewrite !fneg_invol. reflexivity.
Qed.
Lemma ceqb_both (z : complex fl) : fc_eqb z cone = true -> fc_eqb z (cneg cone) = true -> False.
Proof.
  destruct z as [x y]. unfold fc_eqb. cbn [re im cneg cone cidentity]. intros A B.
  apply andb_prop in A, B. destruct A as (A & _), B as (B & _).
  destruct fbone as (B1 & F1 & _). cbn [n1 num_float nneg] in A, B.
  assert (F : is_finite x = true).
  { destruct x as [s|s| |s m e H]; try reflexivity; destruct (Bone : fl) as [s'|s'| |s' m' e' H']; try destruct s; try destruct s'; discriminate. }
  rewrite Beqb_correct in A by assumption. rewrite Beqb_correct in B by (try rewrite is_finite_Bopp; assumption).
  rewrite B2R_Bopp, B1 in B. rewrite B1 in A.
  apply Req_bool_true_iff in A || (destruct (Req_bool_spec (B2R x) 1); [|discriminate]).
  destruct (Req_bool_spec (B2R x) (- (1))); [|discriminate]. lra.
Qed.

Variable L : libm fl.
Hypothesis S : libm_symmetric L.

Definition atanh_body (z : complex fl) : complex fl :=
  cdiv (csub (fc_ln L (cadd cone z)) (fc_ln L (csub cone z))) (cadd cone cone).
Lemma atanh_finite z : cis_finite z = true ->
  fc_atanh L z = if fc_eqb z cone then mkC (B754_infinity false) 0
                 else if fc_eqb z (cneg cone) then mkC (B754_infinity true) 0 else atanh_body z.
Proof.
  destruct z as [x y]. unfold cis_finite. cbn [re im]. intros F. apply andb_prop in F. destruct F as (Fx & Fy).
  unfold fc_atanh. cbv zeta. cbn [re im].
  replace (fis_infinite y) with false by (destruct y; try discriminate Fy; reflexivity).
  replace (is_nan y) with false by (destruct y; try discriminate Fy; reflexivity).
  replace (fis_infinite x) with false by (destruct x; try discriminate Fx; reflexivity).
  replace (is_nan x) with false by (destruct x; try discriminate Fx; reflexivity). reflexivity.
Qed.

Lemma atanh_body_odd z : ceqv (atanh_body (cneg z)) (cneg (atanh_body z)).
Proof.
  unfold atanh_body.
  replace (cadd cone (cneg z)) with (csub cone z) by (unfold cadd, csub, cneg; cbn [re im]; rewrite <- !fsub_add_neg; reflexivity).
  replace (csub cone (cneg z)) with (cadd cone z) by (unfold cadd, csub, cneg; cbn [re im]; rewrite !fsub_add_neg, !fneg_invol; reflexivity).
  eapply ceqv_trans; [|apply div2_neg]. apply div2_ceqv, sub_swap.
Qed.
Lemma atanh_odd_fin z : cis_finite z = true -> ceqv (fc_atanh L (cneg z)) (cneg (fc_atanh L z)).
Proof.
  intros F. rewrite !atanh_finite; [|exact F|destruct z as [x y]; unfold cis_finite in *; cbn [re im cneg] in *; rewrite !fin_neg; exact F].
  rewrite ceqb_neg1, ceqb_neg. destruct (fc_eqb z cone) eqn:A, (fc_eqb z (cneg cone)) eqn:B.
  - exfalso. eauto using ceqb_both.
  - split; [apply feqv_refl|apply feqv_zero].
  - split; [apply feqv_refl|apply feqv_zero].
  - apply atanh_body_odd.
Qed.
Lemma atanh_odd_all z : ceqv (fc_atanh L (cneg z)) (cneg (fc_atanh L z)).
Proof. destruct (cis_finite z) eqn:F; [apply atanh_odd_fin, F|apply atanh_odd, F; assumption]. Qed.
Lemma atan_odd_all z : ceqv (fc_atan L (cneg z)) (cneg (fc_atan L z)).
Proof.
  destruct z as [x y]. unfold fc_atan. cbv zeta. cbn [re im cneg].
  destruct (atanh_odd_all (mkC (- y) x)) as (A & B). unfold cneg in *. cbn [re im] in *. split; cbn [re im]; [exact B|apply feqv_opp, A].
Qed.

Lemma atanh_body_conj z : nis0 (im z) = false -> ceqv (atanh_body (cconj z)) (cconj (atanh_body z)).
Proof.
  intros N. unfold atanh_body.
  replace (cadd cone (cconj z)) with (cconj (cadd cone z)).
  2:{ unfold cadd, cconj. cbn [re im cone cidentity]. f_equal. change (0 : fl) with (B754_zero false : fl).
      rewrite !add_0_l by (rewrite ?is0_neg; exact N). reflexivity. }
  replace (csub cone (cconj z)) with (cconj (csub cone z)).
  2:{ unfold csub, cconj. cbn [re im cone cidentity]. f_equal. change (0 : fl) with (B754_zero false : fl). rewrite !fsub_add_neg.
      rewrite !add_0_l by (rewrite ?is0_neg; exact N). reflexivity. }
  rewrite !ln_conj by exact S. eapply ceqv_trans; [|apply div2_conj]. apply div2_ceqv, sub_conj.
Qed.
Lemma atanh_body_refl z : nis0 (im z) = false -> ceqv (atanh_body (crefl z)) (crefl (atanh_body z)).
Proof.
  intros N. assert (E : crefl z = cneg (cconj z)).
  { destruct z as [x y]. unfold crefl, cneg, cconj. cbn [re im]. rewrite fneg_invol. reflexivity. }
  rewrite E. eapply ceqv_trans; [apply atanh_body_odd|]. eapply ceqv_trans; [apply ceqv_opp, atanh_body_conj, N|].
  apply ceqv_eq. unfold crefl, cneg, cconj. cbn [re im]. rewrite fneg_invol. reflexivity.
Qed.
End Lem.
