(** The entries of a perspective projection made from a field of view, in floats, and on which side of one they are. *)

From Coq Require Import List Arith ZArith Bool Lia Reals Lra Psatz.
From Flocq Require Import Core.Core Relative IEEE754.BinarySingleNaN.
From Verif Require Import Base Scalar Spec SpecF MVector MMatrix MFloat MFov
  LBase LVector LFloat LFloatP LFloatVec LTrScF LSlerpS LProjF LUnpF LUnpG LFovA.
Local Open Scope R_scope.

Section B.
Context {prec emax : Z} {Hp : Prec_gt_0 prec} {He : Prec_lt_emax prec emax}.
Notation fl := (binary_float prec emax).
Notation u := (bpow radix2 (- prec)).
Notation fexp := (FLT_exp (3 - emax - prec) prec).
Notation rnd := (round radix2 fexp ZnearestE).
Notation h := (16 / 15 * u).
Notation two := (nadd n1 n1 : fl).
Hypothesis H24 : (24 <= prec)%Z.

(** ** Floats around one *)
Lemma fexp_0 : fexp 0 = (- prec)%Z.
Proof. pose proof He as H. unfold Prec_lt_emax in H. unfold FLT_exp. rewrite Z.max_l; lia. Qed.
Lemma fexp_1 : fexp 1 = (1 - prec)%Z.
Proof. pose proof He as H. unfold Prec_lt_emax in H. unfold FLT_exp. rewrite Z.max_l; lia. Qed.
Lemma two_u : bpow radix2 (1 - prec) = 2 * u.
Proof. exact (bpow_plus radix2 1 (- prec)). Qed.
Lemma one_format : generic_format radix2 fexp 1.
Proof. apply (generic_format_bpow radix2 fexp 0). change (0 + 1)%Z with 1%Z. rewrite fexp_1. lia. Qed.
Lemma above_one (x : fl) : 1 < B2R x -> 1 + 2 * u <= B2R x.
Proof.
  intros H. pose proof (succ_le_lt radix2 fexp 1 (B2R x) one_format (generic_format_B2R prec emax x) H) as S.
  rewrite succ_eq_pos in S by lra. change 1 with (bpow radix2 0) in S at 2. rewrite ulp_bpow in S. change (0 + 1)%Z with 1%Z in S. rewrite fexp_1, two_u in S. exact S.
Qed.
Lemma below_one (x : fl) : B2R x < 1 -> B2R x <= 1 - u.
Proof.
  intros H. pose proof (pred_ge_gt radix2 fexp (B2R x) 1 (generic_format_B2R prec emax x) one_format H) as S.
  change 1 with (bpow radix2 0) in S. rewrite pred_bpow, fexp_0 in S. exact S.
Qed.
Lemma rnd_below z : 0 <= z -> z < 1 - u / 2 -> rnd z < 1.
Proof.
  intros Z0 Z1. pose proof (error_le_half_ulp radix2 fexp (fun t => negb (Z.even t)) z) as E. apply Rabs_le_inv in E.
  assert (L : ulp radix2 fexp z <= u).
  { pose proof (bpow_gt_0 radix2 (- prec)) as U0. rewrite <- fexp_0. pose proof (ulp_bpow radix2 fexp (-1)) as W. change (-1 + 1)%Z with 0%Z in W. rewrite <- W.
    destruct (Rle_dec z (/ 2)) as [C|C].
    - apply ulp_le_pos; [apply FLT_exp_valid; exact Hp|apply FLT_exp_monotone|exact Z0|exact C].
    - right. rewrite ulp_neq_0 by lra. rewrite W. f_equal. unfold Generic_fmt.cexp. f_equal. apply mag_unique_pos. cbn. lra. }
  lra.
Qed.
Lemma rnd_above z : 1 <= z -> 1 <= rnd z.
Proof. intros Z. rewrite <- (round_generic radix2 fexp ZnearestE 1) by apply one_format. apply round_le; [apply FLT_exp_valid; exact Hp|apply valid_rnd_N|exact Z]. Qed.

(** ** The cotangent *)
Variables (p q : Z).
Hypothesis p0 : (0 <= p)%Z.
Hypothesis q0 : (0 <= q)%Z.
Hypothesis Hpq : (2 * p + 2 * q + 31 <= emax)%Z.
Variables T near : fl.
Hypothesis FT : is_finite T = true.
Hypothesis Fn : is_finite near = true.
Hypothesis ST : rb p (B2R T).
Hypothesis SN : rb q (B2R near).
Notation N := (B2R near).
Notation t := (B2R T).
Notation range := (nmul T near).
Notation c := (ndiv near range).

Lemma tN_pos : 0 < t /\ 0 < N.
Proof. split; [exact (rb_pos p _ ST)|exact (rb_pos q _ SN)]. Qed.
Lemma range_ml : ml h range (t * N).
Proof.
  apply (ml_weak (0 + 0 + h)); [lra|]. apply (mul_ml H24); [apply ml_leaf; exact FT|apply ml_leaf; exact Fn|lra|]. apply (rb_wk (p + q)); [lia|apply rb_mul; assumption].
Qed.
Lemma c_ml : ml (2 * h) c (/ t).
Proof.
  pose proof tN_pos as (T0 & N0). pose proof (u_small H24) as U. apply (ml_eq _ _ (N / (t * N))); [|field; lra]. apply (ml_weak (0 + h + h)); [lra|].
  apply (div_ml H24); [apply ml_leaf; exact Fn|exact range_ml|lra|nra|]. replace (N / (t * N)) with (/ t) by (field; lra). apply (rb_wk p); [lia|apply rb_inv; exact ST].
Qed.
Lemma c_rb : rb (p + 1) (B2R c).
Proof.
  destruct c_ml as (F & B). pose proof (u_small H24) as U. pose proof (by_pos _ _ _ B ltac:(apply Rinv_0_lt_compat; apply tN_pos)) as P.
  pose proof (by_abs _ _ _ B ltac:(lra)) as A. destruct (rb_inv _ _ ST) as (R1 & R2). pose proof (bpow_gt_0 radix2 (- p)).
  rewrite (Rabs_pos_eq (B2R c)), (Rabs_pos_eq (/ t)) in A by lra. split.
  - replace (- (p + 1))%Z with (-1 + - p)%Z by ring. rewrite bpow_plus. change (bpow radix2 (-1)) with (/ 2). lra.
  - replace (p + 1)%Z with (1 + p)%Z by ring. rewrite bpow_plus. change (bpow radix2 1) with 2. lra.
Qed.
Lemma range_val : B2R range = rnd (t * N).
Proof.
  pose proof tN_pos as (T0 & N0). apply mul_val; [exact FT|exact Fn|]. rewrite Rabs_pos_eq by nra. destruct (rb_mul p q t N ST SN) as (_ & H). eapply Rle_trans; [exact H|apply bpow_le; lia].
Qed.
Lemma range_pos : 0 < B2R range.
Proof. pose proof tN_pos. exact (by_pos _ _ _ (proj2 range_ml) ltac:(nra)). Qed.
Lemma c_val : B2R c = rnd (N / B2R range).
Proof.
  pose proof tN_pos as (T0 & N0). pose proof range_pos as R0. apply div_val; [exact Fn|lra|]. rewrite Rabs_pos_eq by (left; apply Rdiv_lt_0_compat; lra).
  pose proof (by_abs _ _ _ (proj2 range_ml) ltac:(pose proof (u_small H24); lra)) as A. rewrite !Rabs_pos_eq in A by nra.
  apply (Rle_trans _ (2 * / t)).
  - apply (Rmult_le_reg_r (B2R range)); [exact R0|]. unfold Rdiv. rewrite Rmult_assoc, Rinv_l, Rmult_1_r by lra.
    apply (Rle_trans _ (2 * / t * (/ 2 * (t * N)))); [right; field; lra|]. apply Rmult_le_compat_l; [|lra]. assert (0 < / t) by (apply Rinv_0_lt_compat; exact T0). lra.
  - destruct (rb_inv _ _ ST) as (_ & R2). apply (Rle_trans _ (bpow radix2 (1 + p))); [|apply bpow_le; lia]. rewrite bpow_plus. change (bpow radix2 1) with 2. lra.
Qed.
Lemma c_above : t <= 1 -> 1 <= B2R c.
Proof.
  intros L. pose proof tN_pos as (T0 & N0). pose proof range_pos as R0. rewrite c_val. apply rnd_above. apply (Rmult_le_reg_r (B2R range)); [exact R0|].
  unfold Rdiv. rewrite Rmult_assoc, Rinv_l, Rmult_1_r, Rmult_1_l by lra. rewrite range_val. apply (Rle_trans _ (rnd N)); [apply round_le; [apply FLT_exp_valid; exact Hp|apply valid_rnd_N|nra]|right; apply rnd_float].
Qed.
Lemma c_below : 1 < t -> B2R c < 1.
Proof.
  intros L. pose proof tN_pos as (T0 & N0). pose proof range_pos as R0. pose proof (above_one T L) as A. pose proof (u_small H24) as U. rewrite c_val.
  assert (W : bpow radix2 (2 - emax) <= Rabs N).
  { rewrite Rabs_pos_eq by lra. destruct SN as (S1 & _). eapply Rle_trans; [|exact S1]. apply bpow_le. lia. }
  assert (U1 : ulp radix2 fexp N <= 2 * u * N).
  { rewrite <- two_u. rewrite <- (Rabs_pos_eq N) at 2 by lra. rewrite Rmult_comm. apply ulp_FLT_le. replace (3 - emax - prec + prec - 1)%Z with (2 - emax)%Z by ring. exact W. }
  assert (U2 : u * N <= ulp radix2 fexp N) by (pose proof (ulp_FLT_gt radix2 (3 - emax - prec) prec N) as G; rewrite Rabs_pos_eq in G by lra; lra).
  assert (S : N + ulp radix2 fexp N <= B2R range).
  { rewrite range_val. rewrite <- (succ_eq_pos radix2 fexp N) by lra.
    rewrite <- (round_generic radix2 fexp ZnearestE (succ radix2 fexp N)) by (apply generic_format_succ; [apply FLT_exp_valid; exact Hp|apply generic_format_B2R]).
    apply round_le; [apply FLT_exp_valid; exact Hp|apply valid_rnd_N|]. rewrite succ_eq_pos by lra. nra. }
  apply rnd_below; [left; apply Rdiv_lt_0_compat; lra|]. apply (Rmult_lt_reg_r (B2R range)); [exact R0|].
  unfold Rdiv at 1. rewrite Rmult_assoc, Rinv_l, Rmult_1_r by lra. assert (K : N * (1 + u) <= B2R range) by lra. apply (Rlt_le_trans _ ((1 - u / 2) * (N * (1 + u)))); [nra|apply Rmult_le_compat_l; lra].
Qed.

(** ** Aspect ratio *)
Variable asp : fl.
Hypothesis Fa : is_finite asp = true.
Hypothesis SA : rb q (B2R asp).
Notation A := (B2R asp).
Hypothesis Hpq4 : (2 * p + 4 * q + 31 <= emax)%Z.
Notation c0 := (ndiv (nmul two near) (nadd (nmul range asp) (nmul range asp))).
Lemma c0_ml : ml (5 * h) c0 (/ (t * A)).
Proof.
  pose proof tN_pos as (T0 & N0). pose proof (rb_pos _ _ SA) as A0. pose proof (u_small H24) as U.
  assert (M : ml (h + 0 + h) (nmul range asp) (t * N * A)) by (apply (mul_ml H24); [exact range_ml|apply ml_leaf; exact Fa|lra|apply (rb_wk (p + q + q)); [lia|apply rb_mul; [apply rb_mul|]; assumption]]).
  assert (P : 0 < t * N * A) by (repeat apply Rmult_lt_0_compat; assumption).
  assert (S : ml (h + 0 + h + h) (nadd (nmul range asp) (nmul range asp)) (t * N * A + t * N * A)).
  { apply (add_pos H24); [exact M|exact M|lra|lra|lra|lra|]. destruct (rb_mul _ _ _ _ (rb_mul _ _ _ _ ST SN) SA) as (_ & H).
    apply (Rle_trans _ (bpow radix2 (1 + (p + q + q)))); [rewrite bpow_plus; change (bpow radix2 1) with 2; lra|apply bpow_le; lia]. }
  assert (W : ml (0 + 0 + h) (nmul two near) (2 * N)) by (apply (mul_ml H24); [exact two_ml|apply ml_leaf; exact Fn|lra|apply (rb_wk (1 + q)); [lia|apply rb_mul; [exact rb_2|exact SN]]]).
  assert (E : 2 * N / (t * N * A + t * N * A) = / (t * A)) by (field; lra).
  apply (ml_weak (0 + 0 + h + (h + 0 + h + h) + h)); [lra|]. rewrite <- E. apply (div_ml H24); [exact W|exact S|lra|lra|]. rewrite E.
  apply (rb_wk (p + q)); [lia|apply rb_inv, rb_mul; assumption].
Qed.
Lemma aspect_ml : ml (8 * h) (ndiv c c0) A.
Proof.
  pose proof tN_pos as (T0 & N0). pose proof (rb_pos _ _ SA) as A0. pose proof (u_small H24) as U. assert (I : 0 < / (t * A)) by (apply Rinv_0_lt_compat; nra).
  assert (E : / t / (/ (t * A)) = A) by (field; lra). apply (ml_eq _ _ (/ t / (/ (t * A)))); [|exact E]. apply (ml_weak (2 * h + 5 * h + h)); [lra|].
  apply (div_ml H24); [exact c_ml|exact c0_ml|lra|lra|]. rewrite E. apply (rb_wk q); [lia|exact SA].
Qed.
End B.
