(** Points taken back through projections in floats: the arithmetic of unproject_point. *)

From Coq Require Import List Arith ZArith Bool Lia Reals Lra Psatz.
From Flocq Require Import Core.Core Relative IEEE754.BinarySingleNaN.
From Verif Require Import Base Scalar Spec SpecF SpecProjection MVector MMatrix MPoint MFloat MProjection
  LBase LVector LFloat LFloatP LFloatVec LTrScF LSlerpS LProjF LUnpF LUnpG LUnpH.
Local Open Scope R_scope.

Section O.
Context {prec emax : Z} {Hp : Prec_gt_0 prec} {He : Prec_lt_emax prec emax}.
Notation fl := (binary_float prec emax).
Notation u := (bpow radix2 (- prec)).
Notation tiny := (bpow radix2 (2 - emax - prec)).
Notation h := (16 / 15 * u).
Notation two := (nadd n1 n1 : fl).
Hypothesis H24 : (24 <= prec)%Z.

Lemma tiny_le q M : (q + 12 <= emax)%Z -> bpow radix2 (- q) <= M -> tiny <= u * M / 1000.
Proof.
  intros Q B. replace (2 - emax - prec)%Z with (- prec + (2 - emax))%Z by ring. rewrite bpow_plus. assert (0 < u) by apply bpow_gt_0.
  assert (bpow radix2 (2 - emax) <= bpow radix2 (-10) * bpow radix2 (- q)) by (rewrite <- bpow_plus; apply bpow_le; lia). change (bpow radix2 (-10)) with (/ 1024) in *. assert (0 < bpow radix2 (- q)) by apply bpow_gt_0.
  replace (u * M / 1000) with (u * (M / 1000)) by field. apply Rmult_le_compat_l; lra.
Qed.
Lemma half_near : fnear (ndiv n1 two : fl) (1 / 2) 0.
Proof.
  assert (X : forall (x : fl) v, ml 0 x v -> is_finite x = true /\ B2R x = v).
  { intros x v (A & t & B & C). split; [exact A|]. rewrite C. assert (t = 0) as -> by (apply Rabs_le_inv in B; lra). rewrite exp_0. ring. }
  destruct (X _ _ two_ml) as (F2 & E2). destruct (X _ _ ml_one) as (F1 & E1).
  destruct (div_val (n1 : fl) two F1) as (F & E); [rewrite E2; lra| |].
  - rewrite E1, E2, Rabs_pos_eq by lra. apply (Rle_trans _ (bpow radix2 0)); [cbn; lra|apply bpow_le; unfold Prec_gt_0, Prec_lt_emax in *; lia].
  - split; [exact F|]. rewrite E, E1, E2, round_generic; [replace (1 / 2 - 1 / 2) with 0 by ring; rewrite Rabs_R0; lra|apply valid_rnd_N|].
    replace (1 / 2) with (bpow radix2 (-1)) by (cbn; lra). apply generic_format_bpow. unfold FLT_exp, Prec_gt_0, Prec_lt_emax in *. lia.
Qed.

(** [c * D * p + c * E] with [c] a half up to sign. *)
Lemma halves (c dm sm p : fl) s D E a a' M : Rabs s = 1 / 2 -> fnear c s 0 -> fnear dm D a -> fnear sm E a' -> is_finite p = true -> Rabs (B2R p) <= 5 / 4 ->
  0 < M -> Rabs D <= M -> Rabs E <= 3 / 2 * M -> 0 <= a <= M / 1000 -> 0 <= a' <= M / 1000 -> tiny <= u * M / 1000 -> 2 * M <= bpow radix2 (emax - 1) ->
  fnear (nadd (nmul (nmul c dm) p) (nmul c sm)) (s * (D * B2R p + E)) (5 / 8 * a + 1 / 2 * a' + 7 / 2 * (u * M)).
Proof.
  intros HS C HD HE Fp PB M0 DM EM Ha Ha' T MB. pose proof (u_small H24) as U. set (uM := u * M) in *. assert (U0 : 0 < uM) by (apply Rmult_lt_0_compat; lra). assert (UM : uM <= / 16777216 * M) by (apply Rmult_le_compat_r; lra).
  assert (ua : u * a <= uM / 1000) by (apply (Rle_trans _ (u * (M / 1000))); [apply Rmult_le_compat_l; lra|unfold uM; right; field]). assert (ua' : u * a' <= uM / 1000) by (apply (Rle_trans _ (u * (M / 1000))); [apply Rmult_le_compat_l; lra|unfold uM; right; field]).
  assert (uuM : u * uM <= / 16777216 * uM) by (apply Rmult_le_compat_r; lra).
  assert (P : fnear p (B2R p) 0) by (split; [exact Fp|rewrite Rminus_diag_eq by reflexivity; rewrite Rabs_R0; lra]).
  assert (M1 : fnear (nmul c dm) (s * D) (a / 2 + 51 / 100 * uM)).
  { eapply near_weak; [apply (mul_abs c dm s D 0 a (1 / 2) M C HD); [lra|exact DM|lra]|].
    replace (0 * (M + a) + 1 / 2 * a + u * ((1 / 2 + 0) * (M + a)) + tiny) with (a / 2 + 1 / 2 * uM + 1 / 2 * (u * a) + tiny) by (unfold uM; field). lra. }
  assert (M3 : fnear (nmul c sm) (s * E) (a' / 2 + 76 / 100 * uM)).
  { eapply near_weak; [apply (mul_abs c sm s E 0 a' (1 / 2) (3 / 2 * M) C HE); [lra|exact EM|lra]|].
    replace (0 * (3 / 2 * M + a') + 1 / 2 * a' + u * ((1 / 2 + 0) * (3 / 2 * M + a')) + tiny) with (a' / 2 + 3 / 4 * uM + 1 / 2 * (u * a') + tiny) by (unfold uM; field). lra. }
  assert (SD : Rabs (s * D) <= 1 / 2 * M) by (rewrite Rabs_mult, HS; apply Rmult_le_compat_l; lra). assert (SE : Rabs (s * E) <= 3 / 4 * M) by (rewrite Rabs_mult, HS; lra).
  assert (M2 : fnear (nmul (nmul c dm) p) (s * D * B2R p) (5 / 8 * a + 128 / 100 * uM)).
  { eapply near_weak; [apply (mul_abs (nmul c dm) p (s * D) (B2R p) (a / 2 + 51 / 100 * uM) 0 (1 / 2 * M) (5 / 4) M1 P SD PB); lra|].
    replace ((a / 2 + 51 / 100 * uM) * (5 / 4 + 0) + 1 / 2 * M * 0 + u * ((1 / 2 * M + (a / 2 + 51 / 100 * uM)) * (5 / 4 + 0)) + tiny)
      with (5 / 8 * a + 51 / 80 * uM + 5 / 8 * uM + 5 / 8 * (u * a) + 51 / 80 * (u * uM) + tiny) by (unfold uM; field). lra. }
  assert (SDP : Rabs (s * D * B2R p) <= 5 / 8 * M). { rewrite Rabs_mult. apply (Rle_trans _ (1 / 2 * M * (5 / 4))); [apply Rmult_le_compat; try apply Rabs_pos; assumption|lra]. }
  replace (s * (D * B2R p + E)) with (s * D * B2R p + s * E) by ring.
  eapply near_weak; [apply (add_abs _ _ _ _ _ _ (11 / 8 * M) M2 M3); [eapply Rle_trans; [apply Rabs_triang|lra]|lra]|].
  set (t := 5 / 8 * a + 128 / 100 * uM + (a' / 2 + 76 / 100 * uM)). replace (u * (11 / 8 * M + t)) with (11 / 8 * uM + u * t) by (unfold uM; ring).
  assert (u * t <= / 100 * uM) by (unfold t; lra). unfold t at 1. lra.
Qed.

(** ** Orthographic *)
Section Depth.
Variable q : Z.
Hypothesis q0 : (0 <= q)%Z.
Hypothesis Hq : (4 * q + 31 <= emax)%Z.
Variables near far : fl.
Hypothesis Fn : is_finite near = true.
Hypothesis Ff : is_finite far = true.
Notation N := (B2R near).
Notation F := (B2R far).
Hypothesis SN : rb q N.
Hypothesis SF : rb q F.
Hypothesis NF : 2 * N <= F.
Hypothesis KU : 2048 * u * F <= N.
Notation k := (F / N).
Notation ON := (onear near far).
Notation OF := (ofar near far).

Lemma NP : 0 < N. Proof. exact (rb_pos q N SN). Qed.
Lemma hk : 0 < h /\ h <= / 10000000 /\ 1920 * (h * k) <= 1 /\ 2 <= k /\ k * N = F.
Proof.
  pose proof NP. pose proof (u_small H24) as U. assert (E : k * N = F) by (field; lra). assert (K : 2 <= k) by (apply (Rmult_le_reg_r N); lra).
  split; [lra|]. split; [lra|]. split; [|split; assumption]. apply (Rmult_le_reg_r N); [lra|]. replace (1920 * (h * k) * N) with (2048 * u * F) by (field; lra). lra.
Qed.
Lemma onear_abs : fnear ON N (17 * h * F).
Proof.
  pose proof NP. destruct hk as (H0 & H1 & K1 & K2 & KN). assert (0 < h * k) by (apply Rmult_lt_0_compat; lra).
  eapply near_weak; [apply (ml_near' _ _ _ (onear_ml H24 q q0 Hq near far Fn Ff SN SF NF KU)); lra|]. rewrite Rabs_pos_eq by lra.
  replace (64 / 63 * ((11 / 2 * k + 21) * h) * N) with (64 / 63 * (h * (11 / 2 * (k * N) + 21 * N))) by ring. rewrite KN. assert (h * (2 * N) <= h * F) by (apply Rmult_le_compat_l; lra). assert (0 < h * F) by (apply Rmult_lt_0_compat; lra). lra.
Qed.
Lemma ofar_abs : fnear OF F (21 * h * F).
Proof.
  pose proof NP. destruct hk as (H0 & H1 & K1 & K2 & KN).
  eapply near_weak; [apply (ml_near' _ _ _ (ofar_ml H24 q q0 Hq near far Fn Ff SN SF NF KU)); lra|]. rewrite Rabs_pos_eq by lra. assert (0 < h * F) by (apply Rmult_lt_0_compat; lra). lra.
Qed.
Definition odepth (p : fl) : fl :=
  nadd (nmul (nmul (nneg (ndiv n1 two)) (nsub OF ON)) p) (nmul (nneg (ndiv n1 two)) (nadd OF ON)).
Lemma odepth_near p : is_finite p = true -> Rabs (B2R p) <= 5 / 4 -> fnear (odepth p) (- (((F - N) * B2R p + (F + N)) / 2)) (52 * u * F).
Proof.
  intros Fp PB. pose proof NP as NP0. destruct hk as (H0 & H1 & K1 & K2 & KN). pose proof SF as (SF1 & SF2). pose proof (u_small H24) as U. assert (HF : 0 < h * F) by (apply Rmult_lt_0_compat; lra). assert (HF1 : h * F <= / 10000000 * F) by (apply Rmult_le_compat_r; lra).
  assert (UF : u * (h * F) <= / 16777216 * (h * F)) by (apply Rmult_le_compat_r; lra). assert (EUF : u * F = 15 / 16 * (h * F)) by lra.
  assert (FB : 4 * F <= bpow radix2 (emax - 1)). { apply (Rle_trans _ (bpow radix2 2 * bpow radix2 q)); [change (bpow radix2 2) with 4; lra|rewrite <- bpow_plus; apply bpow_le; lia]. }
  assert (D1 : fnear (nsub OF ON) (F - N) (39 * h * F)).
  { eapply near_weak; [apply (sub_abs _ _ _ _ _ _ F ofar_abs onear_abs); [rewrite Rabs_pos_eq by lra; lra|lra]|]. lra. }
  assert (D2 : fnear (nadd OF ON) (F + N) (40 * h * F)).
  { eapply near_weak; [apply (add_abs _ _ _ _ _ _ (3 / 2 * F) ofar_abs onear_abs); [rewrite Rabs_pos_eq by lra; lra|lra]|]. lra. }
  eapply near_eq; [eapply near_weak; [apply (halves _ _ _ _ (- (1 / 2)) _ _ _ _ F) with (2 := neg_near _ _ _ half_near) (3 := D1) (4 := D2)|]|].
  - rewrite Rabs_Ropp, Rabs_pos_eq; lra.
  - exact Fp.
  - exact PB.
  - lra.
  - rewrite Rabs_pos_eq; lra.
  - rewrite Rabs_pos_eq; lra.
  - lra.
  - lra.
  - apply (tiny_le q); [lia|exact SF1].
  - lra.
  - lra.
  - field.
Qed.
End Depth.

Section Side.
Variable q : Z.
Hypothesis q0 : (0 <= q)%Z.
Hypothesis Hq : (6 * q + 31 <= emax)%Z.
Variables lo hi : fl.
Hypothesis Fl : is_finite lo = true.
Hypothesis Fh : is_finite hi = true.
Notation L := (B2R lo).
Notation Hi := (B2R hi).
Hypothesis SL : rb q L.
Hypothesis SH : rb q Hi.
Notation S := (Hi + L).
Hypothesis GU : 2048 * u * (S * S) <= Hi * L.
Definition oside (p : fl) : fl :=
  nadd (nmul (nmul (ndiv n1 two) (nadd (oright lo hi) (oleft lo hi))) p) (nmul (ndiv n1 two) (nsub (oright lo hi) (oleft lo hi))).
Lemma S_b : 0 < L /\ 0 < Hi /\ bpow radix2 (- q) <= S /\ 4 * S <= bpow radix2 (emax - 1).
Proof.
  pose proof (rb_pos _ _ SL) as L0. pose proof (rb_pos _ _ SH) as H0. destruct SL as (L1 & L2). destruct SH as (H1 & H2). repeat split; try lra.
  apply (Rle_trans _ (bpow radix2 3 * bpow radix2 q)); [change (bpow radix2 3) with 8; lra|rewrite <- bpow_plus; apply bpow_le; lia].
Qed.
Lemma oside_near p : is_finite p = true -> Rabs (B2R p) <= 5 / 4 -> fnear (oside p) ((S * B2R p + (Hi - L)) / 2) (18 * u * S).
Proof.
  intros Fp PB. destruct S_b as (L0 & H0 & S1 & S2). destruct (o_ends H24 q q0 Hq lo hi Fl Fh SL SH GU) as (_ & _ & M1 & D2). pose proof (u_small H24) as U. assert (HS : 0 < h * S) by (apply Rmult_lt_0_compat; lra). assert (HS1 : h * S <= / 10000000 * S) by (apply Rmult_le_compat_r; lra).
  assert (D1 : fnear (nadd (oright lo hi) (oleft lo hi)) S (9 * h * S)) by (eapply near_weak; [apply (ml_near' _ _ _ M1); lra|rewrite Rabs_pos_eq by lra; lra]).
  eapply near_eq; [eapply near_weak; [apply (halves _ _ _ _ (1 / 2) _ _ _ _ S) with (2 := half_near) (3 := D1) (4 := D2)|]|].
  - rewrite Rabs_pos_eq; lra.
  - exact Fp.
  - exact PB.
  - lra.
  - rewrite Rabs_pos_eq; lra.
  - apply Rabs_le. lra.
  - lra.
  - lra.
  - apply (tiny_le q); [lia|exact S1].
  - lra.
  - lra.
  - field.
Qed.
End Side.
End O.
