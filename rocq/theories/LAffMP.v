(** The theorems about reflection, shear and similarity matrices in floats (C155). *)

From Coq Require Import List Arith ZArith Bool Lia Reals Lra Psatz.
From Flocq Require Import Core.Core IEEE754.BinarySingleNaN.
From Verif Require Import Base Scalar Spec SpecF SpecArc SpecLibm MReal MVector MMatrix MPoint MTransform MFloat
  LBase LVector LMatrix LTransform LFloat LFloatVec LFloatP LFloatNormP LFloatAcc LFloatExP LProjF LSame LSameP LAffM.
Local Open Scope R_scope.

Section F.
Context {prec emax : Z} {Hp : Prec_gt_0 prec} {He : Prec_lt_emax prec emax}.
Notation fl := (binary_float prec emax).
Notation u := (bpow radix2 (- prec)).

Lemma same_near (x y : fl) r e : feqv x y -> fnear y r e -> fnear x r e.
Proof.
  intros H (F & E). destruct (same_cases _ _ H) as [->|((s & ->) & (t & ->))]; [split; assumption|]. split; [reflexivity|exact E].
Qed.
Lemma near_V V A e c (x : fl) r r' W : 0 < V -> fapp V A e x r -> (e <= 1024 * c)%Z -> r = r' -> V = W -> fnear x r' (IZR c * u * W).
Proof. intros P X L <- <-. exact (fapp_near V A e c x r P X L). Qed.
Lemma bnd_fin n (p : vec fl n) P : (forall i, (i < n)%nat -> fbnd P (vat p i)) -> all_finite p.
Proof. intros H i Hi. apply (H i Hi). Qed.
End F.
Ltac rsolve := cbv [sum nadd n0 num_R]; ring.

Theorem c155_reflection3 :
  forall (prec emax : Z) (Hp : Prec_gt_0 prec) (He : Prec_lt_emax prec emax) (f : reflection (binary_float prec emax) 3) (P : R),
  (24 <= prec)%Z -> (31 <= emax)%Z -> bpow radix2 (31 - emax) <= P <= bpow radix2 (emax - 31) -> (forall i, (i < 3)%nat -> fbnd 1 (vat (re_normal f) i)) ->
  (forall p : point (binary_float prec emax) 3, (forall i, (i < 3)%nat -> fbnd P (vat (re_bias f) i)) -> (forall i, (i < 3)%nat -> fbnd P (vat p i)) ->
    exists q, tf_apply_point (re3to_transform f) p = Some q /\ forall i, (i < 3)%nat ->
      fnear (vat q i) (B2R (vat p i) - 2 * sum 3 (fun k => (B2R (vat p k) - B2R (vat (re_bias f) k)) * B2R (vat (re_normal f) k)) * B2R (vat (re_normal f) i)) (92 * bpow radix2 (- prec) * P)) /\
  (forall v : vec (binary_float prec emax) 3, (forall i, (i < 3)%nat -> fbnd P (vat v i)) -> (forall i, (i < 3)%nat -> fbnd P (vat (re_bias f) i)) -> forall i, (i < 3)%nat ->
    fnear (vat (tf_apply_vector (re3to_transform f) v) i) (B2R (vat v i) - 2 * sum 3 (fun k => B2R (vat v k) * B2R (vat (re_normal f) k)) * B2R (vat (re_normal f) i)) (49 * bpow radix2 (- prec) * P)).
Proof.
  intros prec emax Hp He f P H24 E31 WP HN. assert (P0 : 0 < P) by (exact (wok_pos P WP)). destruct f as [n b]. cbn [re_normal re_bias] in *.
  pose proof (HN 0%nat ltac:(lia)) as N0. pose proof (HN 1%nat ltac:(lia)) as N1. pose proof (HN 2%nat ltac:(lia)) as N2.
  set (F := re3to_transform (mkReflection n b)). assert (W1P : @wok emax (1 * P)) by (rewrite Rmult_1_l; exact WP).
  assert (T : (forall i, (i < 3)%nat -> fbnd P (vat b i)) -> forall i, (i < 3)%nat -> fapp (1 * P) 6 28686 (mget F 3 i) (2 * B2R (vat n i) * (B2R (vat n 0) * B2R (vat b 0) + B2R (vat n 1) * B2R (vat b 1) + B2R (vat n 2) * B2R (vat b 2)))).
  { intros HB i Hi. rewrite Rmult_1_l. pose proof (re_dot3 H24 P _ _ _ _ _ _ WP N0 N1 N2 (HB 0%nat ltac:(lia)) (HB 1%nat ltac:(lia)) (HB 2%nat ltac:(lia))) as D.
    destruct i as [|[|[|i]]]; [| | |lia]; (eapply (re_tr H24 E31 P); [exact WP|assumption|exact D]). }
  assert (R : forall v : vec (binary_float prec emax) 3, (forall i, (i < 3)%nat -> fbnd P (vat b i)) -> (forall i, (i < 3)%nat -> fbnd P (vat v i)) -> forall i, (i < 3)%nat ->
    fnear (sum 3 (fun k => nmul (mget F k i) (vat v k))) (B2R (vat v i) - 2 * sum 3 (fun k => B2R (vat v k) * B2R (vat n k)) * B2R (vat n i)) (49 * bpow radix2 (- prec) * P) /\
    fnear (nadd (sum 3 (fun k => nmul (mget F k i) (vat v k))) (mget F 3 i)) (B2R (vat v i) - 2 * sum 3 (fun k => (B2R (vat v k) - B2R (vat b k)) * B2R (vat n k)) * B2R (vat n i)) (92 * bpow radix2 (- prec) * P)).
  { intros v HB HV i Hi. pose proof (T HB i Hi) as Ti.
    destruct i as [|[|[|i]]]; [| | |lia].
    - destruct (row3 H24 1 P 3 7171 6 28686 _ _ _ _ _ _ _ _ (vat v 0) (vat v 1) (vat v 2) W1P ltac:(lra) P0 ltac:(lia) ltac:(lia) ltac:(lia) ltac:(lia) (re_diag H24 E31 _ N0) (re_off H24 E31 _ _ N0 N1) (re_off H24 E31 _ _ N0 N2) Ti (HV 0%nat ltac:(lia)) (HV 1%nat ltac:(lia)) (HV 2%nat ltac:(lia))) as (A & B).
      split; [refine (near_V _ _ _ 49 _ _ _ P _ A _ _ _)|refine (near_V _ _ _ 92 _ _ _ P _ B _ _ _)]; first [lia|lra|rsolve].
    - destruct (row3 H24 1 P 3 7171 6 28686 _ _ _ _ _ _ _ _ (vat v 0) (vat v 1) (vat v 2) W1P ltac:(lra) P0 ltac:(lia) ltac:(lia) ltac:(lia) ltac:(lia) (re_off H24 E31 _ _ N1 N0) (re_diag H24 E31 _ N1) (re_off H24 E31 _ _ N1 N2) Ti (HV 0%nat ltac:(lia)) (HV 1%nat ltac:(lia)) (HV 2%nat ltac:(lia))) as (A & B).
      split; [refine (near_V _ _ _ 49 _ _ _ P _ A _ _ _)|refine (near_V _ _ _ 92 _ _ _ P _ B _ _ _)]; first [lia|lra|rsolve].
    - destruct (row3 H24 1 P 3 7171 6 28686 _ _ _ _ _ _ _ _ (vat v 0) (vat v 1) (vat v 2) W1P ltac:(lra) P0 ltac:(lia) ltac:(lia) ltac:(lia) ltac:(lia) (re_off H24 E31 _ _ N2 N0) (re_off H24 E31 _ _ N2 N1) (re_diag H24 E31 _ N2) Ti (HV 0%nat ltac:(lia)) (HV 1%nat ltac:(lia)) (HV 2%nat ltac:(lia))) as (A & B).
      split; [refine (near_V _ _ _ 49 _ _ _ P _ A _ _ _)|refine (near_V _ _ _ 92 _ _ _ P _ B _ _ _)]; first [lia|lra|rsolve]. }
  split.
  - intros p HB HV. destruct (affine_point 3 F p) as (q & Q & V); [intros k Hk; destruct k as [|[|[|k]]]; [apply zero_0..|lia]|reflexivity|exact (bnd_fin 3 p P HV)|].
    exists q. split; [exact Q|]. intros i Hi. rewrite V by exact Hi. apply (R p HB HV i Hi).
  - intros v HV HB i Hi. eapply same_near; [apply affine_vector; [exact Hi|apply (T HB i Hi)]|apply (R v HB HV i Hi)].
Qed.

Theorem c155_reflection2 :
  forall (prec emax : Z) (Hp : Prec_gt_0 prec) (He : Prec_lt_emax prec emax) (f : reflection (binary_float prec emax) 2) (P : R),
  (24 <= prec)%Z -> (31 <= emax)%Z -> bpow radix2 (31 - emax) <= P <= bpow radix2 (emax - 31) -> (forall i, (i < 2)%nat -> fbnd 1 (vat (re_normal f) i)) ->
  (forall p : point (binary_float prec emax) 2, (forall i, (i < 2)%nat -> fbnd P (vat (re_bias f) i)) -> (forall i, (i < 2)%nat -> fbnd P (vat p i)) ->
    exists q, tf_apply_point (re2to_transform f) p = Some q /\ forall i, (i < 2)%nat ->
      fnear (vat q i) (B2R (vat p i) - 2 * sum 2 (fun k => (B2R (vat p k) - B2R (vat (re_bias f) k)) * B2R (vat (re_normal f) k)) * B2R (vat (re_normal f) i)) (92 * bpow radix2 (- prec) * P)) /\
  (forall v : vec (binary_float prec emax) 2, (forall i, (i < 2)%nat -> fbnd P (vat v i)) -> (forall i, (i < 2)%nat -> fbnd P (vat (re_bias f) i)) -> forall i, (i < 2)%nat ->
    fnear (vat (tf_apply_vector (re2to_transform f) v) i) (B2R (vat v i) - 2 * sum 2 (fun k => B2R (vat v k) * B2R (vat (re_normal f) k)) * B2R (vat (re_normal f) i)) (49 * bpow radix2 (- prec) * P)).
Proof.
  intros prec emax Hp He f P H24 E31 WP HN. assert (P0 : 0 < P) by (exact (wok_pos P WP)). destruct f as [n b]. cbn [re_normal re_bias] in *.
  pose proof (HN 0%nat ltac:(lia)) as N0. pose proof (HN 1%nat ltac:(lia)) as N1.
  set (F := re2to_transform (mkReflection n b)). assert (W1P : @wok emax (1 * P)) by (rewrite Rmult_1_l; exact WP).
  assert (T : (forall i, (i < 2)%nat -> fbnd P (vat b i)) -> forall i, (i < 2)%nat -> fapp (1 * P) 6 28686 (mget F 2 i) (2 * B2R (vat n i) * (B2R (vat n 0) * B2R (vat b 0) + B2R (vat n 1) * B2R (vat b 1)))).
  { intros HB i Hi. rewrite Rmult_1_l. pose proof (re_dot2 H24 P _ _ _ _ WP N0 N1 (HB 0%nat ltac:(lia)) (HB 1%nat ltac:(lia))) as D.
    destruct i as [|[|i]]; [| |lia]; (eapply (re_tr H24 E31 P); [exact WP|assumption|exact D]). }
  assert (R : forall v : vec (binary_float prec emax) 2, (forall i, (i < 2)%nat -> fbnd P (vat b i)) -> (forall i, (i < 2)%nat -> fbnd P (vat v i)) -> forall i, (i < 2)%nat ->
    fnear (sum 2 (fun k => nmul (mget F k i) (vat v k))) (B2R (vat v i) - 2 * sum 2 (fun k => B2R (vat v k) * B2R (vat n k)) * B2R (vat n i)) (49 * bpow radix2 (- prec) * P) /\
    fnear (nadd (sum 2 (fun k => nmul (mget F k i) (vat v k))) (mget F 2 i)) (B2R (vat v i) - 2 * sum 2 (fun k => (B2R (vat v k) - B2R (vat b k)) * B2R (vat n k)) * B2R (vat n i)) (92 * bpow radix2 (- prec) * P)).
  { intros v HB HV i Hi. pose proof (T HB i Hi) as Ti.
    destruct i as [|[|i]]; [| |lia].
    - destruct (row2 H24 1 P 3 7171 6 28686 _ _ _ _ _ _ (vat v 0) (vat v 1) W1P ltac:(lra) P0 ltac:(lia) ltac:(lia) ltac:(lia) ltac:(lia) (re_diag H24 E31 _ N0) (re_off H24 E31 _ _ N0 N1) Ti (HV 0%nat ltac:(lia)) (HV 1%nat ltac:(lia))) as (A & B).
      split; [refine (near_V _ _ _ 49 _ _ _ P _ A _ _ _)|refine (near_V _ _ _ 92 _ _ _ P _ B _ _ _)]; first [lia|lra|rsolve].
    - destruct (row2 H24 1 P 3 7171 6 28686 _ _ _ _ _ _ (vat v 0) (vat v 1) W1P ltac:(lra) P0 ltac:(lia) ltac:(lia) ltac:(lia) ltac:(lia) (re_off H24 E31 _ _ N1 N0) (re_diag H24 E31 _ N1) Ti (HV 0%nat ltac:(lia)) (HV 1%nat ltac:(lia))) as (A & B).
      split; [refine (near_V _ _ _ 49 _ _ _ P _ A _ _ _)|refine (near_V _ _ _ 92 _ _ _ P _ B _ _ _)]; first [lia|lra|rsolve]. }
  split.
  - intros p HB HV. destruct (affine_point 2 F p) as (q & Q & V); [intros k Hk; destruct k as [|[|k]]; [apply zero_0..|lia]|reflexivity|exact (bnd_fin 2 p P HV)|].
    exists q. split; [exact Q|]. intros i Hi. rewrite V by exact Hi. apply (R p HB HV i Hi).
  - intros v HV HB i Hi. eapply same_near; [apply affine_vector; [exact Hi|apply (T HB i Hi)]|apply (R v HB HV i Hi)].
Qed.

Theorem c155_shear3 :
  forall (prec emax : Z) (Hp : Prec_gt_0 prec) (He : Prec_lt_emax prec emax) (s : binary_float prec emax) (origin direction normal : vec (binary_float prec emax) 3) (p : point (binary_float prec emax) 3) (S P : R),
  let inr x := bpow radix2 (31 - emax) <= x <= bpow radix2 (emax - 31) in
  (24 <= prec)%Z -> inr S -> inr P -> inr (S * P) -> 1 <= S -> fbnd S s ->
  (forall i, (i < 3)%nat -> fbnd 1 (vat direction i) /\ fbnd 1 (vat normal i) /\ fbnd P (vat origin i) /\ fbnd P (vat p i)) ->
  exists q, tf_apply_point (tf_from_matrix (m4from_affine_shear s origin direction normal) : transform _ 3) p = Some q /\ forall i, (i < 3)%nat ->
    fnear (vat q i) (B2R (vat p i) + B2R s * sum 3 (fun k => (B2R (vat p k) - B2R (vat origin k)) * B2R (vat normal k)) * B2R (vat direction i)) (55 * bpow radix2 (- prec) * (S * P)).
Proof.
  intros prec emax Hp He s o d n p S P inr H24 WS WP WSP S1 HS H. assert (P0 : 0 < P) by (exact (wok_pos P WP)).
  assert (D : forall i, (i < 3)%nat -> fbnd 1 (vat d i)) by (intros i Hi; apply (H i Hi)). assert (N : forall i, (i < 3)%nat -> fbnd 1 (vat n i)) by (intros i Hi; apply (H i Hi)).
  assert (O : forall i, (i < 3)%nat -> fbnd P (vat o i)) by (intros i Hi; apply (H i Hi)). assert (V : forall i, (i < 3)%nat -> fbnd P (vat p i)) by (intros i Hi; apply (H i Hi)).
  set (F := tf_from_matrix (m4from_affine_shear s o d n) : transform (binary_float prec emax) 3).
  pose proof (sh_dot3 H24 P _ _ _ _ _ _ WP (N 0%nat ltac:(lia)) (N 1%nat ltac:(lia)) (N 2%nat ltac:(lia)) (O 0%nat ltac:(lia)) (O 1%nat ltac:(lia)) (O 2%nat ltac:(lia))) as DT.
  assert (T : forall i, (i < 3)%nat -> fapp (S * P) 3 15368 (mget F 3 i) (B2R (vat d i) * (- B2R s * (B2R (vat o 0) * B2R (vat n 0) + B2R (vat o 1) * B2R (vat n 1) + B2R (vat o 2) * B2R (vat n 2))))).
  { intros i Hi. destruct i as [|[|[|i]]]; [| | |lia]; (eapply (sh_tr H24 S s); [exact S1|exact HS|exact WP|exact WSP|apply D; lia|exact DT]). }
  destruct (affine_point 3 F p) as (q & Q & E); [intros k Hk; destruct k as [|[|[|k]]]; [apply zero_0..|lia]|reflexivity|exact (bnd_fin 3 p P V)|].
  exists q. split; [exact Q|]. intros i Hi. rewrite E by exact Hi. pose proof (T i Hi) as Ti.
  assert (OFF : forall j k, (j < 3)%nat -> (k < 3)%nat -> fapp S 2 4099 (nmul (nmul s (vat d j)) (vat n k)) (B2R s * B2R (vat d j) * B2R (vat n k))) by (intros j k Hj Hk; apply sh_off; [exact H24|exact WS|exact S1|exact HS|apply D, Hj|apply N, Hk]).
  assert (DIA : forall j, (j < 3)%nat -> fapp S 2 4099 (nadd n1 (nmul (nmul s (vat d j)) (vat n j))) (1 + B2R s * B2R (vat d j) * B2R (vat n j))) by (intros j Hj; apply sh_diag; [exact H24|exact WS|exact S1|exact HS|apply D, Hj|apply N, Hj]).
  destruct i as [|[|[|i]]]; [| | |lia].
  - destruct (row3 H24 S P 2 4099 3 15368 _ _ _ _ _ _ _ _ (vat p 0) (vat p 1) (vat p 2) WSP ltac:(lra) P0 ltac:(lia) ltac:(lia) ltac:(lia) ltac:(lia) (DIA 0%nat ltac:(lia)) (OFF 0%nat 1%nat ltac:(lia) ltac:(lia)) (OFF 0%nat 2%nat ltac:(lia) ltac:(lia)) Ti (V 0%nat ltac:(lia)) (V 1%nat ltac:(lia)) (V 2%nat ltac:(lia))) as (_ & B).
    refine (near_V _ _ _ 55 _ _ _ (S * P) _ B _ _ _); first [lia|exact (wok_pos _ WSP)|reflexivity|rsolve].
  - destruct (row3 H24 S P 2 4099 3 15368 _ _ _ _ _ _ _ _ (vat p 0) (vat p 1) (vat p 2) WSP ltac:(lra) P0 ltac:(lia) ltac:(lia) ltac:(lia) ltac:(lia) (OFF 1%nat 0%nat ltac:(lia) ltac:(lia)) (DIA 1%nat ltac:(lia)) (OFF 1%nat 2%nat ltac:(lia) ltac:(lia)) Ti (V 0%nat ltac:(lia)) (V 1%nat ltac:(lia)) (V 2%nat ltac:(lia))) as (_ & B).
    refine (near_V _ _ _ 55 _ _ _ (S * P) _ B _ _ _); first [lia|exact (wok_pos _ WSP)|reflexivity|rsolve].
  - destruct (row3 H24 S P 2 4099 3 15368 _ _ _ _ _ _ _ _ (vat p 0) (vat p 1) (vat p 2) WSP ltac:(lra) P0 ltac:(lia) ltac:(lia) ltac:(lia) ltac:(lia) (OFF 2%nat 0%nat ltac:(lia) ltac:(lia)) (OFF 2%nat 1%nat ltac:(lia) ltac:(lia)) (DIA 2%nat ltac:(lia)) Ti (V 0%nat ltac:(lia)) (V 1%nat ltac:(lia)) (V 2%nat ltac:(lia))) as (_ & B).
    refine (near_V _ _ _ 55 _ _ _ (S * P) _ B _ _ _); first [lia|exact (wok_pos _ WSP)|reflexivity|rsolve].
Qed.

Theorem c155_shear2 :
  forall (prec emax : Z) (Hp : Prec_gt_0 prec) (He : Prec_lt_emax prec emax) (s : binary_float prec emax) (origin direction normal : vec (binary_float prec emax) 2) (p : point (binary_float prec emax) 2) (S P : R),
  let inr x := bpow radix2 (31 - emax) <= x <= bpow radix2 (emax - 31) in
  (24 <= prec)%Z -> inr S -> inr P -> inr (S * P) -> 1 <= S -> fbnd S s ->
  (forall i, (i < 2)%nat -> fbnd 1 (vat direction i) /\ fbnd 1 (vat normal i) /\ fbnd P (vat origin i) /\ fbnd P (vat p i)) ->
  exists q, tf_apply_point (tf_from_matrix (m3from_affine_shear s origin direction normal) : transform _ 2) p = Some q /\ forall i, (i < 2)%nat ->
    fnear (vat q i) (B2R (vat p i) + B2R s * sum 2 (fun k => (B2R (vat p k) - B2R (vat origin k)) * B2R (vat normal k)) * B2R (vat direction i)) (55 * bpow radix2 (- prec) * (S * P)).
Proof.
  intros prec emax Hp He s o d n p S P inr H24 WS WP WSP S1 HS H. assert (P0 : 0 < P) by (exact (wok_pos P WP)).
  assert (D : forall i, (i < 2)%nat -> fbnd 1 (vat d i)) by (intros i Hi; apply (H i Hi)). assert (N : forall i, (i < 2)%nat -> fbnd 1 (vat n i)) by (intros i Hi; apply (H i Hi)).
  assert (O : forall i, (i < 2)%nat -> fbnd P (vat o i)) by (intros i Hi; apply (H i Hi)). assert (V : forall i, (i < 2)%nat -> fbnd P (vat p i)) by (intros i Hi; apply (H i Hi)).
  set (F := tf_from_matrix (m3from_affine_shear s o d n) : transform (binary_float prec emax) 2).
  pose proof (sh_dot2 H24 P _ _ _ _ WP (N 0%nat ltac:(lia)) (N 1%nat ltac:(lia)) (O 0%nat ltac:(lia)) (O 1%nat ltac:(lia))) as DT.
  assert (T : forall i, (i < 2)%nat -> fapp (S * P) 3 15368 (mget F 2 i) (B2R (vat d i) * (- B2R s * (B2R (vat o 0) * B2R (vat n 0) + B2R (vat o 1) * B2R (vat n 1))))).
  { intros i Hi. destruct i as [|[|i]]; [| |lia]; (eapply (sh_tr H24 S s); [exact S1|exact HS|exact WP|exact WSP|apply D; lia|exact DT]). }
  destruct (affine_point 2 F p) as (q & Q & E); [intros k Hk; destruct k as [|[|k]]; [apply zero_0..|lia]|reflexivity|exact (bnd_fin 2 p P V)|].
  exists q. split; [exact Q|]. intros i Hi. rewrite E by exact Hi. pose proof (T i Hi) as Ti.
  assert (OFF : forall j k, (j < 2)%nat -> (k < 2)%nat -> fapp S 2 4099 (nmul (nmul s (vat d j)) (vat n k)) (B2R s * B2R (vat d j) * B2R (vat n k))) by (intros j k Hj Hk; apply sh_off; [exact H24|exact WS|exact S1|exact HS|apply D, Hj|apply N, Hk]).
  assert (DIA : forall j, (j < 2)%nat -> fapp S 2 4099 (nadd n1 (nmul (nmul s (vat d j)) (vat n j))) (1 + B2R s * B2R (vat d j) * B2R (vat n j))) by (intros j Hj; apply sh_diag; [exact H24|exact WS|exact S1|exact HS|apply D, Hj|apply N, Hj]).
  destruct i as [|[|i]]; [| |lia].
  - destruct (row2 H24 S P 2 4099 3 15368 _ _ _ _ _ _ (vat p 0) (vat p 1) WSP ltac:(lra) P0 ltac:(lia) ltac:(lia) ltac:(lia) ltac:(lia) (DIA 0%nat ltac:(lia)) (OFF 0%nat 1%nat ltac:(lia) ltac:(lia)) Ti (V 0%nat ltac:(lia)) (V 1%nat ltac:(lia))) as (_ & B).
    refine (near_V _ _ _ 55 _ _ _ (S * P) _ B _ _ _); first [lia|exact (wok_pos _ WSP)|reflexivity|rsolve].
  - destruct (row2 H24 S P 2 4099 3 15368 _ _ _ _ _ _ (vat p 0) (vat p 1) WSP ltac:(lra) P0 ltac:(lia) ltac:(lia) ltac:(lia) ltac:(lia) (OFF 1%nat 0%nat ltac:(lia) ltac:(lia)) (DIA 1%nat ltac:(lia)) Ti (V 0%nat ltac:(lia)) (V 1%nat ltac:(lia))) as (_ & B).
    refine (near_V _ _ _ 55 _ _ _ (S * P) _ B _ _ _); first [lia|exact (wok_pos _ WSP)|reflexivity|rsolve].
Qed.

Section G.
Context {prec emax : Z} {Hp : Prec_gt_0 prec} {He : Prec_lt_emax prec emax}.
Notation fl := (binary_float prec emax).
Lemma sim_mget n (f : similarity fl n) k i : (k <= n)%nat -> (i <= n)%nat ->
  mget (sim_to_affine_matrix f) k i = if Nat.ltb i n then (if Nat.ltb k n then nmul (mget (iso_rotation (sim_isometry f)) k i) (sim_scale f) else vat (iso_translation (sim_isometry f)) i) else delta k i.
Proof.
  intros Hk Hi. unfold sim_to_affine_matrix. cbv zeta. rewrite mget_last_column by lia. rewrite mget_membed by lia.
  destruct (Nat.eqb_spec k n), (Nat.ltb_spec i n), (Nat.ltb_spec k n); try lia; cbn [andb]; try reflexivity. apply mget_mmul_s; lia.
Qed.
End G.

Theorem c155_similarity :
  forall (prec emax : Z) (Hp : Prec_gt_0 prec) (He : Prec_lt_emax prec emax) (n : nat) (f : similarity (binary_float prec emax) n) (p : point (binary_float prec emax) n) (S P : R),
  let inr x := bpow radix2 (31 - emax) <= x <= bpow radix2 (emax - 31) in
  (24 <= prec)%Z -> n = 2%nat \/ n = 3%nat -> inr S -> inr (S * P) -> 0 < P -> fbnd S (sim_scale f) ->
  (forall k i, (k < n)%nat -> (i < n)%nat -> fbnd 1 (mget (iso_rotation (sim_isometry f)) k i)) ->
  (forall i, (i < n)%nat -> fbnd (S * P) (vat (iso_translation (sim_isometry f)) i) /\ fbnd P (vat p i)) ->
  exists q, tf_apply_point (sim_to_transform f) p = Some q /\ forall i, (i < n)%nat ->
    fnear (vat q i) (B2R (sim_scale f) * sum n (fun k => B2R (mget (iso_rotation (sim_isometry f)) k i) * B2R (vat p k)) + B2R (vat (iso_translation (sim_isometry f)) i)) (17 * bpow radix2 (- prec) * (S * P)).
Proof.
  intros prec emax Hp He n f p S P inr H24 Hn WS WSP P0 HS HR H. assert (S0 : 0 < S) by (exact (wok_pos S WS)). pose proof (wok_pos _ WSP) as SP0.
  assert (T : forall i, (i < n)%nat -> fapp (S * P) 1 0 (vat (iso_translation (sim_isometry f)) i) (B2R (vat (iso_translation (sim_isometry f)) i))) by (intros i Hi; apply fapp_leaf, (H i Hi)).
  assert (V : forall i, (i < n)%nat -> fbnd P (vat p i)) by (intros i Hi; apply (H i Hi)).
  assert (M : forall k i, (k < n)%nat -> (i < n)%nat -> fapp S 1 1025 (nmul (mget (iso_rotation (sim_isometry f)) k i) (sim_scale f)) (B2R (mget (iso_rotation (sim_isometry f)) k i) * B2R (sim_scale f))).
  { intros k i Hk Hi. exact (mul_u_l H24 S 1 0 _ _ _ WS (fapp_leaf S _ HS) (HR k i Hk Hi) ltac:(lia) ltac:(lia)). }
  assert (G : forall k i, (k <= n)%nat -> (i <= n)%nat -> mget (sim_to_transform f) k i = if Nat.ltb i n then (if Nat.ltb k n then nmul (mget (iso_rotation (sim_isometry f)) k i) (sim_scale f) else vat (iso_translation (sim_isometry f)) i) else delta k i) by (intros; apply sim_mget; assumption).
  destruct (affine_point n (sim_to_transform f) p) as (q & Q & E); [| |exact (bnd_fin n p P V)|].
  - intros k Hk. rewrite G, Nat.ltb_irrefl by lia. apply delta_zero. lia.
  - rewrite G, Nat.ltb_irrefl by lia. apply delta_one.
  - exists q. split; [exact Q|]. intros i Hi. rewrite E by exact Hi.
    assert (E1 : sum n (fun k => nmul (mget (sim_to_transform f) k i) (vat p k)) = sum n (fun k => nmul (nmul (mget (iso_rotation (sim_isometry f)) k i) (sim_scale f)) (vat p k))).
    { apply sum_ext. intros k Hk. rewrite G by lia. destruct (Nat.ltb_spec i n), (Nat.ltb_spec k n); try lia. reflexivity. }
    rewrite E1, G by lia. destruct (Nat.ltb_spec i n), (Nat.ltb_spec n n); try lia.
    destruct Hn as [->| ->].
    + destruct (row2 H24 S P 1 1025 1 0 _ _ _ _ _ _ (vat p 0) (vat p 1) WSP S0 P0 ltac:(lia) ltac:(lia) ltac:(lia) ltac:(lia) (M 0%nat i ltac:(lia) Hi) (M 1%nat i ltac:(lia) Hi) (T i Hi) (V 0%nat ltac:(lia)) (V 1%nat ltac:(lia))) as (_ & B).
      refine (near_V _ _ _ 17 _ _ _ (S * P) SP0 B _ _ _); first [lia|reflexivity|rsolve].
    + destruct (row3 H24 S P 1 1025 1 0 _ _ _ _ _ _ _ _ (vat p 0) (vat p 1) (vat p 2) WSP S0 P0 ltac:(lia) ltac:(lia) ltac:(lia) ltac:(lia) (M 0%nat i ltac:(lia) Hi) (M 1%nat i ltac:(lia) Hi) (M 2%nat i ltac:(lia) Hi) (T i Hi) (V 0%nat ltac:(lia)) (V 1%nat ltac:(lia)) (V 2%nat ltac:(lia))) as (_ & B).
      refine (near_V _ _ _ 17 _ _ _ (S * P) SP0 B _ _ _); first [lia|reflexivity|rsolve].
Qed.

Theorem c155_example :
  let n : vec f64 2 := v2 (ndiv (f64_of_Z 3) (f64_of_Z 5)) (ndiv (f64_of_Z 4) (f64_of_Z 5)) in
  let f := mkReflection n (v2 (f64_of_Z 1) (f64_of_Z 2) : point f64 2) in let p : point f64 2 := v2 (f64_of_Z 4) (f64_of_Z (-3)) in
  (forall i, (i < 2)%nat -> fbnd 1 (vat (re_normal f) i) /\ fbnd 4 (vat (re_bias f) i) /\ fbnd 4 (vat p i)) /\ bpow radix2 (31 - 1024) <= 4 <= bpow radix2 (1024 - 31) /\
  exists q, tf_apply_point (re2to_transform f) p = Some q /\ is_finite (vat q 0) = true /\ is_finite (vat q 1) = true.
Proof.
  intros n f p. assert (V : forall z, (Z.abs z < 100)%Z -> is_finite (f64_of_Z z) = true /\ B2R (f64_of_Z z) = IZR z) by (intros z Hz; split; apply f64_of_Z_exact; lia).
  assert (L : forall z, (Z.abs z <= 4)%Z -> fbnd 4 (f64_of_Z z)) by (intros z Hz; destruct (V z ltac:(lia)) as (F & E); split; [exact F|rewrite E, <- abs_IZR; apply IZR_le; lia]).
  assert (N : forall x : f64, is_finite x = true -> Bleb (Babs x) (n1 : f64) = true -> fbnd 1 x).
  { intros x F H. split; [exact F|]. rewrite Bleb_correct in H; [|rewrite is_finite_Babs; exact F|vm_compute; reflexivity]. rewrite B2R_Babs in H. assert (O : B2R (n1 : f64) = 1) by apply Bone_correct. rewrite O in H. destruct (Rle_bool_spec (Rabs (B2R x)) 1); [assumption|discriminate]. }
  assert (A : forall i, (i < 2)%nat -> fbnd 1 (vat (re_normal f) i) /\ fbnd 4 (vat (re_bias f) i) /\ fbnd 4 (vat p i)).
  { intros i Hi. destruct i as [|[|i]]; [| |lia]; (split; [apply N; vm_compute; reflexivity|split; apply L; lia]). }
  assert (W : bpow radix2 (31 - 1024) <= 4 <= bpow radix2 (1024 - 31)) by (change 4 with (bpow radix2 2); split; apply bpow_le; lia).
  split; [exact A|]. split; [exact W|].
  destruct (proj1 (c155_reflection2 53 1024 _ _ f 4 ltac:(lia) ltac:(lia) W (fun i Hi => proj1 (A i Hi))) p (fun i Hi => proj1 (proj2 (A i Hi))) (fun i Hi => proj2 (proj2 (A i Hi)))) as (q & Q & B).
  exists q. split; [exact Q|]. split; [exact (proj1 (B 0%nat ltac:(lia)))|exact (proj1 (B 1%nat ltac:(lia)))].
Qed.
