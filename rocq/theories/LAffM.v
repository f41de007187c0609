(** Reflection, shear and similarity matrices in floats (C155). *)

From Coq Require Import List Arith ZArith Bool Lia Reals Lra Psatz.
From Flocq Require Import Core.Core IEEE754.BinarySingleNaN.
From Verif Require Import Base Scalar Spec SpecF SpecArc SpecLibm MVector MMatrix MPoint MTransform MFloat
  LBase LVector LMatrix LFloat LFloatVec LFloatP LFloatAcc LFloatExP LProjF LSame.
Local Open Scope R_scope.

Section F.
Context {prec emax : Z} {Hp : Prec_gt_0 prec} {He : Prec_lt_emax prec emax}.
Notation fl := (binary_float prec emax).
Notation u := (bpow radix2 (- prec)).
Hypothesis H24 : (24 <= prec)%Z.

Lemma p24 : (16777216 <= 2 ^ prec)%Z.
Proof. change 16777216%Z with (2 ^ 24)%Z. apply Z.pow_le_mono_r; lia. Qed.
(** Multiplication by a number of at most one keeps the scale. *)
Lemma mul_u V A e (x y : fl) r : @wok emax V -> fapp V A e x r -> fbnd 1 y -> (0 <= A <= 2 ^ 10)%Z -> (0 <= e <= 2 ^ 20)%Z -> fapp V A (e + 1024 * A + 1) (nmul x y) (r * B2R y).
Proof.
  intros WV X Y HA HE. pose proof p24. pose proof (wok_pos V WV) as P0.
  assert (G : fapp (V * 1) (A * 1) (e * 1 + A * 0 + 1024 * (A * 1) + 1) (nmul x y) (r * B2R y)).
  { apply fapp_mul; try (exact H24 || exact P0 || lra || lia || exact X); [rewrite Rmult_1_r; exact WV|apply fapp_leaf, Y]. }
  rewrite Rmult_1_r in G. eapply fapp_weak; [exact P0|exact G|lia|lia].
Qed.
Lemma mul_u_l V A e (x y : fl) r : @wok emax V -> fapp V A e x r -> fbnd 1 y -> (0 <= A <= 2 ^ 10)%Z -> (0 <= e <= 2 ^ 20)%Z -> fapp V A (e + 1024 * A + 1) (nmul y x) (B2R y * r).
Proof. intros. rewrite fmul_comm, (Rmult_comm (B2R y)). apply mul_u; assumption. Qed.
(** A product with a coordinate. *)
Lemma mul_p V P A e (x y : fl) r : @wok emax (V * P) -> 0 < V -> 0 < P -> fapp V A e x r -> fbnd P y -> (0 <= A <= 2 ^ 10)%Z -> (0 <= e <= 2 ^ 20)%Z -> fapp (V * P) A (e + 1024 * A + 1) (nmul x y) (r * B2R y).
Proof.
  intros WV V0 P0 X Y HA HE. pose proof p24.
  eapply fapp_weak; [exact (wok_pos _ WV)|apply (fapp_mul H24 V P A 1 e 0 x y r (B2R y)); try (exact V0 || exact P0 || exact WV || exact X || lia); apply fapp_leaf, Y|lia|lia].
Qed.
Lemma row3 V P A e B f (m0 m1 m2 t : fl) r0 r1 r2 rt (p0 p1 p2 : fl) : @wok emax (V * P) -> 0 < V -> 0 < P -> (0 <= A <= 2 ^ 8)%Z -> (0 <= B <= 2 ^ 8)%Z -> (0 <= e <= 2 ^ 18)%Z -> (0 <= f <= 2 ^ 18)%Z ->
  fapp V A e m0 r0 -> fapp V A e m1 r1 -> fapp V A e m2 r2 -> fapp (V * P) B f t rt -> fbnd P p0 -> fbnd P p1 -> fbnd P p2 ->
  fapp (V * P) (3 * A) (3 * e + 9216 * A + 6) (nadd (nadd (nadd n0 (nmul m0 p0)) (nmul m1 p1)) (nmul m2 p2)) (r0 * B2R p0 + r1 * B2R p1 + r2 * B2R p2) /\
  fapp (V * P) (3 * A + B) (3 * e + f + 12288 * A + 1024 * B + 7) (nadd (nadd (nadd (nadd n0 (nmul m0 p0)) (nmul m1 p1)) (nmul m2 p2)) t) (r0 * B2R p0 + r1 * B2R p1 + r2 * B2R p2 + rt).
Proof.
  intros WV V0 P0 HA HB HE HF M0 M1 M2 T Q0 Q1 Q2. pose proof p24. pose proof (wok_pos _ WV) as VP0.
  pose proof (mul_p V P A e m0 p0 r0 WV V0 P0 M0 Q0 ltac:(lia) ltac:(lia)) as X0. pose proof (mul_p V P A e m1 p1 r1 WV V0 P0 M1 Q1 ltac:(lia) ltac:(lia)) as X1. pose proof (mul_p V P A e m2 p2 r2 WV V0 P0 M2 Q2 ltac:(lia) ltac:(lia)) as X2.
  pose proof (fapp_add H24 _ _ _ _ _ _ _ _ _ WV (fapp_0 (prec := prec) (emax := emax) (V * P)) X0 ltac:(lia) ltac:(lia)) as Y0.
  pose proof (fapp_add H24 _ _ _ _ _ _ _ _ _ WV Y0 X1 ltac:(lia) ltac:(lia)) as Y1. pose proof (fapp_add H24 _ _ _ _ _ _ _ _ _ WV Y1 X2 ltac:(lia) ltac:(lia)) as Y2.
  pose proof (fapp_add H24 _ _ _ _ _ _ _ _ _ WV Y2 T ltac:(lia) ltac:(lia)) as Y3.
  replace (0 + r0 * B2R p0) with (r0 * B2R p0) in Y0, Y1, Y2, Y3 by ring.
  split; (eapply fapp_weak; [exact VP0|eassumption|lia|lia]).
Qed.
Lemma row2 V P A e B f (m0 m1 t : fl) r0 r1 rt (p0 p1 : fl) : @wok emax (V * P) -> 0 < V -> 0 < P -> (0 <= A <= 2 ^ 8)%Z -> (0 <= B <= 2 ^ 8)%Z -> (0 <= e <= 2 ^ 18)%Z -> (0 <= f <= 2 ^ 18)%Z ->
  fapp V A e m0 r0 -> fapp V A e m1 r1 -> fapp (V * P) B f t rt -> fbnd P p0 -> fbnd P p1 ->
  fapp (V * P) (3 * A) (3 * e + 9216 * A + 6) (nadd (nadd n0 (nmul m0 p0)) (nmul m1 p1)) (r0 * B2R p0 + r1 * B2R p1) /\
  fapp (V * P) (3 * A + B) (3 * e + f + 12288 * A + 1024 * B + 7) (nadd (nadd (nadd n0 (nmul m0 p0)) (nmul m1 p1)) t) (r0 * B2R p0 + r1 * B2R p1 + rt).
Proof.
  intros WV V0 P0 HA HB HE HF M0 M1 T Q0 Q1. pose proof p24. pose proof (wok_pos _ WV) as VP0.
  pose proof (mul_p V P A e m0 p0 r0 WV V0 P0 M0 Q0 ltac:(lia) ltac:(lia)) as X0. pose proof (mul_p V P A e m1 p1 r1 WV V0 P0 M1 Q1 ltac:(lia) ltac:(lia)) as X1.
  pose proof (fapp_add H24 _ _ _ _ _ _ _ _ _ WV (fapp_0 (prec := prec) (emax := emax) (V * P)) X0 ltac:(lia) ltac:(lia)) as Y0.
  pose proof (fapp_add H24 _ _ _ _ _ _ _ _ _ WV Y0 X1 ltac:(lia) ltac:(lia)) as Y1.
  pose proof (fapp_add H24 _ _ _ _ _ _ _ _ _ WV Y1 T ltac:(lia) ltac:(lia)) as Y3.
  replace (0 + r0 * B2R p0) with (r0 * B2R p0) in Y0, Y1, Y3 by ring.
  split; (eapply fapp_weak; [exact VP0|eassumption|lia|lia]).
Qed.

(** Entries of a reflection matrix. *)
Section Refl.
Hypothesis E31 : (31 <= emax)%Z.
Lemma wok1 : @wok emax 1.
Proof. change 1 with (bpow radix2 0). split; apply bpow_le; lia. Qed.
Lemma two_n (a : fl) : fbnd 1 a -> fapp 1 2 2049 (nmul (nadd n1 n1) a) (2 * B2R a).
Proof. intros A. exact (mul_u 1 2 0 _ a 2 wok1 (fapp_2 H24) A ltac:(lia) ltac:(lia)). Qed.
Lemma re_off (a b : fl) : fbnd 1 a -> fbnd 1 b -> fapp 1 3 7171 (nmul (nmul (nneg (nadd n1 n1)) a) b) (- 2 * B2R a * B2R b).
Proof.
  intros A B. pose proof (mul_u 1 2 0 _ a _ wok1 (fapp_neg _ _ _ _ _ (fapp_2 H24)) A ltac:(lia) ltac:(lia)) as X.
  pose proof (mul_u 1 _ _ _ b _ wok1 X B ltac:(lia) ltac:(lia)) as Y. eapply fapp_weak; [lra|exact Y|lia|lia].
Qed.
Lemma re_diag (a : fl) : fbnd 1 a -> fapp 1 3 7171 (nsub n1 (nmul (nmul (nadd n1 n1) a) a)) (1 - 2 * B2R a * B2R a).
Proof.
  intros A. pose proof p24. pose proof (mul_u 1 _ _ _ a _ wok1 (two_n a A) A ltac:(lia) ltac:(lia)) as Y.
  eapply fapp_weak; [lra|apply (fapp_sub H24 _ _ _ _ _ _ _ _ _ wok1 fapp_1 Y); lia|lia|lia].
Qed.
Lemma re_tr P (a d : fl) rd : @wok emax P -> fbnd 1 a -> fapp P 3 8197 d rd -> fapp P 6 28686 (nmul (nmul (nadd n1 n1) a) d) (2 * B2R a * rd).
Proof.
  intros WP A D. pose proof p24. pose proof (wok_pos _ WP) as P0. rewrite <- (Rmult_1_l P).
  eapply fapp_weak; [lra|apply (fapp_mul2 H24 1 P 2 3 2049 8197); try (lra || lia || exact D || exact (two_n a A)); rewrite Rmult_1_l; exact WP|lia|lia].
Qed.
Lemma re_dot3 P (a b c x y z : fl) : @wok emax P -> fbnd 1 a -> fbnd 1 b -> fbnd 1 c -> fbnd P x -> fbnd P y -> fbnd P z ->
  fapp P 3 8197 (nadd (nadd (nmul a x) (nmul b y)) (nmul c z)) (B2R a * B2R x + B2R b * B2R y + B2R c * B2R z).
Proof.
  intros WP A B C X Y Z. pose proof p24. pose proof (wok_pos _ WP) as P0.
  pose proof (mul_u_l P 1 0 x a _ WP (fapp_leaf P x X) A ltac:(lia) ltac:(lia)) as M0. pose proof (mul_u_l P 1 0 y b _ WP (fapp_leaf P y Y) B ltac:(lia) ltac:(lia)) as M1. pose proof (mul_u_l P 1 0 z c _ WP (fapp_leaf P z Z) C ltac:(lia) ltac:(lia)) as M2.
  pose proof (fapp_add H24 _ _ _ _ _ _ _ _ _ WP M0 M1 ltac:(lia) ltac:(lia)) as Y1. eapply fapp_weak; [exact P0|apply (fapp_add H24 _ _ _ _ _ _ _ _ _ WP Y1 M2); lia|lia|lia].
Qed.
Lemma re_dot2 P (a b x y : fl) : @wok emax P -> fbnd 1 a -> fbnd 1 b -> fbnd P x -> fbnd P y -> fapp P 3 8197 (nadd (nmul a x) (nmul b y)) (B2R a * B2R x + B2R b * B2R y).
Proof.
  intros WP A B X Y. pose proof p24. pose proof (wok_pos _ WP) as P0.
  pose proof (mul_u_l P 1 0 x a _ WP (fapp_leaf P x X) A ltac:(lia) ltac:(lia)) as M0. pose proof (mul_u_l P 1 0 y b _ WP (fapp_leaf P y Y) B ltac:(lia) ltac:(lia)) as M1.
  eapply fapp_weak; [exact P0|apply (fapp_add H24 _ _ _ _ _ _ _ _ _ WP M0 M1); lia|lia|lia].
Qed.
End Refl.

(** Entries of a shear matrix. *)
Section Shear.
Variables (S : R) (s : fl).
Hypothesis WS : @wok emax S.
Hypothesis S1 : 1 <= S.
Hypothesis HS : fbnd S s.
Lemma sh_off (a b : fl) : fbnd 1 a -> fbnd 1 b -> fapp S 2 4099 (nmul (nmul s a) b) (B2R s * B2R a * B2R b).
Proof.
  intros A B. pose proof (mul_u S 1 0 s a _ WS (fapp_leaf S s HS) A ltac:(lia) ltac:(lia)) as X. pose proof (mul_u S _ _ _ b _ WS X B ltac:(lia) ltac:(lia)) as Y.
  eapply fapp_weak; [lra|exact Y|lia|lia].
Qed.
Lemma sh_diag (a b : fl) : fbnd 1 a -> fbnd 1 b -> fapp S 2 4099 (nadd n1 (nmul (nmul s a) b)) (1 + B2R s * B2R a * B2R b).
Proof.
  intros A B. pose proof p24. pose proof (mul_u S 1 0 s a _ WS (fapp_leaf S s HS) A ltac:(lia) ltac:(lia)) as X. pose proof (mul_u S _ _ _ b _ WS X B ltac:(lia) ltac:(lia)) as Y.
  assert (O : fapp S 1 0 (n1 : fl) 1) by (apply (fapp_up 1); [exact fapp_1|exact S1|lia|lia]).
  eapply fapp_weak; [lra|apply (fapp_add H24 _ _ _ _ _ _ _ _ _ WS O Y); lia|lia|lia].
Qed.
Lemma sh_tr P (d a : fl) rd : @wok emax P -> @wok emax (S * P) -> fbnd 1 a -> fapp P 3 9222 d rd -> fapp (S * P) 3 15368 (nmul a (nmul (nneg s) d)) (B2R a * (- B2R s * rd)).
Proof.
  intros WP WSP A D. pose proof p24. pose proof (wok_pos _ WP) as P0. pose proof (wok_pos _ WSP) as SP0.
  assert (X : fapp (S * P) 3 12295 (nmul (nneg s) d) (- B2R s * rd)).
  { eapply fapp_weak; [exact SP0|apply (fapp_mul H24 S P 1 3 0 9222 (nneg s) d (- B2R s) rd); try (lra || lia || exact WSP || exact D); apply fapp_neg, fapp_leaf, HS|lia|lia]. }
  pose proof (mul_u_l _ _ _ _ a _ WSP X A ltac:(lia) ltac:(lia)) as Y. eapply fapp_weak; [exact SP0|exact Y|lia|lia].
Qed.
End Shear.
Lemma sh_dot3 P (a b c x y z : fl) : @wok emax P -> fbnd 1 a -> fbnd 1 b -> fbnd 1 c -> fbnd P x -> fbnd P y -> fbnd P z ->
  fapp P 3 9222 (nadd (nadd (nadd n0 (nmul x a)) (nmul y b)) (nmul z c)) (B2R x * B2R a + B2R y * B2R b + B2R z * B2R c).
Proof.
  intros WP A B C X Y Z. pose proof p24. pose proof (wok_pos _ WP) as P0.
  pose proof (mul_u P 1 0 x a _ WP (fapp_leaf P x X) A ltac:(lia) ltac:(lia)) as M0. pose proof (mul_u P 1 0 y b _ WP (fapp_leaf P y Y) B ltac:(lia) ltac:(lia)) as M1. pose proof (mul_u P 1 0 z c _ WP (fapp_leaf P z Z) C ltac:(lia) ltac:(lia)) as M2.
  pose proof (fapp_add H24 _ _ _ _ _ _ _ _ _ WP (fapp_0 (prec := prec) (emax := emax) P) M0 ltac:(lia) ltac:(lia)) as Y0. rewrite Rplus_0_l in Y0.
  pose proof (fapp_add H24 _ _ _ _ _ _ _ _ _ WP Y0 M1 ltac:(lia) ltac:(lia)) as Y1. eapply fapp_weak; [exact P0|apply (fapp_add H24 _ _ _ _ _ _ _ _ _ WP Y1 M2); lia|lia|lia].
Qed.
Lemma sh_dot2 P (a b x y : fl) : @wok emax P -> fbnd 1 a -> fbnd 1 b -> fbnd P x -> fbnd P y ->
  fapp P 3 9222 (nadd (nadd n0 (nmul x a)) (nmul y b)) (B2R x * B2R a + B2R y * B2R b).
Proof.
  intros WP A B X Y. pose proof p24. pose proof (wok_pos _ WP) as P0.
  pose proof (mul_u P 1 0 x a _ WP (fapp_leaf P x X) A ltac:(lia) ltac:(lia)) as M0. pose proof (mul_u P 1 0 y b _ WP (fapp_leaf P y Y) B ltac:(lia) ltac:(lia)) as M1.
  pose proof (fapp_add H24 _ _ _ _ _ _ _ _ _ WP (fapp_0 (prec := prec) (emax := emax) P) M0 ltac:(lia) ltac:(lia)) as Y0. rewrite Rplus_0_l in Y0.
  eapply fapp_weak; [exact P0|apply (fapp_add H24 _ _ _ _ _ _ _ _ _ WP Y0 M1); lia|lia|lia].
Qed.
End F.
