(** Transposition, conjugation and signs of products in floats (C166). *)

From Coq Require Import List Arith ZArith Bool Lia Reals Lra.
From Flocq Require Import Core.Core IEEE754.BinarySingleNaN.
From Verif Require Import Base Scalar Spec SpecLibm MReal MVector MMatrix MComplex MQuat MFloat
  LBase LVector LMatrix LFloat LFloatVec LFloatP LComplexFP LComplexIP LSame.

Section G.
Context {prec emax : Z} {Hp : Prec_gt_0 prec} {He : Prec_lt_emax prec emax}.
Notation fl := (binary_float prec emax).
Lemma neg_terms (A B C D : fl) : feqv (nadd (nadd (nneg B) (nneg A)) (nsub D C)) (nneg (nadd (nadd A B) (nsub C D))).
Proof.
  eapply feqv_trans; [apply feqv_add; [apply feqv_add_neg|apply feqv_sub_swap]|]. rewrite (fadd_comm B A). apply feqv_add_neg.
Qed.
Lemma neg_terms' (A B C D : fl) : feqv (nadd (nadd (nneg A) (nneg B)) (nsub (nneg C) (nneg D))) (nneg (nadd (nadd A B) (nsub C D))).
Proof. eapply feqv_trans; [apply feqv_add; [apply feqv_add_neg|apply feqv_sub_neg]|]. apply feqv_add_neg. Qed.
Lemma sum_neg n (f g : nat -> fl) : (forall k, (k < n)%nat -> g k = nneg (f k)) -> feqv (sum n g) (nneg (sum n f)).
Proof.
  induction n as [|n IH]; intros H; [right; do 2 eexists; split; reflexivity|]. change (feqv (nadd (sum n g) (g n)) (nneg (nadd (sum n f) (f n)))).
  eapply feqv_trans; [apply feqv_add; [apply IH; intros k Hk; apply H; lia|apply feqv_eq, H; lia]|]. apply feqv_add_neg.
Qed.
Lemma dot_neg_neg n (u v : vec fl n) : vdot (vneg u) (vneg v) = vdot u v.
Proof. rewrite !vdot_sum. apply sum_ext. intros k Hk. rewrite !vat_vneg by exact Hk. apply fmul_neg_neg. Qed.
Lemma dot_neg_l n (u v : vec fl n) : feqv (vdot (vneg u) v) (nneg (vdot u v)).
Proof. rewrite !vdot_sum. apply sum_neg. intros k Hk. rewrite vat_vneg by exact Hk. apply fmul_neg_l. Qed.
Lemma dot_comm n (u v : vec fl n) : vdot u v = vdot v u.
Proof. rewrite !vdot_sum. apply sum_ext. intros k Hk. apply fmul_comm. Qed.
End G.

Theorem c166_matrices :
  forall (prec emax : Z) (Hp : Prec_gt_0 prec) (He : Prec_lt_emax prec emax) (r k c : nat) (a : mat (binary_float prec emax) r k) (b : mat (binary_float prec emax) k c) (v : vec (binary_float prec emax) k),
  mtranspose (mmul a b) = mmul (mtranspose b) (mtranspose a) /\
  (forall j i, (j < c)%nat -> (i < r)%nat -> mget (mmul (mneg a) (mneg b)) j i = mget (mmul a b) j i /\ feqv (mget (mmul (mneg a) b) j i) (nneg (mget (mmul a b) j i)) /\ feqv (mget (mmul a (mneg b)) j i) (nneg (mget (mmul a b) j i))) /\
  (forall i, (i < r)%nat -> feqv (vat (mmulv (mneg a) v) i) (nneg (vat (mmulv a v) i)) /\ feqv (vat (mmulv a (vneg v)) i) (nneg (vat (mmulv a v) i))).
Proof.
  intros prec emax Hp He r k c a b v. split; [|split].
  - apply mat_ext. intros j i Hj Hi. rewrite mget_mtranspose, !mget_mmul by assumption. apply sum_ext. intros l Hl. rewrite !mget_mtranspose by assumption. apply fmul_comm.
  - intros j i Hj Hi. rewrite !mget_mmul by assumption. split; [|split].
    + apply sum_ext. intros l Hl. rewrite !mget_mneg by assumption. apply fmul_neg_neg.
    + apply sum_neg. intros l Hl. rewrite mget_mneg by assumption. apply fmul_neg_l.
    + apply sum_neg. intros l Hl. rewrite mget_mneg by assumption. apply fmul_neg_r.
  - intros i Hi. rewrite !vat_mmulv by exact Hi. split.
    + apply sum_neg. intros l Hl. rewrite mget_mneg by assumption. apply fmul_neg_l.
    + apply sum_neg. intros l Hl. rewrite vat_vneg by exact Hl. apply fmul_neg_r.
Qed.

Theorem c166_cross :
  forall (prec emax : Z) (Hp : Prec_gt_0 prec) (He : Prec_lt_emax prec emax) (u v : vec (binary_float prec emax) 3) (i : nat),
  (i < 3)%nat -> feqv (vat (vcross v u) i) (nneg (vat (vcross u v) i)) /\ vcross (vneg u) (vneg v) = vcross u v /\
  feqv (vat (vcross (vneg u) v) i) (nneg (vat (vcross u v) i)) /\ feqv (vat (vcross u (vneg v)) i) (nneg (vat (vcross u v) i)).
Proof.
  intros prec emax Hp He (a & (b & (c & []))) (d & (e & (f & []))) i Hi.
  change (vneg ((a, (b, (c, tt))) : vec (binary_float prec emax) 3)) with (v3 (nneg a) (nneg b) (nneg c)). change (vneg ((d, (e, (f, tt))) : vec (binary_float prec emax) 3)) with (v3 (nneg d) (nneg e) (nneg f)).
  assert (S : forall w x y z : binary_float prec emax, feqv (nsub (nmul w x) (nmul y z)) (nneg (nsub (nmul z y) (nmul x w)))).
  { intros w x y z. rewrite (fmul_comm w x), (fmul_comm y z). apply feqv_sub_swap. }
  split; [|split; [|split]].
  - destruct i as [|[|[|i]]]; try lia; apply S.
  - unfold vcross, v3, vat. cbn [vget fst snd]. rewrite !fmul_neg_neg. reflexivity.
  - destruct i as [|[|[|i]]]; try lia; unfold vcross, v3, vat; cbn [vget fst snd]; rewrite !fmul_neg_l; apply feqv_sub_neg.
  - destruct i as [|[|[|i]]]; try lia; unfold vcross, v3, vat; cbn [vget fst snd]; rewrite !fmul_neg_r; apply feqv_sub_neg.
Qed.

Theorem c166_quaternions :
  forall (prec emax : Z) (Hp : Prec_gt_0 prec) (He : Prec_lt_emax prec emax) (p q : quat (binary_float prec emax)),
  qnorm_squared (qconj q) = qnorm_squared q /\ qnorm_squared (qneg q) = qnorm_squared q /\ qmul (qneg p) (qneg q) = qmul p q /\
  forall i, (i < 4)%nat -> feqv (vat (qmul (qconj q) (qconj p)) i) (vat (qconj (qmul p q)) i) /\ feqv (vat (qmul (qneg p) q) i) (vat (qneg (qmul p q)) i) /\ feqv (vat (qmul p (qneg q)) i) (vat (qneg (qmul p q)) i).
Proof.
  intros prec emax Hp He (a & (b & (c & (d & [])))) (e & (f & (g & (h & [])))).
  set (p := (a, (b, (c, (d, tt)))) : quat (binary_float prec emax)). set (q := (e, (f, (g, (h, tt)))) : quat (binary_float prec emax)).
  assert (S : forall w x y z w' x' y' z' : binary_float prec emax, qmul (w, (x, (y, (z, tt)))) (w', (x', (y', (z', tt)))) =
    (nsub (nmul w w') (vdot (v3 x y z) (v3 x' y' z')), (nadd (nadd (nmul x' w) (nmul x w')) (nsub (nmul y z') (nmul z y')), (nadd (nadd (nmul y' w) (nmul y w')) (nsub (nmul z x') (nmul x z')), (nadd (nadd (nmul z' w) (nmul z w')) (nsub (nmul x y') (nmul y x')), tt))))) by reflexivity.
  assert (N : forall x y z x' y' z' : binary_float prec emax, vdot (v3 (nneg x) (nneg y) (nneg z)) (v3 (nneg x') (nneg y') (nneg z')) = vdot (v3 x y z) (v3 x' y' z')) by (intros; exact (dot_neg_neg 3 (v3 x y z) (v3 x' y' z'))).
  assert (Nl : forall x y z x' y' z' : binary_float prec emax, feqv (vdot (v3 (nneg x) (nneg y) (nneg z)) (v3 x' y' z')) (nneg (vdot (v3 x y z) (v3 x' y' z')))) by (intros; exact (dot_neg_l 3 (v3 x y z) (v3 x' y' z'))).
  split; [|split; [|split]].
  - change (nadd (nadd (nadd (nadd n0 (nmul e e)) (nmul (nneg f) (nneg f))) (nmul (nneg g) (nneg g))) (nmul (nneg h) (nneg h)) = nadd (nadd (nadd (nadd n0 (nmul e e)) (nmul f f)) (nmul g g)) (nmul h h)). rewrite !fmul_neg_neg. reflexivity.
  - change (nadd (nadd (nadd (nadd n0 (nmul (nneg e) (nneg e))) (nmul (nneg f) (nneg f))) (nmul (nneg g) (nneg g))) (nmul (nneg h) (nneg h)) = nadd (nadd (nadd (nadd n0 (nmul e e)) (nmul f f)) (nmul g g)) (nmul h h)). rewrite !fmul_neg_neg. reflexivity.
  - transitivity (qmul (nneg a, (nneg b, (nneg c, (nneg d, tt)))) (nneg e, (nneg f, (nneg g, (nneg h, tt))))); [reflexivity|]. unfold p, q. rewrite !S, N, !fmul_neg_neg. reflexivity.
  - intros i Hi. split; [|split].
    + destruct i as [|[|[|[|i]]]]; try lia.
      * change (feqv (nsub (nmul e a) (vdot (v3 (nneg f) (nneg g) (nneg h)) (v3 (nneg b) (nneg c) (nneg d)))) (nsub (nmul a e) (vdot (v3 b c d) (v3 f g h)))). rewrite N, (fmul_comm e a), dot_comm. apply feqv_refl.
      * change (feqv (nadd (nadd (nmul (nneg b) e) (nmul (nneg f) a)) (nsub (nmul (nneg g) (nneg d)) (nmul (nneg h) (nneg c)))) (nneg (nadd (nadd (nmul f a) (nmul b e)) (nsub (nmul c h) (nmul d g))))). rewrite !fmul_neg_neg, !fmul_neg_l, (fmul_comm g d), (fmul_comm h c). apply neg_terms.
      * change (feqv (nadd (nadd (nmul (nneg c) e) (nmul (nneg g) a)) (nsub (nmul (nneg h) (nneg b)) (nmul (nneg f) (nneg d)))) (nneg (nadd (nadd (nmul g a) (nmul c e)) (nsub (nmul d f) (nmul b h))))). rewrite !fmul_neg_neg, !fmul_neg_l, (fmul_comm h b), (fmul_comm f d). apply neg_terms.
      * change (feqv (nadd (nadd (nmul (nneg d) e) (nmul (nneg h) a)) (nsub (nmul (nneg f) (nneg c)) (nmul (nneg g) (nneg b)))) (nneg (nadd (nadd (nmul h a) (nmul d e)) (nsub (nmul b g) (nmul c f))))). rewrite !fmul_neg_neg, !fmul_neg_l, (fmul_comm f c), (fmul_comm g b). apply neg_terms.
    + destruct i as [|[|[|[|i]]]]; try lia.
      * change (feqv (nsub (nmul (nneg a) e) (vdot (v3 (nneg b) (nneg c) (nneg d)) (v3 f g h))) (nneg (nsub (nmul a e) (vdot (v3 b c d) (v3 f g h))))). rewrite fmul_neg_l. eapply feqv_trans; [apply feqv_sub; [apply feqv_refl|apply Nl]|apply feqv_sub_neg].
      * change (feqv (nadd (nadd (nmul f (nneg a)) (nmul (nneg b) e)) (nsub (nmul (nneg c) h) (nmul (nneg d) g))) (nneg (nadd (nadd (nmul f a) (nmul b e)) (nsub (nmul c h) (nmul d g))))). rewrite !fmul_neg_l, !fmul_neg_r. apply neg_terms'.
      * change (feqv (nadd (nadd (nmul g (nneg a)) (nmul (nneg c) e)) (nsub (nmul (nneg d) f) (nmul (nneg b) h))) (nneg (nadd (nadd (nmul g a) (nmul c e)) (nsub (nmul d f) (nmul b h))))). rewrite !fmul_neg_l, !fmul_neg_r. apply neg_terms'.
      * change (feqv (nadd (nadd (nmul h (nneg a)) (nmul (nneg d) e)) (nsub (nmul (nneg b) g) (nmul (nneg c) f))) (nneg (nadd (nadd (nmul h a) (nmul d e)) (nsub (nmul b g) (nmul c f))))). rewrite !fmul_neg_l, !fmul_neg_r. apply neg_terms'.
    + destruct i as [|[|[|[|i]]]]; try lia.
      * change (feqv (nsub (nmul a (nneg e)) (vdot (v3 b c d) (v3 (nneg f) (nneg g) (nneg h)))) (nneg (nsub (nmul a e) (vdot (v3 b c d) (v3 f g h))))). rewrite fmul_neg_r, (dot_comm 3 (v3 b c d)), (dot_comm 3 (v3 b c d)). eapply feqv_trans; [apply feqv_sub; [apply feqv_refl|apply Nl]|apply feqv_sub_neg].
      * change (feqv (nadd (nadd (nmul (nneg f) a) (nmul b (nneg e))) (nsub (nmul c (nneg h)) (nmul d (nneg g)))) (nneg (nadd (nadd (nmul f a) (nmul b e)) (nsub (nmul c h) (nmul d g))))). rewrite !fmul_neg_l, !fmul_neg_r. apply neg_terms'.
      * change (feqv (nadd (nadd (nmul (nneg g) a) (nmul c (nneg e))) (nsub (nmul d (nneg f)) (nmul b (nneg h)))) (nneg (nadd (nadd (nmul g a) (nmul c e)) (nsub (nmul d f) (nmul b h))))). rewrite !fmul_neg_l, !fmul_neg_r. apply neg_terms'.
      * change (feqv (nadd (nadd (nmul (nneg h) a) (nmul d (nneg e))) (nsub (nmul b (nneg g)) (nmul c (nneg f)))) (nneg (nadd (nadd (nmul h a) (nmul d e)) (nsub (nmul b g) (nmul c f))))). rewrite !fmul_neg_l, !fmul_neg_r. apply neg_terms'.
Qed.

Theorem c166_example :
  let i : Z -> f64 := f64_of_Z in let t := ndiv (i 1%Z) (i 3%Z) in
  let p : quat f64 := qnew t (i 2%Z) (i 0%Z) (i 7%Z) in let q : quat f64 := qnew (i 5%Z) (i 2%Z) t (i 7%Z) in
  is_finite (vat (qmul p q) 1) = true /\ vat (qmul p q) 1 <> vat (qmul q p) 1 /\ vat (qmul (qconj q) (qconj p)) 1 = vat (qconj (qmul p q)) 1 /\
  vat (vcross (v3 t (i 1%Z) (i 1%Z)) (v3 t (i 1%Z) (i 1%Z))) 0 <> nneg (vat (vcross (v3 t (i 1%Z) (i 1%Z)) (v3 t (i 1%Z) (i 1%Z))) 0).
Proof.
  intros i t p q. split; [vm_compute; reflexivity|]. split; [intros E; apply (f_equal B2SF) in E; vm_compute in E; discriminate E|]. split; [apply B2SF_inj; vm_compute; reflexivity|].
  intros E; apply (f_equal B2SF) in E; vm_compute in E; discriminate E.
Qed.
