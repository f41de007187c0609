(** Machine integers form a commutative ring; results computed with them are the exact results
    reduced modulo 2^w. *)

From Coq Require Import List ZArith Bool Lia Eqdep_dec Ring.
From Verif Require Import Base Scalar Spec LBase MVector LVector MMatrix LMatrix LMatrixDet MQuat LQuat MInt.
Import ListNotations.
Local Open Scope Z_scope.

Lemma wint_eq s w (x y : wint s w) : wval x = wval y -> x = y.
Proof.
  destruct x as [x Hx], y as [y Hy]. cbn. intros ->. f_equal. apply UIP_dec. apply bool_dec.
Qed.

Lemma wmodulus_pos w : 0 < wmodulus w.
Proof. unfold wmodulus. apply Z.pow_pos_nonneg; lia. Qed.

(** Equality of representatives is congruence. *)
Lemma wwrap_eq s w a b : wwrap s w a = wwrap s w b <-> a mod wmodulus w = b mod wmodulus w.
Proof.
  pose proof (wmodulus_pos w) as M. unfold wwrap. set (o := wmin s w).
  assert (E : forall a b, (a - o) mod wmodulus w = (b - o) mod wmodulus w -> a mod wmodulus w = b mod wmodulus w).
  { intros x y H. replace x with ((x - o) + o) by lia. replace y with ((y - o) + o) by lia.
    rewrite (Z.add_mod (x - o)), (Z.add_mod (y - o)) by lia. rewrite H. reflexivity. }
  split; intros H.
  - apply E. lia.
  - f_equal. rewrite (Zminus_mod a), (Zminus_mod b), H. reflexivity.
Qed.

Lemma wwrap_mod s w a : wwrap s w a mod wmodulus w = a mod wmodulus w.
Proof.
  apply (wwrap_eq s). apply Z.eqb_eq. apply wwrap_idem.
Qed.

Lemma wwrap_range s w a : wfits s w (wwrap s w a).
Proof.
  unfold wfits, wwrap. pose proof (Z.mod_pos_bound (a - wmin s w) (wmodulus w) (wmodulus_pos w)). lia.
Qed.

Lemma wwrap_fits s w a : wfits s w a -> wwrap s w a = a.
Proof. intros H. unfold wfits in H. unfold wwrap. rewrite Z.mod_small by lia. lia. Qed.

Lemma wval_range s w (x : wint s w) : wfits s w (wval x).
Proof. destruct x as [x Hx]. cbn. apply Z.eqb_eq in Hx. rewrite <- Hx. apply wwrap_range. Qed.

Lemma wval_wof s w z : wval (wof s w z) = wwrap s w z. Proof. reflexivity. Qed.
Lemma wof_wval s w (x : wint s w) : wof s w (wval x) = x.
Proof. apply wint_eq. cbn. apply wwrap_fits. apply wval_range. Qed.

Lemma wof_eq s w a b : wof s w a = wof s w b <-> a mod wmodulus w = b mod wmodulus w.
Proof.
  rewrite <- (wwrap_eq s). split; intros H.
  - apply (f_equal wval) in H. exact H.
  - apply wint_eq. exact H.
Qed.

(** [wof] is a ring homomorphism from the integers. *)
Lemma wof_add s w a b : wof s w (a + b) = nadd (wof s w a) (wof s w b).
Proof.
  apply wof_eq. cbn [wval wof]. rewrite (Z.add_mod a), (Z.add_mod (wwrap s w a)) by (pose proof (wmodulus_pos w); lia).
  rewrite !wwrap_mod. reflexivity.
Qed.
Lemma wof_sub s w a b : wof s w (a - b) = nsub (wof s w a) (wof s w b).
Proof.
  apply wof_eq. cbn [wval wof]. rewrite (Zminus_mod a), (Zminus_mod (wwrap s w a)).
  rewrite !wwrap_mod. reflexivity.
Qed.
Lemma wof_mul s w a b : wof s w (a * b) = nmul (wof s w a) (wof s w b).
Proof.
  apply wof_eq. cbn [wval wof]. rewrite (Z.mul_mod a), (Z.mul_mod (wwrap s w a)) by (pose proof (wmodulus_pos w); lia).
  rewrite !wwrap_mod. reflexivity.
Qed.
Lemma wof_neg s w a : wof s w (- a) = nneg (wof s w a).
Proof.
  transitivity (wof s w (0 - a)); [f_equal; lia|].
  transitivity (wof s w (0 - wval (wof s w a))).
  - apply wof_eq. cbn [wval wof]. rewrite (Zminus_mod 0 a), (Zminus_mod 0 (wwrap s w a)), wwrap_mod. reflexivity.
  - unfold nneg; cbn. f_equal.
Qed.

#[global] Instance ring_wint s w : RingLaws (wint s w).
Proof.
  unfold RingLaws.
  assert (E : forall x : wint s w, exists z, x = wof s w z) by (intros x; exists (wval x); symmetry; apply wof_wval).
  constructor; intros;
  repeat match goal with x : wint s w |- _ => let z := fresh "z" in destruct (E x) as [z ->]; clear x end;
  change (@n0 (wint s w) _) with (wof s w 0); change (@n1 (wint s w) _) with (wof s w 1);
  rewrite <- ?wof_neg; rewrite <- ?wof_add, <- ?wof_mul, <- ?wof_sub; rewrite <- ?wof_add, <- ?wof_mul, <- ?wof_sub;
  f_equal; ring.
Qed.

(** ** Homomorphisms commute with the model *)
Section Hom.
Context {A B : Type} {NA : Num A} {NB : Num B} (h : A -> B).
Hypothesis h0 : h n0 = n0.
Hypothesis h1 : h n1 = n1.
Hypothesis hadd : forall x y, h (nadd x y) = nadd (h x) (h y).
Hypothesis hsub : forall x y, h (nsub x y) = nsub (h x) (h y).
Hypothesis hmul : forall x y, h (nmul x y) = nmul (h x) (h y).
Hypothesis hneg : forall x, h (nneg x) = nneg (h x).

Lemma hom_sum n f : h (sum n f) = sum n (fun i => h (f i)).
Proof.
  induction n as [|n IH]; [exact h0|]. cbn [sum]. rewrite hadd, IH. reflexivity.
Qed.
Lemma hom_vat n (v : vec A n) i : (i < n)%nat -> vat (vector_map h v) i = h (vat v i).
Proof. intros Hi. unfold vector_map, vat. apply vget_vmap. exact Hi. Qed.
Lemma hom_vdot n (u v : vec A n) : h (vdot u v) = vdot (vector_map h u) (vector_map h v).
Proof.
  rewrite !vdot_sum, hom_sum. apply sum_ext. intros i Hi. rewrite !hom_vat by exact Hi. apply hmul.
Qed.
Lemma hom_mget r c (m : mat A r c) j i : (j < c)%nat -> (i < r)%nat ->
  mget (mmap n0 n0 h m) j i = h (mget m j i).
Proof. intros Hj Hi. unfold mget. rewrite mget_d_mmap by assumption. reflexivity. Qed.

Lemma hom_vadd n (u v : vec A n) : vector_map h (vadd u v) = vadd (vector_map h u) (vector_map h v).
Proof. apply vat_ext. intros i Hi. rewrite hom_vat, !vat_vadd, !hom_vat by exact Hi. apply hadd. Qed.
Lemma hom_vmul_s n (u : vec A n) a : vector_map h (vmul_s u a) = vmul_s (vector_map h u) (h a).
Proof. apply vat_ext. intros i Hi. rewrite hom_vat, !vat_vmul_s, !hom_vat by exact Hi. apply hmul. Qed.
Lemma hom_mmulv r c (m : mat A r c) v :
  vector_map h (mmulv m v) = mmulv (mmap n0 n0 h m) (vector_map h v).
Proof.
  apply vat_ext. intros i Hi. rewrite hom_vat, !vat_mmulv, hom_sum by exact Hi.
  apply sum_ext. intros k Hk. rewrite hom_mget, hom_vat by assumption. apply hmul.
Qed.
Lemma hom_mmul r n c (a : mat A r n) (b : mat A n c) :
  mmap n0 n0 h (mmul a b) = mmul (mmap n0 n0 h a) (mmap n0 n0 h b).
Proof.
  apply mat_ext. intros j i Hj Hi. rewrite hom_mget, !mget_mmul, hom_sum by assumption.
  apply sum_ext. intros k Hk. rewrite !hom_mget by assumption. apply hmul.
Qed.
Lemma hom_det2 (m : mat A 2 2) : h (m2det m) = m2det (mmap n0 n0 h m).
Proof. mdestruct2 m. cbv [mmap]. mcompute. rewrite ?hsub, ?hadd, ?hmul. reflexivity. Qed.
Lemma hom_det3 (m : mat A 3 3) : h (m3det m) = m3det (mmap n0 n0 h m).
Proof. mdestruct3 m. cbv [mmap]. mcompute. rewrite ?hsub, ?hadd, ?hmul, ?hsub, ?hadd, ?hmul. reflexivity. Qed.
Lemma hom_det4 (m : mat A 4 4) : h (m4det m) = m4det (mmap n0 n0 h m).
Proof. mdestruct4 m. cbv [mmap]. mcompute. repeat (rewrite ?hsub, ?hadd, ?hmul, ?hneg). reflexivity. Qed.
Lemma hom_qmul (p q : quat A) : vector_map h (qmul p q) = qmul (vector_map h p) (vector_map h q).
Proof.
  destruct p as [p0 [p1 [p2 [p3 []]]]], q as [q0 [q1 [q2 [q3 []]]]]. cbv [vector_map]. qcompute.
  repeat (rewrite ?hsub, ?hadd, ?hmul, ?hneg, ?h0). reflexivity.
Qed.
End Hom.
