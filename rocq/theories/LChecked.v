(** Lemmas about integers with overflow checks. *)

From Coq Require Import Arith ZArith Bool Lia.
From Verif Require Import Base Scalar Spec MInt MVector MMatrix MComplex MQuat MChecked
  LBase LVector LMatrix LMatrixDet LQuat LInt.

(** ** Collecting components *)
Lemma vall_some {A} (d : A) n (v : vec (option A) n) t i :
  vall v = Some t -> (i < n)%nat -> vget None v i = Some (vget d t i).
Proof.
  revert t i; induction n as [|n IH]; intros t i H Hi; [lia|].
  destruct v as [[x|] v]; cbn in H; [|discriminate].
  destruct (vall v) as [r|] eqn:E; [|discriminate]. injection H as <-.
  destruct i as [|i]; [reflexivity|]. cbn. apply IH; [exact E|lia].
Qed.
Lemma vall_none {A} n (v : vec (option A) n) :
  vall v = None <-> exists i, (i < n)%nat /\ vget None v i = None.
Proof.
  induction n as [|n IH]; cbn.
  - split; [discriminate|]. intros (i & Hi & _). lia.
  - destruct v as [[x|] v]; cbn.
    + destruct (vall v) as [r|] eqn:E.
      * split; [discriminate|]. intros ([|i] & Hi & Hn); [discriminate|].
        assert (W : Some r = None) by (rewrite <- E; apply IH; exists i; split; [lia|exact Hn]). discriminate.
      * split; [intros _|reflexivity]. destruct (proj1 (IH v) E) as (i & Hi & Hn).
        exists (S i). split; [lia|exact Hn].
    + split; [intros _; exists 0%nat; split; [lia|reflexivity]|reflexivity].
Qed.

Section Ck.
Context {s : bool} {w : positive}.
Notation I := (wint s w).
Notation O := (option (wint s w)).

Lemma fits_iff z : fits s w z = true <-> wfits s w z.
Proof. unfold fits, wfits. rewrite andb_true_iff, Z.leb_le, Z.ltb_lt. reflexivity. Qed.
Lemma chk_some z (y : I) : chk s w z = Some y <-> wfits s w z /\ wval y = z.
Proof.
  unfold chk. destruct (fits s w z) eqn:E.
  - apply fits_iff in E. split.
    + intros H. injection H as <-. split; [exact E|]. cbn. apply wwrap_fits. exact E.
    + intros [_ H]. f_equal. apply wint_eq. cbn. rewrite wwrap_fits; auto.
  - split; [discriminate|]. intros [H _]. apply fits_iff in H. congruence.
Qed.
Lemma chk_none z : chk s w z = None <-> ~ wfits s w z.
Proof.
  unfold chk. rewrite <- fits_iff. destruct (fits s w z); split; try discriminate; try congruence; auto.
Qed.

Lemma vat_vin n (v : vec I n) i : (i < n)%nat -> vat (vin v) i = Some (vat v i).
Proof. intros Hi. unfold vat, vin. rewrite (vget_vmap _ (@n0 I _)); auto. Qed.
Lemma mget_min r c (m : mat I r c) j i : (j < c)%nat -> (i < r)%nat -> mget (min_ m) j i = Some (mget m j i).
Proof.
  intros Hj Hi. unfold mget, mget_d, min_.
  rewrite (vget_vmap vin (vfill r (@n0 I _))) by auto. unfold vin.
  rewrite (vget_vmap Some (@n0 I _)) by auto. reflexivity.
Qed.
Lemma vall_vat n (v : vec O n) t i : vall v = Some t -> (i < n)%nat -> vat v i = Some (vat t i).
Proof.
  intros H Hi. unfold vat. rewrite (vget_default _ None) by auto. apply vall_some; auto.
Qed.
Lemma vall_vat_none n (v : vec O n) : vall v = None <-> exists i, (i < n)%nat /\ vat v i = None.
Proof.
  rewrite vall_none. split; intros (i & Hi & H); exists i; (split; [exact Hi|]);
    unfold vat in *; [rewrite (vget_default _ None)|rewrite (vget_default _ (@n0 O _))]; auto.
Qed.
Lemma mall_mget r c (m : mat O r c) t j i :
  mall m = Some t -> (j < c)%nat -> (i < r)%nat -> mget m j i = Some (mget t j i).
Proof.
  intros H Hj Hi. unfold mall in H.
  pose proof (vall_some (vfill r (@n0 I _)) _ _ _ j H Hj) as E.
  rewrite (vget_vmap vall (vfill r (@n0 O _))) in E by auto.
  pose proof (vall_some (@n0 I _) _ _ _ i E Hi) as E'.
  unfold mget, mget_d. rewrite (vget_default _ None) by auto. exact E'.
Qed.
Lemma mall_none r c (m : mat O r c) :
  mall m = None <-> exists j i, (j < c)%nat /\ (i < r)%nat /\ mget m j i = None.
Proof.
  unfold mall. etransitivity; [exact (vall_none c (vmap vall m))|]. split.
  - intros (j & Hj & H). rewrite (vget_vmap vall (vfill r (@n0 O _))) in H by auto.
    apply vall_none in H. destruct H as (i & Hi & H). exists j, i. repeat split; auto.
    unfold mget, mget_d. rewrite (vget_default _ None) by auto. exact H.
  - intros (j & i & Hj & Hi & H). exists j. split; [exact Hj|].
    rewrite (vget_vmap vall (vfill r (@n0 O _))) by auto. apply vall_none. exists i. split; [exact Hi|].
    unfold mget, mget_d in H. rewrite (vget_default _ None) in H by auto. exact H.
Qed.

(** ** A returned value is related to the exact and to the wrapping result *)
Section Par.
Context {B : Type} {NB : Num B} (R : I -> B -> Prop).
Definition rel (x : O) (b : B) : Prop := forall y, x = Some y -> R y b.
Hypothesis R0 : R (wof s w 0) n0.
Hypothesis Radd : forall x y a b, R x a -> R y b -> wfits s w (wval x + wval y) -> R (wof s w (wval x + wval y)) (nadd a b).
Hypothesis Rsub : forall x y a b, R x a -> R y b -> wfits s w (wval x - wval y) -> R (wof s w (wval x - wval y)) (nsub a b).
Hypothesis Rmul : forall x y a b, R x a -> R y b -> wfits s w (wval x * wval y) -> R (wof s w (wval x * wval y)) (nmul a b).
Hypothesis Rneg : forall x a, R x a -> wfits s w (- wval x) -> R (wof s w (- wval x)) (nneg a).

Lemma rel0 : rel (@n0 O _) n0. Proof. intros y H. injection H as <-. exact R0. Qed.
Lemma rel_some x a : R x a -> rel (Some x) a. Proof. intros H y E. injection E as <-. exact H. Qed.
Ltac bin H := intros x y a b Hx Hy z E; destruct x as [x|], y as [y|]; try discriminate; cbn in E;
  unfold chk in E; destruct (fits s w _) eqn:F in E; [|discriminate]; injection E as <-; apply fits_iff in F;
  apply H; [apply Hx|apply Hy|exact F]; reflexivity.
Lemma rel_add x y a b : rel x a -> rel y b -> rel (nadd x y) (nadd a b).
Proof. revert x y a b. bin Radd. Qed.
Lemma rel_sub x y a b : rel x a -> rel y b -> rel (nsub x y) (nsub a b).
Proof. revert x y a b. bin Rsub. Qed.
Lemma rel_mul x y a b : rel x a -> rel y b -> rel (nmul x y) (nmul a b).
Proof. revert x y a b. bin Rmul. Qed.
Lemma rel_neg x a : rel x a -> rel (nneg x) (nneg a).
Proof.
  intros Hx z E; destruct x as [x|]; try discriminate; cbn in E;
  unfold chk in E; destruct (fits s w _) eqn:F in E; [|discriminate]; injection E as <-; apply fits_iff in F.
  apply Rneg; [apply Hx; reflexivity|exact F].
Qed.
Lemma rel_sum n f g : (forall i, (i < n)%nat -> rel (f i) (g i)) -> rel (sum n f) (sum n g).
Proof.
  induction n as [|n IH]; intros H; [exact rel0|]. cbn [sum]. apply rel_add; [apply IH; auto|apply H; lia].
Qed.
End Par.

(** ** Bounds *)
Definition bd (x : O) (b : Z) : Prop := exists y, x = Some y /\ (Z.abs (wval y) <= b)%Z.
End Ck.

Section Bd.
Context {w : positive}.
Notation I := (wint true w).
Notation O := (option (wint true w)).
Notation top := (2 ^ (Z.pos w - 1))%Z.
Lemma fits_abs z : (Z.abs z < top)%Z -> wfits true w z.
Proof.
  intros H. unfold wfits, wmin, wmodulus. replace (2 ^ Z.pos w)%Z with (2 * top)%Z; [lia|].
  rewrite <- Z.pow_succ_r by lia. f_equal. lia.
Qed.
Lemma bd_some (x : I) b : (Z.abs (wval x) <= b)%Z -> bd (Some x) b.
Proof. intros H. exists x. auto. Qed.
Lemma bd_chk z b : (Z.abs z <= b)%Z -> (b < top)%Z -> bd (chk true w z) b.
Proof.
  intros H L. assert (F : wfits true w z) by (apply fits_abs; lia).
  exists (wof true w z). split.
  - apply chk_some. split; [exact F|]. cbn. apply wwrap_fits; exact F.
  - cbn. rewrite wwrap_fits by exact F. exact H.
Qed.
Lemma bd0 b : (0 <= b)%Z -> bd (@n0 O _) b.
Proof.
  intros H. exists (wof true w 0). split; [reflexivity|]. cbn.
  rewrite wwrap_fits; [cbn; lia|]. apply fits_abs. change (Z.abs 0) with 0%Z. apply Z.pow_pos_nonneg; lia.
Qed.
Lemma bd_add (x y : O) a b c : bd x a -> bd y b -> (a + b <= c)%Z -> (c < top)%Z -> bd (nadd x y) c.
Proof. intros (x' & -> & Hx) (y' & -> & Hy) L H. apply bd_chk; [lia|exact H]. Qed.
Lemma bd_sub (x y : O) a b c : bd x a -> bd y b -> (a + b <= c)%Z -> (c < top)%Z -> bd (nsub x y) c.
Proof. intros (x' & -> & Hx) (y' & -> & Hy) L H. apply bd_chk; [lia|exact H]. Qed.
Lemma bd_mul (x y : O) a b c : bd x a -> bd y b -> (a * b <= c)%Z -> (c < top)%Z -> bd (nmul x y) c.
Proof.
  intros (x' & -> & Hx) (y' & -> & Hy) L H. apply bd_chk; [|exact H].
  rewrite Z.abs_mul. eapply Z.le_trans; [|exact L].
  apply Z.mul_le_mono_nonneg; try assumption; apply Z.abs_nonneg.
Qed.
Lemma bd_neg (x : O) a : bd x a -> (a < top)%Z -> bd (nneg x) a.
Proof. intros (x' & -> & Hx) H. apply bd_chk; [rewrite Z.abs_opp; exact Hx|exact H]. Qed.
Lemma bd_sum n (f : nat -> O) a : (0 <= a)%Z -> (forall i, (i < n)%nat -> bd (f i) a) ->
  (Z.of_nat n * a < top)%Z -> bd (sum n f) (Z.of_nat n * a).
Proof.
  intros Ha. induction n as [|n IH]; intros Hf H; [apply bd0; lia|].
  cbn [sum]. eapply bd_add; [apply IH; [auto|nia]|apply Hf; lia|nia|exact H].
Qed.
Lemma bd_none (x : O) a : bd x a -> x <> None. Proof. intros (y & -> & _). discriminate. Qed.
End Bd.

(** ** The theorems *)
Section Thm.
Context {s : bool} {w : positive}.
Notation I := (wint s w).
Notation O := (option (wint s w)).
Definition exact_rel (y : I) (z : Z) : Prop := wval y = z.
Definition wrap_rel (y x : I) : Prop := y = x.

Lemma ex0 : exact_rel (wof s w 0) n0.
Proof. unfold exact_rel. rewrite wval_wof, wwrap_fits; [reflexivity|]. unfold wfits, wmin, wmodulus.
  destruct s; [|split; [lia|rewrite Z.add_0_l; apply Z.pow_pos_nonneg; lia]].
  replace (2 ^ Z.pos w)%Z with (2 * 2 ^ (Z.pos w - 1))%Z.
  - pose proof (Z.pow_pos_nonneg 2 (Z.pos w - 1)). lia.
  - rewrite <- Z.pow_succ_r by lia. f_equal. lia.
Qed.
Ltac exop := intros; unfold exact_rel in *; subst; rewrite wval_wof, wwrap_fits by assumption; reflexivity.
Lemma exadd x y a b : exact_rel x a -> exact_rel y b -> wfits s w (wval x + wval y) -> exact_rel (wof s w (wval x + wval y)) (nadd a b).
Proof. exop. Qed.
Lemma exsub x y a b : exact_rel x a -> exact_rel y b -> wfits s w (wval x - wval y) -> exact_rel (wof s w (wval x - wval y)) (nsub a b).
Proof. exop. Qed.
Lemma exmul x y a b : exact_rel x a -> exact_rel y b -> wfits s w (wval x * wval y) -> exact_rel (wof s w (wval x * wval y)) (nmul a b).
Proof. exop. Qed.
Lemma exneg x a : exact_rel x a -> wfits s w (- wval x) -> exact_rel (wof s w (- wval x)) (nneg a).
Proof. exop. Qed.

Ltac leaf := apply rel_some; reflexivity.
Ltac step := first
  [ apply (rel_add exact_rel exadd) | apply (rel_sub exact_rel exsub) | apply (rel_mul exact_rel exmul)
  | apply (rel_neg exact_rel exneg) | apply (rel_sum exact_rel ex0 exadd); intros
  | apply (rel0 exact_rel ex0) ].
Ltac wstep := first
  [ apply (@rel_add s w I _ wrap_rel) | apply (@rel_sub s w I _ wrap_rel) | apply (@rel_mul s w I _ wrap_rel)
  | apply (@rel_neg s w I _ wrap_rel) | apply (@rel_sum s w I _ wrap_rel)
  | apply (@rel0 s w I _ wrap_rel) ].
Ltac wsolve := unfold wrap_rel in *; intros; subst; reflexivity.

Lemma cin_re (z : complex I) : re (cin z) = Some (re z). Proof. reflexivity. Qed.
Lemma cin_im (z : complex I) : im (cin z) = Some (im z). Proof. reflexivity. Qed.

(** Scalar Hamilton product at any scalar, as the code computes it. *)
Lemma qmul_vat {K} {NK : Num K} (p q : quat K) :
  vat (qmul p q : vec K 4) 0 = nsub (nmul (vat (p : vec K 4) 0) (vat (q : vec K 4) 0))
     (nadd (nadd (nadd n0 (nmul (vat (p : vec K 4) 1) (vat (q : vec K 4) 1)))
        (nmul (vat (p : vec K 4) 2) (vat (q : vec K 4) 2))) (nmul (vat (p : vec K 4) 3) (vat (q : vec K 4) 3))) /\
  vat (qmul p q : vec K 4) 1 = nadd (nadd (nmul (vat (q : vec K 4) 1) (vat (p : vec K 4) 0)) (nmul (vat (p : vec K 4) 1) (vat (q : vec K 4) 0)))
     (nsub (nmul (vat (p : vec K 4) 2) (vat (q : vec K 4) 3)) (nmul (vat (p : vec K 4) 3) (vat (q : vec K 4) 2))) /\
  vat (qmul p q : vec K 4) 2 = nadd (nadd (nmul (vat (q : vec K 4) 2) (vat (p : vec K 4) 0)) (nmul (vat (p : vec K 4) 2) (vat (q : vec K 4) 0)))
     (nsub (nmul (vat (p : vec K 4) 3) (vat (q : vec K 4) 1)) (nmul (vat (p : vec K 4) 1) (vat (q : vec K 4) 3))) /\
  vat (qmul p q : vec K 4) 3 = nadd (nadd (nmul (vat (q : vec K 4) 3) (vat (p : vec K 4) 0)) (nmul (vat (p : vec K 4) 3) (vat (q : vec K 4) 0)))
     (nsub (nmul (vat (p : vec K 4) 1) (vat (q : vec K 4) 2)) (nmul (vat (p : vec K 4) 2) (vat (q : vec K 4) 1))).
Proof. destruct p as [p0 [p1 [p2 [p3 []]]]], q as [q0 [q1 [q2 [q3 []]]]]. repeat split. Qed.

(** The determinants use the entries only. *)
Section Det.
Context {K L : Type} {NK : Num K} {NL : Num L} (R : K -> L -> Prop).
Hypothesis Ra : forall x y a b, R x a -> R y b -> R (nadd x y) (nadd a b).
Hypothesis Rs : forall x y a b, R x a -> R y b -> R (nsub x y) (nsub a b).
Hypothesis Rm : forall x y a b, R x a -> R y b -> R (nmul x y) (nmul a b).
Lemma det2_rel (m : mat K 2 2) (m' : mat L 2 2) :
  (forall j i, (j < 2)%nat -> (i < 2)%nat -> R (mget m j i) (mget m' j i)) -> R (m2det m) (m2det m').
Proof. intros H. unfold m2det. repeat first [apply Rs | apply Ra | apply Rm]; apply H; auto with arith. Qed.
Lemma det3_rel (m : mat K 3 3) (m' : mat L 3 3) :
  (forall j i, (j < 3)%nat -> (i < 3)%nat -> R (mget m j i) (mget m' j i)) -> R (m3det m) (m3det m').
Proof. intros H. unfold m3det. repeat first [apply Rs | apply Ra | apply Rm]; apply H; auto with arith. Qed.
Lemma det4_rel (m : mat K 4 4) (m' : mat L 4 4) :
  (forall j i, (j < 4)%nat -> (i < 4)%nat -> R (mget m j i) (mget m' j i)) -> R (m4det m) (m4det m').
Proof. intros H. unfold m4det. repeat first [apply Rs | apply Ra | apply Rm]; apply H; auto with arith. Qed.
End Det.

Notation zv u i := (wval (vat u i)).
Notation zm m j i := (wval (mget m j i)).
Local Open Scope Z_scope.

(** Exactness. *)
Lemma vx {n} (v : vec O n) t (f : nat -> Z) :
  vall v = Some t -> (forall i, (i < n)%nat -> rel exact_rel (vat v i) (f i)) ->
  forall i, (i < n)%nat -> zv t i = f i.
Proof. intros H R i Hi. apply (R i Hi). apply vall_vat; auto. Qed.
Lemma mx {r c} (m : mat O r c) t (f : nat -> nat -> Z) :
  mall m = Some t -> (forall j i, (j < c)%nat -> (i < r)%nat -> rel exact_rel (mget m j i) (f j i)) ->
  forall j i, (j < c)%nat -> (i < r)%nat -> zm t j i = f j i.
Proof. intros H R j i Hj Hi. apply (R j i Hj Hi). apply mall_mget; auto. Qed.
Definition zmat {r c} (m : mat I r c) : mat Z r c := mmap n0 n0 wval m.
Lemma mget_zmat r c (m : mat I r c) j i : (j < c)%nat -> (i < r)%nat -> mget (zmat m) j i = zm m j i.
Proof. intros. unfold zmat, mget. rewrite mget_d_mmap by assumption. reflexivity. Qed.
End Thm.
