(** Machine integers: the proofs of the property theorems of PInt.v. *)

From Coq Require Import List Arith ZArith Bool Lia Ring.
From Verif Require Import Base Scalar Spec LBase MVector LVector MMatrix LMatrix LMatrixDet MQuat LQuat
  MInt LInt.
Import ListNotations.

Lemma c89_scalar_ring :
  forall (signed : bool) (w : positive),
    (forall x y : wint signed w,
       (wval (nadd x y) - (wval x + wval y)) mod (2 ^ Z.pos w) = 0 /\
       (wval (nsub x y) - (wval x - wval y)) mod (2 ^ Z.pos w) = 0 /\
       (wval (nmul x y) - (wval x * wval y)) mod (2 ^ Z.pos w) = 0 /\
       (wval (nneg x) - (- wval x)) mod (2 ^ Z.pos w) = 0)%Z /\
    (forall x : wint true w, (- 2 ^ (Z.pos w - 1) <= wval x < 2 ^ (Z.pos w - 1))%Z) /\
    (forall x : wint false w, (0 <= wval x < 2 ^ Z.pos w)%Z) /\
    RingLaws (wint signed w).
Proof.
  intros s w.
  assert (D : forall z, ((wwrap s w z - z) mod (2 ^ Z.pos w) = 0)%Z).
  { intros z. change (2 ^ Z.pos w)%Z with (wmodulus w). rewrite Zminus_mod, wwrap_mod, Z.sub_diag. apply Zmod_0_l. }
  split; [|split; [|split]].
  - intros x y. repeat split; apply D.
  - intros x. pose proof (wval_range true w x) as H. unfold wfits, wmin, wmodulus in H.
    replace (2 ^ Z.pos w)%Z with (2 * 2 ^ (Z.pos w - 1))%Z in H; [lia|].
    rewrite <- Z.pow_succ_r by lia. f_equal. lia.
  - intros x. pose proof (wval_range false w x) as H. unfold wfits, wmin, wmodulus in H. lia.
  - exact (ring_wint s w).
Qed.

Lemma c89_vector_laws :
  forall (signed : bool) (w : positive) (n : nat) (u v z : vec (wint signed w) n) (a b : wint signed w),
    vadd u v = vadd v u /\ vadd u (vadd v z) = vadd (vadd u v) z /\ vadd u (vneg u) = vzero n /\
    vsub u v = vadd u (vneg v) /\ vmul_s (vadd u v) a = vadd (vmul_s u a) (vmul_s v a) /\
    vmul_s u (nadd a b) = vadd (vmul_s u a) (vmul_s u b) /\ vmul_s (vmul_s u a) b = vmul_s u (nmul a b) /\
    vdot u v = vdot v u /\ vdot (vadd u v) z = nadd (vdot u z) (vdot v z).
Proof.
  intros s w n u v z a b. pose proof (ring_wint s w) as LK.
  repeat split; [apply vadd_comm|apply vadd_assoc|apply vadd_neg_r|apply vsub_def|apply vmul_s_add
  |apply vmul_s_add_s|apply vmul_s_assoc|apply vdot_comm|apply vdot_add_l].
Qed.

Lemma c89_matrix_laws :
  forall (signed : bool) (w : positive) (r n m c : nat) (a a' : mat (wint signed w) r n)
    (b b' : mat (wint signed w) n m) (d : mat (wint signed w) m c) (v : vec (wint signed w) m),
    mmul (mmul a b) d = mmul a (mmul b d) /\ mmul (madd a a') b = madd (mmul a b) (mmul a' b) /\
    mmul a (madd b b') = madd (mmul a b) (mmul a b') /\ mmul (midentity r) a = a /\
    mmul a (midentity n) = a /\ mmulv (mmul a b) v = mmulv a (mmulv b v) /\
    mtranspose (mmul a b) = mmul (mtranspose b) (mtranspose a).
Proof.
  intros s w r n m c a a' b b' d v. pose proof (ring_wint s w) as LK.
  repeat split; [apply mmul_assoc|apply mmul_add_l|apply mmul_add_r|apply mmul_1_l|apply mmul_1_r
  |apply mmulv_mmulv|apply mtranspose_mul].
Qed.

Lemma c89_determinant_quaternion_laws :
  forall (signed : bool) (w : positive) (b b' : mat (wint signed w) 2 2) (c c' : mat (wint signed w) 3 3)
    (d d' : mat (wint signed w) 4 4) (p q r : quat (wint signed w)),
    m2det (mmul b b') = nmul (m2det b) (m2det b') /\ m3det (mmul c c') = nmul (m3det c) (m3det c') /\
    m4det (mmul d d') = nmul (m4det d) (m4det d') /\
    qmul p (qmul q r) = qmul (qmul p q) r /\ qmul (qadd p q) r = qadd (qmul p r) (qmul q r) /\
    qmul p (qadd q r) = qadd (qmul p q) (qmul p r) /\
    qnorm_squared (qmul p q) = nmul (qnorm_squared p) (qnorm_squared q).
Proof.
  intros s w b b' c c' d d' p q r. pose proof (ring_wint s w) as LK.
  repeat split; [apply m2det_mul|apply m3det_mul|apply m4det_mul|apply qmul_assoc|apply qmul_add_l
  |apply qmul_add_r|apply qnorm_squared_mul].
Qed.

Lemma c89_reduction :
  forall (signed : bool) (w : positive) (r n c : nat) (u v : vec Z n) (a : mat Z r n) (b : mat Z n c)
    (m2 : mat Z 2 2) (m3 : mat Z 3 3) (m4 : mat Z 4 4) (p q : quat Z) (s : Z),
    let h := wof signed w in
    vadd (vector_map h u) (vector_map h v) = vector_map h (vadd u v) /\
    vmul_s (vector_map h u) (h s) = vector_map h (vmul_s u s) /\
    vdot (vector_map h u) (vector_map h v) = h (vdot u v) /\
    mmulv (mmap n0 n0 h a) (vector_map h u) = vector_map h (mmulv a u) /\
    mmul (mmap n0 n0 h a) (mmap n0 n0 h b) = mmap n0 n0 h (mmul a b) /\
    m2det (mmap n0 n0 h m2) = h (m2det m2) /\ m3det (mmap n0 n0 h m3) = h (m3det m3) /\
    m4det (mmap n0 n0 h m4) = h (m4det m4) /\
    qmul (vector_map h p : quat (wint signed w)) (vector_map h q) = vector_map h (qmul p q).
Proof.
  intros sg w r n c u v a b m2 m3 m4 p q s h.
  assert (h0 : h (n0 : Z) = n0) by reflexivity.
  pose proof (wof_add sg w : forall x y : Z, h (nadd x y) = nadd (h x) (h y)) as Ha.
  pose proof (wof_sub sg w : forall x y : Z, h (nsub x y) = nsub (h x) (h y)) as Hs.
  pose proof (wof_mul sg w : forall x y : Z, h (nmul x y) = nmul (h x) (h y)) as Hm.
  pose proof (wof_neg sg w : forall x : Z, h (nneg x) = nneg (h x)) as Hn.
  repeat split; symmetry; [apply hom_vadd|apply hom_vmul_s|apply hom_vdot|apply hom_mmulv|apply hom_mmul
  |apply hom_det2|apply hom_det3|apply hom_det4|apply hom_qmul]; assumption.
Qed.

Lemma c89_exact_when_it_fits :
  forall (signed : bool) (w : positive) (r n c : nat) (a : mat (wint signed w) r n)
    (b : mat (wint signed w) n c) (u v : vec (wint signed w) n) (m4 : mat (wint signed w) 4 4) (i j : nat),
    (j < c)%nat -> (i < r)%nat ->
    let zm {r c} (m : mat (wint signed w) r c) : mat Z r c := mmap n0 n0 wval m in
    let zv {n} (x : vec (wint signed w) n) : vec Z n := vector_map wval x in
    (wfits signed w (mget (mmul (zm a) (zm b)) j i) ->
       wval (mget (mmul a b) j i) = mget (mmul (zm a) (zm b)) j i) /\
    (wfits signed w (vdot (zv u) (zv v)) -> wval (vdot u v) = vdot (zv u) (zv v)) /\
    (wfits signed w (m4det (zm m4)) -> wval (m4det m4) = m4det (zm m4)).
Proof.
  intros sg w r n c a b u v m4 i j Hj Hi zm zv. set (h := wof sg w).
  assert (Mb : forall r c (m : mat (wint sg w) r c), mmap n0 n0 h (zm _ _ m) = m).
  { intros r' c' m. apply mat_ext. intros j' i' Hj' Hi'. unfold mget.
    rewrite mget_d_mmap by assumption. unfold zm. rewrite mget_d_mmap by assumption. apply wof_wval. }
  assert (Vb : forall n (x : vec (wint sg w) n), vector_map h (zv _ x) = x).
  { intros n' x. apply vat_ext. intros k Hk. rewrite hom_vat by assumption. unfold zv.
    rewrite (hom_vat wval) by assumption. apply wof_wval. }
  destruct (c89_reduction sg w r n c (zv _ u) (zv _ v) (zm _ _ a) (zm _ _ b) (mzero 2 2) (mzero 3 3) (zm _ _ m4)
    (qzero : quat Z) qzero 0%Z) as (_ & _ & D & _ & M & _ & _ & T & _).
  fold h in D, M, T. rewrite !Vb in D. rewrite !Mb in M. rewrite !Mb in T.
  split; [|split].
  - intros F. rewrite M. rewrite hom_mget by assumption. cbn [wval wof h]. apply wwrap_fits. exact F.
  - intros F. rewrite D. apply wwrap_fits. exact F.
  - intros F. rewrite T. apply wwrap_fits. exact F.
Qed.

Lemma c89_example :
  wval (nadd (wof true 8 100) (wof true 8 100)) = (-56)%Z /\
  wval (nsub (nadd (wof true 8 100) (wof true 8 100)) (wof true 8 120)) = 80%Z /\
  wval (vdot (v2 (wof true 8 100) (wof true 8 (-20))) (v2 (wof true 8 2) (wof true 8 5))) = 100%Z /\
  wval (nsub (wof false 8 0) (wof false 8 1)) = 255%Z.
Proof.
  repeat split.
Qed.
