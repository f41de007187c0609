(** Miscellaneous matrix lemmas used by the property theorems. *)

From Coq Require Import List Arith Lia Bool Ring Reals Lra Setoid.
From Verif Require Import Base Scalar Spec LBase MVector LVector LVectorR MMatrix LMatrix
  LMatrixDet LMatrixR.
Import ListNotations.
Local Open Scope nat_scope.

Section Raw.
Context {A : Type}.

Lemma mswap_columns_some (d : A) r c (m : mat A r c) a b :
  a < c -> b < c -> exists m', mswap_columns m a b = Some m' /\
  forall j i, j < c -> i < r -> mget_d d m' j i = mget_d d m (transp a b j) i.
Proof.
  intros Ha Hb. destruct (vswap_some (vfill r d) c m a b Ha Hb) as [w [E H]].
  exists w. split; [exact E|]. intros j i Hj Hi. unfold mget_d. rewrite H by auto. reflexivity.
Qed.
Lemma mswap_columns_none r c (m : mat A r c) a b : c <= a \/ c <= b -> mswap_columns m a b = None.
Proof.
  intros H. unfold mswap_columns, vswap.
  destruct H as [H|H]; rewrite (vindex_none c m _ H); destruct (vindex m a); reflexivity.
Qed.

Lemma mswap_columns_invol (d : A) r c (m m' : mat A r c) a b :
  mswap_columns m a b = Some m' -> mswap_columns m' a b = Some m.
Proof.
  intros H.
  destruct (Nat.lt_ge_cases a c) as [Ha|Ha];
    [|rewrite mswap_columns_none in H by auto; discriminate].
  destruct (Nat.lt_ge_cases b c) as [Hb|Hb];
    [|rewrite mswap_columns_none in H by auto; discriminate].
  destruct (mswap_columns_some d r c m a b Ha Hb) as [w [E HW]].
  rewrite E in H; injection H as <-.
  destruct (mswap_columns_some d r c w a b Ha Hb) as [x [E' HX]].
  rewrite E'. f_equal. apply (mat_d_ext d). intros j i Hj Hi.
  rewrite HX, HW by (auto; apply transp_lt; auto). rewrite transp_invol. reflexivity.
Qed.

Lemma mswap_rows_invol (d : A) r c (m m' : mat A r c) a b :
  a < r -> b < r -> mswap_rows d m a b = Some m' -> mswap_rows d m' a b = Some m.
Proof.
  intros Ha Hb H.
  destruct (mswap_rows_some d r c m a b Ha Hb) as [w [E HW]].
  rewrite E in H; injection H as <-.
  destruct (mswap_rows_some d r c w a b Ha Hb) as [x [E' HX]].
  rewrite E'. f_equal. apply (mat_d_ext d). intros j i Hj Hi.
  rewrite HX, HW by (auto; apply transp_lt; auto). rewrite transp_invol. reflexivity.
Qed.

Lemma mswap_invol (d : A) r c (m m' : mat A r c) a b :
  mswap d m a b = Some m' -> mswap d m' a b = Some m.
Proof.
  destruct a as [ja ia], b as [jb ib]. intros H.
  destruct (Nat.lt_ge_cases ja c) as [H1|H1];
    [|rewrite mswap_none in H by auto; discriminate].
  destruct (Nat.lt_ge_cases ia r) as [H2|H2];
    [|rewrite mswap_none in H by auto; discriminate].
  destruct (Nat.lt_ge_cases jb c) as [H3|H3];
    [|rewrite mswap_none in H by auto; discriminate].
  destruct (Nat.lt_ge_cases ib r) as [H4|H4];
    [|rewrite mswap_none in H by auto; discriminate].
  destruct (mswap_some d r c m ja ia jb ib H1 H2 H3 H4) as [w [E HW]].
  rewrite E in H; injection H as <-.
  destruct (mswap_some d r c w ja ia jb ib H1 H2 H3 H4) as [x [E' HX]].
  rewrite E'. f_equal. apply (mat_d_ext d). intros j i Hj Hi.
  rewrite HX, !HW by auto.
  repeat match goal with |- context [Nat.eqb ?x ?y] => destruct (Nat.eqb_spec x y); subst end;
    cbn [andb]; try reflexivity; try lia.
Qed.
End Raw.

Section Field.
Context {K : Type} {NK : Num K} {DK : NumDiv K} {FK : FieldLaws K}.
Local Open Scope num_scope.
#[local] Instance rl_of_fieldM : RingLaws K := field_ring.
Add Ring KringM : (@ring_laws K NK rl_of_fieldM).

Lemma mis_zero_iff r c (m : mat K r c) :
  mis_zero m = true <-> forall j i, (j < c)%nat -> (i < r)%nat -> mget m j i = 0.
Proof.
  unfold mis_zero. rewrite (for_range2_andb r c (fun j i => nis0 (mget m j i))).
  split; [intros [_ H] j i Hj Hi; apply nis0_true, H; auto|].
  intros H. split; auto. intros j i Hj Hi. rewrite H by auto. apply nis0_0.
Qed.

Lemma mis_identity_iff (is_one : K -> bool) n (m : mat K n n) :
  (forall x, is_one x = true <-> x = 1) ->
  mis_identity is_one m = true <-> m = midentity n.
Proof.
  intros H1. unfold mis_identity. cbv zeta.
  set (t := for_range n _ true).
  assert (G : forall k b, for_range k (fun i acc => acc && is_one (mget m i i))%bool b = true <->
      b = true /\ forall i, (i < k)%nat -> mget m i i = 1).
  { induction k as [|k IH]; intros b; [cbn; intuition lia|].
    rewrite for_range_S, andb_true_iff, IH, H1. split.
    - intros [[Hb Hk] Hm]. split; auto. intros i Hi.
      destruct (Nat.eq_dec i k) as [->|]; [exact Hm|apply Hk; lia].
    - intros [Hb Hk]. conjs; auto. }
  rewrite G. unfold t.
  rewrite (for_range_tri_andb n (fun i j => nis0 (mget m i j) && nis0 (mget m j i))%bool).
  split.
  - intros [[_ Ho] Hd]. mext. unfold delta. destruct (Nat.eqb_spec j i) as [->|Hne]; auto.
    destruct (Nat.lt_ge_cases j i) as [Hlt|Hge].
    + specialize (Ho i j Hi Hlt). apply andb_true_iff in Ho. apply nis0_true, Ho.
    + assert (Hlt : (i < j)%nat) by lia.
      specialize (Ho j i Hj Hlt). apply andb_true_iff in Ho. apply nis0_true, Ho.
  - intros ->. split; [split; auto|].
    + intros i j Hi Hj. rewrite !mget_midentity by lia. unfold delta.
      destruct (Nat.eqb_spec i j); [lia|]. destruct (Nat.eqb_spec j i); [lia|].
      rewrite nis0_0. reflexivity.
    + intros i Hi. rewrite mget_midentity by auto. unfold delta. rewrite Nat.eqb_refl. reflexivity.
Qed.

(** Inverse of a product, inverse characterisations. *)
Ltac inv_product none some mul a b a' b' Ha Hb :=
  destruct (some a a' Ha) as [A1 A2]; destruct (some b b' Hb) as [B1 B2];
  match goal with |- ?inv (mmul a b) = _ =>
    let w := fresh "w" in let E := fresh "E" in
    destruct (inv (mmul a b)) as [w|] eqn:E;
    [ f_equal; apply some in E; destruct E as [E1 E2];
      apply (inverse_unique _ (mmul a b)); [exact E2|];
      rewrite <- mmul_assoc, (mmul_assoc _ _ _ _ a b b'), B1, mmul_1_r; exact A1
    | exfalso; apply none in E; rewrite mul in E; apply field_integral in E;
      destruct E as [E|E]; apply none in E; congruence ]
  end.

Lemma m1inverse_mul (a b a' b' : mat K 1 1) :
  m1try_inverse a = Some a' -> m1try_inverse b = Some b' ->
  m1try_inverse (mmul a b) = Some (mmul b' a').
Proof. intros Ha Hb. inv_product m1try_inverse_none m1try_inverse_some m1det_mul a b a' b' Ha Hb. Qed.
Lemma m2inverse_mul (a b a' b' : mat K 2 2) :
  m2try_inverse a = Some a' -> m2try_inverse b = Some b' ->
  m2try_inverse (mmul a b) = Some (mmul b' a').
Proof. intros Ha Hb. inv_product m2try_inverse_none m2try_inverse_some m2det_mul a b a' b' Ha Hb. Qed.
Lemma m3inverse_mul (a b a' b' : mat K 3 3) :
  m3try_inverse a = Some a' -> m3try_inverse b = Some b' ->
  m3try_inverse (mmul a b) = Some (mmul b' a').
Proof. intros Ha Hb. inv_product m3try_inverse_none m3try_inverse_some m3det_mul a b a' b' Ha Hb. Qed.
Lemma m4inverse_mul (a b a' b' : mat K 4 4) :
  m4try_inverse a = Some a' -> m4try_inverse b = Some b' ->
  m4try_inverse (mmul a b) = Some (mmul b' a').
Proof. intros Ha Hb. inv_product m4try_inverse_none m4try_inverse_some m4det_mul a b a' b' Ha Hb. Qed.

(** Any one-sided inverse is the one [try_inverse] returns. *)
Ltac inv_complete none some mul ident m b :=
  let H := fresh in intros H;
  match goal with |- ?inv m = _ =>
    let w := fresh "w" in let E := fresh "E" in
    destruct (inv m) as [w|] eqn:E;
    [ f_equal; apply some in E; destruct E as [E1 E2]; first
        [ apply (inverse_unique _ m w b); [exact E2|exact H]
        | symmetry; apply (inverse_unique _ m b w); [exact H|exact E1] ]
    | exfalso; apply none in E; apply (f_equal ident) in H; rewrite mul, E in H ]
  end.
Lemma m1inverse_complete (m b : mat K 1 1) : mmul m b = midentity 1 -> m1try_inverse m = Some b.
Proof.
  inv_complete m1try_inverse_none m1try_inverse_some m1det_mul m1det m b.
  rewrite m1det_identity in H. apply field_one_neq_zero. rewrite <- H. ring.
Qed.
Lemma m2inverse_complete (m b : mat K 2 2) : mmul m b = midentity 2 -> m2try_inverse m = Some b.
Proof.
  inv_complete m2try_inverse_none m2try_inverse_some m2det_mul m2det m b.
  rewrite m2det_identity in H. apply field_one_neq_zero. rewrite <- H. ring.
Qed.
Lemma m3inverse_complete (m b : mat K 3 3) : mmul m b = midentity 3 -> m3try_inverse m = Some b.
Proof.
  inv_complete m3try_inverse_none m3try_inverse_some m3det_mul m3det m b.
  rewrite m3det_identity in H. apply field_one_neq_zero. rewrite <- H. ring.
Qed.
Lemma m4inverse_complete (m b : mat K 4 4) : mmul m b = midentity 4 -> m4try_inverse m = Some b.
Proof.
  inv_complete m4try_inverse_none m4try_inverse_some m4det_mul m4det m b.
  rewrite m4det_identity in H. apply field_one_neq_zero. rewrite <- H. ring.
Qed.
End Field.

Section Ring.
Context {K : Type} {NK : Num K} {LK : RingLaws K}.
Local Open Scope num_scope.
Add Ring KringMR : (@ring_laws K NK LK).

Lemma scale_inverse n (s t : vec K n) :
  (forall i, (i < n)%nat -> vat s i * vat t i = 1) ->
  mmul (mfrom_nonuniform_scale s) (mfrom_nonuniform_scale t) = midentity n /\
  mmul (mfrom_affine_nonuniform_scale s) (mfrom_affine_nonuniform_scale t) = midentity (S n).
Proof.
  intros H.
  assert (E : vcmul s t = vfrom_fill n 1).
  { vext. apply H; auto. }
  rewrite mfrom_nonuniform_scale_mul, mfrom_affine_nonuniform_scale_mul, E.
  split; [apply mfrom_nonuniform_scale_1|apply mfrom_affine_nonuniform_scale_1].
Qed.

Lemma translation_inverse n (t : vec K n) :
  mmul (mfrom_affine_translation t) (mfrom_affine_translation (vneg t)) = midentity (S n) /\
  mmul (mfrom_affine_translation (vneg t)) (mfrom_affine_translation t) = midentity (S n).
Proof.
  rewrite !mfrom_affine_translation_mul.
  assert (E1 : vadd t (vneg t) = vzero n) by (vext; ring).
  assert (E2 : vadd (vneg t) t = vzero n) by (vext; ring).
  rewrite E1, E2, mfrom_affine_translation_0. auto.
Qed.

Lemma mfrom_scale_mul n (s t : K) :
  mmul (mfrom_scale n s) (mfrom_scale n t) = mfrom_scale n (s * t) /\
  mmul (mfrom_affine_scale n s) (mfrom_affine_scale n t) = mfrom_affine_scale n (s * t).
Proof.
  assert (E : vcmul (vfrom_fill n s) (vfrom_fill n t) = vfrom_fill n (s * t))
    by (vext; reflexivity).
  rewrite !mfrom_scale_nonuniform, !mfrom_affine_scale_nonuniform,
    mfrom_nonuniform_scale_mul, mfrom_affine_nonuniform_scale_mul, E. auto.
Qed.
Lemma vadd_mul_0 n (u d : vec K n) : vadd u (vmul_s d 0) = u.
Proof. vext; ring. Qed.
Lemma vadd_mul_1 n (u d : vec K n) : vadd u (vmul_s d 1) = vadd u d.
Proof. vext; ring. Qed.
Lemma mmul_s_neg r c (m : mat K r c) : mmul_s m (- (1)) = mneg m.
Proof. mext. ring. Qed.
End Ring.

Lemma mlerp_between r c (a b : mat R r c) (t : R) j i :
  (0 <= t <= 1)%R -> j < c -> i < r ->
  (Rmin (mget a j i) (mget b j i) <= mget (mlerp a b t) j i
   <= Rmax (mget a j i) (mget b j i))%R.
Proof.
  intros Ht Hj Hi. rewrite mget_mlerp by auto. rnum.
  unfold Rmin, Rmax. destruct (Rle_dec (mget a j i) (mget b j i)); nra.
Qed.

Lemma mcmul_laws : forall (K : Type) (NK : Num K) (LK : RingLaws K) (r n : nat) (x y z : mat K r n),
    (forall j i, (j < n)%nat -> (i < r)%nat -> mget (mcmul x y) j i = nmul (mget x j i) (mget y j i)) /\
    mcmul x (madd y z) = madd (mcmul x y) (mcmul x z) /\ mcmul_assign x y = mcmul x y /\
    mdot x y = sum r (fun i => sum n (fun j => mget (mcmul x y) j i)).
Proof.
  intros K NK LK r n x y z. pose proof (@ring_laws K NK LK) as RT. conjs.
  - intros. apply mget_mcmul; assumption.
  - mext. rewrite (Ring_theory.Rmul_comm RT), (Ring_theory.Rdistr_l RT).
    rewrite (Ring_theory.Rmul_comm RT (mget y j i)), (Ring_theory.Rmul_comm RT (mget z j i)). reflexivity.
  - apply mcmul_assign_eq.
  - rewrite mdot_sum. apply sum_ext. intros i Hi. apply sum_ext. intros j Hj. rewrite mget_mcmul by assumption. reflexivity.
Qed.
