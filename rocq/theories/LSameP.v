(** The theorems about affine matrices in floats (C154). *)

From Coq Require Import List Arith ZArith Bool Lia Reals Lra.
From Flocq Require Import Core.Core IEEE754.BinarySingleNaN.
From Verif Require Import Base Scalar Spec SpecArc SpecLibm MVector MMatrix MPoint MTransform MProjection MFloat
  LBase LFloat LComplexFP LVector LMatrix LTransform LSame.
Local Open Scope R_scope.

Section F.
Context {prec emax : Z} {Hp : Prec_gt_0 prec} {He : Prec_lt_emax prec emax}.
Notation fl := (binary_float prec emax).

Lemma delta_zero j i : j <> i -> is_zero (delta j i : fl).
Proof. intros D. unfold delta. destruct (Nat.eqb_spec j i); [contradiction|apply zero_0]. Qed.
Lemma delta_one j : (delta j j : fl) = n1.
Proof. unfold delta. rewrite Nat.eqb_refl. reflexivity. Qed.

Lemma iso_mget n (f : isometry fl n) k i : (k <= n)%nat -> (i <= n)%nat ->
  mget (iso_to_affine_matrix f) k i = if Nat.ltb i n then (if Nat.ltb k n then mget (iso_rotation f) k i else vat (iso_translation f) i) else delta k i.
Proof.
  intros Hk Hi. unfold iso_to_affine_matrix. rewrite mget_last_column by lia. rewrite mget_membed by lia.
  destruct (Nat.eqb_spec k n), (Nat.ltb_spec i n), (Nat.ltb_spec k n); try lia; cbn [andb]; reflexivity.
Qed.
Lemma tr_mget n (t : translation fl n) k i : (k <= n)%nat -> (i <= n)%nat ->
  mget (tr_to_affine_matrix t) k i = if (Nat.eqb k n && Nat.ltb i n)%bool then vat t i else delta k i.
Proof. intros Hk Hi. unfold tr_to_affine_matrix. rewrite mget_last_column by lia. rewrite mget_midentity by lia. reflexivity. Qed.
End F.

Theorem c154_isometry :
  forall (prec emax : Z) (Hp : Prec_gt_0 prec) (He : Prec_lt_emax prec emax) (n : nat) (f : isometry (binary_float prec emax) n),
  (forall p : point (binary_float prec emax) n, all_finite (p : vec _ n) -> tf_apply_point (iso_to_transform f) p = Some (iso_apply_point f p)) /\
  (forall (v : vec (binary_float prec emax) n) (i : nat), (i < n)%nat -> is_finite (vat (iso_translation f) i) = true ->
    feqv (vat (tf_apply_vector (iso_to_transform f) v) i) (vat (iso_apply_vector f v) i)).
Proof.
  intros prec emax Hp He n f. split.
  - intros p F. destruct (affine_point n (iso_to_transform f) p) as (q & Q & V); [| |exact F|].
    + intros k Hk. unfold iso_to_transform, tf_from_matrix. rewrite iso_mget by lia. rewrite Nat.ltb_irrefl. apply delta_zero. lia.
    + unfold iso_to_transform, tf_from_matrix. rewrite iso_mget by lia. rewrite Nat.ltb_irrefl. apply delta_one.
    + rewrite Q. f_equal. apply (vec_ext n0 n). intros i Hi. etransitivity; [exact (V i Hi)|]. unfold iso_apply_point, tr_apply_point, rot_apply_point, padd, pfrom_vector, pto_vector.
      change (vget n0 (vadd (mmulv (iso_rotation f) p) (iso_translation f)) i) with (vat (vadd (mmulv (iso_rotation f) p) (iso_translation f)) i).
      rewrite vat_vadd by exact Hi. rewrite vat_mmulv by exact Hi. unfold iso_to_transform, tf_from_matrix. f_equal.
      * apply sum_ext. intros k Hk. rewrite iso_mget by lia. destruct (Nat.ltb_spec i n), (Nat.ltb_spec k n); try lia. reflexivity.
      * rewrite iso_mget by lia. destruct (Nat.ltb_spec i n), (Nat.ltb_spec n n); try lia. reflexivity.
  - intros v i Hi F. eapply same_trans; [apply affine_vector; [exact Hi|]|].
    + unfold iso_to_transform, tf_from_matrix. rewrite iso_mget by lia. destruct (Nat.ltb_spec i n), (Nat.ltb_spec n n); try lia. exact F.
    + left. unfold iso_apply_vector, rot_apply_vector. rewrite vat_mmulv by exact Hi. apply sum_ext. intros k Hk. unfold iso_to_transform, tf_from_matrix. rewrite iso_mget by lia.
      destruct (Nat.ltb_spec i n), (Nat.ltb_spec k n); try lia. reflexivity.
Qed.

Theorem c154_rotation :
  forall (prec emax : Z) (Hp : Prec_gt_0 prec) (He : Prec_lt_emax prec emax) (n : nat) (r : rotation (binary_float prec emax) n),
  (forall p : point (binary_float prec emax) n, all_finite (p : vec _ n) -> exists q, tf_apply_point (rot_to_transform r) p = Some q /\
    forall i, (i < n)%nat -> feqv (vat q i) (vat (rot_apply_point r p) i)) /\
  (forall (v : vec (binary_float prec emax) n) (i : nat), (i < n)%nat -> feqv (vat (tf_apply_vector (rot_to_transform r) v) i) (vat (rot_apply_vector r v) i)).
Proof.
  intros prec emax Hp He n r.
  assert (M : forall k i, (k <= n)%nat -> (i <= n)%nat -> mget (rot_to_transform r) k i = if (Nat.ltb k n && Nat.ltb i n)%bool then mget r k i else delta k i) by (intros k i Hk Hi; apply mget_membed; lia). split.
  - intros p F. destruct (affine_point n (rot_to_transform r) p) as (q & Q & V); [| |exact F|].
    + intros k Hk. rewrite M, Nat.ltb_irrefl, andb_false_r by lia. apply delta_zero. lia.
    + rewrite M, Nat.ltb_irrefl by lia. apply delta_one.
    + exists q. split; [exact Q|]. intros i Hi. rewrite V by exact Hi. eapply same_trans; [apply add_zero_r; rewrite M, Nat.ltb_irrefl by lia; apply delta_zero; lia|].
      left. unfold rot_apply_point, pfrom_vector, pto_vector. rewrite vat_mmulv by exact Hi. apply sum_ext. intros k Hk. rewrite M by lia. destruct (Nat.ltb_spec i n), (Nat.ltb_spec k n); try lia. reflexivity.
  - intros v i Hi. eapply same_trans; [apply affine_vector; [exact Hi|]|].
    + rewrite M, Nat.ltb_irrefl by lia. destruct (delta_zero (prec := prec) (emax := emax) n i ltac:(lia)) as (s & E). cbn [andb]. rewrite E. reflexivity.
    + left. unfold rot_apply_vector. rewrite vat_mmulv by exact Hi. apply sum_ext. intros k Hk. rewrite M by lia. destruct (Nat.ltb_spec i n), (Nat.ltb_spec k n); try lia. reflexivity.
Qed.

Theorem c154_translation :
  forall (prec emax : Z) (Hp : Prec_gt_0 prec) (He : Prec_lt_emax prec emax) (n : nat) (t : translation (binary_float prec emax) n),
  (forall p : point (binary_float prec emax) n, all_finite (p : vec _ n) -> exists q, tf_apply_point (tr_to_transform t) p = Some q /\
    forall i, (i < n)%nat -> feqv (vat q i) (vat (tr_apply_point t p) i)) /\
  (forall v : vec (binary_float prec emax) n, all_finite v -> all_finite (t : vec _ n) -> forall i, (i < n)%nat -> feqv (vat (tf_apply_vector (tr_to_transform t) v) i) (vat v i)).
Proof.
  intros prec emax Hp He n t.
  assert (M : forall k i, (k <= n)%nat -> (i <= n)%nat -> mget (tr_to_transform t) k i = if (Nat.eqb k n && Nat.ltb i n)%bool then vat t i else delta k i) by (intros k i Hk Hi; apply tr_mget; lia).
  assert (R : forall v : vec (binary_float prec emax) n, all_finite v -> forall i, (i < n)%nat -> feqv (sum n (fun k => nmul (mget (tr_to_transform t) k i) (vat v k))) (vat v i)).
  { intros v F i Hi. destruct (sum_one n (fun k => nmul (mget (tr_to_transform t) k i) (vat v k)) i) as (A & _).
    - intros k Hk D. rewrite M by lia. destruct (Nat.eqb_spec k n); [lia|]. cbn [andb]. apply mul_zero_l; [apply delta_zero, D|apply F, Hk].
    - eapply same_trans; [apply A, Hi|]. left. rewrite M by lia. destruct (Nat.eqb_spec i n); [lia|]. cbn [andb]. rewrite delta_one. apply mul_1_l. }
  split.
  - intros p F. destruct (affine_point n (tr_to_transform t) p) as (q & Q & V); [| |exact F|].
    + intros k Hk. rewrite M, Nat.ltb_irrefl, andb_false_r by lia. apply delta_zero. lia.
    + rewrite M, Nat.ltb_irrefl, andb_false_r by lia. apply delta_one.
    + exists q. split; [exact Q|]. intros i Hi. rewrite V by exact Hi. eapply same_trans; [apply add_same_l, (R p F i Hi)|]. left. unfold tr_apply_point, padd. rewrite vat_vadd by exact Hi. f_equal.
      rewrite M, Nat.eqb_refl by lia. destruct (Nat.ltb_spec i n); [reflexivity|lia].
  - intros v F Ft i Hi. eapply same_trans; [apply affine_vector; [exact Hi|]|apply (R v F i Hi)].
    rewrite M, Nat.eqb_refl by lia. destruct (Nat.ltb_spec i n); [apply Ft, Hi|lia].
Qed.

Theorem c154_scale :
  forall (prec emax : Z) (Hp : Prec_gt_0 prec) (He : Prec_lt_emax prec emax) (n : nat) (s : scale (binary_float prec emax) n),
  (forall p : point (binary_float prec emax) n, all_finite (p : vec _ n) -> exists q, tf_apply_point (sc_to_transform s) p = Some q /\
    forall i, (i < n)%nat -> feqv (vat q i) (vat (sc_apply_point s p) i)) /\
  (forall v : vec (binary_float prec emax) n, all_finite v -> forall i, (i < n)%nat -> feqv (vat (tf_apply_vector (sc_to_transform s) v) i) (vat (sc_apply_vector s v) i)).
Proof.
  intros prec emax Hp He n s.
  assert (M : forall k i, (k <= n)%nat -> (i <= n)%nat -> mget (sc_to_transform s) k i = if Nat.eqb k i then (if Nat.ltb k n then vat s k else n1) else n0) by (intros k i Hk Hi; apply mget_mfrom_affine_nonuniform_scale; lia).
  assert (R : forall v : vec (binary_float prec emax) n, all_finite v -> forall i, (i < n)%nat -> feqv (sum n (fun k => nmul (mget (sc_to_transform s) k i) (vat v k))) (nmul (vat s i) (vat v i))).
  { intros v F i Hi. destruct (sum_one n (fun k => nmul (mget (sc_to_transform s) k i) (vat v k)) i) as (A & _).
    - intros k Hk D. rewrite M by lia. destruct (Nat.eqb_spec k i); [lia|]. apply mul_zero_l; [apply zero_0|apply F, Hk].
    - eapply same_trans; [apply A, Hi|]. left. rewrite M by lia. rewrite Nat.eqb_refl. destruct (Nat.ltb_spec i n); [reflexivity|lia]. }
  split.
  - intros p F. destruct (affine_point n (sc_to_transform s) p) as (q & Q & V); [| |exact F|].
    + intros k Hk. rewrite M by lia. destruct (Nat.eqb_spec k n); [lia|apply zero_0].
    + rewrite M, Nat.eqb_refl, Nat.ltb_irrefl by lia. reflexivity.
    + exists q. split; [exact Q|]. intros i Hi. rewrite V by exact Hi. eapply same_trans; [apply add_zero_r; rewrite M by lia; destruct (Nat.eqb_spec n i); [lia|apply zero_0]|].
      eapply same_trans; [apply (R p F i Hi)|]. left. symmetry. exact (vget_loop_fill n0 n (fun i => nmul (vat s i) (vat p i)) _ i Hi).
  - intros v F i Hi. eapply same_trans; [apply affine_vector; [exact Hi|]|].
    + rewrite M by lia. destruct (Nat.eqb_spec n i); [lia|reflexivity].
    + eapply same_trans; [apply (R v F i Hi)|]. left. symmetry. exact (vget_loop_fill n0 n (fun i => nmul (vat s i) (vat v i)) _ i Hi).
Qed.

Theorem c154_orthographic :
  forall (prec emax : Z) (Hp : Prec_gt_0 prec) (He : Prec_lt_emax prec emax) (left right bottom top near far : binary_float prec emax) (p : point (binary_float prec emax) 3),
  let m := m4from_orthographic left right bottom top near far in all_finite (p : vec _ 3) ->
  exists q, tf_apply_point (ortho_to_transform m) p = Some q /\ forall i, (i < 3)%nat -> feqv (vat q i) (vat (ortho_project_point m p) i).
Proof.
  intros prec emax Hp He left right bottom top near far p m F. destruct (affine_point 3 (ortho_to_transform m) p) as (q & Q & V); [| |exact F|].
  - intros k Hk. destruct k as [|[|[|k]]]; [apply zero_0..|lia].
  - reflexivity.
  - exists q. split; [exact Q|]. intros i Hi. rewrite V by exact Hi.
    assert (R : feqv (sum 3 (fun k => nmul (mget (ortho_to_transform m) k i) (vat p k))) (nmul (mget m i i) (vat p i))).
    { destruct (sum_one 3 (fun k => nmul (mget (ortho_to_transform m) k i) (vat p k)) i) as (A & _).
      - intros k Hk D. apply mul_zero_l; [|apply F, Hk]. destruct k as [|[|[|k]]], i as [|[|[|i]]]; try lia; apply zero_0.
      - exact (A Hi). }
    eapply same_trans; [apply add_same_l, R|]. left. destruct i as [|[|[|i]]]; try lia; reflexivity.
Qed.

Theorem c154_cross_matrix :
  forall (prec emax : Z) (Hp : Prec_gt_0 prec) (He : Prec_lt_emax prec emax) (v w : vec (binary_float prec emax) 3) (i : nat),
  all_finite w -> (i < 3)%nat -> feqv (vat (mmulv (m3cross_matrix v) w) i) (vat (vcross v w) i).
Proof.
  intros prec emax Hp He v w i F Hi. rewrite vat_mmulv by exact Hi.
  assert (Z : forall k, (k < 3)%nat -> is_zero (nmul n0 (vat w k))) by (intros k Hk; apply mul_zero_l; [apply zero_0|apply F, Hk]).
  assert (N : forall x y : binary_float prec emax, nmul (nneg x) y = nneg (nmul x y)) by (intros; apply fmul_neg_l).
  destruct i as [|[|[|i]]]; [| | |lia].
  - change (feqv (nadd (nadd (nadd n0 (nmul n0 (vat w 0))) (nmul (nneg (vat v 2)) (vat w 1))) (nmul (vat v 1) (vat w 2))) (nsub (nmul (vat v 1) (vat w 2)) (nmul (vat v 2) (vat w 1)))).
    rewrite fsub_add_neg, <- N, (fadd_comm (nmul (vat v 1) (vat w 2))). apply add_same_l. eapply same_trans; [apply add_same_l, add_zero_r, Z; lia|]. apply add_zero_l, zero_0.
  - change (feqv (nadd (nadd (nadd n0 (nmul (vat v 2) (vat w 0))) (nmul n0 (vat w 1))) (nmul (nneg (vat v 0)) (vat w 2))) (nsub (nmul (vat v 2) (vat w 0)) (nmul (vat v 0) (vat w 2)))).
    rewrite fsub_add_neg, <- N. apply add_same_l. eapply same_trans; [apply add_zero_r, Z; lia|]. apply add_zero_l, zero_0.
  - change (feqv (nadd (nadd (nadd n0 (nmul (nneg (vat v 1)) (vat w 0))) (nmul (vat v 0) (vat w 1))) (nmul n0 (vat w 2))) (nsub (nmul (vat v 0) (vat w 1)) (nmul (vat v 1) (vat w 0)))).
    rewrite fsub_add_neg, <- N, (fadd_comm (nmul (vat v 0) (vat w 1))). eapply same_trans; [apply add_zero_r, Z; lia|]. apply add_same_l. apply add_zero_l, zero_0.
Qed.

Theorem c154_similarity_differs :
  exists (f : similarity f64 2) (p : point f64 2), all_finite (p : vec f64 2) /\ exists q, tf_apply_point (sim_to_transform f) p = Some q /\ Beqb (vat q 0) (vat (sim_apply_point f p) 0) = false.
Proof.
  pose (c := ndiv (f64_of_Z 3) (f64_of_Z 5)). pose (s := ndiv (f64_of_Z 4) (f64_of_Z 5)).
  exists (mkSimilarity (mkIsometry (v2 n0 n0 : vec f64 2) (m2new c s (nneg s) c : mat f64 2 2)) (f64_of_Z 3)), (v2 (f64_of_Z 7) n0 : vec f64 2).
  split; [intros i Hi; destruct i as [|[|i]]; first [lia|vm_compute; reflexivity]|]. 
  match goal with |- exists q, tf_apply_point ?g ?p = Some q /\ Beqb (vat q 0) ?y = false =>
    assert (E : (match tf_apply_point g p with Some q => negb (Beqb (vat q 0) y) | None => false end) = true) by (vm_compute; reflexivity); destruct (tf_apply_point g p) as [q|]; [|discriminate E] end.
  exists q. split; [reflexivity|]. apply negb_true_iff. exact E.
Qed.

Theorem c154_example :
  let c : f64 := ndiv (f64_of_Z 3) (f64_of_Z 5) in let s : f64 := ndiv (f64_of_Z 4) (f64_of_Z 5) in
  let f := mkIsometry (v2 (f64_of_Z 10) (f64_of_Z (-7)) : vec f64 2) (m2new c s (nneg s) c : mat f64 2 2) in let p := (v2 (f64_of_Z 7) (f64_of_Z 3)) : vec f64 2 in
  all_finite p /\ tf_apply_point (iso_to_transform f) p = Some (iso_apply_point f p) /\ is_finite (vat (iso_apply_point f p) 0) = true /\ Beqb (vat (iso_apply_point f p) 0) (vat p 0) = false.
Proof.
  intros c s f p. assert (F : all_finite p) by (intros i Hi; destruct i as [|[|i]]; first [lia|vm_compute; reflexivity]).
  split; [exact F|]. split; [apply c154_isometry; exact F|]. split; vm_compute; reflexivity.
Qed.
