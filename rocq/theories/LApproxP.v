(** Approximate comparison: the proofs of the property theorems of PApprox.v. *)

From Coq Require Import List Arith ZArith Bool Lia Reals Lra.
From Flocq Require Import Core.Core IEEE754.BinarySingleNaN.
From Verif Require Import Base Scalar Spec LBase MVector LVector MMatrix LMatrix LMatrixDet LVectorR MComplex MQuat MTransform
  MFloat MApprox SpecApprox LApprox.
Import ListNotations.

Section Diag.
Context {K : Type} {NK : Num K} {ND : NumDiv K} {FK : FieldLaws K}.
#[local] Instance rl_of_fieldA : RingLaws K := field_ring.
Add Ring Kring93 : (@ring_laws K NK rl_of_fieldA).
Local Open Scope num_scope.
Definition mkdiag1 (x : K) : mat K 1 1 := ((x, tt), tt).
Definition mkdiag2 (x : K) : mat K 2 2 := m2new x 0 0 1.
Definition mkdiag3 (x : K) : mat K 3 3 := m3new x 0 0 0 1 0 0 0 1.
Definition mkdiag4 (x : K) : mat K 4 4 := m4new x 0 0 0 0 1 0 0 0 0 1 0 0 0 0 1.
Lemma mkdiag1_det x : m1det (mkdiag1 x) = x. Proof. unfold mkdiag1. mcompute. ring. Qed.
Lemma mkdiag2_det x : m2det (mkdiag2 x) = x. Proof. unfold mkdiag2. mcompute. ring. Qed.
Lemma mkdiag3_det x : m3det (mkdiag3 x) = x. Proof. unfold mkdiag3. mcompute. ring. Qed.
Lemma mkdiag4_det x : m4det (mkdiag4 x) = x. Proof. unfold mkdiag4. mcompute. ring. Qed.
End Diag.

Lemma c98_per_component_tolerances :
  forall (K T U : Type) (d : K) (dt : T) (du : U) (cmp : K -> K -> T -> U -> bool),
    let C := fun x y t w => cmp x y t w = true in
    (forall n (x y : vec K n) t w, vapprox d dt du cmp x y t w = true <->
       Forall4 C (vcomps x) (vcomps y) (vcomps t) (vcomps w)) /\
    (forall n (x y : vec K n) t w, papprox d dt du cmp x y t w = true <->
       Forall4 C (vcomps x) (vcomps y) (vcomps t) (vcomps w)) /\
    (forall (x y : quat K) t w, qapprox d dt du cmp x y t w = true <->
       Forall4 C (@vcomps K 4 x) (@vcomps K 4 y) (@vcomps T 4 t) (@vcomps U 4 w)) /\
    (forall r c (x y : mat K r c) t w, mapprox d dt du cmp x y t w = true <->
       Forall4 C (mcomps x) (mcomps y) (mcomps t) (mcomps w)) /\
    (forall (x y : complex K) t w, capprox cmp x y t w = true <->
       Forall4 C (ccomps x) (ccomps y) (ccomps t) (ccomps w)) /\
    (forall (x y : K * K * K) t w, euapprox cmp x y t w = true <->
       Forall4 C (eucomps x) (eucomps y) (eucomps t) (eucomps w)) /\
    (forall n (x y : reflection K n) t w, reapprox d dt du cmp x y t w = true <->
       Forall4 C (recomps x) (recomps y) (recomps t) (recomps w)) /\
    (forall n (x y : shear K n) t w, shapprox d dt du cmp x y t w = true <->
       Forall4 C (shcomps x) (shcomps y) (shcomps t) (shcomps w)) /\
    (forall n (x y : isometry K n) t w, isoapprox d dt du cmp x y t w = true <->
       Forall4 C (isocomps x) (isocomps y) (isocomps t) (isocomps w)) /\
    (forall n (x y : similarity K n) t w, simapprox d dt du cmp x y t w = true <->
       Forall4 C (simcomps x) (simcomps y) (simcomps t) (simcomps w)).
Proof.
  intros K T U d dt du cmp C. unfold C.
  exact (conj (vapprox_spec d dt du cmp) (conj (vapprox_spec d dt du cmp) (conj (vapprox_spec d dt du cmp 4)
    (conj (mapprox_spec d dt du cmp) (conj (capprox_spec cmp) (conj (euapprox_spec cmp)
    (conj (reapprox_spec d dt du cmp) (conj (shapprox_spec d dt du cmp) (conj (isoapprox_spec d dt du cmp)
      (simapprox_spec d dt du cmp)))))))))).
Qed.

Lemma c98_all_components :
  forall (K T U : Type) (d : K) (cmp : K -> K -> T -> U -> bool) (t : T) (w : U),
    let C := fun x y => cmp x y t w = true in
    (forall n (x y : vec K n), vapprox_all d cmp x y t w = true <-> Forall2 C (vcomps x) (vcomps y)) /\
    (forall n (x y : vec K n), papprox_all d cmp x y t w = true <-> Forall2 C (vcomps x) (vcomps y)) /\
    (forall (x y : quat K), qapprox_all d cmp x y t w = true <-> Forall2 C (@vcomps K 4 x) (@vcomps K 4 y)) /\
    (forall r c (x y : mat K r c), mapprox_all d cmp x y t w = true <-> Forall2 C (mcomps x) (mcomps y)) /\
    (forall (x y : complex K), capprox_all cmp x y t w = true <-> Forall2 C (ccomps x) (ccomps y)) /\
    (forall (x y : K * K * K), euapprox_all cmp x y t w = true <-> Forall2 C (eucomps x) (eucomps y)) /\
    (forall n (x y : reflection K n), reapprox_all d cmp x y t w = true <-> Forall2 C (recomps x) (recomps y)) /\
    (forall n (x y : shear K n), shapprox_all d cmp x y t w = true <-> Forall2 C (shcomps x) (shcomps y)) /\
    (forall n (x y : isometry K n), isoapprox_all d cmp x y t w = true <-> Forall2 C (isocomps x) (isocomps y)) /\
    (forall n (x y : similarity K n), simapprox_all d cmp x y t w = true <-> Forall2 C (simcomps x) (simcomps y)).
Proof.
  intros K T U d cmp t w C. unfold C.
  exact (conj (vapprox_all_spec d cmp t w) (conj (vapprox_all_spec d cmp t w) (conj (vapprox_all_spec d cmp t w 4)
    (conj (mapprox_all_spec d cmp t w) (conj (capprox_all_spec cmp t w) (conj (euapprox_all_spec cmp t w)
    (conj (reapprox_all_spec d cmp t w) (conj (shapprox_all_spec d cmp t w) (conj (isoapprox_all_spec d cmp t w)
      (simapprox_all_spec d cmp t w)))))))))).
Qed.

Lemma c98_detects_every_difference :
  forall (K T U : Type) (d : K) (cmp : K -> K -> T -> U -> bool) (t : T) (w : U),
    (forall a b, cmp a b t w = true -> a = b) ->
    (forall n (x y : vec K n), vapprox_all d cmp x y t w = true -> x = y) /\
    (forall r c (x y : mat K r c), mapprox_all d cmp x y t w = true -> x = y) /\
    (forall (x y : complex K), capprox_all cmp x y t w = true -> x = y) /\
    (forall (x y : K * K * K), euapprox_all cmp x y t w = true -> x = y) /\
    (forall n (x y : reflection K n), reapprox_all d cmp x y t w = true -> x = y) /\
    (forall n (x y : shear K n), shapprox_all d cmp x y t w = true -> x = y) /\
    (forall n (x y : isometry K n), isoapprox_all d cmp x y t w = true -> x = y) /\
    (forall n (x y : similarity K n), simapprox_all d cmp x y t w = true -> x = y).
Proof.
  intros K T U d cmp t w H.
  pose proof (@Forall2_eq_list K (fun a b => cmp a b t w = true) H) as E.
  conjs; intros.
  - apply vcomps_inj, E, (vapprox_all_spec d cmp t w). assumption.
  - apply mcomps_inj, E, (mapprox_all_spec d cmp t w). assumption.
  - apply ccomps_inj, E, (capprox_all_spec cmp t w). assumption.
  - apply eucomps_inj, E, (euapprox_all_spec cmp t w). assumption.
  - apply recomps_inj, E, (reapprox_all_spec d cmp t w). assumption.
  - apply shcomps_inj, E, (shapprox_all_spec d cmp t w). assumption.
  - apply isocomps_inj, E, (isoapprox_all_spec d cmp t w). assumption.
  - apply simcomps_inj, E, (simapprox_all_spec d cmp t w). assumption.
Qed.

Lemma c98_reflexive_symmetric :
  forall (K T U : Type) (d : K) (cmp : K -> K -> T -> U -> bool) (t : T) (w : U) (n r c : nat),
    ((forall a, cmp a a t w = true) ->
       (forall x : vec K n, vapprox_all d cmp x x t w = true) /\
       (forall x : mat K r c, mapprox_all d cmp x x t w = true) /\
       (forall x : complex K, capprox_all cmp x x t w = true) /\
       (forall x : reflection K n, reapprox_all d cmp x x t w = true) /\
       (forall x : shear K n, shapprox_all d cmp x x t w = true) /\
       (forall x : isometry K n, isoapprox_all d cmp x x t w = true) /\
       (forall x : similarity K n, simapprox_all d cmp x x t w = true)) /\
    ((forall a b, cmp a b t w = cmp b a t w) ->
       (forall x y : vec K n, vapprox_all d cmp x y t w = vapprox_all d cmp y x t w) /\
       (forall x y : mat K r c, mapprox_all d cmp x y t w = mapprox_all d cmp y x t w) /\
       (forall x y : complex K, capprox_all cmp x y t w = capprox_all cmp y x t w) /\
       (forall x y : reflection K n, reapprox_all d cmp x y t w = reapprox_all d cmp y x t w) /\
       (forall x y : shear K n, shapprox_all d cmp x y t w = shapprox_all d cmp y x t w) /\
       (forall x y : isometry K n, isoapprox_all d cmp x y t w = isoapprox_all d cmp y x t w) /\
       (forall x y : similarity K n, simapprox_all d cmp x y t w = simapprox_all d cmp y x t w)).
Proof.
  intros K T U d cmp t w n r c. split; intros H.
  - pose proof (@Forall2_refl_list K (fun a b => cmp a b t w = true) H) as E. conjs; intros.
    + apply (vapprox_all_spec d cmp t w), E.
    + apply (mapprox_all_spec d cmp t w), E.
    + apply (capprox_all_spec cmp t w), E.
    + apply (reapprox_all_spec d cmp t w), E.
    + apply (shapprox_all_spec d cmp t w), E.
    + apply (isoapprox_all_spec d cmp t w), E.
    + apply (simapprox_all_spec d cmp t w), E.
  - assert (H' : forall a b, cmp a b t w = true -> cmp b a t w = true) by (intros a b G; rewrite <- H; exact G).
    pose proof (@Forall2_sym_list K (fun a b => cmp a b t w = true) H') as E. conjs; intros; apply eq_true_iff_eq; split; intros G.
    + apply (vapprox_all_spec d cmp t w), E, (vapprox_all_spec d cmp t w), G.
    + apply (vapprox_all_spec d cmp t w), E, (vapprox_all_spec d cmp t w), G.
    + apply (mapprox_all_spec d cmp t w), E, (mapprox_all_spec d cmp t w), G.
    + apply (mapprox_all_spec d cmp t w), E, (mapprox_all_spec d cmp t w), G.
    + apply (capprox_all_spec cmp t w), E, (capprox_all_spec cmp t w), G.
    + apply (capprox_all_spec cmp t w), E, (capprox_all_spec cmp t w), G.
    + apply (reapprox_all_spec d cmp t w), E, (reapprox_all_spec d cmp t w), G.
    + apply (reapprox_all_spec d cmp t w), E, (reapprox_all_spec d cmp t w), G.
    + apply (shapprox_all_spec d cmp t w), E, (shapprox_all_spec d cmp t w), G.
    + apply (shapprox_all_spec d cmp t w), E, (shapprox_all_spec d cmp t w), G.
    + apply (isoapprox_all_spec d cmp t w), E, (isoapprox_all_spec d cmp t w), G.
    + apply (isoapprox_all_spec d cmp t w), E, (isoapprox_all_spec d cmp t w), G.
    + apply (simapprox_all_spec d cmp t w), E, (simapprox_all_spec d cmp t w), G.
    + apply (simapprox_all_spec d cmp t w), E, (simapprox_all_spec d cmp t w), G.
Qed.

Lemma c98_example :
  (let near (x y : Z) (t : Z) (_ : unit) := Z.leb (Z.abs (x - y)) t in
  let iso a b := mkIsometry (v2 a b) (m2new 1 0 0 1) in
  simapprox_all 0 near (mkSimilarity (iso 5 7) 3) (mkSimilarity (iso 6 6) 4) 1 tt = true /\
  simapprox_all 0 near (mkSimilarity (iso 5 7) 3) (mkSimilarity (iso 6 6) 5) 1 tt = false)%Z.
Proof.
  vm_compute. auto.
Qed.

Lemma c93_is_invertible_refuted :
  forall (K : Type) (NK : Num K) (ND : NumDiv K) (FK : FieldLaws K) (near0 : K -> bool) (x : K),
    x <> n0 -> near0 x = true ->
    (exists m i, m1try_inverse m = Some i /\ m1is_invertible near0 m = false) /\
    (exists m i, m2try_inverse m = Some i /\ m2is_invertible near0 m = false) /\
    (exists m i, m3try_inverse m = Some i /\ m3is_invertible near0 m = false) /\
    (exists m i, m4try_inverse m = Some i /\ m4is_invertible near0 m = false).
Proof.
  intros K NK ND FK near0 x X N.
  assert (D1 : m1det (mkdiag1 x) = x) by exact (mkdiag1_det x).
  assert (D2 : m2det (mkdiag2 x) = x) by exact (mkdiag2_det x).
  assert (D3 : m3det (mkdiag3 x) = x) by exact (mkdiag3_det x).
  assert (D4 : m4det (mkdiag4 x) = x) by exact (mkdiag4_det x).
  conjs.
  - exists (mkdiag1 x). destruct (m1try_inverse (mkdiag1 x)) as [i|] eqn:E.
    + exists i. split; [reflexivity|]. unfold m1is_invertible. rewrite D1, N. reflexivity.
    + apply m1try_inverse_none in E. rewrite D1 in E. contradiction.
  - exists (mkdiag2 x). destruct (m2try_inverse (mkdiag2 x)) as [i|] eqn:E.
    + exists i. split; [reflexivity|]. unfold m2is_invertible. rewrite D2, N. reflexivity.
    + apply m2try_inverse_none in E. rewrite D2 in E. contradiction.
  - exists (mkdiag3 x). destruct (m3try_inverse (mkdiag3 x)) as [i|] eqn:E.
    + exists i. split; [reflexivity|]. unfold m3is_invertible. rewrite D3, N. reflexivity.
    + apply m3try_inverse_none in E. rewrite D3 in E. contradiction.
  - exists (mkdiag4 x). destruct (m4try_inverse (mkdiag4 x)) as [i|] eqn:E.
    + exists i. split; [reflexivity|]. unfold m4is_invertible. rewrite D4, N. reflexivity.
    + apply m4try_inverse_none in E. rewrite D4 in E. contradiction.
Qed.

Lemma c93_is_invertible_partial :
  forall (K : Type) (NK : Num K) (ND : NumDiv K) (FK : FieldLaws K) (near0 : K -> bool),
    near0 n0 = true ->
    (forall m, m1is_invertible near0 m = true -> m1try_inverse m <> None) /\
    (forall m, m2is_invertible near0 m = true -> m2try_inverse m <> None) /\
    (forall m, m3is_invertible near0 m = true -> m3try_inverse m <> None) /\
    (forall m, m4is_invertible near0 m = true -> m4try_inverse m <> None) /\
    (forall m, m1is_invertible near0 m = false -> (m1try_inverse m <> None <-> m1det m <> n0 /\ near0 (m1det m) = true)) /\
    (forall m, m2is_invertible near0 m = false -> (m2try_inverse m <> None <-> m2det m <> n0 /\ near0 (m2det m) = true)) /\
    (forall m, m3is_invertible near0 m = false -> (m3try_inverse m <> None <-> m3det m <> n0 /\ near0 (m3det m) = true)) /\
    (forall m, m4is_invertible near0 m = false -> (m4try_inverse m <> None <-> m4det m <> n0 /\ near0 (m4det m) = true)).
Proof.
  intros K NK ND FK near0 N.
  assert (G : forall (det : K) (P : Prop), (P <-> det = n0) -> negb (near0 det) = true -> ~ P).
  { intros det P HP H Q. apply HP in Q. subst det. rewrite N in H. discriminate. }
  assert (G' : forall (det : K) (P : Prop), (P <-> det = n0) -> negb (near0 det) = false ->
    (~ P <-> det <> n0 /\ near0 det = true)).
  { intros det P HP H. apply negb_false_iff in H. tauto. }
  conjs; intros m H.
  - exact (G _ _ (m1try_inverse_none m) H).
  - exact (G _ _ (m2try_inverse_none m) H).
  - exact (G _ _ (m3try_inverse_none m) H).
  - exact (G _ _ (m4try_inverse_none m) H).
  - exact (G' _ _ (m1try_inverse_none m) H).
  - exact (G' _ _ (m2try_inverse_none m) H).
  - exact (G' _ _ (m3try_inverse_none m) H).
  - exact (G' _ _ (m4try_inverse_none m) H).
Qed.

Lemma c93_example :
  (let near0 (x : R) := if Rle_dec (Rabs x) (1 / 1000) then true else false in
  near0 0 = true /\
  m2is_invertible near0 (m2new (1 / 100) 0 0 (1 / 100)) = false /\
  m2is_invertible near0 (m2new 2 0 0 3) = true /\
  m2try_inverse (m2new (1 / 100) 0 0 (1 / 100)) <> None)%R.
Proof.
  cbv zeta. conjs.
  - rewrite Rabs_R0. destruct (Rle_dec 0 (1 / 1000)); [reflexivity|lra].
  - unfold m2is_invertible. replace (m2det (m2new (1 / 100) 0 0 (1 / 100))%R) with (1 / 10000)%R by (mcompute; rnum; lra).
    rewrite Rabs_pos_eq by lra. destruct (Rle_dec _ _); [reflexivity|lra].
  - unfold m2is_invertible. replace (m2det (m2new 2 0 0 3)%R) with 6%R by (mcompute; rnum; lra).
    rewrite Rabs_pos_eq by lra. destruct (Rle_dec _ _); [lra|reflexivity].
  - intros E. apply m2try_inverse_none in E. revert E. mcompute. rnum. lra.
Qed.
