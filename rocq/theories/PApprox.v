(** Property theorems about approximate comparisons of composite values (C98) and about the matrix
    [is_invertible] (C93).  The scalar comparison [cmp] is arbitrary: it stands for the scalar
    [relative_eq]/[ulps_eq] of the crate approx_cmp.  [vcomps], [mcomps], ... list the scalar components
    (SpecApprox.v). *)

From Coq Require Import List Arith ZArith Reals.
From Flocq Require Import Core.Core IEEE754.BinarySingleNaN.
From Verif Require Import Base Scalar Spec MVector MMatrix MComplex MQuat MTransform MFloat MApprox SpecApprox LApproxP.
Import ListNotations.

(** ** C98 *)

Theorem C98_per_component_tolerances :
  forall (K T U : Type) (d : K) (dt : T) (du : U) (cmp : K -> K -> T -> U -> bool),
    let C := fun x y t w => cmp x y t w = true in
    (forall n (x y : vec K n) t w, vapprox d dt du cmp x y t w = true <->
       Forall4 C (vcomps x) (vcomps y) (vcomps t) (vcomps w)) /\
    (forall n (x y : vec K n) t w, papprox d dt du cmp x y t w = true <->
       Forall4 C (vcomps x) (vcomps y) (vcomps t) (vcomps w)) /\
    (forall (x y : quat K) t w, qapprox d dt du cmp x y t w = true <->
       Forall4 C (@vcomps K 4 x) (@vcomps K 4 y) (@vcomps T 4 t) (@vcomps U 4 w)) /\
    (forall r c (x y : mat K r c) t w, mapprox d dt du cmp x y t w = true <->
       Forall4 C (mcomps x) (mcomps y) (mcomps t) (mcomps w)) /\
    (forall (x y : complex K) t w, capprox cmp x y t w = true <->
       Forall4 C (ccomps x) (ccomps y) (ccomps t) (ccomps w)) /\
    (forall (x y : K * K * K) t w, euapprox cmp x y t w = true <->
       Forall4 C (eucomps x) (eucomps y) (eucomps t) (eucomps w)) /\
    (forall n (x y : reflection K n) t w, reapprox d dt du cmp x y t w = true <->
       Forall4 C (recomps x) (recomps y) (recomps t) (recomps w)) /\
    (forall n (x y : shear K n) t w, shapprox d dt du cmp x y t w = true <->
       Forall4 C (shcomps x) (shcomps y) (shcomps t) (shcomps w)) /\
    (forall n (x y : isometry K n) t w, isoapprox d dt du cmp x y t w = true <->
       Forall4 C (isocomps x) (isocomps y) (isocomps t) (isocomps w)) /\
    (forall n (x y : similarity K n) t w, simapprox d dt du cmp x y t w = true <->
       Forall4 C (simcomps x) (simcomps y) (simcomps t) (simcomps w)).
Proof. exact c98_per_component_tolerances. Qed.
Print Assumptions C98_per_component_tolerances.

(** The [_all] versions apply the one tolerance to every component. *)
Theorem C98_all_components :
  forall (K T U : Type) (d : K) (cmp : K -> K -> T -> U -> bool) (t : T) (w : U),
    let C := fun x y => cmp x y t w = true in
    (forall n (x y : vec K n), vapprox_all d cmp x y t w = true <-> Forall2 C (vcomps x) (vcomps y)) /\
    (forall n (x y : vec K n), papprox_all d cmp x y t w = true <-> Forall2 C (vcomps x) (vcomps y)) /\
    (forall (x y : quat K), qapprox_all d cmp x y t w = true <-> Forall2 C (@vcomps K 4 x) (@vcomps K 4 y)) /\
    (forall r c (x y : mat K r c), mapprox_all d cmp x y t w = true <-> Forall2 C (mcomps x) (mcomps y)) /\
    (forall (x y : complex K), capprox_all cmp x y t w = true <-> Forall2 C (ccomps x) (ccomps y)) /\
    (forall (x y : K * K * K), euapprox_all cmp x y t w = true <-> Forall2 C (eucomps x) (eucomps y)) /\
    (forall n (x y : reflection K n), reapprox_all d cmp x y t w = true <-> Forall2 C (recomps x) (recomps y)) /\
    (forall n (x y : shear K n), shapprox_all d cmp x y t w = true <-> Forall2 C (shcomps x) (shcomps y)) /\
    (forall n (x y : isometry K n), isoapprox_all d cmp x y t w = true <-> Forall2 C (isocomps x) (isocomps y)) /\
    (forall n (x y : similarity K n), simapprox_all d cmp x y t w = true <-> Forall2 C (simcomps x) (simcomps y)).
Proof. exact c98_all_components. Qed.
Print Assumptions C98_all_components.

(** If the scalar comparison accepts only equal scalars, the composite comparison accepts only equal
    values: no field is left out (compare C73 for [abs_diff_all_eq] of isometries, which leaves one out). *)
Theorem C98_detects_every_difference :
  forall (K T U : Type) (d : K) (cmp : K -> K -> T -> U -> bool) (t : T) (w : U),
    (forall a b, cmp a b t w = true -> a = b) ->
    (forall n (x y : vec K n), vapprox_all d cmp x y t w = true -> x = y) /\
    (forall r c (x y : mat K r c), mapprox_all d cmp x y t w = true -> x = y) /\
    (forall (x y : complex K), capprox_all cmp x y t w = true -> x = y) /\
    (forall (x y : K * K * K), euapprox_all cmp x y t w = true -> x = y) /\
    (forall n (x y : reflection K n), reapprox_all d cmp x y t w = true -> x = y) /\
    (forall n (x y : shear K n), shapprox_all d cmp x y t w = true -> x = y) /\
    (forall n (x y : isometry K n), isoapprox_all d cmp x y t w = true -> x = y) /\
    (forall n (x y : similarity K n), simapprox_all d cmp x y t w = true -> x = y).
Proof. exact c98_detects_every_difference. Qed.
Print Assumptions C98_detects_every_difference.

Theorem C98_reflexive_symmetric :
  forall (K T U : Type) (d : K) (cmp : K -> K -> T -> U -> bool) (t : T) (w : U) (n r c : nat),
    ((forall a, cmp a a t w = true) ->
       (forall x : vec K n, vapprox_all d cmp x x t w = true) /\
       (forall x : mat K r c, mapprox_all d cmp x x t w = true) /\
       (forall x : complex K, capprox_all cmp x x t w = true) /\
       (forall x : reflection K n, reapprox_all d cmp x x t w = true) /\
       (forall x : shear K n, shapprox_all d cmp x x t w = true) /\
       (forall x : isometry K n, isoapprox_all d cmp x x t w = true) /\
       (forall x : similarity K n, simapprox_all d cmp x x t w = true)) /\
    ((forall a b, cmp a b t w = cmp b a t w) ->
       (forall x y : vec K n, vapprox_all d cmp x y t w = vapprox_all d cmp y x t w) /\
       (forall x y : mat K r c, mapprox_all d cmp x y t w = mapprox_all d cmp y x t w) /\
       (forall x y : complex K, capprox_all cmp x y t w = capprox_all cmp y x t w) /\
       (forall x y : reflection K n, reapprox_all d cmp x y t w = reapprox_all d cmp y x t w) /\
       (forall x y : shear K n, shapprox_all d cmp x y t w = shapprox_all d cmp y x t w) /\
       (forall x y : isometry K n, isoapprox_all d cmp x y t w = isoapprox_all d cmp y x t w) /\
       (forall x y : similarity K n, simapprox_all d cmp x y t w = simapprox_all d cmp y x t w)).
Proof. exact c98_reflexive_symmetric. Qed.
Print Assumptions C98_reflexive_symmetric.

(** Tolerance 1 accepts a difference of 1 everywhere and rejects a difference of 2 in the scale only. *)
Example C98_example :
  (let near (x y : Z) (t : Z) (_ : unit) := Z.leb (Z.abs (x - y)) t in
  let iso a b := mkIsometry (v2 a b) (m2new 1 0 0 1) in
  simapprox_all 0 near (mkSimilarity (iso 5 7) 3) (mkSimilarity (iso 6 6) 4) 1 tt = true /\
  simapprox_all 0 near (mkSimilarity (iso 5 7) 3) (mkSimilarity (iso 6 6) 5) 1 tt = false)%Z.
Proof. exact c98_example. Qed.

(** ** C93 *)

(** "[is_invertible] is true exactly when [try_inverse] succeeds" fails for every approximate zero test that
    accepts some non-zero value: diag(1, ..., x) with [near0 x] has an inverse but is reported singular. *)
Theorem C93_is_invertible_refuted :
  forall (K : Type) (NK : Num K) (ND : NumDiv K) (FK : FieldLaws K) (near0 : K -> bool) (x : K),
    x <> n0 -> near0 x = true ->
    (exists m i, m1try_inverse m = Some i /\ m1is_invertible near0 m = false) /\
    (exists m i, m2try_inverse m = Some i /\ m2is_invertible near0 m = false) /\
    (exists m i, m3try_inverse m = Some i /\ m3is_invertible near0 m = false) /\
    (exists m i, m4try_inverse m = Some i /\ m4is_invertible near0 m = false).
Proof. exact c93_is_invertible_refuted. Qed.
Print Assumptions C93_is_invertible_refuted.

(** One direction and the exact domain of disagreement: provided the zero test accepts zero, a matrix reported
    invertible has an inverse, and the two differ exactly when the determinant is non-zero but accepted. *)
Theorem C93_is_invertible_partial :
  forall (K : Type) (NK : Num K) (ND : NumDiv K) (FK : FieldLaws K) (near0 : K -> bool),
    near0 n0 = true ->
    (forall m, m1is_invertible near0 m = true -> m1try_inverse m <> None) /\
    (forall m, m2is_invertible near0 m = true -> m2try_inverse m <> None) /\
    (forall m, m3is_invertible near0 m = true -> m3try_inverse m <> None) /\
    (forall m, m4is_invertible near0 m = true -> m4try_inverse m <> None) /\
    (forall m, m1is_invertible near0 m = false -> (m1try_inverse m <> None <-> m1det m <> n0 /\ near0 (m1det m) = true)) /\
    (forall m, m2is_invertible near0 m = false -> (m2try_inverse m <> None <-> m2det m <> n0 /\ near0 (m2det m) = true)) /\
    (forall m, m3is_invertible near0 m = false -> (m3try_inverse m <> None <-> m3det m <> n0 /\ near0 (m3det m) = true)) /\
    (forall m, m4is_invertible near0 m = false -> (m4try_inverse m <> None <-> m4det m <> n0 /\ near0 (m4det m) = true)).
Proof. exact c93_is_invertible_partial. Qed.
Print Assumptions C93_is_invertible_partial.

(** Over the reals with the test |x| <= 1/1000: diag(1/100, 1/100) is reported singular, yet [try_inverse] inverts it. *)
Example C93_example :
  (let near0 (x : R) := if Rle_dec (Rabs x) (1 / 1000) then true else false in
  near0 0 = true /\
  m2is_invertible near0 (m2new (1 / 100) 0 0 (1 / 100)) = false /\
  m2is_invertible near0 (m2new 2 0 0 3) = true /\
  m2try_inverse (m2new (1 / 100) 0 0 (1 / 100)) <> None)%R.
Proof. exact c93_example. Qed.
