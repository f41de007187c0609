(** Relative and ULPs comparisons of composite values, and the matrix [is_invertible].

    The scalar comparison ([S::relative_eq]/[S::ulps_eq] and their [_all] versions) is code of the
    external crate approx_cmp and is a parameter [cmp x y t w]: [t] the absolute tolerance, [w] the
    relative or ULPs tolerance.  A tolerance of a composite value has the shape of the value (the [...Tol]
    types of the code are records with the fields of the type itself); the [_all] versions take one scalar
    tolerance.  Rust's [&&] of pure functions is [andb]. *)

From Coq Require Import Bool.
From Verif Require Import Base Scalar MVector MMatrix MComplex MQuat MTransform.

Section Approx.
Context {K T U : Type}.
Variables (d : K) (dt : T) (du : U).
Variable cmp : K -> K -> T -> U -> bool.

(** vector.rs 1283-1291 [relative_eq], 1370-1378 [ulps_eq]. *)
Definition vapprox {n} (x y : vec K n) (t : vec T n) (w : vec U n) : bool :=
  for_range n (fun i acc => andb acc (cmp (vget d x i) (vget d y i) (vget dt t i) (vget du w i))) true.
(** vector.rs 1301-1309 [relative_all_eq], 1389-1397 [ulps_all_eq]. *)
Definition vapprox_all {n} (x y : vec K n) (t : T) (w : U) : bool :=
  for_range n (fun i acc => andb acc (cmp (vget d x i) (vget d y i) t w)) true.

(** matrix.rs 9011-9026 [relative_eq], 9107-9117 [ulps_eq]. *)
Definition mapprox {r c} (x y : mat K r c) (t : mat T r c) (w : mat U r c) : bool :=
  for_range c (fun j acc => for_range r (fun i acc =>
    andb acc (cmp (mget_d d x j i) (mget_d d y j i) (mget_d dt t j i) (mget_d du w j i))) acc) true.
(** matrix.rs 9036-9046 [relative_all_eq], 9128-9138 [ulps_all_eq]. *)
Definition mapprox_all {r c} (x y : mat K r c) (t : T) (w : U) : bool :=
  for_range c (fun j acc => for_range r (fun i acc =>
    andb acc (cmp (mget_d d x j i) (mget_d d y j i) t w)) acc) true.

(** point.rs 1069-1081, 1134-1147, quaternion.rs 4466-4478, 4531-4544: the comparison of the coordinate
    vector; unit.rs 288-300, 353-366: of the wrapped value. *)
Definition papprox {n} (x y : vec K n) (t : vec T n) (w : vec U n) : bool := vapprox x y t w.
Definition papprox_all {n} (x y : vec K n) (t : T) (w : U) : bool := vapprox_all x y t w.
Definition qapprox (x y : quat K) (t : quat T) (w : quat U) : bool := vapprox (n := 4) x y t w.
Definition qapprox_all (x y : quat K) (t : T) (w : U) : bool := vapprox_all (n := 4) x y t w.

(** complex.rs 3107-3110, 3189-3192; 3120-3123, 3203-3206. *)
Definition capprox (x y : complex K) (t : complex T) (w : complex U) : bool :=
  andb (cmp (re x) (re y) (re t) (re w)) (cmp (im x) (im y) (im t) (im w)).
Definition capprox_all (x y : complex K) (t : T) (w : U) : bool :=
  andb (cmp (re x) (re y) t w) (cmp (im x) (im y) t w).

(** euler.rs 666-670, 756-760; 680-684, 771-775 (the angles compare as their scalars). *)
Definition euapprox (x y : K * K * K) (t : T * T * T) (w : U * U * U) : bool :=
  let '(x1, x2, x3) := x in let '(y1, y2, y3) := y in let '(t1, t2, t3) := t in let '(w1, w2, w3) := w in
  andb (andb (cmp x1 y1 t1 w1) (cmp x2 y2 t2 w2)) (cmp x3 y3 t3 w3).
Definition euapprox_all (x y : K * K * K) (t : T) (w : U) : bool :=
  let '(x1, x2, x3) := x in let '(y1, y2, y3) := y in
  andb (andb (cmp x1 y1 t w) (cmp x2 y2 t w)) (cmp x3 y3 t w).

(** translation.rs 966-980, 1041-1056; scale.rs 939-953, 1013-1028: the vector; rotation.rs 2034-2048,
    2108-2123, transform.rs 991-1007, 1073-1090, projection.rs 2537-2551, 2611-2626, 4348-4362, 4422-4437:
    the matrix.  [vapprox]/[mapprox] are their models. *)

(** reflection.rs 1006-1009, 1087-1090; 1019-1022, 1101-1104. *)
Definition reapprox {n} (x y : reflection K n) (t : reflection T n) (w : reflection U n) : bool :=
  andb (vapprox (re_normal x) (re_normal y) (re_normal t) (re_normal w))
       (papprox (re_bias x) (re_bias y) (re_bias t) (re_bias w)).
Definition reapprox_all {n} (x y : reflection K n) (t : T) (w : U) : bool :=
  andb (vapprox_all (re_normal x) (re_normal y) t w) (papprox_all (re_bias x) (re_bias y) t w).

(** shear.rs 2204-2222, 2401-2420; 2232-2246, 2430-2445. *)
Definition shapprox {n} (x y : shear K n) (t : shear T n) (w : shear U n) : bool :=
  andb (andb (andb (cmp (sh_factor x) (sh_factor y) (sh_factor t) (sh_factor w))
                   (papprox (sh_origin x) (sh_origin y) (sh_origin t) (sh_origin w)))
             (vapprox (sh_direction x) (sh_direction y) (sh_direction t) (sh_direction w)))
       (vapprox (sh_normal x) (sh_normal y) (sh_normal t) (sh_normal w)).
Definition shapprox_all {n} (x y : shear K n) (t : T) (w : U) : bool :=
  andb (andb (andb (cmp (sh_factor x) (sh_factor y) t w)
                   (papprox_all (sh_origin x) (sh_origin y) t w))
             (vapprox_all (sh_direction x) (sh_direction y) t w))
       (vapprox_all (sh_normal x) (sh_normal y) t w).

(** isometry.rs 1915-1928, 2051-2060; 1938-1946, 2070-2078. *)
Definition isoapprox {n} (x y : isometry K n) (t : isometry T n) (w : isometry U n) : bool :=
  andb (mapprox (iso_rotation x) (iso_rotation y) (iso_rotation t) (iso_rotation w))
       (vapprox (iso_translation x) (iso_translation y) (iso_translation t) (iso_translation w)).
Definition isoapprox_all {n} (x y : isometry K n) (t : T) (w : U) : bool :=
  andb (mapprox_all (iso_rotation x) (iso_rotation y) t w)
       (vapprox_all (iso_translation x) (iso_translation y) t w).

(** similarity.rs 1984-2000, 2151-2163; 2010-2021, 2173-2184. *)
Definition simapprox {n} (x y : similarity K n) (t : similarity T n) (w : similarity U n) : bool :=
  andb (isoapprox (sim_isometry x) (sim_isometry y) (sim_isometry t) (sim_isometry w))
       (cmp (sim_scale x) (sim_scale y) (sim_scale t) (sim_scale w)).
Definition simapprox_all {n} (x y : similarity K n) (t : T) (w : U) : bool :=
  andb (isoapprox_all (sim_isometry x) (sim_isometry y) t w)
       (cmp (sim_scale x) (sim_scale y) t w).
End Approx.

(** matrix.rs 2670-2677, 3303-3310, 5401-5408, 7785-7792 [is_invertible]: the determinant is not
    approximately zero.  [near0 x] models [ulps_eq!(x, 0)] with the default tolerances. *)
Section Invertible.
Context {K : Type} {NK : Num K}.
Variable near0 : K -> bool.
Definition m1is_invertible (m : mat K 1 1) : bool := negb (near0 (m1det m)).
Definition m2is_invertible (m : mat K 2 2) : bool := negb (near0 (m2det m)).
Definition m3is_invertible (m : mat K 3 3) : bool := negb (near0 (m3det m)).
Definition m4is_invertible (m : mat K 4 4) : bool := negb (near0 (m4det m)).
End Invertible.
