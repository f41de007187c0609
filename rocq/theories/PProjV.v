(** Property theorems about projecting vectors in floats (C163). *)

From Coq Require Import List Arith ZArith Reals.
From Flocq Require Import Core.Core IEEE754.BinarySingleNaN.
From Verif Require Import Base Scalar SpecF SpecLibm SpecProjection MVector MMatrix MPoint MReal MFloat MTransform MProjection LProjVP.
Local Open Scope R_scope.

(** ** C163 *)

(** The two ways the code projects agree exactly up to the sign of zero in the first and third coordinate; the second coordinate of `project_vector` is what `project_point` computes for the first one when the sides are exchanged (its own second coordinate ignores asymmetry, see C79). *)
Theorem C163_vector_is_point :
  forall (prec emax : Z) (Hp : Prec_gt_0 prec) (He : Prec_lt_emax prec emax) (left right bottom top near far x y z : binary_float prec emax),
  is_finite x = true -> is_finite y = true -> is_finite z = true -> B2R z <> 0 ->
  let r := persp_project_vector (persp_new left right bottom top near far) (v3 x y z) in
  let p := persp_project_point (persp_new left right bottom top near far) (v3 x y z) in
  let p' := persp_project_point (persp_new bottom top left right near far) (v3 y x z) in
  feqv (vat r 0) (vat p 0) /\ feqv (vat r 1) (vat p' 0) /\ feqv (vat r 2) (vat p 2).
Proof. exact c163_vector_is_point. Qed.
Print Assumptions C163_vector_is_point.

(** In the frustum `project_vector` is within 22 u of the exact side coordinates and 72 u of the exact depth, for asymmetric frusta too. *)
Theorem C163_perspective_vector :
  forall (prec emax : Z) (Hp : Prec_gt_0 prec) (He : Prec_lt_emax prec emax) (q : Z)
    (left right bottom top near far x y z : binary_float prec emax),
    (24 <= prec)%Z -> (0 <= q)%Z -> (2 * q + 31 <= emax)%Z ->
    is_finite left = true -> is_finite right = true -> is_finite bottom = true -> is_finite top = true ->
    is_finite near = true -> is_finite far = true -> is_finite x = true -> is_finite y = true -> is_finite z = true ->
    let u := bpow radix2 (- prec) in
    let L := B2R left in let R := B2R right in let B := B2R bottom in let T := B2R top in
    let N := B2R near in let F := B2R far in let d := - B2R z in
    let size (s : Reals.Rdefinitions.R) := bpow radix2 (- q) <= s <= bpow radix2 q in
    0 <= L -> 0 <= R -> 0 <= B -> 0 <= T -> size (R + L) -> size (T + B) -> size N -> size F -> 2 * N <= F ->
    in_frustum L R B T N F (v3 (B2R x) (B2R y) (- d)) ->
    let r := persp_project_vector (persp_new left right bottom top near far) (v3 x y z) in
    fnear (vat r 0) (persp_side N L R d (B2R x)) (22 * u) /\
    fnear (vat r 1) (persp_side N B T d (B2R y)) (22 * u) /\
    fnear (vat r 2) (persp_depth N F d) (72 * u).
Proof. exact c163_perspective_vector. Qed.
Print Assumptions C163_perspective_vector.

(** The orthographic `project_vector` scales without the translation: within 9 u of the exact side coordinates and 25 u of the exact depth for differences of points of the box. *)
Theorem C163_orthographic_vector :
  forall (prec emax : Z) (Hp : Prec_gt_0 prec) (He : Prec_lt_emax prec emax) (q : Z)
    (left right bottom top near far : binary_float prec emax) (v : vec (binary_float prec emax) 3),
    (24 <= prec)%Z -> (0 <= q)%Z -> (2 * q + 31 <= emax)%Z ->
    is_finite left = true -> is_finite right = true -> is_finite bottom = true -> is_finite top = true ->
    is_finite near = true -> is_finite far = true ->
    let u := bpow radix2 (- prec) in
    let L := B2R left in let R := B2R right in let B := B2R bottom in let T := B2R top in
    let N := B2R near in let F := B2R far in
    let size (s : Reals.Rdefinitions.R) := bpow radix2 (- q) <= s <= bpow radix2 q in
    0 <= L -> 0 <= R -> 0 <= B -> 0 <= T -> size (R + L) -> size (T + B) -> size N -> size F -> 2 * N <= F ->
    fbnd (R + L) (vat v 0) -> fbnd (T + B) (vat v 1) -> fbnd F (vat v 2) ->
    let r := ortho_project_vector (ortho_new left right bottom top near far) v in
    fnear (vat r 0) (2 * B2R (vat v 0) / (R + L)) (9 * u) /\
    fnear (vat r 1) (2 * B2R (vat v 1) / (T + B)) (9 * u) /\
    fnear (vat r 2) (- 2 * B2R (vat v 2) / (F - N)) (25 * u).
Proof. exact c163_orthographic_vector. Qed.
Print Assumptions C163_orthographic_vector.

(** An asymmetric frustum in f64, where the two functions differ in the second coordinate and `project_vector` is right. *)
Example C163_example :
  let i : Z -> f64 := f64_of_Z in
  let m := persp_new (i 1%Z) (i 3%Z) (i 1%Z) (i 3%Z) (i 1%Z) (i 5%Z) in let v := v3 (i 4%Z) (i 1%Z) (i (-2)%Z) in
  in_frustum 1 3 1 3 1 5 (v3 4 1 (- (2))) /\
  vat (persp_project_vector m v) 0 = ndiv (i 1%Z) (i 2%Z) /\ vat (persp_project_vector m v) 1 = ndiv (i (-1)%Z) (i 4%Z) /\
  persp_side 1 1 3 2 1 = - 1 / 4 /\ vat (persp_project_point m v) 1 <> vat (persp_project_vector m v) 1.
Proof. exact c163_example. Qed.
