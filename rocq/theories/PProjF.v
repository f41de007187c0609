(** Property theorems about the projections in floats (C123). *)

From Coq Require Import List Arith ZArith Reals.
From Flocq Require Import Core.Core IEEE754.BinarySingleNaN.
From Verif Require Import Base Scalar Spec SpecF SpecProjection MVector MMatrix MPoint MReal MFloat MTransform MProjection LFloatNormP LProjFP.

(** ** C123 *)

(** The formulas of the specification are the exact images under the matrices. *)
Theorem C123_exact_projection :
  forall (left right bottom top near far : R) (p : vec R 3),
    let x := vat p 0 in let y := vat p 1 in let d := (- vat p 2)%R in
    (right + left <> 0)%R -> (top + bottom <> 0)%R -> (far - near <> 0)%R -> (near <> 0)%R ->
    (d <> 0%R ->
      projects_to (m4from_perspective left right bottom top near far) p
        (v3 (persp_side near left right d x) (persp_side near bottom top d y) (persp_depth near far d))) /\
    projects_to (m4from_orthographic left right bottom top near far) p
      (v3 (ortho_side left right x) (ortho_side bottom top y) (ortho_depth near far d)).
Proof. exact c123_exact_projection. Qed.
Print Assumptions C123_exact_projection.

(** Perspective projection of a float point in the frustum (planes at distances with far >= 2 near, sizes between 2^-q
    and 2^q): the first coordinate is within 22 u of the exact one, the depth within 72 u, and for a vertically symmetric
    frustum (the code ignores asymmetry, see C79) the second coordinate is within 16 u. *)
Theorem C123_perspective_accuracy :
  forall (prec emax : Z) (Hp : Prec_gt_0 prec) (He : Prec_lt_emax prec emax) (q : Z)
    (left right bottom top near far : binary_float prec emax) (p : point (binary_float prec emax) 3),
    (24 <= prec)%Z -> (0 <= q)%Z -> (2 * q + 31 <= emax)%Z ->
    is_finite left = true -> is_finite right = true -> is_finite bottom = true -> is_finite top = true ->
    is_finite near = true -> is_finite far = true -> (forall i, (i < 3)%nat -> is_finite (vat p i) = true) ->
    let u := bpow radix2 (- prec) in
    let L := B2R left in let R := B2R right in let B := B2R bottom in let T := B2R top in
    let N := B2R near in let F := B2R far in
    let x := B2R (vat p 0) in let y := B2R (vat p 1) in let d := (- B2R (vat p 2))%R in
    let size (s : Reals.Rdefinitions.R) := (bpow radix2 (- q) <= s <= bpow radix2 q)%R in
    (0 <= L)%R -> (0 <= R)%R -> (0 <= B)%R -> (0 <= T)%R ->
    size (R + L)%R -> size (T + B)%R -> size N -> size F -> (2 * N <= F)%R ->
    in_frustum L R B T N F (v3 x y (- d)%R) ->
    let r := persp_project_point (persp_new left right bottom top near far) p in
    fnear (vat r 0) (persp_side N L R d x) (22 * u)%R /\
    (B = T -> fnear (vat r 1) (persp_side N B T d y) (16 * u)%R) /\
    fnear (vat r 2) (persp_depth N F d) (72 * u)%R.
Proof. exact c123_perspective_accuracy. Qed.
Print Assumptions C123_perspective_accuracy.

(** Orthographic projection of a float point in the box: the first two coordinates are within 15 u of the exact ones, the
    depth within 54 u. *)
Theorem C123_orthographic_accuracy :
  forall (prec emax : Z) (Hp : Prec_gt_0 prec) (He : Prec_lt_emax prec emax) (q : Z)
    (left right bottom top near far : binary_float prec emax) (p : point (binary_float prec emax) 3),
    (24 <= prec)%Z -> (0 <= q)%Z -> (2 * q + 31 <= emax)%Z ->
    is_finite left = true -> is_finite right = true -> is_finite bottom = true -> is_finite top = true ->
    is_finite near = true -> is_finite far = true -> (forall i, (i < 3)%nat -> is_finite (vat p i) = true) ->
    let u := bpow radix2 (- prec) in
    let L := B2R left in let R := B2R right in let B := B2R bottom in let T := B2R top in
    let N := B2R near in let F := B2R far in
    let x := B2R (vat p 0) in let y := B2R (vat p 1) in let d := (- B2R (vat p 2))%R in
    let size (s : Reals.Rdefinitions.R) := (bpow radix2 (- q) <= s <= bpow radix2 q)%R in
    (0 <= L)%R -> (0 <= R)%R -> (0 <= B)%R -> (0 <= T)%R ->
    size (R + L)%R -> size (T + B)%R -> size N -> size F -> (2 * N <= F)%R ->
    in_box L R B T N F (v3 x y (- d)%R) ->
    let r := ortho_project_point (ortho_new left right bottom top near far) p in
    fnear (vat r 0) (ortho_side L R x) (15 * u)%R /\
    fnear (vat r 1) (ortho_side B T y) (15 * u)%R /\
    fnear (vat r 2) (ortho_depth N F d) (54 * u)%R.
Proof. exact c123_orthographic_accuracy. Qed.
Print Assumptions C123_orthographic_accuracy.

(** Rounding never reverses the order of orthographic images: of two points, the one further right, up or away has the
    coordinate or depth at least as large, for every float format and all planes. *)
Theorem C123_orthographic_order :
  forall (prec emax : Z) (Hp : Prec_gt_0 prec) (He : Prec_lt_emax prec emax)
    (left right bottom top near far : binary_float prec emax) (p p' : point (binary_float prec emax) 3),
    let m := ortho_new left right bottom top near far in
    let r := ortho_project_point m p in let r' := ortho_project_point m p' in
    let fin i := is_finite (vat r i) = true /\ is_finite (vat r' i) = true in
    (- B2R left <= B2R right -> fin 0%nat -> B2R (vat p 0) <= B2R (vat p' 0) -> B2R (vat r 0) <= B2R (vat r' 0))%R /\
    (- B2R bottom <= B2R top -> fin 1%nat -> B2R (vat p 1) <= B2R (vat p' 1) -> B2R (vat r 1) <= B2R (vat r' 1))%R /\
    (B2R near <= B2R far -> fin 2%nat -> - B2R (vat p 2) <= - B2R (vat p' 2) -> B2R (vat r 2) <= B2R (vat r' 2))%R.
Proof. exact c123_orthographic_order. Qed.
Print Assumptions C123_orthographic_order.

(** Perspective depth is not monotone: in [f64] with planes at 1 and 2 there are two points on the axis, neighbouring
    floats, of which the nearer one gets the larger depth. *)
Theorem C123_perspective_order_refuted :
  exists (left right bottom top near far : f64) (p p' : point f64 3),
    is_finite near = true /\ B2R near = 1%R /\ is_finite far = true /\ B2R far = 2%R /\
    (forall q, q = p \/ q = p' ->
      (forall i, (i < 3)%nat -> is_finite (vat q i) = true) /\
      in_frustum (B2R left) (B2R right) (B2R bottom) (B2R top) (B2R near) (B2R far)
        (v3 (B2R (vat q 0)) (B2R (vat q 1)) (B2R (vat q 2)))) /\
    (- B2R (vat p 2) < - B2R (vat p' 2))%R /\
    (B2R (vat (persp_project_point (persp_new left right bottom top near far) p') 2)
     < B2R (vat (persp_project_point (persp_new left right bottom top near far) p) 2))%R.
Proof. exact c123_perspective_order_refuted. Qed.
Print Assumptions C123_perspective_order_refuted.

(** What remains of the order: two points in the frustum whose exact depths differ by more than 144 u (the difference of
    the exact depths is 2 F N (d' - d) / ((F - N) d d')) keep their order strictly. *)
Theorem C123_perspective_order_partial :
  forall (prec emax : Z) (Hp : Prec_gt_0 prec) (He : Prec_lt_emax prec emax) (q : Z)
    (left right bottom top near far : binary_float prec emax) (p p' : point (binary_float prec emax) 3),
    (24 <= prec)%Z -> (0 <= q)%Z -> (2 * q + 31 <= emax)%Z ->
    is_finite near = true -> is_finite far = true -> is_finite (vat p 2) = true -> is_finite (vat p' 2) = true ->
    let N := B2R near in let F := B2R far in
    let d := (- B2R (vat p 2))%R in let d' := (- B2R (vat p' 2))%R in
    let size (s : Reals.Rdefinitions.R) := (bpow radix2 (- q) <= s <= bpow radix2 q)%R in
    size N -> size F -> (2 * N <= F)%R -> (N <= d <= F)%R -> (N <= d' <= F)%R ->
    (144 * bpow radix2 (- prec) < 2 * F * N * (d' - d) / ((F - N) * (d * d')))%R ->
    let m := persp_new left right bottom top near far in
    (B2R (vat (persp_project_point m p) 2) < B2R (vat (persp_project_point m p') 2))%R.
Proof. exact c123_perspective_order_partial. Qed.
Print Assumptions C123_perspective_order_partial.

(** In [f64] (q = 100) with planes at 1 and 100, the points at distances 2 and 3 meet all the hypotheses: their exact
    depths differ by 100/297. *)
Example C123_example :
  let i : Z -> f64 := f64_of_Z in
  (2 * 100 + 31 <= 1024)%Z /\
  (forall z, In z (1 :: 2 :: 3 :: 100 :: nil)%Z ->
     is_finite (i z) = true /\ B2R (i z) = IZR z /\ (bpow radix2 (- 100) <= B2R (i z) <= bpow radix2 100)%R) /\
  (144 * bpow radix2 (- 53) < 2 * 100 * 1 * (3 - 2) / ((100 - 1) * (2 * 3)))%R /\
  in_frustum 1 1 1 1 1 100 (v3 1 (-1) (-2))%R /\
  vat (persp_project_point (persp_new (i 1) (i 1) (i 1) (i 1) (i 1) (i 100)) (v3 (i 1) (i (-1)) (i (-2))))%Z 0
    = ndiv (i 1%Z) (i 2%Z).
Proof. exact c123_example. Qed.
