(** Property theorems about getting planes and points back from a projection in floats (C143). *)

From Coq Require Import List Arith ZArith Reals.
From Flocq Require Import Core.Core IEEE754.BinarySingleNaN.
From Verif Require Import Base Scalar Spec SpecF SpecProjection SpecUnp MVector MMatrix MPoint MFloat MProjection LUnpK LUnpL LUnpM.
Local Open Scope R_scope.

(** ** C143 *)

(** [f32] with near = 1/64 and far = 524288: [near] and [right] are NaN, and unprojecting the image of a point of the frustum gives three NaNs though the image itself is finite. *)
Theorem C143_perspective_refuted :
  exists (side near far : f32) (p : point f32 3),
    is_finite side = true /\ B2R side = 1 / 64 /\ is_finite near = true /\ B2R near = 1 / 64 /\ is_finite far = true /\ B2R far = 524288 /\
    (forall i, (i < 3)%nat -> is_finite (vat p i) = true) /\
    in_frustum (B2R side) (B2R side) (B2R side) (B2R side) (B2R near) (B2R far) (v3 (B2R (vat p 0)) (B2R (vat p 1)) (B2R (vat p 2))) /\
    let m := persp_new side side side side near far in
    is_nan (persp_near m) = true /\ is_nan (persp_right m) = true /\
    (forall i, (i < 3)%nat -> is_finite (vat (persp_project_point m p) i) = true) /\
    (forall i, (i < 3)%nat -> is_nan (vat (persp_unproject_point m (persp_project_point m p)) i) = true).
Proof. exact c143_perspective_refuted. Qed.
Print Assumptions C143_perspective_refuted.

(** The same planes in an orthographic projection: [far] is NaN, and so is the depth of the unprojected point. *)
Theorem C143_orthographic_refuted :
  exists (side near far : f32) (p : point f32 3),
    is_finite side = true /\ B2R side = 1 / 64 /\ is_finite near = true /\ B2R near = 1 / 64 /\ is_finite far = true /\ B2R far = 524288 /\
    (forall i, (i < 3)%nat -> is_finite (vat p i) = true) /\
    in_box (B2R side) (B2R side) (B2R side) (B2R side) (B2R near) (B2R far) (v3 (B2R (vat p 0)) (B2R (vat p 1)) (B2R (vat p 2))) /\
    let m := ortho_new side side side side near far in
    is_nan (ortho_far m) = true /\
    (forall i, (i < 3)%nat -> is_finite (vat (ortho_project_point m p) i) = true) /\
    is_nan (vat (ortho_unproject_point m (ortho_project_point m p)) 2) = true.
Proof. exact c143_orthographic_refuted. Qed.
Print Assumptions C143_orthographic_refuted.

(** A lopsided projection, left = 1/64 and right = 524288: [right] and the unprojected first coordinate are NaN in both kinds. *)
Theorem C143_sides_refuted :
  exists (left right near far : f32) (p : point f32 3),
    is_finite left = true /\ B2R left = 1 / 64 /\ is_finite right = true /\ B2R right = 524288 /\ is_finite near = true /\ B2R near = 1 /\ is_finite far = true /\ B2R far = 2 /\
    (forall i, (i < 3)%nat -> is_finite (vat p i) = true) /\
    in_frustum (B2R left) (B2R right) (B2R near) (B2R near) (B2R near) (B2R far) (v3 (B2R (vat p 0)) (B2R (vat p 1)) (B2R (vat p 2))) /\
    in_box (B2R left) (B2R right) (B2R near) (B2R near) (B2R near) (B2R far) (v3 (B2R (vat p 0)) (B2R (vat p 1)) (B2R (vat p 2))) /\
    let m := persp_new left right near near near far in
    let o := ortho_new left right near near near far in
    is_nan (persp_right m) = true /\ is_nan (ortho_right o) = true /\
    is_nan (vat (persp_unproject_point m (persp_project_point m p)) 0) = true /\
    is_nan (vat (ortho_unproject_point o (ortho_project_point o p)) 0) = true.
Proof. exact c143_sides_refuted. Qed.
Print Assumptions C143_sides_refuted.

(** With the ratios of the planes bounded ([depth_range], [side_range]) the planes are read back: near within 24 u relative, far with an error growing with far / near, the sides within 36 u of the width.  Missing: larger ratios, where the values are lost. *)
Theorem C143_perspective_planes_partial :
  forall (prec emax : Z) (Hp : Prec_gt_0 prec) (He : Prec_lt_emax prec emax) (q : Z)
    (left right bottom top near far : binary_float prec emax),
    (24 <= prec)%Z -> (1 <= q)%Z -> (6 * q + 31 <= emax)%Z ->
    is_finite left = true -> is_finite right = true -> is_finite bottom = true -> is_finite top = true ->
    is_finite near = true -> is_finite far = true ->
    let u := bpow radix2 (- prec) in
    let L := B2R left in let R := B2R right in let B := B2R bottom in let T := B2R top in
    let N := B2R near in let F := B2R far in
    side_range prec q L R -> side_range prec q B T -> depth_range prec q N F ->
    let m := persp_new left right bottom top near far in
    fnear (persp_near m) N (24 * u * N) /\
    fnear (persp_far m) F ((7 * (F / N) + 24) * u * F) /\
    fnear (persp_left m) L (36 * u * (R + L)) /\ fnear (persp_right m) R (36 * u * (R + L)) /\
    fnear (persp_bottom m) B (36 * u * (T + B)) /\ fnear (persp_top m) T (36 * u * (T + B)).
Proof. exact c143_perspective_planes. Qed.
Print Assumptions C143_perspective_planes_partial.

(** The same for an orthographic projection; near is only as good as u times far. *)
Theorem C143_orthographic_planes_partial :
  forall (prec emax : Z) (Hp : Prec_gt_0 prec) (He : Prec_lt_emax prec emax) (q : Z)
    (left right bottom top near far : binary_float prec emax),
    (24 <= prec)%Z -> (1 <= q)%Z -> (6 * q + 31 <= emax)%Z ->
    is_finite left = true -> is_finite right = true -> is_finite bottom = true -> is_finite top = true ->
    is_finite near = true -> is_finite far = true ->
    let u := bpow radix2 (- prec) in
    let L := B2R left in let R := B2R right in let B := B2R bottom in let T := B2R top in
    let N := B2R near in let F := B2R far in
    side_range prec q L R -> side_range prec q B T -> depth_range prec q N F ->
    let m := ortho_new left right bottom top near far in
    fnear (ortho_near m) N (19 * u * F) /\ fnear (ortho_far m) F (23 * u * F) /\
    fnear (ortho_left m) L (11 * u * (R + L)) /\ fnear (ortho_right m) R (11 * u * (R + L)) /\
    fnear (ortho_bottom m) B (11 * u * (T + B)) /\ fnear (ortho_top m) T (11 * u * (T + B)).
Proof. exact c143_orthographic_planes. Qed.
Print Assumptions C143_orthographic_planes_partial.

(** Unprojecting a float point [c] whose exact preimage is (x, y, -d): the depth is within 62 u d^2 / N, the sides within 170 u (d / N)^2 times the width. *)
Theorem C143_perspective_unproject_partial :
  forall (prec emax : Z) (Hp : Prec_gt_0 prec) (He : Prec_lt_emax prec emax) (q : Z)
    (left right bottom top near far : binary_float prec emax) (c : point (binary_float prec emax) 3) (x y d : R),
    (24 <= prec)%Z -> (1 <= q)%Z -> (6 * q + 31 <= emax)%Z ->
    is_finite left = true -> is_finite right = true -> is_finite bottom = true -> is_finite top = true ->
    is_finite near = true -> is_finite far = true ->
    (forall i, (i < 3)%nat -> is_finite (vat c i) = true /\ Rabs (B2R (vat c i)) <= 5 / 4) ->
    let u := bpow radix2 (- prec) in
    let L := B2R left in let R := B2R right in let B := B2R bottom in let T := B2R top in
    let N := B2R near in let F := B2R far in
    side_range prec q L R -> side_range prec q B T -> depth_range prec q N F ->
    0 < d <= 5 / 4 * F ->
    B2R (vat c 0) = persp_side N L R d x -> B2R (vat c 1) = persp_side N B T d y -> B2R (vat c 2) = persp_depth N F d ->
    let r := persp_unproject_point (persp_new left right bottom top near far) c in
    fnear (vat r 0) x (170 * u * (R + L) * (d / N) ^ 2) /\ fnear (vat r 1) y (170 * u * (T + B) * (d / N) ^ 2) /\
    fnear (vat r 2) (- d) (62 * u * (d * d / N)).
Proof. exact c143_perspective_unproject. Qed.
Print Assumptions C143_perspective_unproject_partial.

(** The same for an orthographic projection: 18 u times the width and 52 u times far. *)
Theorem C143_orthographic_unproject_partial :
  forall (prec emax : Z) (Hp : Prec_gt_0 prec) (He : Prec_lt_emax prec emax) (q : Z)
    (left right bottom top near far : binary_float prec emax) (c : point (binary_float prec emax) 3) (x y d : R),
    (24 <= prec)%Z -> (1 <= q)%Z -> (6 * q + 31 <= emax)%Z ->
    is_finite left = true -> is_finite right = true -> is_finite bottom = true -> is_finite top = true ->
    is_finite near = true -> is_finite far = true ->
    (forall i, (i < 3)%nat -> is_finite (vat c i) = true /\ Rabs (B2R (vat c i)) <= 5 / 4) ->
    let u := bpow radix2 (- prec) in
    let L := B2R left in let R := B2R right in let B := B2R bottom in let T := B2R top in
    let N := B2R near in let F := B2R far in
    side_range prec q L R -> side_range prec q B T -> depth_range prec q N F ->
    B2R (vat c 0) = ortho_side L R x -> B2R (vat c 1) = ortho_side B T y -> B2R (vat c 2) = ortho_depth N F d ->
    let r := ortho_unproject_point (ortho_new left right bottom top near far) c in
    fnear (vat r 0) x (18 * u * (R + L)) /\ fnear (vat r 1) y (18 * u * (T + B)) /\ fnear (vat r 2) (- d) (52 * u * F).
Proof. exact c143_orthographic_unproject. Qed.
Print Assumptions C143_orthographic_unproject_partial.

(** Projecting a float point of the frustum and taking it back.  The second coordinate returns for vertically symmetric frusta only (see C79). *)
Theorem C143_perspective_round_trip_partial :
  forall (prec emax : Z) (Hp : Prec_gt_0 prec) (He : Prec_lt_emax prec emax) (q : Z)
    (left right bottom top near far : binary_float prec emax) (p : point (binary_float prec emax) 3),
    (24 <= prec)%Z -> (1 <= q)%Z -> (6 * q + 31 <= emax)%Z ->
    is_finite left = true -> is_finite right = true -> is_finite bottom = true -> is_finite top = true ->
    is_finite near = true -> is_finite far = true -> (forall i, (i < 3)%nat -> is_finite (vat p i) = true) ->
    let u := bpow radix2 (- prec) in
    let L := B2R left in let R := B2R right in let B := B2R bottom in let T := B2R top in
    let N := B2R near in let F := B2R far in
    let x := B2R (vat p 0) in let y := B2R (vat p 1) in let d := - B2R (vat p 2) in
    side_range prec q L R -> side_range prec q B T -> depth_range prec q N F ->
    in_frustum L R B T N F (v3 x y (- d)) ->
    let m := persp_new left right bottom top near far in
    let r := persp_unproject_point m (persp_project_point m p) in
    fnear (vat r 0) x (225 * u * (R + L) * (d / N) ^ 2) /\
    (B = T -> fnear (vat r 1) y (225 * u * (T + B) * (d / N) ^ 2)) /\
    fnear (vat r 2) (- d) (102 * u * (d * d / N)).
Proof. exact c143_perspective_round_trip. Qed.
Print Assumptions C143_perspective_round_trip_partial.

(** The same for an orthographic projection, for every point of the box. *)
Theorem C143_orthographic_round_trip_partial :
  forall (prec emax : Z) (Hp : Prec_gt_0 prec) (He : Prec_lt_emax prec emax) (q : Z)
    (left right bottom top near far : binary_float prec emax) (p : point (binary_float prec emax) 3),
    (24 <= prec)%Z -> (1 <= q)%Z -> (6 * q + 31 <= emax)%Z ->
    is_finite left = true -> is_finite right = true -> is_finite bottom = true -> is_finite top = true ->
    is_finite near = true -> is_finite far = true -> (forall i, (i < 3)%nat -> is_finite (vat p i) = true) ->
    let u := bpow radix2 (- prec) in
    let L := B2R left in let R := B2R right in let B := B2R bottom in let T := B2R top in
    let N := B2R near in let F := B2R far in
    let x := B2R (vat p 0) in let y := B2R (vat p 1) in let d := - B2R (vat p 2) in
    side_range prec q L R -> side_range prec q B T -> depth_range prec q N F ->
    in_box L R B T N F (v3 x y (- d)) ->
    let m := ortho_new left right bottom top near far in
    let r := ortho_unproject_point m (ortho_project_point m p) in
    fnear (vat r 0) x (26 * u * (R + L)) /\ fnear (vat r 1) y (26 * u * (T + B)) /\ fnear (vat r 2) (- d) (79 * u * F).
Proof. exact c143_orthographic_round_trip. Qed.
Print Assumptions C143_orthographic_round_trip_partial.

(** The hypotheses hold in [f64] for planes 1, 2, 1, 1, 1, 1000 and the point (2, -1, -3); here [near] comes back exactly and [far] does not. *)
Example C143_example :
  let i : Z -> f64 := f64_of_Z in
  (24 <= 53)%Z /\ (1 <= 100)%Z /\ (6 * 100 + 31 <= 1024)%Z /\
  (forall z, In z (1 :: 2 :: 3 :: 1000 :: nil)%Z -> is_finite (i z) = true /\ B2R (i z) = IZR z) /\
  side_range 53 100 1 2 /\ side_range 53 100 1 1 /\ depth_range 53 100 1 1000 /\
  in_frustum 1 2 1 1 1 1000 (v3 2 (-1) (-3)) /\ in_box 1 2 1 1 1 1000 (v3 2 (-1) (-3)) /\
  (0 < 3 <= 5 / 4 * 1000 /\ Rabs (persp_side 1 1 2 3 2) <= 5 / 4 /\ Rabs (persp_side 1 1 1 3 (-1)) <= 5 / 4 /\ Rabs (persp_depth 1 1000 3) <= 5 / 4) /\
  persp_near (persp_new (i 1) (i 2) (i 1) (i 1) (i 1) (i 1000))%Z = i 1%Z /\
  persp_far (persp_new (i 1) (i 2) (i 1) (i 1) (i 1) (i 1000))%Z <> i 1000%Z.
Proof. exact c143_example. Qed.
