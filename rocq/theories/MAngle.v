(** Model of crates/cglinalg_trigonometry/src/lib.rs over the reals.  Line numbers refer to
    that file.  [Radians<S>(S)] and [Degrees<S>(S)] are newtypes; both are modelled by the
    wrapped number, the unit being visible in the name of the function. *)

From Coq Require Import Reals.
From Verif Require Import MReal.
Local Open Scope R_scope.

(** Rust [x % t] on floats: x - t * trunc(x / t). *)
Definition rtrunc (x : R) : R :=
  if Rle_dec 0 x then IZR (Int_part x) else - IZR (Int_part (- x)).
Definition rrem (x t : R) : R := x - t * rtrunc (x / t).

(** The methods with a default body in trait [Angle] (282-575), for a unit whose full turn is
    [full]. *)
Section Angle.
Variable full : R.

(** 308-392 [full_turn_div_2] .. [full_turn_div_8]. *)
Definition full_turn_div_2 : R := full / 2.
Definition full_turn_div_4 : R := full / 4.
Definition full_turn_div_6 : R := full / 6.
Definition full_turn_div_8 : R := full / 8.

(** 413-420 [normalize]. *)
Definition angle_normalize (a : R) : R :=
  let remainder := rrem a full in
  if Rlt_dec remainder 0 then remainder + full else remainder.

(** 441-448 [normalize_signed]. *)
Definition angle_normalize_signed (a : R) : R :=
  let remainder := angle_normalize a in
  if Rgt_dec remainder full_turn_div_2 then remainder - full else remainder.

(** 469 [opposite], 502-505 [bisect]. *)
Definition angle_opposite (a : R) : R := angle_normalize (a + full_turn_div_2).
Definition angle_bisect (a b : R) : R := angle_normalize ((b - a) * (1 / 2) + a).
End Angle.

(** 1636 [Radians::full_turn], 1693 [Degrees::full_turn]. *)
Definition rad_full_turn : R := 2 * PI.
Definition deg_full_turn : R := 360.

(** 757 [Radians::from(Degrees)], 767 [Degrees::from(Radians)]. *)
Definition deg_to_rad (d : R) : R := d * (PI / 180).
Definition rad_to_deg (r : R) : R := r * (180 / PI).

(** 1641-1652 [Radians] and 1698-1709 [Degrees] functions; 526-572 [csc], [cot], [sec].  [recip]
    divides by zero at the poles; theorems exclude them. *)
Definition rad_sin (r : R) : R := sin r.
Definition rad_cos (r : R) : R := cos r.
Definition rad_tan (r : R) : R := tan r.
Definition deg_sin (d : R) : R := rad_sin (deg_to_rad d).
Definition deg_cos (d : R) : R := rad_cos (deg_to_rad d).
Definition deg_tan (d : R) : R := rad_tan (deg_to_rad d).
Definition rad_csc (r : R) : R := / rad_sin r.
Definition rad_cot (r : R) : R := / rad_tan r.
Definition rad_sec (r : R) : R := / rad_cos r.

(** 1656-1672, 1713-1729: the inverse functions; degrees convert the radian result. *)
Definition rad_asin (x : R) : R := asin x.
Definition rad_acos (x : R) : R := acos x.
Definition rad_atan (x : R) : R := atan x.
Definition rad_atan2 (y x : R) : R := ratan2 y x.
Definition deg_asin (x : R) : R := rad_to_deg (asin x).
Definition deg_acos (x : R) : R := rad_to_deg (acos x).
Definition deg_atan (x : R) : R := rad_to_deg (atan x).
Definition deg_atan2 (y x : R) : R := rad_to_deg (ratan2 y x).
