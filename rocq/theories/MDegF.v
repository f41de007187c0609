(** Degrees and radians over IEEE floats: conversions and trigonometry of the types [Radians] and [Degrees]
    (crates/cglinalg_trigonometry/src/lib.rs) with rounding.  The functions of the platform's library
    ([sin], [asin], ...) are parameters. *)

From Coq Require Import ZArith Bool.
From Flocq Require Import Core.Core IEEE754.BinarySingleNaN.
From Verif Require Import Base Scalar MFloat.
Local Open Scope num_scope.

(** [core::f64::consts::PI] = 0x400921FB54442D18 = 884279719003555 * 2^-48. *)
Definition f64_pi : f64 := binary_normalize 53 1024 prec64 emax64 mode_NE 884279719003555 (-48) false.

(** [x as f32] for an [f64], which is what [cglinalg_numeric::cast::<f64, f32>] (numeric/src/lib.rs) does for a finite number in
    range; for [S = f64] the cast is the identity. *)
Definition f32_of_f64 (x : f64) : f32 :=
  match x with
  | B754_zero s => B754_zero s
  | B754_infinity s => B754_infinity s
  | B754_nan => B754_nan
  | B754_finite s m e _ => binary_normalize 24 128 prec32 emax32 mode_NE (cond_Zopp s (Zpos m)) e s
  end.

(** 757-759 [Radians::from(Degrees)]: the factor [cast(f64::consts::PI / 180_f64)]; 767-769 [Degrees::from(Radians)]:
    [cast(180_f64 / f64::consts::PI)]. *)
Definition f64_per_degree : f64 := ndiv f64_pi (f64_of_Z 180).
Definition f64_per_radian : f64 := ndiv (f64_of_Z 180) f64_pi.
Definition f32_per_degree : f32 := f32_of_f64 f64_per_degree.
Definition f32_per_radian : f32 := f32_of_f64 f64_per_radian.
Definition f64_to_radians (degrees : f64) : f64 := degrees * f64_per_degree.
Definition f64_to_degrees (radians : f64) : f64 := radians * f64_per_radian.
Definition f32_to_radians (degrees : f32) : f32 := degrees * f32_per_degree.
Definition f32_to_degrees (radians : f32) : f32 := radians * f32_per_radian.

(** 1636, 1693 [full_turn]: [cast(2_f64 * PI)] and [cast(360)]. *)
Definition f64_full_turn : f64 := f64_of_Z 2 * f64_pi.
Definition f32_full_turn : f32 := f32_of_f64 f64_full_turn.
Definition f64_full_turn_degrees : f64 := f64_of_Z 360.
Definition f32_full_turn_degrees : f32 := f32_of_Z 360.
(** 308-392 [full_turn_div_2], [full_turn_div_4], [full_turn_div_6], [full_turn_div_8]: [full_turn() / cast(k)]. *)
Definition f64_turn_div (full : f64) (k : Z) : f64 := ndiv full (f64_of_Z k).
Definition f32_turn_div (full : f32) (k : Z) : f32 := ndiv full (f32_of_Z k).

(** 1698-1709 [Degrees::sin], [cos], [tan]: [Radians::from(self).sin()] and so on. *)
Definition f64_deg_fun (fn : f64 -> f64) (degrees : f64) : f64 := fn (f64_to_radians degrees).
Definition f32_deg_fun (fn : f32 -> f32) (degrees : f32) : f32 := fn (f32_to_radians degrees).
(** 1713-1729 [Degrees::asin], [acos], [atan], [atan2]: the radian result converted. *)
Definition f64_deg_arc (fn : f64 -> f64) (ratio : f64) : f64 := f64_to_degrees (fn ratio).
Definition f32_deg_arc (fn : f32 -> f32) (ratio : f32) : f32 := f32_to_degrees (fn ratio).
Definition f64_deg_atan2 (fn : f64 -> f64 -> f64) (y x : f64) : f64 := f64_to_degrees (fn y x).
Definition f32_deg_atan2 (fn : f32 -> f32 -> f32) (y x : f32) : f32 := f32_to_degrees (fn y x).
(** 526-572 [csc], [cot], [sec]: the reciprocal ([1 / x]) of [sin], [tan], [cos]. *)
Definition f64_recip_fun (fn : f64 -> f64) (x : f64) : f64 := ndiv 1 (fn x).
Definition f32_recip_fun (fn : f32 -> f32) (x : f32) : f32 := ndiv 1 (fn x).
