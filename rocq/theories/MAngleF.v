(** Angles over IEEE floats: the default methods of trait [Angle] (crates/cglinalg_trigonometry/src/lib.rs) with
    rounding.  [full] is the float [full_turn()] of the unit. *)

From Coq Require Import ZArith Bool.
From Flocq Require Import Core.Core IEEE754.BinarySingleNaN.
From Verif Require Import Base Scalar MFloat MRem.
Local Open Scope num_scope.

Section AngleF.
Context {prec emax : Z} {Hprec : Prec_gt_0 prec} {Hemax : Prec_lt_emax prec emax}.
Notation fl := (binary_float prec emax).
Variable full : fl.

(** 308-311 [full_turn_div_2]: [full_turn() / cast(2)]. *)
Definition fa_two : fl := 1 + 1.
Definition fa_half_turn : fl := ndiv full fa_two.

(** 413-420 [normalize]; [<] of floats is false on NaN. *)
Definition fa_normalize (a : fl) : fl :=
  let remainder := frem a full in
  if Bltb remainder 0 then remainder + full else remainder.

(** 441-448 [normalize_signed]. *)
Definition fa_normalize_signed (a : fl) : fl :=
  let remainder := fa_normalize a in
  if Bltb fa_half_turn remainder then remainder - full else remainder.

(** 469-471 [opposite], 502-505 [bisect] ([cast(0.5)] is exact). *)
Definition fa_opposite (a : fl) : fl := fa_normalize (a + fa_half_turn).
Definition fa_bisect (a b : fl) : fl := fa_normalize ((b - a) * ndiv 1 fa_two + a).
End AngleF.

(** 1693 [Degrees::<f64>::full_turn], 1636 [Radians::<f64>::full_turn]: [2 * PI] with
    [PI = 0x400921FB54442D18 = 884279719003555 * 2^-48]. *)
Definition f64_full_degrees : f64 := f64_of_Z 360.
Definition f64_full_radians : f64 := binary_normalize 53 1024 prec64 emax64 mode_NE 884279719003555 (-47) false.
