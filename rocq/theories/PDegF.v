(** Property theorems about degrees and radians in floats (C133). *)

From Coq Require Import ZArith Reals.
From Flocq Require Import Core.Core IEEE754.BinarySingleNaN.
From Verif Require Import Base Scalar SpecF SpecCR MFloat MComplexF MDegF LDegFP.
Local Open Scope R_scope.

(** ** C133 *)

(** The factors, computed in [f64] and cast, are within a third of the unit roundoff of pi/180 and 180/pi; a full turn is 2 pi up to rounding
    and 360 exactly. *)
Theorem C133_constants :
  fnear f64_per_degree (PI / 180) (bpow radix2 (-53) / 3 * (PI / 180)) /\ fnear f64_per_radian (180 / PI) (bpow radix2 (-53) / 3 * (180 / PI)) /\
  fnear f32_per_degree (PI / 180) (bpow radix2 (-24) / 3 * (PI / 180)) /\ fnear f32_per_radian (180 / PI) (bpow radix2 (-24) / 3 * (180 / PI)) /\
  fnear f64_full_turn (2 * PI) (bpow radix2 (-53) * (2 * PI)) /\ fnear f32_full_turn (2 * PI) (bpow radix2 (-24) * (2 * PI)) /\
  fint f64_full_turn_degrees 360 /\ fint f32_full_turn_degrees 360.
Proof. exact c133_constants. Qed.
Print Assumptions C133_constants.

(** [Radians::from(Degrees)] of every finite number: never overflows, one and a half roundings off at most. *)
Theorem C133_to_radians :
  (forall x : f64, is_finite x = true ->
     let r := B2R x * (PI / 180) in fnear (f64_to_radians x) r (3 / 2 * bpow radix2 (-53) * Rabs r + bpow radix2 (-1075))) /\
  (forall x : f32, is_finite x = true ->
     let r := B2R x * (PI / 180) in fnear (f32_to_radians x) r (3 / 2 * bpow radix2 (-24) * Rabs r + bpow radix2 (-150))).
Proof. exact c133_to_radians. Qed.
Print Assumptions C133_to_radians.

(** [Degrees::from(Radians)] of every number up to 2^1016 ([f32]: 2^120). *)
Theorem C133_to_degrees :
  (forall x : f64, is_finite x = true -> Rabs (B2R x) <= bpow radix2 1016 ->
     let d := B2R x * (180 / PI) in fnear (f64_to_degrees x) d (3 / 2 * bpow radix2 (-53) * Rabs d + bpow radix2 (-1075))) /\
  (forall x : f32, is_finite x = true -> Rabs (B2R x) <= bpow radix2 120 ->
     let d := B2R x * (180 / PI) in fnear (f32_to_degrees x) d (3 / 2 * bpow radix2 (-24) * Rabs d + bpow radix2 (-150))).
Proof. exact c133_to_degrees. Qed.
Print Assumptions C133_to_degrees.

(** Degrees to radians and back, radians to degrees and back: at most 3.1 roundings off. *)
Theorem C133_round_trip :
  (forall x : f64, is_finite x = true -> Rabs (B2R x) <= bpow radix2 1020 ->
     fnear (f64_to_degrees (f64_to_radians x)) (B2R x) (31 / 10 * bpow radix2 (-53) * Rabs (B2R x) + 60 * bpow radix2 (-1075))) /\
  (forall x : f64, is_finite x = true -> Rabs (B2R x) <= bpow radix2 1016 ->
     fnear (f64_to_radians (f64_to_degrees x)) (B2R x) (31 / 10 * bpow radix2 (-53) * Rabs (B2R x) + 2 * bpow radix2 (-1075))) /\
  (forall x : f32, is_finite x = true -> Rabs (B2R x) <= bpow radix2 124 ->
     fnear (f32_to_degrees (f32_to_radians x)) (B2R x) (31 / 10 * bpow radix2 (-24) * Rabs (B2R x) + 60 * bpow radix2 (-150))) /\
  (forall x : f32, is_finite x = true -> Rabs (B2R x) <= bpow radix2 120 ->
     fnear (f32_to_radians (f32_to_degrees x)) (B2R x) (31 / 10 * bpow radix2 (-24) * Rabs (B2R x) + 2 * bpow radix2 (-150))).
Proof. exact c133_round_trip. Qed.
Print Assumptions C133_round_trip.

(** The round trip is not exact: Degrees(3) in [f64], Degrees(15) in [f32], and in both the sixth of a turn, whose radians do not convert to
    60 degrees. *)
Theorem C133_not_exact :
  (exists x : f64, fint x 3 /\ f64_to_degrees (f64_to_radians x) <> x) /\
  (exists x : f32, fint x 15 /\ f32_to_degrees (f32_to_radians x) <> x) /\
  (let x := f64_turn_div f64_full_turn_degrees 6 in f64_to_degrees (f64_to_radians x) <> x /\ f64_to_degrees (f64_turn_div f64_full_turn 6) <> x) /\
  (let x := f32_turn_div f32_full_turn_degrees 6 in f32_to_degrees (f32_to_radians x) <> x /\ f32_to_degrees (f32_turn_div f32_full_turn 6) <> x).
Proof. exact c133_exact_round_trip_refuted. Qed.
Print Assumptions C133_not_exact.

(** The other named fractions of a turn convert exactly in both directions. *)
Theorem C133_named_angles :
  (f64_to_radians (f64_of_Z 360) = f64_full_turn /\ f64_to_degrees f64_full_turn = f64_of_Z 360) /\
  (f32_to_radians (f32_of_Z 360) = f32_full_turn /\ f32_to_degrees f32_full_turn = f32_of_Z 360) /\
  (forall k d : Z, (k, d) = (2, 180)%Z \/ (k, d) = (4, 90)%Z \/ (k, d) = (8, 45)%Z ->
     f64_turn_div f64_full_turn_degrees k = f64_of_Z d /\ f64_to_radians (f64_of_Z d) = f64_turn_div f64_full_turn k /\
     f64_to_degrees (f64_turn_div f64_full_turn k) = f64_of_Z d /\
     f32_turn_div f32_full_turn_degrees k = f32_of_Z d /\ f32_to_radians (f32_of_Z d) = f32_turn_div f32_full_turn k /\
     f32_to_degrees (f32_turn_div f32_full_turn k) = f32_of_Z d) /\
  (f64_turn_div f64_full_turn_degrees 6 = f64_of_Z 60 /\ f64_to_radians (f64_of_Z 60) = f64_turn_div f64_full_turn 6) /\
  (f32_turn_div f32_full_turn_degrees 6 = f32_of_Z 60 /\ f32_to_radians (f32_of_Z 60) = f32_turn_div f32_full_turn 6).
Proof. exact c133_named_angles. Qed.
Print Assumptions C133_named_angles.

(** Both conversions keep the order. *)
Theorem C133_order :
  (forall x y : f64, is_finite x = true -> is_finite y = true -> B2R x <= B2R y -> B2R (f64_to_radians x) <= B2R (f64_to_radians y)) /\
  (forall x y : f32, is_finite x = true -> is_finite y = true -> B2R x <= B2R y -> B2R (f32_to_radians x) <= B2R (f32_to_radians y)) /\
  (forall x y : f64, is_finite x = true -> is_finite y = true -> Rabs (B2R x) <= bpow radix2 1016 -> Rabs (B2R y) <= bpow radix2 1016 ->
     B2R x <= B2R y -> B2R (f64_to_degrees x) <= B2R (f64_to_degrees y)) /\
  (forall x y : f32, is_finite x = true -> is_finite y = true -> Rabs (B2R x) <= bpow radix2 120 -> Rabs (B2R y) <= bpow radix2 120 ->
     B2R x <= B2R y -> B2R (f32_to_degrees x) <= B2R (f32_to_degrees y)).
Proof. exact c133_order. Qed.
Print Assumptions C133_order.

(** [Degrees::sin] and [Degrees::cos] with a library of absolute error [e]: the error of the conversion is added, which grows with the angle. *)
Theorem C133_sine_cosine :
  (forall (fn : f64 -> f64) (e : R) (x : f64), is_finite x = true ->
     let r := B2R x * (PI / 180) in let d := e + (3 / 2 * bpow radix2 (-53) * Rabs r + bpow radix2 (-1075)) in
     ((forall y, is_finite y = true -> fnear (fn y) (sin (B2R y)) e) -> fnear (f64_deg_fun fn x) (sin r) d) /\
     ((forall y, is_finite y = true -> fnear (fn y) (cos (B2R y)) e) -> fnear (f64_deg_fun fn x) (cos r) d)) /\
  (forall (fn : f32 -> f32) (e : R) (x : f32), is_finite x = true ->
     let r := B2R x * (PI / 180) in let d := e + (3 / 2 * bpow radix2 (-24) * Rabs r + bpow radix2 (-150)) in
     ((forall y, is_finite y = true -> fnear (fn y) (sin (B2R y)) e) -> fnear (f32_deg_fun fn x) (sin r) d) /\
     ((forall y, is_finite y = true -> fnear (fn y) (cos (B2R y)) e) -> fnear (f32_deg_fun fn x) (cos r) d)).
Proof. exact c133_sine_cosine. Qed.
Print Assumptions C133_sine_cosine.

(** No library makes the sine of Degrees(180) or the cosine of Degrees(90) zero, unless its error there exceeds the value itself: the former is
    positive in [f64] and negative in [f32], and so is the latter. *)
Theorem C133_straight_angle :
  (forall fn : f64 -> f64, let y := f64_to_radians (f64_of_Z 180) in
     fnear (fn y) (sin (B2R y)) (/ 10000000000000000) -> 0 < B2R (f64_deg_fun fn (f64_of_Z 180))) /\
  (forall fn : f64 -> f64, let y := f64_to_radians (f64_of_Z 90) in
     fnear (fn y) (cos (B2R y)) (/ 20000000000000000) -> 0 < B2R (f64_deg_fun fn (f64_of_Z 90))) /\
  (forall fn : f32 -> f32, let y := f32_to_radians (f32_of_Z 180) in
     fnear (fn y) (sin (B2R y)) (8 / 100000000) -> B2R (f32_deg_fun fn (f32_of_Z 180)) < 0) /\
  (forall fn : f32 -> f32, let y := f32_to_radians (f32_of_Z 90) in
     fnear (fn y) (cos (B2R y)) (4 / 100000000) -> B2R (f32_deg_fun fn (f32_of_Z 90)) < 0).
Proof. exact c133_straight_angle. Qed.
Print Assumptions C133_straight_angle.

(** [Degrees::asin], [atan] stay within 90 degrees, [acos] within 0 and 180, [atan2] within 180 degrees, exactly, if the library's results stay
    within the rounded quarter or half turn. *)
Theorem C133_inverse_ranges :
  (forall (k d : Z), (k, d) = (2, 180)%Z \/ (k, d) = (4, 90)%Z ->
    (forall (fn : f64 -> f64) (x : f64), is_finite (fn x) = true -> Rabs (B2R (fn x)) <= B2R (f64_turn_div f64_full_turn k) ->
       fbnd (IZR d) (f64_deg_arc fn x) /\ (0 <= B2R (fn x) -> 0 <= B2R (f64_deg_arc fn x))) /\
    (forall (fn : f64 -> f64 -> f64) (y x : f64), is_finite (fn y x) = true -> Rabs (B2R (fn y x)) <= B2R (f64_turn_div f64_full_turn k) ->
       fbnd (IZR d) (f64_deg_atan2 fn y x)) /\
    (forall (fn : f32 -> f32) (x : f32), is_finite (fn x) = true -> Rabs (B2R (fn x)) <= B2R (f32_turn_div f32_full_turn k) ->
       fbnd (IZR d) (f32_deg_arc fn x) /\ (0 <= B2R (fn x) -> 0 <= B2R (f32_deg_arc fn x))) /\
    (forall (fn : f32 -> f32 -> f32) (y x : f32), is_finite (fn y x) = true -> Rabs (B2R (fn y x)) <= B2R (f32_turn_div f32_full_turn k) ->
       fbnd (IZR d) (f32_deg_atan2 fn y x))).
Proof. exact c133_inverse_ranges. Qed.
Print Assumptions C133_inverse_ranges.

(** The error of the inverse functions in degrees, given the error [e] of the library for the angle [a]. *)
Theorem C133_inverse_accuracy :
  (forall (fn : f64 -> f64) (x : f64) (a e : R), fnear (fn x) a e -> Rabs a + e <= bpow radix2 1016 ->
     fnear (f64_deg_arc fn x) (a * (180 / PI)) (180 / PI * (e + 3 / 2 * bpow radix2 (-53) * (Rabs a + e)) + bpow radix2 (-1075))) /\
  (forall (fn : f64 -> f64 -> f64) (y x : f64) (a e : R), fnear (fn y x) a e -> Rabs a + e <= bpow radix2 1016 ->
     fnear (f64_deg_atan2 fn y x) (a * (180 / PI)) (180 / PI * (e + 3 / 2 * bpow radix2 (-53) * (Rabs a + e)) + bpow radix2 (-1075))) /\
  (forall (fn : f32 -> f32) (x : f32) (a e : R), fnear (fn x) a e -> Rabs a + e <= bpow radix2 120 ->
     fnear (f32_deg_arc fn x) (a * (180 / PI)) (180 / PI * (e + 3 / 2 * bpow radix2 (-24) * (Rabs a + e)) + bpow radix2 (-150))) /\
  (forall (fn : f32 -> f32 -> f32) (y x : f32) (a e : R), fnear (fn y x) a e -> Rabs a + e <= bpow radix2 120 ->
     fnear (f32_deg_atan2 fn y x) (a * (180 / PI)) (180 / PI * (e + 3 / 2 * bpow radix2 (-24) * (Rabs a + e)) + bpow radix2 (-150))).
Proof. exact c133_inverse_accuracy. Qed.
Print Assumptions C133_inverse_accuracy.

(** [csc], [sec], [cot]: the relative error doubles at most and two roundings are added; at a zero of the function they are infinite. *)
Theorem C133_reciprocals :
  (forall (fn : f64 -> f64) (x : f64) (v e : R), v <> 0 -> 0 <= e <= / 2 -> fnear (fn x) v (e * Rabs v) -> bpow radix2 (-1022) <= Rabs v ->
     fnear (f64_recip_fun fn x) (/ v) (2 * (e + bpow radix2 (-53)) / Rabs v + bpow radix2 (-1075))) /\
  (forall (fn : f32 -> f32) (x : f32) (v e : R), v <> 0 -> 0 <= e <= / 2 -> fnear (fn x) v (e * Rabs v) -> bpow radix2 (-126) <= Rabs v ->
     fnear (f32_recip_fun fn x) (/ v) (2 * (e + bpow radix2 (-24)) / Rabs v + bpow radix2 (-150))) /\
  (forall (fn : f64 -> f64) (x : f64) s, fn x = B754_zero s -> f64_recip_fun fn x = B754_infinity s) /\
  (forall (fn : f32 -> f32) (x : f32) s, fn x = B754_zero s -> f32_recip_fun fn x = B754_infinity s).
Proof. exact c133_reciprocals. Qed.
Print Assumptions C133_reciprocals.

(** The hypotheses hold for the correctly rounded library, at 180 degrees and at 30 degrees. *)
Example C133_example :
  forall nb : bool,
    (forall y : f64, is_finite y = true ->
       fnear (m_sin (cr_libm nb) y) (sin (B2R y)) (bpow radix2 (-52)) /\ fnear (m_cos (cr_libm nb) y) (cos (B2R y)) (bpow radix2 (-52))) /\
    (let y := f64_to_radians (f64_of_Z 180) in fnear (m_sin (cr_libm nb) y) (sin (B2R y)) (/ 10000000000000000)) /\
    (let x := f64_of_Z 30 in is_finite x = true /\ Rabs (B2R x) <= bpow radix2 1016 /\ B2R x * (PI / 180) = PI / 6).
Proof. exact c133_example. Qed.
