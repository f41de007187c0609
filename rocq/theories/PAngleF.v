(** C116: angle normalization in floats. *)

From Coq Require Import ZArith Bool Reals.
From Flocq Require Import Core.Core IEEE754.BinarySingleNaN.
From Verif Require Import Base Scalar MFloat MAngleF LAngleFP.
Local Open Scope R_scope.

(** ** C116 Angle normalization in floats *)

(** Every format, every positive float [T] as full turn, every finite angle: the result is finite, in [0, T] and within
    one unit roundoff (relative) of the exact representative in [0, T); it is exact for non-negative angles.  The
    documented range [0, T) is not proved: see the refutation. *)
Theorem C116_normalize_partial :
  forall (prec emax : Z) (Hp : Prec_gt_0 prec) (He : Prec_lt_emax prec emax) (T a : binary_float prec emax),
    is_finite T = true -> 0 < B2R T -> is_finite a = true ->
    is_finite (fa_normalize T a) = true /\ 0 <= B2R (fa_normalize T a) <= B2R T /\
    (exists k : Z, 0 <= B2R a + IZR k * B2R T < B2R T /\
       Rabs (B2R (fa_normalize T a) - (B2R a + IZR k * B2R T)) <= bpow radix2 (- prec) * (B2R a + IZR k * B2R T) /\
       (0 <= B2R a -> B2R (fa_normalize T a) = B2R a + IZR k * B2R T)) /\
    (B2R (fa_normalize T a) <> B2R T -> fa_normalize T (fa_normalize T a) = fa_normalize T a).
Proof. exact c116_normalize_partial. Qed.
Print Assumptions C116_normalize_partial.

(** The documented range [0, full turn) and idempotence fail in [f64] for degrees and radians: a tiny negative angle is
    normalized to the full turn itself, which is normalized to zero. *)
Theorem C116_normalize_refuted :
  (exists a : f64, is_finite a = true /\ fa_normalize f64_full_degrees a = f64_full_degrees /\
     B2R (fa_normalize f64_full_degrees (fa_normalize f64_full_degrees a)) = 0) /\
  (exists a : f64, is_finite a = true /\ fa_normalize f64_full_radians a = f64_full_radians /\
     B2R (fa_normalize f64_full_radians (fa_normalize f64_full_radians a)) = 0).
Proof. exact c116_normalize_refuted. Qed.
Print Assumptions C116_normalize_refuted.

(** [normalize_signed]: always in (-T/2, T/2], within one unit roundoff (relative to [T]) of an angle congruent to the
    argument, and exactly idempotent.  ([T] at least twice the least normal number.) *)
Theorem C116_normalize_signed :
  forall (prec emax : Z) (Hp : Prec_gt_0 prec) (He : Prec_lt_emax prec emax) (T a : binary_float prec emax),
    is_finite T = true -> 0 < B2R T -> (2 <= prec)%Z -> bpow radix2 (3 - emax) <= B2R T -> is_finite a = true ->
    is_finite (fa_normalize_signed T a) = true /\ - (B2R T / 2) < B2R (fa_normalize_signed T a) <= B2R T / 2 /\
    (exists k : Z, Rabs (B2R (fa_normalize_signed T a) - (B2R a + IZR k * B2R T)) <= bpow radix2 (- prec) * B2R T) /\
    fa_normalize_signed T (fa_normalize_signed T a) = fa_normalize_signed T a.
Proof. exact c116_normalize_signed. Qed.
Print Assumptions C116_normalize_signed.

(** The documented range of [normalize_signed] is [-T/2, T/2); the code returns T/2 for the angle T/2. *)
Theorem C116_signed_range_refuted :
  exists a : f64, is_finite a = true /\ B2R (fa_normalize_signed f64_full_degrees a) = B2R f64_full_degrees / 2.
Proof. exact c116_signed_range_refuted. Qed.
Print Assumptions C116_signed_range_refuted.

(** NaN and infinite angles give NaN. *)
Theorem C116_special :
  forall (prec emax : Z) (Hp : Prec_gt_0 prec) (He : Prec_lt_emax prec emax) (T a : binary_float prec emax),
    is_finite T = true -> 0 < B2R T -> is_finite a = false ->
    is_nan (fa_normalize T a) = true /\ is_nan (fa_normalize_signed T a) = true.
Proof. exact c116_special. Qed.
Print Assumptions C116_special.

(** [opposite] and [bisect] are within the rounding errors of the exact angles modulo a full turn. *)
Theorem C116_opposite_bisect :
  forall (prec emax : Z) (Hp : Prec_gt_0 prec) (He : Prec_lt_emax prec emax) (T a b : binary_float prec emax),
    is_finite T = true -> 0 < B2R T -> (2 <= prec)%Z -> bpow radix2 (3 - emax) <= B2R T ->
    (is_finite (a + fa_half_turn T)%N_ = true -> 0 <= B2R (fa_opposite T a) <= B2R T /\
       exists k : Z, Rabs (B2R (fa_opposite T a) - (B2R a + B2R T / 2 + IZR k * B2R T)) <=
         bpow radix2 (- prec) * (Rabs (B2R a + B2R T / 2) + B2R T)) /\
    (is_finite ((b - a) * ndiv 1 fa_two + a)%N_ = true -> 0 <= B2R (fa_bisect T a b) <= B2R T /\
       exists k : Z, Rabs (B2R (fa_bisect T a b) - ((B2R a + B2R b) / 2 + IZR k * B2R T)) <=
         3 * bpow radix2 (- prec) * (Rabs ((B2R a + B2R b) / 2) + Rabs (B2R b - B2R a) + B2R T)).
Proof. exact c116_opposite_bisect. Qed.
Print Assumptions C116_opposite_bisect.

(** 450 degrees is 90, -90 is 270 or (signed) -90; the full turns are finite and large enough. *)
Example C116_example :
  B2SF (fa_normalize f64_full_degrees (f64_of_Z 450)) = B2SF (f64_of_Z 90) /\
  B2SF (fa_normalize f64_full_degrees (f64_of_Z (-90))) = B2SF (f64_of_Z 270) /\
  B2SF (fa_normalize_signed f64_full_degrees (f64_of_Z 270)) = B2SF (f64_of_Z (-90)) /\
  is_finite f64_full_degrees = true /\ bpow radix2 (3 - 1024) <= B2R f64_full_degrees.
Proof. exact c116_example. Qed.
