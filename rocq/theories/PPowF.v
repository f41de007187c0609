(** Property theorems about integer powers of complex floats (C147). *)

From Coq Require Import List Arith ZArith Reals.
From Flocq Require Import Core.Core IEEE754.BinarySingleNaN.
From Verif Require Import Base Scalar MComplex MFloat MSign SpecPowF MPowF LPowFP.
Local Open Scope R_scope.

(** ** C147 *)

(** Positive powers, by [powu] and by [powi]: an error of 4 u (n - 1), relative to the modulus of the exact power, as long as the number and its power are in the normal range. *)
Theorem C147_positive :
  forall (prec emax : Z) (Hp : Prec_gt_0 prec) (He : Prec_lt_emax prec emax) (z : complex (binary_float prec emax)) (n : nat),
  let a := B2R (re z) in let b := B2R (im z) in let A := sqrt (a * a + b * b) in
  (24 <= prec)%Z -> (1 <= n)%nat -> is_finite (re z) = true -> is_finite (im z) = true ->
  bpow radix2 (7 - emax) <= A <= bpow radix2 (emax - 4) -> bpow radix2 (7 - emax) <= A ^ n <= bpow radix2 (emax - 4) ->
  12 * INR n * bpow radix2 (- prec) <= 1 ->
  exists w w', cpowu z n = Some w /\ fcpowi z (Z.of_nat n) = Some w' /\
    znear w (zpow a b n) (4 * (INR n - 1) * bpow radix2 (- prec) * A ^ n) /\
    znear w' (zpow a b n) (4 * (INR n - 1) * bpow radix2 (- prec) * A ^ n).
Proof. exact c147_positive. Qed.
Print Assumptions C147_positive.

(** 2 to the power -3 is 1/2 in [f64] as well: the float version of C34. *)
Theorem C147_negative_refuted :
  exists (z w : complex f64) (n : Z), (n < 0)%Z /\ B2R (re z) = 2 /\ B2R (im z) = 0 /\ fcpowi z n = Some w /\
    B2R (re w) = / 2 /\ fst (zpow (/ 2) 0 (Z.to_nat (- n))) = / 8.
Proof. exact c147_negative_refuted. Qed.
Print Assumptions C147_negative_refuted.

(** Negative powers: the odd part m of the exponent is ignored, and up to that the error is 11 u times the power of two.  Missing: the claim for exponents that are not powers of two, which is false. *)
Theorem C147_negative_partial :
  forall (prec emax : Z) (Hp : Prec_gt_0 prec) (He : Prec_lt_emax prec emax) (z : complex (binary_float prec emax)) (k m : nat),
  let a := B2R (re z) in let b := B2R (im z) in let S := a * a + b * b in let I := / sqrt S in
  (24 <= prec)%Z -> Nat.odd m = true -> is_finite (re z) = true -> is_finite (im z) = true ->
  bpow radix2 (7 - emax) <= S <= bpow radix2 (emax - 4) -> bpow radix2 (7 - emax) <= I <= bpow radix2 (emax - 4) ->
  bpow radix2 (7 - emax) <= I ^ (2 ^ k) <= bpow radix2 (emax - 4) ->
  32 * INR (2 ^ k) * bpow radix2 (- prec) <= 1 ->
  exists w, fcpowi z (- Z.of_nat (2 ^ k * m)) = Some w /\
    znear w (zpow (a / S) (- b / S) (2 ^ k)) (11 * INR (2 ^ k) * bpow radix2 (- prec) * I ^ (2 ^ k)).
Proof. exact c147_negative_partial. Qed.
Print Assumptions C147_negative_partial.

(** A power that overflows is not infinite but half NaN, even on the real axis. *)
Theorem C147_overflow_refuted :
  exists (z w : complex f64), is_finite (re z) = true /\ B2R (im z) = 0 /\ is_finite (im z) = true /\ cpowu z 3 = Some w /\
    re w = B754_infinity false /\ is_nan (im w) = true.
Proof. exact c147_overflow_refuted. Qed.
Print Assumptions C147_overflow_refuted.

(** Exponent zero gives 1 whatever the base; NaN stays NaN; a negative power of zero is NaN. *)
Theorem C147_special :
  forall (prec emax : Z) (Hp : Prec_gt_0 prec) (He : Prec_lt_emax prec emax) (z : complex (binary_float prec emax)),
  cpowu z 0 = Some (mkC n1 n0) /\ fcpowi z 0 = Some (mkC n1 n0) /\
  (forall n, (0 < n)%Z -> cis_nan z = true -> fcpowi z n = Some z) /\
  (forall n, (n < 0)%Z -> cis_nan z = true -> exists w, fcpowi z n = Some w /\ cis_nan w = true) /\
  (forall n, (n < 0)%Z -> B2R (cmodulus_squared z) = 0 -> is_finite (cmodulus_squared z) = true -> exists w, fcpowi z n = Some w /\ is_nan (re w) = true /\ is_nan (im w) = true).
Proof. exact c147_special. Qed.
Print Assumptions C147_special.

(** The hypotheses hold for (3 - 4 i)^5 in [f64]. *)
Example C147_example :
  let z : complex f64 := mkC (f64_of_Z 3) (f64_of_Z (-4)) in
  is_finite (re z) = true /\ is_finite (im z) = true /\
  bpow radix2 (7 - 1024) <= sqrt (B2R (re z) * B2R (re z) + B2R (im z) * B2R (im z)) <= bpow radix2 (1024 - 4) /\
  bpow radix2 (7 - 1024) <= sqrt (B2R (re z) * B2R (re z) + B2R (im z) * B2R (im z)) ^ 5 <= bpow radix2 (1024 - 4) /\
  12 * INR 5 * bpow radix2 (- 53) <= 1 /\ zpow 3 (-4) 5 = (-237, 3116) /\
  exists w, cpowu z 5 = Some w /\ B2SF (re w) = B2SF (f64_of_Z (-237)) /\ B2SF (im w) = B2SF (f64_of_Z 3116).
Proof. exact c147_example. Qed.
