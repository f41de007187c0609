(** Property theorems about the Lp norm in floats (C148). *)

From Coq Require Import List Arith ZArith Reals.
From Flocq Require Import Core.Core IEEE754.BinarySingleNaN.
From Verif Require Import Base Scalar MVector MFloat SpecLpF MLpF LLpFP.
Local Open Scope R_scope.

(** ** C148 *)

(** [f64]: errors [k] of [powi] and [k'] of [powf], in units of roundoff, give an error of 3/2 (k' + (k + n + |ln S|) / p) u, where S is the sum of the powers: everything before the root is divided by p, and rounding the exponent 1/p costs |ln S| / p. *)
Theorem C148_accuracy64 :
  forall (powi : f64 -> Z -> f64) (powf : f64 -> f64 -> f64) (n : nat) (v : vec f64 n) (p : Z) (k k' : R),
  (1 <= p < 2 ^ 31)%Z -> (1 <= n)%nat -> powi_ok powi p k -> powf_ok powf k' -> 0 <= k ->
  (forall i, (i < n)%nat -> is_finite (vat v i) = true) ->
  (forall i, (i < n)%nat -> B2R (vat v i) = 0 \/ bpow radix2 (3 - 1024) <= powerRZ (Rabs (B2R (vat v i))) p) ->
  0 < lp_sum v p <= bpow radix2 (1024 - 3) -> 16 * (k + INR n + Rabs (ln (lp_sum v p))) * bpow radix2 (- 53) <= 1 ->
  let N := Rpower (lp_sum v p) (/ IZR p) in
  is_finite (lp_norm64 powi powf v p) = true /\
  Rabs (B2R (lp_norm64 powi powf v p) - N) <= 3 / 2 * (k' + (k + INR n + Rabs (ln (lp_sum v p))) / IZR p) * bpow radix2 (- 53) * N.
Proof. exact c148_accuracy64. Qed.
Print Assumptions C148_accuracy64.

(** The same in [f32], where the exponent is rounded twice. *)
Theorem C148_accuracy32 :
  forall (powi : f32 -> Z -> f32) (powf : f32 -> f32 -> f32) (n : nat) (v : vec f32 n) (p : Z) (k k' : R),
  (1 <= p < 2 ^ 31)%Z -> (1 <= n)%nat -> powi_ok powi p k -> powf_ok powf k' -> 0 <= k ->
  (forall i, (i < n)%nat -> is_finite (vat v i) = true) ->
  (forall i, (i < n)%nat -> B2R (vat v i) = 0 \/ bpow radix2 (3 - 128) <= powerRZ (Rabs (B2R (vat v i))) p) ->
  0 < lp_sum v p <= bpow radix2 (128 - 3) -> 16 * (k + INR n + Rabs (ln (lp_sum v p))) * bpow radix2 (- 24) <= 1 ->
  let N := Rpower (lp_sum v p) (/ IZR p) in
  is_finite (lp_norm32 powi powf v p) = true /\
  Rabs (B2R (lp_norm32 powi powf v p) - N) <= 3 / 2 * (k' + (k + INR n + Rabs (ln (lp_sum v p))) / IZR p) * bpow radix2 (- 24) * N.
Proof. exact c148_accuracy32. Qed.
Print Assumptions C148_accuracy32.

(** The powers overflow and underflow although the norm does not: with p = 2 a vector of length 2^600 has norm infinity, and one of length 2^-600 has norm 0. *)
Theorem C148_range_refuted :
  forall (powi : f64 -> Z -> f64) (powf : f64 -> f64 -> f64) (k k' : R),
  powi_ok powi 2 k -> powf_ok powf k' ->
  exists v w : vec f64 1, is_finite (vat v 0) = true /\ is_finite (vat w 0) = true /\
    Rpower (lp_sum v 2) (/ IZR 2) = bpow radix2 600 /\ lp_norm64 powi powf v 2 = B754_infinity false /\
    Rpower (lp_sum w 2) (/ IZR 2) = bpow radix2 (-600) /\ lp_norm64 powi powf w 2 = B754_zero false.
Proof. exact c148_range_refuted. Qed.
Print Assumptions C148_range_refuted.

(** Exponents from 2^31 on turn negative: the norm of the vector (2) is 0. *)
Theorem C148_wrap_refuted :
  forall (powi : f64 -> Z -> f64) (powf : f64 -> f64 -> f64) (k k' : R),
  powi_ok powi (- 2 ^ 31) k -> powf_ok powf k' ->
  exists (v : vec f64 1) (p : Z), (0 < p < 2 ^ 32)%Z /\ B2R (vat v 0) = 2 /\ lp_norm64 powi powf v p = B754_zero false.
Proof. exact c148_wrap_refuted. Qed.
Print Assumptions C148_wrap_refuted.

(** Zero vectors, NaN, overflow, and p = 0. *)
Theorem C148_special64 :
  forall (powi : f64 -> Z -> f64) (powf : f64 -> f64 -> f64) (n : nat) (v : vec f64 n) (p : Z) (k k' : R),
  (0 <= p < 2 ^ 31)%Z -> powi_ok powi p k -> powf_ok powf k' ->
  ((p = 0)%Z -> (2 <= n)%nat -> lp_norm64 powi powf v p = B754_infinity false) /\
  ((1 <= p)%Z ->
    ((forall i, (i < n)%nat -> is_finite (vat v i) = true /\ B2R (vat v i) = 0) -> lp_norm64 powi powf v p = B754_zero false) /\
    ((exists i, (i < n)%nat /\ is_nan (vat v i) = true) -> lp_norm64 powi powf v p = B754_nan) /\
    ((forall i, (i < n)%nat -> is_nan (vat v i) = false) ->
     (exists i, (i < n)%nat /\ is_finite (vat v i) = true /\ bpow radix2 1024 <= powerRZ (Rabs (B2R (vat v i))) p) ->
     lp_norm64 powi powf v p = B754_infinity false)).
Proof. exact c148_special64. Qed.
Print Assumptions C148_special64.

(** The same in [f32]. *)
Theorem C148_special32 :
  forall (powi : f32 -> Z -> f32) (powf : f32 -> f32 -> f32) (n : nat) (v : vec f32 n) (p : Z) (k k' : R),
  (0 <= p < 2 ^ 31)%Z -> powi_ok powi p k -> powf_ok powf k' ->
  ((p = 0)%Z -> (2 <= n)%nat -> lp_norm32 powi powf v p = B754_infinity false) /\
  ((1 <= p)%Z ->
    ((forall i, (i < n)%nat -> is_finite (vat v i) = true /\ B2R (vat v i) = 0) -> lp_norm32 powi powf v p = B754_zero false) /\
    ((exists i, (i < n)%nat /\ is_nan (vat v i) = true) -> lp_norm32 powi powf v p = B754_nan) /\
    ((forall i, (i < n)%nat -> is_nan (vat v i) = false) ->
     (exists i, (i < n)%nat /\ is_finite (vat v i) = true /\ bpow radix2 128 <= powerRZ (Rabs (B2R (vat v i))) p) ->
     lp_norm32 powi powf v p = B754_infinity false)).
Proof. exact c148_special32. Qed.
Print Assumptions C148_special32.

(** The requirements on the library can be met. *)
Theorem C148_library :
  forall (prec emax : Z) (Hp : Prec_gt_0 prec) (He : Prec_lt_emax prec emax),
  exists (powi : binary_float prec emax -> Z -> binary_float prec emax) (powf : binary_float prec emax -> binary_float prec emax -> binary_float prec emax),
    (forall n, powi_ok powi n 1) /\ powf_ok powf 1.
Proof. exact c148_library. Qed.
Print Assumptions C148_library.

(** The other hypotheses hold for (3, -4) and p = 3. *)
Example C148_example :
  let v : vec f64 2 := v2 (f64_of_Z 3) (f64_of_Z (-4)) in
  lp_sum v 3 = 91 /\ (forall i, (i < 2)%nat -> is_finite (vat v i) = true) /\
  (forall i, (i < 2)%nat -> B2R (vat v i) = 0 \/ bpow radix2 (3 - 1024) <= powerRZ (Rabs (B2R (vat v i))) 3) /\
  0 < lp_sum v 3 <= bpow radix2 (1024 - 3) /\ 16 * (1 + INR 2 + Rabs (ln (lp_sum v 3))) * bpow radix2 (- 53) <= 1.
Proof. exact c148_example. Qed.
