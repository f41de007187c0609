(** Property theorems about norms and normalisation of float vectors (C97).  [val64 v] is the vector of
    the real values of a [f64] vector, [vnorm] the exact Euclidean norm over the reals; [fvnorm],
    [fvnormalize], [fvtry_normalize] are the float functions of MFloatVec.v. *)

From Coq Require Import List Arith ZArith Reals.
From Flocq Require Import Core.Core IEEE754.BinarySingleNaN.
From Verif Require Import Base Scalar Spec SpecF SpecRigid MVector MFloat MFloatVec LFloatNormP LNormF.
Import ListNotations.

(** ** C97 *)

(** Every format and dimension: a finite [norm] of a vector with exact length [r > 0] has relative error
    (1+u)^(n+2)-1, plus underflow terms that matter only for tiny [r]. *)
Theorem C97_norm_error :
  forall (prec emax : Z) (Hp : Prec_gt_0 prec) (He : Prec_lt_emax prec emax) (n : nat)
    (v : vec (binary_float prec emax) n) (r : R),
    is_finite (fvnorm v) = true ->
    (0 < r)%R -> (r * r = sum n (fun i => B2R (vat v i) * B2R (vat v i)))%R ->
    (Rabs (B2R (fvnorm v) - r)
     <= ((1 + bpow radix2 (- prec)) ^ (n + 2) - 1) * r
        + INR n * bpow radix2 (2 - emax - prec) * (1 + bpow radix2 (- prec)) ^ (n + 1) / r
        + bpow radix2 (2 - emax - prec))%R.
Proof. exact c97_norm_error. Qed.
Print Assumptions C97_norm_error.

(** [f64], at most four components, length between 2^-400 and 2^500: [norm] is finite and accurate to
    eight units of roundoff. *)
Theorem C97_norm_f64_partial :
  forall (n : nat) (v : vec f64 n),
    (n <= 4)%nat -> (forall i, (i < n)%nat -> is_finite (vat v i) = true) ->
    (bpow radix2 (-400) <= vnorm (val64 v) <= bpow radix2 500)%R ->
    is_finite (fvnorm v) = true /\
    (Rabs (B2R (fvnorm v) - vnorm (val64 v)) <= 8 * bpow radix2 (-53) * vnorm (val64 v))%R.
Proof. exact c97_norm_f64_partial. Qed.
Print Assumptions C97_norm_f64_partial.

(** Under the same condition [normalize] returns a finite vector, each component within twelve units of
    roundoff of the exact one, whose length differs from 1 by at most 24 units of roundoff; and
    [try_normalize] with a threshold below half the length returns it.  Missing: lengths outside that range,
    for which the claim is false (see [C97_normalize_refuted]). *)
Theorem C97_normalize_f64_partial :
  forall (n : nat) (v : vec f64 n) (threshold : f64),
    (n <= 4)%nat -> (forall i, (i < n)%nat -> is_finite (vat v i) = true) ->
    (bpow radix2 (-400) <= vnorm (val64 v) <= bpow radix2 500)%R ->
    (forall i, (i < n)%nat ->
       is_finite (vat (fvnormalize v) i) = true /\
       (Rabs (B2R (vat (fvnormalize v) i) - B2R (vat v i) / vnorm (val64 v)) <= 12 * bpow radix2 (-53))%R) /\
    (Rabs (vnorm (val64 (fvnormalize v)) - 1) <= 24 * bpow radix2 (-53))%R /\
    (is_finite threshold = true -> (B2R threshold < vnorm (val64 v) / 2)%R ->
     fvtry_normalize v threshold = Some (fvnormalize v)).
Proof. exact c97_normalize_f64_partial. Qed.
Print Assumptions C97_normalize_f64_partial.

(** Every format of at least the precision of [f32]: lengths between 2^-k and 2^k with 2k + 31 at most the exponent range (k up to
    48 for [f32], 496 for [f64]) are accurate to 8 units of roundoff, and the components of [normalize] to 12. *)
Theorem C97_any_format_partial :
  forall (prec emax : Z) (Hp : Prec_gt_0 prec) (He : Prec_lt_emax prec emax) (n : nat) (k : Z) (v : vec (binary_float prec emax) n),
    let u := bpow radix2 (- prec) in let r := rlength n (fval v) in
    (24 <= prec)%Z -> (n <= 4)%nat -> (0 <= k)%Z -> (2 * k + 31 <= emax)%Z ->
    (forall i, (i < n)%nat -> is_finite (vat v i) = true) -> (bpow radix2 (- k) <= r <= bpow radix2 k)%R ->
    fnear (fvnorm v) r (8 * u * r) /\
    forall i, (i < n)%nat -> fnear (vat (fvnormalize v) i) (fval v i / r)%R (12 * u).
Proof. exact c97_any. Qed.
Print Assumptions C97_any_format_partial.

(** "[normalize] of a finite non-zero vector is a finite vector of length about one" fails in [f64]:
    the squares underflow (norm 0, result NaN or infinite; [try_normalize] with threshold 0 returns [None])
    or overflow (norm infinite, result the zero vector; [try_normalize] returns that zero vector). *)
Theorem C97_normalize_refuted :
  (exists v : vec f64 3,
     (forall i, (i < 3)%nat -> is_finite (vat v i) = true) /\ (0 < B2R (vat v 0))%R /\
     is_finite (fvnorm v) = true /\ B2R (fvnorm v) = 0%R /\
     is_finite (vat (fvnormalize v) 0) = false /\ is_nan (vat (fvnormalize v) 1) = true /\
     fvtry_normalize v (f64_of_Z 0) = None) /\
  (exists v : vec f64 3,
     (forall i, (i < 3)%nat -> is_finite (vat v i) = true) /\ (0 < B2R (vat v 0))%R /\
     is_finite (fvnorm v) = false /\
     (forall i, (i < 3)%nat -> B2R (vat (fvnormalize v) i) = 0%R /\ is_finite (vat (fvnormalize v) i) = true) /\
     fvtry_normalize v (f64_of_Z 0) = Some (fvnormalize v)).
Proof. exact c97_normalize_refuted. Qed.
Print Assumptions C97_normalize_refuted.

(** (3, 4, 0): the length 5 is in range; [norm] is exactly 5 here. *)
Example C97_example :
  let v := v3 (f64_of_Z 3) (f64_of_Z 4) (f64_of_Z 0) in
  B2SF (fvnorm v) = B2SF (f64_of_Z 5) /\
  (forall i, (i < 3)%nat -> is_finite (vat v i) = true) /\
  (bpow radix2 (-400) <= vnorm (val64 v) <= bpow radix2 500)%R.
Proof. exact c97_example. Qed.
