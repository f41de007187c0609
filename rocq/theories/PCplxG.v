(** Property theorems about other bases, complex exponents and the polar form of complex numbers in floats (C149). *)

From Coq Require Import List Arith ZArith Reals.
From Flocq Require Import Core.Core IEEE754.BinarySingleNaN.
From Verif Require Import Base Scalar SpecF SpecCplx SpecLibm SpecCR MFloat MComplex MSign MComplexF MCplxG LCplxFQ LCplxGP.
Local Open Scope R_scope.

(** ** C149 *)

(** [from_angle] is as accurate as sine and cosine; the way to the polar form and back has an error of 17 d r. *)
Theorem C149_polar :
  forall (prec emax : Z) {Hp : Prec_gt_0 prec} {He : Prec_lt_emax prec emax} (L : libm (binary_float prec emax)) (d : R),
  bpow radix2 (- prec) <= d <= / 64 ->
  (forall a : binary_float prec emax, lib_at d cos (m_cos L) a -> lib_at d sin (m_sin L) a -> let t := B2R a in
     fnear (re (fc_from_angle L a)) (cos t) (d * Rabs (cos t)) /\ fnear (im (fc_from_angle L a)) (sin t) (d * Rabs (sin t))) /\
  (forall (z : complex (binary_float prec emax)) (r phi : R) (k : Z), (24 <= prec)%Z -> (0 <= k)%Z -> (2 * k + 31 <= emax)%Z -> cis_finite z = true ->
     B2R (re z) = r * cos phi -> B2R (im z) = r * sin phi -> - PI <= phi <= PI -> bpow radix2 (- k) <= r <= bpow radix2 k ->
     fnear (m_atan2 L (im z) (re z)) phi (d * Rabs phi) ->
     lib_at d cos (m_cos L) (m_atan2 L (im z) (re z)) -> lib_at d sin (m_sin L) (m_atan2 L (im z) (re z)) ->
     let w := fc_from_polar L (fst (fc_polar L z)) (snd (fc_polar L z)) in let c := 17 * d * r + bpow radix2 (2 - emax - prec) in
     fnear (fst (fc_polar L z)) r (8 * bpow radix2 (- prec) * r) /\ fnear (snd (fc_polar L z)) phi (d * Rabs phi) /\
     fnear (re w) (B2R (re z)) c /\ fnear (im w) (B2R (im z)) c).
Proof. exact c149_polar. Qed.
Print Assumptions C149_polar.

(** [exp2]: an error of 5 d plus twice the error of the angle, relative to 2^x; the angle y ln 2 has an error of 4 d |y|. *)
Theorem C149_exp2 :
  forall (prec emax : Z) {Hp : Prec_gt_0 prec} {He : Prec_lt_emax prec emax} (L : libm (binary_float prec emax)) (d : R),
  bpow radix2 (- prec) <= d <= / 64 ->
  forall (exp2 : binary_float prec emax -> binary_float prec emax) (ln_2 : binary_float prec emax) (z : complex (binary_float prec emax)), is_finite (im z) = true ->
    let x := B2R (re z) in let y := B2R (im z) in let t := nmul (im z) ln_2 in
    let tiny := bpow radix2 (2 - emax - prec) in let h := 4 * d * Rabs y + tiny in let p := Rpower 2 x in
    fnear ln_2 (ln 2) (d * ln 2) -> lib_at d (Rpower 2) exp2 (re z) -> lib_at d cos (m_cos L) t -> lib_at d sin (m_sin L) t ->
    h <= / 4 -> p <= bpow radix2 (emax - 3) ->
    fnear (re (fc_exp2 L exp2 ln_2 z)) (p * cos (y * ln 2)) ((5 * d + 2 * h) * p + tiny) /\
    fnear (im (fc_exp2 L exp2 ln_2 z)) (p * sin (y * ln 2)) ((5 * d + 2 * h) * p + tiny).
Proof. exact c149_exp2. Qed.
Print Assumptions C149_exp2.

(** The logarithm to any base: the real part has an absolute error, the imaginary part a relative one. *)
Theorem C149_log :
  forall (prec emax : Z) {Hp : Prec_gt_0 prec} {He : Prec_lt_emax prec emax} (L : libm (binary_float prec emax)) (d : R),
  bpow radix2 (- prec) <= d <= / 64 -> (24 <= prec)%Z ->
  forall (log : binary_float prec emax -> binary_float prec emax -> binary_float prec emax) (z : complex (binary_float prec emax)) (b : binary_float prec emax) (r phi : R) (k : Z),
    (0 <= k)%Z -> (2 * k + 31 <= emax)%Z -> cis_finite z = true ->
    B2R (re z) = r * cos phi -> B2R (im z) = r * sin phi -> - PI <= phi <= PI -> bpow radix2 (- k) <= r <= bpow radix2 k ->
    fnear (m_atan2 L (im z) (re z)) phi (d * Rabs phi) ->
    let q := ln (B2R b) in let l := ln (B2R (fc_norm z)) / q in q <> 0 -> Rabs (phi / q) <= bpow radix2 (emax - 2) ->
    fnear (log (fc_norm z) b) l (d * Rabs l) -> lib_at d ln (m_ln L) b ->
    fnear (re (fc_log L log z b)) (ln r / q) ((d * Rabs (ln r) + 10 * bpow radix2 (- prec)) / Rabs q) /\ near_rel (5 * d) (im (fc_log L log z b)) (phi / q).
Proof. exact c149_log. Qed.
Print Assumptions C149_log.

(** The logarithms to the bases 2 and 10, which divide the natural logarithm. *)
Theorem C149_log2_log10 :
  forall (prec emax : Z) {Hp : Prec_gt_0 prec} {He : Prec_lt_emax prec emax} (L : libm (binary_float prec emax)) (d : R),
  bpow radix2 (- prec) <= d <= / 64 -> (24 <= prec)%Z ->
  forall (ln_2 ln_10 : binary_float prec emax) (z : complex (binary_float prec emax)) (r phi : R) (k : Z),
    fnear ln_2 (ln 2) (d * ln 2) -> fnear ln_10 (ln 10) (d * ln 10) ->
    (0 <= k)%Z -> (2 * k + 31 <= emax)%Z -> cis_finite z = true ->
    B2R (re z) = r * cos phi -> B2R (im z) = r * sin phi -> - PI <= phi <= PI -> bpow radix2 (- k) <= r <= bpow radix2 k ->
    fnear (m_atan2 L (im z) (re z)) phi (d * Rabs phi) -> lib_at d ln (m_ln L) (fc_norm z) ->
    let e q := (4 * d * Rabs (ln r) + 11 * bpow radix2 (- prec)) / q + bpow radix2 (2 - emax - prec) in
    (fnear (re (fc_log2 L ln_2 z)) (ln r / ln 2) (e (ln 2)) /\ near_rel (5 * d) (im (fc_log2 L ln_2 z)) (phi / ln 2)) /\
    (fnear (re (fc_log10 L ln_10 z)) (ln r / ln 10) (e (ln 10)) /\ near_rel (5 * d) (im (fc_log10 L ln_10 z)) (phi / ln 10)).
Proof. exact c149_log2_log10. Qed.
Print Assumptions C149_log2_log10.

(** [exp] of [ln] leads back; the error grows with |ln r|. *)
Theorem C149_exp_of_ln :
  forall (prec emax : Z) {Hp : Prec_gt_0 prec} {He : Prec_lt_emax prec emax} (L : libm (binary_float prec emax)) (d : R),
  bpow radix2 (- prec) <= d <= / 64 -> (24 <= prec)%Z ->
  forall (z : complex (binary_float prec emax)) (r phi : R) (k : Z), (0 <= k)%Z -> (2 * k + 31 <= emax)%Z -> cis_finite z = true ->
    B2R (re z) = r * cos phi -> B2R (im z) = r * sin phi -> - PI <= phi <= PI -> bpow radix2 (- k) <= r <= bpow radix2 k ->
    fnear (m_atan2 L (im z) (re z)) phi (d * Rabs phi) -> lib_at d ln (m_ln L) (fc_norm z) ->
    let w := fc_ln L z in let h := 10 * d * (1 + Rabs (ln r)) in h <= / 5 ->
    lib_at d exp (m_exp L) (re w) -> lib_at d cos (m_cos L) (im w) -> lib_at d sin (m_sin L) (im w) ->
    let c := (6 * d + 3 * h) * r + bpow radix2 (2 - emax - prec) in
    fnear (re (fc_exp L w)) (B2R (re z)) c /\ fnear (im (fc_exp L w)) (B2R (im z)) c.
Proof. exact c149_exp_of_ln. Qed.
Print Assumptions C149_exp_of_ln.

(** Complex exponents a + b i other than zero: the result has modulus p = exp(a ln r - b phi) and angle a phi + b ln r, up to 6 d + 3 h, where h is the error of the exponent times the logarithm. *)
Theorem C149_powc_partial :
  forall (prec emax : Z) {Hp : Prec_gt_0 prec} {He : Prec_lt_emax prec emax} (L : libm (binary_float prec emax)) (d : R),
  bpow radix2 (- prec) <= d <= / 64 -> (24 <= prec)%Z ->
  forall (z e : complex (binary_float prec emax)) (r phi : R) (k : Z), (0 <= k)%Z -> (2 * k + 31 <= emax)%Z -> cis_finite z = true ->
    B2R (re z) = r * cos phi -> B2R (im z) = r * sin phi -> - PI <= phi <= PI -> bpow radix2 (- k) <= r <= bpow radix2 k ->
    fnear (m_atan2 L (im z) (re z)) phi (d * Rabs phi) -> lib_at d ln (m_ln L) (fc_norm z) ->
    cis_finite e = true -> let a := B2R (re e) in let b := B2R (im e) in a <> 0 \/ b <> 0 ->
    let w := cmul e (fc_ln L z) in let tiny := bpow radix2 (2 - emax - prec) in let h := 18 * d * ((Rabs a + Rabs b) * (1 + Rabs (ln r))) + 3 * tiny in
    lib_at d exp (m_exp L) (re w) -> lib_at d cos (m_cos L) (im w) -> lib_at d sin (m_sin L) (im w) ->
    let p := exp (a * ln r - b * phi) in let t := a * phi + b * ln r in h <= / 5 -> p <= bpow radix2 (emax - 3) ->
    fnear (re (fc_powc L z e)) (p * cos t) ((6 * d + 3 * h) * p + tiny) /\ fnear (im (fc_powc L z e)) (p * sin t) ((6 * d + 3 * h) * p + tiny).
Proof. exact c149_powc. Qed.
Print Assumptions C149_powc_partial.

(** The exponent zero gives 1 whatever the base, even NaN. *)
Theorem C149_powc_zero_exponent :
  forall (prec emax : Z) {Hp : Prec_gt_0 prec} {He : Prec_lt_emax prec emax} (L : libm (binary_float prec emax)) (z e : complex (binary_float prec emax)),
  is_finite (re e) = true -> is_finite (im e) = true -> B2R (re e) = 0 -> B2R (im e) = 0 ->
  is_finite (re (fc_powc L z e)) = true /\ B2R (re (fc_powc L z e)) = 1 /\ im (fc_powc L z e) = B754_zero false.
Proof. exact c149_powc_zero_exponent. Qed.
Print Assumptions C149_powc_zero_exponent.

(** Zero to the power 2 is NaN: ln 0 is -infinity, and multiplying it by the exponent 2 + 0 i contains 0 times infinity. *)
Theorem C149_powc_zero_base_refuted :
  exists z e : complex f64, (cis_finite z = true /\ B2R (re z) = 0 /\ B2R (im z) = 0) /\ (cis_finite e = true /\ B2R (re e) = 2 /\ B2R (im e) = 0) /\
    forall L : libm f64, libm_special L -> m_cos L B754_nan = B754_nan -> m_sin L B754_nan = B754_nan ->
      re (fc_powc L z e) = B754_nan /\ im (fc_powc L z e) = B754_nan.
Proof. exact c149_powc_zero_base_refuted. Qed.
Print Assumptions C149_powc_zero_base_refuted.

(** The hypotheses hold for z = (1 + i) / 2, the exponent 1 + i, the base 2 and a correctly rounded library. *)
Example C149_example :
  let LL : libm f64 := cr_libm true in let z := zz in let e : complex f64 := mkC (f64_of_Z 1) (f64_of_Z 1) in let b := f64_of_Z 2 in let d := bpow radix2 (-50) in let r := 1 / sqrt 2 in let phi := PI / 4 in
  let t := m_atan2 LL (im z) (re z) in let w := cmul e (fc_ln LL z) in
  (cis_finite z = true /\ B2R (re z) = r * cos phi /\ B2R (im z) = r * sin phi /\ - PI <= phi <= PI /\ bpow radix2 (-1) <= r <= bpow radix2 1) /\
  (fnear t phi (d * Rabs phi) /\ lib_at d cos (m_cos LL) t /\ lib_at d sin (m_sin LL) t /\ lib_at d ln (m_ln LL) (fc_norm z)) /\
  (fnear ln2_64 (ln 2) (d * ln 2) /\ fnear ln10_64 (ln 10) (d * ln 10)) /\
  (lib_at d (Rpower 2) exp2_64 (re z) /\ lib_at d cos (m_cos LL) (nmul (im z) ln2_64) /\ lib_at d sin (m_sin LL) (nmul (im z) ln2_64) /\
   4 * d * Rabs (B2R (im z)) + bpow radix2 (-1075) <= / 4 /\ Rpower 2 (B2R (re z)) <= bpow radix2 1021) /\
  (ln (B2R b) <> 0 /\ Rabs (phi / ln (B2R b)) <= bpow radix2 1022 /\ lib_at d ln (m_ln LL) b /\
   let l := ln (B2R (fc_norm z)) / ln (B2R b) in fnear (log_64 (fc_norm z) b) l (d * Rabs l)) /\
  (10 * d * (1 + Rabs (ln r)) <= / 5 /\ lib_at d exp (m_exp LL) (re (fc_ln LL z))) /\
  (cis_finite e = true /\ B2R (re e) = 1 /\ B2R (im e) = 1 /\ lib_at d exp (m_exp LL) (re w) /\ lib_at d cos (m_cos LL) (im w) /\ lib_at d sin (m_sin LL) (im w) /\
   18 * d * ((Rabs 1 + Rabs 1) * (1 + Rabs (ln r))) + 3 * bpow radix2 (-1075) <= / 5 /\ exp (1 * ln r - 1 * phi) <= bpow radix2 1021).
Proof. exact c149_example. Qed.
