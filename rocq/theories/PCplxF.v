(** Property theorems about the accuracy of complex functions in floats (C134). *)

From Coq Require Import ZArith Reals.
From Flocq Require Import Core.Core IEEE754.BinarySingleNaN.
From Verif Require Import Base Scalar SpecF SpecCplx SpecCR MFloat MComplex MFloatVec MSign MComplexF LCplxFQ.
Local Open Scope R_scope.

(** ** C134 *)

(** [exp]: each part is off by at most four times the library's relative error. *)
Theorem C134_exponential :
  forall (prec emax : Z) {Hp : Prec_gt_0 prec} {He : Prec_lt_emax prec emax} (L : libm (binary_float prec emax)) (d : R), bpow radix2 (- prec) <= d <= / 64 ->
    forall z : complex (binary_float prec emax), let x := B2R (re z) in let y := B2R (im z) in
      lib_at d exp (m_exp L) (re z) -> lib_at d cos (m_cos L) (im z) -> lib_at d sin (m_sin L) (im z) -> exp x <= bpow radix2 (emax - 2) ->
      near_rel (4 * d) (re (fc_exp L z)) (exp x * cos y) /\ near_rel (4 * d) (im (fc_exp L z)) (exp x * sin y).
Proof. exact c134_exponential. Qed.
Print Assumptions C134_exponential.

(** [cosh] and [sinh], also at zero where [cosh] has its own branch. *)
Theorem C134_hyperbolic :
  forall (prec emax : Z) {Hp : Prec_gt_0 prec} {He : Prec_lt_emax prec emax} (L : libm (binary_float prec emax)) (d : R), bpow radix2 (- prec) <= d <= / 64 ->
    forall z : complex (binary_float prec emax), let x := B2R (re z) in let y := B2R (im z) in
      cis_finite z = true -> lib_at d cosh (m_cosh L) (re z) -> lib_at d sinh (m_sinh L) (re z) -> lib_at d cos (m_cos L) (im z) -> lib_at d sin (m_sin L) (im z) ->
      cosh x <= bpow radix2 (emax - 2) ->
      (near_rel (4 * d) (re (fc_cosh L z)) (cosh x * cos y) /\ near_rel (4 * d) (im (fc_cosh L z)) (sinh x * sin y)) /\
      (near_rel (4 * d) (re (fc_sinh L z)) (sinh x * cos y) /\ near_rel (4 * d) (im (fc_sinh L z)) (cosh x * sin y)).
Proof. exact c134_hyperbolic. Qed.
Print Assumptions C134_hyperbolic.

(** [cos] and [sin], which are computed from [cosh] and [sinh] of [i z] or its opposite. *)
Theorem C134_trigonometric :
  forall (prec emax : Z) {Hp : Prec_gt_0 prec} {He : Prec_lt_emax prec emax} (L : libm (binary_float prec emax)) (d : R), bpow radix2 (- prec) <= d <= / 64 ->
    forall z : complex (binary_float prec emax), let x := B2R (re z) in let y := B2R (im z) in
      cis_finite z = true -> lib_at d cosh (m_cosh L) (nneg (im z)) -> lib_at d sinh (m_sinh L) (nneg (im z)) -> lib_at d cos (m_cos L) (re z) ->
      lib_at d sin (m_sin L) (re z) -> cosh y <= bpow radix2 (emax - 2) ->
      (near_rel (4 * d) (re (fc_cos L z)) (cos x * cosh y) /\ near_rel (4 * d) (im (fc_cos L z)) (- (sin x * sinh y))) /\
      (near_rel (4 * d) (re (fc_sin L z)) (sin x * cosh y) /\ near_rel (4 * d) (im (fc_sin L z)) (cos x * sinh y)).
Proof. exact c134_trigonometric. Qed.
Print Assumptions C134_trigonometric.

(** [tanh] and [tan]: the relative error grows by the factor [k] by which the sum in the denominator cancels, that is near the poles only. *)
Theorem C134_tangents :
  forall (prec emax : Z) {Hp : Prec_gt_0 prec} {He : Prec_lt_emax prec emax} (L : libm (binary_float prec emax)) (d : R), bpow radix2 (- prec) <= d <= / 64 ->
    forall (z : complex (binary_float prec emax)) (k : R), cis_finite z = true ->
      Rabs (B2R (re z)) <= bpow radix2 (emax - 2) -> Rabs (B2R (im z)) <= bpow radix2 (emax - 2) -> 8 * d * k <= 1 ->
      let a := 2 * B2R (re z) in let b := 2 * B2R (im z) in
      (lib_at d cosh (m_cosh L) (nadd (re z) (re z)) -> lib_at d sinh (m_sinh L) (nadd (re z) (re z)) ->
       lib_at d cos (m_cos L) (nadd (im z) (im z)) -> lib_at d sin (m_sin L) (nadd (im z) (im z)) ->
       cosh a <= / 2 * bpow radix2 (emax - 2) -> 0 < cosh a + cos b -> cosh a + 1 <= k * (cosh a + cos b) ->
       near_rel (12 * d * k) (re (fc_tanh L z)) (sinh a / (cosh a + cos b)) /\ near_rel (12 * d * k) (im (fc_tanh L z)) (sin b / (cosh a + cos b))) /\
      (lib_at d cosh (m_cosh L) (nadd (nneg (im z)) (nneg (im z))) -> lib_at d sinh (m_sinh L) (nadd (nneg (im z)) (nneg (im z))) ->
       lib_at d cos (m_cos L) (nadd (re z) (re z)) -> lib_at d sin (m_sin L) (nadd (re z) (re z)) ->
       cosh b <= / 2 * bpow radix2 (emax - 2) -> 0 < cosh b + cos a -> cosh b + 1 <= k * (cosh b + cos a) ->
       near_rel (12 * d * k) (re (fc_tan L z)) (sin a / (cosh b + cos a)) /\ near_rel (12 * d * k) (im (fc_tan L z)) (sinh b / (cosh b + cos a))).
Proof. exact c134_tangents. Qed.
Print Assumptions C134_tangents.

(** [from_polar], [norm] and [ln]; the real part of [ln] keeps an absolute error of ten roundings near modulus one. *)
Theorem C134_polar :
  forall (prec emax : Z) {Hp : Prec_gt_0 prec} {He : Prec_lt_emax prec emax} (L : libm (binary_float prec emax)) (d : R), bpow radix2 (- prec) <= d <= / 64 ->
    (forall scale angle : binary_float prec emax, is_finite scale = true -> Rabs (B2R scale) <= bpow radix2 (emax - 2) ->
       lib_at d cos (m_cos L) angle -> lib_at d sin (m_sin L) angle ->
       near_rel (4 * d) (re (fc_from_polar L scale angle)) (B2R scale * cos (B2R angle)) /\
       near_rel (4 * d) (im (fc_from_polar L scale angle)) (B2R scale * sin (B2R angle))) /\
    (forall (z : complex (binary_float prec emax)) (r phi : R) (k : Z), (24 <= prec)%Z -> (0 <= k)%Z -> (2 * k + 31 <= emax)%Z -> cis_finite z = true ->
       B2R (re z) = r * cos phi -> B2R (im z) = r * sin phi -> bpow radix2 (- k) <= r <= bpow radix2 k ->
       fnear (fc_norm z) r (8 * bpow radix2 (- prec) * r) /\
       (lib_at d ln (m_ln L) (fc_norm z) -> fnear (re (fc_ln L z)) (ln r) (d * Rabs (ln r) + 10 * bpow radix2 (- prec))) /\
       (fnear (m_atan2 L (im z) (re z)) phi (d * Rabs phi) -> fnear (im (fc_ln L z)) phi (d * Rabs phi))).
Proof. exact c134_polar. Qed.
Print Assumptions C134_polar.

(** [sqrt] is close to the exact square root with nonnegative real part. *)
Theorem C134_square_root :
  forall (prec emax : Z) {Hp : Prec_gt_0 prec} {He : Prec_lt_emax prec emax} (L : libm (binary_float prec emax)) (d : R), (24 <= prec)%Z -> bpow radix2 (- prec) <= d <= / 1000 ->
    forall (z : complex (binary_float prec emax)) (r phi : R) (k : Z), (0 <= k)%Z -> (2 * k + 31 <= emax)%Z -> cis_finite z = true ->
      B2R (re z) = r * cos phi -> B2R (im z) = r * sin phi -> bpow radix2 (- k) <= r <= bpow radix2 k -> - PI <= phi <= PI ->
      fnear (m_atan2 L (im z) (re z)) phi (d * Rabs phi) ->
      let t := ndiv (m_atan2 L (im z) (re z)) (nadd n1 n1) in lib_at d cos (m_cos L) t -> lib_at d sin (m_sin L) t ->
      exists v w : R, 0 <= v /\ v * v - w * w = B2R (re z) /\ 2 * v * w = B2R (im z) /\ v * v + w * w = r /\
        fnear (re (fc_sqrt L z)) v (21 * d * sqrt r) /\ fnear (im (fc_sqrt L z)) w (21 * d * sqrt r).
Proof. exact c134_square_root. Qed.
Print Assumptions C134_square_root.

(** [cbrt] is close to the exact cube root with argument within a third of a straight angle. *)
Theorem C134_cube_root :
  forall (prec emax : Z) {Hp : Prec_gt_0 prec} {He : Prec_lt_emax prec emax} (L : libm (binary_float prec emax)) (d : R), (24 <= prec)%Z -> bpow radix2 (- prec) <= d <= / 1000 ->
    forall (z : complex (binary_float prec emax)) (r phi : R) (k : Z), (0 <= k)%Z -> (2 * k + 31 <= emax)%Z -> cis_finite z = true ->
      B2R (re z) = r * cos phi -> B2R (im z) = r * sin phi -> bpow radix2 (- k) <= r <= bpow radix2 k -> - PI <= phi <= PI ->
      fnear (m_atan2 L (im z) (re z)) phi (d * Rabs phi) -> lib_at d (fun x => Rpower x (/ 3)) (m_cbrt L) (fc_norm z) ->
      let t := ndiv (m_atan2 L (im z) (re z)) (nadd (nadd n1 n1) n1) in lib_at d cos (m_cos L) t -> lib_at d sin (m_sin L) t ->
      exists p v w : R, 0 < p /\ p ^ 3 = r /\ Rabs w <= sqrt 3 * v /\ v ^ 3 - 3 * v * w ^ 2 = B2R (re z) /\ 3 * v ^ 2 * w - w ^ 3 = B2R (im z) /\
        fnear (re (fc_cbrt L z)) v (21 * d * p) /\ fnear (im (fc_cbrt L z)) w (21 * d * p).
Proof. exact c134_cube_root. Qed.
Print Assumptions C134_cube_root.

(** [powf]: the relative error is proportional to the exponent and to one plus the logarithm of the modulus. *)
Theorem C134_power :
  forall (prec emax : Z) {Hp : Prec_gt_0 prec} {He : Prec_lt_emax prec emax} (L : libm (binary_float prec emax)) (d : R), (24 <= prec)%Z -> bpow radix2 (- prec) <= d <= / 64 ->
    forall (z : complex (binary_float prec emax)) (e : binary_float prec emax) (r phi : R) (k : Z), (0 <= k)%Z -> (2 * k + 31 <= emax)%Z ->
      cis_finite z = true -> is_finite e = true ->
      B2R (re z) = r * cos phi -> B2R (im z) = r * sin phi -> bpow radix2 (- k) <= r <= bpow radix2 k -> - PI <= phi <= PI ->
      fnear (m_atan2 L (im z) (re z)) phi (d * Rabs phi) -> lib_at d ln (m_ln L) (fc_norm z) ->
      let x := nmul (m_ln L (fc_norm z)) e in let t := nmul (m_atan2 L (im z) (re z)) e in
      lib_at d exp (m_exp L) x -> lib_at d cos (m_cos L) t -> lib_at d sin (m_sin L) t ->
      let h := 11 * d * Rabs (B2R e) * (1 + Rabs (ln r)) + bpow radix2 (2 - emax - prec) in
      let p := Rpower r (B2R e) in
      h <= / 5 -> p <= bpow radix2 (emax - 3) ->
      fnear (re (fc_powf L z e)) (p * cos (B2R e * phi)) ((6 * d + 3 * h) * p + bpow radix2 (2 - emax - prec)) /\
      fnear (im (fc_powf L z e)) (p * sin (B2R e * phi)) ((6 * d + 3 * h) * p + bpow radix2 (2 - emax - prec)).
Proof. exact c134_power. Qed.
Print Assumptions C134_power.

(** All hypotheses hold for (1 + i)/2, the exponent 3 and the correctly rounded library in [f64]. *)
Example C134_example :
  let L : libm f64 := cr_libm true in let h : f64 := ndiv (f64_of_Z 1) (f64_of_Z 2) in let z := mkC h h in let d := bpow radix2 (-50) in
    let r := 1 / sqrt 2 in let phi := PI / 4 in
    (cis_finite z = true /\ B2R (re z) = / 2 /\ B2R (im z) = / 2) /\
    (lib_at d exp (m_exp L) h /\ lib_at d cos (m_cos L) h /\ lib_at d sin (m_sin L) h /\ lib_at d cosh (m_cosh L) h /\ lib_at d sinh (m_sinh L) h /\
     lib_at d cosh (m_cosh L) (nneg h) /\ lib_at d sinh (m_sinh L) (nneg h) /\ exp (/ 2) <= bpow radix2 1022 /\ cosh (/ 2) <= bpow radix2 1022) /\
    (lib_at d cos (m_cos L) (nadd h h) /\ lib_at d sin (m_sin L) (nadd h h) /\ lib_at d cosh (m_cosh L) (nadd h h) /\ lib_at d sinh (m_sinh L) (nadd h h) /\
     lib_at d cosh (m_cosh L) (nadd (nneg h) (nneg h)) /\ lib_at d sinh (m_sinh L) (nadd (nneg h) (nneg h)) /\
     cosh 1 <= / 2 * bpow radix2 1022 /\ 0 < cosh 1 + cos 1 /\ cosh 1 + 1 <= 2 * (cosh 1 + cos 1) /\ 8 * d * 2 <= 1) /\
    (B2R (re z) = r * cos phi /\ B2R (im z) = r * sin phi /\ - PI <= phi <= PI /\ bpow radix2 (-1) <= r <= bpow radix2 1 /\
     fnear (m_atan2 L h h) phi (d * Rabs phi) /\ lib_at d ln (m_ln L) (fc_norm z) /\ lib_at d (fun x => Rpower x (/ 3)) (m_cbrt L) (fc_norm z)) /\
    (let t := ndiv (m_atan2 L h h) (nadd n1 n1) in lib_at d cos (m_cos L) t /\ lib_at d sin (m_sin L) t) /\
    (let t := ndiv (m_atan2 L h h) (nadd (nadd n1 n1) n1) in lib_at d cos (m_cos L) t /\ lib_at d sin (m_sin L) t) /\
    (let e := f64_of_Z 3 in let x := nmul (m_ln L (fc_norm z)) e in let t := nmul (m_atan2 L h h) e in
     lib_at d exp (m_exp L) x /\ lib_at d cos (m_cos L) t /\ lib_at d sin (m_sin L) t /\
     11 * d * Rabs (B2R e) * (1 + Rabs (ln r)) + bpow radix2 (-1075) <= / 5 /\ Rpower r (B2R e) <= bpow radix2 1021).
Proof. exact c134_example. Qed.
