(** Property theorems about translations, scales and shears in floats (C130). *)

From Coq Require Import Arith ZArith Reals.
From Flocq Require Import Core.Core IEEE754.BinarySingleNaN.
From Verif Require Import Base Scalar Spec SpecF SpecRigid SpecTrSc MVector MPoint MTransform MFloat LTrScFP.
Local Open Scope R_scope.

(** ** C130 *)

(** [Translation::apply_point] in any format, any dimension, per coordinate: the sum is correct up to one rounding, and undoing the
    translation (either way) gives back the point up to two units of roundoff of the translated coordinate, exactly if that
    coordinate is a float. *)
Theorem C130_translation :
  forall (prec emax : Z) (Hp : Prec_gt_0 prec) (He : Prec_lt_emax prec emax) (n : nat) (t p : vec (binary_float prec emax) n) (i : nat),
    let u := bpow radix2 (- prec) in let q := tr_apply_point (tr_from_vector t) p in
    (i < n)%nat -> is_finite (vat t i) = true -> is_finite (vat p i) = true ->
    Rabs (B2R (vat p i)) <= bpow radix2 (emax - 2) -> Rabs (B2R (vat p i) + B2R (vat t i)) <= bpow radix2 (emax - 2) ->
    fnear (vat q i) (B2R (vat p i) + B2R (vat t i)) (u * Rabs (B2R (vat p i) + B2R (vat t i))) /\
    fnear (vat (tr_inverse_apply_point (tr_from_vector t) q) i) (B2R (vat p i)) (2 * u * Rabs (B2R (vat p i) + B2R (vat t i))) /\
    fnear (vat (tr_apply_point (tr_inverse (tr_from_vector t)) q) i) (B2R (vat p i)) (2 * u * Rabs (B2R (vat p i) + B2R (vat t i))) /\
    (forall z : binary_float prec emax, B2R z = B2R (vat p i) + B2R (vat t i) ->
     B2R (vat q i) = B2R (vat p i) + B2R (vat t i) /\
     B2R (vat (tr_inverse_apply_point (tr_from_vector t) q) i) = B2R (vat p i)).
Proof. exact c130_translation. Qed.
Print Assumptions C130_translation.

(** Points and translations on a common grid (integers times a power of two) are translated and brought back exactly. *)
Theorem C130_translation_grid :
  forall (prec emax : Z) (Hp : Prec_gt_0 prec) (He : Prec_lt_emax prec emax) (n : nat) (t p : vec (binary_float prec emax) n) (i : nat) (k l e : Z),
    let q := tr_apply_point (tr_from_vector t) p in
    (i < n)%nat -> is_finite (vat t i) = true -> is_finite (vat p i) = true ->
    B2R (vat p i) = IZR k * bpow radix2 e -> B2R (vat t i) = IZR l * bpow radix2 e ->
    (3 - emax - prec <= e)%Z -> (e + prec <= emax - 2)%Z -> (Z.abs k < 2 ^ prec)%Z -> (Z.abs (k + l) < 2 ^ prec)%Z ->
    B2R (vat q i) = IZR (k + l) * bpow radix2 e /\ B2R (vat (tr_inverse_apply_point (tr_from_vector t) q) i) = B2R (vat p i).
Proof. exact c130_translation_grid. Qed.
Print Assumptions C130_translation_grid.

(** Products of translations commute exactly; the product and the composition differ by rounding only; the identity does nothing. *)
Theorem C130_translation_products :
  forall (prec emax : Z) (Hp : Prec_gt_0 prec) (He : Prec_lt_emax prec emax) (n : nat) (s t p : vec (binary_float prec emax) n) (i : nat) (M : R),
    let u := bpow radix2 (- prec) in
    (i < n)%nat -> is_finite (vat s i) = true -> is_finite (vat t i) = true -> is_finite (vat p i) = true ->
    Rabs (B2R (vat s i)) <= M -> Rabs (B2R (vat t i)) <= M -> Rabs (B2R (vat p i)) <= M -> M <= bpow radix2 (emax - 4) ->
    tr_mul s t = tr_mul t s /\ tr_inverse (tr_inverse t) = t /\
    fnear (vat (tr_apply_point (tr_identity n) p) i) (B2R (vat p i)) 0 /\
    fnear (vat (tr_apply_point (tr_mul s t) p) i) (B2R (vat p i) + B2R (vat t i) + B2R (vat s i)) (6 * u * M) /\
    fnear (vat (tr_apply_point s (tr_apply_point t p)) i) (B2R (vat p i) + B2R (vat t i) + B2R (vat s i)) (6 * u * M).
Proof. exact c130_translation_products. Qed.
Print Assumptions C130_translation_products.

(** [Scale] in any format, any dimension, per coordinate: the image is correct up to one rounding, [inverse_apply] gives back the
    argument up to two units of roundoff and the inverse scale up to five; powers of two are exact. *)
Theorem C130_scale :
  forall (prec emax : Z) (Hp : Prec_gt_0 prec) (He : Prec_lt_emax prec emax) (n : nat) (s p : vec (binary_float prec emax) n) (i : nat),
    let u := bpow radix2 (- prec) in let f := sc_from_nonuniform_scale s in let x := B2R (vat s i) * B2R (vat p i) in
    (i < n)%nat -> is_finite (vat s i) = true -> is_finite (vat p i) = true -> B2R (vat s i) <> 0 ->
    Rabs (B2R (vat p i)) <= bpow radix2 (emax - 4) -> x = 0 \/ bpow radix2 (2 - emax) <= Rabs x <= bpow radix2 (emax - 1) ->
    fnear (vat (sc_apply_point f p) i) x (u * Rabs x) /\ fnear (vat (sc_apply_vector f p) i) x (u * Rabs x) /\
    fnear (vat (sc_inverse_apply_point f (sc_apply_point f p)) i) (B2R (vat p i)) (2 * u * Rabs (B2R (vat p i))) /\
    fnear (vat (sc_inverse_apply_vector f (sc_apply_vector f p)) i) (B2R (vat p i)) (2 * u * Rabs (B2R (vat p i))) /\
    (bpow radix2 (2 - emax) <= Rabs (B2R (vat s i)) <= bpow radix2 (emax - 2) ->
     fnear (vat (sc_apply_point (sc_inverse f) (sc_apply_point f p)) i) (B2R (vat p i)) (5 * u * Rabs (B2R (vat p i))) /\
     fnear (vat (sc_apply_vector (sc_inverse f) (sc_apply_vector f p)) i) (B2R (vat p i)) (5 * u * Rabs (B2R (vat p i)))) /\
    (forall k, Rabs (B2R (vat s i)) = bpow radix2 k ->
     B2R (vat (sc_apply_point f p) i) = x /\ B2R (vat (sc_apply_vector f p) i) = x /\
     B2R (vat (sc_inverse_apply_point f (sc_apply_point f p)) i) = B2R (vat p i) /\
     B2R (vat (sc_inverse_apply_vector f (sc_apply_vector f p)) i) = B2R (vat p i)).
Proof. exact c130_scale. Qed.
Print Assumptions C130_scale.

(** Shears along a coordinate axis: all other coordinates are kept exactly, and undoing the shear gives back the moved coordinate up
    to six units of roundoff of the larger of its two terms. *)
Theorem C130_axis_shear :
  forall (prec emax : Z) (Hp : Prec_gt_0 prec) (He : Prec_lt_emax prec emax) (n : nat) (f : shear (binary_float prec emax) n)
    (p : vec (binary_float prec emax) n) (i j : nat) (M : R),
    let u := bpow radix2 (- prec) in let s := sh_factor f in
    (i < n)%nat -> (j < n)%nat -> i <> j -> axis_of (sh_direction f) i -> axis_of (sh_normal f) j ->
    (forall k, (k < n)%nat -> is_finite (vat (sh_origin f) k) = true /\ B2R (vat (sh_origin f) k) = 0) ->
    is_finite s = true -> (forall k, (k < n)%nat -> is_finite (vat p k) = true) ->
    bpow radix2 (2 - emax) <= M <= bpow radix2 (emax - 6) -> Rabs (B2R (vat p i)) <= M -> Rabs (B2R s * B2R (vat p j)) <= M ->
    fnear (vat (sh_apply_point f p) i) (B2R (vat p i) + B2R s * B2R (vat p j)) (5 * u * M) /\
    fnear (vat (sh_inverse_apply_point f (sh_apply_point f p)) i) (B2R (vat p i)) (6 * u * M) /\
    (forall k, (k < n)%nat -> k <> i ->
     fnear (vat (sh_apply_point f p) k) (B2R (vat p k)) 0 /\
     fnear (vat (sh_inverse_apply_point f (sh_apply_point f p)) k) (B2R (vat p k)) 0).
Proof. exact c130_axis_shear. Qed.
Print Assumptions C130_axis_shear.

(** The eight constructors of axis shears meet the hypotheses of [C130_axis_shear]. *)
Theorem C130_axis_constructors :
  forall (prec emax : Z) (Hp : Prec_gt_0 prec) (He : Prec_lt_emax prec emax) (s : binary_float prec emax),
    let axes {n} (f : shear (binary_float prec emax) n) (i j : nat) :=
      sh_factor f = s /\ axis_of (sh_direction f) i /\ axis_of (sh_normal f) j /\
      (forall k, (k < n)%nat -> is_finite (vat (sh_origin f) k) = true /\ B2R (vat (sh_origin f) k) = 0) in
    axes (sh2from_shear_xy s) 0%nat 1%nat /\ axes (sh2from_shear_yx s) 1%nat 0%nat /\
    axes (sh3from_shear_xy s) 0%nat 1%nat /\ axes (sh3from_shear_xz s) 0%nat 2%nat /\
    axes (sh3from_shear_yx s) 1%nat 0%nat /\ axes (sh3from_shear_yz s) 1%nat 2%nat /\
    axes (sh3from_shear_zx s) 2%nat 0%nat /\ axes (sh3from_shear_zy s) 2%nat 1%nat.
Proof. exact c130_axis_constructors. Qed.
Print Assumptions C130_axis_constructors.

(** Any shear in up to four dimensions, at least [f32]: the image is the exact shear of the stored data up to 53 S units of
    roundoff, where S bounds the factor, and undoing it gives back the point as far as direction and normal are at right angles. *)
Theorem C130_shear :
  forall (prec emax : Z) (Hp : Prec_gt_0 prec) (He : Prec_lt_emax prec emax) (n : nat)
    (s : binary_float prec emax) (o d m p : vec (binary_float prec emax) n) (S V : R),
    let u := bpow radix2 (- prec) in let f := sh_from_affine_shear s o d m in
    (24 <= prec)%Z -> (n <= 4)%nat -> is_finite s = true -> Rabs (B2R s) <= S -> 1 <= S <= 1024 ->
    bpow radix2 (31 - emax) <= V -> 4 * S * V <= bpow radix2 (emax - 31) ->
    (forall i, (i < n)%nat -> is_finite (vat d i) = true) -> rlength n (fval d) <= 9 / 8 ->
    (forall i, (i < n)%nat -> is_finite (vat m i) = true) -> rlength n (fval m) <= 9 / 8 ->
    (forall i, (i < n)%nat -> is_finite (vat o i) = true) -> rlength n (fval o) <= V ->
    (forall i, (i < n)%nat -> is_finite (vat p i) = true) -> rlength n (fval p) <= V ->
    let image r := rshear n r (fval o) (fval d) (fval m) (fval p) in
    vfnear (sh_apply_point f p) (image (B2R s)) (53 * S * u * V) /\ vfnear (sh_apply_vector f p) (image (B2R s)) (53 * S * u * V) /\
    vfnear (sh_inverse_apply_point f p) (image (- B2R s)) (53 * S * u * V) /\ vfnear (sh_inverse_apply_vector f p) (image (- B2R s)) (53 * S * u * V) /\
    vfnear (sh_inverse_apply_point f (sh_apply_point f p)) (fval p) (S * S * (335 * u + 3 * Rabs (sum n (fun i => fval d i * fval m i))) * V).
Proof. exact c130_shear. Qed.
Print Assumptions C130_shear.

(** Round trips are not exact in [f64]: translating 1 by 2^54 and back gives 0; scaling 6 by 0.1 and back gives more than 6;
    scaling 2^-600 by 2^-600 and back gives 0; and a shear whose displacement overflows makes a coordinate it should keep a NaN. *)
Theorem C130_not_exact :
  (exists t p : vec f64 3,
     (forall i, (i < 3)%nat -> is_finite (vat t i) = true /\ is_finite (vat p i) = true) /\ B2R (vat p 0) = 1 /\
     B2R (vat (tr_inverse_apply_point (tr_from_vector t) (tr_apply_point (tr_from_vector t) p)) 0) = 0) /\
  (exists s p : vec f64 3,
     (forall i, (i < 3)%nat -> is_finite (vat s i) = true /\ is_finite (vat p i) = true /\ Bltb (B754_zero false) (vat s i) = true) /\
     Beqb (vat (sc_inverse_apply_point (sc_from_nonuniform_scale s) (sc_apply_point (sc_from_nonuniform_scale s) p)) 0) (vat p 0) = false /\
     vat p 1 = f64_of_Z 6 /\ Bltb (vat p 1) (vat (sc_inverse_apply_point (sc_from_nonuniform_scale s) (sc_apply_point (sc_from_nonuniform_scale s) p)) 1) = true /\
     Bltb (B754_zero false) (vat p 0) = true /\
     B2R (vat (sc_inverse_apply_point (sc_from_nonuniform_scale s) (sc_apply_point (sc_from_nonuniform_scale s) p)) 0) = 0) /\
  (exists (s : f64) (p : vec f64 2),
     is_finite s = true /\ (forall i, (i < 2)%nat -> is_finite (vat p i) = true) /\
     is_nan (vat (sh_apply_point (sh2from_shear_xy s) p) 1) = true).
Proof. exact c130_not_exact. Qed.
Print Assumptions C130_not_exact.

(** The hypotheses hold for small integers in [f64]. *)
Example C130_example :
  let t := v2 (f64_of_Z 3) (f64_of_Z (-7)) in let p := v2 (f64_of_Z 10) (f64_of_Z 2) in
  (forall i, (i < 2)%nat -> is_finite (vat t i) = true /\ is_finite (vat p i) = true /\
     Rabs (B2R (vat p i)) <= bpow radix2 (1024 - 4) /\ Rabs (B2R (vat p i) + B2R (vat t i)) <= bpow radix2 (1024 - 2) /\
     bpow radix2 (2 - 1024) <= Rabs (B2R (vat t i) * B2R (vat p i)) <= bpow radix2 (1024 - 1) /\ B2R (vat t i) <> 0) /\
  axis_of (v2 (f64_of_Z 1) (f64_of_Z 0)) 0 /\ axis_of (v2 (f64_of_Z 0) (f64_of_Z 1)) 1 /\
  bpow radix2 (2 - 1024) <= 100 <= bpow radix2 (1024 - 6) /\
  bpow radix2 (31 - 1024) <= 100 /\ 4 * 3 * 100 <= bpow radix2 (1024 - 31) /\
  rlength 2 (fval (v2 (f64_of_Z 1) (f64_of_Z 0))) <= 9 / 8.
Proof. exact c130_example. Qed.
