(** Property theorems about linear reflection and shear matrices in floats (C159). *)

From Coq Require Import List Arith ZArith Reals.
From Flocq Require Import Core.Core IEEE754.BinarySingleNaN.
From Verif Require Import Base Scalar Spec SpecF SpecArc SpecLibm MReal MVector MMatrix MPoint MTransform MFloat LLinFP.
Import ListNotations.
Local Open Scope R_scope.

(** ** C159 *)

(** Each coordinate shear adds [s] times one coordinate to another, with the two roundings of that expression and no other, and keeps the rest (up to the sign of zeros), for every finite vector and every [s]. *)
Theorem C159_coordinate_shears :
  forall (prec emax : Z) (Hp : Prec_gt_0 prec) (He : Prec_lt_emax prec emax) (s : binary_float prec emax),
  (forall m a b (v : vec (binary_float prec emax) 2), In (m, (a, b)) [(m2shear_xy s, (0, 1)); (m2shear_yx s, (1, 0))]%nat -> all_finite v ->
    feqv (vat (mmulv m v) a) (nadd (vat v a) (nmul s (vat v b))) /\ forall i, (i < 2)%nat -> i <> a -> feqv (vat (mmulv m v) i) (vat v i)) /\
  (forall m a b (v : vec (binary_float prec emax) 3), In (m, (a, b)) [(m3shear_xy s, (0, 1)); (m3shear_xz s, (0, 2)); (m3shear_yx s, (1, 0)); (m3shear_yz s, (1, 2)); (m3shear_zx s, (2, 0)); (m3shear_zy s, (2, 1)); (m3affine_shear_xy s, (0, 1)); (m3affine_shear_yx s, (1, 0))]%nat -> all_finite v ->
    feqv (vat (mmulv m v) a) (nadd (vat v a) (nmul s (vat v b))) /\ forall i, (i < 3)%nat -> i <> a -> feqv (vat (mmulv m v) i) (vat v i)) /\
  (forall m a b (v : vec (binary_float prec emax) 4), In (m, (a, b)) [(m4affine_shear_xy s, (0, 1)); (m4affine_shear_xz s, (0, 2)); (m4affine_shear_yx s, (1, 0)); (m4affine_shear_yz s, (1, 2)); (m4affine_shear_zx s, (2, 0)); (m4affine_shear_zy s, (2, 1))]%nat -> all_finite v ->
    feqv (vat (mmulv m v) a) (nadd (vat v a) (nmul s (vat v b))) /\ forall i, (i < 4)%nat -> i <> a -> feqv (vat (mmulv m v) i) (vat v i)).
Proof. exact c159_coordinate_shears. Qed.
Print Assumptions C159_coordinate_shears.

(** [Matrix3x3::from_shear] moves a vector by [s (v . normal) direction] to within 31 u S P. *)
Theorem C159_shear3 :
  forall (prec emax : Z) (Hp : Prec_gt_0 prec) (He : Prec_lt_emax prec emax) (s : binary_float prec emax) (d n v : vec (binary_float prec emax) 3) (S P : R),
  (24 <= prec)%Z -> (31 <= emax)%Z -> 1 <= S <= bpow radix2 (emax - 31) -> bpow radix2 (31 - emax) <= S * P <= bpow radix2 (emax - 31) -> 0 < P ->
  fbnd S s -> (forall i, (i < 3)%nat -> fbnd 1 (vat d i)) -> (forall i, (i < 3)%nat -> fbnd 1 (vat n i)) -> (forall i, (i < 3)%nat -> fbnd P (vat v i)) -> forall i, (i < 3)%nat ->
  fnear (vat (mmulv (m3from_shear s d n) v) i) (B2R (vat v i) + B2R s * sum 3 (fun k => B2R (vat v k) * B2R (vat n k)) * B2R (vat d i)) (31 * bpow radix2 (- prec) * (S * P)).
Proof. exact c159_shear3. Qed.
Print Assumptions C159_shear3.

(** [Matrix2x2::from_shear]. *)
Theorem C159_shear2 :
  forall (prec emax : Z) (Hp : Prec_gt_0 prec) (He : Prec_lt_emax prec emax) (s : binary_float prec emax) (d n v : vec (binary_float prec emax) 2) (S P : R),
  (24 <= prec)%Z -> (31 <= emax)%Z -> 1 <= S <= bpow radix2 (emax - 31) -> bpow radix2 (31 - emax) <= S * P <= bpow radix2 (emax - 31) -> 0 < P ->
  fbnd S s -> (forall i, (i < 2)%nat -> fbnd 1 (vat d i)) -> (forall i, (i < 2)%nat -> fbnd 1 (vat n i)) -> (forall i, (i < 2)%nat -> fbnd P (vat v i)) -> forall i, (i < 2)%nat ->
  fnear (vat (mmulv (m2from_shear s d n) v) i) (B2R (vat v i) + B2R s * sum 2 (fun k => B2R (vat v k) * B2R (vat n k)) * B2R (vat d i)) (31 * bpow radix2 (- prec) * (S * P)).
Proof. exact c159_shear2. Qed.
Print Assumptions C159_shear2.

(** [Matrix3x3::from_reflection] sends [v] to [v - 2 (v . n) n] to within 49 u P. *)
Theorem C159_reflection3 :
  forall (prec emax : Z) (Hp : Prec_gt_0 prec) (He : Prec_lt_emax prec emax) (n v : vec (binary_float prec emax) 3) (P : R),
  (24 <= prec)%Z -> (31 <= emax)%Z -> bpow radix2 (31 - emax) <= P <= bpow radix2 (emax - 31) -> (forall i, (i < 3)%nat -> fbnd 1 (vat n i)) -> (forall i, (i < 3)%nat -> fbnd P (vat v i)) -> forall i, (i < 3)%nat ->
  fnear (vat (mmulv (m3from_reflection n) v) i) (B2R (vat v i) - 2 * sum 3 (fun k => B2R (vat v k) * B2R (vat n k)) * B2R (vat n i)) (49 * bpow radix2 (- prec) * P).
Proof. exact c159_reflection3. Qed.
Print Assumptions C159_reflection3.

(** [Matrix2x2::from_reflection]. *)
Theorem C159_reflection2 :
  forall (prec emax : Z) (Hp : Prec_gt_0 prec) (He : Prec_lt_emax prec emax) (n v : vec (binary_float prec emax) 2) (P : R),
  (24 <= prec)%Z -> (31 <= emax)%Z -> bpow radix2 (31 - emax) <= P <= bpow radix2 (emax - 31) -> (forall i, (i < 2)%nat -> fbnd 1 (vat n i)) -> (forall i, (i < 2)%nat -> fbnd P (vat v i)) -> forall i, (i < 2)%nat ->
  fnear (vat (mmulv (m2from_reflection n) v) i) (B2R (vat v i) - 2 * sum 2 (fun k => B2R (vat v k) * B2R (vat n k)) * B2R (vat n i)) (49 * bpow radix2 (- prec) * P).
Proof. exact c159_reflection2. Qed.
Print Assumptions C159_reflection2.

(** Reflecting twice in a normal whose squared length is within 16 u of one gives the vector back to within 1000 u P. *)
Theorem C159_reflect_twice :
  forall (prec emax : Z) (Hp : Prec_gt_0 prec) (He : Prec_lt_emax prec emax) (P : R),
  (24 <= prec)%Z -> (34 <= emax)%Z -> bpow radix2 (31 - emax) <= P <= bpow radix2 (emax - 34) ->
  (forall n v : vec (binary_float prec emax) 3, (forall i, (i < 3)%nat -> fbnd 1 (vat n i)) -> (forall i, (i < 3)%nat -> fbnd P (vat v i)) ->
    Rabs (sum 3 (fun k => B2R (vat n k) * B2R (vat n k)) - 1) <= 16 * bpow radix2 (- prec) -> forall i, (i < 3)%nat ->
    fnear (vat (mmulv (m3from_reflection n) (mmulv (m3from_reflection n) v)) i) (B2R (vat v i)) (1000 * bpow radix2 (- prec) * P)) /\
  (forall n v : vec (binary_float prec emax) 2, (forall i, (i < 2)%nat -> fbnd 1 (vat n i)) -> (forall i, (i < 2)%nat -> fbnd P (vat v i)) ->
    Rabs (sum 2 (fun k => B2R (vat n k) * B2R (vat n k)) - 1) <= 16 * bpow radix2 (- prec) -> forall i, (i < 2)%nat ->
    fnear (vat (mmulv (m2from_reflection n) (mmulv (m2from_reflection n) v)) i) (B2R (vat v i)) (1000 * bpow radix2 (- prec) * P)).
Proof. exact c159_reflect_twice. Qed.
Print Assumptions C159_reflect_twice.

(** The computed reflection matrix is symmetric, not only approximately. *)
Theorem C159_symmetric :
  forall (prec emax : Z) (Hp : Prec_gt_0 prec) (He : Prec_lt_emax prec emax),
  (24 <= prec)%Z -> (31 <= emax)%Z ->
  (forall n : vec (binary_float prec emax) 2, (forall i, (i < 2)%nat -> fbnd 1 (vat n i)) -> forall j i, (j < 2)%nat -> (i < 2)%nat -> feqv (mget (m2from_reflection n) j i) (mget (m2from_reflection n) i j)) /\
  (forall n : vec (binary_float prec emax) 3, (forall i, (i < 3)%nat -> fbnd 1 (vat n i)) -> forall j i, (j < 3)%nat -> (i < 3)%nat -> feqv (mget (m3from_reflection n) j i) (mget (m3from_reflection n) i j)).
Proof. exact c159_symmetric. Qed.
Print Assumptions C159_symmetric.

(** The normal (3/5, 4/5) rounded to f64, and a shear. *)
Example C159_example :
  let n : vec f64 2 := v2 (ndiv (f64_of_Z 3) (f64_of_Z 5)) (ndiv (f64_of_Z 4) (f64_of_Z 5)) in let v : vec f64 2 := v2 (f64_of_Z 4) (f64_of_Z (-3)) in
  (forall i, (i < 2)%nat -> fbnd 1 (vat n i) /\ fbnd 4 (vat v i)) /\ Rabs (sum 2 (fun k => B2R (vat n k) * B2R (vat n k)) - 1) <= 16 * bpow radix2 (- 53) /\
  (forall i, (i < 2)%nat -> fnear (vat (mmulv (m2from_reflection n) (mmulv (m2from_reflection n) v)) i) (B2R (vat v i)) (1000 * bpow radix2 (- 53) * 4)) /\
  vat (mmulv (m2shear_xy (f64_of_Z 2)) v) 0 = f64_of_Z (-2) /\ vat (mmulv (m2shear_xy (f64_of_Z 2)) v) 1 = f64_of_Z (-3).
Proof. exact c159_example. Qed.
