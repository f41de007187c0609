(** Property theorems about traces, inner products and products with a transpose in floats (C156). *)

From Coq Require Import List Arith ZArith Reals.
From Flocq Require Import Core.Core IEEE754.BinarySingleNaN.
From Verif Require Import Base Scalar Spec SpecF MReal MVector MMatrix MPoint MQuat MFloat MFloatVec LTraceFP.
Local Open Scope R_scope.

(** ** C156 *)

(** The shortcuts for products with a transpose give the very floats of the long way round. *)
Theorem C156_transposed :
  forall (prec emax : Z) (Hp : Prec_gt_0 prec) (He : Prec_lt_emax prec emax) (r c k : nat)
    (a b : mat (binary_float prec emax) r c) (d : mat (binary_float prec emax) r k) (e : mat (binary_float prec emax) c r) (m : mat (binary_float prec emax) r r),
  mtr_mul a d = mmul (mtranspose a) d /\ mtr_dot a e = mdot a (mtranspose e) /\ mdot a b = mdot b a /\
  mtrace (mtranspose m) = mtrace m /\ mtrace (mtr_mul a b) = mtrace (mtr_mul b a) /\ mtranspose (mtr_mul a d) = mtr_mul d a.
Proof. exact c156_transposed. Qed.
Print Assumptions C156_transposed.

(** Swapping the arguments of a distance changes no bit, whatever the entries. *)
Theorem C156_distance_symmetric :
  forall (prec emax : Z) (Hp : Prec_gt_0 prec) (He : Prec_lt_emax prec emax) (r c n : nat)
    (a b : mat (binary_float prec emax) r c) (v w : vec (binary_float prec emax) n) (p q : quat (binary_float prec emax)),
  mdist_squared a b = mdist_squared b a /\ vdist_squared v w = vdist_squared w v /\ fvdist v w = fvdist w v /\
  pdist_squared (v : point _ n) w = pdist_squared (w : point _ n) v /\ qdist_squared p q = qdist_squared q p.
Proof. exact c156_distance_symmetric. Qed.
Print Assumptions C156_distance_symmetric.

(** The trace, in any dimension: relative to the sum of the magnitudes, and without an underflow term. *)
Theorem C156_trace_error :
  forall (prec emax : Z) (Hp : Prec_gt_0 prec) (He : Prec_lt_emax prec emax) (n : nat) (m : mat (binary_float prec emax) n n),
  is_finite (mtrace m) = true ->
  Rabs (B2R (mtrace m) - sum n (fun i => B2R (mget m i i))) <= ((1 + bpow radix2 (- prec)) ^ n - 1) * sum n (fun i => Rabs (B2R (mget m i i))).
Proof. exact c156_trace_error. Qed.
Print Assumptions C156_trace_error.

(** The inner product of two matrices of any shape. *)
Theorem C156_inner_product_error :
  forall (prec emax : Z) (Hp : Prec_gt_0 prec) (He : Prec_lt_emax prec emax) (r c : nat) (a b : mat (binary_float prec emax) r c),
  is_finite (mdot a b) = true ->
  Rabs (B2R (mdot a b) - sum r (fun i => sum c (fun j => B2R (mget a j i) * B2R (mget b j i)))) <=
    ((1 + bpow radix2 (- prec)) ^ (r * c + 1) - 1) * sum r (fun i => sum c (fun j => Rabs (B2R (mget a j i) * B2R (mget b j i))))
    + INR (r * c) * bpow radix2 (2 - emax - prec) * (1 + bpow radix2 (- prec)) ^ (r * c).
Proof. exact c156_inner_product_error. Qed.
Print Assumptions C156_inner_product_error.

(** A squared norm is never negative and the squared distance of a finite matrix to itself is zero. *)
Theorem C156_norm_squared :
  forall (prec emax : Z) (Hp : Prec_gt_0 prec) (He : Prec_lt_emax prec emax) (r c : nat) (a : mat (binary_float prec emax) r c),
  (is_nan (mnorm_squared a) = true \/ Bsign (mnorm_squared a) = false) /\
  ((forall j i, (j < c)%nat -> (i < r)%nat -> is_finite (mget a j i) = true) -> mdist_squared a a = n0).
Proof. exact c156_norm_squared. Qed.
Print Assumptions C156_norm_squared.

(** The triple product against the determinant of the three vectors. *)
Theorem C156_triple :
  forall (prec emax : Z) (Hp : Prec_gt_0 prec) (He : Prec_lt_emax prec emax) (v w x : vec (binary_float prec emax) 3) (A B C : R),
  let inr t := bpow radix2 (31 - emax) <= t <= bpow radix2 (emax - 31) in let e (y : vec (binary_float prec emax) 3) i := B2R (vat y i) in
  (24 <= prec)%Z -> 0 < A -> 0 < B -> 0 < C -> inr (A * B) -> inr (A * B * C) ->
  (forall i, (i < 3)%nat -> fbnd A (vat v i) /\ fbnd B (vat w i) /\ fbnd C (vat x i)) ->
  fnear (vtriple v w x)
    (e v 0%nat * (e w 1%nat * e x 2%nat - e w 2%nat * e x 1%nat) - e v 1%nat * (e w 0%nat * e x 2%nat - e w 2%nat * e x 0%nat) + e v 2%nat * (e w 0%nat * e x 1%nat - e w 1%nat * e x 0%nat))
    (31 * bpow radix2 (- prec) * (A * B * C)).
Proof. exact c156_triple. Qed.
Print Assumptions C156_triple.

(** The inner product and the trace of the transposed product are not the same float: they add in different orders. *)
Theorem C156_differs :
  let a : mat f64 2 2 := m2new (f64_of_Z (2 ^ 53)) (f64_of_Z 1) (f64_of_Z 1) (f64_of_Z 1) in let b : mat f64 2 2 := m2new n1 n1 n1 n1 in
  is_finite (mdot a b) = true /\ is_finite (mtrace (mtr_mul a b)) = true /\ B2R (mdot a b) <> B2R (mtrace (mtr_mul a b)).
Proof. exact c156_differs. Qed.
Print Assumptions C156_differs.

(** A trace of 1/10 and 2/10 in f64 is not 3/10 but obeys the bound. *)
Example C156_example :
  let t k : f64 := ndiv (f64_of_Z k) (f64_of_Z 10) in let a : mat f64 2 2 := m2new (t 1%Z) (f64_of_Z 2) (f64_of_Z (-3)) (t 2%Z) in
  is_finite (mtrace a) = true /\ is_finite (mdot a a) = true /\ B2R (mtrace a) <> B2R (t 3%Z) /\
  Rabs (B2R (mtrace a) - (B2R (t 1%Z) + B2R (t 2%Z))) <= bpow radix2 (-51) * (Rabs (B2R (t 1%Z)) + Rabs (B2R (t 2%Z))).
Proof. exact c156_example. Qed.
