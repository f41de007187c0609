(** Property theorems about IEEE-754 scalars: laws that survive rounding (C88) and rounding-error
    bounds of dot products and matrix products (C96).  [binary_float prec emax] is Flocq's type of
    floats of any format (53/1024 for [f64], 24/128 for [f32]); [B2R] is the real value of a finite
    float (0 on infinities and NaN, which is why finiteness is always stated beside it). *)

From Coq Require Import List Arith ZArith Reals.
From Flocq Require Import Core.Core IEEE754.BinarySingleNaN.
From Verif Require Import Base Scalar Spec MVector MMatrix MFloat LFloat LFloatP.
Import ListNotations.

(** ** C88 *)

(** No law beyond commutativity of [+] and [*] is assumed of the scalars. *)
Theorem C88_commutative_scalars :
  forall (K : Type) (NK : Num K) (r c k n : nat)
    (addC : forall x y : K, nadd x y = nadd y x) (mulC : forall x y : K, nmul x y = nmul y x)
    (u v : vec K n) (s : K) (a b : mat K r c) (d : mat K c k),
    vadd u v = vadd v u /\ vcmul u v = vcmul v u /\ vdot u v = vdot v u /\ s_mul_v s u = vmul_s u s /\
    madd a b = madd b a /\ mcmul a b = mcmul b a /\ s_mul_m s a = mmul_s a s /\
    mtranspose (mtranspose a) = a /\
    mtranspose (madd a b) = madd (mtranspose a) (mtranspose b) /\
    mtranspose (mmul a d) = mmul (mtranspose d) (mtranspose a) /\
    vadd_assign u v = vadd u v /\ vsub_assign u v = vsub u v /\ vmul_assign u s = vmul_s u s /\
    vcmul_assign u v = vcmul u v /\
    madd_assign a b = madd a b /\ msub_assign a b = msub a b /\ mmul_assign a s = mmul_s a s /\
    mcmul_assign a b = mcmul a b.
Proof. exact c88_commutative_scalars. Qed.
Print Assumptions C88_commutative_scalars.

(** Bit-for-bit laws of the float operations themselves (NaN counting as equal to NaN). *)
Theorem C88_float_scalars :
  forall (prec emax : Z) (Hp : Prec_gt_0 prec) (He : Prec_lt_emax prec emax) (x y : binary_float prec emax),
    nadd x y = nadd y x /\ nmul x y = nmul y x /\ nsub x y = nadd x (nneg y) /\
    nneg (nneg x) = x /\ nmul (nneg x) (nneg y) = nmul x y /\ nmul x n1 = x.
Proof. exact c88_float_scalars. Qed.
Print Assumptions C88_float_scalars.

Theorem C88_float_vectors :
  forall (prec emax : Z) (Hp : Prec_gt_0 prec) (He : Prec_lt_emax prec emax) (n : nat)
    (u v : vec (binary_float prec emax) n) (s : binary_float prec emax),
    vadd u v = vadd v u /\ vcmul u v = vcmul v u /\ vdot u v = vdot v u /\ s_mul_v s u = vmul_s u s /\
    vsub u v = vadd u (vneg v) /\ vneg (vneg u) = u /\ vmul_s u n1 = u /\
    vdot (vneg u) (vneg v) = vdot u v /\ vnorm_squared (vneg u) = vnorm_squared u /\
    (is_nan (vnorm_squared u) = true \/ Bsign (vnorm_squared u) = false).
Proof. exact c88_float_vectors. Qed.
Print Assumptions C88_float_vectors.

Theorem C88_float_matrices :
  forall (prec emax : Z) (Hp : Prec_gt_0 prec) (He : Prec_lt_emax prec emax) (r c k : nat)
    (a b : mat (binary_float prec emax) r c) (d : mat (binary_float prec emax) c k)
    (s : binary_float prec emax),
    madd a b = madd b a /\ mcmul a b = mcmul b a /\ s_mul_m s a = mmul_s a s /\
    msub a b = madd a (mneg b) /\ mneg (mneg a) = a /\ mmul_s a n1 = a /\
    mtranspose (mtranspose a) = a /\ mtranspose (mmul a d) = mmul (mtranspose d) (mtranspose a) /\
    mmul (mneg a) (mneg d) = mmul a d.
Proof. exact c88_float_matrices. Qed.
Print Assumptions C88_float_matrices.

(** On finite entries multiplying by the identity matrix changes no value (it may turn [-0.0] into
    [0.0], which are equal as reals and under [==]). *)
Theorem C88_identity_is_exact :
  forall (prec emax : Z) (Hp : Prec_gt_0 prec) (He : Prec_lt_emax prec emax) (r c : nat)
    (a : mat (binary_float prec emax) r c),
    (forall j i, (j < c)%nat -> (i < r)%nat -> is_finite (mget a j i) = true) ->
    forall j i, (j < c)%nat -> (i < r)%nat ->
      is_finite (mget (mmul a (midentity c)) j i) = true /\
      B2R (mget (mmul a (midentity c)) j i) = B2R (mget a j i) /\
      is_finite (mget (mmul (midentity r) a) j i) = true /\
      B2R (mget (mmul (midentity r) a) j i) = B2R (mget a j i).
Proof. exact c88_identity_is_exact. Qed.
Print Assumptions C88_identity_is_exact.

(** What does not survive rounding, in [f64]: associativity of addition, distributivity of scaling,
    and [v + (-v) = 0] at infinity. *)
Theorem C88_boundary :
  (exists u v w : vec f64 1, vadd (vadd u v) w <> vadd u (vadd v w)) /\
  (exists (u v : vec f64 1) (s : f64), vmul_s (vadd u v) s <> vadd (vmul_s u s) (vmul_s v s)) /\
  (exists u : vec f64 1, vadd u (vneg u) <> vzero 1).
Proof. exact c88_boundary. Qed.
Print Assumptions C88_boundary.

(** Rounding really occurs in these terms: 0.1 + 0.2 style operands with inexact results. *)
Example C88_example :
  let t := ndiv (f64_of_Z 1) (f64_of_Z 10) in
  let u := v2 t (f64_of_Z 3) in let v := v2 (nadd t t) t in
  vdot u v = vdot v u /\ vadd u v = vadd v u /\ is_finite (vdot u v) = true /\
  B2SF (nadd (nadd t t) t) <> B2SF (ndiv (f64_of_Z 3) (f64_of_Z 10)).
Proof. exact c88_example. Qed.

(** ** C96 *)

(** [2^-prec] is the unit roundoff and [2^(2-emax-prec)] half the smallest positive float. *)
Theorem C96_dot_error :
  forall (prec emax : Z) (Hp : Prec_gt_0 prec) (He : Prec_lt_emax prec emax) (n : nat)
    (u v : vec (binary_float prec emax) n),
    is_finite (vdot u v) = true ->
    (Rabs (B2R (vdot u v) - sum n (fun i => B2R (vat u i) * B2R (vat v i)))
     <= ((1 + bpow radix2 (- prec)) ^ (n + 1) - 1) * sum n (fun i => Rabs (B2R (vat u i) * B2R (vat v i)))
        + INR n * bpow radix2 (2 - emax - prec) * (1 + bpow radix2 (- prec)) ^ n)%R.
Proof. exact c96_dot_error. Qed.
Print Assumptions C96_dot_error.

Theorem C96_matrix_vector_error :
  forall (prec emax : Z) (Hp : Prec_gt_0 prec) (He : Prec_lt_emax prec emax) (r c : nat)
    (m : mat (binary_float prec emax) r c) (v : vec (binary_float prec emax) c) (i : nat),
    (i < r)%nat -> is_finite (vat (mmulv m v) i) = true ->
    (Rabs (B2R (vat (mmulv m v) i) - sum c (fun k => B2R (mget m k i) * B2R (vat v k)))
     <= ((1 + bpow radix2 (- prec)) ^ (c + 1) - 1) * sum c (fun k => Rabs (B2R (mget m k i) * B2R (vat v k)))
        + INR c * bpow radix2 (2 - emax - prec) * (1 + bpow radix2 (- prec)) ^ c)%R.
Proof. exact c96_matrix_vector_error. Qed.
Print Assumptions C96_matrix_vector_error.

Theorem C96_matrix_product_error :
  forall (prec emax : Z) (Hp : Prec_gt_0 prec) (He : Prec_lt_emax prec emax) (r c k : nat)
    (a : mat (binary_float prec emax) r c) (b : mat (binary_float prec emax) c k) (j i : nat),
    (j < k)%nat -> (i < r)%nat -> is_finite (mget (mmul a b) j i) = true ->
    (Rabs (B2R (mget (mmul a b) j i) - sum c (fun l => B2R (mget a l i) * B2R (mget b j l)))
     <= ((1 + bpow radix2 (- prec)) ^ (c + 1) - 1) * sum c (fun l => Rabs (B2R (mget a l i) * B2R (mget b j l)))
        + INR c * bpow radix2 (2 - emax - prec) * (1 + bpow radix2 (- prec)) ^ c)%R.
Proof. exact c96_matrix_product_error. Qed.
Print Assumptions C96_matrix_product_error.

(** A finite result certifies that no operand was infinite or NaN and that nothing overflowed. *)
Theorem C96_finite_result_has_finite_operands :
  forall (prec emax : Z) (Hp : Prec_gt_0 prec) (He : Prec_lt_emax prec emax) (n : nat)
    (u v : vec (binary_float prec emax) n),
    is_finite (vdot u v) = true ->
    forall i, (i < n)%nat ->
      is_finite (vat u i) = true /\ is_finite (vat v i) = true /\ is_finite (nmul (vat u i) (vat v i)) = true.
Proof. exact c96_finite_result_has_finite_operands. Qed.
Print Assumptions C96_finite_result_has_finite_operands.

(** For the named vector types (at most four components) in [f64]: relative to the sum of the absolute
    products, six units of roundoff and an underflow term of five half-subnormals. *)
Theorem C96_f64_up_to_four :
  forall (n : nat) (u v : vec f64 n),
    (n <= 4)%nat -> is_finite (vdot u v) = true ->
    (Rabs (B2R (vdot u v) - sum n (fun i => B2R (vat u i) * B2R (vat v i)))
     <= 6 * bpow radix2 (-53) * sum n (fun i => Rabs (B2R (vat u i) * B2R (vat v i)))
        + 5 * bpow radix2 (-1075))%R.
Proof. exact c96_f64_up_to_four. Qed.
Print Assumptions C96_f64_up_to_four.

(** [0.1 * 3 + 0.2 * 0.1] in [f64]: the result is finite, so the bound applies, and it is not the exact
    sum of the products of the stored values. *)
Example C96_example :
  let t := ndiv (f64_of_Z 1) (f64_of_Z 10) in
  is_finite (vdot (v2 t (nadd t t)) (v2 (f64_of_Z 3) t)) = true /\
  is_finite (vdot (v2 (f64_of_Z (2 ^ 600)) t) (v2 (f64_of_Z (2 ^ 600)) t)) = false.
Proof. exact c96_example. Qed.
