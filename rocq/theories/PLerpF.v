(** C117: linear interpolation in floats. *)

From Coq Require Import Arith ZArith Bool Reals.
From Flocq Require Import Core.Core IEEE754.BinarySingleNaN.
From Verif Require Import Base Scalar SpecF MVector MMatrix MQuat MFloat LLerpFP.
Local Open Scope R_scope.

(** ** C117 Linear interpolation in floats *)

(** Every format with at least 24 bits and every dimension: for components bounded by [M] and an amount in [-1, 1]
    nothing overflows and every component is within 8 units roundoff of the exact interpolation, relative to [M]. *)
Theorem C117_accuracy :
  forall (prec emax : Z) (Hp : Prec_gt_0 prec) (He : Prec_lt_emax prec emax) (M : R) (t : binary_float prec emax),
    (24 <= prec)%Z -> 0 < M -> bpow radix2 (31 - emax) <= M <= bpow radix2 (emax - 31) -> fbnd 1 t ->
    (forall n (u v : vec (binary_float prec emax) n),
       (forall i, (i < n)%nat -> fbnd M (vat u i) /\ fbnd M (vat v i)) ->
       forall i, (i < n)%nat -> fnear (vat (vlerp u v t) i) (B2R (vat u i) + (B2R (vat v i) - B2R (vat u i)) * B2R t) (8 * bpow radix2 (- prec) * M)) /\
    (forall r c (a b : mat (binary_float prec emax) r c),
       (forall j i, (j < c)%nat -> (i < r)%nat -> fbnd M (mget a j i) /\ fbnd M (mget b j i)) ->
       forall j i, (j < c)%nat -> (i < r)%nat ->
         fnear (mget (mlerp a b t) j i) (B2R (mget a j i) + (B2R (mget b j i) - B2R (mget a j i)) * B2R t) (8 * bpow radix2 (- prec) * M)) /\
    (forall p q : quat (binary_float prec emax),
       (forall i, (i < 4)%nat -> fbnd M (vat (p : vec _ 4) i) /\ fbnd M (vat (q : vec _ 4) i)) ->
       forall i, (i < 4)%nat -> fnear (vat (qlerp p q t : vec _ 4) i)
         (B2R (vat (p : vec _ 4) i) + (B2R (vat (q : vec _ 4) i) - B2R (vat (p : vec _ 4) i)) * B2R t) (8 * bpow radix2 (- prec) * M)).
Proof. exact c117_accuracy. Qed.
Print Assumptions C117_accuracy.

(** Amount 0 returns the first argument exactly, unless the difference overflows; amount 1 returns the second argument
    exactly for components within a factor 2 of each other. *)
Theorem C117_endpoints_partial :
  forall (prec emax : Z) (Hp : Prec_gt_0 prec) (He : Prec_lt_emax prec emax) (n : nat) (u v : vec (binary_float prec emax) n),
    (forall i, (i < n)%nat -> is_finite (vat u i) = true /\ is_finite (vat v i) = true) ->
    ((forall i, (i < n)%nat -> is_finite (vat (vsub v u) i) = true) ->
     forall i, (i < n)%nat -> is_finite (vat (vlerp u v n0) i) = true /\ B2R (vat (vlerp u v n0) i) = B2R (vat u i)) /\
    ((forall i, (i < n)%nat -> B2R (vat u i) / 2 <= B2R (vat v i) <= 2 * B2R (vat u i)) ->
     forall i, (i < n)%nat -> is_finite (vat (vlerp u v n1) i) = true /\ B2R (vat (vlerp u v n1) i) = B2R (vat v i)).
Proof. exact c117_endpoints_partial. Qed.
Print Assumptions C117_endpoints_partial.

(** The endpoint laws fail for some finite [f64] vectors: lerp(2^60, 1, 1) is 0 (outside of [1, 2^60]), and
    lerp(u, v, 0) is NaN when the difference overflows. *)
Theorem C117_endpoints_refuted :
  (exists u v : vec f64 1, B2R (vat u 0%nat) = IZR (2 ^ 60) /\ B2R (vat v 0%nat) = 1 /\
     is_finite (vat (vlerp u v n1) 0%nat) = true /\ B2R (vat (vlerp u v n1) 0%nat) = 0) /\
  (exists u v : vec f64 1, is_finite (vat u 0%nat) = true /\ is_finite (vat v 0%nat) = true /\
     is_nan (vat (vlerp u v n0) 0%nat) = true).
Proof. exact c117_endpoints_refuted. Qed.
Print Assumptions C117_endpoints_refuted.

(** lerp((1, 3), (3, 5), 1/2) = (2, 4), and 5 is within a factor 2 of 3. *)
Example C117_example :
  let h := ndiv n1 (f64_of_Z 2) in let w := vlerp (v2 (f64_of_Z 1) (f64_of_Z 3)) (v2 (f64_of_Z 3) (f64_of_Z 5)) h in
  B2SF (vat w 0%nat) = B2SF (f64_of_Z 2) /\ B2SF (vat w 1%nat) = B2SF (f64_of_Z 4) /\ 3 / 2 <= 5 <= 2 * 3.
Proof. exact c117_example. Qed.
