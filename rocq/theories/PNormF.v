(** Property theorems about norms, componentwise extremes and clamping in floats (C146). *)

From Coq Require Import List Arith ZArith Reals.
From Flocq Require Import Core.Core IEEE754.BinarySingleNaN.
From Verif Require Import Base Scalar Spec MVector MMatrix MFloat MSign MNormF LNormFP.
Local Open Scope R_scope.

(** ** C146 *)

(** A NaN component is lost: in [f64] the L-infinity norm of a vector of three NaNs, and its L-infinity distance to every vector, is 0, and both norms of a matrix with a NaN entry are ordinary numbers. *)
Theorem C146_nan_refuted :
  exists (a : vec f64 3) (v : vec f64 2) (m : mat f64 2 2), forall tie,
    (forall i, (i < 3)%nat -> is_nan (vat a i) = true) /\
    (forall b, flinf_norm tie a = n0 /\ flinf_dist tie a b = n0 /\ flinf_dist tie b a = n0 /\ is_nan (fl1_dist a b) = true) /\
    is_nan (vat v 0) = true /\ flinf_norm tie v = f64_of_Z 1 /\ is_nan (fl1_norm v) = true /\
    is_nan (mget m 0 0) = true /\ fml1_norm tie m = f64_of_Z 5 /\ fmlinf_norm tie m = f64_of_Z 4.
Proof. exact c146_nan_refuted. Qed.
Print Assumptions C146_nan_refuted.

(** Without NaN the L-infinity norm is the exact one, infinities included.  Missing: vectors with a NaN, for which the property is false. *)
Theorem C146_linf_exact_partial :
  forall (prec emax : Z) (Hp : Prec_gt_0 prec) (He : Prec_lt_emax prec emax) (n : nat)
    (tie : binary_float prec emax -> binary_float prec emax -> bool) (u : vec (binary_float prec emax) n),
  (forall i, (i < n)%nat -> is_nan (vat u i) = false) ->
  is_nan (flinf_norm tie u) = false /\ Bsign (flinf_norm tie u) = false /\
  (forall i, (i < n)%nat -> Bleb (fabs (vat u i)) (flinf_norm tie u) = true) /\
  (flinf_norm tie u = n0 \/ exists i, (i < n)%nat /\ flinf_norm tie u = fabs (vat u i)) /\
  ((forall i, (i < n)%nat -> is_finite (vat u i) = true) ->
   is_finite (flinf_norm tie u) = true /\ (forall i, (i < n)%nat -> Rabs (B2R (vat u i)) <= B2R (flinf_norm tie u)) /\
   (B2R (flinf_norm tie u) = 0 \/ exists i, (i < n)%nat /\ B2R (flinf_norm tie u) = Rabs (B2R (vat u i)))).
Proof. exact c146_linf_exact_partial. Qed.
Print Assumptions C146_linf_exact_partial.

(** With NaNs it is the norm of the vector with zeros in place of the NaNs. *)
Theorem C146_linf_drops_nan_partial :
  forall (prec emax : Z) (Hp : Prec_gt_0 prec) (He : Prec_lt_emax prec emax) (n : nat)
    (tie : binary_float prec emax -> binary_float prec emax -> bool) (u w : vec (binary_float prec emax) n),
  (forall i, (i < n)%nat -> vat w i = if is_nan (vat u i) then n0 else vat u i) ->
  flinf_norm tie u = flinf_norm tie w.
Proof. exact c146_linf_drops_nan_partial. Qed.
Print Assumptions C146_linf_drops_nan_partial.

(** The L1 norm: NaN exactly when a component is; at least every component and the L-infinity norm, without any rounding slack; n - 1 roundings; no overflow below half the largest binade. *)
Theorem C146_l1 :
  forall (prec emax : Z) (Hp : Prec_gt_0 prec) (He : Prec_lt_emax prec emax) (n : nat)
    (tie : binary_float prec emax -> binary_float prec emax -> bool) (u : vec (binary_float prec emax) n),
  (is_nan (fl1_norm u) = true <-> exists i, (i < n)%nat /\ is_nan (vat u i) = true) /\
  (is_nan (fl1_norm u) = false ->
   Bsign (fl1_norm u) = false /\ (forall i, (i < n)%nat -> Bleb (fabs (vat u i)) (fl1_norm u) = true) /\
   Bleb (flinf_norm tie u) (fl1_norm u) = true) /\
  (is_finite (fl1_norm u) = true ->
   Rabs (B2R (fl1_norm u) - sum n (fun i => Rabs (B2R (vat u i)))) <=
   ((1 + bpow radix2 (- prec)) ^ (n - 1) - 1) * sum n (fun i => Rabs (B2R (vat u i)))) /\
  ((forall i, (i < n)%nat -> is_finite (vat u i) = true) ->
   (1 + bpow radix2 (- prec)) ^ n * sum n (fun i => Rabs (B2R (vat u i))) <= bpow radix2 (emax - 1) ->
   is_finite (fl1_norm u) = true).
Proof. exact c146_l1. Qed.
Print Assumptions C146_l1.

(** The distances are symmetric to the last bit, overflow and NaN included, and vanish exactly between equal vectors. *)
Theorem C146_distance :
  forall (prec emax : Z) (Hp : Prec_gt_0 prec) (He : Prec_lt_emax prec emax) (n : nat)
    (tie : binary_float prec emax -> binary_float prec emax -> bool) (a b : vec (binary_float prec emax) n),
  fl1_dist a b = fl1_dist b a /\ flinf_dist tie a b = flinf_dist tie b a /\
  ((forall i, (i < n)%nat -> is_finite (vat a i) = true /\ is_finite (vat b i) = true) ->
   (fl1_dist a b = n0 <-> forall i, (i < n)%nat -> B2R (vat a i) = B2R (vat b i)) /\
   (flinf_dist tie a b = n0 <-> forall i, (i < n)%nat -> B2R (vat a i) = B2R (vat b i))).
Proof. exact c146_distance. Qed.
Print Assumptions C146_distance.

(** The matrix norms without NaN: the largest computed column sum, the L-infinity norm of a matrix is the L1 norm of its transpose, and as many roundings as a sum has additions.  Missing: matrices with a NaN. *)
Theorem C146_matrix_partial :
  forall (prec emax : Z) (Hp : Prec_gt_0 prec) (He : Prec_lt_emax prec emax) (r c : nat)
    (tie : binary_float prec emax -> binary_float prec emax -> bool) (m : mat (binary_float prec emax) r c),
  (forall j i, (j < c)%nat -> (i < r)%nat -> is_nan (mget m j i) = false) ->
  (forall j, (j < c)%nat -> Bleb (fl1_norm (mcol m j)) (fml1_norm tie m) = true) /\
  (fml1_norm tie m = n0 \/ exists j, (j < c)%nat /\ fml1_norm tie m = fl1_norm (mcol m j)) /\
  fmlinf_norm tie m = fml1_norm tie (mtranspose m) /\
  (forall E, is_finite (fml1_norm tie m) = true ->
   (forall j, (j < c)%nat -> sum r (fun i => Rabs (B2R (mget m j i))) <= E) ->
   (E = 0 \/ exists j, (j < c)%nat /\ E = sum r (fun i => Rabs (B2R (mget m j i)))) ->
   Rabs (B2R (fml1_norm tie m) - E) <= ((1 + bpow radix2 (- prec)) ^ (r - 1) - 1) * E) /\
  (forall E, is_finite (fmlinf_norm tie m) = true ->
   (forall i, (i < r)%nat -> sum c (fun j => Rabs (B2R (mget m j i))) <= E) ->
   (E = 0 \/ exists i, (i < r)%nat /\ E = sum c (fun j => Rabs (B2R (mget m j i)))) ->
   Rabs (B2R (fmlinf_norm tie m) - E) <= ((1 + bpow radix2 (- prec)) ^ (c - 1) - 1) * E).
Proof. exact c146_matrix_partial. Qed.
Print Assumptions C146_matrix_partial.

(** Componentwise minimum and maximum: exact, and a NaN loses against anything. *)
Theorem C146_extremes :
  forall (prec emax : Z) (Hp : Prec_gt_0 prec) (He : Prec_lt_emax prec emax) (n : nat)
    (tie : binary_float prec emax -> binary_float prec emax -> bool) (u v : vec (binary_float prec emax) n) (i : nat),
  (i < n)%nat ->
  (is_nan (vat u i) = true -> vat (fvcmin tie u v) i = vat v i /\ vat (fvcmax tie u v) i = vat v i) /\
  (is_nan (vat v i) = true -> is_nan (vat u i) = false -> vat (fvcmin tie u v) i = vat u i /\ vat (fvcmax tie u v) i = vat u i) /\
  (is_nan (vat u i) = false -> is_nan (vat v i) = false ->
   (vat (fvcmin tie u v) i = vat u i \/ vat (fvcmin tie u v) i = vat v i) /\
   (vat (fvcmax tie u v) i = vat u i \/ vat (fvcmax tie u v) i = vat v i) /\
   Bleb (vat (fvcmin tie u v) i) (vat u i) = true /\ Bleb (vat (fvcmin tie u v) i) (vat v i) = true /\
   Bleb (vat u i) (vat (fvcmax tie u v) i) = true /\ Bleb (vat v i) (vat (fvcmax tie u v) i) = true).
Proof. exact c146_extremes. Qed.
Print Assumptions C146_extremes.

(** Clamping: between the bounds if they are in order, NaN stays NaN, and bounds in the wrong order do not panic. *)
Theorem C146_clamp :
  forall (prec emax : Z) (Hp : Prec_gt_0 prec) (He : Prec_lt_emax prec emax) (x lo hi : binary_float prec emax),
  (is_nan x = true -> is_nan (fclamp x lo hi) = true) /\
  (Bleb lo x = true -> Bleb x hi = true -> fclamp x lo hi = x) /\
  (is_nan x = false -> Bleb lo hi = true ->
   Bleb lo (fclamp x lo hi) = true /\ Bleb (fclamp x lo hi) hi = true /\
   (fclamp x lo hi = x \/ fclamp x lo hi = lo \/ fclamp x lo hi = hi)) /\
  (is_nan x = false -> Bltb hi lo = true -> fclamp x lo hi = if Bltb x lo then lo else hi).
Proof. exact c146_clamp. Qed.
Print Assumptions C146_clamp.

(** Norms in [f64]; the second L1 norm is rounded. *)
Example C146_example :
  let u : vec f64 4 := v4 (f64_of_Z (-3)) (f64_of_Z 2) (ndiv (f64_of_Z 1) (f64_of_Z 10)) (f64_of_Z 0) in
  (forall i, (i < 4)%nat -> is_finite (vat u i) = true) /\ is_finite (fl1_norm u) = true /\
  (forall tie, flinf_norm tie u = f64_of_Z 3) /\
  fl1_norm (v2 (f64_of_Z (2 ^ 53)) (f64_of_Z (-1))) = f64_of_Z (2 ^ 53) /\
  (forall tie, fml1_norm tie (m2new (f64_of_Z 1) (f64_of_Z (-2)) (f64_of_Z 5) (f64_of_Z 7)) = f64_of_Z 12) /\
  (forall tie, fmlinf_norm tie (m2new (f64_of_Z 1) (f64_of_Z (-2)) (f64_of_Z 5) (f64_of_Z 7)) = f64_of_Z 9) /\
  fclamp (f64_of_Z 9) (f64_of_Z 0) (f64_of_Z 1) = f64_of_Z 1 /\
  (forall tie, vat (fvcmin tie u (v4 B754_nan (f64_of_Z (-7)) B754_nan B754_nan)) 1 = f64_of_Z (-7)).
Proof. exact c146_example. Qed.
