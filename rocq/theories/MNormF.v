(** Norms, componentwise extremes and clamping in floats.  The sums run in the source's order.  [f32::max], [f64::max] and
    the [min]s drop a NaN operand; which of two zeros of opposite sign they return is not specified, so it is the parameter
    [tie]. *)

From Coq Require Import List Arith ZArith.
From Flocq Require Import IEEE754.BinarySingleNaN.
From Verif Require Import Base Scalar MVector MMatrix MFloat MSign.
Local Open Scope num_scope.

Section NormF.
Context {prec emax : Z} {Hprec : FLX.Prec_gt_0 prec} {Hemax : Prec_lt_emax prec emax}.
Notation fl := (binary_float prec emax).
Context (tie : fl -> fl -> bool).

(** numeric lib.rs 1600-1607 [max], [min]: forwarded to the Rust standard library. *)
Definition fmax (x y : fl) : fl :=
  if is_nan x then y else if is_nan y then x
  else if Bltb x y then y else if Bltb y x then x else if tie x y then x else y.
Definition fmin (x y : fl) : fl :=
  if is_nan x then y else if is_nan y then x
  else if Bltb x y then x else if Bltb y x then y else if tie x y then x else y.

(** numeric lib.rs 1609-1617 [clamp]. *)
Definition fclamp (x min_value max_value : fl) : fl :=
  if Bltb x min_value then min_value else if Bltb max_value x then max_value else x.

(** vector.rs 500-508 [l1_norm]; 541-549 [linf_norm]. *)
Definition fl1_norm {n} (u : vec fl n) : fl := for_range n (fun i result => result + fabs (vat u i)) 0.
Definition flinf_norm {n} (u : vec fl n) : fl := for_range n (fun i result => fmax result (fabs (vat u i))) 0.

(** vector.rs 692-695 ([L1Norm]) and 751-754 ([LinfNorm]) [metric_distance]. *)
Definition fl1_dist {n} (lhs rhs : vec fl n) : fl := fl1_norm (vsub rhs lhs).
Definition flinf_dist {n} (lhs rhs : vec fl n) : fl := flinf_norm (vsub rhs lhs).

(** vector.rs 921-929 [component_min]; 952-960 [component_max]. *)
Definition fvcmin {n} (u v : vec fl n) : vec fl n := for_range n (fun i r => vset r i (fmin (vat u i) (vat v i))) (vfill n 0).
Definition fvcmax {n} (u v : vec fl n) : vec fl n := for_range n (fun i r => vset r i (fmax (vat u i) (vat v i))) (vfill n 0).

(** matrix.rs 1743-1750 [l1_norm]; 1773-1785 [linf_norm]. *)
Definition fml1_norm {r c} (m : mat fl r c) : fl :=
  for_range c (fun j result => fmax result (fl1_norm (mcol m j))) 0.
Definition fmlinf_norm {r c} (m : mat fl r c) : fl :=
  for_range r (fun i result => fmax result (for_range c (fun j row_sum => row_sum + fabs (mget m j i)) 0)) 0.
End NormF.
