(** The Lp norm over floats.  The functions of the platform's library, [powi] and [powf], are parameters, and so is the
    conversion from [f64] to the type of the components. *)

From Coq Require Import List Arith ZArith.
From Flocq Require Import IEEE754.BinarySingleNaN.
From Verif Require Import Base Scalar MVector MMisc MFloat MSign MDegF.
Local Open Scope num_scope.

Section LpF.
Context {prec emax : Z} {Hprec : FLX.Prec_gt_0 prec} {Hemax : Prec_lt_emax prec emax}.
Notation fl := (binary_float prec emax).
Context (powi : fl -> Z -> fl) (powf : fl -> fl -> fl) (conv : f64 -> fl).

(** vector.rs 657-665 [lp_norm].  [p as i32] wraps around, [p as f64] is exact for a [u32], and [recip] is [1 / x]. *)
Definition flp_norm {n} (v : vec fl n) (p : Z) : fl :=
  powf (for_range n (fun i result => result + powi (fabs (vat v i)) (u32_as_i32 p)) 0) (conv (ndiv 1 (f64_of_Z p))).
End LpF.

(** For [S = f64] the conversion is the identity, for [S = f32] it rounds. *)
Definition lp_norm64 (powi : f64 -> Z -> f64) (powf : f64 -> f64 -> f64) {n} (v : vec f64 n) (p : Z) : f64 :=
  flp_norm powi powf (fun x => x) v p.
Definition lp_norm32 (powi : f32 -> Z -> f32) (powf : f32 -> f32 -> f32) {n} (v : vec f32 n) (p : Z) : f32 :=
  flp_norm powi powf f32_of_f64 v p.
