(** Norms and normalisation of float vectors: the functions of MVector.v that take a square root, over
    IEEE floats instead of the reals. *)

From Coq Require Import ZArith Reals.
From Flocq Require Import Core.Core IEEE754.BinarySingleNaN.
From Verif Require Import Base Scalar MVector MFloat.

Section FloatVec.
  Context {prec emax : Z} {Hprec : Prec_gt_0 prec} {Hemax : Prec_lt_emax prec emax}.
  Notation fl := (binary_float prec emax).

  (** [S::sqrt] of [f32]/[f64] is the correctly rounded IEEE operation. *)
  Definition fsqrt (x : fl) : fl := Bsqrt mode_NE x.

  (** vector.rs 572-574 [norm]. *)
  Definition fvnorm {n} (u : vec fl n) : fl := fsqrt (vnorm_squared u).

  (** vector.rs 592-594 [metric_distance]. *)
  Definition fvdist {n} (u v : vec fl n) : fl := fvnorm (vsub u v).

  (** vector.rs 1498-1500 [normalize]. *)
  Definition fvnormalize {n} (u : vec fl n) : vec fl n := vmul_s u (ndiv n1 (fvnorm u)).

  (** vector.rs 1511-1518 [try_normalize]: [norm <= threshold] is the IEEE comparison. *)
  Definition fvtry_normalize {n} (u : vec fl n) (threshold : fl) : option (vec fl n) :=
    let norm := fvnorm u in
    if Bleb norm threshold then None else Some (fvnormalize u).
End FloatVec.

(** Specification: the real values of the components of a [f64] vector. *)
Definition val64 {n} (v : vec f64 n) : vec R n := vmap (fun x : f64 => B2R x) v.
