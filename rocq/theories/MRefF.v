(** [Vector::reflect] over IEEE floats: the function of MVector.v with the float [normalize] of MFloatVec.v. *)

From Coq Require Import ZArith.
From Flocq Require Import Core.Core IEEE754.BinarySingleNaN.
From Verif Require Import Base Scalar MVector MFloat MFloatVec.

Section RefF.
  Context {prec emax : Z} {Hp : Prec_gt_0 prec} {He : Prec_lt_emax prec emax}.
  Notation fl := (binary_float prec emax).

  (** vector.rs 893-898 [reflect]. *)
  Definition fvreflect {n} (u normal : vec fl n) : vec fl n :=
    let two := nadd n1 n1 in
    let unit_normal := fvnormalize normal in
    vsub u (vmul_s unit_normal (nmul two (vdot u unit_normal))).
End RefF.
