(** Ideal-real models of the scalar functions of the Rust standard library that the float code
    calls through [SimdScalarFloat] (crates/cglinalg_numeric/src/lib.rs 1000-1660, which forward to
    [f32]/[f64]).  Rounding, NaN, infinities and signed zeros are not modelled: each function
    is the mathematical function on its domain. *)

From Coq Require Import Reals.
Local Open Scope R_scope.

(** [y.atan2(x)]: the angle of the point (x, y) in (-pi, pi]; zero at the origin.  The
    signed-zero cases of IEEE 754 ([atan2(-0.0, x)] for x < 0, [atan2(0.0, -0.0)]) have no
    counterpart in R and are not modelled. *)
Definition ratan2 (y x : R) : R :=
  if Rlt_dec 0 x then atan (y / x)
  else if Rlt_dec x 0 then (if Rle_dec 0 y then atan (y / x) + PI else atan (y / x) - PI)
  else if Rlt_dec 0 y then PI / 2
  else if Rlt_dec y 0 then - (PI / 2)
  else 0.

(** [x.cbrt()] for a non-negative argument (the only use is on norms, complex.rs 1165). *)
Definition rcbrt (x : R) : R := if Req_EM_T x 0 then 0 else Rpower x (1 / 3).

(** [x.exp2()], [x.log(base)]. *)
Definition rexp2 (x : R) : R := Rpower 2 x.
Definition rlog (x base : R) : R := ln x / ln base.

(** [x.tanh()]. *)
Definition rtanh (x : R) : R := sinh x / cosh x.
