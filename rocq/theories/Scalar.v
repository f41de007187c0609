(** Scalar types.

    The Rust code is generic over [S: SimdScalar], [S: SimdScalarSigned], [S: SimdScalarFloat]
    (crates/cglinalg_numeric/src/lib.rs 70-1530).  [Num] packs the operations of a signed
    scalar, [NumDiv] division and the [is_zero] test.  The classes contain operations only; the
    laws are separate ([RingLaws], [FieldLaws]) so each theorem shows which laws it uses. *)

From Coq Require Import ZArith Ring Field Reals Qcanon.

Class Num (K : Type) : Type := {
  n0 : K;
  n1 : K;
  nadd : K -> K -> K;
  nsub : K -> K -> K;
  nmul : K -> K -> K;
  nneg : K -> K;
}.

Class NumDiv (K : Type) : Type := {
  ndiv : K -> K -> K;
  nis0 : K -> bool;
}.

Declare Scope num_scope.
Delimit Scope num_scope with N_.
Notation "0" := n0 : num_scope.
Notation "1" := n1 : num_scope.
Infix "+" := nadd : num_scope.
Infix "-" := nsub : num_scope.
Infix "*" := nmul : num_scope.
Infix "/" := ndiv : num_scope.
Notation "- x" := (nneg x) : num_scope.

(** Commutative ring laws (hold for unbounded integers, wrapping integers, rationals, reals;
    not for IEEE floats). *)
Class RingLaws (K : Type) `{Num K} : Prop :=
  ring_laws : ring_theory n0 n1 nadd nmul nsub nneg (@eq K).

(** Field laws; [ndiv] is only constrained for non-zero divisors, and [nis0] decides zero. *)
Class FieldLaws (K : Type) `{Num K} `{NumDiv K} : Prop := {
  field_ring : RingLaws K;
  field_one_neq_zero : n1 <> n0 :> K;
  field_div_mul : forall x y : K, y <> n0 -> nmul (ndiv x y) y = x;
  field_is0 : forall x : K, nis0 x = true <-> x = n0;
}.

(** ** Instances *)

(** Unbounded integers: [i8..i128] as long as nothing overflows.  Division truncates as in
    Rust; [Z.quot x 0] is irrelevant since Rust panics there. *)
#[global] Instance num_Z : Num Z :=
  {| n0 := 0%Z; n1 := 1%Z; nadd := Z.add; nsub := Z.sub; nmul := Z.mul; nneg := Z.opp |}.
#[global] Instance numdiv_Z : NumDiv Z := {| ndiv := Z.quot; nis0 := Z.eqb 0 |}.

(** Ideal reals in place of [f32]/[f64]. *)
#[global] Instance num_R : Num R :=
  {| n0 := 0%R; n1 := 1%R; nadd := Rplus; nsub := Rminus; nmul := Rmult; nneg := Ropp |}.
#[global] Instance numdiv_R : NumDiv R :=
  {| ndiv := Rdiv; nis0 := fun x => if Req_EM_T x 0%R then true else false |}.

(** Exact rationals: executable field used to run examples. *)
#[global] Instance num_Qc : Num Qc :=
  {| n0 := Q2Qc 0; n1 := Q2Qc 1; nadd := Qcplus; nsub := Qcminus; nmul := Qcmult;
     nneg := Qcopp |}.
#[global] Instance numdiv_Qc : NumDiv Qc :=
  {| ndiv := Qcdiv; nis0 := fun x => if Qc_eq_dec x (Q2Qc 0) then true else false |}.
