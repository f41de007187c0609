(** IEEE-754 binary floating-point scalars: Flocq's [binary_float] with a single NaN (Rust does not
    specify NaN payloads), rounding to nearest even, with Rust's [+ - * /], unary [-] and [== 0].
    [f32] and [f64] are the two Rust formats.  No [RingLaws] instance exists for them; theorems about
    them are stated for the operations themselves. *)

From Coq Require Import ZArith.
From Flocq Require Import Core.Core IEEE754.BinarySingleNaN.
From Verif Require Import Scalar.

Section Float.
  Context {prec emax : Z} {Hprec : Prec_gt_0 prec} {Hemax : Prec_lt_emax prec emax}.

  #[global] Instance num_float : Num (binary_float prec emax) := {|
    n0 := B754_zero false;
    n1 := Bone;
    nadd := Bplus mode_NE;
    nsub := Bminus mode_NE;
    nmul := Bmult mode_NE;
    nneg := Bopp;
  |}.

  #[global] Instance numdiv_float : NumDiv (binary_float prec emax) := {|
    ndiv := Bdiv mode_NE;
    nis0 := fun x => Beqb x (B754_zero false);
  |}.
End Float.

Definition f32 : Set := binary_float 24 128.
Definition f64 : Set := binary_float 53 1024.

#[global] Instance prec32 : Prec_gt_0 24 := eq_refl.
#[global] Instance emax32 : Prec_lt_emax 24 128 := eq_refl.
#[global] Instance prec64 : Prec_gt_0 53 := eq_refl.
#[global] Instance emax64 : Prec_lt_emax 53 1024 := eq_refl.

#[global] Instance num_f32 : Num f32 := num_float.
#[global] Instance numdiv_f32 : NumDiv f32 := numdiv_float.
#[global] Instance num_f64 : Num f64 := num_float.
#[global] Instance numdiv_f64 : NumDiv f64 := numdiv_float.

(** The float nearest to an integer ([z as f64]). *)
Definition f64_of_Z (z : Z) : f64 := binary_normalize 53 1024 prec64 emax64 mode_NE z 0 false.
Definition f32_of_Z (z : Z) : f32 := binary_normalize 24 128 prec32 emax32 mode_NE z 0 false.

(** [x != x]: the value is a NaN. *)
Definition f64_is_nan (x : f64) : bool := is_nan x.
Definition f64_is_finite (x : f64) : bool := is_finite x.
