(** Signed integer powers of complex floats.  [powu] has no float-specific branch and is modelled in MComplex.v; [powi] looks
    for NaN, which the generic model does not have. *)

From Coq Require Import ZArith Bool.
From Flocq Require Import IEEE754.BinarySingleNaN.
From Verif Require Import Base Scalar MComplex MFloat MSign.
Local Open Scope num_scope.

Section PowF.
Context {prec emax : Z} {Hprec : FLX.Prec_gt_0 prec} {Hemax : Prec_lt_emax prec emax}.
Notation fl := (binary_float prec emax).

(** complex.rs 1304-1345 [powi].  [i32] is [Z], Rust's [%] is [Z.rem], and [>> 1] is division rounding down.  The loops are
    bounded by the exponent; [None] would mean that this is not enough. *)
Definition fcpowi (z : complex fl) (exponent : Z) : option (complex fl) :=
  if Z.eqb exponent 0 then Some cone else
  let base := if Z.ltb 0 exponent then z else
    let norm_squared := cmodulus_squared z in
    if nis0 norm_squared then mkC B754_nan B754_nan
    else mkC (re z / norm_squared) ((- im z) / norm_squared) in
  if cis_nan base then Some base else
  match while_fuel (Z.abs_nat exponent) (fun s => Z.eqb (Z.rem (fst s) 2) 0)
          (fun s => (Z.div (fst s) 2, cmul (snd s) (snd s))) (exponent, base) with
  | None => None
  | Some (e, base) =>
      if Z.eqb e 1 then Some base else
      match while_fuel (Z.abs_nat exponent) (fun s => Z.ltb 1 (fst (fst s)))
              (fun s => let '(e, base, result) := s in
                 let e := Z.div e 2 in
                 let base := cmul base base in
                 let result := if Z.eqb (Z.rem e 2) 1 then cmul_assign result base else result in
                 (e, base, result)) (e, base, base) with
      | None => None
      | Some (_, _, result) => Some result
      end
  end.
End PowF.
