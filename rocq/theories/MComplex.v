(** Model of crates/cglinalg_core/src/complex.rs.  Line numbers refer to that file. *)

From Coq Require Import Arith ZArith Reals Bool.
From Verif Require Import Base Scalar MReal.
Local Open Scope nat_scope.

(** complex.rs 18-40: [#[repr(C)] struct Complex { re, im }]; [new]. *)
Record complex (K : Type) : Type := mkC { re : K; im : K }.
Arguments mkC {K}. Arguments re {K}. Arguments im {K}.

(** 163-168 [map]. *)
Definition cmap {A B} (op : A -> B) (z : complex A) : complex B := mkC (op (re z)) (op (im z)).

(** 95-109 [try_cast]: first failing component gives [None]. *)
Definition ctry_cast {A B} (conv : A -> option B) (z : complex A) : option (complex B) :=
  match conv (re z) with
  | Some a => match conv (im z) with Some b => Some (mkC a b) | None => None end
  | None => None
  end.

(** 3035-3205 the six approximate comparisons: componentwise with [&&].  [cmp] is the scalar
    comparison, [t] the per-component tolerance (the [*_all_*] versions use one tolerance for
    both components). *)
Definition ccmp {A T} (cmp : A -> A -> T -> bool) (z w : complex A) (t : complex T) : bool :=
  andb (cmp (re z) (re w) (re t)) (cmp (im z) (im w) (im t)).
Definition ccmp_all {A T} (cmp : A -> A -> T -> bool) (z w : complex A) (t : T) : bool :=
  andb (cmp (re z) (re w) t) (cmp (im z) (im w) t).

Section Generic.
Context {K : Type} `{NK : Num K}.
Local Open Scope num_scope.

(** 190-211 [from_real], [from_imaginary]; 229 [zero]; 268-290 [identity]/[one];
    350-369 [unit_re], [unit_im]. *)
Definition cfrom_real (x : K) : complex K := mkC x 0.
Definition cfrom_imaginary (x : K) : complex K := mkC 0 x.
Definition czero : complex K := mkC 0 0.
Definition cidentity : complex K := mkC 1 0.
Definition cone : complex K := cidentity.
Definition cunit_re : complex K := cidentity.
Definition cunit_im : complex K := mkC 0 1.

(** 437-475 [modulus_squared] (= [norm_squared], [magnitude_squared]). *)
Definition cmodulus_squared (z : complex K) : K := re z * re z + im z * im z.

(** 491 [scale]. *)
Definition cscale (z : complex K) (s : K) : complex K := mkC (re z * s) (im z * s).

(** 585 [conjugate]. *)
Definition cconj (z : complex K) : complex K := mkC (re z) (- im z).

(** 2161-2230 [Neg], [Add] (all reference variants have the same body). *)
Definition cneg (z : complex K) : complex K := mkC (- re z) (- im z).
Definition cadd (z w : complex K) : complex K := mkC (re z + re w) (im z + im w).
(** 2233 [Complex + S], 2281 [Sub], 2329 [Complex - S]. *)
Definition cadd_s (z : complex K) (s : K) : complex K := mkC (re z + s) (im z).
Definition csub (z w : complex K) : complex K := mkC (re z - re w) (im z - im w).
Definition csub_s (z : complex K) (s : K) : complex K := mkC (re z - s) (im z).
(** 2377-2430 [Mul], 2437 [Complex * S]. *)
Definition cmul (z w : complex K) : complex K :=
  mkC (re z * re w - im z * im w) (re z * im w + im z * re w).
Definition cmul_s (z : complex K) (s : K) : complex K := mkC (re z * s) (im z * s).

(** 532 [squared], 555 [cubed]. *)
Definition csquared (z : complex K) : complex K := cmul z z.
Definition ccubed (z : complex K) : complex K := cmul (cmul z z) z.

(** 2645-2700 [AddAssign] etc.: field by field. *)
Definition cadd_assign (z w : complex K) : complex K := mkC (re z + re w) (im z + im w).
Definition csub_assign (z w : complex K) : complex K := mkC (re z - re w) (im z - im w).
Definition cadd_assign_s (z : complex K) (s : K) : complex K := mkC (re z + s) (im z).
Definition csub_assign_s (z : complex K) (s : K) : complex K := mkC (re z - s) (im z).
Definition cmul_assign_s (z : complex K) (s : K) : complex K := mkC (re z * s) (im z * s).

(** 2721-2732 [MulAssign]: the statements in order, each reading the current fields. *)
Definition cmul_assign (z w : complex K) : complex K :=
  let a := re z in
  let z := mkC (re z * re w) (im z) in
  let z := mkC (re z - im z * im w) (im z) in
  let z := mkC (re z) (im z * re w) in
  let z := mkC (re z) (im z + a * im w) in
  z.

(** 2853-2990 scalar on the left. *)
Definition s_add_c (s : K) (z : complex K) : complex K := mkC (s + re z) (im z).
(** 2896: the imaginary part is passed through unchanged. *)
Definition s_sub_c (s : K) (z : complex K) : complex K := mkC (s - re z) (im z).
Definition s_mul_c (s : K) (z : complex K) : complex K := mkC (s * re z) (s * im z).

(** 1257-1284 [powu].  [u32] is modelled by [nat]; [>> 1] by division by two.  The number of
    iterations of both loops is bounded by the exponent, which is used as fuel. *)
Definition cpowu (z : complex K) (exponent : nat) : option (complex K) :=
  if exponent =? 0 then Some cone else
  match while_fuel exponent (fun s => fst s mod 2 =? 0)
          (fun s => (Nat.div (fst s) 2, cmul (snd s) (snd s))) (exponent, z) with
  | None => None
  | Some (e, base) =>
      if e =? 1 then Some base else
      match while_fuel exponent (fun s => 1 <? fst (fst s))
              (fun s => let '(e, base, result) := s in
                 let e := Nat.div e 2 in
                 let base := cmul base base in
                 let result := if e mod 2 =? 1 then cmul_assign result base else result in
                 (e, base, result)) (e, base, base) with
      | None => None
      | Some (_, _, result) => Some result
      end
  end.

Context `{ND : NumDiv K}.

(** 247, 309, 387, 407 predicates. *)
Definition cis_zero (z : complex K) : bool := andb (nis0 (re z)) (nis0 (im z)).
Definition cis_real (z : complex K) : bool := nis0 (im z).
Definition cis_imaginary (z : complex K) : bool := nis0 (re z).

(** 509 [unscale], 2549 [Complex / S]. *)
Definition cunscale (z : complex K) (s : K) : complex K := mkC (re z / s) (im z / s).
Definition cdiv_s (z : complex K) (s : K) : complex K := mkC (re z / s) (im z / s).

(** 2485-2547 [Div]. *)
Definition cdiv (z w : complex K) : complex K :=
  let denominator := cmodulus_squared w in
  mkC ((re z * re w + im z * im w) / denominator) ((im z * re w - re z * im w) / denominator).

(** 2771-2785 [DivAssign]: the statements in order. *)
Definition cdiv_assign (z w : complex K) : complex K :=
  let a := re z in
  let n := cmodulus_squared w in
  let z := mkC (re z * re w) (im z) in
  let z := mkC (re z + im z * im w) (im z) in
  let z := mkC (re z / n) (im z) in
  let z := mkC (re z) (im z * re w) in
  let z := mkC (re z) (im z - a * im w) in
  let z := mkC (re z) (im z / n) in
  z.
Definition cdiv_assign_s (z : complex K) (s : K) : complex K := mkC (re z / s) (im z / s).

(** 2982 [S / Complex]. *)
Definition s_div_c (s : K) (z : complex K) : complex K :=
  let den := cmodulus_squared z in
  mkC (s * re z / den) ((- (s * im z)) / den).

(** 1185-1196 [try_inverse]. *)
Definition ctry_inverse (z : complex K) : option (complex K) :=
  let n := cmodulus_squared z in
  if nis0 n then None else Some (mkC (re z / n) ((- im z) / n)).

(** Result of [powi]: a value, the early return of NaN, or (never, see
    [C34_powi_partial]) the fuel of a loop exhausted. *)
Inductive cpow_out : Type :=
  | CPow (z : complex K)
  | CPowNan
  | CPowFuel.

(** 1304-1345 [powi].  [i32] is modelled by [Z]; Rust [%] is [Z.rem] and the arithmetic shift
    [>> 1] is floor division by two. *)
Definition cpowi (z : complex K) (exponent : Z) : cpow_out :=
  if Z.eqb exponent 0 then CPow cone else
  let norm_squared := cmodulus_squared z in
  if andb (negb (Z.ltb 0 exponent)) (nis0 norm_squared) then CPowNan else
  let base := if Z.ltb 0 exponent then z
              else mkC (re z / norm_squared) ((- im z) / norm_squared) in
  let fuel := Z.abs_nat exponent in
  match while_fuel fuel (fun s => Z.eqb (Z.rem (fst s) 2) 0)
          (fun s => (Z.div (fst s) 2, cmul (snd s) (snd s))) (exponent, base) with
  | None => CPowFuel
  | Some (e, base) =>
      if Z.eqb e 1 then CPow base else
      match while_fuel fuel (fun s => Z.ltb 1 (fst (fst s)))
              (fun s => let '(e, base, result) := s in
                 let e := Z.div e 2 in
                 let base := cmul base base in
                 let result := if Z.eqb (Z.rem e 2) 1 then cmul_assign result base
                               else result in
                 (e, base, result)) (e, base, base) with
      | None => CPowFuel
      | Some (_, _, result) => CPow result
      end
  end.

End Generic.
Arguments cpow_out : clear implicits.

(** ** Floating point part, over the reals *)

Local Open Scope R_scope.

(** 616 [l1_norm]; 711-770 [norm] and its aliases. *)
Definition cl1_norm (z : complex R) : R := Rabs (re z) + Rabs (im z).
Definition cnorm (z : complex R) : R := sqrt (cmodulus_squared z).

(** 824 [arg]; 845-895 polar form. *)
Definition carg (z : complex R) : R := ratan2 (im z) (re z).
Definition cfrom_polar (scale angle : R) : complex R :=
  mkC (scale * cos angle) (scale * sin angle).
Definition cfrom_angle (angle : R) : complex R := cfrom_polar 1 angle.
Definition cpolar (z : complex R) : R * R := (cnorm z, carg z).

(** 919 [exp]; 961 [ln]; 989 [exp2];
    1013 [log]; 1038 [log2]; 1061 [log10].  [ln] at zero is minus infinity in Rust; theorems
    require a non-zero argument. *)
Definition cexp (z : complex R) : complex R :=
  mkC (exp (re z) * cos (im z)) (exp (re z) * sin (im z)).
Definition cln (z : complex R) : complex R := mkC (ln (cnorm z)) (carg z).
Definition cexp2 (z : complex R) : complex R := cfrom_polar (rexp2 (re z)) (im z * ln 2).
Definition clog (z : complex R) (base : R) : complex R :=
  let '(norm, arg) := cpolar z in mkC (rlog norm base) (arg / ln base).
Definition clog2 (z : complex R) : complex R := cdiv_s (cln z) (ln 2).
Definition clog10 (z : complex R) : complex R := cdiv_s (cln z) (ln 10).

(** 1128 [sqrt], 1160 [cbrt]. *)
Definition csqrt (z : complex R) : complex R :=
  mkC (sqrt (cnorm z) * cos (carg z / 2)) (sqrt (cnorm z) * sin (carg z / 2)).
Definition ccbrt (z : complex R) : complex R :=
  let '(norm, arg) := cpolar z in cfrom_polar (rcbrt norm) (arg / 3).

(** 1214 [is_invertible_eps] ([is_invertible] passes [S::default_epsilon()]). *)
Definition cis_invertible_eps (z : complex R) (eps : R) : bool :=
  if Rle_dec (eps * eps) (cmodulus_squared z) then true else false.

(** 1367 [powf], 1416 [powc]. *)
Definition cpowf (z : complex R) (exponent : R) : complex R := cexp (cmul_s (cln z) exponent).
Definition cpowc (z exponent : complex R) : complex R :=
  if cis_zero exponent then cunit_re else cexp (cmul exponent (cln z)).

(** 1632-1653 [cosh], 1726-1743 [sinh], 1810-1832 [tanh].  The branches for infinite and NaN
    components have no counterpart over the reals and are left out.  [tanh] divides by
    [denominator], which vanishes at the poles; theorems require it non-zero. *)
Definition ccosh (z : complex R) : complex R :=
  if andb (nis0 (re z)) (nis0 (im z)) then mkC 1 (im z)
  else mkC (cosh (re z) * cos (im z)) (sinh (re z) * sin (im z)).
Definition csinh (z : complex R) : complex R :=
  mkC (sinh (re z) * cos (im z)) (cosh (re z) * sin (im z)).
Definition ctanh (z : complex R) : complex R :=
  let two_times_re := re z + re z in
  let two_times_im := im z + im z in
  let denominator := cosh two_times_re + cos two_times_im in
  mkC (sinh two_times_re / denominator) (sin two_times_im / denominator).

(** 1439 [cos], 1528 [sin], 1580 [tan]: by rotation to the hyperbolic functions. *)
Definition ccos (z : complex R) : complex R := ccosh (mkC (- im z) (re z)).
Definition csin (z : complex R) : complex R :=
  let z2 := csinh (mkC (- im z) (re z)) in mkC (im z2) (- re z2).
Definition ctan (z : complex R) : complex R :=
  let z2 := ctanh (mkC (- im z) (re z)) in mkC (im z2) (- re z2).

(** 1465-1511 [acos] (finite branch). *)
Definition cacos (z : complex R) : complex R :=
  if andb (nis0 (re z)) (nis0 (im z)) then mkC (PI / 2) (- im z)
  else cmul (cneg cunit_im)
         (cln (cadd (cmul cunit_im (csqrt (csub cone (cmul z z)))) z)).

(** 1674-1709 [acosh] (finite branch). *)
Definition cacosh (z : complex R) : complex R :=
  let one := cone in
  let two := cadd one one in
  let w := cadd (csqrt (cdiv (cadd z one) two)) (csqrt (cdiv (csub z one) two)) in
  cmul two (cln w).

(** 1764-1793 [asinh] (finite branch). *)
Definition casinh (z : complex R) : complex R :=
  cln (cadd z (csqrt (cadd cone (cmul z z)))).

(** 1853-1884 [atanh] (finite branch); [None] models the infinite results at +1 and -1. *)
Definition catanh (z : complex R) : option (complex R) :=
  let one := cone in
  let two := cadd one one in
  if Req_EM_T (im z) 0 then
    if Req_EM_T (re z) 1 then None
    else if Req_EM_T (re z) (-1) then None
    else Some (cdiv (csub (cln (cadd one z)) (cln (csub one z))) two)
  else Some (cdiv (csub (cln (cadd one z)) (cln (csub one z))) two).

(** 1556 [asin], 1608 [atan]. *)
Definition casin (z : complex R) : complex R :=
  let z2 := casinh (mkC (- im z) (re z)) in mkC (im z2) (- re z2).
Definition catan (z : complex R) : option (complex R) :=
  match catanh (mkC (- im z) (re z)) with
  | Some z2 => Some (mkC (im z2) (- re z2))
  | None => None
  end.

(** 1908 [cis]. *)
Definition ccis (phase : R) : complex R := mkC (cos phase) (sin phase).

(** 3297-3342 [Normed]: [normalize], [try_normalize], distance. *)
Definition cnormalize (z : complex R) : complex R := cmul_s z (1 / cnorm z).
Definition ctry_normalize (z : complex R) (threshold : R) : option (complex R) :=
  if Rle_dec (cnorm z) threshold then None else Some (cnormalize z).
Definition cdistance (z w : complex R) : R := cnorm (csub z w).
