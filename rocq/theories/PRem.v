(** C113: division and remainder by a scalar. *)

From Coq Require Import List Arith ZArith Bool Lia Reals Lra.
From Flocq Require Import Core.Core IEEE754.BinarySingleNaN.
From Verif Require Import Base Scalar Spec LBase MVector LVector MMatrix MComplex MQuat MPoint MInt MFloat MRem LRemP.
Import ListNotations.

(** ** C113 Division and remainder by a scalar *)

(** For every scalar operator (which may panic), dimension and argument: the vector, point, matrix, complex and
    quaternion operators apply it to every component, and panic exactly if it panics on some component. *)
Theorem C113_componentwise :
  forall (K : Type) (NK : Num K) (op : K -> K -> option K) (s : K),
    (forall n (u r : vec K n),
       (vsop op u s = Some r <-> forall i, (i < n)%nat -> op (vat u i) s = Some (vat r i)) /\
       (vsop op u s = None <-> exists i, (i < n)%nat /\ op (vat u i) s = None) /\ psop op u s = vsop op u s) /\
    (forall n p (m w : mat K n p),
       (msop op m s = Some w <-> forall j i, (j < p)%nat -> (i < n)%nat -> op (mget m j i) s = Some (mget w j i)) /\
       (msop op m s = None <-> exists j i, (j < p)%nat /\ (i < n)%nat /\ op (mget m j i) s = None)) /\
    (forall z w : complex K,
       (csop op z s = Some w <-> op (re z) s = Some (re w) /\ op (im z) s = Some (im w)) /\
       (csop op z s = None <-> op (re z) s = None \/ op (im z) s = None)) /\
    (forall q r : quat K,
       (qsop op q s = Some r <-> forall i, (i < 4)%nat -> op (vat (q : vec K 4) i) s = Some (vat (r : vec K 4) i)) /\
       (qsop op q s = None <-> exists i, (i < 4)%nat /\ op (vat (q : vec K 4) i) s = None)).
Proof. exact c113_componentwise. Qed.
Print Assumptions C113_componentwise.

(** The assigning forms [/=], [%=] compute the same values and panic on the same inputs. *)
Theorem C113_assign :
  forall (K : Type) (NK : Num K) (op : K -> K -> option K) (s : K),
    (forall n (u : vec K n), vsop_assign op u s = vsop op u s /\ psop_assign op u s = psop op u s) /\
    (forall n p (m : mat K n p), msop_assign op m s = msop op m s) /\
    (forall z : complex K, csop_assign op z s = csop op z s) /\
    (forall q : quat K, qsop_assign op q s = qsop op q s).
Proof. exact c113_assign. Qed.
Print Assumptions C113_assign.

(** Machine integers, every width: if neither panics, the vectors [q = u / s] and [r = u % s] satisfy [u = q * s + r]
    exactly (no wrap-around), every component of [r] is smaller than [s] in absolute value and has the sign of the
    dividend. *)
Theorem C113_integer_law :
  forall (signed : bool) (w : positive) (n : nat) (u q r : vec (wint signed w) n) (s : wint signed w),
    vsop wquot u s = Some q -> vsop wrem u s = Some r ->
    vadd (vmul_s q s) r = u /\
    forall i, (i < n)%nat ->
      (wval (vat u i) = wval (vat q i) * wval s + wval (vat r i))%Z /\
      (Z.abs (wval (vat r i)) < Z.abs (wval s))%Z /\ (0 <= wval (vat r i) * wval (vat u i))%Z.
Proof. exact c113_integer_law. Qed.
Print Assumptions C113_integer_law.

(** Integer division and remainder panic exactly if the vector has a component and the divisor is zero, or the
    divisor is -1 and some component is the least value of a signed type. *)
Theorem C113_integer_panics :
  forall (signed : bool) (w : positive) (n : nat) (u : vec (wint signed w) n) (s : wint signed w),
    (vsop wrem u s = None <-> exists i, (i < n)%nat /\ (wval s = 0%Z \/ (signed = true /\ wval (vat u i) = wmin signed w /\ wval s = (-1)%Z))) /\
    (vsop wquot u s = None <-> vsop wrem u s = None).
Proof. exact c113_integer_panics. Qed.
Print Assumptions C113_integer_panics.

(** Floats of every format: on finite components and a finite non-zero divisor the remainder is exact
    (no rounding error), truncates toward zero, is smaller than the divisor and carries the sign of the dividend. *)
Theorem C113_float_remainder :
  forall (prec emax : Z) (Hp : Prec_gt_0 prec) (He : Prec_lt_emax prec emax) (n : nat)
    (u : vec (binary_float prec emax) n) (s : binary_float prec emax),
    is_finite s = true -> B2R s <> 0%R -> (forall i, (i < n)%nat -> is_finite (vat u i) = true) ->
    exists r, vsop (fun x y => Some (frem x y)) u s = Some r /\
      forall i, (i < n)%nat ->
        is_finite (vat r i) = true /\
        B2R (vat r i) = (B2R (vat u i) - IZR (Ztrunc (B2R (vat u i) / B2R s)) * B2R s)%R /\
        (Rabs (B2R (vat r i)) < Rabs (B2R s))%R /\ Bsign (vat r i) = Bsign (vat u i).
Proof. exact c113_float_remainder. Qed.
Print Assumptions C113_float_remainder.

(** The remaining cases: a NaN argument, an infinite dividend or a zero divisor give NaN in that component; an infinite divisor
    leaves a finite dividend unchanged. *)
Theorem C113_float_special :
  forall (prec emax : Z) (Hp : Prec_gt_0 prec) (He : Prec_lt_emax prec emax) (x s : binary_float prec emax),
    (is_nan (frem x s) = true <-> is_nan x = true \/ is_nan s = true \/ (is_finite x = false) \/ (is_finite s = true /\ B2R s = 0%R)) /\
    (is_finite x = true -> is_finite s = false -> is_nan s = false -> frem x s = x).
Proof. exact c113_float_special. Qed.
Print Assumptions C113_float_special.

(** Exact scalars (a field): dividing by a non-zero [a] undoes multiplying by it and conversely, componentwise,
    for every type; the assigning forms agree with the operators. *)
Theorem C113_field_division :
  forall (K : Type) (NK : Num K) (ND : NumDiv K) (FK : FieldLaws K) (a : K), a <> n0 ->
    (forall n (u : vec K n), vmul_s (vdiv_s u a) a = u /\ vdiv_s (vmul_s u a) a = u /\ pdiv_s u a = vdiv_s u a /\
       vdiv_assign u a = vdiv_s u a /\ vsop (fun x y => Some (ndiv x y)) u a = Some (vdiv_s u a)) /\
    (forall n p (m : mat K n p), mmul_s (mdiv_s m a) a = m /\ mdiv_s (mmul_s m a) a = m /\ mdiv_assign m a = mdiv_s m a /\
       msop (fun x y => Some (ndiv x y)) m a = Some (mdiv_s m a)) /\
    (forall z : complex K, cmul_s (cdiv_s z a) a = z /\ cdiv_s (cmul_s z a) a = z /\ cdiv_assign_s z a = cdiv_s z a) /\
    (forall q : quat K, qscale (qdiv_s q a) a = q /\ qdiv_s (qscale q a) a = q /\ qdiv_assign q a = qdiv_s q a).
Proof. exact c113_field_division. Qed.
Print Assumptions C113_field_division.

(** [i8]: (7, -7) / -2 = (-3, 3), (7, -7) % -2 = (1, -1); [i8::MIN % -1] and division by zero panic;
    in [f64], 5.5 % 2 = 1.5. *)
Example C113_example :
  let u := v2 (wof true 8 7) (wof true 8 (-7)) in
  vsop wquot u (wof true 8 (-2)) = Some (v2 (wof true 8 (-3)) (wof true 8 3)) /\
  vsop wrem u (wof true 8 (-2)) = Some (v2 (wof true 8 1) (wof true 8 (-1))) /\
  vsop wrem (v2 (wof true 8 7) (wof true 8 (-128))) (wof true 8 (-1)) = None /\
  vsop wrem u (wof true 8 0) = None /\
  B2SF (frem (ndiv (f64_of_Z 11) (f64_of_Z 2)) (f64_of_Z 2)) = B2SF (ndiv (f64_of_Z 3) (f64_of_Z 2)).
Proof. exact c113_example. Qed.
