(** Powers of a complex number given by its parts, and nearness of a complex float to such a number. *)

From Coq Require Import ZArith Reals.
From Flocq Require Import IEEE754.BinarySingleNaN.
From Verif Require Import MComplex.
Local Open Scope R_scope.

(** (a + b i)^n. *)
Fixpoint zpow (a b : R) (n : nat) : R * R :=
  match n with
  | O => (1, 0)
  | S k => (a * fst (zpow a b k) - b * snd (zpow a b k), a * snd (zpow a b k) + b * fst (zpow a b k))
  end.

(** Both parts finite and the distance from [p] at most [e]. *)
Definition znear {prec emax} (x : complex (binary_float prec emax)) (p : R * R) (e : R) : Prop :=
  is_finite (re x) = true /\ is_finite (im x) = true /\
  sqrt ((B2R (re x) - fst p) * (B2R (re x) - fst p) + (B2R (im x) - snd p) * (B2R (im x) - snd p)) <= e.
