(** Independent mathematical specifications used in the statements of the properties.  Nothing
    here is defined from the models of the Rust functions; only the scalar classes are used. *)

From Coq Require Import List Arith Reals Bool.
From Verif Require Import Base Scalar.

Section SpecGeneric.
Context {K : Type} `{NK : Num K}.
Local Open Scope num_scope.

(** [sum n f] = f 0 + f 1 + ... + f (n-1). *)
Fixpoint sum (n : nat) (f : nat -> K) : K :=
  match n with
  | O => 0
  | S k => sum k f + f k
  end.

(** n-fold product. *)
Fixpoint npow (x : K) (n : nat) : K :=
  match n with
  | O => 1
  | S k => x * npow x k
  end.

(** Kronecker delta. *)
Definition delta (i j : nat) : K := if Nat.eqb i j then 1 else 0.

(** Matrix entries as a function of row and column. *)
Definition entries := nat -> nat -> K.

(** Determinant by Laplace expansion along the first row: [a r c] is row [r], column [c]. *)
Definition minor (a : entries) (j : nat) : entries :=
  fun r c => a (S r) (if c <? j then c else S c).
Fixpoint sgn (j : nat) : K := match j with O => 1 | S k => - sgn k end.
Fixpoint laplace (n : nat) (a : entries) : K :=
  match n with
  | O => 1
  | S k => sum (S k) (fun j => sgn j * a 0%nat j * laplace k (minor a j))
  end.

End SpecGeneric.

(** All of [P 0 .. P (n-1)]. *)
Definition all_below (n : nat) (P : nat -> Prop) : Prop := forall i, i < n -> P i.
