(** Specification of products of real quaternions (w, x, y, z), complex numbers and matrices; independent of the models. *)

From Coq Require Import Reals List.
From Verif Require Import Scalar Spec MReal.
Local Open Scope R_scope.

Definition rquat : Type := (R * R * R * R)%type.
Definition hamilton (a b : rquat) : rquat :=
  match a, b with (((a0, a1), a2), a3), (((b0, b1), b2), b3) =>
    (a0 * b0 - a1 * b1 - a2 * b2 - a3 * b3, a0 * b1 + a1 * b0 + a2 * b3 - a3 * b2,
     a0 * b2 - a1 * b3 + a2 * b0 + a3 * b1, a0 * b3 + a1 * b2 - a2 * b1 + a3 * b0)
  end.
Definition qlength (a : rquat) : R :=
  match a with (((a0, a1), a2), a3) => sqrt (a0 * a0 + a1 * a1 + a2 * a2 + a3 * a3) end.
Definition qdistance (a b : rquat) : R :=
  match a, b with (((a0, a1), a2), a3), (((b0, b1), b2), b3) => qlength (a0 - b0, a1 - b1, a2 - b2, a3 - b3) end.
(** The product of all the quaternions in order. *)
Definition qproduct (l : list rquat) : rquat := fold_left hamilton l (1, 0, 0, 0).

Definition rcomplex : Type := (R * R)%type.
Definition rcmul (a b : rcomplex) : rcomplex :=
  (fst a * fst b - snd a * snd b, fst a * snd b + snd a * fst b).
Definition rclength (a : rcomplex) : R := sqrt (fst a * fst a + snd a * snd a).
Definition rcdistance (a b : rcomplex) : R := rclength (fst a - fst b, snd a - snd b).
Definition rcproduct (l : list rcomplex) : rcomplex := fold_left rcmul l (1, 0).

(** A real matrix as a function of the column and the row. *)
Definition rmatrix : Type := nat -> nat -> R.
Definition rmatmul (n : nat) (a b : rmatrix) : rmatrix := fun j i => sum n (fun k => a k i * b j k).
Definition rmatproduct (n : nat) (l : list rmatrix) : rmatrix := fold_left (rmatmul n) l (fun j i => delta j i).
