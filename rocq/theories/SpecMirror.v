(** Specification of mirror images and orthogonal projections on families of coordinates; independent of the models. *)

From Coq Require Import Reals.
From Verif Require Import Base Scalar Spec.
Local Open Scope R_scope.

(** Mirror image of [x] at the hyperplane through [b] with unit normal [a]. *)
Definition mirror (n : nat) (a b x : nat -> R) : nat -> R :=
  fun i => x i - 2 * sum n (fun j => (x j - b j) * a j) * a i.

(** Orthogonal projection of [x] to the line spanned by [o]. *)
Definition shadow (n : nat) (o x : nat -> R) : nat -> R :=
  fun i => sum n (fun j => x j * o j) / sum n (fun j => o j * o j) * o i.
