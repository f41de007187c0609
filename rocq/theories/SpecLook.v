(** Specification of the frame of an observer looking along [d] with the hint [up]; independent of the models. *)

From Coq Require Import Reals.
From Verif Require Import Base Scalar Spec SpecRigid.
Local Open Scope R_scope.

(** Cross product and direction of families of three numbers. *)
Definition rcross (a b : nat -> R) : nat -> R :=
  fun i => match i with
           | 0%nat => a 1%nat * b 2%nat - a 2%nat * b 1%nat
           | 1%nat => a 2%nat * b 0%nat - a 0%nat * b 2%nat
           | _ => a 0%nat * b 1%nat - a 1%nat * b 0%nat
           end.
Definition rdir (a : nat -> R) : nat -> R := fun i => a i / rlength 3 a.
Definition rdot (a b : nat -> R) : R := sum 3 (fun i => a i * b i).

(** Sine of the angle of two vectors. *)
Definition rsine (a b : nat -> R) : R := rlength 3 (rcross a b) / (rlength 3 a * rlength 3 b).

(** The axes: [front] along [d], [right] at right angles to [up] and [d], [top] the rest of a right-handed frame. *)
Definition front (d : nat -> R) : nat -> R := rdir d.
Definition right (d up : nat -> R) : nat -> R := rdir (rcross up d).
Definition top (d up : nat -> R) : nat -> R := rcross (front d) (right d up).

(** The frame as a list of rows: row [i] is axis [i]. *)
Definition frame (d up : nat -> R) (i : nat) : nat -> R :=
  match i with 0%nat => right d up | 1%nat => top d up | _ => front d end.
