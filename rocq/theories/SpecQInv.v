(** Specification of the inverse of a real quaternion (w, x, y, z); independent of the models. *)

From Coq Require Import Reals.
From Verif Require Import SpecDrift.
Local Open Scope R_scope.

Definition rqinv (a : rquat) : rquat :=
  match a with (((a0, a1), a2), a3) =>
    let n := a0 * a0 + a1 * a1 + a2 * a2 + a3 * a3 in (a0 / n, - a1 / n, - a2 / n, - a3 / n)
  end.
