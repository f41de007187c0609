(** Specification of reports: lists combined position by position. *)

From Coq Require Import List Reals.
Import ListNotations.

Fixpoint zip2 {A B C} (f : A -> B -> C) (la : list A) (lb : list B) : list C :=
  match la, lb with a :: la, b :: lb => f a b :: zip2 f la lb | _, _ => [] end.
Fixpoint zip3 {A B C D} (f : A -> B -> C -> D) (la : list A) (lb : list B) (lc : list C) : list D :=
  match la, lb, lc with a :: la, b :: lb, c :: lc => f a b c :: zip3 f la lb lc | _, _, _ => [] end.
(** Some position is bad: the four lists have entries there for which the test fails. *)
Definition bad_position {A B C D} (chk : A -> B -> C -> D -> bool) la lb lc ld : Prop :=
  exists i a b c d, nth_error la i = Some a /\ nth_error lb i = Some b /\ nth_error lc i = Some c /\
    nth_error ld i = Some d /\ chk a b c d = false.

(** Absolute differences of reals: the difference, the tolerance, and the test. *)
Definition rdist (a b : R) : R := Rabs (a - b).
Definition htol (_ _ t : R) : R := t.
Definition within (d _ t _ : R) : bool := if Rle_dec d t then true else false.
