(** Vocabulary of the statements about texts. *)

From Coq Require Import String Ascii List Arith DecimalString.
From Verif Require Import Base Scalar MVector MMatrix.
Import ListNotations.
Local Open Scope string_scope.

(** The characters of a string; a character does not occur in a string. *)
Fixpoint chars (s : string) : list ascii := match s with EmptyString => [] | String c t => c :: chars t end.
Definition free_of (c : ascii) (s : string) : Prop := ~ In c (chars s).

(** A number in decimal. *)
Definition decimal (n : nat) : string := NilEmpty.string_of_uint (Nat.to_uint n).

Section Text.
Context {K : Type} {NK : Num K} (show : K -> string).
(** ["NameN [a, b, c]"]. *)
Definition vector_text (name : string) {n} (u : vec K n) : string :=
  name ++ decimal n ++ " [" ++ String.concat ", " (map (fun i => show (vat u i)) (seq 0 n)) ++ "]".
(** ["[a, b]"], one column. *)
Definition column_text {r c} (m : mat K r c) (j : nat) : string :=
  "[" ++ String.concat ", " (map (fun i => show (mget m j i)) (seq 0 r)) ++ "]".
(** ["MatrixRxC [[a, b], [c, d]]"], column by column. *)
Definition matrix_text {r c} (m : mat K r c) : string :=
  "Matrix" ++ decimal r ++ "x" ++ decimal c ++ " [" ++ String.concat ", " (map (column_text m) (seq 0 c)) ++ "]".
End Text.
Arguments vector_text {K NK} show name {n}.

(** A 2x2 matrix of booleans, for the example. *)
Definition m2new_b (a b c d : bool) : mat bool 2 2 := v2 (v2 a b) (v2 c d).
