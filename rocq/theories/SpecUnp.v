(** Planes of a projection that can be read back from its matrix in floats. *)

From Coq Require Import ZArith Reals.
From Flocq Require Import Core.Core.
Local Open Scope R_scope.

(** A size between [2^-q] and [2^q]. *)
Definition sized (q : Z) (s : R) : Prop := bpow radix2 (- q) <= s <= bpow radix2 q.

(** The far plane at least twice as far as the near plane, but not more than [2^prec / 2048] times as far. *)
Definition depth_range (prec q : Z) (near far : R) : Prop :=
  sized q near /\ sized q far /\ 2 * near <= far /\ 2048 * bpow radix2 (- prec) * far <= near.

(** The two sides of an interval [-lo..hi] around the axis, none more than about [2^prec / 2048] times the other. *)
Definition side_range (prec q : Z) (lo hi : R) : Prop :=
  sized q lo /\ sized q hi /\ 2048 * bpow radix2 (- prec) * ((hi + lo) * (hi + lo)) <= hi * lo.
