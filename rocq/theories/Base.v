(** Arrays of a fixed size and loops.

    Infrastructure shared by every model file.  [vec A n] models the Rust array type [[A; N]]
    (const-generic length), which is the representation of [Vector], [Point], [Quaternion]
    and the columns of [Matrix] (crates/cglinalg_core/src/vector.rs 46-48, point.rs 45-47, matrix.rs 136-138). *)

From Coq Require Import List Arith.
Import ListNotations.

(** Rust [[A; n]].  Nested pairs: every value of the type has exactly [n] elements. *)
Fixpoint vec (A : Type) (n : nat) : Type :=
  match n with
  | O => unit
  | S k => (A * vec A k)%type
  end.

(** Array read [a[i]].  The default [d] is returned out of range only; Rust panics there, see
    [vindex] for the checked version.  All uses in the models are in range. *)
Fixpoint vget {A : Type} (d : A) {n : nat} : vec A n -> nat -> A :=
  match n return vec A n -> nat -> A with
  | O => fun _ _ => d
  | S k => fun v i => match i with O => fst v | S j => vget d (snd v) j end
  end.

(** Array write [a[i] = x]; no effect out of range (Rust panics there, see [vassign]). *)
Fixpoint vset {A : Type} {n : nat} : vec A n -> nat -> A -> vec A n :=
  match n return vec A n -> nat -> A -> vec A n with
  | O => fun v _ _ => v
  | S k => fun v i x =>
      match i with O => (x, snd v) | S j => (fst v, vset (snd v) j x) end
  end.

(** Checked array read: [None] models the index-out-of-bounds panic. *)
Fixpoint vindex {A : Type} {n : nat} : vec A n -> nat -> option A :=
  match n return vec A n -> nat -> option A with
  | O => fun _ _ => None
  | S k => fun v i => match i with O => Some (fst v) | S j => vindex (snd v) j end
  end.

(** Checked array write: [None] models the index-out-of-bounds panic. *)
Definition vassign {A : Type} {n : nat} (v : vec A n) (i : nat) (x : A) : option (vec A n) :=
  if i <? n then Some (vset v i x) else None.

(** Rust [[a; n]]. *)
Fixpoint vfill {A : Type} (n : nat) (a : A) : vec A n :=
  match n return vec A n with
  | O => tt
  | S k => (a, vfill k a)
  end.

(** Rust [array.map(op)] for a pure [op] (elements in order). *)
Fixpoint vmap {A B : Type} (f : A -> B) {n : nat} : vec A n -> vec B n :=
  match n return vec A n -> vec B n with
  | O => fun _ => tt
  | S k => fun v => (f (fst v), vmap f (snd v))
  end.

(** [for i in 0..n { s = body(i, s) }] *)
Definition for_range {St : Type} (n : nat) (body : nat -> St -> St) (s : St) : St :=
  fold_left (fun acc i => body i acc) (seq 0 n) s.

(** [for i in a..b { s = body(i, s) }] *)
Definition for_between {St : Type} (a b : nat) (body : nat -> St -> St) (s : St) : St :=
  fold_left (fun acc i => body i acc) (seq a (b - a)) s.

(** The same loop when the body may panic or return early ([None]). *)
Definition for_range_opt {St : Type} (n : nat) (body : nat -> St -> option St) (s : St)
  : option St :=
  fold_left (fun acc i => match acc with Some s' => body i s' | None => None end)
            (seq 0 n) (Some s).

(** Literal arrays. *)
Definition v1 {A} (a : A) : vec A 1 := (a, tt).
Definition v2 {A} (a b : A) : vec A 2 := (a, (b, tt)).
Definition v3 {A} (a b c : A) : vec A 3 := (a, (b, (c, tt))).
Definition v4 {A} (a b c d : A) : vec A 4 := (a, (b, (c, (d, tt)))).

(** [while cond(s) { s = body(s) }] with at most [fuel] iterations; [None] when the fuel runs
    out before the condition becomes false.  Uses in the models come with proofs that the fuel
    given suffices. *)
Fixpoint while_fuel {St : Type} (fuel : nat) (cond : St -> bool) (body : St -> St) (s : St)
  : option St :=
  if cond s then
    match fuel with O => None | S k => while_fuel k cond body (body s) end
  else Some s.
