(** Machine integers of [w] bits, signed or unsigned, with wrap-around arithmetic: the scalars
    [i8..i128], [isize], [u8..u128], [usize] in builds without overflow checks, where [+ - *] and
    unary [-] reduce modulo 2^w (numeric lib.rs 78-300 implements the scalar traits for them by the
    built-in operators).  Debug builds panic on overflow instead: MChecked.v. *)

From Coq Require Import ZArith Bool.
From Verif Require Import Base Scalar.
Local Open Scope Z_scope.

(** Least value of the type and number of values. *)
Definition wmodulus (w : positive) : Z := 2 ^ Zpos w.
Definition wmin (signed : bool) (w : positive) : Z := if signed then - 2 ^ (Zpos w - 1) else 0.

(** The representative of [z] modulo 2^w in the range of the type. *)
Definition wwrap (signed : bool) (w : positive) (z : Z) : Z :=
  (z - wmin signed w) mod wmodulus w + wmin signed w.

(** A value of the type: an integer equal to its own representative. *)
Record wint (signed : bool) (w : positive) : Set :=
  mkWint { wval : Z; wval_ok : Z.eqb (wwrap signed w wval) wval = true }.
Arguments mkWint {signed w}. Arguments wval {signed w}. Arguments wval_ok {signed w}.

Lemma wwrap_idem signed w z : Z.eqb (wwrap signed w (wwrap signed w z)) (wwrap signed w z) = true.
Proof.
  apply Z.eqb_eq. unfold wwrap. rewrite Z.add_simpl_r.
  rewrite Z.mod_mod; [reflexivity|]. unfold wmodulus. apply Z.pow_nonzero; discriminate.
Qed.

(** [z as iN]. *)
Definition wof (signed : bool) (w : positive) (z : Z) : wint signed w :=
  mkWint (wwrap signed w z) (wwrap_idem signed w z).

#[global] Instance num_wint signed w : Num (wint signed w) := {|
  n0 := wof signed w 0;
  n1 := wof signed w 1;
  nadd := fun x y => wof signed w (wval x + wval y);
  nsub := fun x y => wof signed w (wval x - wval y);
  nmul := fun x y => wof signed w (wval x * wval y);
  nneg := fun x => wof signed w (- wval x);
|}.

(** The value range of the type. *)
Definition wfits (signed : bool) (w : positive) (z : Z) : Prop :=
  wmin signed w <= z < wmin signed w + wmodulus w.
