(** Machine integers in builds with overflow checks (Cargo's debug profile): [+ - *] and unary [-] of [i8..i128], [isize],
    [u8..u128] and [usize] panic when the exact result does not fit the type (numeric lib.rs 78-300 implements the scalar
    traits by the built-in operators).  [None] is the panic; it propagates through every later operation.  The functions of
    the library are generic in the scalar, so the checked version of a function is the same code at this scalar type, and
    the call panics when a component of the result depends on a panic. *)

From Coq Require Import ZArith Bool.
From Verif Require Import Base Scalar MInt MVector MMatrix MComplex MQuat.

Section Checked.
Variables (signed : bool) (w : positive).

(** Whether an integer is a value of the type. *)
Definition fits (z : Z) : bool := andb (wmin signed w <=? z)%Z (z <? wmin signed w + wmodulus w)%Z.
Definition chk (z : Z) : option (wint signed w) := if fits z then Some (wof signed w z) else None.
Definition chk1 (f : Z -> Z) (x : option (wint signed w)) : option (wint signed w) :=
  match x with Some a => chk (f (wval a)) | None => None end.
Definition chk2 (f : Z -> Z -> Z) (x y : option (wint signed w)) : option (wint signed w) :=
  match x, y with Some a, Some b => chk (f (wval a) (wval b)) | _, _ => None end.

#[global] Instance num_checked : Num (option (wint signed w)) := {|
  n0 := Some (wof signed w 0);
  n1 := Some (wof signed w 1);
  nadd := chk2 Z.add;
  nsub := chk2 Z.sub;
  nmul := chk2 Z.mul;
  nneg := chk1 Z.opp;
|}.
End Checked.

(** A call returns when no component panicked. *)
Fixpoint vall {A} {n : nat} : vec (option A) n -> option (vec A n) :=
  match n return vec (option A) n -> option (vec A n) with
  | O => fun _ => Some tt
  | S k => fun v =>
      match fst v, vall (snd v) with Some x, Some r => Some (x, r) | _, _ => None end
  end.
Definition mall {A} {r c} (m : mat (option A) r c) : option (mat A r c) := vall (vmap vall m).
Definition call {A} (z : complex (option A)) : option (complex A) :=
  match re z, im z with Some x, Some y => Some (mkC x y) | _, _ => None end.

(** Arguments are values, not panics. *)
Definition vin {A} {n} (v : vec A n) : vec (option A) n := vmap Some v.
Definition min_ {A} {r c} (m : mat A r c) : mat (option A) r c := vmap vin m.
Definition cin {A} (z : complex A) : complex (option A) := mkC (Some (re z)) (Some (im z)).

(** The library at checked integers: the definitions of MVector.v, MMatrix.v, MComplex.v and MQuat.v (which cite the lines
    of the generic code) instantiated at [num_checked].  Rust accepts unary [-] only for the signed types. *)
Section Ops.
Context {signed : bool} {w : positive}.
Notation I := (wint signed w).
Definition k_vadd {n} (u v : vec I n) : option (vec I n) := vall (vadd (vin u) (vin v)).
Definition k_vsub {n} (u v : vec I n) : option (vec I n) := vall (vsub (vin u) (vin v)).
Definition k_vneg {n} (u : vec I n) : option (vec I n) := vall (vneg (vin u)).
Definition k_vmul_s {n} (u : vec I n) (a : I) : option (vec I n) := vall (vmul_s (vin u) (Some a)).
Definition k_vdot {n} (u v : vec I n) : option I := vdot (vin u) (vin v).
Definition k_vcross (u v : vec I 3) : option (vec I 3) := vall (vcross (vin u) (vin v)).
Definition k_madd {r c} (a b : mat I r c) : option (mat I r c) := mall (madd (min_ a) (min_ b)).
Definition k_msub {r c} (a b : mat I r c) : option (mat I r c) := mall (msub (min_ a) (min_ b)).
Definition k_mmul {r n c} (a : mat I r n) (b : mat I n c) : option (mat I r c) := mall (mmul (min_ a) (min_ b)).
Definition k_mmulv {r c} (a : mat I r c) (v : vec I c) : option (vec I r) := vall (mmulv (min_ a) (vin v)).
Definition k_mtrace {n} (a : mat I n n) : option I := mtrace (min_ a).
Definition k_m2det (m : mat I 2 2) : option I := m2det (min_ m).
Definition k_m3det (m : mat I 3 3) : option I := m3det (min_ m).
Definition k_m4det (m : mat I 4 4) : option I := m4det (min_ m).
Definition k_cmul (z t : complex I) : option (complex I) := call (cmul (cin z) (cin t)).
Definition k_qmul (p q : quat I) : option (quat I) := vall (qmul (vin (p : vec I 4) : quat _) (vin (q : vec I 4)) : vec _ 4).
End Ops.
