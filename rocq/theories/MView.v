(** Slices and memory views (crates/cglinalg_core/src: vector.rs, point.rs, matrix.rs, complex.rs, quaternion.rs).

    An object is its memory, the list of its scalars in address order; a pointer cast reads the same memory at another
    type.  Simplified: addresses, lifetimes and padding are not modelled; the layouts are those of [repr(C)] structs and
    of arrays.  The casts to tuples are left out. *)

From Coq Require Import List Arith Bool.
From Verif Require Import Base Scalar MVector MMatrix MComplex MQuat.
Import ListNotations.

Section View.
Context {A : Type}.

(** Memory of [[A; n]] (vector.rs 46-48, point.rs 45-47), of a matrix (matrix.rs 136-138: its columns one after the
    other), of a complex number (complex.rs 19-25) and of a quaternion (quaternion.rs 48-50). *)
Fixpoint vmem {B : Type} {n : nat} : vec B n -> list B :=
  match n return vec B n -> list B with
  | O => fun _ => []
  | S k => fun v => fst v :: vmem (snd v)
  end.
Definition mmem {r c} (m : mat A r c) : list A := flat_map vmem (vmem m).
Definition cmem (z : complex A) : list A := [re z; im z].
Definition qmem (q : quat A) : list A := vmem (q : vec A 4).

(** Reading memory at a type: a scalar, [n] consecutive objects.  [None]: the memory is too short. *)
Definition read_scalar (l : list A) : option (A * list A) :=
  match l with [] => None | x :: l' => Some (x, l') end.
Fixpoint read_array {B} (read : list A -> option (B * list A)) (n : nat) (l : list A) : option (vec B n * list A) :=
  match n return option (vec B n * list A) with
  | O => Some (tt, l)
  | S k =>
      match read l with
      | None => None
      | Some (x, l') =>
          match read_array read k l' with
          | None => None
          | Some (v, l'') => Some ((x, v), l'')
          end
      end
  end.
Definition cast {B} (read : list A -> option (B * list A)) (l : list A) : option B := option_map fst (read l).
Definition read_vector n := read_array read_scalar n.
Definition read_columns r c := read_array (read_vector r) c.
Definition read_complex (l : list A) : option (complex A * list A) :=
  match l with x :: y :: l' => Some (mkC x y, l') | _ => None end.
(** quaternion.rs 3772-3777 [ViewSV]. *)
Definition read_view_sv (l : list A) : option (A * vec A 3 * list A) :=
  match read_scalar l with
  | None => None
  | Some (s, l') => match read_vector 3 l' with None => None | Some (v, l'') => Some ((s, v), l'') end
  end.

(** matrix.rs 218-227 and 185 [as_slice], 204-209; vector.rs 1108-1113; complex.rs 1915-1927; quaternion.rs 3624-3636
    [AsRef]; quaternion.rs 3779-3789 [Deref]. *)
Definition mat_as_array {r c} (m : mat A r c) : option (vec A (r * c)) := cast (read_vector (r * c)) (mmem m).
Definition mat_as_columns {r c} (m : mat A r c) : option (vec (vec A r) c) := cast (read_columns r c) (mmem m).
Definition vec_as_column {n} (v : vec A n) : option (vec (vec A n) 1) := cast (read_columns n 1) (vmem v).
Definition complex_as_array (z : complex A) : option (vec A 2) := cast (read_vector 2) (cmem z).
Definition quat_as_array (q : quat A) : option (vec A 4) := cast (read_vector 4) (qmem q).
Definition quat_deref (q : quat A) : option (A * vec A 3) := cast read_view_sv (qmem q).

(** matrix.rs 229-238, complex.rs 1929-1941, quaternion.rs 3638-3650 [AsMut], 3791-3799 [DerefMut]: the user changes the
    view and the object is read back from the same memory. *)
Definition obind {B C} (o : option B) (f : B -> option C) : option C := match o with Some x => f x | None => None end.
Definition mat_via_array {r c} (f : vec A (r * c) -> option (vec A (r * c))) (m : mat A r c) : option (mat A r c) :=
  obind (mat_as_array m) (fun w => obind (f w) (fun w' => cast (read_columns r c) (vmem w'))).
Definition complex_via_array (f : vec A 2 -> option (vec A 2)) (z : complex A) : option (complex A) :=
  obind (complex_as_array z) (fun w => obind (f w) (fun w' => cast read_complex (vmem w'))).
Definition quat_via_view (f : A * vec A 3 -> A * vec A 3) (q : quat A) : option (quat A) :=
  obind (quat_deref q) (fun w => let w' := f w in cast (read_vector 4) (fst w' :: vmem (snd w'))).

(** Indexing a slice by a range (Rust's [<[T]>::index]): panics ([None]) if the start is after the end or the end is
    after the last element. *)
Definition slice_range {B} (l : list B) (a b : nat) : option (list B) :=
  if andb (a <=? b) (b <=? length l) then Some (firstn (b - a) (skipn a l)) else None.
(** [l[a..b][k] = x] through a mutable sub-slice. *)
Definition slice_range_write {B} (l : list B) (a b k : nat) (x : B) : option (list B) :=
  match slice_range l a b with
  | None => None
  | Some _ => if k <? b - a then Some (firstn (a + k) l ++ x :: skipn (S (a + k)) l) else None
  end.

(** vector.rs 1160-1188, point.rs 610-638 [Index] and [IndexMut] by [Range], [RangeTo], [RangeFrom], [RangeFull]. *)
Definition vrange {n} (v : vec A n) (a b : nat) : option (list A) := slice_range (vmem v) a b.
Definition vrange_to {n} (v : vec A n) (b : nat) : option (list A) := slice_range (vmem v) 0 b.
Definition vrange_from {n} (v : vec A n) (a : nat) : option (list A) := slice_range (vmem v) a n.
Definition vrange_full {n} (v : vec A n) : option (list A) := slice_range (vmem v) 0 n.
Definition vrange_write {n} (v : vec A n) (a b k : nat) (x : A) : option (vec A n) :=
  obind (slice_range_write (vmem v) a b k x) (cast (read_vector n)).

(** complex.rs 1943-2060 and quaternion.rs 3652-3769: indexing through [as_ref] and [as_mut]. *)
Definition cindex (z : complex A) (i : nat) : option A := obind (complex_as_array z) (fun w => vindex w i).
Definition cassign (z : complex A) (i : nat) (x : A) : option (complex A) := complex_via_array (fun w => vassign w i x) z.
Definition crange (z : complex A) (a b : nat) : option (list A) := obind (complex_as_array z) (fun w => vrange w a b).
Definition crange_to (z : complex A) (b : nat) : option (list A) := obind (complex_as_array z) (fun w => vrange_to w b).
Definition crange_from (z : complex A) (a : nat) : option (list A) := obind (complex_as_array z) (fun w => vrange_from w a).
Definition crange_full (z : complex A) : option (list A) := obind (complex_as_array z) vrange_full.
Definition crange_write (z : complex A) (a b k : nat) (x : A) : option (complex A) :=
  complex_via_array (fun w => vrange_write w a b k x) z.
Definition qvindex (q : quat A) (i : nat) : option A := obind (quat_as_array q) (fun w => vindex w i).
Definition qvassign (q : quat A) (i : nat) (x : A) : option (quat A) := obind (quat_as_array q) (fun w => vassign w i x).
Definition qrange (q : quat A) (a b : nat) : option (list A) := obind (quat_as_array q) (fun w => vrange w a b).
Definition qrange_to (q : quat A) (b : nat) : option (list A) := obind (quat_as_array q) (fun w => vrange_to w b).
Definition qrange_from (q : quat A) (a : nat) : option (list A) := obind (quat_as_array q) (fun w => vrange_from w a).
Definition qrange_full (q : quat A) : option (list A) := obind (quat_as_array q) vrange_full.
Definition qrange_write (q : quat A) (a b k : nat) (x : A) : option (quat A) :=
  obind (quat_as_array q) (fun w => vrange_write w a b k x).

(** coordinates.rs 18-26 [impl_coords!] with vector.rs 2506-2516: the structs of named coordinates, read in field order. *)
Record coords2 := mkXY { cx2 : A; cy2 : A }.
Record coords3 := mkXYZ { cx3 : A; cy3 : A; cz3 : A }.
Record coords4 := mkXYZW { cx4 : A; cy4 : A; cz4 : A; cw4 : A }.
Definition read_coords2 (l : list A) : option (coords2 * list A) :=
  match l with x :: y :: l' => Some (mkXY x y, l') | _ => None end.
Definition read_coords3 (l : list A) : option (coords3 * list A) :=
  match l with x :: y :: z :: l' => Some (mkXYZ x y z, l') | _ => None end.
Definition read_coords4 (l : list A) : option (coords4 * list A) :=
  match l with x :: y :: z :: w :: l' => Some (mkXYZW x y z w, l') | _ => None end.
(** vector.rs 76-79 [as_ptr]: takes the address of element 0, so it panics for an empty array; coordinates.rs 32-44
    [Deref] reads the struct at that address. *)
Definition vec_as_ptr {n} (v : vec A n) : option (list A) := obind (vindex v 0) (fun _ => Some (vmem v)).
Definition vec_deref2 (v : vec A 2) : option coords2 := obind (vec_as_ptr v) (cast read_coords2).
Definition vec_deref3 (v : vec A 3) : option coords3 := obind (vec_as_ptr v) (cast read_coords3).
Definition vec_deref4 (v : vec A 4) : option coords4 := obind (vec_as_ptr v) (cast read_coords4).
(** coordinates.rs 46-54 [DerefMut]: the user changes the struct of named coordinates in place. *)
Definition vec_via_coords2 (f : coords2 -> coords2) (v : vec A 2) : option (vec A 2) :=
  obind (vec_deref2 v) (fun c => let c' := f c in cast (read_vector 2) [cx2 c'; cy2 c']).
Definition vec_via_coords3 (f : coords3 -> coords3) (v : vec A 3) : option (vec A 3) :=
  obind (vec_deref3 v) (fun c => let c' := f c in cast (read_vector 3) [cx3 c'; cy3 c'; cz3 c']).
Definition vec_via_coords4 (f : coords4 -> coords4) (v : vec A 4) : option (vec A 4) :=
  obind (vec_deref4 v) (fun c => let c' := f c in cast (read_vector 4) [cx4 c'; cy4 c'; cz4 c'; cw4 c']).
(** matrix.rs 165-169 [as_ptr]. *)
Definition mat_as_ptr {r c} (m : mat A r c) : option (list A) :=
  obind (vindex m 0) (fun col => obind (vindex col 0) (fun _ => Some (mmem m))).

(** vector.rs 53-75, matrix.rs 143-163 [len], [is_empty], [shape]; point.rs 52-74 is the same as vector.rs. *)
Definition vec_len {n} (v : vec A n) : nat := n.
Definition vec_is_empty {n} (v : vec A n) : bool := vec_len v =? 0.
Definition vec_shape {n} (v : vec A n) : nat * nat := (n, 1).
Definition mat_len {r c} (m : mat A r c) : nat := r * c.
Definition mat_is_empty {r c} (m : mat A r c) : bool := mat_len m =? 0.
Definition mat_shape {r c} (m : mat A r c) : nat * nat := (r, c).
End View.
Arguments coords2 : clear implicits.
Arguments coords3 : clear implicits.
Arguments coords4 : clear implicits.
