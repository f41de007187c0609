(** Slices and memory views: C119, C120.  Statements only; proofs in LViewP.v. *)

From Coq Require Import List Arith Bool.
From Verif Require Import Base Scalar MVector MMatrix MComplex MQuat MView LViewP.
Import ListNotations.

(** ** C119: indexing by ranges *)

(** [v[a..b]] panics exactly when the range is reversed or ends past the last component, and otherwise is the slice of the
    components [a], ..., [b-1]. *)
Theorem C119_range : forall (A : Type) (n : nat) (v : vec A n) (a b : nat),
  (vrange v a b = None <-> b < a \/ n < b) /\
  (forall l, vrange v a b = Some l -> length l = b - a /\ forall k, k < b - a -> nth_error l k = vindex v (a + k)).
Proof. exact (@vrange_spec). Qed.
Print Assumptions C119_range.

Example C119_range_example :
  vrange (v4 10 11 12 13) 1 3 = Some [11; 12] /\ vrange (v4 10 11 12 13) 4 4 = Some [] /\
  vrange (v4 10 11 12 13) 3 1 = None /\ vrange (v4 10 11 12 13) 2 5 = None.
Proof. repeat split. Qed.

(** The other kinds of range: [v[..k]], [v[k..]] and [v[..]] panic exactly when [k] is past the end, respectively never,
    and are the first [k] components, all but the first [k], and all. *)
Theorem C119_range_kinds : forall (A : Type) (n : nat) (v : vec A n) (k : nat),
  (vrange_to v k = None <-> n < k) /\ (vrange_from v k = None <-> n < k) /\
  (forall l, vrange_to v k = Some l -> length l = k /\ forall i, i < k -> nth_error l i = vindex v i) /\
  (forall l, vrange_from v k = Some l -> length l = n - k /\ forall i, i < n - k -> nth_error l i = vindex v (k + i)) /\
  (exists l, vrange_full v = Some l /\ length l = n /\ forall i, nth_error l i = vindex v i).
Proof. exact (@vrange_kinds). Qed.
Print Assumptions C119_range_kinds.

(** A vector is cut in two by [v[..k]] and [v[k..]]. *)
Theorem C119_split : forall (A : Type) (n : nat) (v : vec A n) (k : nat), k <= n ->
  exists l1 l2, vrange_to v k = Some l1 /\ vrange_from v k = Some l2 /\ vrange_full v = Some (l1 ++ l2).
Proof. exact (@vrange_split). Qed.
Print Assumptions C119_split.

Example C119_split_example : vrange_to (v3 7 8 9) 1 = Some [7] /\ vrange_from (v3 7 8 9) 1 = Some [8; 9] /\
  vrange_full (v3 7 8 9) = Some [7; 8; 9] /\ vrange_from (v3 7 8 9) 4 = None.
Proof. repeat split. Qed.

(** Slicing a slice: [(v[a..b])[c..d]] is [v[a+c..a+d]]. *)
Theorem C119_nested : forall (A : Type) (n : nat) (v : vec A n) (l : list A) (a b c d : nat),
  vrange v a b = Some l -> d <= b - a -> slice_range l c d = vrange v (a + c) (a + d).
Proof. exact (fun A n v l a b c d => slice_range_nested (vmem v) l a b c d). Qed.
Print Assumptions C119_nested.

Example C119_nested_example : exists l, vrange (v4 10 11 12 13) 1 4 = Some l /\ slice_range l 1 3 = Some [12; 13] /\
  vrange (v4 10 11 12 13) 2 4 = Some [12; 13].
Proof. eexists; repeat split. Qed.

(** [v[a..b][k] = x] panics exactly when the range or the index in it is invalid, and otherwise changes component [a + k]
    and no other. *)
Theorem C119_write : forall (A : Type) (n : nat) (v : vec A n) (a b k : nat) (x : A),
  (vrange_write v a b k x = None <-> b < a \/ n < b \/ b - a <= k) /\
  (forall v', vrange_write v a b k x = Some v' -> forall i, vindex v' i = if i =? a + k then Some x else vindex v i).
Proof. exact (@vrange_write_spec). Qed.
Print Assumptions C119_write.

Example C119_write_example : vrange_write (v4 10 11 12 13) 1 3 1 99 = Some (v4 10 11 99 13) /\
  vrange_write (v4 10 11 12 13) 1 3 2 99 = None.
Proof. repeat split. Qed.

(** Complex numbers are indexed as the array of their real and imaginary parts. *)
Theorem C119_complex : forall (A : Type) (z : complex A) (a b k : nat) (x : A),
  cindex z 0 = Some (re z) /\ cindex z 1 = Some (im z) /\ (2 <= k -> cindex z k = None) /\
  cassign z 0 x = Some (mkC x (im z)) /\ cassign z 1 x = Some (mkC (re z) x) /\ (2 <= k -> cassign z k x = None) /\
  crange z a b = vrange (v2 (re z) (im z)) a b /\
  crange_to z b = vrange (v2 (re z) (im z)) 0 b /\
  crange_from z a = vrange (v2 (re z) (im z)) a 2 /\
  crange_full z = Some [re z; im z] /\
  (crange_write z a b k x = None <-> b < a \/ 2 < b \/ b - a <= k) /\
  (forall z', crange_write z a b k x = Some z' ->
     re z' = (if a + k =? 0 then x else re z) /\ im z' = (if a + k =? 1 then x else im z)).
Proof. exact (@complex_ranges). Qed.
Print Assumptions C119_complex.

Example C119_complex_example : crange_write (mkC 3 4) 1 2 0 9 = Some (mkC 3 9) /\ crange (mkC 3 4) 0 3 = None /\
  crange_from (mkC 3 4) 1 = Some [4].
Proof. repeat split. Qed.

(** Quaternions are indexed as the array [[s, x, y, z]]. *)
Theorem C119_quaternion : forall (A : Type) (s x y z t : A) (a b k : nat),
  let q : quat A := qnew s x y z in
  (qvindex q 0 = Some s /\ qvindex q 1 = Some x /\ qvindex q 2 = Some y /\ qvindex q 3 = Some z /\
   (4 <= k -> qvindex q k = None)) /\
  qvassign q k t = vassign (v4 s x y z) k t /\
  qrange q a b = vrange (v4 s x y z) a b /\
  qrange_to q b = vrange (v4 s x y z) 0 b /\
  qrange_from q a = vrange (v4 s x y z) a 4 /\
  qrange_full q = Some [s; x; y; z] /\
  qrange_write q a b k t = vrange_write (v4 s x y z) a b k t.
Proof. exact (@quat_ranges_new). Qed.
Print Assumptions C119_quaternion.

Example C119_quaternion_example : qrange (qnew 1 2 3 4) 1 4 = Some [2; 3; 4] /\
  qrange_write (qnew 1 2 3 4) 1 4 2 7 = Some (qnew 1 2 3 7).
Proof. repeat split. Qed.

(** ** C120: memory views *)

(** The array view of a matrix ([as_ref], [as_slice]) always exists, is column-major, and determines the matrix. *)
Theorem C120_matrix_array : forall (A : Type) (r c : nat) (m : mat A r c), exists w, mat_as_array m = Some w /\
  (forall j i, i < r -> vindex w (j * r + i) = mindex m j i) /\ (forall d, mfrom_flat d w = m).
Proof. exact (@mat_array_full). Qed.
Print Assumptions C120_matrix_array.

Example C120_matrix_array_example : mat_as_array (v3 (v2 1 2) (v2 3 4) (v2 5 6) : mat nat 2 3) =
  Some (1, (2, (3, (4, (5, (6, tt)))))).
Proof. reflexivity. Qed.

(** Writing element [k] of the mutable array view panics past the end, and otherwise changes the entry of column [k / r] and
    row [k mod r] and no other. *)
Theorem C120_matrix_write : forall (A : Type) (r c : nat) (m : mat A r c) (k : nat) (x : A),
  (r * c <= k -> mat_via_array (fun w => vassign w k x) m = None) /\
  (k < r * c -> exists m', mat_via_array (fun w => vassign w k x) m = Some m' /\
     forall j i, i < r -> mindex m' j i = if (j =? k / r) && (i =? k mod r) then Some x else mindex m j i).
Proof. exact (@mat_write_divmod). Qed.
Print Assumptions C120_matrix_write.

Example C120_matrix_write_example :
  mat_via_array (fun w => vassign w 3 9) (v3 (v2 1 2) (v2 3 4) (v2 5 6) : mat nat 2 3) =
  Some (v3 (v2 1 2) (v2 3 9) (v2 5 6)).
Proof. reflexivity. Qed.

(** The view of a matrix as its columns, and of a vector as a matrix of one column. *)
Theorem C120_columns : forall (A : Type) (r c : nat) (m : mat A r c) (v : vec A r),
  mat_as_columns m = Some (m : vec (vec A r) c) /\ vec_as_column v = Some (v1 v).
Proof. exact (fun A r c m v => conj (mat_columns r c m) (vec_column r v)). Qed.
Print Assumptions C120_columns.

(** The scalar and vector parts seen through a quaternion's [s] and [v] fields are element 0 and elements 1 to 3, and
    changing them through the mutable view changes exactly what the view then shows. *)
Theorem C120_quaternion_view : forall (A : Type) (s x y z : A) (f : A * vec A 3 -> A * vec A 3),
  quat_deref (qnew s x y z) = Some (s, v3 x y z) /\
  exists q', quat_via_view f (qnew s x y z) = Some q' /\ quat_deref q' = Some (f (s, v3 x y z)).
Proof. exact (@quat_view_full). Qed.
Print Assumptions C120_quaternion_view.

Example C120_quaternion_view_example :
  quat_via_view (fun w => (fst w, v3 7 8 9)) (qnew 1 2 3 4) = Some (qnew 1 7 8 9).
Proof. reflexivity. Qed.

(** The named coordinates [x], [y], [z], [w] are components 0, 1, 2, 3, for reading and for writing. *)
Theorem C120_coordinates : forall (A : Type) (v : vec A 2) (u : vec A 3) (w : vec A 4),
  (exists c, vec_deref2 v = Some c /\ vindex v 0 = Some (cx2 c) /\ vindex v 1 = Some (cy2 c)) /\
  (exists c, vec_deref3 u = Some c /\ vindex u 0 = Some (cx3 c) /\ vindex u 1 = Some (cy3 c) /\ vindex u 2 = Some (cz3 c)) /\
  (exists c, vec_deref4 w = Some c /\ vindex w 0 = Some (cx4 c) /\ vindex w 1 = Some (cy4 c) /\ vindex w 2 = Some (cz4 c) /\
     vindex w 3 = Some (cw4 c)).
Proof. exact (@coords_names). Qed.
Print Assumptions C120_coordinates.

Theorem C120_coordinates_write : forall (A : Type) (v : vec A 2) (u : vec A 3) (w : vec A 4) f g h,
  (forall c, vec_deref2 v = Some c -> exists v', vec_via_coords2 f v = Some v' /\ vec_deref2 v' = Some (f c)) /\
  (forall c, vec_deref3 u = Some c -> exists u', vec_via_coords3 g u = Some u' /\ vec_deref3 u' = Some (g c)) /\
  (forall c, vec_deref4 w = Some c -> exists w', vec_via_coords4 h w = Some w' /\ vec_deref4 w' = Some (h c)).
Proof. exact (@coords_write). Qed.
Print Assumptions C120_coordinates_write.

Example C120_coordinates_example :
  vec_via_coords3 (fun c => mkXYZ (cx3 c) 9 (cz3 c)) (v3 1 2 3) = Some (v3 1 9 3).
Proof. reflexivity. Qed.

(** [as_ptr] panics exactly for empty vectors and matrices; [len] is the number of scalars in memory and [shape] agrees
    with it. *)
Theorem C120_pointers : forall (A : Type) (n : nat) (v : vec A n) (r c : nat) (m : mat A r c),
  (vec_as_ptr v = None <-> vec_is_empty v = true) /\ (mat_as_ptr m = None <-> mat_is_empty m = true) /\
  length (vmem v) = vec_len v /\ vec_shape v = (vec_len v, 1) /\
  length (mmem m) = mat_len m /\ mat_len m = fst (mat_shape m) * snd (mat_shape m).
Proof. exact (@pointers). Qed.
Print Assumptions C120_pointers.

Example C120_pointers_example : mat_as_ptr (v2 tt tt : mat nat 0 2) = None /\ mat_len (v2 (v3 1 2 3) (v3 4 5 6)) = 6 /\
  mat_shape (v2 (v3 1 2 3) (v3 4 5 6)) = (3, 2).
Proof. repeat split. Qed.
