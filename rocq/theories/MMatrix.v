(** Model of crates/cglinalg_core/src/matrix.rs: generic part, determinants, inverses and the
    non-trigonometric constructors.

    [Unit<T>] arguments are modelled by the wrapped value; theorems that need it assume the
    norm is one.  By-value and by-reference operator variants have the same body and share one
    definition. *)

From Coq Require Import List Arith Reals.
From Verif Require Import Base Scalar MVector.
Import ListNotations.

(** matrix.rs 136-138 [Matrix<S, R, C>]: [C] columns of [R] entries each. *)
Definition mat (A : Type) (r c : nat) : Type := vec (vec A r) c.

(** Read of [data[c][r]] with explicit default; in range in all uses of the models. *)
Definition mget_d {A} (d : A) {r c} (m : mat A r c) (j i : nat) : A :=
  vget d (vget (vfill r d) m j) i.

(** Write [data[j][i] = x] (matrix.rs 250-256, 268-274 [IndexMut]); in range in all uses. *)
Definition mset_d {A} (d : A) {r c} (m : mat A r c) (j i : nat) (x : A) : mat A r c :=
  vset m j (vset (vget (vfill r d) m j) i x).

(** matrix.rs 240-256 [Index<usize>]: the column, [None] = out-of-range panic. *)
Definition mindex_col {A} {r c} (m : mat A r c) (j : nat) : option (vec A r) := vindex m j.

(** matrix.rs 258-266 [Index<(usize, usize)>]: (column, row), [None] = panic. *)
Definition mindex {A} {r c} (m : mat A r c) (j i : nat) : option A :=
  match vindex m j with Some col => vindex col i | None => None end.

(** matrix.rs 407-411 [from_columns], 276-283 [From<[[S; R]; C]>]: same memory layout. *)
Definition mfrom_columns {A} {r c} (cols : vec (vec A r) c) : mat A r c := cols.

(** matrix.rs 434-445 [from_rows]; [d] is the zeroed initial contents. *)
Definition mfrom_rows {A} (d : A) {r c} (rows : vec (vec A c) r) : mat A r c :=
  for_range r (fun i data => for_range c (fun j data =>
    mset_d d data j i (vget d (vget (vfill c d) rows i) j)) data) (vfill c (vfill r d)).

(** matrix.rs 306-318 [From<[S; RC]>]: a transmute.  Simplified: the array of [R * C] scalars
    is reinterpreted as [C] consecutive groups of [R] scalars (Rust's array layout). *)
Definition mfrom_flat {A} (d : A) {r c} (array : vec A (r * c)) : mat A r c :=
  for_range c (fun j data => for_range r (fun i data =>
    mset_d d data j i (vget d array (j * r + i))) data) (vfill c (vfill r d)).

(** matrix.rs 473-487 [map] (pure closures only). *)
Definition mmap {A B} (da : A) (db : B) (f : A -> B) {r c} (m : mat A r c) : mat B r c :=
  for_range c (fun j data => for_range r (fun i data =>
    mset_d db data j i (f (mget_d da m j i))) data) (vfill c (vfill r db)).

(** matrix.rs 514-523 [row]: [None] = panic (the index is checked in every iteration). *)
Definition mrow {A} (d : A) {r c} (m : mat A r c) (i : nat) : option (vec A c) :=
  for_range_opt c (fun j data =>
    match vindex (vget (vfill r d) m j) i with
    | Some x => Some (vset data j x)
    | None => None
    end) (vfill c d).

(** matrix.rs 549-551 [column]: [None] = panic. *)
Definition mcolumn {A} {r c} (m : mat A r c) (j : nat) : option (vec A r) := vindex m j.

(** [<[T]>::swap(a, b)] of the Rust standard library: panics if an index is out of range. *)
Definition vswap {A} {n} (v : vec A n) (a b : nat) : option (vec A n) :=
  match vindex v a, vindex v b with
  | Some xa, Some xb => Some (vset (vset v a xb) b xa)
  | _, _ => None
  end.

(** matrix.rs 575-580 [swap_rows]; [None] = panic. *)
Definition mswap_rows {A} (d : A) {r c} (m : mat A r c) (row_a row_b : nat)
  : option (mat A r c) :=
  for_range_opt c (fun j m' =>
    match vswap (vget (vfill r d) m' j) row_a row_b with
    | Some col => Some (vset m' j col)
    | None => None
    end) m.

(** matrix.rs 608-610 [swap_columns]; [None] = panic. *)
Definition mswap_columns {A} {r c} (m : mat A r c) (col_a col_b : nat)
  : option (mat A r c) := vswap m col_a col_b.

(** matrix.rs 638-642 [swap]; arguments are (column, row) pairs; [None] = panic. *)
Definition mswap {A} (d : A) {r c} (m : mat A r c) (a b : nat * nat) : option (mat A r c) :=
  match mindex m (fst a) (snd a) with
  | None => None
  | Some element_a =>
      match mindex m (fst b) (snd b) with
      | None => None
      | Some element_b =>
          let m1 := mset_d d m (fst a) (snd a) element_b in
          Some (mset_d d m1 (fst b) (snd b) element_a)
      end
  end.

(** matrix.rs 1185-1192 [transpose_mut] (returns the new [self], [None] = panic). *)
Definition mtranspose_mut {A} (d : A) {n} (m : mat A n n) : option (mat A n n) :=
  for_range_opt n (fun i m => for_range_opt i (fun j m => mswap d m (i, j) (j, i)) m) m.

(** matrix.rs 664-681 [try_cast]: nested loop with early return. *)
Definition mtry_cast {A B} (conv : A -> option B) (da : A) (db : B) {r c} (m : mat A r c)
  : option (mat B r c) :=
  for_range_opt c (fun j data => for_range_opt r (fun i data =>
    match conv (mget_d da m j i) with
    | Some value => Some (mset_d db data j i value)
    | None => None
    end) data) (vfill c (vfill r db)).

(** matrix.rs 8928-9080 [AbsDiffEq], [AbsDiffAllEq], [RelativeEq], [UlpsEq] and the [All]
    versions: conjunction over the entries of a scalar comparison [cmp]; [t] is the matrix of
    tolerances (constant for the [All] versions). *)
Definition mcmp_all {A B} (cmp : A -> A -> B -> bool) (da : A) (db : B) {r c}
  (m m' : mat A r c) (t : mat B r c) : bool :=
  for_range c (fun j acc => for_range r (fun i acc =>
    andb acc (cmp (mget_d da m j i) (mget_d da m' j i) (mget_d db t j i))) acc) true.

(** matrix.rs 1450-1470 [is_diagonal]; [eq0 x] models the approximate comparison with zero. *)
Definition mis_diagonal {A} (d : A) (eq0 : A -> bool) {n} (m : mat A n n) : bool :=
  for_range n (fun i acc => for_range i (fun j acc =>
    andb acc (andb (eq0 (mget_d d m i j)) (eq0 (mget_d d m j i)))) acc) true.

(** matrix.rs 1507-1522 [is_symmetric]; [eqb] models the approximate comparison. *)
Definition mis_symmetric {A} (d : A) (eqb : A -> A -> bool) {n} (m : mat A n n) : bool :=
  for_range n (fun i acc => for_range i (fun j acc =>
    andb acc (eqb (mget_d d m i j) (mget_d d m j i))) acc) true.

Section MatrixGeneric.
Context {K : Type} `{NK : Num K}.
Local Open Scope num_scope.

(** [data[j][i]]: column [j], row [i]. *)
Definition mget {r c} (m : mat K r c) (j i : nat) : K := mget_d 0 m j i.
Definition mset {r c} (m : mat K r c) (j i : nat) (x : K) : mat K r c := mset_d 0 m j i x.

(** Column [j] as a vector, [self[j]]. *)
Definition mcol {r c} (m : mat K r c) (j : nat) : vec K r := vget (vzero r) m j.

(** [for c in 0..C { for r in 0..R { result[c][r] = f(c, r) } }], the shape of most loops. *)
Definition mloop {r c} (f : nat -> nat -> K -> K) (m : mat K r c) : mat K r c :=
  for_range c (fun j acc => for_range r (fun i acc =>
    mset acc j i (f j i (mget acc j i))) acc) m.

(** matrix.rs 751-753 [zero], 1525-1532 [Default]. *)
Definition mzero (r c : nat) : mat K r c := vfill c (vfill r 0).

(** matrix.rs 383-385 [from_fill]. *)
Definition mfrom_fill (r c : nat) (a : K) : mat K r c := vfill c (vfill r a).

(** matrix.rs 720-730 [transpose]. *)
Definition mtranspose {r c} (m : mat K r c) : mat K c r :=
  for_range c (fun j acc => for_range r (fun i acc =>
    mset acc i j (mget m j i)) acc) (mzero c r).

(** matrix.rs 815-828 [component_mul], 854-862 [component_mul_assign]. *)
Definition mcmul {r c} (a b : mat K r c) : mat K r c :=
  mloop (fun j i _ => mget a j i * mget b j i) (mzero r c).
Definition mcmul_assign {r c} (a b : mat K r c) : mat K r c :=
  mloop (fun j i x => x * mget b j i) a.

(** matrix.rs 892-903 [dot]: the outer loop runs over the rows. *)
Definition mdot {r c} (a b : mat K r c) : K :=
  for_range r (fun i acc => for_range c (fun j acc =>
    acc + mget a j i * mget b j i) acc) 0.

(** matrix.rs 948-968 [tr_mul]. *)
Definition mtr_mul {r c1 c2} (a : mat K r c1) (b : mat K r c2) : mat K c1 c2 :=
  for_range c1 (fun j1 acc => for_range c2 (fun j2 acc =>
    mset acc j2 j1 (for_range r (fun i s => s + mget a j1 i * mget b j2 i) 0)) acc)
    (mzero c1 c2).

(** matrix.rs 1009-1022 [tr_dot]. *)
Definition mtr_dot {r1 c1} (a : mat K r1 c1) (b : mat K c1 r1) : K :=
  for_range r1 (fun c acc => for_range c1 (fun r acc =>
    acc + mget a r c * mget b c r) acc) 0.

(** matrix.rs 8237-8553: [Add], [Sub], [Neg], [Mul<S>]; 8558-8630 [S * Matrix]. *)
Definition madd {r c} (a b : mat K r c) : mat K r c :=
  mloop (fun j i _ => mget a j i + mget b j i) (mzero r c).
Definition msub {r c} (a b : mat K r c) : mat K r c :=
  mloop (fun j i _ => mget a j i - mget b j i) (mzero r c).
Definition mneg {r c} (a : mat K r c) : mat K r c :=
  mloop (fun j i _ => - mget a j i) (mzero r c).
Definition mmul_s {r c} (a : mat K r c) (s : K) : mat K r c :=
  mloop (fun j i _ => mget a j i * s) (mzero r c).
Definition s_mul_m {r c} (s : K) (a : mat K r c) : mat K r c :=
  mloop (fun j i _ => s * mget a j i) (mzero r c).

(** matrix.rs 1053-1060 [neg_mut]; 8822-8895 [AddAssign], [SubAssign], [MulAssign]. *)
Definition mneg_mut {r c} (a : mat K r c) : mat K r c := mloop (fun j i x => - x) a.
Definition madd_assign {r c} (a b : mat K r c) : mat K r c :=
  mloop (fun j i x => x + mget b j i) a.
Definition msub_assign {r c} (a b : mat K r c) : mat K r c :=
  mloop (fun j i x => x - mget b j i) a.
Definition mmul_assign {r c} (a : mat K r c) (s : K) : mat K r c := mloop (fun j i x => x * s) a.

(** matrix.rs 118-130 [dot_array_col]. *)
Definition dot_array_col {r c} (arr : mat K r c) (col : vec K c) (i : nat) : K :=
  for_range c (fun k acc => acc + mget arr k i * vat col k) 0.

(** matrix.rs 8633-8702 [Matrix * Vector]. *)
Definition mmulv {r c} (m : mat K r c) (v : vec K c) : vec K r :=
  for_range r (fun i res => vset res i (dot_array_col m v i)) (vzero r).

(** matrix.rs 8705-8818 [Matrix * Matrix]. *)
Definition mmul {r1 c1 c2} (a : mat K r1 c1) (b : mat K c1 c2) : mat K r1 c2 :=
  for_range c2 (fun j acc => for_range r1 (fun i acc =>
    mset acc j i (dot_array_col a (mcol b j) i)) acc) (mzero r1 c2).

(** matrix.rs 1103-1105 [lerp]. *)
Definition mlerp {r c} (a b : mat K r c) (amount : K) : mat K r c :=
  madd a (mmul_s (msub b a) amount).

(** matrix.rs 1220-1228 [identity]. *)
Definition midentity (n : nat) : mat K n n :=
  for_range n (fun i acc => mset acc i i 1) (mzero n n).

(** matrix.rs 1287-1295 [from_diagonal_value], 1329-1337 [from_diagonal]. *)
Definition mfrom_diagonal_value (n : nat) (a : K) : mat K n n :=
  for_range n (fun i acc => mset acc i i a) (mzero n n).
Definition mfrom_diagonal {n} (d : vec K n) : mat K n n :=
  for_range n (fun i acc => mset acc i i (vat d i)) (mzero n n).

(** matrix.rs 1367-1375 [diagonal]: the result type is [Vector4] for every [N]; writing past
    the fourth component panics ([None]). *)
Definition mdiagonal {n} (m : mat K n n) : option (vec K 4) :=
  for_range_opt n (fun i res => vassign res i (mget m i i)) (vzero 4).

(** matrix.rs 1400-1408 [trace]. *)
Definition mtrace {n} (m : mat K n n) : K := for_range n (fun i acc => acc + mget m i i) 0.

(** matrix.rs 1662-1664 [norm_squared], 1715-1717 [metric_distance_squared]. *)
Definition mnorm_squared {r c} (m : mat K r c) : K := mdot m m.
Definition mdist_squared {r c} (a b : mat K r c) : K := mnorm_squared (msub a b).

(** matrix.rs 2081-2089 [from_scale], 2135-2143 [from_nonuniform_scale]. *)
Definition mfrom_scale (n : nat) (s : K) : mat K n n :=
  for_range n (fun i acc => mset acc i i s) (midentity n).
Definition mfrom_nonuniform_scale {n} (s : vec K n) : mat K n n :=
  for_range n (fun i acc => mset acc i i (vat s i)) (midentity n).

(** matrix.rs 2243-2251 [from_affine_scale], 2382-2390 [from_affine_nonuniform_scale],
    2539-2547 [from_affine_translation]; here [N] is [S n]. *)
Definition mfrom_affine_scale (n : nat) (s : K) : mat K (S n) (S n) :=
  for_range (S n - 1) (fun i acc => mset acc i i s) (midentity (S n)).
Definition mfrom_affine_nonuniform_scale {n} (s : vec K n) : mat K (S n) (S n) :=
  for_range (S n - 1) (fun i acc => mset acc i i (vat s i)) (midentity (S n)).
Definition mfrom_affine_translation {n} (t : vec K n) : mat K (S n) (S n) :=
  for_range (S n - 1) (fun i acc => mset acc (S n - 1) i (vat t i)) (midentity (S n)).

(** matrix.rs 5448-5486 [From<Matrix<S, M, M>> for Matrix<S, N, N>] with M < N. *)
Definition membed {k n} (m : mat K k k) : mat K n n :=
  for_range k (fun j acc => for_range k (fun i acc =>
    mset acc j i (mget m j i)) acc) (midentity n).

(** matrix.rs 2566, 2724-2731, 3371-3383, 5526-5540 [new] (column by column). *)
Definition m1new (c0r0 : K) : mat K 1 1 := v1 (v1 c0r0).
Definition m2new (c0r0 c0r1 c1r0 c1r1 : K) : mat K 2 2 := v2 (v2 c0r0 c0r1) (v2 c1r0 c1r1).
Definition m3new (c0r0 c0r1 c0r2 c1r0 c1r1 c1r2 c2r0 c2r1 c2r2 : K) : mat K 3 3 :=
  v3 (v3 c0r0 c0r1 c0r2) (v3 c1r0 c1r1 c1r2) (v3 c2r0 c2r1 c2r2).
Definition m4new (c0r0 c0r1 c0r2 c0r3 c1r0 c1r1 c1r2 c1r3
                  c2r0 c2r1 c2r2 c2r3 c3r0 c3r1 c3r2 c3r3 : K) : mat K 4 4 :=
  v4 (v4 c0r0 c0r1 c0r2 c0r3) (v4 c1r0 c1r1 c1r2 c1r3)
     (v4 c2r0 c2r1 c2r2 c2r3) (v4 c3r0 c3r1 c3r2 c3r3).

(** matrix.rs 2613, 3097-3099, 4580-4587, 6303-6328 [determinant]. *)
Definition m1det (m : mat K 1 1) : K := mget m 0 0.
Definition m2det (m : mat K 2 2) : K :=
  mget m 0 0 * mget m 1 1 - mget m 0 1 * mget m 1 0.
Definition m3det (m : mat K 3 3) : K :=
  mget m 0 0 * mget m 1 1 * mget m 2 2 -
  mget m 0 0 * mget m 1 2 * mget m 2 1 -
  mget m 1 0 * mget m 0 1 * mget m 2 2 +
  mget m 1 0 * mget m 0 2 * mget m 2 1 +
  mget m 2 0 * mget m 0 1 * mget m 1 2 -
  mget m 2 0 * mget m 0 2 * mget m 1 1.
Definition m4det (m : mat K 4 4) : K :=
  mget m 0 0 * mget m 1 1 * mget m 2 2 * mget m 3 3 -
  mget m 0 0 * mget m 1 1 * mget m 2 3 * mget m 3 2 -
  mget m 0 0 * mget m 2 1 * mget m 1 2 * mget m 3 3 +
  mget m 0 0 * mget m 2 1 * mget m 1 3 * mget m 3 2 +
  mget m 0 0 * mget m 3 1 * mget m 1 2 * mget m 2 3 -
  mget m 0 0 * mget m 3 1 * mget m 1 3 * mget m 2 2 -
  mget m 1 0 * mget m 0 1 * mget m 2 2 * mget m 3 3 +
  mget m 1 0 * mget m 0 1 * mget m 2 3 * mget m 3 2 +
  mget m 1 0 * mget m 2 1 * mget m 0 2 * mget m 3 3 -
  mget m 1 0 * mget m 2 1 * mget m 0 3 * mget m 3 2 -
  mget m 1 0 * mget m 3 1 * mget m 0 2 * mget m 2 3 +
  mget m 1 0 * mget m 3 1 * mget m 0 3 * mget m 2 2 +
  mget m 2 0 * mget m 0 1 * mget m 1 2 * mget m 3 3 -
  mget m 2 0 * mget m 0 1 * mget m 1 3 * mget m 3 2 -
  mget m 2 0 * mget m 1 1 * mget m 0 2 * mget m 3 3 +
  mget m 2 0 * mget m 1 1 * mget m 0 3 * mget m 3 2 +
  mget m 2 0 * mget m 3 1 * mget m 0 2 * mget m 1 3 -
  mget m 2 0 * mget m 3 1 * mget m 0 3 * mget m 1 2 -
  mget m 3 0 * mget m 0 1 * mget m 1 2 * mget m 2 3 +
  mget m 3 0 * mget m 0 1 * mget m 1 3 * mget m 2 2 +
  mget m 3 0 * mget m 1 1 * mget m 0 2 * mget m 2 3 -
  mget m 3 0 * mget m 1 1 * mget m 0 3 * mget m 2 2 -
  mget m 3 0 * mget m 2 1 * mget m 0 2 * mget m 1 3 +
  mget m 3 0 * mget m 2 1 * mget m 0 3 * mget m 1 2.

(** matrix.rs 2787-2792, 2843-2848 [Matrix2x2::from_shear_xy/yx]. *)
Definition m2shear_xy (s : K) : mat K 2 2 := m2new 1 0 s 1.
Definition m2shear_yx (s : K) : mat K 2 2 := m2new 1 s 0 1.

(** matrix.rs 3003-3014 [Matrix2x2::from_shear]. *)
Definition m2from_shear (s : K) (direction normal : vec K 2) : mat K 2 2 :=
  m2new (1 + s * vat direction 0 * vat normal 0) (s * vat direction 1 * vat normal 0)
        (s * vat direction 0 * vat normal 1) (1 + s * vat direction 1 * vat normal 1).

(** matrix.rs 3449-3458, 3519-3528, 3589-3598, 3659-3668, 3729-3738, 3799-3808
    [Matrix3x3::from_shear_xy/xz/yx/yz/zx/zy]. *)
Definition m3shear_xy (s : K) : mat K 3 3 := m3new 1 0 0  s 1 0  0 0 1.
Definition m3shear_xz (s : K) : mat K 3 3 := m3new 1 0 0  0 1 0  s 0 1.
Definition m3shear_yx (s : K) : mat K 3 3 := m3new 1 s 0  0 1 0  0 0 1.
Definition m3shear_yz (s : K) : mat K 3 3 := m3new 1 0 0  0 1 0  0 s 1.
Definition m3shear_zx (s : K) : mat K 3 3 := m3new 1 0 s  0 1 0  0 0 1.
Definition m3shear_zy (s : K) : mat K 3 3 := m3new 1 0 0  0 1 s  0 0 1.

(** matrix.rs 3965-3985 [Matrix3x3::from_shear]. *)
Definition m3from_shear (s : K) (direction normal : vec K 3) : mat K 3 3 :=
  m3new (1 + s * vat direction 0 * vat normal 0) (s * vat direction 1 * vat normal 0)
        (s * vat direction 2 * vat normal 0)
        (s * vat direction 0 * vat normal 1) (1 + s * vat direction 1 * vat normal 1)
        (s * vat direction 2 * vat normal 1)
        (s * vat direction 0 * vat normal 2) (s * vat direction 1 * vat normal 2)
        (1 + s * vat direction 2 * vat normal 2).

(** matrix.rs 4037-4046, 4093-4102 [Matrix3x3::from_affine_shear_xy/yx]. *)
Definition m3affine_shear_xy (s : K) : mat K 3 3 := m3new 1 0 0  s 1 0  0 0 1.
Definition m3affine_shear_yx (s : K) : mat K 3 3 := m3new 1 s 0  0 1 0  0 0 1.

(** matrix.rs 4314-4342 [Matrix3x3::from_affine_shear]. *)
Definition m3from_affine_shear (s : K) (origin direction normal : vec K 2) : mat K 3 3 :=
  let translation := vmul_s direction (- s * vdot origin normal) in
  m3new (1 + s * vat direction 0 * vat normal 0) (s * vat direction 1 * vat normal 0) 0
        (s * vat direction 0 * vat normal 1) (1 + s * vat direction 1 * vat normal 1) 0
        (vat translation 0) (vat translation 1) 1.

(** matrix.rs 5602-5612, 5669-5679, 5736-5746, 5803-5813, 5871-5881, 5938-5948
    [Matrix4x4::from_affine_shear_xy/xz/yx/yz/zx/zy]. *)
Definition m4affine_shear_xy (s : K) : mat K 4 4 := m4new 1 0 0 0  s 1 0 0  0 0 1 0  0 0 0 1.
Definition m4affine_shear_xz (s : K) : mat K 4 4 := m4new 1 0 0 0  0 1 0 0  s 0 1 0  0 0 0 1.
Definition m4affine_shear_yx (s : K) : mat K 4 4 := m4new 1 s 0 0  0 1 0 0  0 0 1 0  0 0 0 1.
Definition m4affine_shear_yz (s : K) : mat K 4 4 := m4new 1 0 0 0  0 1 0 0  0 s 1 0  0 0 0 1.
Definition m4affine_shear_zx (s : K) : mat K 4 4 := m4new 1 0 s 0  0 1 0 0  0 0 1 0  0 0 0 1.
Definition m4affine_shear_zy (s : K) : mat K 4 4 := m4new 1 0 0 0  0 1 s 0  0 0 1 0  0 0 0 1.

(** matrix.rs 6110-6147 [Matrix4x4::from_affine_shear]. *)
Definition m4from_affine_shear (s : K) (origin direction normal : vec K 3) : mat K 4 4 :=
  let translation := vmul_s direction (- s * vdot origin normal) in
  m4new (1 + s * vat direction 0 * vat normal 0) (s * vat direction 1 * vat normal 0)
        (s * vat direction 2 * vat normal 0) 0
        (s * vat direction 0 * vat normal 1) (1 + s * vat direction 1 * vat normal 1)
        (s * vat direction 2 * vat normal 1) 0
        (s * vat direction 0 * vat normal 2) (s * vat direction 1 * vat normal 2)
        (1 + s * vat direction 2 * vat normal 2) 0
        (vat translation 0) (vat translation 1) (vat translation 2) 1.

(** matrix.rs 3063-3077 [Matrix2x2::from_reflection]. *)
Definition m2from_reflection (n : vec K 2) : mat K 2 2 :=
  let two := 1 + 1 in
  m2new (1 - two * vat n 0 * vat n 0) (- two * vat n 1 * vat n 0)
        (- two * vat n 0 * vat n 1) (1 - two * vat n 1 * vat n 1).

(** matrix.rs 4489-4511 [Matrix3x3::from_affine_reflection]. *)
Definition m3from_affine_reflection (n bias : vec K 2) : mat K 3 3 :=
  let two := 1 + 1 in
  m3new (1 - two * vat n 0 * vat n 0) (- two * vat n 1 * vat n 0) 0
        (- two * vat n 0 * vat n 1) (1 - two * vat n 1 * vat n 1) 0
        (two * vat n 0 * (vat n 0 * vat bias 0 + vat n 1 * vat bias 1))
        (two * vat n 1 * (vat n 0 * vat bias 0 + vat n 1 * vat bias 1)) 1.

(** matrix.rs 4537-4558 [Matrix3x3::from_reflection]. *)
Definition m3from_reflection (n : vec K 3) : mat K 3 3 :=
  let two := 1 + 1 in
  m3new (1 - two * vat n 0 * vat n 0) (- two * vat n 1 * vat n 0) (- two * vat n 2 * vat n 0)
        (- two * vat n 0 * vat n 1) (1 - two * vat n 1 * vat n 1) (- two * vat n 2 * vat n 1)
        (- two * vat n 0 * vat n 2) (- two * vat n 1 * vat n 2) (1 - two * vat n 2 * vat n 2).

(** matrix.rs 6249-6280 [Matrix4x4::from_affine_reflection]. *)
Definition m4from_affine_reflection (n bias : vec K 3) : mat K 4 4 :=
  let two := 1 + 1 in
  m4new (1 - two * vat n 0 * vat n 0) (- two * vat n 1 * vat n 0) (- two * vat n 2 * vat n 0) 0
        (- two * vat n 0 * vat n 1) (1 - two * vat n 1 * vat n 1) (- two * vat n 2 * vat n 1) 0
        (- two * vat n 0 * vat n 2) (- two * vat n 1 * vat n 2) (1 - two * vat n 2 * vat n 2) 0
        (two * vat n 0 * (vat n 0 * vat bias 0 + vat n 1 * vat bias 1 + vat n 2 * vat bias 2))
        (two * vat n 1 * (vat n 0 * vat bias 0 + vat n 1 * vat bias 1 + vat n 2 * vat bias 2))
        (two * vat n 2 * (vat n 0 * vat bias 0 + vat n 1 * vat bias 1 + vat n 2 * vat bias 2))
        1.

(** matrix.rs 4622-4628 [Matrix3x3::cross_matrix]. *)
Definition m3cross_matrix (v : vec K 3) : mat K 3 3 :=
  m3new 0 (vat v 2) (- vat v 1)
        (- vat v 2) 0 (vat v 0)
        (vat v 1) (- vat v 0) 0.

Context `{DK : NumDiv K}.

(** matrix.rs 769-780 [is_zero]. *)
Definition mis_zero {r c} (m : mat K r c) : bool :=
  for_range c (fun j acc => for_range r (fun i acc =>
    andb acc (nis0 (mget m j i))) acc) true.

(** matrix.rs 1245-1260 [is_identity]; [is_one] models the scalar [is_one] test. *)
Definition mis_identity (is_one : K -> bool) {n} (m : mat K n n) : bool :=
  let result := for_range n (fun i acc => for_range i (fun j acc =>
    andb acc (andb (nis0 (mget m i j)) (nis0 (mget m j i)))) acc) true in
  for_range n (fun i acc => andb acc (is_one (mget m i i))) result.

(** matrix.rs 8477-8513 [Matrix / S], 8897-8910 [DivAssign<S>]; meaningful for a non-zero
    divisor only. *)
Definition mdiv_s {r c} (a : mat K r c) (s : K) : mat K r c :=
  mloop (fun j i _ => mget a j i / s) (mzero r c).
Definition mdiv_assign {r c} (a : mat K r c) (s : K) : mat K r c := mloop (fun j i x => x / s) a.

(** matrix.rs 2644-2653 [Matrix1x1::try_inverse]. *)
Definition m1try_inverse (m : mat K 1 1) : option (mat K 1 1) :=
  let det := m1det m in
  if nis0 det then None else let det_inv := 1 / det in Some (m1new det_inv).

(** matrix.rs 3271-3283 [Matrix2x2::try_inverse]. *)
Definition m2try_inverse (m : mat K 2 2) : option (mat K 2 2) :=
  let det := m2det m in
  if nis0 det then None else
    let det_inv := 1 / det in
    Some (m2new
      (det_inv * mget m 1 1) (det_inv * - mget m 0 1)
      (det_inv * - mget m 1 0) (det_inv * mget m 0 0)).

(** matrix.rs 5348-5369 [Matrix3x3::try_inverse]. *)
Definition m3try_inverse (m : mat K 3 3) : option (mat K 3 3) :=
  let det := m3det m in
  if nis0 det then None else
    let det_inv := 1 / det in
    Some (m3new
      (det_inv * (mget m 1 1 * mget m 2 2 - mget m 1 2 * mget m 2 1))
      (det_inv * (mget m 0 2 * mget m 2 1 - mget m 0 1 * mget m 2 2))
      (det_inv * (mget m 0 1 * mget m 1 2 - mget m 0 2 * mget m 1 1))
      (det_inv * (mget m 1 2 * mget m 2 0 - mget m 1 0 * mget m 2 2))
      (det_inv * (mget m 0 0 * mget m 2 2 - mget m 0 2 * mget m 2 0))
      (det_inv * (mget m 0 2 * mget m 1 0 - mget m 0 0 * mget m 1 2))
      (det_inv * (mget m 1 0 * mget m 2 1 - mget m 1 1 * mget m 2 0))
      (det_inv * (mget m 0 1 * mget m 2 0 - mget m 0 0 * mget m 2 1))
      (det_inv * (mget m 0 0 * mget m 1 1 - mget m 0 1 * mget m 1 0))).

(** matrix.rs 7697-7763 [Matrix4x4::try_inverse]. *)
Definition m4try_inverse (m : mat K 4 4) : option (mat K 4 4) :=
  let det := m4det m in
  if nis0 det then None else
    let det_inv := 1 / det in
    let xc0r0 := mget m 1 1 * mget m 2 2 * mget m 3 3 + mget m 2 1 * mget m 3 2 * mget m 1 3 + mget m 3 1 * mget m 1 2 * mget m 2 3
      - mget m 3 1 * mget m 2 2 * mget m 1 3 - mget m 2 1 * mget m 1 2 * mget m 3 3 - mget m 1 1 * mget m 3 2 * mget m 2 3 in
    let xc1r0 := mget m 3 0 * mget m 2 2 * mget m 1 3 + mget m 2 0 * mget m 1 2 * mget m 3 3 + mget m 1 0 * mget m 3 2 * mget m 2 3
      - mget m 1 0 * mget m 2 2 * mget m 3 3 - mget m 2 0 * mget m 3 2 * mget m 1 3 - mget m 3 0 * mget m 1 2 * mget m 2 3 in
    let xc2r0 := mget m 1 0 * mget m 2 1 * mget m 3 3 + mget m 2 0 * mget m 3 1 * mget m 1 3 + mget m 3 0 * mget m 1 1 * mget m 2 3
      - mget m 3 0 * mget m 2 1 * mget m 1 3 - mget m 2 0 * mget m 1 1 * mget m 3 3 - mget m 1 0 * mget m 3 1 * mget m 2 3 in
    let xc3r0 := mget m 3 0 * mget m 2 1 * mget m 1 2 + mget m 2 0 * mget m 1 1 * mget m 3 2 + mget m 1 0 * mget m 3 1 * mget m 2 2
      - mget m 1 0 * mget m 2 1 * mget m 3 2 - mget m 2 0 * mget m 3 1 * mget m 1 2 - mget m 3 0 * mget m 1 1 * mget m 2 2 in
    let xc0r1 := mget m 3 1 * mget m 2 2 * mget m 0 3 + mget m 2 1 * mget m 0 2 * mget m 3 3 + mget m 0 1 * mget m 3 2 * mget m 2 3
      - mget m 0 1 * mget m 2 2 * mget m 3 3 - mget m 2 1 * mget m 3 2 * mget m 0 3 - mget m 3 1 * mget m 0 2 * mget m 2 3 in
    let xc1r1 := mget m 0 0 * mget m 2 2 * mget m 3 3 + mget m 2 0 * mget m 3 2 * mget m 0 3 + mget m 3 0 * mget m 0 2 * mget m 2 3
      - mget m 3 0 * mget m 2 2 * mget m 0 3 - mget m 2 0 * mget m 0 2 * mget m 3 3 - mget m 0 0 * mget m 3 2 * mget m 2 3 in
    let xc2r1 := mget m 3 0 * mget m 2 1 * mget m 0 3 + mget m 2 0 * mget m 0 1 * mget m 3 3 + mget m 0 0 * mget m 3 1 * mget m 2 3
      - mget m 0 0 * mget m 2 1 * mget m 3 3 - mget m 2 0 * mget m 3 1 * mget m 0 3 - mget m 3 0 * mget m 0 1 * mget m 2 3 in
    let xc3r1 := mget m 0 0 * mget m 2 1 * mget m 3 2 + mget m 2 0 * mget m 3 1 * mget m 0 2 + mget m 3 0 * mget m 0 1 * mget m 2 2
      - mget m 3 0 * mget m 2 1 * mget m 0 2 - mget m 2 0 * mget m 0 1 * mget m 3 2 - mget m 0 0 * mget m 3 1 * mget m 2 2 in
    let xc0r2 := mget m 0 1 * mget m 1 2 * mget m 3 3 + mget m 1 1 * mget m 3 2 * mget m 0 3 + mget m 3 1 * mget m 0 2 * mget m 1 3
      - mget m 3 1 * mget m 1 2 * mget m 0 3 - mget m 1 1 * mget m 0 2 * mget m 3 3 - mget m 0 1 * mget m 3 2 * mget m 1 3 in
    let xc1r2 := mget m 3 0 * mget m 1 2 * mget m 0 3 + mget m 1 0 * mget m 0 2 * mget m 3 3 + mget m 0 0 * mget m 3 2 * mget m 1 3
      - mget m 0 0 * mget m 1 2 * mget m 3 3 - mget m 1 0 * mget m 3 2 * mget m 0 3 - mget m 3 0 * mget m 0 2 * mget m 1 3 in
    let xc2r2 := mget m 0 0 * mget m 1 1 * mget m 3 3 + mget m 1 0 * mget m 3 1 * mget m 0 3 + mget m 3 0 * mget m 0 1 * mget m 1 3
      - mget m 3 0 * mget m 1 1 * mget m 0 3 - mget m 1 0 * mget m 0 1 * mget m 3 3 - mget m 0 0 * mget m 3 1 * mget m 1 3 in
    let xc3r2 := mget m 3 0 * mget m 1 1 * mget m 0 2 + mget m 1 0 * mget m 0 1 * mget m 3 2 + mget m 0 0 * mget m 3 1 * mget m 1 2
      - mget m 0 0 * mget m 1 1 * mget m 3 2 - mget m 1 0 * mget m 3 1 * mget m 0 2 - mget m 3 0 * mget m 0 1 * mget m 1 2 in
    let xc0r3 := mget m 2 1 * mget m 1 2 * mget m 0 3 + mget m 1 1 * mget m 0 2 * mget m 2 3 + mget m 0 1 * mget m 2 2 * mget m 1 3
      - mget m 0 1 * mget m 1 2 * mget m 2 3 - mget m 1 1 * mget m 2 2 * mget m 0 3 - mget m 2 1 * mget m 0 2 * mget m 1 3 in
    let xc1r3 := mget m 0 0 * mget m 1 2 * mget m 2 3 + mget m 1 0 * mget m 2 2 * mget m 0 3 + mget m 2 0 * mget m 0 2 * mget m 1 3
      - mget m 2 0 * mget m 1 2 * mget m 0 3 - mget m 1 0 * mget m 0 2 * mget m 2 3 - mget m 0 0 * mget m 2 2 * mget m 1 3 in
    let xc2r3 := mget m 2 0 * mget m 1 1 * mget m 0 3 + mget m 1 0 * mget m 0 1 * mget m 2 3 + mget m 0 0 * mget m 2 1 * mget m 1 3
      - mget m 0 0 * mget m 1 1 * mget m 2 3 - mget m 1 0 * mget m 2 1 * mget m 0 3 - mget m 2 0 * mget m 0 1 * mget m 1 3 in
    let xc3r3 := mget m 0 0 * mget m 1 1 * mget m 2 2 + mget m 1 0 * mget m 2 1 * mget m 0 2 + mget m 2 0 * mget m 0 1 * mget m 1 2
      - mget m 2 0 * mget m 1 1 * mget m 0 2 - mget m 1 0 * mget m 0 1 * mget m 2 2 - mget m 0 0 * mget m 2 1 * mget m 1 2 in
    Some (m4new
      (det_inv * xc0r0) (det_inv * xc0r1) (det_inv * xc0r2) (det_inv * xc0r3)
      (det_inv * xc1r0) (det_inv * xc1r1) (det_inv * xc1r2) (det_inv * xc1r3)
      (det_inv * xc2r0) (det_inv * xc2r1) (det_inv * xc2r2) (det_inv * xc2r3)
      (det_inv * xc3r0) (det_inv * xc3r1) (det_inv * xc3r2) (det_inv * xc3r3)).

(** matrix.rs 2696, 3337, 5443, 7823 [inverse] = [try_inverse().unwrap()]: the model of the
    panicking method is the option itself; [None] = panic. *)
Definition m1inverse := m1try_inverse.
Definition m2inverse := m2try_inverse.
Definition m3inverse := m3try_inverse.
Definition m4inverse := m4try_inverse.

End MatrixGeneric.

(** ** Float-only functions, over the reals *)
Section MatrixReal.
Local Open Scope R_scope.

(** matrix.rs 1743-1750 [l1_norm]: maximum over the columns of the column's [l1_norm]. *)
Definition ml1_norm {r c} (m : mat R r c) : R :=
  for_range c (fun j result => Rmax result (vl1_norm (mcol m j))) 0.

(** matrix.rs 1773-1785 [linf_norm]. *)
Definition mlinf_norm {r c} (m : mat R r c) : R :=
  for_range r (fun i result =>
    Rmax result (for_range c (fun j row_sum => row_sum + Rabs (mget m j i)) 0)) 0.

(** matrix.rs 1815-1817 [norm], 1868-1870 [metric_distance]. *)
Definition mnorm {r c} (m : mat R r c) : R := sqrt (mnorm_squared m).
Definition mdist {r c} (a b : mat R r c) : R := mnorm (msub a b).

(** matrix.rs 1992-2022 [normalize], [normalize_mut], [try_normalize], [try_normalize_mut]. *)
Definition mnormalize {r c} (m : mat R r c) : mat R r c := mmul_s m (1 / mnorm m).
Definition mnormalize_mut {r c} (m : mat R r c) : mat R r c * R :=
  let norm := mnorm m in (mnormalize m, norm).
Definition mtry_normalize {r c} (m : mat R r c) (threshold : R) : option (mat R r c) :=
  let norm := mnorm m in if Rle_dec norm threshold then None else Some (mnormalize m).
Definition mtry_normalize_mut {r c} (m : mat R r c) (threshold : R)
  : mat R r c * option R :=
  let norm := mnorm m in
  if Rle_dec norm threshold then (m, None)
  else let '(m', nrm) := mnormalize_mut m in (m', Some nrm).

End MatrixReal.
