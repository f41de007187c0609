(** Model of crates/cglinalg_core/src/vector.rs.

    Each Rust operator comes in up to four by-value/by-reference variants with the same body;
    one definition models all of them. *)

From Coq Require Import List Arith Reals.
From Verif Require Import Base Scalar.
Import ListNotations.

Section VectorGeneric.
Context {K : Type} `{NK : Num K}.
Local Open Scope num_scope.

(** Reading component [i] of a vector (in range everywhere below). *)
Definition vat {n} (v : vec K n) (i : nat) : K := vget 0 v i.

(** vector.rs 200-202 [Vector::zero]; also [Default::default] 1126-1128. *)
Definition vzero (n : nat) : vec K n := vfill n 0.

(** vector.rs 152-154 [Vector::from_fill]. *)
Definition vfrom_fill (n : nat) (a : K) : vec K n := vfill n a.

(** vector.rs 172-177 [Vector::map] (pure closures only). *)
Definition vector_map {B} (f : K -> B) {n} (v : vec K n) : vec B n := vmap f v.

(** vector.rs 241-249 [Vector::dot]: accumulate from zero, left to right. *)
Definition vdot {n} (u v : vec K n) : K :=
  for_range n (fun i acc => acc + vat u i * vat v i) 0.

(** vector.rs 272-280 [Vector::component_mul]. *)
Definition vcmul {n} (u v : vec K n) : vec K n :=
  for_range n (fun i r => vset r i (vat u i * vat v i)) (vzero n).

(** vector.rs 297-302 [Vector::component_mul_assign] (returns the new [self]). *)
Definition vcmul_assign {n} (u v : vec K n) : vec K n :=
  for_range n (fun i r => vset r i (vat r i * vat v i)) u.

(** vector.rs 323-328 [Vector::neg_mut] (returns the new [self]). *)
Definition vneg_mut {n} (u : vec K n) : vec K n :=
  for_range n (fun i r => vset r i (- vat r i)) u.

(** vector.rs 351-353 [Vector::norm_squared], 393-395 [magnitude_squared]. *)
Definition vnorm_squared {n} (u : vec K n) : K := vdot u u.

(** vector.rs 1653-1723 [Add]. *)
Definition vadd {n} (u v : vec K n) : vec K n :=
  for_range n (fun i r => vset r i (vat u i + vat v i)) (vzero n).

(** vector.rs 1725-1795 [Sub]. *)
Definition vsub {n} (u v : vec K n) : vec K n :=
  for_range n (fun i r => vset r i (vat u i - vat v i)) (vzero n).

(** vector.rs 1888-1922 [Neg]. *)
Definition vneg {n} (u : vec K n) : vec K n :=
  for_range n (fun i r => vset r i (- vat u i)) (vzero n).

(** vector.rs 1608-1648 [Vector * S]. *)
Definition vmul_s {n} (u : vec K n) (a : K) : vec K n :=
  for_range n (fun i r => vset r i (vat u i * a)) (vzero n).

(** vector.rs 1541-1605 [S * Vector]. *)
Definition s_mul_v {n} (a : K) (u : vec K n) : vec K n :=
  for_range n (fun i r => vset r i (a * vat u i)) (vzero n).

(** vector.rs 1797-1821 [AddAssign], 1823-1847 [SubAssign], 1849-1860 [MulAssign<S>]
    (each returns the new [self]). *)
Definition vadd_assign {n} (u v : vec K n) : vec K n :=
  for_range n (fun i r => vset r i (vat r i + vat v i)) u.
Definition vsub_assign {n} (u v : vec K n) : vec K n :=
  for_range n (fun i r => vset r i (vat r i - vat v i)) u.
Definition vmul_assign {n} (u : vec K n) (a : K) : vec K n :=
  for_range n (fun i r => vset r i (vat r i * a)) u.

(** vector.rs 371-373 [metric_distance_squared]. *)
Definition vdist_squared {n} (u v : vec K n) : K := vnorm_squared (vsub u v).

(** vector.rs 841-843 [lerp]. *)
Definition vlerp {n} (u v : vec K n) (amount : K) : vec K n :=
  vadd u (vmul_s (vsub v u) amount).

(** vector.rs 988-999 [extend]: the output has length [N + 1]. *)
Definition vextend {n} (u : vec K n) (last : K) : vec K (S n) :=
  vset (for_range n (fun i r => vset r i (vat u i)) (vzero (S n))) n last.

(** vector.rs 1020-1022 [to_homogeneous]. *)
Definition vto_homogeneous {n} (u : vec K n) : vec K (S n) := vextend u 0.

(** vector.rs 1049-1057 [contract]: input length [N], output length [N - 1]. *)
Definition vcontract {n} (u : vec K (S n)) : vec K n :=
  for_range (S n - 1) (fun i r => vset r i (vat u i)) (vzero n).

(** vector.rs 2186-2192 [Vector3::cross]. *)
Definition vcross (u v : vec K 3) : vec K 3 :=
  let x := vat u 1 * vat v 2 - vat u 2 * vat v 1 in
  let y := vat u 2 * vat v 0 - vat u 0 * vat v 2 in
  let z := vat u 0 * vat v 1 - vat u 1 * vat v 0 in
  v3 x y z.

(** vector.rs 2242-2244 [Vector3::triple]. *)
Definition vtriple (u o1 o2 : vec K 3) : K := vdot (vcross u o1) o2.

(** vector.rs 2115-2156 [Vector3::unit_x/y/z] and 2050-2070, 2293-2355 for 2D/4D. *)
Definition v3_unit_x : vec K 3 := v3 1 0 0.
Definition v3_unit_y : vec K 3 := v3 0 1 0.
Definition v3_unit_z : vec K 3 := v3 0 0 1.
Definition v2_unit_x : vec K 2 := v2 1 0.
Definition v2_unit_y : vec K 2 := v2 0 1.
Definition v4_unit_x : vec K 4 := v4 1 0 0 0.
Definition v4_unit_y : vec K 4 := v4 0 1 0 0.
Definition v4_unit_z : vec K 4 := v4 0 0 1 0.
Definition v4_unit_w : vec K 4 := v4 0 0 0 1.

(** vector.rs 2458-2476 [From<Vector4> for Vector3]. *)
Definition v3_from_v4 (v : vec K 4) : vec K 3 := v3 (vat v 0) (vat v 1) (vat v 2).

Context `{DK : NumDiv K}.

(** vector.rs 218-226 [is_zero]. *)
Definition vis_zero {n} (u : vec K n) : bool :=
  for_range n (fun i acc => andb acc (nis0 (vat u i))) true.

(** vector.rs 1608-1649 [Vector / S]; only meaningful for a non-zero divisor (Rust integers
    panic, floats give infinities/NaN). *)
Definition vdiv_s {n} (u : vec K n) (a : K) : vec K n :=
  for_range n (fun i r => vset r i (vat u i / a)) (vzero n).

(** vector.rs 1862-1873 [DivAssign<S>]. *)
Definition vdiv_assign {n} (u : vec K n) (a : K) : vec K n :=
  for_range n (fun i r => vset r i (vat r i / a)) u.

(** vector.rs 1085-1091 [from_homogeneous]. *)
Definition vfrom_homogeneous {n} (u : vec K (S n)) : option (vec K n) :=
  if nis0 (vat u (S n - 1)) then Some (vcontract u) else None.

(** vector.rs 869-871 [project]. *)
Definition vproject {n} (u o : vec K n) : vec K n :=
  vmul_s o (vdot u o / vnorm_squared o).

End VectorGeneric.

(** vector.rs 113-128 [Vector::try_cast]: a loop with early return; [conv] models
    [cglinalg_numeric::try_cast] (numeric lib.rs 60-66), [d] the zeroed initial contents. *)
Definition vtry_cast {A B} (conv : A -> option B) (da : A) (db : B) {n} (v : vec A n)
  : option (vec B n) :=
  for_range_opt n
    (fun i data => match conv (vget da v i) with
                   | Some value => Some (vset data i value)
                   | None => None
                   end)
    (vfill n db).

(** vector.rs 1211-1219 [AbsDiffEq::abs_diff_eq], 1229-1237 [abs_diff_all_eq] (and, with the
    obvious extra arguments, relative/ulps versions): conjunction over the components of a
    scalar comparison [cmp]. *)
Definition vcmp_all {A B} (cmp : A -> B -> bool) (da : A) (db : B) {n}
  (u : vec A n) (v : vec B n) : bool :=
  for_range n (fun i acc => andb acc (cmp (vget da u i) (vget db v i))) true.

(** ** Float-only functions, over the reals *)

Section VectorReal.
Local Open Scope R_scope.

(** vector.rs 500-508 [l1_norm]. *)
Definition vl1_norm {n} (u : vec R n) : R :=
  for_range n (fun i acc => acc + Rabs (vat u i)) 0.

(** vector.rs 541-549 [linf_norm]. *)
Definition vlinf_norm {n} (u : vec R n) : R :=
  for_range n (fun i acc => Rmax acc (Rabs (vat u i))) 0.

(** vector.rs 572-574 [norm], 614 [magnitude], 636 [l2_norm]; 716 [L2Norm::norm]. *)
Definition vnorm {n} (u : vec R n) : R := sqrt (vnorm_squared u).

(** vector.rs 592-594 [metric_distance]. *)
Definition vdist {n} (u v : vec R n) : R := vnorm (vsub u v).

(** vector.rs 693-695, 720-722, 747-749, 776-778: [Norm::metric_distance] of the norm
    objects subtracts in the other order. *)
Definition norm_metric_distance {n} (nrm : vec R n -> R) (lhs rhs : vec R n) : R :=
  nrm (vsub rhs lhs).

(** vector.rs 921-929 [component_min], 952-960 [component_max]. *)
Definition vcmin {n} (u v : vec R n) : vec R n :=
  for_range n (fun i r => vset r i (Rmin (vat u i) (vat v i))) (vzero n).
Definition vcmax {n} (u v : vec R n) : vec R n :=
  for_range n (fun i r => vset r i (Rmax (vat u i) (vat v i))) (vzero n).

(** vector.rs 1478-1490 [scale], [unscale]. *)
Definition vscale {n} (u : vec R n) (s : R) : vec R n := vmul_s u s.
Definition vunscale {n} (u : vec R n) (s : R) : vec R n := vmul_s u (1 / s).

(** vector.rs 1498-1500 [normalize]. *)
Definition vnormalize {n} (u : vec R n) : vec R n := vmul_s u (1 / vnorm u).

(** vector.rs 1503-1508 [normalize_mut]: new [self] and returned norm. *)
Definition vnormalize_mut {n} (u : vec R n) : vec R n * R :=
  let norm := vnorm u in (vnormalize u, norm).

(** vector.rs 1511-1518 [try_normalize]. *)
Definition vtry_normalize {n} (u : vec R n) (threshold : R) : option (vec R n) :=
  let norm := vnorm u in
  if Rle_dec norm threshold then None else Some (vnormalize u).

(** vector.rs 1521-1528 [try_normalize_mut]: new [self] and returned option. *)
Definition vtry_normalize_mut {n} (u : vec R n) (threshold : R) : vec R n * option R :=
  let norm := vnorm u in
  if Rle_dec norm threshold then (u, None)
  else let '(u', nrm) := vnormalize_mut u in (u', Some nrm).

(** vector.rs 893-898 [reflect]. *)
Definition vreflect {n} (u normal : vec R n) : vec R n :=
  let two := 1 + 1 in
  let unit_normal := vnormalize normal in
  vsub u (vmul_s unit_normal (two * vdot u unit_normal)).

End VectorReal.
