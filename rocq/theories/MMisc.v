(** Smaller pieces: [Unit] (crates/cglinalg_core/src/unit.rs), clamp/copysign (crates/
    cglinalg_numeric/src/lib.rs), [Vector::lp_norm], the swizzle tables (vector.rs, point.rs) and
    the scalar [abs_diff_eq]. *)

From Coq Require Import List Arith ZArith Reals String Ascii.
From Verif Require Import Base Scalar MVector MComplex.
Import ListNotations.

(** ** Unit *)

(** The part of trait [Normed] (crates/cglinalg_core/src/normed.rs 49-513) that [Unit] uses. *)
Record normed (T : Type) : Type := {
  nm_norm_squared : T -> R;
  nm_norm : T -> R;
  nm_normalize : T -> T;
}.
Arguments nm_norm_squared {T}. Arguments nm_norm {T}. Arguments nm_normalize {T}.

(** vector.rs 1461-1535 and complex.rs 3275-3345: the implementations. *)
Definition normed_vec (n : nat) : normed (vec R n) :=
  {| nm_norm_squared := vnorm_squared; nm_norm := vnorm; nm_normalize := vnormalize |}.
Definition normed_complex : normed (complex R) :=
  {| nm_norm_squared := cmodulus_squared; nm_norm := cnorm; nm_normalize := cnormalize |}.

(** unit.rs 146-152 [from_value_with_norm], 122 [from_value].  [Unit<T>] is modelled by the wrapped
    value. *)
Definition unit_from_value_with_norm {T} (N : normed T) (value : T) : T * R :=
  let norm := nm_norm N value in
  let normalized_value := nm_normalize N value in
  (normalized_value, norm).
Definition unit_from_value {T} (N : normed T) (value : T) : T :=
  fst (unit_from_value_with_norm N value).

(** unit.rs 178-193 [try_from_value_with_norm], 218 [try_from_value]. *)
Definition unit_try_from_value_with_norm {T} (N : normed T) (value : T) (threshold : R)
  : option (T * R) :=
  let norm_squared := nm_norm_squared N value in
  if Rgt_dec norm_squared (threshold * threshold) then
    Some (nm_normalize N value, sqrt norm_squared)
  else None.
Definition unit_try_from_value {T} (N : normed T) (value : T) (threshold : R) : option T :=
  match unit_try_from_value_with_norm N value threshold with
  | Some (u, _) => Some u
  | None => None
  end.

(** ** Numeric *)

(** numeric lib.rs 1609-1617 float [clamp]. *)
Definition float_clamp (x min_value max_value : R) : R :=
  if Rlt_dec x min_value then min_value
  else if Rgt_dec x max_value then max_value
  else x.

(** numeric lib.rs 1558 integer [clamp] = [core::cmp::Ord::clamp], which asserts [min <= max]
    ([None] models the panic). *)
Definition int_clamp (x min_value max_value : Z) : option Z :=
  if Z.leb min_value max_value then
    Some (if Z.ltb x min_value then min_value else if Z.ltb max_value x then max_value else x)
  else None.

(** Checked arithmetic of a signed [w]-bit integer: [None] models the overflow panic of a debug
    build. *)
Definition in_range (w x : Z) : bool := andb (Z.leb (- 2 ^ (w - 1)) x) (Z.ltb x (2 ^ (w - 1))).
Definition checked (w x : Z) : option Z := if in_range w x then Some x else None.

(** numeric lib.rs 1527-1533 integer [copysign]; [abs] overflows on the minimum value. *)
Definition int_copysign (w x sign : Z) : option Z :=
  if Z.geb sign 0 then checked w (Z.abs x)
  else match checked w (Z.abs x) with Some a => checked w (- a) | None => None end.

(** ** Lp norm *)

(** [p as i32] of a [u32]: two's complement wrap-around. *)
Definition u32_as_i32 (p : Z) : Z := if Z.ltb p (2 ^ 31) then p else p - 2 ^ 32.

(** [x.powi(e)] for x >= 0; [None] models the infinite result at x = 0, e < 0. *)
Definition rpowi (x : R) (e : Z) : option R :=
  if Z.leb 0 e then Some (x ^ Z.to_nat e)%R
  else if Req_EM_T x 0 then None
  else Some (/ (x ^ Z.to_nat (- e)))%R.

(** [x.powf(y)] for x >= 0 and y > 0. *)
Definition rpowf (x y : R) : R := if Req_EM_T x 0 then 0%R else Rpower x y.

(** vector.rs 657-665 [lp_norm]; [None] when a component makes [powi] infinite.  [p = 0], where
    [recip] is infinite, is excluded in the theorems. *)
Definition vlp_norm {n} (v : vec R n) (p : Z) : option R :=
  match for_range_opt n (fun i result =>
          match rpowi (Rabs (vat v i)) (u32_as_i32 p) with
          | Some y => Some (result + y)%R
          | None => None
          end) 0%R with
  | Some result => Some (rpowf result (/ IZR p))
  | None => None
  end.

(** ** Approximate comparison of scalars

    [approx_cmp::AbsDiffEq::abs_diff_eq] of the external crate approx_cmp (not part of the
    repository): |x - y| <= tolerance. *)
Definition rabs_diff_eq (x y t : R) : bool := if Rle_dec (Rabs (x - y)) t then true else false.
(** vector.rs 1211-1237. *)
Definition vabs_diff_eq {n} (u v t : vec R n) : bool :=
  for_range n (fun i acc => andb acc (rabs_diff_eq (vat u i) (vat v i) (vat t i))) true.
Definition vabs_diff_all_eq {n} (u v : vec R n) (t : R) : bool :=
  for_range n (fun i acc => andb acc (rabs_diff_eq (vat u i) (vat v i) t)) true.

(** ** Swizzles

    One entry per [impl_swizzle!] line: method name, dimension of the input, dimension of the
    output, indices.  The macro body (vector.rs 2546-2558, point.rs 1504-1516) returns
    [Output::new(self[i], self[j], ...)]. *)
Record swizzle := Swz { swz_name : string; swz_in : nat; swz_out : nat; swz_idx : list nat }.

Definition swizzle_run {A} (d : A) (s : swizzle) (v : vec A (swz_in s)) : list A :=
  map (vget d v) (swz_idx s).

Local Open Scope string_scope.

(** vector.rs 2560-2954. *)
Definition vector_swizzles : list swizzle := [
  Swz "x" 1 1 [0];
  Swz "x" 2 1 [0];
  Swz "y" 2 1 [1];
  Swz "xx" 2 2 [0; 0];
  Swz "xy" 2 2 [0; 1];
  Swz "yx" 2 2 [1; 0];
  Swz "yy" 2 2 [1; 1];
  Swz "x" 3 1 [0];
  Swz "y" 3 1 [1];
  Swz "z" 3 1 [2];
  Swz "xx" 3 2 [0; 0];
  Swz "xy" 3 2 [0; 1];
  Swz "xz" 3 2 [0; 2];
  Swz "yx" 3 2 [1; 0];
  Swz "yy" 3 2 [1; 1];
  Swz "yz" 3 2 [1; 2];
  Swz "zx" 3 2 [2; 0];
  Swz "zy" 3 2 [2; 1];
  Swz "zz" 3 2 [2; 2];
  Swz "xxx" 3 3 [0; 0; 0];
  Swz "xxy" 3 3 [0; 0; 1];
  Swz "xxz" 3 3 [0; 0; 2];
  Swz "xyx" 3 3 [0; 1; 0];
  Swz "xyy" 3 3 [0; 1; 1];
  Swz "xyz" 3 3 [0; 1; 2];
  Swz "xzx" 3 3 [0; 2; 0];
  Swz "xzy" 3 3 [0; 2; 1];
  Swz "xzz" 3 3 [0; 2; 2];
  Swz "yxx" 3 3 [1; 0; 0];
  Swz "yxy" 3 3 [1; 0; 1];
  Swz "yxz" 3 3 [1; 0; 2];
  Swz "yyx" 3 3 [1; 1; 0];
  Swz "yyy" 3 3 [1; 1; 1];
  Swz "yyz" 3 3 [1; 1; 2];
  Swz "yzx" 3 3 [1; 2; 0];
  Swz "yzy" 3 3 [1; 2; 1];
  Swz "yzz" 3 3 [1; 2; 2];
  Swz "zxx" 3 3 [2; 0; 0];
  Swz "zxy" 3 3 [2; 0; 1];
  Swz "zxz" 3 3 [2; 0; 2];
  Swz "zyx" 3 3 [2; 1; 0];
  Swz "zyy" 3 3 [2; 1; 1];
  Swz "zyz" 3 3 [2; 1; 2];
  Swz "zzx" 3 3 [2; 2; 0];
  Swz "zzy" 3 3 [2; 2; 1];
  Swz "zzz" 3 3 [2; 2; 2];
  Swz "x" 4 1 [0];
  Swz "y" 4 1 [1];
  Swz "z" 4 1 [2];
  Swz "w" 4 1 [3];
  Swz "xx" 4 2 [0; 0];
  Swz "xy" 4 2 [0; 1];
  Swz "xz" 4 2 [0; 2];
  Swz "xw" 4 2 [0; 3];
  Swz "yx" 4 2 [1; 0];
  Swz "yy" 4 2 [1; 1];
  Swz "yz" 4 2 [1; 2];
  Swz "yw" 4 2 [1; 3];
  Swz "zx" 4 2 [2; 0];
  Swz "zy" 4 2 [2; 1];
  Swz "zz" 4 2 [2; 2];
  Swz "zw" 4 2 [2; 3];
  Swz "wx" 4 2 [3; 0];
  Swz "wy" 4 2 [3; 1];
  Swz "wz" 4 2 [3; 2];
  Swz "ww" 4 2 [3; 3];
  Swz "xxx" 4 3 [0; 0; 0];
  Swz "xxy" 4 3 [0; 0; 1];
  Swz "xxz" 4 3 [0; 0; 2];
  Swz "xxw" 4 3 [0; 0; 3];
  Swz "xyx" 4 3 [0; 1; 0];
  Swz "xyy" 4 3 [0; 1; 1];
  Swz "xyz" 4 3 [0; 1; 2];
  Swz "xyw" 4 3 [0; 1; 3];
  Swz "xzx" 4 3 [0; 2; 0];
  Swz "xzy" 4 3 [0; 2; 1];
  Swz "xzz" 4 3 [0; 2; 2];
  Swz "xzw" 4 3 [0; 2; 3];
  Swz "xwx" 4 3 [0; 3; 0];
  Swz "xwy" 4 3 [0; 3; 1];
  Swz "xwz" 4 3 [0; 3; 2];
  Swz "xww" 4 3 [0; 3; 3];
  Swz "yxx" 4 3 [1; 0; 0];
  Swz "yxy" 4 3 [1; 0; 1];
  Swz "yxz" 4 3 [1; 0; 2];
  Swz "yxw" 4 3 [1; 0; 3];
  Swz "yyx" 4 3 [1; 1; 0];
  Swz "yyy" 4 3 [1; 1; 1];
  Swz "yyz" 4 3 [1; 1; 2];
  Swz "yyw" 4 3 [1; 1; 3];
  Swz "yzx" 4 3 [1; 2; 0];
  Swz "yzy" 4 3 [1; 2; 1];
  Swz "yzz" 4 3 [1; 2; 2];
  Swz "yzw" 4 3 [1; 2; 3];
  Swz "ywx" 4 3 [1; 3; 0];
  Swz "ywy" 4 3 [1; 3; 1];
  Swz "ywz" 4 3 [1; 3; 2];
  Swz "yww" 4 3 [1; 3; 3];
  Swz "zxx" 4 3 [2; 0; 0];
  Swz "zxy" 4 3 [2; 0; 1];
  Swz "zxz" 4 3 [2; 0; 2];
  Swz "zxw" 4 3 [2; 0; 3];
  Swz "zyx" 4 3 [2; 1; 0];
  Swz "zyy" 4 3 [2; 1; 1];
  Swz "zyz" 4 3 [2; 1; 2];
  Swz "zyw" 4 3 [2; 1; 3];
  Swz "zzx" 4 3 [2; 2; 0];
  Swz "zzy" 4 3 [2; 2; 1];
  Swz "zzz" 4 3 [2; 2; 2];
  Swz "zzw" 4 3 [2; 2; 3];
  Swz "zwx" 4 3 [2; 3; 0];
  Swz "zwy" 4 3 [2; 3; 1];
  Swz "zwz" 4 3 [2; 3; 2];
  Swz "zww" 4 3 [2; 3; 3];
  Swz "wxx" 4 3 [3; 0; 0];
  Swz "wxy" 4 3 [3; 0; 1];
  Swz "wxz" 4 3 [3; 0; 2];
  Swz "wxw" 4 3 [3; 0; 3];
  Swz "wyx" 4 3 [3; 1; 0];
  Swz "wyy" 4 3 [3; 1; 1];
  Swz "wyz" 4 3 [3; 1; 2];
  Swz "wyw" 4 3 [3; 1; 3];
  Swz "wzx" 4 3 [3; 2; 0];
  Swz "wzy" 4 3 [3; 2; 1];
  Swz "wzz" 4 3 [3; 2; 2];
  Swz "wzw" 4 3 [3; 2; 3];
  Swz "wwx" 4 3 [3; 3; 0];
  Swz "wwy" 4 3 [3; 3; 1];
  Swz "wwz" 4 3 [3; 3; 2];
  Swz "www" 4 3 [3; 3; 3];
  Swz "xxxx" 4 4 [0; 0; 0; 0];
  Swz "xxxy" 4 4 [0; 0; 0; 1];
  Swz "xxxz" 4 4 [0; 0; 0; 2];
  Swz "xxxw" 4 4 [0; 0; 0; 3];
  Swz "xxyx" 4 4 [0; 0; 1; 0];
  Swz "xxyy" 4 4 [0; 0; 1; 1];
  Swz "xxyz" 4 4 [0; 0; 1; 2];
  Swz "xxyw" 4 4 [0; 0; 1; 3];
  Swz "xxzx" 4 4 [0; 0; 2; 0];
  Swz "xxzy" 4 4 [0; 0; 2; 1];
  Swz "xxzz" 4 4 [0; 0; 2; 2];
  Swz "xxzw" 4 4 [0; 0; 2; 3];
  Swz "xxwx" 4 4 [0; 0; 3; 0];
  Swz "xxwy" 4 4 [0; 0; 3; 1];
  Swz "xxwz" 4 4 [0; 0; 3; 2];
  Swz "xxww" 4 4 [0; 0; 3; 3];
  Swz "xyxx" 4 4 [0; 1; 0; 0];
  Swz "xyxy" 4 4 [0; 1; 0; 1];
  Swz "xyxz" 4 4 [0; 1; 0; 2];
  Swz "xyxw" 4 4 [0; 1; 0; 3];
  Swz "xyyx" 4 4 [0; 1; 1; 0];
  Swz "xyyy" 4 4 [0; 1; 1; 1];
  Swz "xyyz" 4 4 [0; 1; 1; 2];
  Swz "xyyw" 4 4 [0; 1; 1; 3];
  Swz "xyzx" 4 4 [0; 1; 2; 0];
  Swz "xyzy" 4 4 [0; 1; 2; 1];
  Swz "xyzz" 4 4 [0; 1; 2; 2];
  Swz "xyzw" 4 4 [0; 1; 2; 3];
  Swz "xywx" 4 4 [0; 1; 3; 0];
  Swz "xywy" 4 4 [0; 1; 3; 1];
  Swz "xywz" 4 4 [0; 1; 3; 2];
  Swz "xyww" 4 4 [0; 1; 3; 3];
  Swz "xzxx" 4 4 [0; 2; 0; 0];
  Swz "xzxy" 4 4 [0; 2; 0; 1];
  Swz "xzxz" 4 4 [0; 2; 0; 2];
  Swz "xzxw" 4 4 [0; 2; 0; 3];
  Swz "xzyx" 4 4 [0; 2; 1; 0];
  Swz "xzyy" 4 4 [0; 2; 1; 1];
  Swz "xzyz" 4 4 [0; 2; 1; 2];
  Swz "xzyw" 4 4 [0; 2; 1; 3];
  Swz "xzzx" 4 4 [0; 2; 2; 0];
  Swz "xzzy" 4 4 [0; 2; 2; 1];
  Swz "xzzz" 4 4 [0; 2; 2; 2];
  Swz "xzzw" 4 4 [0; 2; 2; 3];
  Swz "xzwx" 4 4 [0; 2; 3; 0];
  Swz "xzwy" 4 4 [0; 2; 3; 1];
  Swz "xzwz" 4 4 [0; 2; 3; 2];
  Swz "xzww" 4 4 [0; 2; 3; 3];
  Swz "xwxx" 4 4 [0; 3; 0; 0];
  Swz "xwxy" 4 4 [0; 3; 0; 1];
  Swz "xwxz" 4 4 [0; 3; 0; 2];
  Swz "xwxw" 4 4 [0; 3; 0; 3];
  Swz "xwyx" 4 4 [0; 3; 1; 0];
  Swz "xwyy" 4 4 [0; 3; 1; 1];
  Swz "xwyz" 4 4 [0; 3; 1; 2];
  Swz "xwyw" 4 4 [0; 3; 1; 3];
  Swz "xwzx" 4 4 [0; 3; 2; 0];
  Swz "xwzy" 4 4 [0; 3; 2; 1];
  Swz "xwzz" 4 4 [0; 3; 2; 2];
  Swz "xwzw" 4 4 [0; 3; 2; 3];
  Swz "xwwx" 4 4 [0; 3; 3; 0];
  Swz "xwwy" 4 4 [0; 3; 3; 1];
  Swz "xwwz" 4 4 [0; 3; 3; 2];
  Swz "xwww" 4 4 [0; 3; 3; 3];
  Swz "yxxx" 4 4 [1; 0; 0; 0];
  Swz "yxxy" 4 4 [1; 0; 0; 1];
  Swz "yxxz" 4 4 [1; 0; 0; 2];
  Swz "yxxw" 4 4 [1; 0; 0; 3];
  Swz "yxyx" 4 4 [1; 0; 1; 0];
  Swz "yxyy" 4 4 [1; 0; 1; 1];
  Swz "yxyz" 4 4 [1; 0; 1; 2];
  Swz "yxyw" 4 4 [1; 0; 1; 3];
  Swz "yxzx" 4 4 [1; 0; 2; 0];
  Swz "yxzy" 4 4 [1; 0; 2; 1];
  Swz "yxzz" 4 4 [1; 0; 2; 2];
  Swz "yxzw" 4 4 [1; 0; 2; 3];
  Swz "yxwx" 4 4 [1; 0; 3; 0];
  Swz "yxwy" 4 4 [1; 0; 3; 1];
  Swz "yxwz" 4 4 [1; 0; 3; 2];
  Swz "yxww" 4 4 [1; 0; 3; 3];
  Swz "yyxx" 4 4 [1; 1; 0; 0];
  Swz "yyxy" 4 4 [1; 1; 0; 1];
  Swz "yyxz" 4 4 [1; 1; 0; 2];
  Swz "yyxw" 4 4 [1; 1; 0; 3];
  Swz "yyyx" 4 4 [1; 1; 1; 0];
  Swz "yyyy" 4 4 [1; 1; 1; 1];
  Swz "yyyz" 4 4 [1; 1; 1; 2];
  Swz "yyyw" 4 4 [1; 1; 1; 3];
  Swz "yyzx" 4 4 [1; 1; 2; 0];
  Swz "yyzy" 4 4 [1; 1; 2; 1];
  Swz "yyzz" 4 4 [1; 1; 2; 2];
  Swz "yyzw" 4 4 [1; 1; 2; 3];
  Swz "yywx" 4 4 [1; 1; 3; 0];
  Swz "yywy" 4 4 [1; 1; 3; 1];
  Swz "yywz" 4 4 [1; 1; 3; 2];
  Swz "yyww" 4 4 [1; 1; 3; 3];
  Swz "yzxx" 4 4 [1; 2; 0; 0];
  Swz "yzxy" 4 4 [1; 2; 0; 1];
  Swz "yzxz" 4 4 [1; 2; 0; 2];
  Swz "yzxw" 4 4 [1; 2; 0; 3];
  Swz "yzyx" 4 4 [1; 2; 1; 0];
  Swz "yzyy" 4 4 [1; 2; 1; 1];
  Swz "yzyz" 4 4 [1; 2; 1; 2];
  Swz "yzyw" 4 4 [1; 2; 1; 3];
  Swz "yzzx" 4 4 [1; 2; 2; 0];
  Swz "yzzy" 4 4 [1; 2; 2; 1];
  Swz "yzzz" 4 4 [1; 2; 2; 2];
  Swz "yzzw" 4 4 [1; 2; 2; 3];
  Swz "yzwx" 4 4 [1; 2; 3; 0];
  Swz "yzwy" 4 4 [1; 2; 3; 1];
  Swz "yzwz" 4 4 [1; 2; 3; 2];
  Swz "yzww" 4 4 [1; 2; 3; 3];
  Swz "ywxx" 4 4 [1; 3; 0; 0];
  Swz "ywxy" 4 4 [1; 3; 0; 1];
  Swz "ywxz" 4 4 [1; 3; 0; 2];
  Swz "ywxw" 4 4 [1; 3; 0; 3];
  Swz "ywyx" 4 4 [1; 3; 1; 0];
  Swz "ywyy" 4 4 [1; 3; 1; 1];
  Swz "ywyz" 4 4 [1; 3; 1; 2];
  Swz "ywyw" 4 4 [1; 3; 1; 3];
  Swz "ywzx" 4 4 [1; 3; 2; 0];
  Swz "ywzy" 4 4 [1; 3; 2; 1];
  Swz "ywzz" 4 4 [1; 3; 2; 2];
  Swz "ywzw" 4 4 [1; 3; 2; 3];
  Swz "ywwx" 4 4 [1; 3; 3; 0];
  Swz "ywwy" 4 4 [1; 3; 3; 1];
  Swz "ywwz" 4 4 [1; 3; 3; 2];
  Swz "ywww" 4 4 [1; 3; 3; 3];
  Swz "zxxx" 4 4 [2; 0; 0; 0];
  Swz "zxxy" 4 4 [2; 0; 0; 1];
  Swz "zxxz" 4 4 [2; 0; 0; 2];
  Swz "zxxw" 4 4 [2; 0; 0; 3];
  Swz "zxyx" 4 4 [2; 0; 1; 0];
  Swz "zxyy" 4 4 [2; 0; 1; 1];
  Swz "zxyz" 4 4 [2; 0; 1; 2];
  Swz "zxyw" 4 4 [2; 0; 1; 3];
  Swz "zxzx" 4 4 [2; 0; 2; 0];
  Swz "zxzy" 4 4 [2; 0; 2; 1];
  Swz "zxzz" 4 4 [2; 0; 2; 2];
  Swz "zxzw" 4 4 [2; 0; 2; 3];
  Swz "zxwx" 4 4 [2; 0; 3; 0];
  Swz "zxwy" 4 4 [2; 0; 3; 1];
  Swz "zxwz" 4 4 [2; 0; 3; 2];
  Swz "zxww" 4 4 [2; 0; 3; 3];
  Swz "zyxx" 4 4 [2; 1; 0; 0];
  Swz "zyxy" 4 4 [2; 1; 0; 1];
  Swz "zyxz" 4 4 [2; 1; 0; 2];
  Swz "zyxw" 4 4 [2; 1; 0; 3];
  Swz "zyyx" 4 4 [2; 1; 1; 0];
  Swz "zyyy" 4 4 [2; 1; 1; 1];
  Swz "zyyz" 4 4 [2; 1; 1; 2];
  Swz "zyyw" 4 4 [2; 1; 1; 3];
  Swz "zyzx" 4 4 [2; 1; 2; 0];
  Swz "zyzy" 4 4 [2; 1; 2; 1];
  Swz "zyzz" 4 4 [2; 1; 2; 2];
  Swz "zyzw" 4 4 [2; 1; 2; 3];
  Swz "zywx" 4 4 [2; 1; 3; 0];
  Swz "zywy" 4 4 [2; 1; 3; 1];
  Swz "zywz" 4 4 [2; 1; 3; 2];
  Swz "zyww" 4 4 [2; 1; 3; 3];
  Swz "zzxx" 4 4 [2; 2; 0; 0];
  Swz "zzxy" 4 4 [2; 2; 0; 1];
  Swz "zzxz" 4 4 [2; 2; 0; 2];
  Swz "zzxw" 4 4 [2; 2; 0; 3];
  Swz "zzyx" 4 4 [2; 2; 1; 0];
  Swz "zzyy" 4 4 [2; 2; 1; 1];
  Swz "zzyz" 4 4 [2; 2; 1; 2];
  Swz "zzyw" 4 4 [2; 2; 1; 3];
  Swz "zzzx" 4 4 [2; 2; 2; 0];
  Swz "zzzy" 4 4 [2; 2; 2; 1];
  Swz "zzzz" 4 4 [2; 2; 2; 2];
  Swz "zzzw" 4 4 [2; 2; 2; 3];
  Swz "zzwx" 4 4 [2; 2; 3; 0];
  Swz "zzwy" 4 4 [2; 2; 3; 1];
  Swz "zzwz" 4 4 [2; 2; 3; 2];
  Swz "zzww" 4 4 [2; 2; 3; 3];
  Swz "zwxx" 4 4 [2; 3; 0; 0];
  Swz "zwxy" 4 4 [2; 3; 0; 1];
  Swz "zwxz" 4 4 [2; 3; 0; 2];
  Swz "zwxw" 4 4 [2; 3; 0; 3];
  Swz "zwyx" 4 4 [2; 3; 1; 0];
  Swz "zwyy" 4 4 [2; 3; 1; 1];
  Swz "zwyz" 4 4 [2; 3; 1; 2];
  Swz "zwyw" 4 4 [2; 3; 1; 3];
  Swz "zwzx" 4 4 [2; 3; 2; 0];
  Swz "zwzy" 4 4 [2; 3; 2; 1];
  Swz "zwzz" 4 4 [2; 3; 2; 2];
  Swz "zwzw" 4 4 [2; 3; 2; 3];
  Swz "zwwx" 4 4 [2; 3; 3; 0];
  Swz "zwwy" 4 4 [2; 3; 3; 1];
  Swz "zwwz" 4 4 [2; 3; 3; 2];
  Swz "zwww" 4 4 [2; 3; 3; 3];
  Swz "wxxx" 4 4 [3; 0; 0; 0];
  Swz "wxxy" 4 4 [3; 0; 0; 1];
  Swz "wxxz" 4 4 [3; 0; 0; 2];
  Swz "wxxw" 4 4 [3; 0; 0; 3];
  Swz "wxyx" 4 4 [3; 0; 1; 0];
  Swz "wxyy" 4 4 [3; 0; 1; 1];
  Swz "wxyz" 4 4 [3; 0; 1; 2];
  Swz "wxyw" 4 4 [3; 0; 1; 3];
  Swz "wxzx" 4 4 [3; 0; 2; 0];
  Swz "wxzy" 4 4 [3; 0; 2; 1];
  Swz "wxzz" 4 4 [3; 0; 2; 2];
  Swz "wxzw" 4 4 [3; 0; 2; 3];
  Swz "wxwx" 4 4 [3; 0; 3; 0];
  Swz "wxwy" 4 4 [3; 0; 3; 1];
  Swz "wxwz" 4 4 [3; 0; 3; 2];
  Swz "wxww" 4 4 [3; 0; 3; 3];
  Swz "wyxx" 4 4 [3; 1; 0; 0];
  Swz "wyxy" 4 4 [3; 1; 0; 1];
  Swz "wyxz" 4 4 [3; 1; 0; 2];
  Swz "wyxw" 4 4 [3; 1; 0; 3];
  Swz "wyyx" 4 4 [3; 1; 1; 0];
  Swz "wyyy" 4 4 [3; 1; 1; 1];
  Swz "wyyz" 4 4 [3; 1; 1; 2];
  Swz "wyyw" 4 4 [3; 1; 1; 3];
  Swz "wyzx" 4 4 [3; 1; 2; 0];
  Swz "wyzy" 4 4 [3; 1; 2; 1];
  Swz "wyzz" 4 4 [3; 1; 2; 2];
  Swz "wyzw" 4 4 [3; 1; 2; 3];
  Swz "wywx" 4 4 [3; 1; 3; 0];
  Swz "wywy" 4 4 [3; 1; 3; 1];
  Swz "wywz" 4 4 [3; 1; 3; 2];
  Swz "wyww" 4 4 [3; 1; 3; 3];
  Swz "wzxx" 4 4 [3; 2; 0; 0];
  Swz "wzxy" 4 4 [3; 2; 0; 1];
  Swz "wzxz" 4 4 [3; 2; 0; 2];
  Swz "wzxw" 4 4 [3; 2; 0; 3];
  Swz "wzyx" 4 4 [3; 2; 1; 0];
  Swz "wzyy" 4 4 [3; 2; 1; 1];
  Swz "wzyz" 4 4 [3; 2; 1; 2];
  Swz "wzyw" 4 4 [3; 2; 1; 3];
  Swz "wzzx" 4 4 [3; 2; 2; 0];
  Swz "wzzy" 4 4 [3; 2; 2; 1];
  Swz "wzzz" 4 4 [3; 2; 2; 2];
  Swz "wzzw" 4 4 [3; 2; 2; 3];
  Swz "wzwx" 4 4 [3; 2; 3; 0];
  Swz "wzwy" 4 4 [3; 2; 3; 1];
  Swz "wzwz" 4 4 [3; 2; 3; 2];
  Swz "wzww" 4 4 [3; 2; 3; 3];
  Swz "wwxx" 4 4 [3; 3; 0; 0];
  Swz "wwxy" 4 4 [3; 3; 0; 1];
  Swz "wwxz" 4 4 [3; 3; 0; 2];
  Swz "wwxw" 4 4 [3; 3; 0; 3];
  Swz "wwyx" 4 4 [3; 3; 1; 0];
  Swz "wwyy" 4 4 [3; 3; 1; 1];
  Swz "wwyz" 4 4 [3; 3; 1; 2];
  Swz "wwyw" 4 4 [3; 3; 1; 3];
  Swz "wwzx" 4 4 [3; 3; 2; 0];
  Swz "wwzy" 4 4 [3; 3; 2; 1];
  Swz "wwzz" 4 4 [3; 3; 2; 2];
  Swz "wwzw" 4 4 [3; 3; 2; 3];
  Swz "wwwx" 4 4 [3; 3; 3; 0];
  Swz "wwwy" 4 4 [3; 3; 3; 1];
  Swz "wwwz" 4 4 [3; 3; 3; 2];
  Swz "wwww" 4 4 [3; 3; 3; 3]
].

(** point.rs 1518-1568. *)
Definition point_swizzles : list swizzle := [
  Swz "x" 1 1 [0];
  Swz "x" 2 1 [0];
  Swz "y" 2 1 [1];
  Swz "xx" 2 2 [0; 0];
  Swz "xy" 2 2 [0; 1];
  Swz "yx" 2 2 [1; 0];
  Swz "yy" 2 2 [1; 1];
  Swz "x" 3 1 [0];
  Swz "y" 3 1 [1];
  Swz "z" 3 1 [2];
  Swz "xx" 3 2 [0; 0];
  Swz "xy" 3 2 [0; 1];
  Swz "xz" 3 2 [0; 2];
  Swz "yx" 3 2 [1; 0];
  Swz "yy" 3 2 [1; 1];
  Swz "yz" 3 2 [1; 2];
  Swz "zx" 3 2 [2; 0];
  Swz "zy" 3 2 [2; 1];
  Swz "zz" 3 2 [2; 2];
  Swz "xxx" 3 3 [0; 0; 0];
  Swz "xxy" 3 3 [0; 0; 1];
  Swz "xxz" 3 3 [0; 0; 2];
  Swz "xyx" 3 3 [0; 1; 0];
  Swz "xyy" 3 3 [0; 1; 1];
  Swz "xyz" 3 3 [0; 1; 2];
  Swz "xzx" 3 3 [0; 2; 0];
  Swz "xzy" 3 3 [0; 2; 1];
  Swz "xzz" 3 3 [0; 2; 2];
  Swz "yxx" 3 3 [1; 0; 0];
  Swz "yxy" 3 3 [1; 0; 1];
  Swz "yxz" 3 3 [1; 0; 2];
  Swz "yyx" 3 3 [1; 1; 0];
  Swz "yyy" 3 3 [1; 1; 1];
  Swz "yyz" 3 3 [1; 1; 2];
  Swz "yzx" 3 3 [1; 2; 0];
  Swz "yzy" 3 3 [1; 2; 1];
  Swz "yzz" 3 3 [1; 2; 2];
  Swz "zxx" 3 3 [2; 0; 0];
  Swz "zxy" 3 3 [2; 0; 1];
  Swz "zxz" 3 3 [2; 0; 2];
  Swz "zyx" 3 3 [2; 1; 0];
  Swz "zyy" 3 3 [2; 1; 1];
  Swz "zyz" 3 3 [2; 1; 2];
  Swz "zzx" 3 3 [2; 2; 0];
  Swz "zzy" 3 3 [2; 2; 1];
  Swz "zzz" 3 3 [2; 2; 2]
].
