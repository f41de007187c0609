(** What a failed approximate assertion reports: the [debug_*] helpers of the traits [AssertAbsDiffEq],
    [AssertAbsDiffAllEq], [AssertRelativeEq], [AssertRelativeAllEq], [AssertUlpsEq] and [AssertUlpsAllEq].

    Each helper is one of three kinds: a difference of two values ([debug_abs_diff], [debug_ulps_diff]), a
    tolerance computed from two values and a tolerance of the same shape ([debug_abs_diff_tolerance],
    [debug_relative_tolerance], [debug_ulps_tolerance]), or from two values and one scalar tolerance
    ([debug_*_all_tolerance]).  The three traits repeat the same bodies.  The scalar helpers, and the helpers
    of arrays (which apply the one of the elements position by position), are code of the external crate
    approx_cmp: the scalar ones are the parameters [f], [h], [ha]; those of arrays are [adiff], [atol],
    [atol_all].  The [...Diff] and [...Tol] types are records with the fields of the type itself. *)

From Verif Require Import Base Scalar MVector MMatrix MComplex MQuat MTransform.

(** Arrays (approx_cmp). *)
Fixpoint adiff {K D} (f : K -> K -> D) {n} : vec K n -> vec K n -> vec D n :=
  match n with
  | O => fun _ _ => tt
  | S k => fun x y => (f (fst x) (fst y), adiff f (snd x) (snd y))
  end.
Fixpoint atol {K T E} (h : K -> K -> T -> E) {n} : vec K n -> vec K n -> vec T n -> vec E n :=
  match n with
  | O => fun _ _ _ => tt
  | S k => fun x y t => (h (fst x) (fst y) (fst t), atol h (snd x) (snd y) (snd t))
  end.
Fixpoint atol_all {K T E} (ha : K -> K -> T -> E) {n} : vec K n -> vec K n -> T -> vec E n :=
  match n with
  | O => fun _ _ _ => tt
  | S k => fun x y t => (ha (fst x) (fst y) t, atol_all ha (snd x) (snd y) t)
  end.

Section Diff.
Context {K D : Type}.
Variable f : K -> K -> D.
(** vector.rs 1248-1252, 1320-1324, 1410-1421: [Vector::from] of the helper of the data. *)
Definition vdiff {n} (x y : vec K n) : vec D n := adiff f x y.
(** matrix.rs 8976-8980, 9057-9061, 9151-9162: the data are an array of columns. *)
Definition mdiff {r c} (x y : mat K r c) : mat D r c := adiff (fun u v => adiff f u v) x y.
(** point.rs 1040-1042, 1094-1096, 1162-1169; quaternion.rs 4437-4439, 4491-4493, 4559-4566: the
    coordinates; unit.rs 259-261, 313-315, 381-388: the wrapped value; trigonometry lib.rs 825-827, 879-881,
    947-954: the scalar. *)
Definition pdiff {n} (x y : vec K n) : vec D n := vdiff x y.
Definition qdiff (x y : quat K) : quat D := vdiff (n := 4) x y.
(** complex.rs 3069-3074, 3134-3139, 3219-3232. *)
Definition cdiff (x y : complex K) : complex D := mkC (f (re x) (re y)) (f (im x) (im y)).
(** euler.rs 625-631, 695-701, 789-804. *)
Definition eudiff (x y : K * K * K) : D * D * D :=
  let '(x1, x2, x3) := x in let '(y1, y2, y3) := y in (f x1 y1, f x2 y2, f x3 y3).
(** reflection.rs 968-973, 1033-1038, 1117-1130; [ReflectionDiff::from_parts] 929-931. *)
Definition rediff {n} (x y : reflection K n) : reflection D n :=
  mkReflection (vdiff (re_normal x) (re_normal y)) (pdiff (re_bias x) (re_bias y)).
(** shear.rs 2112-2135, 2257-2280, 2457-2506; [ShearDiff::from_parts] 2045-2052. *)
Definition shdiff {n} (x y : shear K n) : shear D n :=
  mkShear (f (sh_factor x) (sh_factor y)) (pdiff (sh_origin x) (sh_origin y))
          (vdiff (sh_direction x) (sh_direction y)) (vdiff (sh_normal x) (sh_normal y)).
(** isometry.rs 1853-1866, 1957-1970, 2091-2120; [IsometryDiff::from_parts] 1807-1809 takes the translation
    first. *)
Definition isodiff {n} (x y : isometry K n) : isometry D n :=
  mkIsometry (vdiff (iso_translation x) (iso_translation y)) (mdiff (iso_rotation x) (iso_rotation y)).
(** similarity.rs 1907-1925, 2032-2050, 2197-2236; [SimilarityDiff::from_parts] 1848-1854.  The record of
    the code has the three fields rotation, translation and scale; here the first two form the isometry. *)
Definition simdiff {n} (x y : similarity K n) : similarity D n :=
  mkSimilarity (isodiff (sim_isometry x) (sim_isometry y)) (f (sim_scale x) (sim_scale y)).
(** rotation.rs 1999-2003, 2059-2063, 2136-2147, transform.rs 952-956, 1020-1024, 1105-1116, projection.rs
    2502-2506, 2562-2566, 2639-2650, 4313-4317, 4373-4377, 4450-4461: the matrix ([mdiff]); translation.rs
    931-935, 991-995, 1069-1080, scale.rs 904-908, 964-968, 1041-1052: the vector ([vdiff]). *)
End Diff.

Section Tol.
Context {K T E : Type}.
Variable h : K -> K -> T -> E.
(** vector.rs 1255-1259, 1327-1338, 1424-1435. *)
Definition vtol {n} (x y : vec K n) (t : vec T n) : vec E n := atol h x y t.
(** matrix.rs 8983-8987, 9064-9075, 9165-9176. *)
Definition mtol {r c} (x y : mat K r c) (t : mat T r c) : mat E r c := atol (fun u v s => atol h u v s) x y t.
(** point.rs 1045-1047, 1099-1106, 1172-1179; quaternion.rs 4442-4444, 4496-4503, 4569-4576; unit.rs
    264-266, 318-325, 391-398; trigonometry lib.rs 830-832, 884-891, 957-964. *)
Definition ptol {n} (x y : vec K n) (t : vec T n) : vec E n := vtol x y t.
Definition qtol (x y : quat K) (t : quat T) : quat E := vtol (n := 4) x y t.
(** complex.rs 3077-3082, 3142-3155, 3235-3248. *)
Definition ctol (x y : complex K) (t : complex T) : complex E :=
  mkC (h (re x) (re y) (re t)) (h (im x) (im y) (im t)).
(** euler.rs 634-640, 704-719, 807-822. *)
Definition eutol (x y : K * K * K) (t : T * T * T) : E * E * E :=
  let '(x1, x2, x3) := x in let '(y1, y2, y3) := y in let '(t1, t2, t3) := t in
  (h x1 y1 t1, h x2 y2 t2, h x3 y3 t3).
(** reflection.rs 976-981, 1041-1054, 1133-1146; [ReflectionTol::from_parts] 915-917. *)
Definition retol {n} (x y : reflection K n) (t : reflection T n) : reflection E n :=
  mkReflection (vtol (re_normal x) (re_normal y) (re_normal t)) (ptol (re_bias x) (re_bias y) (re_bias t)).
(** shear.rs 2138-2161, 2283-2332, 2509-2558; [ShearTol::from_parts] 2024-2031. *)
Definition shtol {n} (x y : shear K n) (t : shear T n) : shear E n :=
  mkShear (h (sh_factor x) (sh_factor y) (sh_factor t)) (ptol (sh_origin x) (sh_origin y) (sh_origin t))
          (vtol (sh_direction x) (sh_direction y) (sh_direction t))
          (vtol (sh_normal x) (sh_normal y) (sh_normal t)).
(** isometry.rs 1869-1882, 1973-2002, 2123-2152; [IsometryTol::from_parts] 1793-1795. *)
Definition isotol {n} (x y : isometry K n) (t : isometry T n) : isometry E n :=
  mkIsometry (vtol (iso_translation x) (iso_translation y) (iso_translation t))
             (mtol (iso_rotation x) (iso_rotation y) (iso_rotation t)).
(** similarity.rs 1928-1946, 2053-2092, 2239-2278; [SimilarityTol::from_parts] 1829-1835. *)
Definition simtol {n} (x y : similarity K n) (t : similarity T n) : similarity E n :=
  mkSimilarity (isotol (sim_isometry x) (sim_isometry y) (sim_isometry t))
               (h (sim_scale x) (sim_scale y) (sim_scale t)).
End Tol.

Section All.
Context {K T E : Type}.
Variable ha : K -> K -> T -> E.
(** vector.rs 1269-1273, 1348-1359, 1446-1457. *)
Definition vtol_all {n} (x y : vec K n) (t : T) : vec E n := atol_all ha x y t.
(** matrix.rs 8997-9001, 9085-9096, 9187-9198. *)
Definition mtol_all {r c} (x y : mat K r c) (t : T) : mat E r c :=
  atol_all (fun u v s => atol_all ha u v s) x y t.
(** point.rs 1057-1059, 1116-1123, 1190-1197; quaternion.rs 4454-4456, 4513-4520, 4587-4594; unit.rs
    276-278, 335-342, 409-416; trigonometry lib.rs 842-844, 901-908, 975-982. *)
Definition ptol_all {n} (x y : vec K n) (t : T) : vec E n := vtol_all x y t.
Definition qtol_all (x y : quat K) (t : T) : quat E := vtol_all (n := 4) x y t.
(** complex.rs 3092-3097, 3165-3178, 3259-3272. *)
Definition ctol_all (x y : complex K) (t : T) : complex E := mkC (ha (re x) (re y) t) (ha (im x) (im y) t).
(** euler.rs 650-656, 729-744, 833-848. *)
Definition eutol_all (x y : K * K * K) (t : T) : E * E * E :=
  let '(x1, x2, x3) := x in let '(y1, y2, y3) := y in (ha x1 y1 t, ha x2 y2 t, ha x3 y3 t).
(** reflection.rs 991-996, 1064-1077, 1157-1170. *)
Definition retol_all {n} (x y : reflection K n) (t : T) : reflection E n :=
  mkReflection (vtol_all (re_normal x) (re_normal y) t) (ptol_all (re_bias x) (re_bias y) t).
(** shear.rs 2171-2194, 2342-2391, 2569-2618. *)
Definition shtol_all {n} (x y : shear K n) (t : T) : shear E n :=
  mkShear (ha (sh_factor x) (sh_factor y) t) (ptol_all (sh_origin x) (sh_origin y) t)
          (vtol_all (sh_direction x) (sh_direction y) t) (vtol_all (sh_normal x) (sh_normal y) t).
(** isometry.rs 1892-1905, 2012-2041, 2163-2192. *)
Definition isotol_all {n} (x y : isometry K n) (t : T) : isometry E n :=
  mkIsometry (vtol_all (iso_translation x) (iso_translation y) t)
             (mtol_all (iso_rotation x) (iso_rotation y) t).
(** similarity.rs 1956-1974, 2102-2141, 2289-2328. *)
Definition simtol_all {n} (x y : similarity K n) (t : T) : similarity E n :=
  mkSimilarity (isotol_all (sim_isometry x) (sim_isometry y) t) (ha (sim_scale x) (sim_scale y) t).
End All.
