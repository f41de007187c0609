(** Model of crates/cglinalg_transform/src: translation.rs, scale.rs, rotation.rs, reflection.rs,
    shear.rs, isometry.rs, isometry_ops.rs, similarity.rs, transform.rs.  Line numbers refer to the
    file named in each part.  The const generic [NPLUS1] is [S n].  The four by-value/by-reference
    copies of each operator have the same body (read side by side) and share one definition; the
    [Mul<Point>] and [Mul<Vector>] operators forward to [apply_point]/[apply_vector]. *)

From Coq Require Import Arith Reals.
From Verif Require Import Base Scalar MVector MPoint MMatrix MReal MMisc MRot MQuat.

(** ** Types *)

(** translation.rs 62-64, scale.rs 47-49, rotation.rs 54-56, transform.rs 36-42: newtypes. *)
Definition translation (K : Type) (n : nat) : Type := vec K n.
Definition scale (K : Type) (n : nat) : Type := vec K n.
Definition rotation (K : Type) (n : nat) : Type := mat K n n.
Definition transform (K : Type) (n : nat) : Type := mat K (S n) (S n).

(** reflection.rs 36-39, shear.rs 38-43, isometry.rs 55-60, similarity.rs 42-45: structs. *)
Record reflection (K : Type) (n : nat) : Type :=
  mkReflection { re_normal : vec K n; re_bias : point K n }.
Record shear (K : Type) (n : nat) : Type :=
  mkShear { sh_factor : K; sh_origin : point K n; sh_direction : vec K n; sh_normal : vec K n }.
Record isometry (K : Type) (n : nat) : Type :=
  mkIsometry { iso_translation : translation K n; iso_rotation : rotation K n }.
Record similarity (K : Type) (n : nat) : Type :=
  mkSimilarity { sim_isometry : isometry K n; sim_scale : K }.
Arguments mkReflection {K n}. Arguments re_normal {K n}. Arguments re_bias {K n}.
Arguments mkShear {K n}. Arguments sh_factor {K n}. Arguments sh_origin {K n}.
Arguments sh_direction {K n}. Arguments sh_normal {K n}.
Arguments mkIsometry {K n}. Arguments iso_translation {K n}. Arguments iso_rotation {K n}.
Arguments mkSimilarity {K n}. Arguments sim_isometry {K n}. Arguments sim_scale {K n}.

Section Ring.
Context {K : Type} `{NK : Num K}.
Local Open Scope num_scope.

(** ** Transform (transform.rs) *)

(** 96 [from_matrix_unchecked], 213 [identity], 552 [Mul]. *)
Definition tf_from_matrix {n} (m : mat K (S n) (S n)) : transform K n := m.
Definition tf_identity (n : nat) : transform K n := midentity (S n).
Definition tf_mul {n} (f g : transform K n) : transform K n := mmul f g.

(** 310-312 [apply_vector]. *)
Definition tf_apply_vector {n} (f : transform K n) (v : vec K n) : vec K n :=
  vcontract (mmulv f (vextend v 0)).

(** ** Translation (translation.rs) *)

(** 108 [from_vector], 824/855 [new], 152 [between_vectors], 192 [between_points]. *)
Definition tr_from_vector {n} (v : vec K n) : translation K n := v.
Definition tr_new2 (x y : K) : translation K 2 := v2 x y.
Definition tr_new3 (x y z : K) : translation K 3 := v3 x y z.
Definition tr_between_vectors {n} (v1 v2 : vec K n) : translation K n := tr_from_vector (vsub v2 v1).
Definition tr_between_points {n} (p1 p2 : point K n) : translation K n := tr_from_vector (pdiff p2 p1).

(** 232 [inverse], 264 [inverse_mut]. *)
Definition tr_inverse {n} (t : translation K n) : translation K n := vneg t.
Definition tr_inverse_mut {n} (t : translation K n) : translation K n := vneg_mut t.

(** 306 [apply_point], 342 [apply_vector], 386 [inverse_apply_point], 420 [inverse_apply_vector]. *)
Definition tr_apply_point {n} (t : translation K n) (p : point K n) : point K n := padd p t.
Definition tr_apply_vector {n} (t : translation K n) (v : vec K n) : vec K n := v.
Definition tr_inverse_apply_point {n} (t : translation K n) (p : point K n) : point K n := psub p t.
Definition tr_inverse_apply_vector {n} (t : translation K n) (v : vec K n) : vec K n := v.

(** 451 [identity], 757 [Mul]. *)
Definition tr_identity (n : nat) : translation K n := vzero n.
Definition tr_mul {n} (s t : translation K n) : translation K n := tr_from_vector (vadd s t).

(** 555-563 [to_affine_matrix], 608 [to_transform]. *)
Definition tr_to_affine_matrix {n} (t : translation K n) : mat K (S n) (S n) :=
  for_range n (fun r result => mset result n r (vat t r)) (midentity (S n)).
Definition tr_to_transform {n} (t : translation K n) : transform K n :=
  tf_from_matrix (tr_to_affine_matrix t).

(** ** Scale (scale.rs) *)

(** 87 [from_nonuniform_scale], 123 [from_scale], 815/828 [new], 258 [identity]. *)
Definition sc_from_nonuniform_scale {n} (v : vec K n) : scale K n := v.
Definition sc_from_scale (n : nat) (s : K) : scale K n := vfrom_fill n s.
Definition sc_new2 (x y : K) : scale K 2 := v2 x y.
Definition sc_new3 (x y z : K) : scale K 3 := v3 x y z.
Definition sc_identity (n : nat) : scale K n := sc_from_scale n 1.

(** 166-174 [apply_vector], 219-227 [apply_point]. *)
Definition sc_apply_vector {n} (s : scale K n) (v : vec K n) : vec K n :=
  for_range n (fun i result => vset result i (vat s i * vat v i)) (vzero n).
Definition sc_apply_point {n} (s : scale K n) (p : point K n) : point K n :=
  for_range n (fun i result => vset result i (vat s i * vat p i)) (porigin n : vec K n).

(** 341 [to_matrix], 561 [to_affine_matrix], 616 [to_transform], 759 [Mul]. *)
Definition sc_to_matrix {n} (s : scale K n) : mat K n n := mfrom_diagonal s.
Definition sc_to_affine_matrix {n} (s : scale K n) : mat K (S n) (S n) :=
  mfrom_affine_nonuniform_scale s.
Definition sc_to_transform {n} (s : scale K n) : transform K n :=
  tf_from_matrix (sc_to_affine_matrix s).
Definition sc_mul {n} (s t : scale K n) : scale K n := sc_from_nonuniform_scale (vcmul s t).

(** ** Rotation (rotation.rs) *)

(** 160 [inverse], 207 [inverse_mut] (None is a panic), 450 [identity], 502 [to_matrix]. *)
Definition rot_inverse {n} (r : rotation K n) : rotation K n := mtranspose r.
Definition rot_inverse_mut {n} (r : rotation K n) : option (rotation K n) := mtranspose_mut 0 r.
Definition rot_identity (n : nat) : rotation K n := midentity n.
Definition rot_to_matrix {n} (r : rotation K n) : mat K n n := r.

(** 253 [apply_vector], 300-305 [apply_point], 355 [inverse_apply_vector],
    410-416 [inverse_apply_point]. *)
Definition rot_apply_vector {n} (r : rotation K n) (v : vec K n) : vec K n := mmulv r v.
Definition rot_apply_point {n} (r : rotation K n) (p : point K n) : point K n :=
  pfrom_vector (mmulv r (pto_vector p)).
Definition rot_inverse_apply_vector {n} (r : rotation K n) (v : vec K n) : vec K n :=
  mmulv (rot_inverse r) v.
Definition rot_inverse_apply_point {n} (r : rotation K n) (p : point K n) : point K n :=
  pfrom_vector (mmulv (rot_inverse r) (pto_vector p)).

(** 568 [to_affine_matrix], 632 [to_transform], 783 [Mul]. *)
Definition rot_to_affine_matrix {n} (r : rotation K n) : mat K (S n) (S n) := membed r.
Definition rot_to_transform {n} (r : rotation K n) : transform K n :=
  tf_from_matrix (rot_to_affine_matrix r).
Definition rot_mul {n} (r s : rotation K n) : rotation K n := mmul r s.

(** ** Reflection (reflection.rs) *)

(** 99 [from_normal_bias]; the normal is a [Unit]. *)
Definition re_from_normal_bias {n} (normal : vec K n) (bias : point K n) : reflection K n :=
  mkReflection normal bias.

(** 313-319 [apply_vector], 426-432 [apply_point], 481, 532 the inverse versions (identical),
    603 [inverse]. *)
Definition re_apply_vector {n} (f : reflection K n) (v : vec K n) : vec K n :=
  let factor := vdot v (re_normal f) * (1 + 1) in
  vsub v (vmul_s (re_normal f) factor).
Definition re_apply_point {n} (f : reflection K n) (p : point K n) : point K n :=
  let factor := vdot (pdiff p (re_bias f)) (re_normal f) * (1 + 1) in
  psub p (vmul_s (re_normal f) factor).
Definition re_inverse_apply_vector {n} (f : reflection K n) (v : vec K n) := re_apply_vector f v.
Definition re_inverse_apply_point {n} (f : reflection K n) (p : point K n) := re_apply_point f p.
Definition re_inverse {n} (f : reflection K n) : reflection K n := f.

(** 746-750, 842-846 [to_affine_matrix] in 2D and 3D, 783, 880 [to_transform]. *)
Definition re2to_affine_matrix (f : reflection K 2) : mat K 3 3 :=
  m3from_affine_reflection (re_normal f) (re_bias f).
Definition re3to_affine_matrix (f : reflection K 3) : mat K 4 4 :=
  m4from_affine_reflection (re_normal f) (re_bias f).
Definition re2to_transform (f : reflection K 2) : transform K 2 := tf_from_matrix (re2to_affine_matrix f).
Definition re3to_transform (f : reflection K 3) : transform K 3 := tf_from_matrix (re3to_affine_matrix f).

(** ** Shear (shear.rs) *)

(** 919 [from_shear], 1105 [from_affine_shear]; direction and normal are [Unit]s. *)
Definition sh_from_shear {n} (factor : K) (direction normal : vec K n) : shear K n :=
  mkShear factor (porigin n) direction normal.
Definition sh_from_affine_shear {n} (factor : K) (origin : point K n) (direction normal : vec K n)
  : shear K n := mkShear factor origin direction normal.

(** 324-329 [apply_vector], 406-410 [apply_point], 697-702 [inverse_apply_vector],
    782-786 [inverse_apply_point], 612 [inverse]. *)
Definition sh_apply_vector {n} (f : shear K n) (v : vec K n) : vec K n :=
  let origin := pto_vector (sh_origin f) in
  let factor := sh_factor f * vdot (vsub v origin) (sh_normal f) in
  vadd v (vmul_s (sh_direction f) factor).
Definition sh_apply_point {n} (f : shear K n) (p : point K n) : point K n :=
  let factor := sh_factor f * vdot (pdiff p (sh_origin f)) (sh_normal f) in
  padd p (vmul_s (sh_direction f) factor).
Definition sh_inverse_apply_vector {n} (f : shear K n) (v : vec K n) : vec K n :=
  let origin := pto_vector (sh_origin f) in
  let factor := sh_factor f * vdot (vsub v origin) (sh_normal f) in
  vsub v (vmul_s (sh_direction f) factor).
Definition sh_inverse_apply_point {n} (f : shear K n) (p : point K n) : point K n :=
  let factor := sh_factor f * vdot (pdiff p (sh_origin f)) (sh_normal f) in
  psub p (vmul_s (sh_direction f) factor).
Definition sh_inverse {n} (f : shear K n) : shear K n :=
  mkShear (- sh_factor f) (sh_origin f) (sh_direction f) (sh_normal f).

(** 461-473 [identity]: indexes the arrays, so it panics (None) when N = 0. *)
Definition sh_identity (n : nat) : option (shear K n) :=
  match vassign (vzero n) 0 (1 : K), vassign (vzero n) (n - 1) (1 : K) with
  | Some direction, Some normal => Some (mkShear 0 (porigin n) direction normal)
  | _, _ => None
  end.

(** 1268, 1316 [Shear2::from_shear_xy/yx]; 1550-1840 [Shear3::from_shear_xy/xz/yx/yz/zx/zy]:
    direction along the first letter, normal along the second. *)
Definition sh2from_shear_xy (s : K) : shear K 2 := mkShear s (porigin 2) (v2 1 0) (v2 0 1).
Definition sh2from_shear_yx (s : K) : shear K 2 := mkShear s (porigin 2) (v2 0 1) (v2 1 0).
Definition sh3from_shear_xy (s : K) : shear K 3 := mkShear s (porigin 3) (v3 1 0 0) (v3 0 1 0).
Definition sh3from_shear_xz (s : K) : shear K 3 := mkShear s (porigin 3) (v3 1 0 0) (v3 0 0 1).
Definition sh3from_shear_yx (s : K) : shear K 3 := mkShear s (porigin 3) (v3 0 1 0) (v3 1 0 0).
Definition sh3from_shear_yz (s : K) : shear K 3 := mkShear s (porigin 3) (v3 0 1 0) (v3 0 0 1).
Definition sh3from_shear_zx (s : K) : shear K 3 := mkShear s (porigin 3) (v3 0 0 1) (v3 1 0 0).
Definition sh3from_shear_zy (s : K) : shear K 3 := mkShear s (porigin 3) (v3 0 0 1) (v3 0 1 0).

(** ** Isometry (isometry.rs) *)

(** 121 [from_parts], 166 [from_translation], 214 [from_rotation], 683 [identity]. *)
Definition iso_from_parts {n} (t : translation K n) (r : rotation K n) : isometry K n := mkIsometry t r.
Definition iso_from_translation {n} (t : translation K n) : isometry K n :=
  iso_from_parts t (rot_identity n).
Definition iso_from_rotation {n} (r : rotation K n) : isometry K n :=
  iso_from_parts (tr_identity n) r.
Definition iso_identity (n : nat) : isometry K n := mkIsometry (tr_identity n) (rot_identity n).

(** 367-376 [inverse]. *)
Definition iso_inverse {n} (f : isometry K n) : isometry K n :=
  let rotation := rot_inverse (iso_rotation f) in
  let translation := tr_from_vector (rot_apply_vector rotation (vneg (iso_translation f))) in
  iso_from_parts translation rotation.

(** 426-430 [inverse_mut] (None is a panic of the in-place transposition). *)
Definition iso_inverse_mut {n} (f : isometry K n) : option (isometry K n) :=
  match rot_inverse_mut (iso_rotation f) with
  | Some rotation =>
      let translation := tr_inverse_mut (iso_translation f) in
      Some (mkIsometry (rot_apply_vector rotation translation) rotation)
  | None => None
  end.

(** 482 [apply_point], 534 [apply_vector], 591 [inverse_apply_point], 643 [inverse_apply_vector]. *)
Definition iso_apply_point {n} (f : isometry K n) (p : point K n) : point K n :=
  tr_apply_point (iso_translation f) (rot_apply_point (iso_rotation f) p).
Definition iso_apply_vector {n} (f : isometry K n) (v : vec K n) : vec K n :=
  rot_apply_vector (iso_rotation f) v.
Definition iso_inverse_apply_point {n} (f : isometry K n) (p : point K n) : point K n :=
  rot_inverse_apply_point (iso_rotation f) (psub p (iso_translation f)).
Definition iso_inverse_apply_vector {n} (f : isometry K n) (v : vec K n) : vec K n :=
  rot_inverse_apply_vector (iso_rotation f) v.

(** 751-760 [to_affine_matrix], 821 [to_transform]. *)
Definition iso_to_affine_matrix {n} (f : isometry K n) : mat K (S n) (S n) :=
  for_range n (fun i result => mset result n i (vat (iso_translation f) i))
    (membed (iso_rotation f) : mat K (S n) (S n)).
Definition iso_to_transform {n} (f : isometry K n) : transform K n :=
  tf_from_matrix (iso_to_affine_matrix f).

(** 971-977 [Mul]. *)
Definition iso_mul {n} (f g : isometry K n) : isometry K n :=
  let shift := rot_apply_vector (iso_rotation f) (iso_translation g) in
  let translation := tr_from_vector (vadd (iso_translation f) shift) in
  let rotation := rot_mul (iso_rotation f) (iso_rotation g) in
  iso_from_parts translation rotation.

(** isometry_ops.rs 21 [Rotation * Translation], 81 [Translation * Rotation],
    130 [Isometry * Translation], 193 [Translation * Isometry], 250 [Isometry * Rotation],
    310 [Rotation * Isometry]. *)
Definition rot_mul_tr {n} (r : rotation K n) (t : translation K n) : isometry K n :=
  iso_from_parts (tr_from_vector (rot_apply_vector r t)) r.
Definition tr_mul_rot {n} (t : translation K n) (r : rotation K n) : isometry K n :=
  iso_from_parts t r.
Definition iso_mul_tr {n} (f : isometry K n) (t : translation K n) : isometry K n :=
  let new_vector := vadd (iso_translation f) (rot_apply_vector (iso_rotation f) t) in
  iso_from_parts (tr_from_vector new_vector) (iso_rotation f).
Definition tr_mul_iso {n} (t : translation K n) (f : isometry K n) : isometry K n :=
  iso_from_parts (tr_mul t (iso_translation f)) (iso_rotation f).
Definition iso_mul_rot {n} (f : isometry K n) (r : rotation K n) : isometry K n :=
  iso_from_parts (iso_translation f) (rot_mul (iso_rotation f) r).
Definition rot_mul_iso {n} (r : rotation K n) (f : isometry K n) : isometry K n :=
  let shift := rot_apply_vector r (iso_translation f) in
  iso_from_parts (tr_from_vector shift) (rot_mul r (iso_rotation f)).

(** ** Similarity (similarity.rs) *)

(** 113 [from_parts], 169 [from_rotation], 207 [from_scale], 253 [from_translation],
    315 [from_isometry], 504 [identity]. *)
Definition sim_from_parts {n} (t : translation K n) (r : rotation K n) (s : K) : similarity K n :=
  mkSimilarity (iso_from_parts t r) s.
Definition sim_from_rotation {n} (r : rotation K n) : similarity K n :=
  mkSimilarity (iso_from_rotation r) 1.
Definition sim_from_scale (n : nat) (s : K) : similarity K n := mkSimilarity (iso_identity n) s.
Definition sim_from_translation {n} (t : translation K n) : similarity K n :=
  mkSimilarity (iso_from_translation t) 1.
Definition sim_from_isometry {n} (f : isometry K n) : similarity K n := mkSimilarity f 1.
Definition sim_identity (n : nat) : similarity K n := mkSimilarity (iso_identity n) 1.

(** 859 [apply_point], 929 [apply_vector]. *)
Definition sim_apply_point {n} (f : similarity K n) (p : point K n) : point K n :=
  iso_apply_point (sim_isometry f) (pmul_s p (sim_scale f)).
Definition sim_apply_vector {n} (f : similarity K n) (v : vec K n) : vec K n :=
  iso_apply_vector (sim_isometry f) (vmul_s v (sim_scale f)).

(** 1015-1027 [to_affine_matrix] ([scale_mut] is [matrix.rs] 1977, entrywise product),
    1094 [to_transform]. *)
Definition sim_to_affine_matrix {n} (f : similarity K n) : mat K (S n) (S n) :=
  let rotation := mmul_s (iso_rotation (sim_isometry f)) (sim_scale f) in
  for_range n (fun i result => mset result n i (vat (iso_translation (sim_isometry f)) i))
    (membed rotation : mat K (S n) (S n)).
Definition sim_to_transform {n} (f : similarity K n) : transform K n :=
  tf_from_matrix (sim_to_affine_matrix f).

(** 1244-1250 [Similarity * Isometry], 1312-1317 [Similarity * Similarity]. *)
Definition sim_mul_iso {n} (f : similarity K n) (g : isometry K n) : similarity K n :=
  let shift := vmul_s (rot_apply_vector (iso_rotation (sim_isometry f)) (iso_translation g))
                      (sim_scale f) in
  let translation := tr_from_vector (vadd (iso_translation (sim_isometry f)) shift) in
  let rotation := rot_mul (iso_rotation (sim_isometry f)) (iso_rotation g) in
  sim_from_parts translation rotation (sim_scale f).
Definition sim_mul {n} (f g : similarity K n) : similarity K n :=
  let result := sim_mul_iso f (sim_isometry g) in
  mkSimilarity (sim_isometry result) (sim_scale result * sim_scale g).

(** ** Operations that divide *)
Context `{ND : NumDiv K}.

(** transform.rs 361-363 [apply_point]: [unwrap] panics (None) when the weight is zero. *)
Definition tf_apply_point {n} (f : transform K n) (p : point K n) : option (point K n) :=
  pfrom_homogeneous (mmulv f (pto_homogeneous p)).

(** transform.rs 643, 763 [try_inverse]; 673, 794 [inverse] (None is a panic);
    702, 731, 825, 856 [inverse_apply_vector/point].  The outer option of [inverse_apply_point] is
    the function's [Option]; the inner None is the panic inside [apply_point]. *)
Definition tf2try_inverse (f : transform K 2) : option (transform K 2) := m3try_inverse f.
Definition tf3try_inverse (f : transform K 3) : option (transform K 3) := m4try_inverse f.
Definition tf2inverse (f : transform K 2) : option (transform K 2) := tf2try_inverse f.
Definition tf3inverse (f : transform K 3) : option (transform K 3) := tf3try_inverse f.
Definition tf2inverse_apply_vector (f : transform K 2) (v : vec K 2) : option (vec K 2) :=
  option_map (fun g => tf_apply_vector g v) (tf2try_inverse f).
Definition tf3inverse_apply_vector (f : transform K 3) (v : vec K 3) : option (vec K 3) :=
  option_map (fun g => tf_apply_vector g v) (tf3try_inverse f).
Definition tf2inverse_apply_point (f : transform K 2) (p : point K 2) : option (option (point K 2)) :=
  option_map (fun g => tf_apply_point g p) (tf2try_inverse f).
Definition tf3inverse_apply_point (f : transform K 3) (p : point K 3) : option (option (point K 3)) :=
  option_map (fun g => tf_apply_point g p) (tf3try_inverse f).

(** scale.rs 393-400 [inverse], 442-450 [inverse_apply_vector], 498-506 [inverse_apply_point]. *)
Definition sc_inverse {n} (s : scale K n) : scale K n :=
  for_range n (fun i result => vset result i (1 / vat s i)) (vzero n).
Definition sc_inverse_apply_vector {n} (s : scale K n) (v : vec K n) : vec K n :=
  for_range n (fun i result => vset result i (vat v i / vat s i)) (vzero n).
Definition sc_inverse_apply_point {n} (s : scale K n) (p : point K n) : point K n :=
  for_range n (fun i result => vset result i (vat p i / vat s i)) (porigin n : vec K n).

(** similarity.rs 653-657 [inverse_mut], 580 [inverse], 723 [inverse_apply_point],
    790 [inverse_apply_vector]. *)
Definition sim_inverse_mut {n} (f : similarity K n) : option (similarity K n) :=
  let scale := 1 / sim_scale f in
  match iso_inverse_mut (sim_isometry f) with
  | Some g => Some (mkSimilarity (mkIsometry (vmul_assign (iso_translation g) scale) (iso_rotation g)) scale)
  | None => None
  end.
Definition sim_inverse {n} (f : similarity K n) : option (similarity K n) := sim_inverse_mut f.
Definition sim_inverse_apply_point {n} (f : similarity K n) (p : point K n) : point K n :=
  pdiv_s (iso_inverse_apply_point (sim_isometry f) p) (sim_scale f).
Definition sim_inverse_apply_vector {n} (f : similarity K n) (v : vec K n) : vec K n :=
  vdiv_s (iso_inverse_apply_vector (sim_isometry f) v) (sim_scale f).

End Ring.

Local Open Scope R_scope.

(** ** Floating-point parts, over R *)

(** shear.rs 1372-1377, 1887-1892 [to_affine_matrix]: [Unit::from_value] normalizes direction and
    normal; 1411, 1927 [to_transform]; 1443, 1959 [Mul]. *)
Definition sh2to_affine_matrix (f : shear R 2) : mat R 3 3 :=
  let direction := unit_from_value (normed_vec 2) (sh_direction f) in
  let normal := unit_from_value (normed_vec 2) (sh_normal f) in
  m3from_affine_shear (sh_factor f) (sh_origin f) direction normal.
Definition sh3to_affine_matrix (f : shear R 3) : mat R 4 4 :=
  let direction := unit_from_value (normed_vec 3) (sh_direction f) in
  let normal := unit_from_value (normed_vec 3) (sh_normal f) in
  m4from_affine_shear (sh_factor f) (sh_origin f) direction normal.
Definition sh2to_transform (f : shear R 2) : transform R 2 := tf_from_matrix (sh2to_affine_matrix f).
Definition sh3to_transform (f : shear R 3) : transform R 3 := tf_from_matrix (sh3to_affine_matrix f).
Definition sh2mul (f g : shear R 2) : transform R 2 := tf_mul (sh2to_transform f) (sh2to_transform g).
Definition sh3mul (f g : shear R 3) : transform R 3 := tf_mul (sh3to_transform f) (sh3to_transform g).

(** rotation.rs 857 [Rotation2::angle], 884 [from_angle], 916-923 [rotation_between_axis],
    947-953 [rotation_between]. *)
Definition rot2angle (r : rotation R 2) : R := ratan2 (mget r 0 1) (mget r 0 0).
Definition rot2from_angle (angle : R) : rotation R 2 := m2from_angle angle.
Definition rot2rotation_between_axis (a b : vec R 2) : rotation R 2 :=
  let cos_angle := vdot a b in
  let sin_angle := vat a 0 * vat b 1 - vat a 1 * vat b 0 in
  rot2from_angle (ratan2 sin_angle cos_angle).
Definition rot2rotation_between (a b : vec R 2) : rotation R 2 :=
  match unit_try_from_value (normed_vec 2) a 0, unit_try_from_value (normed_vec 2) b 0 with
  | Some unit_a, Some unit_b => rot2rotation_between_axis unit_a unit_b
  | _, _ => rot_identity 2
  end.

(** rotation.rs 978-983 [Rotation3::angle], 1029-1037 [axis] (threshold: machine epsilon),
    1064 [axis_angle]. *)
Definition rot3angle (r : rotation R 3) : R :=
  let trace_self := mget r 0 0 + mget r 1 1 + mget r 2 2 in
  acos ((trace_self - 1) / 2).
Definition rot3axis_eps (r : rotation R 3) (threshold : R) : option (vec R 3) :=
  let axis := v3 (mget r 1 2 - mget r 2 1) (mget r 2 0 - mget r 0 2) (mget r 0 1 - mget r 1 0) in
  unit_try_from_value (normed_vec 3) axis threshold.
Definition rot3axis_angle_eps (r : rotation R 3) (threshold : R) : option (vec R 3 * R) :=
  option_map (fun axis => (axis, rot3angle r)) (rot3axis_eps r threshold).

(** rotation.rs 1092 [from_quaternion], 1130 [from_axis_angle], 1163, 1194, 1225 [from_angle_x/y/z],
    1566 [rotation_between], 1593 [rotation_between_axis] (threshold: machine epsilon). *)
Definition rot3from_quaternion (q : quat R) : rotation R 3 := qto_matrix q.
Definition rot3from_axis_angle (axis : vec R 3) (angle : R) : rotation R 3 := m3from_axis_angle axis angle.
Definition rot3from_angle_x (angle : R) : rotation R 3 := rot3from_axis_angle v3_unit_x angle.
Definition rot3from_angle_y (angle : R) : rotation R 3 := rot3from_axis_angle v3_unit_y angle.
Definition rot3from_angle_z (angle : R) : rotation R 3 := rot3from_axis_angle v3_unit_z angle.
Definition rot3rotation_between_eps (v1 v2 : vec R 3) (threshold : R) : option (rotation R 3) :=
  option_map rot3from_quaternion (qrotation_between_eps v1 v2 threshold).
Definition rot3rotation_between_axis_eps (v1 v2 : vec R 3) (threshold : R) : option (rotation R 3) :=
  option_map rot3from_quaternion (qrotation_between_axis_eps v1 v2 threshold).

(** rotation.rs 1264-1538 [look_to/look_at_lh/rh] and the [_inv] versions: the [Matrix3x3] ones. *)
Definition rot3look_to_lh (direction up : vec R 3) : rotation R 3 := m3look_to_lh direction up.
Definition rot3look_to_rh (direction up : vec R 3) : rotation R 3 := m3look_to_rh direction up.
Definition rot3look_at_lh (eye target : point R 3) (up : vec R 3) : rotation R 3 := m3look_at_lh eye target up.
Definition rot3look_at_rh (eye target : point R 3) (up : vec R 3) : rotation R 3 := m3look_at_rh eye target up.
Definition rot3look_to_lh_inv (direction up : vec R 3) : rotation R 3 := m3look_to_lh_inv direction up.
Definition rot3look_to_rh_inv (direction up : vec R 3) : rotation R 3 := m3look_to_rh_inv direction up.
Definition rot3look_at_lh_inv (eye target : point R 3) (up : vec R 3) : rotation R 3 :=
  m3look_at_lh_inv eye target up.
Definition rot3look_at_rh_inv (eye target : point R 3) (up : vec R 3) : rotation R 3 :=
  m3look_at_rh_inv eye target up.

(** rotation.rs 1644 [from_euler_angles], 1837-1853 [euler_angles]. *)
Definition rot3from_euler_angles (e : euler) : rotation R 3 := euler_to_matrix e.
Definition rot3euler_angles (r : rotation R 3) : euler :=
  let yaw := asin (mget r 2 0) in
  let cos_yaw := cos yaw in
  if Req_EM_T (Rabs cos_yaw) 0 then mkEuler (ratan2 (mget r 1 2) (mget r 1 1)) yaw 0
  else mkEuler (ratan2 (- mget r 2 1) (mget r 2 2)) yaw (ratan2 (- mget r 1 0) (mget r 0 0)).

(** rotation.rs 1876-1905 [From<Rotation3> for Quaternion]. *)
Definition rot3to_quaternion (r : rotation R 3) : quat R := qfrom_matrix r.

(** isometry.rs 1066 [Isometry2::from_angle_translation], 1094 [from_angle],
    1127-1134 [rotation_between_axis], 1158-1164 [rotation_between]. *)
Definition iso2from_angle_translation (angle : R) (distance : vec R 2) : isometry R 2 :=
  mkIsometry (tr_from_vector distance) (rot2from_angle angle).
Definition iso2from_angle (angle : R) : isometry R 2 :=
  iso_from_parts (tr_identity 2) (rot2from_angle angle).
Definition iso2rotation_between_axis (a b : vec R 2) : isometry R 2 :=
  let cos_angle := vdot a b in
  let sin_angle := vat a 0 * vat b 1 - vat a 1 * vat b 0 in
  iso2from_angle (ratan2 sin_angle cos_angle).
Definition iso2rotation_between (a b : vec R 2) : isometry R 2 :=
  match unit_try_from_value (normed_vec 2) a 0, unit_try_from_value (normed_vec 2) b 0 with
  | Some unit_a, Some unit_b => iso2rotation_between_axis unit_a unit_b
  | _, _ => iso_identity 2
  end.

(** isometry.rs 1199 [Isometry3::from_axis_angle_translation], 1234 [from_axis_angle],
    1264, 1294, 1324 [from_angle_x/y/z], 1390-1395 [rotation_between_axis],
    1356-1365 [rotation_between] (thresholds: machine epsilon). *)
Definition iso3from_axis_angle_translation (axis : vec R 3) (angle : R) (distance : vec R 3)
  : isometry R 3 := mkIsometry (tr_from_vector distance) (rot3from_axis_angle axis angle).
Definition iso3from_axis_angle (axis : vec R 3) (angle : R) : isometry R 3 :=
  iso_from_parts (tr_identity 3) (rot3from_axis_angle axis angle).
Definition iso3from_angle_x (angle : R) : isometry R 3 :=
  iso_from_parts (tr_identity 3) (rot3from_angle_x angle).
Definition iso3from_angle_y (angle : R) : isometry R 3 :=
  iso_from_parts (tr_identity 3) (rot3from_angle_y angle).
Definition iso3from_angle_z (angle : R) : isometry R 3 :=
  iso_from_parts (tr_identity 3) (rot3from_angle_z angle).
Definition iso3rotation_between_axis_eps (v1 v2 : vec R 3) (threshold : R) : option (isometry R 3) :=
  option_map (fun rotation => iso_from_parts (tr_identity 3) rotation)
    (rot3rotation_between_axis_eps v1 v2 threshold).
Definition iso3rotation_between_eps (v1 v2 : vec R 3) (threshold : R) : option (isometry R 3) :=
  match unit_try_from_value (normed_vec 3) v1 threshold,
        unit_try_from_value (normed_vec 3) v2 threshold with
  | Some u1, Some u2 => iso3rotation_between_axis_eps u1 u2 threshold
  | _, _ => None
  end.

(** isometry.rs 1440-1774: the eight viewing isometries have this body with their own rotation:
    [vector = rotation * (-eye) - Point3::origin()]. *)
Definition iso3view (eye : point R 3) (rotation : rotation R 3) : isometry R 3 :=
  let vector := pdiff (rot_apply_point rotation (pneg eye)) (porigin 3) in
  iso_from_parts (tr_from_vector vector) rotation.
Definition iso3look_to_lh (eye : point R 3) (direction up : vec R 3) : isometry R 3 :=
  iso3view eye (rot3look_to_lh direction up).
Definition iso3look_to_rh (eye : point R 3) (direction up : vec R 3) : isometry R 3 :=
  iso3view eye (rot3look_to_rh direction up).
Definition iso3look_at_lh (eye target : point R 3) (up : vec R 3) : isometry R 3 :=
  iso3view eye (rot3look_at_lh eye target up).
Definition iso3look_at_rh (eye target : point R 3) (up : vec R 3) : isometry R 3 :=
  iso3view eye (rot3look_at_rh eye target up).
Definition iso3look_to_lh_inv (eye : point R 3) (direction up : vec R 3) : isometry R 3 :=
  iso3view eye (rot3look_to_lh_inv direction up).
Definition iso3look_to_rh_inv (eye : point R 3) (direction up : vec R 3) : isometry R 3 :=
  iso3view eye (rot3look_to_rh_inv direction up).
Definition iso3look_at_lh_inv (eye target : point R 3) (up : vec R 3) : isometry R 3 :=
  iso3view eye (rot3look_at_lh_inv eye target up).
Definition iso3look_at_rh_inv (eye target : point R 3) (up : vec R 3) : isometry R 3 :=
  iso3view eye (rot3look_at_rh_inv eye target up).

(** similarity.rs 1488-1814: the isometry versions wrapped by [from_isometry]. *)
Definition sim3look_to_lh eye direction up := sim_from_isometry (iso3look_to_lh eye direction up).
Definition sim3look_to_rh eye direction up := sim_from_isometry (iso3look_to_rh eye direction up).
Definition sim3look_at_lh eye target up := sim_from_isometry (iso3look_at_lh eye target up).
Definition sim3look_at_rh eye target up := sim_from_isometry (iso3look_at_rh eye target up).
Definition sim3look_to_lh_inv eye direction up := sim_from_isometry (iso3look_to_lh_inv eye direction up).
Definition sim3look_to_rh_inv eye direction up := sim_from_isometry (iso3look_to_rh_inv eye direction up).
Definition sim3look_at_lh_inv eye target up := sim_from_isometry (iso3look_at_lh_inv eye target up).
Definition sim3look_at_rh_inv eye target up := sim_from_isometry (iso3look_at_rh_inv eye target up).

(** matrix.rs [AbsDiffEq]/[AbsDiffAllEq] for matrices: entrywise [abs_diff_eq]. *)
Definition mabs_diff_eq {r c} (a b t : mat R r c) : bool :=
  mcmp_all (fun x y tol => rabs_diff_eq x y tol) 0 0 a b t.
Definition mabs_diff_all_eq {r c} (a b : mat R r c) (t : R) : bool :=
  mcmp_all (fun x y tol => rabs_diff_eq x y tol) 0 0 a b (vfill c (vfill r t)).

(** isometry.rs 1819-1827 [abs_diff_eq] (its tolerance is an isometry of tolerances);
    1837-1842 [abs_diff_all_eq]: compares the rotation matrices only. *)
Definition iso_abs_diff_eq {n} (f g t : isometry R n) : bool :=
  andb (mabs_diff_eq (iso_rotation f) (iso_rotation g) (iso_rotation t))
       (vabs_diff_eq (iso_translation f) (iso_translation g) (iso_translation t)).
Definition iso_abs_diff_all_eq {n} (f g : isometry R n) (t : R) : bool :=
  mabs_diff_all_eq (iso_rotation f) (iso_rotation g) t.

(** similarity.rs 1864-1875 [abs_diff_eq], 1885-1896 [abs_diff_all_eq]: rotation, translation and
    scale. *)
Definition sim_abs_diff_eq {n} (f g t : similarity R n) : bool :=
  andb (andb (mabs_diff_eq (iso_rotation (sim_isometry f)) (iso_rotation (sim_isometry g))
                (iso_rotation (sim_isometry t)))
             (vabs_diff_eq (iso_translation (sim_isometry f)) (iso_translation (sim_isometry g))
                (iso_translation (sim_isometry t))))
       (rabs_diff_eq (sim_scale f) (sim_scale g) (sim_scale t)).
Definition sim_abs_diff_all_eq {n} (f g : similarity R n) (t : R) : bool :=
  andb (andb (mabs_diff_all_eq (iso_rotation (sim_isometry f)) (iso_rotation (sim_isometry g)) t)
             (vabs_diff_all_eq (iso_translation (sim_isometry f)) (iso_translation (sim_isometry g)) t))
       (rabs_diff_eq (sim_scale f) (sim_scale g) t).
