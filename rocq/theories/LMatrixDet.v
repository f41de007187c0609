(** Proofs about fixed-size matrices: determinants, inverses, shears, reflections. *)

From Coq Require Import List Arith Lia Bool Ring Setoid.
From Verif Require Import Base Scalar Spec LBase MVector LVector MMatrix LMatrix.
Import ListNotations.
Local Open Scope nat_scope.

Ltac destruct2 u := let x := fresh "x" in let y := fresh "y" in destruct u as [x [y []]].
Ltac destruct4 u := let x := fresh "x" in let y := fresh "y" in let z := fresh "z" in
  let w := fresh "w" in destruct u as [x [y [z [w []]]]].
Ltac mdestruct1 m := destruct m as [[?m00 []] []].
Ltac mdestruct2 m := destruct m as [[?m00 [?m01 []]] [[?m10 [?m11 []]] []]].
Ltac mdestruct3 m :=
  destruct m as [[?m00 [?m01 [?m02 []]]] [[?m10 [?m11 [?m12 []]]] [[?m20 [?m21 [?m22 []]]] []]]].
Ltac mdestruct4 m :=
  destruct m as [[?m00 [?m01 [?m02 [?m03 []]]]] [[?m10 [?m11 [?m12 [?m13 []]]]]
    [[?m20 [?m21 [?m22 [?m23 []]]]] [[?m30 [?m31 [?m32 [?m33 []]]]] []]]]].

(** Evaluate the matrix model at concrete dimensions. *)
Ltac mcompute := cbv [
  vat vget vset vfill vmap for_range fold_left seq fst snd v1 v2 v3 v4
  vzero vfrom_fill vdot vcmul vneg_mut vnorm_squared vadd vsub vneg vmul_s
  s_mul_v vlerp vextend vto_homogeneous vcontract vcross vtriple v3_from_v4
  v3_unit_x v3_unit_y v3_unit_z v2_unit_x v2_unit_y v4_unit_x v4_unit_y v4_unit_z v4_unit_w
  Nat.sub mget mget_d mset mset_d mcol mloop mzero mfrom_fill mtranspose mcmul mdot mtr_mul
  mtr_dot madd msub mneg mmul_s s_mul_m dot_array_col mmulv mmul mlerp midentity
  mfrom_diagonal mtrace mnorm_squared mfrom_scale mfrom_nonuniform_scale mfrom_affine_scale
  mfrom_affine_nonuniform_scale mfrom_affine_translation membed m1new m2new m3new m4new
  m1det m2det m3det m4det m2shear_xy m2shear_yx m2from_shear m3shear_xy m3shear_xz m3shear_yx
  m3shear_yz m3shear_zx m3shear_zy m3from_shear m3affine_shear_xy m3affine_shear_yx
  m3from_affine_shear m4affine_shear_xy m4affine_shear_xz m4affine_shear_yx m4affine_shear_yz
  m4affine_shear_zx m4affine_shear_zy m4from_affine_shear m2from_reflection
  m3from_affine_reflection m3from_reflection m4from_affine_reflection m3cross_matrix
  ].

Section Det.
Context {K : Type} {NK : Num K} {LK : RingLaws K}.
Local Open Scope num_scope.
Add Ring Kring : (@ring_laws K NK LK).

Definition ent {r c} (m : mat K r c) : nat -> nat -> K := fun i j => mget m j i.

Ltac lap := unfold ent; cbv [laplace sum minor sgn Nat.ltb Nat.leb]; mcompute; ring.

Lemma m1det_laplace (m : mat K 1 1) : m1det m = laplace 1 (fun i j => mget m j i).
Proof. mdestruct1 m. lap. Qed.
Lemma m2det_laplace (m : mat K 2 2) : m2det m = laplace 2 (fun i j => mget m j i).
Proof. mdestruct2 m. lap. Qed.
Lemma m3det_laplace (m : mat K 3 3) : m3det m = laplace 3 (fun i j => mget m j i).
Proof. mdestruct3 m. lap. Qed.
Lemma m4det_laplace (m : mat K 4 4) : m4det m = laplace 4 (fun i j => mget m j i).
Proof. mdestruct4 m. lap. Qed.

Lemma m1det_mul (a b : mat K 1 1) : m1det (mmul a b) = m1det a * m1det b.
Proof. mdestruct1 a; mdestruct1 b. mcompute. ring. Qed.
Lemma m2det_mul (a b : mat K 2 2) : m2det (mmul a b) = m2det a * m2det b.
Proof. mdestruct2 a; mdestruct2 b. mcompute. ring. Qed.
Lemma m3det_mul (a b : mat K 3 3) : m3det (mmul a b) = m3det a * m3det b.
Proof. mdestruct3 a; mdestruct3 b. mcompute. ring. Qed.
Lemma m4det_mul (a b : mat K 4 4) : m4det (mmul a b) = m4det a * m4det b.
Proof. mdestruct4 a; mdestruct4 b. mcompute. ring. Qed.

Lemma m1det_transpose (m : mat K 1 1) : m1det (mtranspose m) = m1det m.
Proof. mdestruct1 m. mcompute. ring. Qed.
Lemma m2det_transpose (m : mat K 2 2) : m2det (mtranspose m) = m2det m.
Proof. mdestruct2 m. mcompute. ring. Qed.
Lemma m3det_transpose (m : mat K 3 3) : m3det (mtranspose m) = m3det m.
Proof. mdestruct3 m. mcompute. ring. Qed.
Lemma m4det_transpose (m : mat K 4 4) : m4det (mtranspose m) = m4det m.
Proof. mdestruct4 m. mcompute. ring. Qed.

Lemma m1det_identity : m1det (midentity 1) = (1 : K).
Proof. mcompute. ring. Qed.
Lemma m2det_identity : m2det (midentity 2) = (1 : K).
Proof. mcompute. ring. Qed.
Lemma m3det_identity : m3det (midentity 3) = (1 : K).
Proof. mcompute. ring. Qed.
Lemma m4det_identity : m4det (midentity 4) = (1 : K).
Proof. mcompute. ring. Qed.

Lemma m1det_mul_s (m : mat K 1 1) s : m1det (mmul_s m s) = npow s 1 * m1det m.
Proof. mdestruct1 m. mcompute. cbn [npow]. ring. Qed.
Lemma m2det_mul_s (m : mat K 2 2) s : m2det (mmul_s m s) = npow s 2 * m2det m.
Proof. mdestruct2 m. mcompute. cbn [npow]. ring. Qed.
Lemma m3det_mul_s (m : mat K 3 3) s : m3det (mmul_s m s) = npow s 3 * m3det m.
Proof. mdestruct3 m. mcompute. cbn [npow]. ring. Qed.
Lemma m4det_mul_s (m : mat K 4 4) s : m4det (mmul_s m s) = npow s 4 * m4det m.
Proof. mdestruct4 m. mcompute. cbn [npow]. ring. Qed.

(** Alternating in the columns: swapping two columns negates. *)
Ltac swap_case := cbv [mswap_columns vswap vindex]; mcompute;
  let E := fresh in intros E; injection E as <-; mcompute; ring.
Lemma m2det_swap (m m' : mat K 2 2) a b :
  (a < 2)%nat -> (b < 2)%nat -> a <> b -> mswap_columns m a b = Some m' -> m2det m' = - m2det m.
Proof.
  intros Ha Hb Hne. mdestruct2 m.
  destruct a as [|[|]]; try lia; destruct b as [|[|]]; try lia; swap_case.
Qed.
Lemma m3det_swap (m m' : mat K 3 3) a b :
  (a < 3)%nat -> (b < 3)%nat -> a <> b -> mswap_columns m a b = Some m' -> m3det m' = - m3det m.
Proof.
  intros Ha Hb Hne. mdestruct3 m.
  destruct a as [|[|[|]]]; try lia; destruct b as [|[|[|]]]; try lia; swap_case.
Qed.
Lemma m4det_swap (m m' : mat K 4 4) a b :
  (a < 4)%nat -> (b < 4)%nat -> a <> b -> mswap_columns m a b = Some m' -> m4det m' = - m4det m.
Proof.
  intros Ha Hb Hne. mdestruct4 m.
  destruct a as [|[|[|[|]]]]; try lia; destruct b as [|[|[|[|]]]]; try lia; swap_case.
Qed.

(** Zero when two columns coincide. *)
Ltac eqcol := mcompute;
  let E := fresh in intros E; injection E; intros; subst; ring.
Lemma m2det_eqcol (m : mat K 2 2) a b :
  (a < 2)%nat -> (b < 2)%nat -> a <> b -> mcol m a = mcol m b -> m2det m = 0.
Proof.
  intros Ha Hb Hne. mdestruct2 m.
  destruct a as [|[|]]; try lia; destruct b as [|[|]]; try lia; eqcol.
Qed.
Lemma m3det_eqcol (m : mat K 3 3) a b :
  (a < 3)%nat -> (b < 3)%nat -> a <> b -> mcol m a = mcol m b -> m3det m = 0.
Proof.
  intros Ha Hb Hne. mdestruct3 m.
  destruct a as [|[|[|]]]; try lia; destruct b as [|[|[|]]]; try lia; eqcol.
Qed.
Lemma m4det_eqcol (m : mat K 4 4) a b :
  (a < 4)%nat -> (b < 4)%nat -> a <> b -> mcol m a = mcol m b -> m4det m = 0.
Proof.
  intros Ha Hb Hne. mdestruct4 m.
  destruct a as [|[|[|[|]]]]; try lia; destruct b as [|[|[|[|]]]]; try lia; eqcol.
Qed.

(** Linear in each column. *)
Lemma m2det_col_linear (m : mat K 2 2) k u v s :
  (k < 2)%nat ->
  m2det (vset m k (vadd u (vmul_s v s))) = m2det (vset m k u) + s * m2det (vset m k v).
Proof.
  intros Hk. mdestruct2 m. destruct2 u; destruct2 v.
  destruct k as [|[|]]; try lia; mcompute; ring.
Qed.
Lemma m3det_col_linear (m : mat K 3 3) k u v s :
  (k < 3)%nat ->
  m3det (vset m k (vadd u (vmul_s v s))) = m3det (vset m k u) + s * m3det (vset m k v).
Proof.
  intros Hk. mdestruct3 m. destruct3 u; destruct3 v.
  destruct k as [|[|[|]]]; try lia; mcompute; ring.
Qed.
Lemma m4det_col_linear (m : mat K 4 4) k u v s :
  (k < 4)%nat ->
  m4det (vset m k (vadd u (vmul_s v s))) = m4det (vset m k u) + s * m4det (vset m k v).
Proof.
  intros Hk. mdestruct4 m. destruct4 u; destruct4 v.
  destruct k as [|[|[|[|]]]]; try lia; mcompute; ring.
Qed.

(** Embedding preserves the determinant. *)
Lemma membed_det12 (m : mat K 1 1) : m2det (membed m) = m1det m.
Proof. mdestruct1 m. mcompute. ring. Qed.
Lemma membed_det13 (m : mat K 1 1) : m3det (membed m) = m1det m.
Proof. mdestruct1 m. mcompute. ring. Qed.
Lemma membed_det14 (m : mat K 1 1) : m4det (membed m) = m1det m.
Proof. mdestruct1 m. mcompute. ring. Qed.
Lemma membed_det23 (m : mat K 2 2) : m3det (membed m) = m2det m.
Proof. mdestruct2 m. mcompute. ring. Qed.
Lemma membed_det24 (m : mat K 2 2) : m4det (membed m) = m2det m.
Proof. mdestruct2 m. mcompute. ring. Qed.
Lemma membed_det34 (m : mat K 3 3) : m4det (membed m) = m3det m.
Proof. mdestruct3 m. mcompute. ring. Qed.

(** Triple product as determinant. *)
Lemma vtriple_det (u v w : vec K 3) : vtriple u v w = m3det (mfrom_columns (v3 u v w)).
Proof. destruct3 u; destruct3 v; destruct3 w. unfold mfrom_columns. mcompute. ring. Qed.

(** ** Shears *)
Ltac act := mcompute; pairs ltac:(ring).

Lemma m2shear_xy_act s (v : vec K 2) :
  mmulv (m2shear_xy s) v = v2 (vat v 0 + s * vat v 1) (vat v 1).
Proof. destruct2 v. act. Qed.
Lemma m2shear_yx_act s (v : vec K 2) :
  mmulv (m2shear_yx s) v = v2 (vat v 0) (vat v 1 + s * vat v 0).
Proof. destruct2 v. act. Qed.
Lemma m3shear_xy_act s (v : vec K 3) :
  mmulv (m3shear_xy s) v = v3 (vat v 0 + s * vat v 1) (vat v 1) (vat v 2).
Proof. destruct3 v. act. Qed.
Lemma m3shear_xz_act s (v : vec K 3) :
  mmulv (m3shear_xz s) v = v3 (vat v 0 + s * vat v 2) (vat v 1) (vat v 2).
Proof. destruct3 v. act. Qed.
Lemma m3shear_yx_act s (v : vec K 3) :
  mmulv (m3shear_yx s) v = v3 (vat v 0) (vat v 1 + s * vat v 0) (vat v 2).
Proof. destruct3 v. act. Qed.
Lemma m3shear_yz_act s (v : vec K 3) :
  mmulv (m3shear_yz s) v = v3 (vat v 0) (vat v 1 + s * vat v 2) (vat v 2).
Proof. destruct3 v. act. Qed.
Lemma m3shear_zx_act s (v : vec K 3) :
  mmulv (m3shear_zx s) v = v3 (vat v 0) (vat v 1) (vat v 2 + s * vat v 0).
Proof. destruct3 v. act. Qed.
Lemma m3shear_zy_act s (v : vec K 3) :
  mmulv (m3shear_zy s) v = v3 (vat v 0) (vat v 1) (vat v 2 + s * vat v 1).
Proof. destruct3 v. act. Qed.

Lemma m3affine_shear_xy_act s (v : vec K 2) w :
  mmulv (m3affine_shear_xy s) (vextend v w) = vextend (v2 (vat v 0 + s * vat v 1) (vat v 1)) w.
Proof. destruct2 v. act. Qed.
Lemma m3affine_shear_yx_act s (v : vec K 2) w :
  mmulv (m3affine_shear_yx s) (vextend v w) = vextend (v2 (vat v 0) (vat v 1 + s * vat v 0)) w.
Proof. destruct2 v. act. Qed.
Lemma m4affine_shear_xy_act s (v : vec K 3) w :
  mmulv (m4affine_shear_xy s) (vextend v w) =
  vextend (v3 (vat v 0 + s * vat v 1) (vat v 1) (vat v 2)) w.
Proof. destruct3 v. act. Qed.
Lemma m4affine_shear_xz_act s (v : vec K 3) w :
  mmulv (m4affine_shear_xz s) (vextend v w) =
  vextend (v3 (vat v 0 + s * vat v 2) (vat v 1) (vat v 2)) w.
Proof. destruct3 v. act. Qed.
Lemma m4affine_shear_yx_act s (v : vec K 3) w :
  mmulv (m4affine_shear_yx s) (vextend v w) =
  vextend (v3 (vat v 0) (vat v 1 + s * vat v 0) (vat v 2)) w.
Proof. destruct3 v. act. Qed.
Lemma m4affine_shear_yz_act s (v : vec K 3) w :
  mmulv (m4affine_shear_yz s) (vextend v w) =
  vextend (v3 (vat v 0) (vat v 1 + s * vat v 2) (vat v 2)) w.
Proof. destruct3 v. act. Qed.
Lemma m4affine_shear_zx_act s (v : vec K 3) w :
  mmulv (m4affine_shear_zx s) (vextend v w) =
  vextend (v3 (vat v 0) (vat v 1) (vat v 2 + s * vat v 0)) w.
Proof. destruct3 v. act. Qed.
Lemma m4affine_shear_zy_act s (v : vec K 3) w :
  mmulv (m4affine_shear_zy s) (vextend v w) =
  vextend (v3 (vat v 0) (vat v 1) (vat v 2 + s * vat v 1)) w.
Proof. destruct3 v. act. Qed.

Lemma shear_dets s :
  m2det (m2shear_xy s) = 1 /\ m2det (m2shear_yx s) = 1 /\
  m3det (m3shear_xy s) = 1 /\ m3det (m3shear_xz s) = 1 /\ m3det (m3shear_yx s) = 1 /\
  m3det (m3shear_yz s) = 1 /\ m3det (m3shear_zx s) = 1 /\ m3det (m3shear_zy s) = 1 /\
  m3det (m3affine_shear_xy s) = 1 /\ m3det (m3affine_shear_yx s) = 1 /\
  m4det (m4affine_shear_xy s) = 1 /\ m4det (m4affine_shear_xz s) = 1 /\
  m4det (m4affine_shear_yx s) = 1 /\ m4det (m4affine_shear_yz s) = 1 /\
  m4det (m4affine_shear_zx s) = 1 /\ m4det (m4affine_shear_zy s) = 1.
Proof. conjs; mcompute; ring. Qed.

Lemma shear_compose s t :
  mmul (m2shear_xy s) (m2shear_xy t) = m2shear_xy (s + t) /\
  mmul (m2shear_yx s) (m2shear_yx t) = m2shear_yx (s + t) /\
  mmul (m3shear_xy s) (m3shear_xy t) = m3shear_xy (s + t) /\
  mmul (m3shear_xz s) (m3shear_xz t) = m3shear_xz (s + t) /\
  mmul (m3shear_yx s) (m3shear_yx t) = m3shear_yx (s + t) /\
  mmul (m3shear_yz s) (m3shear_yz t) = m3shear_yz (s + t) /\
  mmul (m3shear_zx s) (m3shear_zx t) = m3shear_zx (s + t) /\
  mmul (m3shear_zy s) (m3shear_zy t) = m3shear_zy (s + t) /\
  mmul (m3affine_shear_xy s) (m3affine_shear_xy t) = m3affine_shear_xy (s + t) /\
  mmul (m3affine_shear_yx s) (m3affine_shear_yx t) = m3affine_shear_yx (s + t) /\
  mmul (m4affine_shear_xy s) (m4affine_shear_xy t) = m4affine_shear_xy (s + t) /\
  mmul (m4affine_shear_xz s) (m4affine_shear_xz t) = m4affine_shear_xz (s + t) /\
  mmul (m4affine_shear_yx s) (m4affine_shear_yx t) = m4affine_shear_yx (s + t) /\
  mmul (m4affine_shear_yz s) (m4affine_shear_yz t) = m4affine_shear_yz (s + t) /\
  mmul (m4affine_shear_zx s) (m4affine_shear_zx t) = m4affine_shear_zx (s + t) /\
  mmul (m4affine_shear_zy s) (m4affine_shear_zy t) = m4affine_shear_zy (s + t).
Proof. conjs; mcompute; pairs ltac:(ring). Qed.

Lemma m2from_shear_act s (d n v : vec K 2) :
  mmulv (m2from_shear s d n) v = vadd v (vmul_s d (s * vdot n v)).
Proof. destruct2 v; destruct2 d; destruct2 n. act. Qed.
Lemma m3from_shear_act s (d n v : vec K 3) :
  mmulv (m3from_shear s d n) v = vadd v (vmul_s d (s * vdot n v)).
Proof. destruct3 v; destruct3 d; destruct3 n. act. Qed.
Lemma m3from_affine_shear_act s (o d n v : vec K 2) w :
  mmulv (m3from_affine_shear s o d n) (vextend v w) =
  vextend (vadd v (vmul_s d (s * (vdot n v - vdot n o * w)))) w.
Proof. destruct2 v; destruct2 d; destruct2 n; destruct2 o. act. Qed.
Lemma m4from_affine_shear_act s (o d n v : vec K 3) w :
  mmulv (m4from_affine_shear s o d n) (vextend v w) =
  vextend (vadd v (vmul_s d (s * (vdot n v - vdot n o * w)))) w.
Proof. destruct3 v; destruct3 d; destruct3 n; destruct3 o. act. Qed.

Lemma m2from_shear_det s (d n : vec K 2) : m2det (m2from_shear s d n) = 1 + s * vdot d n.
Proof. destruct2 d; destruct2 n. mcompute. ring. Qed.
Lemma m3from_shear_det s (d n : vec K 3) : m3det (m3from_shear s d n) = 1 + s * vdot d n.
Proof. destruct3 d; destruct3 n. mcompute. ring. Qed.
Lemma m3from_affine_shear_det s (o d n : vec K 2) :
  m3det (m3from_affine_shear s o d n) = 1 + s * vdot d n.
Proof. destruct2 d; destruct2 n; destruct2 o. mcompute. ring. Qed.
Lemma m4from_affine_shear_det s (o d n : vec K 3) :
  m4det (m4from_affine_shear s o d n) = 1 + s * vdot d n.
Proof. destruct3 d; destruct3 n; destruct3 o. mcompute. ring. Qed.

Lemma shear_vec_compose m s t (d n v : vec K m) :
  vdot n d = 0 ->
  vadd (vadd v (vmul_s d (t * vdot n v)))
       (vmul_s d (s * vdot n (vadd v (vmul_s d (t * vdot n v))))) =
  vadd v (vmul_s d ((s + t) * vdot n v)).
Proof.
  intros H. rewrite vdot_add_r, vdot_mul_r, H. vext. ring.
Qed.

Lemma m2from_shear_compose s t (d n : vec K 2) :
  vdot n d = 0 ->
  mmul (m2from_shear s d n) (m2from_shear t d n) = m2from_shear (s + t) d n.
Proof.
  intros H. apply mmulv_ext. intros v. rewrite mmulv_mmulv, !m2from_shear_act.
  apply shear_vec_compose; auto.
Qed.
Lemma m3from_shear_compose s t (d n : vec K 3) :
  vdot n d = 0 ->
  mmul (m3from_shear s d n) (m3from_shear t d n) = m3from_shear (s + t) d n.
Proof.
  intros H. apply mmulv_ext. intros v. rewrite mmulv_mmulv, !m3from_shear_act.
  apply shear_vec_compose; auto.
Qed.

Lemma shear_affine_compose m s t (o d n v : vec K m) w :
  vdot n d = 0 ->
  vadd (vadd v (vmul_s d (t * (vdot n v - vdot n o * w))))
       (vmul_s d (s * (vdot n (vadd v (vmul_s d (t * (vdot n v - vdot n o * w))))
                       - vdot n o * w))) =
  vadd v (vmul_s d ((s + t) * (vdot n v - vdot n o * w))).
Proof.
  intros H. rewrite vdot_add_r, vdot_mul_r, H. vext. ring.
Qed.
Lemma m3from_affine_shear_compose s t (o d n : vec K 2) :
  vdot n d = 0 ->
  mmul (m3from_affine_shear s o d n) (m3from_affine_shear t o d n) =
  m3from_affine_shear (s + t) o d n.
Proof.
  intros H. apply mmulv_ext_h. intros v w. rewrite mmulv_mmulv, !m3from_affine_shear_act.
  f_equal. apply shear_affine_compose; auto.
Qed.
Lemma m4from_affine_shear_compose s t (o d n : vec K 3) :
  vdot n d = 0 ->
  mmul (m4from_affine_shear s o d n) (m4from_affine_shear t o d n) =
  m4from_affine_shear (s + t) o d n.
Proof.
  intros H. apply mmulv_ext_h. intros v w. rewrite mmulv_mmulv, !m4from_affine_shear_act.
  f_equal. apply shear_affine_compose; auto.
Qed.

(** ** Reflections *)
Lemma m2from_reflection_act (n v : vec K 2) :
  mmulv (m2from_reflection n) v = vsub v (vmul_s n ((1 + 1) * vdot v n)).
Proof. destruct2 n; destruct2 v. act. Qed.
Lemma m3from_reflection_act (n v : vec K 3) :
  mmulv (m3from_reflection n) v = vsub v (vmul_s n ((1 + 1) * vdot v n)).
Proof. destruct3 n; destruct3 v. act. Qed.
Lemma m3from_affine_reflection_act (n b v : vec K 2) w :
  mmulv (m3from_affine_reflection n b) (vextend v w) =
  vextend (vsub v (vmul_s n ((1 + 1) * (vdot v n - vdot b n * w)))) w.
Proof. destruct2 n; destruct2 v; destruct2 b. act. Qed.
Lemma m4from_affine_reflection_act (n b v : vec K 3) w :
  mmulv (m4from_affine_reflection n b) (vextend v w) =
  vextend (vsub v (vmul_s n ((1 + 1) * (vdot v n - vdot b n * w)))) w.
Proof. destruct3 n; destruct3 v; destruct3 b. act. Qed.

Lemma m2from_reflection_det (n : vec K 2) :
  m2det (m2from_reflection n) = 1 - (1 + 1) * vdot n n.
Proof. destruct2 n. mcompute. ring. Qed.
Lemma m3from_reflection_det (n : vec K 3) :
  m3det (m3from_reflection n) = 1 - (1 + 1) * vdot n n.
Proof. destruct3 n. mcompute. ring. Qed.
Lemma m3from_affine_reflection_det (n b : vec K 2) :
  m3det (m3from_affine_reflection n b) = 1 - (1 + 1) * vdot n n.
Proof. destruct2 n; destruct2 b. mcompute. ring. Qed.
Lemma m4from_affine_reflection_det (n b : vec K 3) :
  m4det (m4from_affine_reflection n b) = 1 - (1 + 1) * vdot n n.
Proof. destruct3 n; destruct3 b. mcompute. ring. Qed.

(** Reflection through a hyperplane as a map on vectors, any dimension. *)
Definition refl {m} (n v : vec K m) : vec K m := vsub v (vmul_s n ((1 + 1) * vdot v n)).
Definition refl_h {m} (n b v : vec K m) (w : K) : vec K m :=
  vsub v (vmul_s n ((1 + 1) * (vdot v n - vdot b n * w))).

Lemma refl_invol m (n v : vec K m) : vdot n n = 1 -> refl n (refl n v) = v.
Proof.
  intros H. unfold refl. rewrite vdot_sub_l, vdot_mul_l, H. vext. ring.
Qed.
Lemma refl_h_invol m (n b v : vec K m) w : vdot n n = 1 -> refl_h n b (refl_h n b v w) w = v.
Proof.
  intros H. unfold refl_h. rewrite vdot_sub_l, vdot_mul_l, H. vext. ring.
Qed.
Lemma refl_isometry m (n u v : vec K m) :
  vdot n n = 1 -> vdot (refl n u) (refl n v) = vdot u v.
Proof.
  intros H. unfold refl. rewrite !vdot_sub_l, !vdot_sub_r, !vdot_mul_l, !vdot_mul_r, H.
  rewrite (vdot_comm _ n v). ring.
Qed.
Lemma refl_normal m (n : vec K m) : vdot n n = 1 -> refl n n = vneg n.
Proof. intros H. unfold refl. rewrite H. vext. ring. Qed.
Lemma refl_mirror m (n u : vec K m) : vdot u n = 0 -> refl n u = u.
Proof. intros H. unfold refl. rewrite H. vext. ring. Qed.
Lemma refl_h_mirror m (n b p : vec K m) : vdot p n = vdot b n -> refl_h n b p 1 = p.
Proof. intros H. unfold refl_h. rewrite H. vext. ring. Qed.
Lemma refl_h_diff m (n b u v : vec K m) w :
  vsub (refl_h n b u w) (refl_h n b v w) = refl n (vsub u v).
Proof. unfold refl, refl_h. rewrite vdot_sub_l. vext. ring. Qed.

Lemma m2from_reflection_invol (n : vec K 2) : vdot n n = 1 ->
  mmul (m2from_reflection n) (m2from_reflection n) = midentity 2.
Proof.
  intros H. apply mmulv_ext. intros v. rewrite mmulv_mmulv, mmulv_1, !m2from_reflection_act.
  apply (refl_invol 2 n v H).
Qed.
Lemma m3from_reflection_invol (n : vec K 3) : vdot n n = 1 ->
  mmul (m3from_reflection n) (m3from_reflection n) = midentity 3.
Proof.
  intros H. apply mmulv_ext. intros v. rewrite mmulv_mmulv, mmulv_1, !m3from_reflection_act.
  apply (refl_invol 3 n v H).
Qed.
Lemma m3from_affine_reflection_invol (n b : vec K 2) : vdot n n = 1 ->
  mmul (m3from_affine_reflection n b) (m3from_affine_reflection n b) = midentity 3.
Proof.
  intros H. apply mmulv_ext_h. intros v w.
  rewrite mmulv_mmulv, mmulv_1, !m3from_affine_reflection_act.
  f_equal. apply (refl_h_invol 2 n b v w H).
Qed.
Lemma m4from_affine_reflection_invol (n b : vec K 3) : vdot n n = 1 ->
  mmul (m4from_affine_reflection n b) (m4from_affine_reflection n b) = midentity 4.
Proof.
  intros H. apply mmulv_ext_h. intros v w.
  rewrite mmulv_mmulv, mmulv_1, !m4from_affine_reflection_act.
  f_equal. apply (refl_h_invol 3 n b v w H).
Qed.

(** ** Cross-product matrix *)
Lemma m3cross_matrix_act (v w : vec K 3) : mmulv (m3cross_matrix v) w = vcross v w.
Proof. destruct3 v; destruct3 w. act. Qed.
Lemma m3cross_matrix_anti (v : vec K 3) :
  mtranspose (m3cross_matrix v) = mneg (m3cross_matrix v).
Proof. destruct3 v. act. Qed.
Lemma m3cross_matrix_sq (v w : vec K 3) :
  mmulv (mmul (m3cross_matrix v) (m3cross_matrix v)) w =
  vsub (vmul_s v (vdot v w)) (vmul_s w (vdot v v)).
Proof. destruct3 v; destruct3 w. act. Qed.

End Det.

(** ** Inverses over a field *)
Section Inverse.
Context {K : Type} {NK : Num K} {DK : NumDiv K} {FK : FieldLaws K}.
Local Open Scope num_scope.
#[local] Instance rl_of_field : RingLaws K := field_ring.
Add Ring Kring2 : (@ring_laws K NK rl_of_field).

Lemma inverse_unique n (m a b : mat K n n) :
  mmul a m = midentity n -> mmul m b = midentity n -> a = b.
Proof.
  intros H1 H2. rewrite <- (mmul_1_r n n a), <- H2, <- mmul_assoc, H1. apply mmul_1_l.
Qed.

Lemma if_none {A} (d : K) (x : A) : (if nis0 d then None else Some x) = None <-> d = 0.
Proof.
  destruct (nis0 d) eqn:E; split; intros H; try discriminate; auto.
  - apply nis0_true; exact E.
  - rewrite H, nis0_0 in E. discriminate.
Qed.

Lemma m1try_inverse_none (m : mat K 1 1) : m1try_inverse m = None <-> m1det m = 0.
Proof. unfold m1try_inverse; apply if_none. Qed.
Lemma m2try_inverse_none (m : mat K 2 2) : m2try_inverse m = None <-> m2det m = 0.
Proof. unfold m2try_inverse; apply if_none. Qed.
Lemma m3try_inverse_none (m : mat K 3 3) : m3try_inverse m = None <-> m3det m = 0.
Proof. unfold m3try_inverse; apply if_none. Qed.
Lemma m4try_inverse_none (m : mat K 4 4) : m4try_inverse m = None <-> m4det m = 0.
Proof. unfold m4try_inverse; apply if_none. Qed.

(** Entries of [inverse * m]: either a multiple of [d * det = 1] or zero. *)
Ltac inv_entry H := mcompute; pairs ltac:(first [ ring | rewrite <- H; ring ]).

Lemma m1try_inverse_some (m w : mat K 1 1) :
  m1try_inverse m = Some w -> mmul m w = midentity 1 /\ mmul w m = midentity 1.
Proof.
  unfold m1try_inverse. destruct (nis0 (m1det m)) eqn:E; [discriminate|].
  apply nis0_false in E. pose proof (ninv_l _ E) as H. unfold ninv in H.
  set (d := 1 / m1det m) in *. clearbody d. intros X; injection X as <-.
  mdestruct1 m. revert H. clear E. mcompute. intros H.
  split; pairs ltac:(first [ ring | rewrite <- H; ring ]).
Qed.
Lemma m2try_inverse_some (m w : mat K 2 2) :
  m2try_inverse m = Some w -> mmul m w = midentity 2 /\ mmul w m = midentity 2.
Proof.
  unfold m2try_inverse. destruct (nis0 (m2det m)) eqn:E; [discriminate|].
  apply nis0_false in E. pose proof (ninv_l _ E) as H. unfold ninv in H.
  set (d := 1 / m2det m) in *. clearbody d. intros X; injection X as <-.
  mdestruct2 m. revert H. clear E. mcompute. intros H.
  split; pairs ltac:(first [ ring | rewrite <- H; ring ]).
Qed.
Lemma m3try_inverse_some (m w : mat K 3 3) :
  m3try_inverse m = Some w -> mmul m w = midentity 3 /\ mmul w m = midentity 3.
Proof.
  unfold m3try_inverse. destruct (nis0 (m3det m)) eqn:E; [discriminate|].
  apply nis0_false in E. pose proof (ninv_l _ E) as H. unfold ninv in H.
  set (d := 1 / m3det m) in *. clearbody d. intros X; injection X as <-.
  mdestruct3 m. revert H. clear E. mcompute. intros H.
  split; pairs ltac:(first [ ring | rewrite <- H; ring ]).
Qed.
Lemma m4try_inverse_some (m w : mat K 4 4) :
  m4try_inverse m = Some w -> mmul m w = midentity 4 /\ mmul w m = midentity 4.
Proof.
  unfold m4try_inverse. destruct (nis0 (m4det m)) eqn:E; [discriminate|].
  apply nis0_false in E. pose proof (ninv_l _ E) as H. unfold ninv in H.
  set (d := 1 / m4det m) in *. clearbody d. intros X; injection X as <-.
  mdestruct4 m. revert H. clear E. mcompute. intros H.
  split; pairs ltac:(first [ ring | rewrite <- H; ring ]).
Qed.

End Inverse.
