(** Property theorems about matrices.  See properties.jsonl for the English statements. *)

From Coq Require Import List Arith Lia Reals Lra ZArith Qcanon Bool.
From Verif Require Import Base Scalar Spec LBase MVector LVector LVectorR MMatrix LMatrix
  LMatrixDet LMatrixR LMatrixM.
Local Open Scope nat_scope.

(** ** C02 (matrices) *)
Theorem C02_matrix_in_place :
  forall (K : Type) (NK : Num K) (DK : NumDiv K) (r c : nat) (a b : mat K r c) (s : K),
    madd_assign a b = madd a b /\ msub_assign a b = msub a b /\
    mmul_assign a s = mmul_s a s /\ mdiv_assign a s = mdiv_s a s /\
    mcmul_assign a b = mcmul a b /\ mneg_mut a = mneg a.
Proof.
  intros. conjs;
  [exact (madd_assign_eq r c a b) | exact (msub_assign_eq r c a b)
  | exact (mmul_assign_eq r c a s) | exact (mdiv_assign_eq r c a s)
  | exact (mcmul_assign_eq r c a b) | exact (mneg_mut_eq r c a)].
Qed.
Print Assumptions C02_matrix_in_place.

Theorem C02_matrix_normalize_mut :
  forall (r c : nat) (m : mat R r c) (t : R),
    mnormalize_mut m = (mnormalize m, mnorm m) /\
    mtry_normalize_mut m t =
      match mtry_normalize m t with Some m' => (m', Some (mnorm m)) | None => (m, None) end.
Proof.
  intros. split; [reflexivity|]. unfold mtry_normalize_mut, mtry_normalize. cbv zeta.
  destruct (Rle_dec (mnorm m) t); reflexivity.
Qed.
Print Assumptions C02_matrix_normalize_mut.

Example C02_matrix_example :
  madd_assign (m2new 1 2 3 4)%Z (m2new 10 20 30 40)%Z = (m2new 11 22 33 44)%Z.
Proof. reflexivity. Qed.

(** ** C04 (determinant form of the triple product) *)
Theorem C04_triple_product_determinant :
  forall (K : Type) (NK : Num K) (LK : RingLaws K) (u v w : vec K 3),
    vtriple u v w = m3det (mfrom_columns (v3 u v w)).
Proof. exact (fun K NK LK u v w => vtriple_det u v w). Qed.
Print Assumptions C04_triple_product_determinant.

(** ** C06 (matrices) *)
Theorem C06_matrix_lerp :
  forall (K : Type) (NK : Num K) (LK : RingLaws K) (r c : nat) (a b : mat K r c) (t : K),
    mlerp a b n0 = a /\ mlerp a b n1 = b /\ mlerp a a t = a /\
    mlerp a b t = madd (mmul_s a (nsub n1 t)) (mmul_s b t).
Proof.
  intros. conjs;
  [exact (mlerp_0 r c a b) | exact (mlerp_1 r c a b) | exact (mlerp_same r c a t)
  | exact (mlerp_affine r c a b t)].
Qed.
Print Assumptions C06_matrix_lerp.

Theorem C06_matrix_lerp_between :
  forall (r c : nat) (a b : mat R r c) (t : R) (j i : nat),
    (0 <= t <= 1)%R -> j < c -> i < r ->
    (Rmin (mget a j i) (mget b j i) <= mget (mlerp a b t) j i
     <= Rmax (mget a j i) (mget b j i))%R.
Proof. exact mlerp_between. Qed.
Print Assumptions C06_matrix_lerp_between.

Example C06_matrix_example :
  mlerp (m2new 0 10 20 30)%Z (m2new 100 20 0 40)%Z 3%Z = (m2new 300 40 (-40) 60)%Z.
Proof. reflexivity. Qed.

(** ** C12 (matrices) *)
Theorem C12_matrix_try_cast :
  forall (A B : Type) (conv : A -> option B) (da : A) (db : B) (r c : nat) (m : mat A r c),
    (forall w : mat B r c, mtry_cast conv da db m = Some w <->
       (forall j i, j < c -> i < r -> conv (mget_d da m j i) = Some (mget_d db w j i))) /\
    (mtry_cast conv da db m = None <->
       exists j i, j < c /\ i < r /\ conv (mget_d da m j i) = None).
Proof.
  intros. exact (conj (fun w => mtry_cast_spec conv da db r c m w)
                      (mtry_cast_none conv da db r c m)).
Qed.
Print Assumptions C12_matrix_try_cast.

(** ** C13 (matrices) *)
Theorem C13_matrix_map :
  forall (A B : Type) (f : A -> B) (da : A) (db : B) (r c : nat) (m : mat A r c) (j i : nat),
    j < c -> i < r -> mindex (mmap da db f m) j i = Some (f (mget_d da m j i)).
Proof.
  intros. rewrite (mindex_get db) by assumption. f_equal. exact (mget_d_mmap da db f r c m j i H H0).
Qed.
Print Assumptions C13_matrix_map.

(** ** C14 (matrices) *)
Theorem C14_matrix_is_zero :
  forall (K : Type) (NK : Num K) (DK : NumDiv K) (FK : FieldLaws K) (r c : nat) (m : mat K r c),
    mis_zero m = true <-> (forall j i, j < c -> i < r -> mget m j i = n0).
Proof. exact (fun K NK DK FK r c m => mis_zero_iff r c m). Qed.
Print Assumptions C14_matrix_is_zero.

Theorem C14_matrix_is_identity :
  forall (K : Type) (NK : Num K) (DK : NumDiv K) (FK : FieldLaws K) (is_one : K -> bool)
         (n : nat) (m : mat K n n),
    (forall x, is_one x = true <-> x = n1) ->
    (mis_identity is_one m = true <-> m = midentity n).
Proof. exact (fun K NK DK FK is_one n m => mis_identity_iff is_one n m). Qed.
Print Assumptions C14_matrix_is_identity.

(** The approximate tests [is_diagonal] and [is_symmetric] look at exactly the right entries,
    for any scalar comparison. *)
Theorem C14_matrix_is_diagonal_is_symmetric :
  forall (A : Type) (d : A) (eq0 : A -> bool) (eqb : A -> A -> bool) (n : nat) (m : mat A n n),
    (mis_diagonal d eq0 m = true <->
      forall i j, i < n -> j < n -> i <> j -> eq0 (mget_d d m i j) = true) /\
    (mis_symmetric d eqb m = true <->
      forall i j, j < i -> i < n -> eqb (mget_d d m i j) (mget_d d m j i) = true).
Proof.
  intros. exact (conj (mis_diagonal_spec d eq0 n m) (mis_symmetric_spec d eqb n m)).
Qed.
Print Assumptions C14_matrix_is_diagonal_is_symmetric.

Example C14_matrix_example :
  mis_diagonal 0%Z (Z.eqb 0) (m3new 1 0 0 0 2 0 0 0 3)%Z = true /\
  mis_diagonal 0%Z (Z.eqb 0) (m3new 1 0 0 0 2 0 0 4 3)%Z = false /\
  mis_symmetric 0%Z Z.eqb (m3new 1 5 6 5 2 7 6 7 3)%Z = true /\
  mis_symmetric 0%Z Z.eqb (m3new 1 5 6 5 2 7 6 8 3)%Z = false.
Proof. conjs; reflexivity. Qed.

(** ** C16 *)
Theorem C16_matrix_additive_laws :
  forall (K : Type) (NK : Num K) (LK : RingLaws K) (r c : nat) (a b d : mat K r c) (s t : K),
    madd a b = madd b a /\ madd a (madd b d) = madd (madd a b) d /\
    madd a (mzero r c) = a /\ madd a (mneg a) = mzero r c /\ msub a b = madd a (mneg b) /\
    mmul_s (madd a b) s = madd (mmul_s a s) (mmul_s b s) /\
    mmul_s a (nadd s t) = madd (mmul_s a s) (mmul_s a t) /\
    mmul_s (mmul_s a s) t = mmul_s a (nmul s t) /\ mmul_s a n1 = a /\ s_mul_m s a = mmul_s a s.
Proof.
  intros. conjs;
  [exact (madd_comm r c a b) | exact (madd_assoc r c a b d) | exact (madd_0_r r c a)
  | exact (madd_neg_r r c a) | exact (msub_def r c a b) | exact (mmul_s_add r c a b s)
  | exact (mmul_s_add_s r c a s t) | exact (mmul_s_assoc r c a s t) | exact (mmul_s_1 r c a)
  | exact (s_mul_m_eq r c a s)].
Qed.
Print Assumptions C16_matrix_additive_laws.

Theorem C16_matrix_multiplicative_laws :
  forall (K : Type) (NK : Num K) (LK : RingLaws K) (r n m c : nat)
         (a a' : mat K r n) (b b' : mat K n m) (d : mat K m c) (v w : vec K m) (s : K),
    mmul (mmul a b) d = mmul a (mmul b d) /\
    mmul (madd a a') b = madd (mmul a b) (mmul a' b) /\
    mmul a (madd b b') = madd (mmul a b) (mmul a b') /\
    mmul (midentity r) a = a /\ mmul a (midentity n) = a /\
    mmul (mmul_s a s) b = mmul_s (mmul a b) s /\ mmul a (mmul_s b s) = mmul_s (mmul a b) s /\
    mmul (mzero r n) b = mzero r m /\ mmul a (mzero n m) = mzero r m /\
    mmulv (mmul a b) v = mmulv a (mmulv b v) /\
    mmulv (midentity m) v = v /\
    mmulv b (vadd v w) = vadd (mmulv b v) (mmulv b w) /\
    mmulv b (vmul_s v s) = vmul_s (mmulv b v) s.
Proof.
  intros. conjs;
  [exact (mmul_assoc r n m c a b d) | exact (mmul_add_l r n m a a' b)
  | exact (mmul_add_r r n m a b b') | exact (mmul_1_l r n a) | exact (mmul_1_r r n a)
  | exact (mmul_mul_s_l r n m a b s) | exact (mmul_mul_s_r r n m a b s)
  | exact (mmul_0_l r n m b) | exact (mmul_0_r r n m a) | exact (mmulv_mmulv r n m a b v)
  | exact (mmulv_1 m v) | exact (mmulv_add n m b v w) | exact (mmulv_mul_s n m b v s)].
Qed.
Print Assumptions C16_matrix_multiplicative_laws.

(** The operations are the textbook ones, entry by entry (observed through checked indexing). *)
Theorem C16_matrix_entries :
  forall (K : Type) (NK : Num K) (LK : RingLaws K) (r n c : nat)
         (a : mat K r n) (b : mat K n c) (x y : mat K r c) (v : vec K n) (s : K) (j i : nat),
    j < c -> i < r ->
    mindex (madd x y) j i = Some (nadd (mget x j i) (mget y j i)) /\
    mindex (msub x y) j i = Some (nsub (mget x j i) (mget y j i)) /\
    mindex (mneg x) j i = Some (nneg (mget x j i)) /\
    mindex (mmul_s x s) j i = Some (nmul (mget x j i) s) /\
    mindex (mzero r c) j i = Some n0 /\
    mindex (mmul a b) j i = Some (sum n (fun k => nmul (mget a k i) (mget b j k))) /\
    vindex (mmulv a v) i = Some (sum n (fun k => nmul (mget a k i) (vget n0 v k))).
Proof.
  intros K NK LK r n c a b x y v s j i Hj Hi.
  rewrite !(mindex_get n0) by assumption. rewrite (vindex_get n0) by assumption.
  conjs; f_equal;
  [exact (mget_madd r c x y j i Hj Hi) | exact (mget_msub r c x y j i Hj Hi)
  | exact (mget_mneg r c x j i Hj Hi) | exact (mget_mmul_s r c x s j i Hj Hi)
  | exact (mget_mzero r c j i) | exact (mget_mmul r n c a b j i Hj Hi)
  | exact (vat_mmulv r n a v i Hi)].
Qed.
Print Assumptions C16_matrix_entries.

Example C16_example :
  mmul (m2new 1 2 3 4)%Z (m2new 5 6 7 8)%Z = (m2new 23 34 31 46)%Z /\
  mmulv (m2new 1 2 3 4)%Z (v2 10 100)%Z = (v2 310 420)%Z.
Proof. split; reflexivity. Qed.

(** ** C17 *)
Theorem C17_transpose :
  forall (K : Type) (NK : Num K) (LK : RingLaws K) (r n c : nat)
         (a a' : mat K r n) (b : mat K n c) (s : K),
    mtranspose (mtranspose a) = a /\
    mtranspose (madd a a') = madd (mtranspose a) (mtranspose a') /\
    mtranspose (mmul_s a s) = mmul_s (mtranspose a) s /\
    mtranspose (mmul a b) = mmul (mtranspose b) (mtranspose a) /\
    mtranspose (midentity n) = midentity n /\
    (forall j i, j < r -> i < n -> mindex (mtranspose a) j i = mindex a i j).
Proof.
  intros. conjs;
  [exact (mtranspose_invol r n a) | exact (mtranspose_add r n a a')
  | exact (mtranspose_mul_s r n a s) | exact (mtranspose_mul r n c a b)
  | exact (mtranspose_identity n) | ].
  intros j i Hj Hi. rewrite !(mindex_get n0) by assumption.
  exact (f_equal Some (mget_mtranspose r n a j i Hj Hi)).
Qed.
Print Assumptions C17_transpose.

Theorem C17_transpose_mut :
  forall (K : Type) (NK : Num K) (n : nat) (m : mat K n n),
    mtranspose_mut n0 m = Some (mtranspose m).
Proof. exact (fun K NK n m => mtranspose_mut_eq n m). Qed.
Print Assumptions C17_transpose_mut.

Theorem C17_transpose_adjoint :
  forall (K : Type) (NK : Num K) (LK : RingLaws K) (r c : nat)
         (m : mat K r c) (u : vec K c) (v : vec K r),
    vdot (mmulv m u) v = vdot u (mmulv (mtranspose m) v).
Proof. exact (fun K NK LK r c m u v => vdot_mmulv r c m u v). Qed.
Print Assumptions C17_transpose_adjoint.

Example C17_example :
  mtranspose (m3new 1 2 3 4 5 6 7 8 9)%Z = (m3new 1 4 7 2 5 8 3 6 9)%Z /\
  mtranspose_mut 0%Z (m3new 1 2 3 4 5 6 7 8 9)%Z = Some (m3new 1 4 7 2 5 8 3 6 9)%Z.
Proof. split; reflexivity. Qed.

(** ** C18 *)
Theorem C18_fused_products :
  forall (K : Type) (NK : Num K) (LK : RingLaws K) (r n c : nat)
         (a : mat K r n) (b : mat K r c) (d : mat K n c) (x y : mat K r n) (z : mat K n r)
         (v : vec K n),
    mtr_mul a b = mmul (mtranspose a) b /\
    mtr_dot a z = mdot (mtranspose a) z /\
    mdot x y = sum r (fun i => sum n (fun j => nmul (mget x j i) (mget y j i))) /\
    mdot x y = mtrace (mmul (mtranspose x) y) /\
    mmul a (v1 v : mat K n 1) = (v1 (mmulv a v) : mat K r 1) /\
    (forall k, k < c -> mcol (mmul a d) k = mmulv a (mcol d k)).
Proof.
  intros. conjs;
  [exact (mtr_mul_eq r n c a b) | exact (mtr_dot_eq r n a z) | exact (mdot_sum r n x y)
  | exact (mdot_trace r n x y) | exact (mmulv_mmul r n a v) | exact (mmul_col r n c a d)].
Qed.
Print Assumptions C18_fused_products.

(** [component_mul] multiplies entrywise; [dot] adds up the entries of it. *)
Theorem C18_component_mul :
  forall (K : Type) (NK : Num K) (LK : RingLaws K) (r n : nat) (x y z : mat K r n),
    (forall j i, j < n -> i < r -> mget (mcmul x y) j i = nmul (mget x j i) (mget y j i)) /\
    mcmul x (madd y z) = madd (mcmul x y) (mcmul x z) /\ mcmul_assign x y = mcmul x y /\
    mdot x y = sum r (fun i => sum n (fun j => mget (mcmul x y) j i)).
Proof. exact mcmul_laws. Qed.
Print Assumptions C18_component_mul.

Example C18_example :
  mtr_mul (m2new 1 2 3 4)%Z (m2new 5 6 7 8)%Z = (m2new 17 39 23 53)%Z /\
  mdot (m2new 1 2 3 4)%Z (m2new 5 6 7 8)%Z = 70%Z /\
  mtr_dot (m2new 1 2 3 4)%Z (m2new 5 6 7 8)%Z = 69%Z.
Proof. conjs; reflexivity. Qed.

(** ** C19 *)
Theorem C19_layout :
  forall (A : Type) (d : A) (r c : nat) (cols : vec (vec A r) c) (rows : vec (vec A c) r)
         (flat : vec A (r * c)) (m : mat A r c) (j i : nat),
    j < c -> i < r ->
    mcolumn (mfrom_columns cols) j = vindex cols j /\
    mindex_col (mfrom_columns cols) j = vindex cols j /\
    mindex (mfrom_columns cols) j i = Some (vget d (vget (vfill r d) cols j) i) /\
    mindex (mfrom_rows d rows) j i = Some (vget d (vget (vfill c d) rows i) j) /\
    mindex (mfrom_flat d flat) j i = vindex flat (j * r + i) /\
    (exists row, mrow d m i = Some row /\ vindex row j = mindex m j i) /\
    (exists col, mcolumn m j = Some col /\ vindex col i = mindex m j i).
Proof.
  intros A d r c cols rows flat m j i Hj Hi. conjs.
  - reflexivity.
  - reflexivity.
  - exact (mindex_get d r c cols j i Hj Hi).
  - rewrite (mindex_get d) by assumption. exact (f_equal Some (mget_d_from_rows d r c rows j i Hj Hi)).
  - rewrite (mindex_get d), (vindex_get d) by (try assumption; nia).
    exact (f_equal Some (mget_d_from_flat d r c flat j i Hj Hi)).
  - destruct (mrow_get d r c m i Hi) as [row [E H]]. exists row. split; [exact E|].
    rewrite (vindex_get d), (mindex_get d) by assumption. exact (f_equal Some (H j Hj)).
  - exists (vget (vfill r d) m j). unfold mcolumn, mindex.
    rewrite (vindex_get (vfill r d)) by assumption. auto.
Qed.
Print Assumptions C19_layout.

Theorem C19_from_rows_is_transposed_from_columns :
  forall (K : Type) (NK : Num K) (r c : nat) (rows : vec (vec K c) r),
    mfrom_rows n0 rows = mtranspose (mfrom_columns rows).
Proof. exact (fun K NK r c rows => mfrom_rows_transpose r c rows). Qed.
Print Assumptions C19_from_rows_is_transposed_from_columns.

Theorem C19_out_of_range_panics :
  forall (A : Type) (d : A) (r c : nat) (m : mat A r c) (j i : nat),
    (c <= j \/ r <= i -> mindex m j i = None) /\
    (c <= j -> mcolumn m j = None) /\
    (r <= i -> 0 < c -> mrow d m i = None).
Proof.
  intros. exact (conj (mindex_none d r c m j i)
    (conj (vindex_none c m j) (mrow_none d r c m i))).
Qed.
Print Assumptions C19_out_of_range_panics.

Example C19_example :
  mindex (mfrom_flat 0%Z ((10, (11, (20, (21, (30, (31, tt)))))) : vec Z (2 * 3))%Z : mat Z 2 3)
    2 1 = Some 31%Z /\
  mfrom_rows 0%Z (v2 (v2 1 2) (v2 3 4))%Z = (m2new 1 3 2 4)%Z.
Proof. split; reflexivity. Qed.

(** ** C20 *)
Theorem C20_swap_rows :
  forall (A : Type) (d : A) (r c : nat) (m : mat A r c) (a b : nat),
    (a < r -> b < r -> exists m', mswap_rows d m a b = Some m' /\
      (forall j i, j < c -> i < r -> mget_d d m' j i =
        mget_d d m j (if i =? a then b else if i =? b then a else i)) /\
      mswap_rows d m' a b = Some m) /\
    (r <= a \/ r <= b -> 0 < c -> mswap_rows d m a b = None).
Proof.
  intros. split; [|exact (mswap_rows_none d r c m a b)].
  intros Ha Hb. destruct (mswap_rows_some d r c m a b Ha Hb) as [m' [E H]].
  exists m'. exact (conj E (conj H (mswap_rows_invol d r c m m' a b Ha Hb E))).
Qed.
Print Assumptions C20_swap_rows.

Theorem C20_swap_columns :
  forall (A : Type) (d : A) (r c : nat) (m : mat A r c) (a b : nat),
    (a < c -> b < c -> exists m', mswap_columns m a b = Some m' /\
      (forall j i, j < c -> i < r -> mget_d d m' j i =
        mget_d d m (if j =? a then b else if j =? b then a else j) i) /\
      mswap_columns m' a b = Some m) /\
    (c <= a \/ c <= b -> mswap_columns m a b = None).
Proof.
  intros. split; [|exact (mswap_columns_none r c m a b)].
  intros Ha Hb. destruct (mswap_columns_some d r c m a b Ha Hb) as [m' [E H]].
  exists m'. exact (conj E (conj H (mswap_columns_invol d r c m m' a b E))).
Qed.
Print Assumptions C20_swap_columns.

Theorem C20_swap_elements :
  forall (A : Type) (d : A) (r c : nat) (m : mat A r c) (ja ia jb ib : nat),
    (ja < c -> ia < r -> jb < c -> ib < r -> exists m',
      mswap d m (ja, ia) (jb, ib) = Some m' /\
      mget_d d m' ja ia = mget_d d m jb ib /\ mget_d d m' jb ib = mget_d d m ja ia /\
      (forall j i, j < c -> i < r -> (j, i) <> (ja, ia) -> (j, i) <> (jb, ib) ->
         mget_d d m' j i = mget_d d m j i) /\
      mswap d m' (ja, ia) (jb, ib) = Some m) /\
    (c <= ja \/ r <= ia \/ c <= jb \/ r <= ib -> mswap d m (ja, ia) (jb, ib) = None).
Proof.
  intros. split; [|exact (mswap_none d r c m ja ia jb ib)].
  intros H1 H2 H3 H4. destruct (mswap_some d r c m ja ia jb ib H1 H2 H3 H4) as [m' [E H]].
  exists m'. conjs.
  - exact E.
  - rewrite H by assumption. rewrite !Nat.eqb_refl. cbn [andb].
    destruct (Nat.eqb_spec ja jb), (Nat.eqb_spec ia ib); subst; reflexivity.
  - rewrite H by assumption. rewrite !Nat.eqb_refl. cbn [andb].
    destruct (Nat.eqb_spec jb ja), (Nat.eqb_spec ib ia); subst; reflexivity.
  - intros j i Hj Hi N1 N2. rewrite H by assumption.
    destruct (Nat.eqb_spec j ja), (Nat.eqb_spec i ia), (Nat.eqb_spec j jb), (Nat.eqb_spec i ib);
      subst; cbn [andb]; congruence.
  - exact (mswap_invol d r c m m' (ja, ia) (jb, ib) E).
Qed.
Print Assumptions C20_swap_elements.

Example C20_example :
  mswap_rows 0%Z (m3new 1 2 3 4 5 6 7 8 9)%Z 0 2 = Some (m3new 3 2 1 6 5 4 9 8 7)%Z /\
  mswap_columns (m3new 1 2 3 4 5 6 7 8 9)%Z 0 2 = Some (m3new 7 8 9 4 5 6 1 2 3)%Z /\
  mswap 0%Z (m3new 1 2 3 4 5 6 7 8 9)%Z (0, 2) (1, 0) = Some (m3new 1 2 4 3 5 6 7 8 9)%Z /\
  mswap_columns (m3new 1 2 3 4 5 6 7 8 9)%Z 0 3 = None.
Proof. conjs; reflexivity. Qed.

(** ** C21 *)
Theorem C21_determinant_laplace :
  forall (K : Type) (NK : Num K) (LK : RingLaws K)
         (a : mat K 1 1) (b : mat K 2 2) (c : mat K 3 3) (d : mat K 4 4),
    m1det a = laplace 1 (fun i j => mget a j i) /\ m2det b = laplace 2 (fun i j => mget b j i) /\
    m3det c = laplace 3 (fun i j => mget c j i) /\ m4det d = laplace 4 (fun i j => mget d j i).
Proof.
  intros. conjs;
  [exact (m1det_laplace a) | exact (m2det_laplace b) | exact (m3det_laplace c)
  | exact (m4det_laplace d)].
Qed.
Print Assumptions C21_determinant_laplace.

Theorem C21_determinant_multiplicative :
  forall (K : Type) (NK : Num K) (LK : RingLaws K)
         (a a' : mat K 1 1) (b b' : mat K 2 2) (c c' : mat K 3 3) (d d' : mat K 4 4),
    m1det (mmul a a') = nmul (m1det a) (m1det a') /\
    m2det (mmul b b') = nmul (m2det b) (m2det b') /\
    m3det (mmul c c') = nmul (m3det c) (m3det c') /\
    m4det (mmul d d') = nmul (m4det d) (m4det d').
Proof.
  intros. conjs;
  [exact (m1det_mul a a') | exact (m2det_mul b b') | exact (m3det_mul c c')
  | exact (m4det_mul d d')].
Qed.
Print Assumptions C21_determinant_multiplicative.

Theorem C21_determinant_transpose_identity_scale :
  forall (K : Type) (NK : Num K) (LK : RingLaws K)
         (a : mat K 1 1) (b : mat K 2 2) (c : mat K 3 3) (d : mat K 4 4) (s : K),
    (m1det (mtranspose a) = m1det a /\ m2det (mtranspose b) = m2det b /\
     m3det (mtranspose c) = m3det c /\ m4det (mtranspose d) = m4det d) /\
    (m1det (midentity 1) = (n1 : K) /\ m2det (midentity 2) = (n1 : K) /\
     m3det (midentity 3) = (n1 : K) /\ m4det (midentity 4) = (n1 : K)) /\
    (m1det (mmul_s a s) = nmul (npow s 1) (m1det a) /\
     m2det (mmul_s b s) = nmul (npow s 2) (m2det b) /\
     m3det (mmul_s c s) = nmul (npow s 3) (m3det c) /\
     m4det (mmul_s d s) = nmul (npow s 4) (m4det d)).
Proof.
  intros. conjs;
  [exact (m1det_transpose a) | exact (m2det_transpose b) | exact (m3det_transpose c)
  | exact (m4det_transpose d) | exact m1det_identity | exact m2det_identity
  | exact m3det_identity | exact m4det_identity | exact (m1det_mul_s a s)
  | exact (m2det_mul_s b s) | exact (m3det_mul_s c s) | exact (m4det_mul_s d s)].
Qed.
Print Assumptions C21_determinant_transpose_identity_scale.

(** Swapping two different columns negates; two equal columns give zero; linear per column. *)
Theorem C21_determinant_alternating :
  forall (K : Type) (NK : Num K) (LK : RingLaws K)
         (b b' : mat K 2 2) (c c' : mat K 3 3) (d d' : mat K 4 4) (p q : nat),
    p <> q ->
    (p < 2 -> q < 2 -> mswap_columns b p q = Some b' -> m2det b' = nneg (m2det b)) /\
    (p < 3 -> q < 3 -> mswap_columns c p q = Some c' -> m3det c' = nneg (m3det c)) /\
    (p < 4 -> q < 4 -> mswap_columns d p q = Some d' -> m4det d' = nneg (m4det d)) /\
    (p < 2 -> q < 2 -> mcol b p = mcol b q -> m2det b = n0) /\
    (p < 3 -> q < 3 -> mcol c p = mcol c q -> m3det c = n0) /\
    (p < 4 -> q < 4 -> mcol d p = mcol d q -> m4det d = n0).
Proof.
  intros K NK LK b b' c c' d d' p q N. conjs; intros P Q;
  [exact (m2det_swap b b' p q P Q N) | exact (m3det_swap c c' p q P Q N)
  | exact (m4det_swap d d' p q P Q N) | exact (m2det_eqcol b p q P Q N)
  | exact (m3det_eqcol c p q P Q N) | exact (m4det_eqcol d p q P Q N)].
Qed.
Print Assumptions C21_determinant_alternating.

Theorem C21_determinant_column_linear :
  forall (K : Type) (NK : Num K) (LK : RingLaws K) (b : mat K 2 2) (c : mat K 3 3)
         (d : mat K 4 4) (u2 w2 : vec K 2) (u3 w3 : vec K 3) (u4 w4 : vec K 4) (s : K) (p : nat),
    (p < 2 -> m2det (vset b p (vadd u2 (vmul_s w2 s))) =
              nadd (m2det (vset b p u2)) (nmul s (m2det (vset b p w2)))) /\
    (p < 3 -> m3det (vset c p (vadd u3 (vmul_s w3 s))) =
              nadd (m3det (vset c p u3)) (nmul s (m3det (vset c p w3)))) /\
    (p < 4 -> m4det (vset d p (vadd u4 (vmul_s w4 s))) =
              nadd (m4det (vset d p u4)) (nmul s (m4det (vset d p w4)))).
Proof.
  intros. conjs; intros P;
  [exact (m2det_col_linear b p u2 w2 s P) | exact (m3det_col_linear c p u3 w3 s P)
  | exact (m4det_col_linear d p u4 w4 s P)].
Qed.
Print Assumptions C21_determinant_column_linear.

Example C21_example :
  m4det (m4new 2 0 1 3  1 4 0 2  5 1 1 0  0 2 3 1)%Z = (190)%Z /\
  m3det (m3new 1 2 3 0 1 4 5 6 0)%Z = 1%Z.
Proof. split; reflexivity. Qed.

(** ** C22 *)
Theorem C22_inverse_none_iff_singular :
  forall (K : Type) (NK : Num K) (DK : NumDiv K) (FK : FieldLaws K)
         (a : mat K 1 1) (b : mat K 2 2) (c : mat K 3 3) (d : mat K 4 4),
    (m1try_inverse a = None <-> m1det a = n0) /\ (m2try_inverse b = None <-> m2det b = n0) /\
    (m3try_inverse c = None <-> m3det c = n0) /\ (m4try_inverse d = None <-> m4det d = n0).
Proof.
  intros. conjs;
  [exact (m1try_inverse_none a) | exact (m2try_inverse_none b) | exact (m3try_inverse_none c)
  | exact (m4try_inverse_none d)].
Qed.
Print Assumptions C22_inverse_none_iff_singular.

Theorem C22_inverse_two_sided :
  forall (K : Type) (NK : Num K) (DK : NumDiv K) (FK : FieldLaws K),
    (forall m w : mat K 1 1, m1try_inverse m = Some w ->
       mmul m w = midentity 1 /\ mmul w m = midentity 1) /\
    (forall m w : mat K 2 2, m2try_inverse m = Some w ->
       mmul m w = midentity 2 /\ mmul w m = midentity 2) /\
    (forall m w : mat K 3 3, m3try_inverse m = Some w ->
       mmul m w = midentity 3 /\ mmul w m = midentity 3) /\
    (forall m w : mat K 4 4, m4try_inverse m = Some w ->
       mmul m w = midentity 4 /\ mmul w m = midentity 4).
Proof.
  intros. exact (conj m1try_inverse_some (conj m2try_inverse_some
    (conj m3try_inverse_some m4try_inverse_some))).
Qed.
Print Assumptions C22_inverse_two_sided.

(** Whenever an inverse exists, it is the one returned. *)
Theorem C22_inverse_complete :
  forall (K : Type) (NK : Num K) (DK : NumDiv K) (FK : FieldLaws K),
    (forall m w : mat K 1 1, mmul m w = midentity 1 -> m1try_inverse m = Some w) /\
    (forall m w : mat K 2 2, mmul m w = midentity 2 -> m2try_inverse m = Some w) /\
    (forall m w : mat K 3 3, mmul m w = midentity 3 -> m3try_inverse m = Some w) /\
    (forall m w : mat K 4 4, mmul m w = midentity 4 -> m4try_inverse m = Some w).
Proof.
  intros. exact (conj m1inverse_complete (conj m2inverse_complete
    (conj m3inverse_complete m4inverse_complete))).
Qed.
Print Assumptions C22_inverse_complete.

Theorem C22_inverse_of_product :
  forall (K : Type) (NK : Num K) (DK : NumDiv K) (FK : FieldLaws K),
    (forall a b a' b' : mat K 1 1, m1try_inverse a = Some a' -> m1try_inverse b = Some b' ->
       m1try_inverse (mmul a b) = Some (mmul b' a')) /\
    (forall a b a' b' : mat K 2 2, m2try_inverse a = Some a' -> m2try_inverse b = Some b' ->
       m2try_inverse (mmul a b) = Some (mmul b' a')) /\
    (forall a b a' b' : mat K 3 3, m3try_inverse a = Some a' -> m3try_inverse b = Some b' ->
       m3try_inverse (mmul a b) = Some (mmul b' a')) /\
    (forall a b a' b' : mat K 4 4, m4try_inverse a = Some a' -> m4try_inverse b = Some b' ->
       m4try_inverse (mmul a b) = Some (mmul b' a')).
Proof.
  intros. exact (conj m1inverse_mul (conj m2inverse_mul (conj m3inverse_mul m4inverse_mul))).
Qed.
Print Assumptions C22_inverse_of_product.

Local Notation q x := (Q2Qc (QArith_base.inject_Z x)).
Example C22_example :
  m3try_inverse (m3new (q 1) (q 2) (q 3) (q 0) (q 1) (q 4) (q 5) (q 6) (q 0)) =
    Some (m3new (q (-24)) (q 18) (q 5) (q 20) (q (-15)) (q (-4)) (q (-5)) (q 4) (q 1)) /\
  m2try_inverse (m2new (q 1) (q 2) (q 2) (q 4)) = None.
Proof. split; vm_compute; [|reflexivity]. repeat f_equal; apply Qc_is_canon; reflexivity. Qed.

(** ** C23 *)
Theorem C23_trace :
  forall (K : Type) (NK : Num K) (LK : RingLaws K) (n k : nat) (a b : mat K n n) (s : K)
         (x : mat K n k) (y : mat K k n),
    mtrace a = sum n (fun i => mget a i i) /\
    mtrace (madd a b) = nadd (mtrace a) (mtrace b) /\ mtrace (mmul_s a s) = nmul (mtrace a) s /\
    mtrace (mtranspose a) = mtrace a /\ mtrace (mmul x y) = mtrace (mmul y x) /\
    mtrace (midentity n) = sum n (fun _ => n1 : K).
Proof.
  intros. conjs;
  [exact (mtrace_sum n a) | exact (mtrace_add n a b) | exact (mtrace_mul_s n a s)
  | exact (mtrace_transpose n a) | exact (mtrace_mmul n k x y) | exact (mtrace_identity n)].
Qed.
Print Assumptions C23_trace.

Theorem C23_trace_identity_real : forall n : nat, mtrace (midentity n : mat R n n) = INR n.
Proof.
  intros. rewrite mtrace_identity. etransitivity; [exact (sum_const n 1%R)|]. apply Rmult_1_r.
Qed.
Print Assumptions C23_trace_identity_real.

Example C23_example : mtrace (m3new 1 2 3 4 5 6 7 8 9)%Z = 15%Z.
Proof. reflexivity. Qed.

(** ** C24: refuted.  [diagonal] always returns a [Vector4]. *)
Theorem C24_diagonal_refuted :
  (exists m : mat Z 5 5, mdiagonal m = None) /\
  (exists (m : mat Z 2 2) (v : vec Z 4), mdiagonal m = Some v /\
     vindex v 2 = Some 0%Z /\ vindex v 3 = Some 0%Z).
Proof.
  split; [exists (midentity 5); reflexivity|].
  exists (m2new 1 2 3 4)%Z, (v4 1 4 0 0)%Z. conjs; reflexivity.
Qed.
Print Assumptions C24_diagonal_refuted.

(** What does hold: up to 4x4 the first N components are the diagonal and the others are zero;
    beyond 4x4 every call panics. *)
Theorem C24_diagonal_partial :
  forall (K : Type) (NK : Num K) (n : nat) (m : mat K n n),
    (n <= 4 -> exists v, mdiagonal m = Some v /\
       forall i, i < 4 -> vget n0 v i = if i <? n then mget m i i else n0) /\
    (4 < n -> mdiagonal m = None).
Proof. intros. exact (conj (mdiagonal_small n m) (mdiagonal_large n m)). Qed.
Print Assumptions C24_diagonal_partial.

(** ** C25 *)
Theorem C25_embedding :
  forall (K : Type) (NK : Num K) (LK : RingLaws K) (k n : nat) (a b : mat K k k),
    k <= n ->
    (membed (midentity k) : mat K n n) = midentity n /\
    (membed (mmul a b) : mat K n n) = mmul (membed a) (membed b) /\
    (forall j i, j < n -> i < n -> mindex (membed a : mat K n n) j i =
       Some (if (j <? k) && (i <? k) then mget a j i else delta j i)).
Proof.
  intros K NK LK k n a b H. conjs;
  [exact (membed_identity k n H) | exact (membed_mul k n a b H) | ].
  intros j i Hj Hi. rewrite (mindex_get n0) by assumption.
  exact (f_equal Some (mget_membed k n a j i H Hj Hi)).
Qed.
Print Assumptions C25_embedding.

Theorem C25_embedding_determinant :
  forall (K : Type) (NK : Num K) (LK : RingLaws K) (a : mat K 1 1) (b : mat K 2 2)
         (c : mat K 3 3),
    m2det (membed a) = m1det a /\ m3det (membed a) = m1det a /\ m4det (membed a) = m1det a /\
    m3det (membed b) = m2det b /\ m4det (membed b) = m2det b /\ m4det (membed c) = m3det c.
Proof.
  intros. conjs;
  [exact (membed_det12 a) | exact (membed_det13 a) | exact (membed_det14 a)
  | exact (membed_det23 b) | exact (membed_det24 b) | exact (membed_det34 c)].
Qed.
Print Assumptions C25_embedding_determinant.

Example C25_example :
  (membed (m2new 1 2 3 4)%Z : mat Z 3 3) = (m3new 1 2 0 3 4 0 0 0 1)%Z.
Proof. reflexivity. Qed.

(** ** C26 *)
Theorem C26_matrix_norm_axioms :
  forall (r c : nat) (a b : mat R r c) (s : R),
    (0 <= mnorm a /\ 0 <= ml1_norm a /\ 0 <= mlinf_norm a)%R /\
    (mnorm a = 0%R <-> a = mzero r c) /\ (ml1_norm a = 0%R <-> a = mzero r c) /\
    (mlinf_norm a = 0%R <-> a = mzero r c) /\
    mnorm (mmul_s a s) = (mnorm a * Rabs s)%R /\
    ml1_norm (mmul_s a s) = (ml1_norm a * Rabs s)%R /\
    mlinf_norm (mmul_s a s) = (mlinf_norm a * Rabs s)%R /\
    (mnorm (madd a b) <= mnorm a + mnorm b)%R /\
    (ml1_norm (madd a b) <= ml1_norm a + ml1_norm b)%R /\
    (mlinf_norm (madd a b) <= mlinf_norm a + mlinf_norm b)%R.
Proof.
  intros. conjs;
  [exact (mnorm_nonneg r c a) | exact (ml1_nonneg r c a) | exact (mlinf_nonneg r c a)
  | exact (mnorm_zero r c a) | exact (ml1_zero r c a) | exact (mlinf_zero r c a)
  | exact (mnorm_mul_s r c a s) | exact (ml1_mul_s r c a s) | exact (mlinf_mul_s r c a s)
  | exact (mnorm_triangle r c a b) | exact (ml1_triangle r c a b)
  | exact (mlinf_triangle r c a b)].
Qed.
Print Assumptions C26_matrix_norm_axioms.

Theorem C26_matrix_norms_submultiplicative :
  forall (r n c : nat) (a : mat R r n) (b : mat R n c) (v : vec R n),
    (mnorm (mmul a b) <= mnorm a * mnorm b)%R /\
    (ml1_norm (mmul a b) <= ml1_norm a * ml1_norm b)%R /\
    (mlinf_norm (mmul a b) <= mlinf_norm a * mlinf_norm b)%R /\
    (vnorm (mmulv a v) <= mnorm a * vnorm v)%R.
Proof.
  intros. conjs;
  [exact (mnorm_submul r n c a b) | exact (ml1_submul r n c a b) | exact (mlinf_submul r n c a b)
  | exact (mmulv_norm r n a v)].
Qed.
Print Assumptions C26_matrix_norms_submultiplicative.

(** Which norms they are: Frobenius, greatest column sum, greatest row sum. *)
Theorem C26_matrix_norms_are :
  forall (r c : nat) (m : mat R r c) (b : R), (0 <= b)%R ->
    (mnorm m * mnorm m = sum r (fun i => sum c (fun j => mget m j i * mget m j i)))%R /\
    ((ml1_norm m <= b)%R <->
      forall j, j < c -> (sum r (fun i => Rabs (mget m j i)) <= b)%R) /\
    ((mlinf_norm m <= b)%R <->
      forall i, i < r -> (sum c (fun j => Rabs (mget m j i)) <= b)%R) /\
    ml1_norm (mtranspose m) = mlinf_norm m /\ mlinf_norm (mtranspose m) = ml1_norm m /\
    mnorm (mtranspose m) = mnorm m.
Proof.
  intros r c m b Hb. conjs;
  [rewrite mnorm_sq; exact (mdot_sum r c m m)
  | rewrite ml1_rmax; exact (rmax_le c (colsum m) b Hb)
  | rewrite mlinf_rmax; exact (rmax_le r (rowsum m) b Hb)
  | exact (ml1_transpose r c m) | exact (mlinf_transpose r c m) | exact (mnorm_transpose r c m)].
Qed.
Print Assumptions C26_matrix_norms_are.

Theorem C26_matrix_metric :
  forall (r c : nat) (a b d : mat R r c),
    (0 <= mdist a b)%R /\ (mdist a b = 0%R <-> a = b) /\ mdist a b = mdist b a /\
    (mdist a d <= mdist a b + mdist b d)%R /\ (a <> mzero r c -> mnorm (mnormalize a) = 1%R).
Proof.
  intros. conjs;
  [exact (mnorm_nonneg r c (msub a b)) | exact (mdist_zero r c a b) | exact (mdist_sym r c a b)
  | exact (mdist_triangle r c a b d) | exact (mnormalize_norm r c a)].
Qed.
Print Assumptions C26_matrix_metric.

Example C26_example : (ml1_norm (m2new 1 (-2) 3 4) = 7 /\ mlinf_norm (m2new 1 (-2) 3 4) = 6)%R.
Proof.
  unfold ml1_norm, mlinf_norm, vl1_norm. cbn; rnum.
  rewrite !(Rabs_pos_eq 1), !(Rabs_pos_eq 3), !(Rabs_pos_eq 4), !(Rabs_left (-2)) by lra.
  split; unfold Rmax; repeat destruct Rle_dec; lra.
Qed.

(** ** C27 *)
Theorem C27_scale_translation_action :
  forall (K : Type) (NK : Num K) (LK : RingLaws K) (n : nat) (s t v : vec K n) (a w : K),
    mmulv (mfrom_nonuniform_scale s) v = vcmul s v /\
    mmulv (mfrom_scale n a) v = vmul_s v a /\
    mmulv (mfrom_affine_nonuniform_scale s) (vextend v w) = vextend (vcmul s v) w /\
    mmulv (mfrom_affine_scale n a) (vextend v w) = vextend (vmul_s v a) w /\
    mmulv (mfrom_affine_translation t) (vextend v n1) = vextend (vadd v t) n1 /\
    mmulv (mfrom_affine_translation t) (vextend v n0) = vextend v n0.
Proof.
  intros. conjs;
  [exact (mfrom_nonuniform_scale_act n s v) | exact (mfrom_scale_act n a v)
  | exact (mfrom_affine_nonuniform_scale_act n s v w) | exact (mfrom_affine_scale_act n a v w)
  | rewrite mfrom_affine_translation_act, vadd_mul_1; reflexivity
  | rewrite mfrom_affine_translation_act, vadd_mul_0; reflexivity].
Qed.
Print Assumptions C27_scale_translation_action.

Theorem C27_scale_translation_composition :
  forall (K : Type) (NK : Num K) (LK : RingLaws K) (n : nat) (s t : vec K n) (a b : K),
    mmul (mfrom_nonuniform_scale s) (mfrom_nonuniform_scale t) =
      mfrom_nonuniform_scale (vcmul s t) /\
    mmul (mfrom_scale n a) (mfrom_scale n b) = mfrom_scale n (nmul a b) /\
    mmul (mfrom_affine_nonuniform_scale s) (mfrom_affine_nonuniform_scale t) =
      mfrom_affine_nonuniform_scale (vcmul s t) /\
    mmul (mfrom_affine_scale n a) (mfrom_affine_scale n b) = mfrom_affine_scale n (nmul a b) /\
    mmul (mfrom_affine_translation s) (mfrom_affine_translation t) =
      mfrom_affine_translation (vadd s t) /\
    mmul (mfrom_affine_translation t) (mfrom_affine_translation (vneg t)) = midentity (S n) /\
    ((forall i, i < n -> nmul (vget n0 s i) (vget n0 t i) = n1) ->
      mmul (mfrom_nonuniform_scale s) (mfrom_nonuniform_scale t) = midentity n /\
      mmul (mfrom_affine_nonuniform_scale s) (mfrom_affine_nonuniform_scale t) =
        midentity (S n)).
Proof.
  intros. conjs;
  [exact (mfrom_nonuniform_scale_mul n s t) | exact (proj1 (mfrom_scale_mul n a b))
  | exact (mfrom_affine_nonuniform_scale_mul n s t) | exact (proj2 (mfrom_scale_mul n a b))
  | exact (mfrom_affine_translation_mul n s t) | exact (proj1 (translation_inverse n t))
  | exact (scale_inverse n s t)].
Qed.
Print Assumptions C27_scale_translation_composition.

Example C27_example :
  mmulv (mfrom_affine_translation (v2 10 20)%Z) (v3 1 2 1)%Z = (v3 11 22 1)%Z /\
  mmulv (mfrom_affine_nonuniform_scale (v2 3 5)%Z) (v3 1 2 1)%Z = (v3 3 10 1)%Z.
Proof. split; reflexivity. Qed.

(** ** C28 *)
Theorem C28_coordinate_shears_2d :
  forall (K : Type) (NK : Num K) (LK : RingLaws K) (s x y w : K),
    (mmulv (m2shear_xy s) (v2 x y) = v2 (nadd x (nmul s y)) y /\
     mmulv (m2shear_yx s) (v2 x y) = v2 x (nadd y (nmul s x)) /\
     mmulv (m3affine_shear_xy s) (v3 x y w) = v3 (nadd x (nmul s y)) y w /\
     mmulv (m3affine_shear_yx s) (v3 x y w) = v3 x (nadd y (nmul s x)) w).
Proof.
  intros. conjs;
  [exact (m2shear_xy_act s (v2 x y)) | exact (m2shear_yx_act s (v2 x y))
  | exact (m3affine_shear_xy_act s (v2 x y) w) | exact (m3affine_shear_yx_act s (v2 x y) w)].
Qed.
Print Assumptions C28_coordinate_shears_2d.

Theorem C28_coordinate_shears_3d :
  forall (K : Type) (NK : Num K) (LK : RingLaws K) (s x y z w : K),
    (mmulv (m3shear_xy s) (v3 x y z) = v3 (nadd x (nmul s y)) y z /\
     mmulv (m3shear_xz s) (v3 x y z) = v3 (nadd x (nmul s z)) y z /\
     mmulv (m3shear_yx s) (v3 x y z) = v3 x (nadd y (nmul s x)) z /\
     mmulv (m3shear_yz s) (v3 x y z) = v3 x (nadd y (nmul s z)) z /\
     mmulv (m3shear_zx s) (v3 x y z) = v3 x y (nadd z (nmul s x)) /\
     mmulv (m3shear_zy s) (v3 x y z) = v3 x y (nadd z (nmul s y))) /\
    (mmulv (m4affine_shear_xy s) (v4 x y z w) = v4 (nadd x (nmul s y)) y z w /\
     mmulv (m4affine_shear_xz s) (v4 x y z w) = v4 (nadd x (nmul s z)) y z w /\
     mmulv (m4affine_shear_yx s) (v4 x y z w) = v4 x (nadd y (nmul s x)) z w /\
     mmulv (m4affine_shear_yz s) (v4 x y z w) = v4 x (nadd y (nmul s z)) z w /\
     mmulv (m4affine_shear_zx s) (v4 x y z w) = v4 x y (nadd z (nmul s x)) w /\
     mmulv (m4affine_shear_zy s) (v4 x y z w) = v4 x y (nadd z (nmul s y)) w).
Proof.
  intros. conjs;
  [exact (m3shear_xy_act s (v3 x y z)) | exact (m3shear_xz_act s (v3 x y z))
  | exact (m3shear_yx_act s (v3 x y z)) | exact (m3shear_yz_act s (v3 x y z))
  | exact (m3shear_zx_act s (v3 x y z)) | exact (m3shear_zy_act s (v3 x y z))
  | exact (m4affine_shear_xy_act s (v3 x y z) w) | exact (m4affine_shear_xz_act s (v3 x y z) w)
  | exact (m4affine_shear_yx_act s (v3 x y z) w) | exact (m4affine_shear_yz_act s (v3 x y z) w)
  | exact (m4affine_shear_zx_act s (v3 x y z) w) | exact (m4affine_shear_zy_act s (v3 x y z) w)].
Qed.
Print Assumptions C28_coordinate_shears_3d.

Theorem C28_coordinate_shears_determinant :
  forall (K : Type) (NK : Num K) (LK : RingLaws K) (s : K),
    m2det (m2shear_xy s) = n1 /\ m2det (m2shear_yx s) = n1 /\
    m3det (m3shear_xy s) = n1 /\ m3det (m3shear_xz s) = n1 /\ m3det (m3shear_yx s) = n1 /\
    m3det (m3shear_yz s) = n1 /\ m3det (m3shear_zx s) = n1 /\ m3det (m3shear_zy s) = n1 /\
    m3det (m3affine_shear_xy s) = n1 /\ m3det (m3affine_shear_yx s) = n1 /\
    m4det (m4affine_shear_xy s) = n1 /\ m4det (m4affine_shear_xz s) = n1 /\
    m4det (m4affine_shear_yx s) = n1 /\ m4det (m4affine_shear_yz s) = n1 /\
    m4det (m4affine_shear_zx s) = n1 /\ m4det (m4affine_shear_zy s) = n1.
Proof. exact (fun K NK LK s => shear_dets s). Qed.
Print Assumptions C28_coordinate_shears_determinant.

Theorem C28_coordinate_shears_compose :
  forall (K : Type) (NK : Num K) (LK : RingLaws K) (s t : K),
    mmul (m2shear_xy s) (m2shear_xy t) = m2shear_xy (nadd s t) /\
    mmul (m2shear_yx s) (m2shear_yx t) = m2shear_yx (nadd s t) /\
    mmul (m3shear_xy s) (m3shear_xy t) = m3shear_xy (nadd s t) /\
    mmul (m3shear_xz s) (m3shear_xz t) = m3shear_xz (nadd s t) /\
    mmul (m3shear_yx s) (m3shear_yx t) = m3shear_yx (nadd s t) /\
    mmul (m3shear_yz s) (m3shear_yz t) = m3shear_yz (nadd s t) /\
    mmul (m3shear_zx s) (m3shear_zx t) = m3shear_zx (nadd s t) /\
    mmul (m3shear_zy s) (m3shear_zy t) = m3shear_zy (nadd s t) /\
    mmul (m3affine_shear_xy s) (m3affine_shear_xy t) = m3affine_shear_xy (nadd s t) /\
    mmul (m3affine_shear_yx s) (m3affine_shear_yx t) = m3affine_shear_yx (nadd s t) /\
    mmul (m4affine_shear_xy s) (m4affine_shear_xy t) = m4affine_shear_xy (nadd s t) /\
    mmul (m4affine_shear_xz s) (m4affine_shear_xz t) = m4affine_shear_xz (nadd s t) /\
    mmul (m4affine_shear_yx s) (m4affine_shear_yx t) = m4affine_shear_yx (nadd s t) /\
    mmul (m4affine_shear_yz s) (m4affine_shear_yz t) = m4affine_shear_yz (nadd s t) /\
    mmul (m4affine_shear_zx s) (m4affine_shear_zx t) = m4affine_shear_zx (nadd s t) /\
    mmul (m4affine_shear_zy s) (m4affine_shear_zy t) = m4affine_shear_zy (nadd s t).
Proof. exact (fun K NK LK s t => shear_compose s t). Qed.
Print Assumptions C28_coordinate_shears_compose.

(** General shears: x -> x + s (n . (x - o)) d.  Points have last coordinate one, vectors zero. *)
Theorem C28_general_shear_action :
  forall (K : Type) (NK : Num K) (LK : RingLaws K) (s w : K)
         (d2 n2 o2 u2 : vec K 2) (d3 n3 o3 u3 : vec K 3),
    mmulv (m2from_shear s d2 n2) u2 = vadd u2 (vmul_s d2 (nmul s (vdot n2 u2))) /\
    mmulv (m3from_shear s d3 n3) u3 = vadd u3 (vmul_s d3 (nmul s (vdot n3 u3))) /\
    mmulv (m3from_affine_shear s o2 d2 n2) (vextend u2 w) =
      vextend (vadd u2 (vmul_s d2 (nmul s (nsub (vdot n2 u2) (nmul (vdot n2 o2) w))))) w /\
    mmulv (m4from_affine_shear s o3 d3 n3) (vextend u3 w) =
      vextend (vadd u3 (vmul_s d3 (nmul s (nsub (vdot n3 u3) (nmul (vdot n3 o3) w))))) w.
Proof.
  intros. conjs;
  [exact (m2from_shear_act s d2 n2 u2) | exact (m3from_shear_act s d3 n3 u3)
  | exact (m3from_affine_shear_act s o2 d2 n2 u2 w) | exact (m4from_affine_shear_act s o3 d3 n3 u3 w)].
Qed.
Print Assumptions C28_general_shear_action.

Theorem C28_general_shear_laws :
  forall (K : Type) (NK : Num K) (LK : RingLaws K) (s t : K)
         (d2 n2 o2 : vec K 2) (d3 n3 o3 : vec K 3),
    (m2det (m2from_shear s d2 n2) = nadd n1 (nmul s (vdot d2 n2)) /\
     m3det (m3from_shear s d3 n3) = nadd n1 (nmul s (vdot d3 n3)) /\
     m3det (m3from_affine_shear s o2 d2 n2) = nadd n1 (nmul s (vdot d2 n2)) /\
     m4det (m4from_affine_shear s o3 d3 n3) = nadd n1 (nmul s (vdot d3 n3))) /\
    (vdot n2 d2 = n0 ->
      mmul (m2from_shear s d2 n2) (m2from_shear t d2 n2) = m2from_shear (nadd s t) d2 n2 /\
      mmul (m3from_affine_shear s o2 d2 n2) (m3from_affine_shear t o2 d2 n2) =
        m3from_affine_shear (nadd s t) o2 d2 n2) /\
    (vdot n3 d3 = n0 ->
      mmul (m3from_shear s d3 n3) (m3from_shear t d3 n3) = m3from_shear (nadd s t) d3 n3 /\
      mmul (m4from_affine_shear s o3 d3 n3) (m4from_affine_shear t o3 d3 n3) =
        m4from_affine_shear (nadd s t) o3 d3 n3).
Proof.
  intros. conjs;
  [exact (m2from_shear_det s d2 n2) | exact (m3from_shear_det s d3 n3)
  | exact (m3from_affine_shear_det s o2 d2 n2) | exact (m4from_affine_shear_det s o3 d3 n3)
  | exact (fun H => conj (m2from_shear_compose s t d2 n2 H)
                         (m3from_affine_shear_compose s t o2 d2 n2 H))
  | exact (fun H => conj (m3from_shear_compose s t d3 n3 H)
                         (m4from_affine_shear_compose s t o3 d3 n3 H))].
Qed.
Print Assumptions C28_general_shear_laws.

Example C28_example :
  mmulv (m4from_affine_shear 2 (v3 0 0 1) (v3 1 0 0) (v3 0 0 1))%Z (v4 5 6 4 1)%Z =
    (v4 11 6 4 1)%Z.
Proof. reflexivity. Qed.

(** ** C29 *)
Theorem C29_reflection_action :
  forall (K : Type) (NK : Num K) (LK : RingLaws K) (w : K)
         (n2 b2 u2 : vec K 2) (n3 b3 u3 : vec K 3),
    let two := nadd n1 n1 in
    mmulv (m2from_reflection n2) u2 = vsub u2 (vmul_s n2 (nmul two (vdot u2 n2))) /\
    mmulv (m3from_reflection n3) u3 = vsub u3 (vmul_s n3 (nmul two (vdot u3 n3))) /\
    mmulv (m3from_affine_reflection n2 b2) (vextend u2 w) =
      vextend (vsub u2 (vmul_s n2 (nmul two (nsub (vdot u2 n2) (nmul (vdot b2 n2) w))))) w /\
    mmulv (m4from_affine_reflection n3 b3) (vextend u3 w) =
      vextend (vsub u3 (vmul_s n3 (nmul two (nsub (vdot u3 n3) (nmul (vdot b3 n3) w))))) w.
Proof.
  intros. conjs;
  [exact (m2from_reflection_act n2 u2) | exact (m3from_reflection_act n3 u3)
  | exact (m3from_affine_reflection_act n2 b2 u2 w) | exact (m4from_affine_reflection_act n3 b3 u3 w)].
Qed.
Print Assumptions C29_reflection_action.

Theorem C29_reflection_involution_determinant :
  forall (K : Type) (NK : Num K) (LK : RingLaws K) (n2 b2 : vec K 2) (n3 b3 : vec K 3),
    let two := nadd n1 n1 in
    (m2det (m2from_reflection n2) = nsub n1 (nmul two (vdot n2 n2)) /\
     m3det (m3from_reflection n3) = nsub n1 (nmul two (vdot n3 n3)) /\
     m3det (m3from_affine_reflection n2 b2) = nsub n1 (nmul two (vdot n2 n2)) /\
     m4det (m4from_affine_reflection n3 b3) = nsub n1 (nmul two (vdot n3 n3))) /\
    (vdot n2 n2 = n1 ->
      mmul (m2from_reflection n2) (m2from_reflection n2) = midentity 2 /\
      mmul (m3from_affine_reflection n2 b2) (m3from_affine_reflection n2 b2) = midentity 3) /\
    (vdot n3 n3 = n1 ->
      mmul (m3from_reflection n3) (m3from_reflection n3) = midentity 3 /\
      mmul (m4from_affine_reflection n3 b3) (m4from_affine_reflection n3 b3) = midentity 4).
Proof.
  intros. conjs;
  [exact (m2from_reflection_det n2) | exact (m3from_reflection_det n3)
  | exact (m3from_affine_reflection_det n2 b2) | exact (m4from_affine_reflection_det n3 b3)
  | exact (fun H => conj (m2from_reflection_invol n2 H) (m3from_affine_reflection_invol n2 b2 H))
  | exact (fun H => conj (m3from_reflection_invol n3 H) (m4from_affine_reflection_invol n3 b3 H))].
Qed.
Print Assumptions C29_reflection_involution_determinant.

Theorem C29_reflection_isometry :
  forall (K : Type) (NK : Num K) (LK : RingLaws K) (n2 u2 v2 : vec K 2) (n3 u3 v3 : vec K 3),
    (vdot n2 n2 = n1 ->
      vdot (mmulv (m2from_reflection n2) u2) (mmulv (m2from_reflection n2) v2) = vdot u2 v2 /\
      mmulv (m2from_reflection n2) n2 = vneg n2 /\
      (vdot u2 n2 = n0 -> mmulv (m2from_reflection n2) u2 = u2)) /\
    (vdot n3 n3 = n1 ->
      vdot (mmulv (m3from_reflection n3) u3) (mmulv (m3from_reflection n3) v3) = vdot u3 v3 /\
      mmulv (m3from_reflection n3) n3 = vneg n3 /\
      (vdot u3 n3 = n0 -> mmulv (m3from_reflection n3) u3 = u3)).
Proof.
  intros. split; intros H; conjs;
  [ rewrite !m2from_reflection_act; exact (refl_isometry 2 n2 u2 v2 H)
  | rewrite m2from_reflection_act; exact (refl_normal 2 n2 H)
  | intros E; rewrite m2from_reflection_act; exact (refl_mirror 2 n2 u2 E)
  | rewrite !m3from_reflection_act; exact (refl_isometry 3 n3 u3 v3 H)
  | rewrite m3from_reflection_act; exact (refl_normal 3 n3 H)
  | intros E; rewrite m3from_reflection_act; exact (refl_mirror 3 n3 u3 E) ].
Qed.
Print Assumptions C29_reflection_isometry.

(** The affine mirror {p | p . n = b . n} is fixed pointwise. *)
Theorem C29_affine_reflection_fixes_mirror :
  forall (K : Type) (NK : Num K) (LK : RingLaws K) (n2 b2 p2 : vec K 2) (n3 b3 p3 : vec K 3),
    (vdot p2 n2 = vdot b2 n2 ->
      mmulv (m3from_affine_reflection n2 b2) (vextend p2 n1) = vextend p2 n1) /\
    (vdot p3 n3 = vdot b3 n3 ->
      mmulv (m4from_affine_reflection n3 b3) (vextend p3 n1) = vextend p3 n1).
Proof.
  intros. split; intros H;
  [ rewrite m3from_affine_reflection_act; exact (f_equal (fun v => vextend v n1) (refl_h_mirror 2 n2 b2 p2 H))
  | rewrite m4from_affine_reflection_act; exact (f_equal (fun v => vextend v n1) (refl_h_mirror 3 n3 b3 p3 H)) ].
Qed.
Print Assumptions C29_affine_reflection_fixes_mirror.

Example C29_example :
  mmulv (m4from_affine_reflection (v3 0 0 1) (v3 0 0 5))%Z (v4 1 2 7 1)%Z = (v4 1 2 3 1)%Z.
Proof. reflexivity. Qed.

(** ** C90 (matrices) *)
Theorem C90_matrix_comparison_entrywise :
  forall (A B : Type) (cmp : A -> A -> B -> bool) (da : A) (db : B) (r c : nat)
         (m m' : mat A r c) (t : mat B r c),
    mcmp_all cmp da db m m' t = true <->
    (forall j i, j < c -> i < r ->
       cmp (mget_d da m j i) (mget_d da m' j i) (mget_d db t j i) = true).
Proof. exact (fun A B cmp da db r c m m' t => mcmp_all_spec cmp da db r c m m' t). Qed.
Print Assumptions C90_matrix_comparison_entrywise.

(** ** C92 *)
Theorem C92_cross_matrix :
  forall (K : Type) (NK : Num K) (LK : RingLaws K) (v w : vec K 3),
    mmulv (m3cross_matrix v) w = vcross v w /\
    mtranspose (m3cross_matrix v) = mneg (m3cross_matrix v) /\
    mmulv (mmul (m3cross_matrix v) (m3cross_matrix v)) w =
      vsub (vmul_s v (vdot v w)) (vmul_s w (vdot v v)).
Proof.
  intros. exact (conj (m3cross_matrix_act v w)
    (conj (m3cross_matrix_anti v) (m3cross_matrix_sq v w))).
Qed.
Print Assumptions C92_cross_matrix.

Example C92_example : m3cross_matrix (v3 1 2 3)%Z = (m3new 0 3 (-2) (-3) 0 1 2 (-1) 0)%Z.
Proof. reflexivity. Qed.
