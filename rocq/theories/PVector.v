(** Property theorems about vectors.  See properties.jsonl for the English statements. *)

From Coq Require Import List Arith Lia Reals Lra ZArith Bool.
From Verif Require Import Base Scalar Spec LBase MVector LVector LVectorR.
Local Open Scope nat_scope.

(** ** C01 *)
Theorem C01_vector_module_laws :
  forall (K : Type) (NK : Num K) (LK : RingLaws K) (n : nat) (u v w : vec K n) (a b : K),
    (vadd u v = vadd v u) /\
    (vadd u (vadd v w) = vadd (vadd u v) w) /\
    (vadd u (vzero n) = u) /\
    (vadd u (vneg u) = vzero n) /\
    (vsub u v = vadd u (vneg v)) /\
    (vmul_s (vadd u v) a = vadd (vmul_s u a) (vmul_s v a)) /\
    (vmul_s u (nadd a b) = vadd (vmul_s u a) (vmul_s u b)) /\
    (vmul_s (vmul_s u a) b = vmul_s u (nmul a b)) /\
    (vmul_s u n1 = u) /\
    (s_mul_v a u = vmul_s u a).
Proof.
  intros. conjs;
  [exact (vadd_comm _ u v) | exact (vadd_assoc _ u v w) | exact (vadd_0_r _ u)
  | exact (vadd_neg_r _ u) | exact (vsub_def _ u v) | exact (vmul_s_add _ u v a)
  | exact (vmul_s_add_s _ u a b) | exact (vmul_s_assoc _ u a b) | exact (vmul_s_1 _ u)
  | exact (s_mul_v_eq _ u a)].
Qed.
Print Assumptions C01_vector_module_laws.

(** The operations are the componentwise ones (so the laws above are about the right maps). *)
Theorem C01_vector_componentwise :
  forall (K : Type) (NK : Num K) (n : nat) (u v : vec K n) (a : K) (i : nat), i < n ->
    vindex (vadd u v) i = Some (nadd (vget n0 u i) (vget n0 v i)) /\
    vindex (vsub u v) i = Some (nsub (vget n0 u i) (vget n0 v i)) /\
    vindex (vneg u) i = Some (nneg (vget n0 u i)) /\
    vindex (vmul_s u a) i = Some (nmul (vget n0 u i) a) /\
    vindex (s_mul_v a u) i = Some (nmul a (vget n0 u i)) /\
    vindex (vzero n) i = Some n0.
Proof.
  intros. rewrite !(vindex_get n0) by assumption. conjs; f_equal;
  [exact (vat_vadd _ u v i H) | exact (vat_vsub _ u v i H) | exact (vat_vneg _ u i H)
  | exact (vat_vmul_s _ u a i H) | exact (vat_s_mul_v _ u a i H) | exact (vat_vzero n i)].
Qed.
Print Assumptions C01_vector_componentwise.

Example C01_example :
  vadd (v3 1 2 3)%Z (v3 10 20 30)%Z = (v3 11 22 33)%Z /\
  vmul_s (v3 1 (-2) 3)%Z 5%Z = (v3 5 (-10) 15)%Z.
Proof. split; reflexivity. Qed.

(** ** C02 (vectors) *)
Theorem C02_vector_in_place :
  forall (K : Type) (NK : Num K) (DK : NumDiv K) (n : nat) (u v : vec K n) (a : K),
    vadd_assign u v = vadd u v /\ vsub_assign u v = vsub u v /\
    vmul_assign u a = vmul_s u a /\ vdiv_assign u a = vdiv_s u a /\
    vcmul_assign u v = vcmul u v /\ vneg_mut u = vneg u.
Proof.
  intros. conjs;
  [exact (vadd_assign_eq n u v) | exact (vsub_assign_eq n u v) | exact (vmul_assign_eq n u a)
  | exact (vdiv_assign_eq n u a) | exact (vcmul_assign_eq n u v) | exact (vneg_mut_eq n u)].
Qed.
Print Assumptions C02_vector_in_place.

Theorem C02_vector_normalize_mut :
  forall (n : nat) (u : vec R n) (t : R),
    vnormalize_mut u = (vnormalize u, vnorm u) /\
    fst (vtry_normalize_mut u t) =
      (match vtry_normalize u t with Some w => w | None => u end) /\
    snd (vtry_normalize_mut u t) =
      (match vtry_normalize u t with Some _ => Some (vnorm u) | None => None end).
Proof.
  intros. unfold vtry_normalize_mut, vtry_normalize.
  destruct (Rle_dec (vnorm u) t); conjs; reflexivity.
Qed.
Print Assumptions C02_vector_normalize_mut.

Example C02_example : vcmul_assign (v2 3 4)%Z (v2 5 6)%Z = (v2 15 24)%Z.
Proof. reflexivity. Qed.

(** ** C03 *)
Theorem C03_dot_bilinear_symmetric :
  forall (K : Type) (NK : Num K) (LK : RingLaws K) (n : nat) (u v w : vec K n) (a : K),
    vdot u v = sum n (fun i => nmul (vget n0 u i) (vget n0 v i)) /\
    vdot u v = vdot v u /\
    vdot (vadd u v) w = nadd (vdot u w) (vdot v w) /\
    vdot u (vadd v w) = nadd (vdot u v) (vdot u w) /\
    vdot (vmul_s u a) v = nmul (vdot u v) a /\
    vdot u (vmul_s v a) = nmul (vdot u v) a /\
    vnorm_squared u = vdot u u.
Proof.
  intros. conjs;
  [exact (vdot_sum n u v) | exact (vdot_comm n u v) | exact (vdot_add_l n u v w)
  | exact (vdot_add_r n u v w) | exact (vdot_mul_l n u v a) | exact (vdot_mul_r n u v a)
  | exact eq_refl].
Qed.
Print Assumptions C03_dot_bilinear_symmetric.

Theorem C03_dot_positive_definite :
  forall (n : nat) (u : vec R n), (0 <= vdot u u)%R /\ (vdot u u = 0%R <-> u = vzero n).
Proof. exact (fun n u => conj (vdot_pos n u) (vdot_zero n u)). Qed.
Print Assumptions C03_dot_positive_definite.

Theorem C03_cauchy_schwarz :
  forall (n : nat) (u v : vec R n), (Rabs (vdot u v) <= vnorm u * vnorm v)%R.
Proof. exact cauchy_schwarz. Qed.
Print Assumptions C03_cauchy_schwarz.

Example C03_example : vdot (v3 1 2 3)%Z (v3 4 (-5) 6)%Z = 12%Z.
Proof. reflexivity. Qed.

(** ** C04 *)
Theorem C04_cross_product_laws :
  forall (K : Type) (NK : Num K) (LK : RingLaws K) (u v w : vec K 3) (a : K),
    vcross u v = vneg (vcross v u) /\
    vcross u u = vzero 3 /\
    vcross (vadd u v) w = vadd (vcross u w) (vcross v w) /\
    vcross u (vadd v w) = vadd (vcross u v) (vcross u w) /\
    vcross (vmul_s u a) v = vmul_s (vcross u v) a /\
    vcross u (vmul_s v a) = vmul_s (vcross u v) a /\
    vdot u (vcross u v) = n0 /\
    vdot v (vcross u v) = n0 /\
    vadd (vcross u (vcross v w)) (vadd (vcross v (vcross w u)) (vcross w (vcross u v)))
      = vzero 3 /\
    vcross u (vcross v w) = vsub (vmul_s v (vdot u w)) (vmul_s w (vdot u v)) /\
    vdot (vcross u v) (vcross u v)
      = nsub (nmul (vdot u u) (vdot v v)) (nmul (vdot u v) (vdot u v)).
Proof.
  intros. conjs;
  [exact (vcross_anti u v) | exact (vcross_self u) | exact (vcross_add_l u v w)
  | exact (vcross_add_r u v w) | exact (vcross_mul_l u v a) | exact (vcross_mul_r u v a)
  | exact (vcross_orth_l u v) | exact (vcross_orth_r u v) | exact (vcross_jacobi u v w)
  | exact (vcross_bac_cab u v w) | exact (vcross_lagrange u v)].
Qed.
Print Assumptions C04_cross_product_laws.

Theorem C04_triple_product :
  forall (K : Type) (NK : Num K) (LK : RingLaws K) (u v w : vec K 3),
    vtriple u v w = vtriple v w u /\
    vtriple u v w = nneg (vtriple v u w) /\
    vtriple u v w = vdot u (vcross v w) /\
    vtriple u v w =
      laplace 3 (fun r c => vget n0 (vget u (v3 u v w) c) r).
Proof.
  intros. conjs;
  [exact (vtriple_cyclic u v w) | exact (vtriple_swap u v w) | exact (vtriple_dot_cross u v w)
  | exact (vtriple_laplace u v w)].
Qed.
Print Assumptions C04_triple_product.

(** Right-handedness: fixes the sign. *)
Example C04_example :
  vcross v3_unit_x v3_unit_y = (v3_unit_z : vec Z 3) /\
  vcross v3_unit_y v3_unit_z = (v3_unit_x : vec Z 3) /\
  vtriple (v3 1 2 3)%Z (v3 0 1 4)%Z (v3 5 6 0)%Z = 1%Z.
Proof. repeat split; reflexivity. Qed.

(** ** C05 (vectors) *)
Theorem C05_vector_homogeneous :
  forall (K : Type) (NK : Num K) (DK : NumDiv K) (FK : FieldLaws K) (n : nat)
         (u : vec K n) (h : vec K (S n)),
    vfrom_homogeneous (vto_homogeneous u) = Some u /\
    (vfrom_homogeneous h = None <-> vget n0 h n <> n0) /\
    (vfrom_homogeneous h = Some u <-> h = vto_homogeneous u).
Proof.
  intros. conjs;
  [exact (vfrom_to_homogeneous n u) | exact (vfrom_homogeneous_none n h)
  | exact (vfrom_homogeneous_some n h u)].
Qed.
Print Assumptions C05_vector_homogeneous.

Theorem C05_extend_contract :
  forall (K : Type) (NK : Num K) (n : nat) (u : vec K n) (h : vec K (S n)) (a : K),
    vcontract (vextend u a) = u /\
    vextend (vcontract h) (vget n0 h n) = h /\
    vget n0 (vextend u a) n = a /\
    (forall i, i < n -> vget n0 (vextend u a) i = vget n0 u i).
Proof.
  intros. conjs;
  [exact (contract_extend n u a) | exact (extend_contract n h) | exact (extend_last n u a)
  | exact (fun i => extend_init n u a i)].
Qed.
Print Assumptions C05_extend_contract.

Example C05_vector_example :
  vfrom_homogeneous (v3 7 8 0)%Z = Some (v2 7 8)%Z /\
  vfrom_homogeneous (v3 7 8 1)%Z = None /\
  vextend (v2 7 8)%Z 9%Z = (v3 7 8 9)%Z.
Proof. repeat split; reflexivity. Qed.

(** ** C06 (vectors) *)
Theorem C06_vector_lerp :
  forall (K : Type) (NK : Num K) (LK : RingLaws K) (n : nat) (u v : vec K n) (t : K),
    vlerp u v n0 = u /\ vlerp u v n1 = v /\ vlerp u u t = u /\
    vlerp u v t = vadd (vmul_s u (nsub n1 t)) (vmul_s v t) /\
    vlerp u v t = vlerp v u (nsub n1 t).
Proof.
  intros. conjs;
  [exact (vlerp_0 n u v) | exact (vlerp_1 n u v) | exact (vlerp_same n u t)
  | exact (vlerp_affine n u v t) | exact (vlerp_swap n u v t)].
Qed.
Print Assumptions C06_vector_lerp.

Theorem C06_vector_lerp_between :
  forall (n : nat) (u v : vec R n) (t : R) (i : nat), (0 <= t <= 1)%R -> i < n ->
    (Rmin (vget 0 u i) (vget 0 v i) <= vget 0 (vlerp u v t) i
       <= Rmax (vget 0 u i) (vget 0 v i))%R.
Proof. exact vlerp_between. Qed.
Print Assumptions C06_vector_lerp_between.

Example C06_example : vlerp (v2 0 10)%Z (v2 4 2)%Z 3%Z = (v2 12 (-14))%Z.
Proof. reflexivity. Qed.

(** ** C07 (vectors) *)
Theorem C07_norm_axioms :
  forall (n : nat) (u v : vec R n) (a : R),
    (0 <= vnorm u)%R /\ (vnorm u = 0%R <-> u = vzero n) /\
    (vnorm (vmul_s u a) = vnorm u * Rabs a)%R /\
    (vnorm (vadd u v) <= vnorm u + vnorm v)%R /\
    (vnorm u * vnorm u = vnorm_squared u)%R.
Proof.
  intros. conjs;
  [exact (vnorm_nonneg n u) | exact (vnorm_zero n u)
  | exact (vnorm_mul n u a) | exact (vnorm_triangle n u v) | exact (vnorm_sq n u)].
Qed.
Print Assumptions C07_norm_axioms.

Theorem C07_distance_axioms :
  forall (n : nat) (u v w : vec R n),
    (0 <= vdist u v)%R /\ (vdist u v = 0%R <-> u = v) /\ (vdist u v = vdist v u) /\
    (vdist u w <= vdist u v + vdist v w)%R /\
    (vdist u v * vdist u v = vdist_squared u v)%R /\
    (norm_metric_distance vnorm u v = vdist u v).
Proof.
  intros. conjs;
  [exact (vdist_nonneg n u v) | exact (vdist_zero n u v)
  | exact (vdist_sym n u v) | exact (vdist_triangle n u v w) | exact (vdist_sq n u v)
  | exact (vdist_sym n v u)].
Qed.
Print Assumptions C07_distance_axioms.

Example C07_example : vnorm (v2 3 4)%R = 5%R /\ vdist (v2 1 1)%R (v2 4 5)%R = 5%R.
Proof. exact vnorm_example. Qed.

(** ** C08 *)
Theorem C08_l1_norm_axioms :
  forall (n : nat) (u v : vec R n) (a : R),
    (0 <= vl1_norm u)%R /\ (vl1_norm u = 0%R <-> u = vzero n) /\
    (vl1_norm (vmul_s u a) = vl1_norm u * Rabs a)%R /\
    (vl1_norm (vadd u v) <= vl1_norm u + vl1_norm v)%R.
Proof.
  intros. conjs;
  [exact (vl1_nonneg n u) | exact (vl1_zero n u)
  | exact (vl1_mul n u a) | exact (vl1_triangle n u v)].
Qed.
Print Assumptions C08_l1_norm_axioms.

Theorem C08_linf_norm_axioms :
  forall (n : nat) (u v : vec R n) (a : R),
    (0 <= vlinf_norm u)%R /\ (vlinf_norm u = 0%R <-> u = vzero n) /\
    (vlinf_norm (vmul_s u a) = vlinf_norm u * Rabs a)%R /\
    (vlinf_norm (vadd u v) <= vlinf_norm u + vlinf_norm v)%R.
Proof.
  intros. conjs;
  [exact (vlinf_nonneg n u) | exact (vlinf_zero n u)
  | exact (vlinf_mul n u a) | exact (vlinf_triangle n u v)].
Qed.
Print Assumptions C08_linf_norm_axioms.

Theorem C08_norm_values :
  forall (n : nat) (u : vec R n),
    vl1_norm u = sum n (fun i => Rabs (vget 0%R u i)) /\
    (forall i, i < n -> (Rabs (vget 0 u i) <= vlinf_norm u)%R) /\
    (0 < n -> exists i, i < n /\ vlinf_norm u = Rabs (vget 0%R u i)).
Proof.
  intros. conjs;
  [exact (vl1_sum n u) | exact (vlinf_ge n u) | exact (vlinf_attained n u)].
Qed.
Print Assumptions C08_norm_values.

Theorem C08_norms_ordered :
  forall (n : nat) (u : vec R n),
    (vlinf_norm u <= vnorm u)%R /\ (vnorm u <= vl1_norm u)%R /\
    (vl1_norm u <= INR n * vlinf_norm u)%R.
Proof. exact (fun n u => conj (linf_le_l2 n u) (conj (l2_le_l1 n u) (l1_le_n_linf n u))). Qed.
Print Assumptions C08_norms_ordered.

(** [metric_distance] of the L1 and Linf norm objects is a metric. *)
Theorem C08_metric_distances :
  forall (n : nat) (u v w : vec R n),
    (let d := @norm_metric_distance n vl1_norm in
       (0 <= d u v)%R /\ (d u v = 0%R <-> u = v) /\ d u v = d v u /\ (d u w <= d u v + d v w)%R) /\
    (let d := @norm_metric_distance n vlinf_norm in
       (0 <= d u v)%R /\ (d u v = 0%R <-> u = v) /\ d u v = d v u /\ (d u w <= d u v + d v w)%R).
Proof. exact (fun n u v w => conj (vl1_metric n u v w) (vlinf_metric n u v w)). Qed.
Print Assumptions C08_metric_distances.

Example C08_example : vl1_norm (v2 3 (-4))%R = 7%R /\ vlinf_norm (v2 3 (-4))%R = 4%R.
Proof. exact vl1_linf_example. Qed.

(** ** C10 *)
Theorem C10_normalize :
  forall (n : nat) (u : vec R n), u <> vzero n ->
    vnorm (vnormalize u) = 1%R /\
    vmul_s (vnormalize u) (vnorm u) = u /\
    vnormalize (vnormalize u) = vnormalize u /\
    (forall a, (0 < a)%R -> vnormalize (vmul_s u a) = vnormalize u).
Proof.
  intros n u H. conjs;
  [exact (vnormalize_norm n u H) | exact (vnormalize_back n u H)
  | exact (vnormalize_unit n _ (vnormalize_norm n u H))
  | exact (fun a Ha => vnormalize_pos_mul n u a Ha H)].
Qed.
Print Assumptions C10_normalize.

Theorem C10_try_normalize :
  forall (n : nat) (u : vec R n) (t : R),
    (vtry_normalize u t = None <-> (vnorm u <= t)%R) /\
    ((t < vnorm u)%R -> vtry_normalize u t = Some (vnormalize u)).
Proof. exact vtry_normalize_iff. Qed.
Print Assumptions C10_try_normalize.

Example C10_example :
  v2 3%R 4%R <> vzero 2 /\ vnormalize (v2 3 4)%R = (v2 (3 / 5) (4 / 5))%R.
Proof. exact vnormalize_example. Qed.

(** ** C11 *)
Theorem C11_project :
  forall (n : nat) (u w : vec R n), w <> vzero n ->
    (exists a, vproject u w = vmul_s w a) /\
    vdot (vsub u (vproject u w)) w = 0%R /\
    vproject (vproject u w) w = vproject u w.
Proof.
  intros n u w H. conjs;
  [exact (ex_intro _ _ eq_refl) | exact (vproject_orth n u w H) | exact (vproject_idem n u w H)].
Qed.
Print Assumptions C11_project.

Theorem C11_reflect :
  forall (n : nat) (u m : vec R n), m <> vzero n ->
    vnorm (vreflect u m) = vnorm u /\
    vreflect (vreflect u m) m = u /\
    (forall a, vreflect (vmul_s m a) m = vmul_s m (- a)%R) /\
    (vdot u m = 0%R -> vreflect u m = u).
Proof.
  intros n u m H. conjs;
  [exact (vreflect_norm n u m H) | exact (vreflect_invol n u m H)
  | exact (fun a => vreflect_normal n m a H) | exact (vreflect_orth n u m H)].
Qed.
Print Assumptions C11_reflect.

Example C11_example : vreflect (v2 1 2)%R (v2 0 5)%R = (v2 1 (-2))%R.
Proof. exact vreflect_example. Qed.

(** ** C12 (vectors and points) *)
Theorem C12_vector_try_cast :
  forall (A B : Type) (conv : A -> option B) (da : A) (db : B) (n : nat) (v : vec A n),
    (forall w : vec B n, vtry_cast conv da db v = Some w <->
       (forall i, i < n -> conv (vget da v i) = Some (vget db w i))) /\
    (vtry_cast conv da db v = None <-> exists i, i < n /\ conv (vget da v i) = None).
Proof.
  intros. exact (conj (fun w => vtry_cast_spec conv da db n v w) (vtry_cast_none conv da db n v)).
Qed.
Print Assumptions C12_vector_try_cast.

(** A conversion that fails outside [0, 255], like [i32 -> u8]. *)
Example C12_example :
  let conv x := if (0 <=? x)%Z && (x <=? 255)%Z then Some x else None in
  vtry_cast conv 0%Z 0%Z (v3 1 255 0)%Z = Some (v3 1 255 0)%Z /\
  vtry_cast conv 0%Z 0%Z (v3 1 256 0)%Z = None.
Proof. split; reflexivity. Qed.

(** ** C13 *)
Theorem C13_map :
  forall (A B C : Type) (f : A -> B) (g : B -> C) (n : nat) (v : vec A n),
    vector_map g (vector_map f v) = vector_map (fun x => g (f x)) v /\
    vector_map (fun x => x) v = v /\
    (forall da db i, i < n -> vget db (vector_map f v) i = f (vget da v i)).
Proof.
  intros. conjs;
  [exact (vmap_compose f g n v) | exact (vmap_id n v) | exact (fun da db i => vget_vmap f da db n v i)].
Qed.
Print Assumptions C13_map.

Theorem C13_component_mul :
  forall (K : Type) (NK : Num K) (LK : RingLaws K) (n : nat) (u v w : vec K n),
    vcmul u v = vcmul v u /\ vcmul u (vcmul v w) = vcmul (vcmul u v) w /\
    vcmul u (vadd v w) = vadd (vcmul u v) (vcmul u w) /\
    vcmul u (vfrom_fill n n1) = u.
Proof.
  intros. conjs;
  [exact (vcmul_comm n u v) | exact (vcmul_assoc n u v w) | exact (vcmul_add_r n u v w)
  | exact (vcmul_ones n u)].
Qed.
Print Assumptions C13_component_mul.

Theorem C13_component_min_max :
  forall (n : nat) (u v w : vec R n),
    vcmin u v = vcmin v u /\ vcmax u v = vcmax v u /\
    vcmin u (vcmin v w) = vcmin (vcmin u v) w /\ vcmax u (vcmax v w) = vcmax (vcmax u v) w /\
    vcmin u u = u /\ vcmax u u = u /\
    vcmin u (vcmax u v) = u /\ vcmax u (vcmin u v) = u /\
    (forall i, i < n -> vget 0%R (vcmin u v) i = Rmin (vget 0%R u i) (vget 0%R v i)) /\
    (forall i, i < n -> vget 0%R (vcmax u v) i = Rmax (vget 0%R u i) (vget 0%R v i)).
Proof.
  intros. conjs;
  [exact (vcmin_comm n u v) | exact (vcmax_comm n u v) | exact (vcmin_assoc n u v w)
  | exact (vcmax_assoc n u v w) | exact (vcmin_idem n u) | exact (vcmax_idem n u)
  | exact (vcmin_absorb n u v) | exact (vcmax_absorb n u v)
  | exact (vat_vcmin n u v) | exact (vat_vcmax n u v)].
Qed.
Print Assumptions C13_component_min_max.

Example C13_example : vector_map (fun x => x * x)%Z (v3 1 2 3)%Z = (v3 1 4 9)%Z.
Proof. reflexivity. Qed.

(** ** C14 (vectors) *)
Theorem C14_vector_is_zero :
  forall (K : Type) (NK : Num K) (DK : NumDiv K) (FK : FieldLaws K) (n : nat) (u : vec K n),
    vis_zero u = true <-> (forall i, i < n -> vget n0 u i = n0).
Proof. exact (fun K NK DK FK n u => vis_zero_iff n u). Qed.
Print Assumptions C14_vector_is_zero.

Example C14_example : vis_zero (v3 0 0 0)%Z = true /\ vis_zero (v3 0 0 1)%Z = false.
Proof. split; reflexivity. Qed.

(** ** C90 (vectors): approximate comparison is componentwise *)
Theorem C90_vector_comparison_componentwise :
  forall (A B : Type) (cmp : A -> B -> bool) (da : A) (db : B) (n : nat)
         (u : vec A n) (v : vec B n),
    vcmp_all cmp da db u v = true <->
    (forall i, i < n -> cmp (vget da u i) (vget db v i) = true).
Proof. exact (fun A B cmp da db n u v => vcmp_all_spec cmp da db n u v). Qed.
Print Assumptions C90_vector_comparison_componentwise.
