(** Lemmas and proofs about vectors over any commutative ring / field. *)

From Coq Require Import List Arith Lia Bool Ring Setoid.
From Verif Require Import Base Scalar Spec LBase MVector.
Import ListNotations.
Local Open Scope nat_scope.

(** ** Components of the results, no ring laws needed *)

Section Components.
Context {K : Type} {NK : Num K}.
Local Open Scope num_scope.

Lemma vat_ext n (u v : vec K n) : (forall i, (i < n)%nat -> vat u i = vat v i) -> u = v.
Proof. apply vec_ext. Qed.

Lemma vat_vzero n i : vat (vzero n) i = (0 : K).
Proof. apply vget_vfill_same. Qed.
Lemma vat_fill n (a : K) i : (i < n)%nat -> vat (vfrom_fill n a) i = a.
Proof. apply vget_vfill. Qed.
Lemma vat_vadd n (u v : vec K n) i : (i < n)%nat -> vat (vadd u v) i = vat u i + vat v i.
Proof. intros; unfold vadd, vat; rewrite vget_loop_fill; auto. Qed.
Lemma vat_vsub n (u v : vec K n) i : (i < n)%nat -> vat (vsub u v) i = vat u i - vat v i.
Proof. intros; unfold vsub, vat; rewrite vget_loop_fill; auto. Qed.
Lemma vat_vneg n (u : vec K n) i : (i < n)%nat -> vat (vneg u) i = - vat u i.
Proof. intros; unfold vneg, vat; rewrite vget_loop_fill; auto. Qed.
Lemma vat_vmul_s n (u : vec K n) a i : (i < n)%nat -> vat (vmul_s u a) i = vat u i * a.
Proof. intros; unfold vmul_s, vat; rewrite vget_loop_fill; auto. Qed.
Lemma vat_s_mul_v n (u : vec K n) a i : (i < n)%nat -> vat (s_mul_v a u) i = a * vat u i.
Proof. intros; unfold s_mul_v, vat; rewrite vget_loop_fill; auto. Qed.
Lemma vat_vcmul n (u v : vec K n) i : (i < n)%nat -> vat (vcmul u v) i = vat u i * vat v i.
Proof. intros; unfold vcmul, vat; rewrite vget_loop_fill; auto. Qed.
Lemma vat_vcmul_assign n (u v : vec K n) i :
  (i < n)%nat -> vat (vcmul_assign u v) i = vat u i * vat v i.
Proof.
  intros; unfold vcmul_assign, vat.
  rewrite (vget_loop_map 0 n (fun i x => x * vget 0 v i)); auto.
Qed.
Lemma vat_vneg_mut n (u : vec K n) i : (i < n)%nat -> vat (vneg_mut u) i = - vat u i.
Proof.
  intros; unfold vneg_mut, vat. rewrite (vget_loop_map 0 n (fun i x => - x)); auto.
Qed.
Lemma vat_vadd_assign n (u v : vec K n) i :
  (i < n)%nat -> vat (vadd_assign u v) i = vat u i + vat v i.
Proof.
  intros; unfold vadd_assign, vat.
  rewrite (vget_loop_map 0 n (fun i x => x + vget 0 v i)); auto.
Qed.
Lemma vat_vsub_assign n (u v : vec K n) i :
  (i < n)%nat -> vat (vsub_assign u v) i = vat u i - vat v i.
Proof.
  intros; unfold vsub_assign, vat.
  rewrite (vget_loop_map 0 n (fun i x => x - vget 0 v i)); auto.
Qed.
Lemma vat_vmul_assign n (u : vec K n) a i :
  (i < n)%nat -> vat (vmul_assign u a) i = vat u i * a.
Proof.
  intros; unfold vmul_assign, vat.
  rewrite (vget_loop_map 0 n (fun i x => x * a)); auto.
Qed.
Lemma vat_vlerp n (u v : vec K n) t i :
  (i < n)%nat -> vat (vlerp u v t) i = vat u i + (vat v i - vat u i) * t.
Proof.
  intros; unfold vlerp. rewrite vat_vadd, vat_vmul_s, vat_vsub; auto.
Qed.
Lemma vat_vextend n (u : vec K n) a i :
  (i <= n)%nat -> vat (vextend u a) i = if Nat.eqb i n then a else vat u i.
Proof.
  intros; unfold vextend, vat. rewrite vget_vset by lia.
  destruct (Nat.eqb_spec i n) as [->|]; auto.
  rewrite vget_loop_prefix by lia.
  destruct (Nat.ltb_spec i n); [reflexivity|lia].
Qed.
Lemma vat_vcontract n (u : vec K (S n)) i : (i < n)%nat -> vat (vcontract u) i = vat u i.
Proof.
  intros; unfold vcontract, vat. replace (S n - 1)%nat with n by lia.
  rewrite vget_loop_fill; auto.
Qed.
Lemma vat_map {B} {NB : Num B} (f : K -> B) n (u : vec K n) i :
  (i < n)%nat -> vat (vector_map f u) i = f (vat u i).
Proof. intros; unfold vector_map, vat; apply vget_vmap; auto. Qed.

Lemma vdot_sum n (u v : vec K n) : vdot u v = sum n (fun i => vat u i * vat v i).
Proof. unfold vdot. apply for_range_sum. Qed.

Context {DK : NumDiv K}.
Lemma vat_vdiv_s n (u : vec K n) a i : (i < n)%nat -> vat (vdiv_s u a) i = vat u i / a.
Proof. intros; unfold vdiv_s, vat; rewrite vget_loop_fill; auto. Qed.
Lemma vat_vdiv_assign n (u : vec K n) a i :
  (i < n)%nat -> vat (vdiv_assign u a) i = vat u i / a.
Proof.
  intros; unfold vdiv_assign, vat.
  rewrite (vget_loop_map 0 n (fun i x => x / a)); auto.
Qed.

End Components.

#[global] Hint Rewrite @vat_vzero : vat.
#[global] Hint Rewrite @vat_fill @vat_vadd @vat_vsub @vat_vneg @vat_vmul_s @vat_s_mul_v
  @vat_vcmul @vat_vcmul_assign @vat_vneg_mut @vat_vadd_assign @vat_vsub_assign
  @vat_vmul_assign @vat_vlerp @vat_vcontract @vat_vdiv_s @vat_vdiv_assign
  using (assumption || lia) : vat.

(** Reduce vector code at a concrete dimension to scalar operations, and split tuples. *)
Ltac destruct3 u := let x := fresh "x" in let y := fresh "y" in let z := fresh "z" in
  destruct u as [x [y [z []]]].
Ltac vcompute := cbv [vat vget vset vfill vmap for_range fold_left seq fst snd v1 v2 v3 v4
  vzero vfrom_fill vdot vcmul vcmul_assign vneg_mut vnorm_squared vadd vsub vneg vmul_s
  s_mul_v vadd_assign vsub_assign vmul_assign vdist_squared vlerp vextend vto_homogeneous
  vcontract vcross vtriple v3_from_v4 v3_unit_x v3_unit_y v3_unit_z v2_unit_x v2_unit_y
  v4_unit_x v4_unit_y v4_unit_z v4_unit_w vdiv_s vdiv_assign Nat.sub] in *.
Ltac pairs tac :=
  repeat match goal with |- (_, _) = (_, _) => apply f_equal2 end;
  first [reflexivity | tac].

Ltac vext := apply vat_ext; intros ?i ?Hi; autorewrite with vat.

(** ** Laws that need no ring axioms (valid for floats too) *)

Section NoLaws.
Context {K : Type} {NK : Num K}.
Local Open Scope num_scope.

Lemma vadd_assign_eq n (u v : vec K n) : vadd_assign u v = vadd u v.
Proof. vext; reflexivity. Qed.
Lemma vsub_assign_eq n (u v : vec K n) : vsub_assign u v = vsub u v.
Proof. vext; reflexivity. Qed.
Lemma vmul_assign_eq n (u : vec K n) a : vmul_assign u a = vmul_s u a.
Proof. vext; reflexivity. Qed.
Lemma vcmul_assign_eq n (u v : vec K n) : vcmul_assign u v = vcmul u v.
Proof. vext; reflexivity. Qed.
Lemma vneg_mut_eq n (u : vec K n) : vneg_mut u = vneg u.
Proof. vext; reflexivity. Qed.
Lemma vdiv_assign_eq {DK : NumDiv K} n (u : vec K n) a : vdiv_assign u a = vdiv_s u a.
Proof. vext; reflexivity. Qed.

Lemma contract_extend n (u : vec K n) a : vcontract (vextend u a) = u.
Proof.
  vext. rewrite vat_vextend by lia. destruct (Nat.eqb_spec i n); [lia|reflexivity].
Qed.

Lemma extend_contract n (u : vec K (S n)) : vextend (vcontract u) (vat u n) = u.
Proof.
  vext. rewrite vat_vextend by lia. destruct (Nat.eqb_spec i n) as [->|].
  - reflexivity.
  - rewrite vat_vcontract by lia. reflexivity.
Qed.

Lemma extend_last n (u : vec K n) a : vat (vextend u a) n = a.
Proof. rewrite vat_vextend, Nat.eqb_refl by lia. reflexivity. Qed.

Lemma extend_init n (u : vec K n) a i : (i < n)%nat -> vat (vextend u a) i = vat u i.
Proof. intros; rewrite vat_vextend by lia. destruct (Nat.eqb_spec i n); [lia|reflexivity]. Qed.

(** Commutativity of the scalar operation lifts to vectors. *)
Lemma vadd_comm_gen n (u v : vec K n) :
  (forall x y : K, x + y = y + x) -> vadd u v = vadd v u.
Proof. intros H; vext; apply H. Qed.
Lemma vcmul_comm_gen n (u v : vec K n) :
  (forall x y : K, x * y = y * x) -> vcmul u v = vcmul v u.
Proof. intros H; vext; apply H. Qed.
Lemma s_mul_v_comm_gen n (u : vec K n) a :
  (forall x y : K, x * y = y * x) -> s_mul_v a u = vmul_s u a.
Proof. intros H; vext; apply H. Qed.
Lemma vdot_comm_gen n (u v : vec K n) :
  (forall x y : K, x * y = y * x) -> vdot u v = vdot v u.
Proof. intros H. rewrite !vdot_sum. apply sum_ext; intros; apply H. Qed.

End NoLaws.

(** ** Ring laws *)

Section RingLawsSec.
Context {K : Type} {NK : Num K} {LK : RingLaws K}.
Local Open Scope num_scope.
Add Ring KringV : (@ring_laws K NK LK).

Lemma vadd_comm n (u v : vec K n) : vadd u v = vadd v u.
Proof. vext; ring. Qed.
Lemma vadd_assoc n (u v w : vec K n) : vadd u (vadd v w) = vadd (vadd u v) w.
Proof. vext; ring. Qed.
Lemma vadd_0_l n (u : vec K n) : vadd (vzero n) u = u.
Proof. vext; ring. Qed.
Lemma vadd_0_r n (u : vec K n) : vadd u (vzero n) = u.
Proof. vext; ring. Qed.
Lemma vadd_neg_r n (u : vec K n) : vadd u (vneg u) = vzero n.
Proof. vext; ring. Qed.
Lemma vsub_def n (u v : vec K n) : vsub u v = vadd u (vneg v).
Proof. vext; ring. Qed.
Lemma vsub_self n (u : vec K n) : vsub u u = vzero n.
Proof. vext; ring. Qed.
Lemma vneg_neg n (u : vec K n) : vneg (vneg u) = u.
Proof. vext; ring. Qed.
Lemma vmul_s_add n (u v : vec K n) a : vmul_s (vadd u v) a = vadd (vmul_s u a) (vmul_s v a).
Proof. vext; ring. Qed.
Lemma vmul_s_add_s n (u : vec K n) a b : vmul_s u (a + b) = vadd (vmul_s u a) (vmul_s u b).
Proof. vext; ring. Qed.
Lemma vmul_s_assoc n (u : vec K n) a b : vmul_s (vmul_s u a) b = vmul_s u (a * b).
Proof. vext; ring. Qed.
Lemma vmul_s_1 n (u : vec K n) : vmul_s u 1 = u.
Proof. vext; ring. Qed.
Lemma vmul_s_0 n (u : vec K n) : vmul_s u 0 = vzero n.
Proof. vext; ring. Qed.
Lemma vmul_s_m1 n (u : vec K n) : vmul_s u (- (1)) = vneg u.
Proof. vext; ring. Qed.
Lemma vzero_mul_s n (a : K) : vmul_s (vzero n) a = vzero n.
Proof. vext; ring. Qed.
Lemma s_mul_v_eq n (u : vec K n) a : s_mul_v a u = vmul_s u a.
Proof. vext; ring. Qed.

Lemma vcmul_comm n (u v : vec K n) : vcmul u v = vcmul v u.
Proof. vext; ring. Qed.
Lemma vcmul_assoc n (u v w : vec K n) : vcmul u (vcmul v w) = vcmul (vcmul u v) w.
Proof. vext; ring. Qed.
Lemma vcmul_add_r n (u v w : vec K n) : vcmul u (vadd v w) = vadd (vcmul u v) (vcmul u w).
Proof. vext; ring. Qed.
Lemma vcmul_ones n (u : vec K n) : vcmul u (vfrom_fill n 1) = u.
Proof. vext; ring. Qed.

(** *** Dot product *)
Lemma vdot_comm n (u v : vec K n) : vdot u v = vdot v u.
Proof. rewrite !vdot_sum. apply sum_ext; intros; ring. Qed.
Lemma vdot_add_l n (u v w : vec K n) : vdot (vadd u v) w = vdot u w + vdot v w.
Proof.
  rewrite !vdot_sum, <- sum_add. apply sum_ext; intros; autorewrite with vat; ring.
Qed.
Lemma vdot_add_r n (u v w : vec K n) : vdot u (vadd v w) = vdot u v + vdot u w.
Proof. rewrite !(vdot_comm _ u), vdot_add_l. reflexivity. Qed.
Lemma vdot_sub_l n (u v w : vec K n) : vdot (vsub u v) w = vdot u w - vdot v w.
Proof.
  rewrite !vdot_sum, <- sum_sub. apply sum_ext; intros; autorewrite with vat; ring.
Qed.
Lemma vdot_sub_r n (u v w : vec K n) : vdot u (vsub v w) = vdot u v - vdot u w.
Proof. rewrite !(vdot_comm _ u), vdot_sub_l. reflexivity. Qed.
Lemma vdot_neg_l n (u v : vec K n) : vdot (vneg u) v = - vdot u v.
Proof.
  rewrite !vdot_sum, <- sum_neg. apply sum_ext; intros; autorewrite with vat; ring.
Qed.
Lemma vdot_neg_r n (u v : vec K n) : vdot u (vneg v) = - vdot u v.
Proof. rewrite !(vdot_comm _ u), vdot_neg_l. reflexivity. Qed.
Lemma vdot_mul_l n (u v : vec K n) a : vdot (vmul_s u a) v = vdot u v * a.
Proof.
  rewrite !vdot_sum, <- sum_mul_r. apply sum_ext; intros; autorewrite with vat; ring.
Qed.
Lemma vdot_mul_r n (u v : vec K n) a : vdot u (vmul_s v a) = vdot u v * a.
Proof. rewrite !(vdot_comm _ u), vdot_mul_l. reflexivity. Qed.
Lemma vdot_0_l n (u : vec K n) : vdot (vzero n) u = 0.
Proof. rewrite vdot_sum. apply sum_zero_ext; intros; autorewrite with vat; ring. Qed.
Lemma vdot_0_r n (u : vec K n) : vdot u (vzero n) = 0.
Proof. rewrite vdot_comm; apply vdot_0_l. Qed.

Lemma vdot_extend n (u v : vec K n) a b :
  vdot (vextend u a) (vextend v b) = vdot u v + a * b.
Proof.
  rewrite !vdot_sum. cbn [sum]. rewrite !extend_last. f_equal.
  apply sum_ext; intros; rewrite !extend_init by auto; reflexivity.
Qed.

(** *** Linear interpolation *)
Lemma vlerp_0 n (u v : vec K n) : vlerp u v 0 = u.
Proof. vext; ring. Qed.
Lemma vlerp_1 n (u v : vec K n) : vlerp u v 1 = v.
Proof. vext; ring. Qed.
Lemma vlerp_same n (u : vec K n) t : vlerp u u t = u.
Proof. vext; ring. Qed.
Lemma vlerp_affine n (u v : vec K n) t :
  vlerp u v t = vadd (vmul_s u (1 - t)) (vmul_s v t).
Proof. vext; ring. Qed.
Lemma vlerp_swap n (u v : vec K n) t : vlerp u v t = vlerp v u (1 - t).
Proof. vext; ring. Qed.

(** *** Cross product *)
Ltac cross_ring := vcompute; pairs ltac:(ring).

Lemma vcross_anti (u v : vec K 3) : vcross u v = vneg (vcross v u).
Proof. destruct3 u; destruct3 v. cross_ring. Qed.
Lemma vcross_self (u : vec K 3) : vcross u u = vzero 3.
Proof. destruct3 u. cross_ring. Qed.
Lemma vcross_add_l (u v w : vec K 3) : vcross (vadd u v) w = vadd (vcross u w) (vcross v w).
Proof. destruct3 u; destruct3 v; destruct3 w. cross_ring. Qed.
Lemma vcross_add_r (u v w : vec K 3) : vcross u (vadd v w) = vadd (vcross u v) (vcross u w).
Proof. destruct3 u; destruct3 v; destruct3 w. cross_ring. Qed.
Lemma vcross_mul_l (u v : vec K 3) a : vcross (vmul_s u a) v = vmul_s (vcross u v) a.
Proof. destruct3 u; destruct3 v. cross_ring. Qed.
Lemma vcross_mul_r (u v : vec K 3) a : vcross u (vmul_s v a) = vmul_s (vcross u v) a.
Proof. destruct3 u; destruct3 v. cross_ring. Qed.
Lemma vcross_orth_l (u v : vec K 3) : vdot u (vcross u v) = 0.
Proof. destruct3 u; destruct3 v. cross_ring. Qed.
Lemma vcross_orth_r (u v : vec K 3) : vdot v (vcross u v) = 0.
Proof. destruct3 u; destruct3 v. cross_ring. Qed.
Lemma vcross_jacobi (u v w : vec K 3) :
  vadd (vcross u (vcross v w)) (vadd (vcross v (vcross w u)) (vcross w (vcross u v)))
  = vzero 3.
Proof. destruct3 u; destruct3 v; destruct3 w. cross_ring. Qed.
Lemma vcross_bac_cab (u v w : vec K 3) :
  vcross u (vcross v w) = vsub (vmul_s v (vdot u w)) (vmul_s w (vdot u v)).
Proof. destruct3 u; destruct3 v; destruct3 w. cross_ring. Qed.
Lemma vcross_lagrange (u v : vec K 3) :
  vdot (vcross u v) (vcross u v) = vdot u u * vdot v v - vdot u v * vdot u v.
Proof. destruct3 u; destruct3 v. cross_ring. Qed.
Lemma vtriple_cyclic (u v w : vec K 3) : vtriple u v w = vtriple v w u.
Proof. destruct3 u; destruct3 v; destruct3 w. unfold vtriple. cross_ring. Qed.
Lemma vtriple_swap (u v w : vec K 3) : vtriple u v w = - vtriple v u w.
Proof. destruct3 u; destruct3 v; destruct3 w. unfold vtriple. cross_ring. Qed.

Lemma vtriple_dot_cross (u v w : vec K 3) : vtriple u v w = vdot u (vcross v w).
Proof. destruct3 u; destruct3 v; destruct3 w. unfold vtriple. cross_ring. Qed.
Lemma vtriple_laplace (u v w : vec K 3) :
  vtriple u v w = laplace 3 (fun r c => vget n0 (vget u (v3 u v w) c) r).
Proof.
  destruct3 u; destruct3 v; destruct3 w. cbv [laplace sum sgn minor Nat.ltb Nat.leb]. cross_ring.
Qed.

End RingLawsSec.

(** ** Field part *)

Section FieldSec.
Context {K : Type} {NK : Num K} {DK : NumDiv K} {FK : FieldLaws K}.
Local Open Scope num_scope.
#[local] Instance rl_of_field : RingLaws K := field_ring.
Add Ring KringVF : (@ring_laws K NK rl_of_field).

Lemma vis_zero_spec n (u : vec K n) : vis_zero u = true <-> u = vzero n.
Proof.
  unfold vis_zero. rewrite for_range_andb. split.
  - intros H. vext. apply nis0_true, H; auto.
  - intros -> i Hi. rewrite vat_vzero. apply nis0_0.
Qed.

Lemma vis_zero_iff n (u : vec K n) :
  vis_zero u = true <-> (forall i, (i < n)%nat -> vget n0 u i = n0).
Proof.
  rewrite vis_zero_spec. split.
  - intros -> i Hi. apply vat_vzero.
  - intros H. vext. apply H; auto.
Qed.

Lemma vfrom_to_homogeneous n (u : vec K n) : vfrom_homogeneous (vto_homogeneous u) = Some u.
Proof.
  unfold vfrom_homogeneous, vto_homogeneous.
  replace (S n - 1)%nat with n by lia. rewrite extend_last, nis0_0, contract_extend.
  reflexivity.
Qed.

Lemma vfrom_homogeneous_none n (u : vec K (S n)) :
  vfrom_homogeneous u = None <-> vat u n <> 0.
Proof.
  unfold vfrom_homogeneous. replace (S n - 1)%nat with n by lia.
  destruct (nis0 (vat u n)) eqn:E; split; intros H; try discriminate; auto.
  - apply nis0_true in E. contradiction.
  - apply nis0_false; auto.
Qed.

Lemma vfrom_homogeneous_some n (u : vec K (S n)) w :
  vfrom_homogeneous u = Some w <-> u = vto_homogeneous w.
Proof.
  split.
  - unfold vfrom_homogeneous. replace (S n - 1)%nat with n by lia.
    destruct (nis0 (vat u n)) eqn:E; intros H; inversion H; subst.
    apply nis0_true in E. unfold vto_homogeneous. rewrite <- E. symmetry.
    apply extend_contract.
  - intros ->. apply vfrom_to_homogeneous.
Qed.

End FieldSec.

(** ** Casting *)

Lemma vtry_cast_spec {A B} (conv : A -> option B) da db n (v : vec A n) (w : vec B n) :
  vtry_cast conv da db v = Some w <->
  (forall i, i < n -> conv (vget da v i) = Some (vget db w i)).
Proof.
  unfold vtry_cast.
  assert (G : forall m, m <= n ->
    (forall r, for_range_opt m
      (fun i data => match conv (vget da v i) with
                     | Some value => Some (vset data i value) | None => None end)
      (vfill n db) = Some r <->
      (forall i, i < m -> conv (vget da v i) = Some (vget db r i)) /\
      (forall i, m <= i -> i < n -> vget db r i = db))).
  { induction m as [|m IH]; intros Hm r.
    - cbn. split.
      + intros H; inversion H; subst. split; [intros; lia|].
        intros; apply vget_vfill; auto.
      + intros [_ H]. f_equal. apply (vec_ext db). intros i Hi.
        rewrite vget_vfill by auto. symmetry; apply H; lia.
    - rewrite for_range_opt_S.
      set (loop := for_range_opt m _ _) in *.
      split.
      + destruct loop as [r'|] eqn:E; [|discriminate].
        destruct (conv (vget da v m)) as [x|] eqn:Ex; [|discriminate].
        intros H; inversion H; subst r. clear H.
        destruct (proj1 (IH ltac:(lia) r') eq_refl) as [H1 H2]. split.
        * intros i Hi. rewrite vget_vset by lia.
          destruct (Nat.eqb_spec i m) as [->|]; auto. apply H1; lia.
        * intros i Hi Hn. rewrite vget_vset by lia.
          destruct (Nat.eqb_spec i m); [lia|]. apply H2; lia.
      + intros [H1 H2].
        pose (r' := vset r m db).
        assert (E : loop = Some r').
        { apply IH; [lia|]. unfold r'. split; intros i Hi; [|intros Hn];
            rewrite vget_vset by lia; destruct (Nat.eqb_spec i m); try lia; auto.
          apply H2; lia. }
        rewrite E, (H1 m) by lia. f_equal. unfold r'.
        apply (vec_ext db). intros i Hi. rewrite !vget_vset by lia.
        destruct (Nat.eqb_spec i m) as [->|]; auto. }
  rewrite G by lia. split.
  - intros [H _]; exact H.
  - intros H; split; auto. intros; lia.
Qed.

Lemma vtry_cast_none {A B} (conv : A -> option B) da db n (v : vec A n) :
  vtry_cast conv da db v = None <-> (exists i, i < n /\ conv (vget da v i) = None).
Proof.
  unfold vtry_cast. generalize (vfill n db) as r0.
  assert (G : forall m, m <= n -> forall r0, for_range_opt m
      (fun i (data : vec B n) => match conv (vget da v i) with
                     | Some value => Some (vset data i value) | None => None end)
      r0 = None <-> exists i, i < m /\ conv (vget da v i) = None).
  { induction m as [|m IH]; intros Hm r0.
    - cbn. split; [discriminate|intros [i [Hi _]]; lia].
    - rewrite for_range_opt_S. specialize (IH ltac:(lia) r0).
      destruct (for_range_opt m _ _) as [r'|].
      + destruct (conv (vget da v m)) as [x|] eqn:Ex; split; try discriminate; auto.
        * intros [i [Hi Hc]]. destruct (Nat.eq_dec i m); [subst; congruence|].
          exfalso. assert (Some r' = None) by (apply IH; exists i; split; [lia|auto]).
          discriminate.
        * intros _. exists m; split; [lia|auto].
      + split; auto. intros _. destruct (proj1 IH eq_refl) as [i [Hi Hc]].
        exists i; split; [lia|auto]. }
  intros r0; apply G; lia.
Qed.

Lemma vcmp_all_spec {A B} (cmp : A -> B -> bool) da db n (u : vec A n) (v : vec B n) :
  vcmp_all cmp da db u v = true <->
  (forall i, i < n -> cmp (vget da u i) (vget db v i) = true).
Proof. apply for_range_andb. Qed.

(** ** Maps *)
Lemma vmap_compose {A B C} (f : A -> B) (g : B -> C) n (v : vec A n) :
  vmap g (vmap f v) = vmap (fun x => g (f x)) v.
Proof.
  induction n as [|n IH]; [reflexivity|]. destruct v as [x v]. cbn. f_equal. apply IH.
Qed.
Lemma vmap_id {A} n (v : vec A n) : vmap (fun x => x) v = v.
Proof.
  induction n as [|n IH]; [destruct v; reflexivity|]. destruct v as [x v]. cbn.
  f_equal. apply IH.
Qed.
