(** Lemmas about arrays, loops and sums. *)

From Coq Require Import List Arith Lia Bool Ring Setoid ZArith Reals Qcanon.
From Verif Require Import Base Scalar Spec.
Import ListNotations.
Local Open Scope nat_scope.

(** ** Arrays *)

Lemma vec_ext {A} (d : A) n (u v : vec A n) :
  (forall i, i < n -> vget d u i = vget d v i) -> u = v.
Proof.
  induction n as [|n IH]; intros H.
  - destruct u, v; reflexivity.
  - destruct u as [x u], v as [y v]. f_equal.
    + exact (H 0 ltac:(lia)).
    + apply IH. intros i Hi. exact (H (S i) ltac:(lia)).
Qed.

Lemma vget_vset {A} (d : A) n (v : vec A n) i j x :
  i < n -> vget d (vset v i x) j = if Nat.eqb j i then x else vget d v j.
Proof.
  revert i j; induction n as [|n IH]; intros i j Hi; [lia|].
  destruct v as [y v], i as [|i], j as [|j]; cbn; try reflexivity.
  apply IH; lia.
Qed.

Lemma vget_vset_eq {A} (d : A) n (v : vec A n) i x :
  i < n -> vget d (vset v i x) i = x.
Proof. intros; rewrite vget_vset, Nat.eqb_refl; auto. Qed.

Lemma vget_vset_neq {A} (d : A) n (v : vec A n) i j x :
  i < n -> j <> i -> vget d (vset v i x) j = vget d v j.
Proof.
  intros Hi Hj; rewrite vget_vset by auto.
  apply Nat.eqb_neq in Hj; rewrite Hj; auto.
Qed.

Lemma vget_vfill {A} (d : A) n a i : i < n -> vget d (vfill n a) i = a.
Proof.
  revert i; induction n as [|n IH]; intros i Hi; [lia|].
  destruct i; cbn; auto. apply IH; lia.
Qed.

Lemma vget_vfill_same {A} (d : A) n i : vget d (vfill n d) i = d.
Proof.
  revert i; induction n as [|n IH]; intros i; cbn; auto.
  destruct i; cbn; auto.
Qed.

Lemma vget_vmap {A B} (f : A -> B) da db n (v : vec A n) i :
  i < n -> vget db (vmap f v) i = f (vget da v i).
Proof.
  revert i; induction n as [|n IH]; intros i Hi; [lia|].
  destruct v as [x v], i; cbn; auto. apply IH; lia.
Qed.

Lemma vget_default {A} (d d' : A) n (v : vec A n) i :
  i < n -> vget d v i = vget d' v i.
Proof.
  revert i; induction n as [|n IH]; intros i Hi; [lia|].
  destruct v, i; cbn; auto. apply IH; lia.
Qed.

Lemma vindex_get {A} (d : A) n (v : vec A n) i :
  i < n -> vindex v i = Some (vget d v i).
Proof.
  revert i; induction n as [|n IH]; intros i Hi; [lia|].
  destruct v, i; cbn; auto. apply IH; lia.
Qed.

Lemma vindex_none {A} n (v : vec A n) i : n <= i -> vindex v i = None.
Proof.
  revert i; induction n as [|n IH]; intros i Hi; cbn; auto.
  destruct v, i; cbn; [lia|]. apply IH; lia.
Qed.

(** ** Loops *)

Lemma for_range_S {St} n (body : nat -> St -> St) s :
  for_range (S n) body s = body n (for_range n body s).
Proof.
  unfold for_range. rewrite seq_S, fold_left_app. reflexivity.
Qed.

Lemma for_range_0 {St} (body : nat -> St -> St) s : for_range 0 body s = s.
Proof. reflexivity. Qed.

Lemma for_range_opt_S {St} n (body : nat -> St -> option St) s :
  for_range_opt (S n) body s =
  match for_range_opt n body s with Some s' => body n s' | None => None end.
Proof.
  unfold for_range_opt. rewrite seq_S, fold_left_app. reflexivity.
Qed.

Lemma for_range_ext {St} n (b1 b2 : nat -> St -> St) s :
  (forall i st, i < n -> b1 i st = b2 i st) -> for_range n b1 s = for_range n b2 s.
Proof.
  induction n as [|n IH]; intros H; [reflexivity|].
  rewrite !for_range_S, IH by (intros; apply H; lia). apply H; lia.
Qed.

Lemma for_range_inv {St} (P : nat -> St -> Prop) n (body : nat -> St -> St) s :
  P 0 s -> (forall i st, i < n -> P i st -> P (S i) (body i st)) ->
  P n (for_range n body s).
Proof.
  intros H0 HS. assert (G : forall m, m <= n -> P m (for_range m body s)).
  { induction m as [|m IH]; intros Hm; [exact H0|].
    rewrite for_range_S. apply HS; [lia|]. apply IH; lia. }
  apply G; lia.
Qed.

(** A loop that updates the cells one after the other, each from its own old value. *)
Lemma vget_for_range {A} (d : A) n (g : nat -> A -> A) (u : vec A n) m j :
  m <= n -> j < n ->
  vget d (for_range m (fun i r => vset r i (g i (vget d r i))) u) j =
  if Nat.ltb j m then g j (vget d u j) else vget d u j.
Proof.
  intros Hm Hj. induction m as [|m IH]; [reflexivity|].
  rewrite for_range_S, vget_vset by lia.
  destruct (Nat.eqb_spec j m) as [->|Hne].
  - rewrite IH by lia. rewrite Nat.ltb_irrefl.
    destruct (Nat.ltb_spec m (S m)); [reflexivity|lia].
  - rewrite IH by lia.
    destruct (Nat.ltb_spec j m), (Nat.ltb_spec j (S m)); try lia; reflexivity.
Qed.

Lemma vget_loop_map {A} (d : A) n (g : nat -> A -> A) (u : vec A n) j :
  j < n ->
  vget d (for_range n (fun i r => vset r i (g i (vget d r i))) u) j = g j (vget d u j).
Proof.
  intros Hj. rewrite vget_for_range by lia.
  destruct (Nat.ltb_spec j n); [reflexivity|lia].
Qed.

Lemma vget_loop_fill {A} (d : A) n (f : nat -> A) (u : vec A n) j :
  j < n -> vget d (for_range n (fun i r => vset r i (f i)) u) j = f j.
Proof. intros; apply (vget_loop_map d n (fun i _ => f i)); auto. Qed.

(** Same, when the loop fills only a prefix of a longer array. *)
Lemma vget_loop_prefix {A} (d : A) n (f : nat -> A) (u : vec A n) m j :
  m <= n -> j < n ->
  vget d (for_range m (fun i r => vset r i (f i)) u) j =
  if Nat.ltb j m then f j else vget d u j.
Proof. intros; apply (vget_for_range d n (fun i _ => f i)); auto. Qed.

Lemma for_range_andb n (p : nat -> bool) :
  for_range n (fun i acc => andb acc (p i)) true = true <-> (forall i, i < n -> p i = true).
Proof.
  induction n as [|n IH]; [cbn; split; auto; intros; lia|].
  rewrite for_range_S, andb_true_iff, IH. split.
  - intros [H1 H2] i Hi. destruct (Nat.eq_dec i n); [subst; auto|apply H1; lia].
  - intros H; split; intros; apply H; lia.
Qed.

(** ** Sums *)

Section Sums.
Context {K : Type} {NK : Num K}.
Local Open Scope num_scope.

Lemma for_range_sum n (f : nat -> K) : for_range n (fun i acc => acc + f i) 0 = sum n f.
Proof.
  induction n as [|n IH]; [reflexivity|]. rewrite for_range_S, IH. reflexivity.
Qed.

Lemma sum_ext n (f g : nat -> K) : (forall i, i < n -> f i = g i) -> sum n f = sum n g.
Proof.
  induction n as [|n IH]; intros H; [reflexivity|]. cbn.
  rewrite IH by (intros; apply H; lia). rewrite H by lia. reflexivity.
Qed.

Context {LK : RingLaws K}.
Add Ring Kring : (@ring_laws K NK LK).

Lemma sum_zero n : sum n (fun _ => 0 : K) = 0.
Proof. induction n as [|n IH]; cbn; [reflexivity|]. rewrite IH; ring. Qed.

Lemma sum_zero_ext n (f : nat -> K) : (forall i, i < n -> f i = 0) -> sum n f = 0.
Proof. intros H. rewrite (sum_ext _ _ (fun _ => 0)) by auto. apply sum_zero. Qed.

Lemma sum_add n (f g : nat -> K) : sum n (fun i => f i + g i) = sum n f + sum n g.
Proof. induction n as [|n IH]; cbn; [ring|]. rewrite IH; ring. Qed.

Lemma sum_sub n (f g : nat -> K) : sum n (fun i => f i - g i) = sum n f - sum n g.
Proof. induction n as [|n IH]; cbn; [ring|]. rewrite IH; ring. Qed.

Lemma sum_neg n (f : nat -> K) : sum n (fun i => - f i) = - sum n f.
Proof. induction n as [|n IH]; cbn; [ring|]. rewrite IH; ring. Qed.

Lemma sum_mul_l n (a : K) (f : nat -> K) : sum n (fun i => a * f i) = a * sum n f.
Proof. induction n as [|n IH]; cbn; [ring|]. rewrite IH; ring. Qed.

Lemma sum_mul_r n (a : K) (f : nat -> K) : sum n (fun i => f i * a) = sum n f * a.
Proof. induction n as [|n IH]; cbn; [ring|]. rewrite IH; ring. Qed.

Lemma sum_swap n m (f : nat -> nat -> K) :
  sum n (fun i => sum m (fun j => f i j)) = sum m (fun j => sum n (fun i => f i j)).
Proof.
  induction n as [|n IH]; cbn.
  - symmetry; apply sum_zero.
  - rewrite IH, <- sum_add. reflexivity.
Qed.

Lemma sum_single n k (f : nat -> K) :
  k < n -> (forall i, i < n -> i <> k -> f i = 0) -> sum n f = f k.
Proof.
  induction n as [|n IH]; intros Hk H; [lia|]. cbn.
  destruct (Nat.eq_dec k n) as [->|Hne].
  - rewrite sum_zero_ext by (intros; apply H; lia). ring.
  - rewrite IH by (try lia; intros; apply H; lia). rewrite (H n) by lia. ring.
Qed.

Lemma sum_delta_l n k (f : nat -> K) : k < n -> sum n (fun i => delta k i * f i) = f k.
Proof.
  intros Hk. rewrite (sum_single n k); auto.
  - unfold delta; rewrite Nat.eqb_refl; ring.
  - intros i Hi Hne. unfold delta.
    destruct (Nat.eqb_spec k i); [congruence|ring].
Qed.

Lemma sum_delta_r n k (f : nat -> K) : k < n -> sum n (fun i => f i * delta i k) = f k.
Proof.
  intros Hk. rewrite (sum_single n k); auto.
  - unfold delta; rewrite Nat.eqb_refl; ring.
  - intros i Hi Hne. unfold delta.
    destruct (Nat.eqb_spec i k); [congruence|ring].
Qed.

(** Splitting off the first term. *)
Lemma sum_first n (f : nat -> K) : sum (S n) f = f 0%nat + sum n (fun i => f (S i)).
Proof.
  induction n as [|n IH]; [cbn; ring|].
  change (sum (S (S n)) f) with (sum (S n) f + f (S n)).
  rewrite IH. cbn. ring.
Qed.

End Sums.

(** ** Scalar instances *)

#[global] Instance ringlaws_Z : RingLaws Z.
Proof. exact Zth. Qed.

#[global] Instance ringlaws_R : RingLaws R.
Proof. exact RTheory. Qed.

#[global] Instance fieldlaws_R : FieldLaws R.
Proof.
  split.
  - exact ringlaws_R.
  - exact R1_neq_R0.
  - intros x y Hy; cbn. unfold Rdiv. rewrite Rmult_assoc, Rinv_l by exact Hy.
    apply Rmult_1_r.
  - intros x; cbn. destruct (Req_EM_T x 0%R); split; intros; auto; discriminate.
Qed.

#[global] Instance ringlaws_Qc : RingLaws Qc.
Proof. exact Qcrt. Qed.

#[global] Instance fieldlaws_Qc : FieldLaws Qc.
Proof.
  split.
  - exact ringlaws_Qc.
  - discriminate.
  - intros x y Hy; cbn. unfold Qcdiv. rewrite <- Qcmult_assoc, Qcmult_inv_l by exact Hy.
    apply Qcmult_1_r.
  - intros x; cbn. destruct (Qc_eq_dec x _); split; intros; auto; discriminate.
Qed.

(** [field] on an abstract field: the [field_theory] record of a [FieldLaws]. *)
Section FieldTheory.
Context {K : Type} {NK : Num K} {DK : NumDiv K} {FK : FieldLaws K}.
Local Open Scope num_scope.

#[local] Instance field_ring_laws : RingLaws K := field_ring.
Add Ring Kring2 : (@ring_laws K NK field_ring_laws).

Definition ninv (x : K) : K := 1 / x.

Lemma field_mul_cancel (x y z : K) : z <> 0 -> x * z = y * z -> x = y.
Proof.
  intros Hz H.
  assert (E : forall w : K, w = (w * z) * ninv z).
  { intros w. transitivity (w * (ninv z * z)); [|ring].
    unfold ninv. rewrite field_div_mul by exact Hz. ring. }
  rewrite (E x), (E y), H. reflexivity.
Qed.


Lemma ndiv_ninv (x y : K) : y <> 0 -> x / y = x * ninv y.
Proof.
  intros Hy. apply (field_mul_cancel _ _ y Hy).
  rewrite field_div_mul by exact Hy.
  transitivity (x * (ninv y * y)); [|ring].
  unfold ninv. rewrite field_div_mul by exact Hy. ring.
Qed.

Lemma ninv_l (x : K) : x <> 0 -> ninv x * x = 1.
Proof. intros; unfold ninv; apply field_div_mul; auto. Qed.

(** Field theory with total division [x * (1 / y)]; [ndiv] is rewritten to it where the
    divisor is known to be non-zero. *)
Lemma field_th :
  field_theory n0 n1 nadd nmul nsub nneg (fun x y => nmul x (ninv y)) ninv (@eq K).
Proof.
  constructor.
  - exact ring_laws.
  - exact field_one_neq_zero.
  - reflexivity.
  - exact ninv_l.
Qed.

Lemma nis0_true (x : K) : nis0 x = true -> x = 0.
Proof. apply field_is0. Qed.
Lemma nis0_false (x : K) : nis0 x = false -> x <> 0.
Proof. intros H E. apply field_is0 in E. congruence. Qed.
Lemma nis0_0 : nis0 (0 : K) = true.
Proof. apply field_is0; reflexivity. Qed.
Lemma nis0_neq (x : K) : x <> 0 -> nis0 x = false.
Proof. intros H. destruct (nis0 x) eqn:E; auto. apply nis0_true in E; contradiction. Qed.

Lemma field_integral (x y : K) : x * y = 0 -> x = 0 \/ y = 0.
Proof.
  intros H. destruct (nis0 y) eqn:E; [right; apply nis0_true; auto|left].
  apply nis0_false in E. apply (field_mul_cancel _ _ y E). rewrite H. ring.
Qed.

End FieldTheory.

(** Split a conjunction without unfolding [iff]. *)
Ltac conjs := repeat match goal with |- _ /\ _ => split end.
