(** Diagonal, scale and translation matrices in floats (C164). *)

From Coq Require Import List Arith ZArith Bool Lia Reals Lra Psatz.
From Flocq Require Import Core.Core IEEE754.BinarySingleNaN.
From Verif Require Import Base Scalar Spec SpecF SpecArc SpecLibm MReal MVector MMatrix MPoint MTransform MFloat
  LBase LVector LMatrix LFloat LFloatVec LFloatP LSame LLinFP.
Local Open Scope R_scope.

Section G.
Context {prec emax : Z} {Hp : Prec_gt_0 prec} {He : Prec_lt_emax prec emax}.
Notation fl := (binary_float prec emax).
Lemma diag_left n (a : nat -> fl) (d : fl) (x : nat -> fl) i : (i < n)%nat -> (forall k, (k < n)%nat -> is_finite (x k) = true) -> (forall k, (k < n)%nat -> a k = if Nat.eqb k i then d else n0) ->
  feqv (sum n (fun k => nmul (a k) (x k))) (nmul d (x i)).
Proof.
  intros Hi Fx A. eapply same_trans; [apply (sum_one n _ i)|]; [|exact Hi|].
  - intros k Hk K. rewrite A by exact Hk. destruct (Nat.eqb_spec k i); [contradiction|]. apply mul_zero_l; [apply zero_0|apply Fx, Hk].
  - left. rewrite A, Nat.eqb_refl by exact Hi. reflexivity.
Qed.
Lemma diag_right n (a : nat -> fl) (d : fl) (x : nat -> fl) i : (i < n)%nat -> (forall k, (k < n)%nat -> is_finite (x k) = true) -> (forall k, (k < n)%nat -> a k = if Nat.eqb k i then d else n0) ->
  feqv (sum n (fun k => nmul (x k) (a k))) (nmul (x i) d).
Proof.
  intros Hi Fx A. eapply same_trans; [apply (sum_one n _ i)|]; [|exact Hi|].
  - intros k Hk K. rewrite A by exact Hk. destruct (Nat.eqb_spec k i); [contradiction|]. apply mul_zero_r; [apply zero_0|apply Fx, Hk].
  - left. rewrite A, Nat.eqb_refl by exact Hi. reflexivity.
Qed.
End G.

Theorem c164_apply :
  forall (prec emax : Z) (Hp : Prec_gt_0 prec) (He : Prec_lt_emax prec emax) (n : nat) (d : vec (binary_float prec emax) n) (a : binary_float prec emax) (v : vec (binary_float prec emax) n) (i : nat),
  all_finite v -> (i < n)%nat ->
  feqv (vat (mmulv (mfrom_diagonal d) v) i) (nmul (vat d i) (vat v i)) /\ feqv (vat (mmulv (mfrom_nonuniform_scale d) v) i) (nmul (vat d i) (vat v i)) /\
  feqv (vat (mmulv (mfrom_diagonal_value n a) v) i) (nmul a (vat v i)) /\ feqv (vat (mmulv (mfrom_scale n a) v) i) (nmul a (vat v i)).
Proof.
  intros prec emax Hp He n d a v i Fv Hi. rewrite !vat_mmulv by exact Hi. repeat split; apply diag_left; try assumption; intros k Hk.
  - rewrite mget_mfrom_diagonal by assumption. destruct (Nat.eqb_spec k i) as [->|]; reflexivity.
  - rewrite mget_mfrom_nonuniform_scale by assumption. destruct (Nat.eqb_spec k i) as [->|]; reflexivity.
  - apply mget_mfrom_diagonal_value; assumption.
  - apply mget_mfrom_scale; assumption.
Qed.

Theorem c164_products :
  forall (prec emax : Z) (Hp : Prec_gt_0 prec) (He : Prec_lt_emax prec emax) (r c : nat) (d : vec (binary_float prec emax) r) (e : vec (binary_float prec emax) c) (m : mat (binary_float prec emax) r c) (i j : nat),
  (forall j i, (j < c)%nat -> (i < r)%nat -> is_finite (mget m j i) = true) -> (i < r)%nat -> (j < c)%nat ->
  feqv (mget (mmul (mfrom_diagonal d) m) j i) (nmul (vat d i) (mget m j i)) /\ feqv (mget (mmul m (mfrom_diagonal e)) j i) (nmul (mget m j i) (vat e j)).
Proof.
  intros prec emax Hp He r c d e m i j Fm Hi Hj. rewrite !mget_mmul by assumption. split.
  - apply (diag_left r (fun k => mget (mfrom_diagonal d) k i) (vat d i) (fun k => mget m j k) i Hi); intros k Hk; [apply Fm; assumption|]. rewrite mget_mfrom_diagonal by assumption. destruct (Nat.eqb_spec k i) as [->|]; reflexivity.
  - apply (diag_right c (fun k => mget (mfrom_diagonal e) j k) (vat e j) (fun k => mget m k i) j Hj); intros k Hk; [apply Fm; assumption|]. rewrite mget_mfrom_diagonal by assumption. rewrite Nat.eqb_sym. reflexivity.
Qed.

Theorem c164_affine :
  forall (prec emax : Z) (Hp : Prec_gt_0 prec) (He : Prec_lt_emax prec emax) (n : nat) (s t : vec (binary_float prec emax) n) (i j : nat),
  all_finite s -> all_finite t -> (i <= n)%nat -> (j <= n)%nat ->
  let T := mfrom_affine_translation t in let S := mfrom_affine_nonuniform_scale s in
  feqv (mget (mmul (mfrom_affine_translation s) T) j i) (mget (mfrom_affine_translation (vadd t s)) j i) /\
  feqv (mget (mmul T S) j i) (if Nat.eqb j n then mget T j i else mget S j i) /\
  feqv (mget (mmul S T) j i) (if Nat.eqb j n then (if Nat.ltb i n then nmul (vat s i) (vat t i) else n1) else mget S j i).
Proof.
  intros prec emax Hp He n s t i j Fs Ft Hi Hj T S.
  assert (TF : forall (t : vec (binary_float prec emax) n) k l, all_finite t -> (k <= n)%nat -> (l <= n)%nat -> is_finite (mget (mfrom_affine_translation t) k l) = true).
  { intros w k l Fw Hk Hl. rewrite mget_mfrom_affine_translation by lia. unfold delta. destruct (Nat.eqb_spec k n), (Nat.ltb_spec l n), (Nat.eqb_spec k l); cbn [andb]; try apply one_fin; try reflexivity; apply Fw; assumption. }
  assert (SF : forall k l, (k <= n)%nat -> (l <= n)%nat -> is_finite (mget S k l) = true).
  { intros k l Hk Hl. unfold S. rewrite mget_mfrom_affine_nonuniform_scale by lia. destruct (Nat.eqb_spec k l), (Nat.ltb_spec k n); try reflexivity; try apply one_fin. apply Fs; assumption. }
  (* A product with a translation on the left, by columns of the right factor. *)
  assert (LT : forall (w : vec (binary_float prec emax) n) (b : mat (binary_float prec emax) (Datatypes.S n) (Datatypes.S n)), all_finite w -> (forall k, (k <= n)%nat -> is_finite (mget b j k) = true) ->
     feqv (mget (mmul (mfrom_affine_translation w) b) j i) (if Nat.ltb i n then nadd (mget b j i) (nmul (vat w i) (mget b j n)) else mget b j n)).
  { intros w b Fw Fb. rewrite mget_mmul by lia. destruct (Nat.ltb_spec i n).
    - rewrite <- (mul_1_l (mget b j i)). replace (n1 : binary_float prec emax) with (mget (mfrom_affine_translation w) i i : binary_float prec emax).
      2: { rewrite mget_mfrom_affine_translation by lia. unfold delta. rewrite Nat.eqb_refl. destruct (Nat.eqb_spec i n); [lia|reflexivity]. }
      replace (vat w i) with (mget (mfrom_affine_translation w) n i) by (rewrite mget_mfrom_affine_translation by lia; rewrite Nat.eqb_refl; destruct (Nat.ltb_spec i n); [reflexivity|lia]).
      apply (sum_two _ (fun k => nmul (mget (mfrom_affine_translation w) k i) (mget b j k)) i n); try lia. intros k Hk K1 K2. apply mul_zero_l; [|apply Fb; lia]. rewrite mget_mfrom_affine_translation by lia. unfold delta.
      destruct (Nat.eqb_spec k n); [contradiction|]. destruct (Nat.eqb_spec k i); [contradiction|]. apply zero_0.
    - assert (i = n) as -> by lia. rewrite <- (mul_1_l (mget b j n)). apply (diag_left _ (fun k => mget (mfrom_affine_translation w) k n) n1 (fun k => mget b j k) n); [lia|intros k Hk; apply Fb; lia|].
      intros k Hk. rewrite mget_mfrom_affine_translation by lia. rewrite Nat.ltb_irrefl, andb_false_r. reflexivity. }
  split; [|split].
  - eapply same_trans; [apply LT; [exact Fs|intros; apply TF; assumption]|]. unfold T. rewrite !mget_mfrom_affine_translation by lia. rewrite Nat.ltb_irrefl, andb_false_r. unfold delta.
    destruct (Nat.ltb_spec i n); [|assert (i = n) as -> by lia; rewrite andb_false_r; apply same_refl]. destruct (Nat.eqb_spec j n) as [->|D]; cbn [andb].
    + rewrite fmul_1_r, vat_vadd by assumption. apply same_refl.
    + apply add_zero_r, mul_zero_r; [apply zero_0|apply Fs; assumption].
  - eapply same_trans; [apply LT; [exact Ft|intros; apply SF; assumption]|]. unfold T, S. rewrite mget_mfrom_affine_translation by lia. rewrite !mget_mfrom_affine_nonuniform_scale by lia. unfold delta.
    destruct (Nat.ltb_spec i n) as [Li|Li].
    + destruct (Nat.eqb_spec j n) as [->|D]; cbn [andb].
      * rewrite Nat.ltb_irrefl, fmul_1_r. destruct (Nat.eqb_spec n i); [lia|]. apply add_zero_l, zero_0.
      * apply add_zero_r, mul_zero_r; [apply zero_0|apply Ft; assumption].
    + assert (i = n) as -> by lia. rewrite andb_false_r. destruct (Nat.eqb_spec j n) as [->|D]; [rewrite Nat.ltb_irrefl|]; apply same_refl.
  - rewrite mget_mmul by lia.
    eapply same_trans; [apply (diag_left _ (fun k => mget S k i) (if Nat.ltb i n then vat s i else n1) (fun k => mget T j k) i)|]; [lia|intros k Hk; apply TF; [exact Ft|lia|lia]| |].
    + intros k Hk. unfold S. rewrite mget_mfrom_affine_nonuniform_scale by lia. destruct (Nat.eqb_spec k i) as [->|]; reflexivity.
    + unfold T, S. rewrite mget_mfrom_affine_translation, mget_mfrom_affine_nonuniform_scale by lia. unfold delta. destruct (Nat.eqb_spec j n) as [->|D]; cbn [andb].
      * destruct (Nat.ltb_spec i n); [apply same_refl|]. assert (i = n) as -> by lia. rewrite Nat.eqb_refl, fmul_1_r. apply same_refl.
      * destruct (Nat.eqb_spec j i) as [->|E].
        -- rewrite fmul_1_r. apply same_refl.
        -- apply same_zero; [|apply zero_0]. apply mul_zero_r; [apply zero_0|]. destruct (Nat.ltb_spec i n); [apply Fs; assumption|apply one_fin].
Qed.

Theorem c164_example :
  let z := f64_of_Z in let t : vec f64 2 := v2 (z 3%Z) (z (-4)%Z) in let s : vec f64 2 := v2 (z 2%Z) (ndiv (z 1%Z) (z 3%Z)) in
  all_finite s /\ all_finite t /\
  mget (mmul (mfrom_affine_nonuniform_scale s) (mfrom_affine_translation t)) 2 0 = z 6%Z /\
  mget (mmul (mfrom_affine_translation t) (mfrom_affine_nonuniform_scale s)) 2 0 = z 3%Z /\
  mget (mmul (mfrom_affine_translation s) (mfrom_affine_translation t)) 2 1 = nadd (z (-4)%Z) (ndiv (z 1%Z) (z 3%Z)).
Proof.
  intros z t s. split; [intros i Hi; destruct i as [|[|i]]; try lia; vm_compute; reflexivity|]. split; [intros i Hi; destruct i as [|[|i]]; try lia; vm_compute; reflexivity|].
  split; [|split]; apply B2SF_inj; vm_compute; reflexivity.
Qed.
