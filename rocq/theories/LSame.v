(** Affine matrices in floats: exact agreement (C154). *)

From Coq Require Import List Arith ZArith Bool Lia Reals Lra.
From Flocq Require Import Core.Core IEEE754.BinarySingleNaN.
From Verif Require Import Base Scalar Spec SpecArc SpecLibm MVector MMatrix MPoint MTransform MFloat
  LBase LFloat LVector LMatrix LTransform.
Local Open Scope R_scope.

Section F.
Context {prec emax : Z} {Hp : Prec_gt_0 prec} {He : Prec_lt_emax prec emax}.
Notation fl := (binary_float prec emax).

Definition is_zero (x : fl) : Prop := exists s, x = B754_zero s.
Lemma same_zero (x y : fl) : is_zero x -> is_zero y -> feqv x y.
Proof. intros (s & ->) (t & ->). right. exists s, t. split; reflexivity. Qed.
Lemma same_cases (x y : fl) : feqv x y -> x = y \/ is_zero x /\ is_zero y.
Proof. intros [->|(s & t & -> & ->)]; [left; reflexivity|right; split; eexists; reflexivity]. Qed.
Lemma same_refl (x : fl) : feqv x x. Proof. left; reflexivity. Qed.
Lemma same_trans (x y z : fl) : feqv x y -> feqv y z -> feqv x z.
Proof. intros H1 H2. destruct (same_cases _ _ H1) as [->|(A & B)]; [exact H2|]. destruct (same_cases _ _ H2) as [<-|(C & D)]; [exact H1|apply same_zero; assumption]. Qed.
Lemma same_sym (x y : fl) : feqv x y -> feqv y x.
Proof. intros H1. destruct (same_cases _ _ H1) as [->|(A & B)]; [left; reflexivity|apply same_zero; assumption]. Qed.
Lemma add_zero_r (x z : fl) : is_zero z -> feqv (nadd x z) x.
Proof. intros (s & ->). destruct x as [[]|[]| |[] m e b]; destruct s; try (left; reflexivity); right; eexists; eexists; split; reflexivity. Qed.
Lemma add_zero_l (x z : fl) : is_zero z -> feqv (nadd z x) x.
Proof. rewrite fadd_comm. apply add_zero_r. Qed.
Lemma add_same_l (x y z : fl) : feqv x y -> feqv (nadd x z) (nadd y z).
Proof. intros H1. destruct (same_cases _ _ H1) as [->|(A & B)]; [apply same_refl|]. eapply same_trans; [apply add_zero_l, A|]. apply same_sym, add_zero_l, B. Qed.
Lemma mul_zero_l (z x : fl) : is_zero z -> is_finite x = true -> is_zero (nmul z x).
Proof. intros (s & ->) F. destruct x as [t|t| |t m e b]; try discriminate F; eexists; reflexivity. Qed.
Lemma mul_zero_r (x z : fl) : is_zero z -> is_finite x = true -> is_zero (nmul x z).
Proof. rewrite fmul_comm. apply mul_zero_l. Qed.
Lemma mul_1_l (x : fl) : nmul n1 x = x. Proof. rewrite fmul_comm. apply fmul_1_r. Qed.
Lemma zero_0 : is_zero (n0 : fl). Proof. exists false; reflexivity. Qed.
Lemma one_fin : is_finite (n1 : fl) = true. Proof. apply is_finite_Bone. Qed.
Lemma fdiv_1_r (x : fl) : ndiv x n1 = x.
Proof.
  cbn [ndiv n1 num_float numdiv_float]. destruct fbone as (B & Fb & Sb). destruct (is_finite x) eqn:F.
  - assert (B0 : B2R (Bone : fl) <> 0) by (rewrite B; lra). pose proof (Bdiv_correct prec emax _ _ mode_NE x Bone B0) as H. rewrite B in H. replace (B2R x / 1) with (B2R x) in H by field.
    rewrite round_generic in H; [|apply valid_rnd_round_mode|apply generic_format_B2R]. rewrite Rlt_bool_true in H by apply abs_B2R_lt_emax. destruct H as (E & Ff & Sg). rewrite F in Ff.
    assert (NN : is_nan (Bdiv mode_NE x Bone) = false) by (destruct (Bdiv mode_NE x Bone); try reflexivity; discriminate Ff).
    specialize (Sg NN). rewrite Sb, xorb_false_r in Sg. apply B2R_Bsign_inj; assumption.
  - destruct x as [s|s| |s m e H]; try discriminate F; [|reflexivity].
    destruct Bone as [s'|s'| |s' m' e' H'] eqn:EB; cbn in *; try discriminate; try lra. rewrite Sb, xorb_false_r. reflexivity.
Qed.

(** A sum all of whose terms but one are zero. *)
Lemma sum_one n (f : nat -> fl) i : (forall k, (k < n)%nat -> k <> i -> is_zero (f k)) -> ((i < n)%nat -> feqv (sum n f) (f i)) /\ ((n <= i)%nat -> is_zero (sum n f)).
Proof.
  induction n as [|n IH]; intros H; [split; [lia|intros; apply zero_0]|]. destruct IH as (I1 & I2); [intros k Hk; apply H; lia|]. change (sum (S n) f) with (nadd (sum n f) (f n)). split; intros Hi.
  - destruct (Nat.eq_dec i n) as [->|D].
    + apply add_zero_l, I2. lia.
    + eapply same_trans; [apply add_zero_r; apply H; lia|]. apply I1. lia.
  - destruct (same_cases _ _ (add_zero_r (sum n f) (f n) (H n ltac:(lia) ltac:(lia)))) as [->|(A & _)]; [apply I2; lia|exact A].
Qed.
Lemma zeros_plus n (f : nat -> fl) x : (forall k, (k < n)%nat -> is_zero (f k)) -> x = n1 -> nadd (sum n f) x = n1.
Proof.
  intros H ->. destruct (sum_one n f n) as (_ & I); [intros; apply H; assumption|]. destruct (same_cases _ _ (add_zero_l n1 _ (I (le_n n)))) as [E|(_ & s & B)]; [exact E|].
  exfalso. assert (W : B2R (n1 : fl) = 1) by apply Bone_correct. rewrite B in W. cbn in W. lra.
Qed.

(** Homogeneous coordinates. *)
Lemma hom_lt n (p : vec fl n) a k : (k < n)%nat -> vat (vextend p a) k = vat p k.
Proof. intros Hk. rewrite vat_vextend by lia. destruct (Nat.eqb_spec k n); [lia|reflexivity]. Qed.
Lemma hom_n n (p : vec fl n) a : vat (vextend p a) n = a.
Proof. rewrite vat_vextend by lia. rewrite Nat.eqb_refl. reflexivity. Qed.
Lemma one_not0 : nis0 (n1 : fl) = false.
Proof.
  cbn [nis0 numdiv_float]. rewrite Beqb_correct by (reflexivity || apply one_fin). apply Req_bool_false. assert (W : B2R (n1 : fl) = 1) by apply Bone_correct. rewrite W. cbn. lra.
Qed.
Lemma affine_row n (f : mat fl (S n) (S n)) v i : (i <= n)%nat -> vat (mmulv f v) i = nadd (sum n (fun k => nmul (mget f k i) (vat v k))) (nmul (mget f n i) (vat v n)).
Proof. intros Hi. rewrite vat_mmulv by lia. reflexivity. Qed.
Lemma affine_point n (f : transform fl n) (p : point fl n) : (forall k, (k < n)%nat -> is_zero (mget f k n)) -> mget f n n = n1 -> all_finite (p : vec fl n) ->
  exists q, tf_apply_point f p = Some q /\ forall i, (i < n)%nat -> vat q i = nadd (sum n (fun k => nmul (mget f k i) (vat p k))) (mget f n i).
Proof.
  intros Z O F. unfold tf_apply_point, pfrom_homogeneous.
  assert (W : vat (mmulv f (pto_homogeneous p)) n = n1).
  { rewrite affine_row by lia. apply zeros_plus.
    - intros k Hk. apply mul_zero_l; [apply Z, Hk|]. unfold pto_homogeneous. rewrite hom_lt by exact Hk. apply F, Hk.
    - unfold pto_homogeneous. rewrite hom_n, O. apply mul_1_l. }
  rewrite W, one_not0. cbn [negb]. eexists; split; [reflexivity|]. intros i Hi.
  etransitivity; [exact (vget_loop_fill n0 n (fun i => ndiv (vat (mmulv f (pto_homogeneous p)) i) n1) _ i Hi)|]. cbv beta. rewrite fdiv_1_r, affine_row by lia.
  unfold pto_homogeneous. rewrite hom_n, fmul_1_r. f_equal. apply sum_ext. intros k Hk. rewrite hom_lt by exact Hk. reflexivity.
Qed.
Lemma affine_vector n (f : transform fl n) (v : vec fl n) i : (i < n)%nat -> is_finite (mget f n i) = true ->
  feqv (vat (tf_apply_vector f v) i) (sum n (fun k => nmul (mget f k i) (vat v k))).
Proof.
  intros Hi F. unfold tf_apply_vector. rewrite vat_vcontract, affine_row by lia. rewrite hom_n.
  eapply same_trans; [apply add_zero_r, mul_zero_r; [apply zero_0|exact F]|]. left. apply sum_ext. intros k Hk. rewrite hom_lt by exact Hk. reflexivity.
Qed.
End F.
