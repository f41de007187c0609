(** Float arithmetic on integers is exact while the results have at most [prec] bits. *)

From Coq Require Import List Arith ZArith Bool Lia Reals Lra.
From Flocq Require Import Core.Core IEEE754.BinarySingleNaN.
From Verif Require Import Base Scalar Spec SpecF LBase MVector LVector MMatrix LMatrix MFloat LFloat.
Import ListNotations.

Section Exact.
Context {prec emax : Z} {Hprec : Prec_gt_0 prec} {Hemax : Prec_lt_emax prec emax}.
Notation fl := (binary_float prec emax).
Notation rnd := (round radix2 (FLT_exp (3 - emax - prec) prec) ZnearestE).

Lemma int_format z : (Z.abs z < 2 ^ prec)%Z -> generic_format radix2 (FLT_exp (3 - emax - prec) prec) (IZR z).
Proof.
  intros H. pose proof Hprec as P1. pose proof Hemax as P2. unfold Prec_gt_0, Prec_lt_emax in *.
  apply generic_format_FLT. exists (Float radix2 z 0).
  - unfold F2R. cbn. ring.
  - exact H.
  - cbn [Fexp]. lia.
Qed.

Lemma int_round z : (Z.abs z < 2 ^ prec)%Z -> rnd (IZR z) = IZR z /\ (Rabs (rnd (IZR z)) < bpow radix2 emax)%R.
Proof.
  intros H. pose proof Hprec as P1. pose proof Hemax as P2. unfold Prec_gt_0, Prec_lt_emax in *.
  assert (E : rnd (IZR z) = IZR z) by (apply round_generic; [apply valid_rnd_N|apply int_format; exact H]).
  split; [exact E|]. rewrite E, <- abs_IZR.
  apply Rlt_le_trans with (IZR (2 ^ prec)); [apply IZR_lt; exact H|].
  change 2%Z with (radix_val radix2). rewrite IZR_Zpower by lia. apply bpow_le. lia.
Qed.

Lemma fint_add (x y : fl) a b :
  fint x a -> fint y b -> (Z.abs (a + b) < 2 ^ prec)%Z -> fint (nadd x y) (a + b).
Proof.
  intros (Fx & Ex) (Fy & Ey) H. cbn [nadd num_float].
  pose proof (Bplus_correct prec emax _ _ mode_NE x y Fx Fy) as C.
  rewrite Ex, Ey, <- plus_IZR in C. destruct (int_round _ H) as (E & L).
  cbn [round_mode] in C. rewrite Rlt_bool_true in C by exact L.
  destruct C as (C1 & C2 & _). pose proof (eq_trans C1 E) as C3. split; assumption.
Qed.

Lemma fint_sub (x y : fl) a b :
  fint x a -> fint y b -> (Z.abs (a - b) < 2 ^ prec)%Z -> fint (nsub x y) (a - b).
Proof.
  intros (Fx & Ex) (Fy & Ey) H. cbn [nsub num_float].
  pose proof (Bminus_correct prec emax _ _ mode_NE x y Fx Fy) as C.
  rewrite Ex, Ey, <- minus_IZR in C. destruct (int_round _ H) as (E & L).
  cbn [round_mode] in C. rewrite Rlt_bool_true in C by exact L.
  destruct C as (C1 & C2 & _). pose proof (eq_trans C1 E) as C3. split; assumption.
Qed.

Lemma fint_mul (x y : fl) a b :
  fint x a -> fint y b -> (Z.abs (a * b) < 2 ^ prec)%Z -> fint (nmul x y) (a * b).
Proof.
  intros (Fx & Ex) (Fy & Ey) H. cbn [nmul num_float].
  pose proof (Bmult_correct prec emax _ _ mode_NE x y) as C.
  rewrite Ex, Ey, <- mult_IZR in C. destruct (int_round _ H) as (E & L).
  cbn [round_mode] in C. rewrite Rlt_bool_true in C by exact L.
  destruct C as (C1 & C2 & _). pose proof (eq_trans C1 E) as C3. rewrite Fx, Fy in C2. split; assumption.
Qed.

Lemma fint_neg (x : fl) a : fint x a -> fint (nneg x) (- a).
Proof.
  intros (Fx & Ex). cbn [nneg num_float]. split.
  - rewrite is_finite_Bopp. exact Fx.
  - rewrite B2R_Bopp, Ex, opp_IZR. reflexivity.
Qed.

Lemma fint_0 : fint (n0 : fl) 0.
Proof. split; reflexivity. Qed.

Lemma fint_1 : fint (n1 : fl) 1.
Proof. destruct (@fbone prec emax _ _) as (E & F & _). split; assumption. Qed.

(** The zero test of the code decides whether the integer is zero. *)
Lemma fint_is0 (x : fl) a : fint x a -> nis0 x = Z.eqb a 0.
Proof.
  intros (Fx & Ex). cbn [nis0 numdiv_float]. rewrite Beqb_correct by (assumption || reflexivity).
  rewrite Ex. cbn [B2R]. change 0%R with (IZR 0). destruct (Z.eqb_spec a 0) as [->|N].
  - apply Req_bool_true. reflexivity.
  - apply Req_bool_false. intros C. apply eq_IZR in C. contradiction.
Qed.

(** With a bound on the integer. *)
Definition fintb (B : Z) (x : fl) (a : Z) : Prop := fint x a /\ (Z.abs a <= B)%Z.

Lemma fintb_add A B (x y : fl) a b :
  fintb A x a -> fintb B y b -> (A + B < 2 ^ prec)%Z -> fintb (A + B) (nadd x y) (a + b).
Proof. intros (Fx & Ha) (Fy & Hb) H. split; [apply fint_add; auto; lia|lia]. Qed.

Lemma fintb_sub A B (x y : fl) a b :
  fintb A x a -> fintb B y b -> (A + B < 2 ^ prec)%Z -> fintb (A + B) (nsub x y) (a - b).
Proof. intros (Fx & Ha) (Fy & Hb) H. split; [apply fint_sub; auto; lia|lia]. Qed.

Lemma fintb_mul A B (x y : fl) a b :
  fintb A x a -> fintb B y b -> (A * B < 2 ^ prec)%Z -> fintb (A * B) (nmul x y) (a * b).
Proof.
  intros (Fx & Ha) (Fy & Hb) H.
  assert (L : (Z.abs (a * b) <= A * B)%Z) by (rewrite Z.abs_mul; apply Z.mul_le_mono_nonneg; lia).
  split; [apply fint_mul; auto; lia|exact L].
Qed.

Lemma fintb_neg A (x : fl) a : fintb A x a -> fintb A (nneg x) (- a).
Proof. intros (Fx & Ha). split; [apply fint_neg; auto|lia]. Qed.

Lemma fintb_sum n B (f : nat -> fl) (a : nat -> Z) :
  (0 <= B)%Z -> (Z.of_nat n * B < 2 ^ prec)%Z -> (forall i, (i < n)%nat -> fintb B (f i) (a i)) ->
  fintb (Z.of_nat n * B) (sum n f) (sum n a).
Proof.
  intros HB. induction n as [|n IH]; intros HN H.
  - split; [apply fint_0|cbn; lia].
  - cbn [sum]. rewrite Nat2Z.inj_succ in *.
    replace (Z.succ (Z.of_nat n) * B)%Z with (Z.of_nat n * B + B)%Z in * by ring.
    apply (fintb_add (Z.of_nat n * B) B); [|apply H; lia|exact HN].
    apply IH; [lia|]. intros i Hi. apply H. lia.
Qed.
End Exact.

(** Bounds with literal numbers. *)
Ltac fintb_step :=
  match goal with
  | |- fintb _ (nadd _ _) _ => eapply fintb_add
  | |- fintb _ (nsub _ _) _ => eapply fintb_sub
  | |- fintb _ (nmul _ _) _ => eapply fintb_mul
  | |- fintb _ (nneg _) _ => eapply fintb_neg
  end.
