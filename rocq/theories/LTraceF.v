(** Traces, inner products and products with a transpose in floats (C156). *)

From Coq Require Import List Arith ZArith Bool Lia Reals Lra Psatz.
From Flocq Require Import Core.Core IEEE754.BinarySingleNaN.
From Verif Require Import Base Scalar Spec SpecF SpecLibm MReal MVector MMatrix MPoint MFloat MFloatVec MSign
  LBase LVector LMatrix LFloat LFloatVec LFloatP LFloatNormP LFloatAcc LFloatExP LProjF LTrScF LSame LNormFA LAffM.
Local Open Scope R_scope.

(** A nested accumulation is one long accumulation. *)
Section L.
Context {K : Type} {NK : Num K}.
Lemma flat_loop (r c : nat) (g : nat -> nat -> K) :
  for_range r (fun i acc => for_range c (fun j acc => nadd acc (g i j)) acc) n0 = sum (r * c) (fun k => g (k / c)%nat (k mod c)%nat).
Proof.
  destruct (Nat.eq_dec c 0) as [->|Hc].
  { rewrite Nat.mul_0_r. induction r as [|r IH]; [reflexivity|]. rewrite for_range_S, IH. reflexivity. }
  induction r as [|r IH]; [reflexivity|]. rewrite for_range_S, IH.
  assert (G : forall m, (m <= c)%nat -> for_range m (fun j acc => nadd acc (g r j)) (sum (r * c) (fun k => g (k / c)%nat (k mod c)%nat)) = sum (r * c + m) (fun k => g (k / c)%nat (k mod c)%nat)).
  { induction m as [|m IM]; intros Hm; [rewrite Nat.add_0_r; reflexivity|]. rewrite for_range_S, IM by lia.
    replace (r * c + S m)%nat with (S (r * c + m)) by lia. cbn [sum]. f_equal.
    replace (r * c + m)%nat with (m + r * c)%nat by lia. rewrite Nat.div_add, Nat.mod_add by lia. rewrite Nat.div_small, Nat.mod_small by lia. reflexivity. }
  rewrite G by lia. f_equal. lia.
Qed.
End L.
Lemma flat_sum (r c : nat) (g : nat -> nat -> R) : rsum (r * c) (fun k => g (k / c)%nat (k mod c)%nat) = rsum r (fun i => rsum c (fun j => g i j)).
Proof.
  destruct (Nat.eq_dec c 0) as [->|Hc].
  { rewrite Nat.mul_0_r. induction r as [|r IH]; [reflexivity|]. rewrite rsum_S, <- IH. change (rsum 0 (g r)) with 0. change (rsum 0 _) with 0. ring. }
  induction r as [|r IH]; [reflexivity|]. rewrite rsum_S, <- IH.
  assert (G : forall m, (m <= c)%nat -> rsum (r * c + m) (fun k => g (k / c)%nat (k mod c)%nat) = rsum (r * c) (fun k => g (k / c)%nat (k mod c)%nat) + rsum m (g r)).
  { induction m as [|m IM]; intros Hm; [rewrite Nat.add_0_r; change (rsum 0 (g r)) with 0; ring|].
    replace (r * c + S m)%nat with (S (r * c + m)) by lia. rewrite !rsum_S, IM by lia.
    replace (r * c + m)%nat with (m + r * c)%nat by lia. rewrite Nat.div_add, Nat.mod_add by lia. rewrite Nat.div_small, Nat.mod_small by lia. rewrite Nat.add_0_l. ring. }
  replace (S r * c)%nat with (r * c + c)%nat by lia. apply G. lia.
Qed.

Section F.
Context {prec emax : Z} {Hp : Prec_gt_0 prec} {He : Prec_lt_emax prec emax}.
Notation fl := (binary_float prec emax).
Notation u := (bpow radix2 (- prec)).

Lemma square_abs (x : fl) : nmul x x = nmul (fabs x) (fabs x).
Proof.
  assert (C : fabs x = x \/ fabs x = nneg x) by (destruct x as [[]|[]| |[] m e H]; auto).
  destruct C as [->| ->]; [reflexivity|]. symmetry. apply fmul_neg_neg.
Qed.
Lemma square_swap (x y : fl) : nmul (nsub x y) (nsub x y) = nmul (nsub y x) (nsub y x).
Proof. rewrite square_abs, abs_sub_swap, <- square_abs. reflexivity. Qed.
Lemma square_self (x : fl) : is_finite x = true -> nmul (nsub x x) (nsub x x) = n0.
Proof.
  intros F. assert (Z : is_zero (nsub x x)).
  { destruct x as [s|s| |s m e H]; try discriminate; cbn [nsub num_float].
    - destruct s; eexists; reflexivity.
    - set (y := B754_finite s m e H) in *. pose proof (Bminus_correct prec emax Hp He mode_NE y y F F) as C. rewrite Rminus_eq_0, round_0, Rabs_R0 in C by apply valid_rnd_round_mode.
      rewrite Rlt_bool_true in C by apply bpow_gt_0. destruct C as (C1 & C2 & _). destruct (Bminus mode_NE y y) as [t|t| |t k q K]; try discriminate; [eexists; reflexivity|].
      exfalso. cbn [B2R] in C1. destruct t; apply eq_0_F2R in C1; discriminate. }
  destruct Z as (s & ->). destruct s; reflexivity.
Qed.

Lemma sum_err n (x : nat -> fl) : is_finite (sum n x) = true ->
  Rabs (B2R (sum n x) - rsum n (fun i => B2R (x i))) <= ((1 + u) ^ n - 1) * rsum n (fun i => Rabs (B2R (x i))).
Proof.
  assert (U : 0 < u) by apply bpow_gt_0. pose proof (@funit_eq prec) as FU.
  induction n as [|n IH]; intros F; [cbn; rewrite Rminus_0_r, Rabs_R0; lra|]. cbn [sum] in *. rewrite !rsum_S.
  destruct (fadd_err _ _ F) as (d & Hd & E). destruct (ffin_add _ _ F) as (Fs & Fx). specialize (IH Fs). rewrite E. clear E. rewrite FU in Hd.
  set (S := B2R (sum n x)) in *. set (X := B2R (x n)) in *. set (T := rsum n (fun i => B2R (x i))) in *. set (A := rsum n (fun i => Rabs (B2R (x i)))) in *.
  assert (TA : Rabs T <= A) by apply rsum_abs. assert (P : 1 <= (1 + u) ^ n) by (apply pow_R1_Rle; lra). set (q := (1 + u) ^ n) in *. cbn [pow]. fold q.
  assert (SA : Rabs S <= q * A) by (replace S with (T + (S - T)) by ring; eapply Rle_trans; [apply Rabs_triang|]; lra).
  replace ((S + X) * (1 + d) - (T + X)) with ((S - T) + d * (S + X)) by ring. eapply Rle_trans; [apply Rabs_triang|]. rewrite Rabs_mult.
  assert (SX : Rabs (S + X) <= q * A + Rabs X) by (eapply Rle_trans; [apply Rabs_triang|]; lra).
  assert (D : Rabs d * Rabs (S + X) <= u * (q * A + Rabs X)) by (apply Rmult_le_compat; [apply Rabs_pos|apply Rabs_pos|exact Hd|exact SX]).
  assert (X0 : 0 <= Rabs X) by apply Rabs_pos. assert (Q : u * Rabs X <= ((1 + u) * q - 1) * Rabs X) by (apply Rmult_le_compat_r; [exact X0|nra]).
  lra.
Qed.
End F.
