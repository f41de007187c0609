(** Order, maximum and sums of floats without a sign. *)

From Coq Require Import List Arith ZArith Bool Lia Reals Lra Psatz.
From Flocq Require Import Core.Core IEEE754.BinarySingleNaN.
From Verif Require Import Base Scalar Spec LBase MVector LVector MMatrix LMatrix MFloat LFloat LFloatP MFloatVec LFloatVec MSign LTrScF MNormF.
Local Open Scope R_scope.

Section A.
Context {prec emax : Z} {Hp : Prec_gt_0 prec} {He : Prec_lt_emax prec emax}.
Notation fl := (binary_float prec emax).
Notation u := (bpow radix2 (- prec)).
Notation fexp := (FLT_exp (3 - emax - prec) prec).
Notation rnd := (round radix2 fexp ZnearestE).

(** The order of the floats that are not NaN, by cases. *)
Definition le (x y : fl) : Prop :=
  x = B754_infinity true \/ y = B754_infinity false \/ (is_finite x = true /\ is_finite y = true /\ B2R x <= B2R y).

Lemma bleb_le (x y : fl) : is_nan x = false -> is_nan y = false -> Bleb x y = true <-> le x y.
Proof.
  intros Nx Ny. destruct (is_finite x) eqn:Fx, (is_finite y) eqn:Fy.
  - rewrite (Bleb_correct _ _ x y Fx Fy). unfold le. split.
    + intros H. right. right. repeat split; try assumption. revert H. case Rle_bool_spec; [auto|discriminate].
    + intros [H|[H|(_ & _ & H)]]; [subst; discriminate|subst; discriminate|]. apply Rle_bool_true. exact H.
  - destruct y as [| [|] | |]; try discriminate; destruct x as [[|] | [|] | | [|]]; try discriminate; cbn; unfold le; split; intros; try discriminate; auto;
      destruct H as [H|[H|(H1 & H2 & _)]]; discriminate.
  - destruct x as [| [|] | |]; try discriminate; destruct y as [[|] | [|] | | [|]]; try discriminate; cbn; unfold le; split; intros; try discriminate; auto;
      destruct H as [H|[H|(H1 & H2 & _)]]; discriminate.
  - destruct x as [| [|] | |]; try discriminate; destruct y as [| [|] | |]; try discriminate; cbn; unfold le; split; intros; try discriminate; auto;
      destruct H as [H|[H|(H1 & H2 & _)]]; discriminate.
Qed.

Lemma bltb_lt (x y : fl) : is_nan x = false -> is_nan y = false -> Bltb x y = negb (Bleb y x).
Proof.
  intros Nx Ny. unfold Bltb, Bleb, SpecFloat.SFltb, SpecFloat.SFleb.
  change (SpecFloat.SFcompare (B2SF x) (B2SF y)) with (Bcompare x y). change (SpecFloat.SFcompare (B2SF y) (B2SF x)) with (Bcompare y x).
  rewrite (Bcompare_swap _ _ x y). destruct (Bcompare x y) as [[| |]|] eqn:E; try reflexivity.
  destruct x as [[|]|[|]| |[|]], y as [[|]|[|]| |[|]]; discriminate.
Qed.

Lemma le_refl (x : fl) : is_nan x = false -> le x x.
Proof.
  intros N. destruct (is_finite x) eqn:F; [right; right; repeat split; auto; lra|].
  destruct x as [|[|]| |]; try discriminate; [left|right; left]; reflexivity.
Qed.
Lemma le_trans (x y z : fl) : le x y -> le y z -> le x z.
Proof.
  intros [H|[H|(F1 & F2 & H)]] [K|[K|(G1 & G2 & K)]]; subst; unfold le; auto; try discriminate.
  right. right. repeat split; auto. lra.
Qed.
Lemma le_total (x y : fl) : is_nan x = false -> is_nan y = false -> le x y \/ le y x.
Proof.
  intros Nx Ny. destruct (is_finite x) eqn:Fx, (is_finite y) eqn:Fy.
  - destruct (Rle_or_lt (B2R x) (B2R y)) as [H|H]; [left|right]; right; right; repeat split; auto; lra.
  - destruct y as [|[|]| |]; try discriminate; [right; left|left; right; left]; reflexivity.
  - destruct x as [|[|]| |]; try discriminate; [left; left|right; right; left]; reflexivity.
  - destruct x as [|[|]| |]; try discriminate; [left; left|right; right; left]; reflexivity.
Qed.

(** Not NaN and without a sign. *)
Definition pos (x : fl) : Prop := is_nan x = false /\ Bsign x = false.
Lemma pos_0 : pos (B754_zero false). Proof. split; reflexivity. Qed.
Lemma pos_abs (x : fl) : is_nan x = false -> pos (fabs x).
Proof. intros N. destruct x; try discriminate; split; reflexivity. Qed.
Lemma nan_abs (x : fl) : is_nan (fabs x) = is_nan x. Proof. destruct x; reflexivity. Qed.
Lemma fin_abs (x : fl) : is_finite (fabs x) = is_finite x. Proof. destruct x; reflexivity. Qed.
Lemma R_abs (x : fl) : B2R (fabs x) = Rabs (B2R x).
Proof.
  destruct x as [s|s| |s m e H]; cbn [fabs fset_sign B2R]; rewrite ?Rabs_R0; try reflexivity.
  destruct s; cbn [B2R SpecFloat.cond_Zopp].
  - change (Z.neg m) with (- Z.pos m)%Z. rewrite F2R_Zopp, Rabs_Ropp, Rabs_pos_eq; [reflexivity|]. apply F2R_ge_0. cbn. lia.
  - rewrite Rabs_pos_eq; [reflexivity|]. apply F2R_ge_0. cbn. lia.
Qed.
Lemma pos_R (x : fl) : pos x -> 0 <= B2R x.
Proof.
  intros (N & S). destruct x as [s|s| |s m e H]; cbn [B2R]; try lra. cbn in S. subst. apply F2R_ge_0. cbn. lia.
Qed.
Lemma pos_inf (x : fl) : pos x -> is_finite x = false -> x = B754_infinity false.
Proof. intros (N & S) F. destruct x; try discriminate. cbn in S. subst. reflexivity. Qed.
Lemma pos_eq (x y : fl) : pos x -> pos y -> le x y -> le y x -> x = y.
Proof.
  intros (Nx & Sx) (Ny & Sy) [H|[H|(F1 & F2 & H)]] [K|[K|(G1 & G2 & K)]]; subst; try discriminate; try reflexivity.
  apply B2R_Bsign_inj; auto; [lra|congruence].
Qed.
Lemma le_0 (x : fl) : pos x -> le (B754_zero false) x.
Proof.
  intros P. destruct (is_finite x) eqn:F; [|right; left; apply pos_inf; assumption].
  right. right. repeat split; auto. apply pos_R. exact P.
Qed.

(** Adding floats without a sign. *)
Lemma add_pos_cases (x y : fl) : pos x -> pos y -> is_finite x = true -> is_finite y = true ->
  nadd x y = B754_infinity false \/ (is_finite (nadd x y) = true /\ Bsign (nadd x y) = false /\ B2R (nadd x y) = rnd (B2R x + B2R y)).
Proof.
  intros Px Py Fx Fy. pose proof (pos_R x Px) as X. pose proof (pos_R y Py) as Y. destruct Px as (_ & Sx). destruct Py as (_ & Sy).
  cbn [nadd num_float]. pose proof (Bplus_correct prec emax Hp He mode_NE x y Fx Fy) as C.
  revert C. case Rlt_bool_spec; intros L C.
  - right. destruct C as (C1 & C2 & C3). split; [exact C2|]. split; [|exact C1]. rewrite C3, Sx, Sy.
    case Rcompare_spec; intros; try reflexivity. lra.
  - left. destruct C as (C & _). rewrite Sx in C. cbn in C.
    destruct (Bplus mode_NE x y) as [|s| |]; try discriminate. cbn in C. inversion C. reflexivity.
Qed.

Lemma add_nan (x y : fl) : pos x -> is_nan y = true -> nadd x y = B754_nan.
Proof. intros P N. destruct y; try discriminate. destruct x; reflexivity. Qed.
Lemma nan_add (y : fl) : nadd B754_nan y = B754_nan.
Proof. reflexivity. Qed.

Lemma add_pos (x y : fl) : pos x -> pos y -> pos (nadd x y) /\ le x (nadd x y) /\ le y (nadd x y).
Proof.
  intros Px Py.
  destruct (is_finite x) eqn:Fx; [destruct (is_finite y) eqn:Fy|].
  - destruct (add_pos_cases x y Px Py Fx Fy) as [E|(F & S & E)].
    + rewrite E. split; [split; reflexivity|]. split; right; left; reflexivity.
    + split; [split; [destruct (nadd x y); try discriminate; reflexivity|exact S]|].
      pose proof (pos_R x Px) as X. pose proof (pos_R y Py) as Y.
      split; right; right; (split; [assumption|]); (split; [assumption|]); rewrite E.
      * eapply Rle_trans; [apply Req_le; symmetry; apply (rnd_float x)|]. apply round_le; [apply FLT_exp_valid; exact Hp|apply valid_rnd_N|]. lra.
      * eapply Rle_trans; [apply Req_le; symmetry; apply (rnd_float y)|]. apply round_le; [apply FLT_exp_valid; exact Hp|apply valid_rnd_N|]. lra.
  - rewrite (pos_inf y Py Fy). destruct x as [| | |]; try discriminate; cbn [nadd num_float Bplus];
      (split; [split; reflexivity|]; split; right; left; reflexivity).
  - rewrite (pos_inf x Px Fx). pose proof (proj1 Py) as N. pose proof (proj2 Py) as S.
    destruct y as [|s| |]; try discriminate; cbn in S; try subst s; cbn [nadd num_float Bplus Bool.eqb];
      (split; [split; reflexivity|]; split; right; left; reflexivity).
Qed.

(** The maximum. *)
Lemma fmax_cases tie (x y : fl) : is_nan x = false -> is_nan y = false ->
  (fmax tie x y = x \/ fmax tie x y = y) /\ le x (fmax tie x y) /\ le y (fmax tie x y).
Proof.
  intros Nx Ny. unfold fmax. rewrite Nx, Ny. rewrite (bltb_lt x y Nx Ny), (bltb_lt y x Ny Nx).
  destruct (Bleb y x) eqn:A; destruct (Bleb x y) eqn:B; cbn [negb].
  - apply (bleb_le y x Ny Nx) in A. apply (bleb_le x y Nx Ny) in B.
    destruct (tie x y); (split; [auto|]); split; auto using le_refl.
  - apply (bleb_le y x Ny Nx) in A. split; [auto|]. split; auto using le_refl.
  - apply (bleb_le x y Nx Ny) in B. split; [auto|]. split; auto using le_refl.
  - exfalso. destruct (le_total x y Nx Ny) as [C|C]; [apply (bleb_le x y Nx Ny) in C|apply (bleb_le y x Ny Nx) in C]; congruence.
Qed.
Lemma fmin_cases tie (x y : fl) : is_nan x = false -> is_nan y = false ->
  (fmin tie x y = x \/ fmin tie x y = y) /\ le (fmin tie x y) x /\ le (fmin tie x y) y.
Proof.
  intros Nx Ny. unfold fmin. rewrite Nx, Ny. rewrite (bltb_lt x y Nx Ny), (bltb_lt y x Ny Nx).
  destruct (Bleb y x) eqn:A; destruct (Bleb x y) eqn:B; cbn [negb].
  - apply (bleb_le y x Ny Nx) in A. apply (bleb_le x y Nx Ny) in B.
    destruct (tie x y); (split; [auto|]); split; auto using le_refl.
  - apply (bleb_le y x Ny Nx) in A. split; [auto|]. split; auto using le_refl.
  - apply (bleb_le x y Nx Ny) in B. split; [auto|]. split; auto using le_refl.
  - exfalso. destruct (le_total x y Nx Ny) as [C|C]; [apply (bleb_le x y Nx Ny) in C|apply (bleb_le y x Ny Nx) in C]; congruence.
Qed.
Lemma fmax_nan_r tie (x y : fl) : is_nan y = true -> fmax tie x y = (if is_nan x then y else x).
Proof. intros N. unfold fmax. rewrite N. destruct (is_nan x); reflexivity. Qed.
Lemma fmax_0 tie (x : fl) : pos x -> fmax tie x (B754_zero false) = x.
Proof.
  intros P. destruct (fmax_cases tie x (B754_zero false) (proj1 P) eq_refl) as ([E|E] & A & B); [exact E|].
  rewrite E in A. rewrite E. apply pos_eq; [apply pos_0|exact P| |exact A]. apply le_0. exact P.
Qed.
Lemma fmax_pos tie (x y : fl) : pos x -> pos y -> pos (fmax tie x y).
Proof. intros P Q. destruct (fmax_cases tie x y (proj1 P) (proj1 Q)) as ([E|E] & _); rewrite E; assumption. Qed.

(** Maxima of many values without a sign. *)
Definition maxn tie (n : nat) (f : nat -> fl) : fl := for_range n (fun i r => fmax tie r (f i)) (B754_zero false).
Lemma maxn_S tie n f : maxn tie (S n) f = fmax tie (maxn tie n f) (f n).
Proof. unfold maxn. rewrite for_range_S. reflexivity. Qed.
Lemma maxn_spec tie n (f : nat -> fl) : (forall i, (i < n)%nat -> pos (f i)) ->
  pos (maxn tie n f) /\ (forall i, (i < n)%nat -> le (f i) (maxn tie n f)) /\
  (maxn tie n f = B754_zero false \/ exists i, (i < n)%nat /\ maxn tie n f = f i).
Proof.
  induction n as [|n IH]; intros H.
  - split; [apply pos_0|]. split; [intros i Hi; lia|left; reflexivity].
  - destruct IH as (P & A & B); [intros i Hi; apply H; lia|]. rewrite maxn_S.
    assert (Q := H n ltac:(lia)).
    destruct (fmax_cases tie (maxn tie n f) (f n) (proj1 P) (proj1 Q)) as (C & D & E).
    split; [apply fmax_pos; assumption|]. split.
    + intros i Hi. destruct (Nat.eq_dec i n) as [->|Ne]; [exact E|]. eapply le_trans; [apply A; lia|exact D].
    + destruct C as [C|C]; rewrite C.
      * destruct B as [B|(i & Hi & B)]; [left; exact B|right; exists i; split; [lia|exact B]].
      * right. exists n. split; [lia|reflexivity].
Qed.
(** NaN values are dropped. *)
Lemma maxn_nan tie n (f g : nat -> fl) :
  (forall i, (i < n)%nat -> is_nan (f i) = false -> pos (f i)) ->
  (forall i, (i < n)%nat -> g i = if is_nan (f i) then B754_zero false else f i) ->
  maxn tie n f = maxn tie n g.
Proof.
  intros H G. assert (P : forall i, (i < n)%nat -> pos (g i)).
  { intros i Hi. rewrite G by exact Hi. destruct (is_nan (f i)) eqn:N; [apply pos_0|]. apply H; assumption. }
  induction n as [|n IH]; [reflexivity|]. rewrite !maxn_S.
  rewrite IH by (intros; auto with arith). assert (Q : pos (maxn tie n g)) by (apply maxn_spec; intros; apply P; lia).
  rewrite (G n) by lia. destruct (is_nan (f n)) eqn:N; [|reflexivity].
  rewrite fmax_nan_r, (proj1 Q), fmax_0 by assumption. reflexivity.
Qed.

(** Sums of many values without a sign. *)
Definition sumn (n : nat) (f : nat -> fl) : fl := for_range n (fun i r => nadd r (f i)) (B754_zero false).
Lemma sumn_S n f : sumn (S n) f = nadd (sumn n f) (f n).
Proof. unfold sumn. rewrite for_range_S. reflexivity. Qed.
Lemma sumn_pos n (f : nat -> fl) : (forall i, (i < n)%nat -> pos (f i)) ->
  pos (sumn n f) /\ (forall i, (i < n)%nat -> le (f i) (sumn n f)).
Proof.
  induction n as [|n IH]; intros H.
  - split; [apply pos_0|]. intros i Hi; lia.
  - destruct IH as (P & A); [intros i Hi; apply H; lia|]. rewrite sumn_S.
    destruct (add_pos (sumn n f) (f n) P (H n ltac:(lia))) as (B & C & D). split; [exact B|].
    intros i Hi. destruct (Nat.eq_dec i n) as [->|Ne]; [exact D|]. eapply le_trans; [apply A; lia|exact C].
Qed.
Lemma sumn_nan n (f : nat -> fl) : (forall i, (i < n)%nat -> is_nan (f i) = false -> pos (f i)) ->
  is_nan (sumn n f) = true <-> exists i, (i < n)%nat /\ is_nan (f i) = true.
Proof.
  intros H.
  assert (D : (forall i, (i < n)%nat -> is_nan (f i) = false) \/ exists i, (i < n)%nat /\ is_nan (f i) = true).
  { clear H. induction n as [|n [IH|(i & Hi & N)]].
    - left. intros i Hi; lia.
    - destruct (is_nan (f n)) eqn:N; [right; exists n; auto|]. left. intros i Hi. destruct (Nat.eq_dec i n) as [->|Ne]; [exact N|apply IH; lia].
    - right. exists i. split; [lia|exact N]. }
  destruct D as [D|(i & Hi & N)].
  - split; [|intros (i & Hi & N); rewrite D in N; [discriminate|exact Hi]].
    intros N. assert (P : pos (sumn n f)) by (apply sumn_pos; intros; auto). rewrite (proj1 P) in N. discriminate.
  - split; [intros _; exists i; auto|]. intros _. clear H. induction n as [|n IH]; [lia|]. rewrite sumn_S.
    destruct (Nat.eq_dec i n) as [->|Ne].
    + destruct (f n); try discriminate. destruct (sumn n f); reflexivity.
    + assert (E : is_nan (sumn n f) = true) by (apply IH; lia). destruct (sumn n f); try discriminate. reflexivity.
Qed.

(** The error of a sum: the first addition, to zero, is exact. *)
Lemma add_0_l (x : fl) : pos x -> nadd (B754_zero false) x = x.
Proof.
  intros (N & S). destruct x as [s|s| |s m e H]; try discriminate; cbn in S; subst; reflexivity.
Qed.
Lemma sumn_err n (f : nat -> fl) : (forall i, (i < n)%nat -> pos (f i)) -> is_finite (sumn n f) = true ->
  (forall i, (i < n)%nat -> is_finite (f i) = true) /\
  Rabs (B2R (sumn n f) - sum n (fun i => B2R (f i))) <= ((1 + u) ^ (n - 1) - 1) * sum n (fun i => B2R (f i)).
Proof.
  pose proof (bpow_gt_0 radix2 (- prec)) as U.
  induction n as [|n IH]; intros H F.
  - split; [intros i Hi; lia|]. cbn. rewrite Rminus_0_r, Rabs_R0. lra.
  - rewrite sumn_S in F. destruct (ffin_add _ _ F) as (F1 & F2).
    destruct (IH ltac:(intros; apply H; lia) F1) as (G & E). split.
    { intros i Hi. destruct (Nat.eq_dec i n) as [->|Ne]; [exact F2|]. apply G. lia. }
    assert (P0 : forall k, (k <= n)%nat -> 0 <= sum k (fun i => B2R (f i))).
    { induction k as [|k IHk]; intros Hk; cbn [sum]; [rewrite ?R0_def; cbn; lra|].
      specialize (IHk ltac:(lia)). pose proof (pos_R (f k) (H k ltac:(lia))). cbn. lra. }
    destruct n as [|n].
    + cbn [Nat.sub pow]. change (sumn 1 f) with (nadd (B754_zero false) (f 0%nat)). rewrite add_0_l by (apply H; lia).
      cbn. replace (B2R (f 0%nat) - (0 + B2R (f 0%nat))) with 0 by ring. rewrite Rabs_R0. lra.
    + replace (S (S n) - 1)%nat with (S n) by lia. replace (S n - 1)%nat with n in E by lia.
      rewrite sumn_S. destruct (fadd_err _ _ F) as (d & Hd & Ed). rewrite funit_eq in Hd.
      change (sum (S (S n)) (fun i => B2R (f i))) with (sum (S n) (fun i => B2R (f i)) + B2R (f (S n))).
      specialize (P0 (S n) ltac:(lia)). pose proof (pos_R (f (S n)) (H (S n) ltac:(lia))) as Y.
      set (s := sum (S n) (fun i => B2R (f i))) in *. set (y := B2R (f (S n))) in *. rewrite Ed. set (S0 := B2R (sumn (S n) f)) in *.
      assert (K : 1 <= (1 + u) ^ n) by (apply pow_R1_Rle; lra). set (k := (1 + u) ^ n) in *.
      change ((1 + u) ^ S n) with ((1 + u) * k).
      replace ((S0 + y) * (1 + d) - (s + y)) with ((S0 - s) * (1 + d) + (s + y) * d) by ring.
      eapply Rle_trans; [apply Rabs_triang|]. rewrite !Rabs_mult. rewrite (Rabs_pos_eq (s + y)) by lra.
      assert (D1 : Rabs (1 + d) <= 1 + u). { eapply Rle_trans; [apply Rabs_triang|]. rewrite Rabs_R1. lra. }
      assert (T1 : Rabs (S0 - s) * Rabs (1 + d) <= ((k - 1) * s) * (1 + u)) by (apply Rmult_le_compat; try apply Rabs_pos; assumption).
      assert (T2 : (s + y) * Rabs d <= (s + y) * u) by (apply Rmult_le_compat_l; lra).
      assert (T3 : 0 <= (k - 1) * y) by (apply Rmult_le_pos; lra).
      assert (T4 : 0 <= u * ((k - 1) * y)) by (apply Rmult_le_pos; lra).
      nra.
Qed.
(** It does not overflow when the exact sum, enlarged by the possible error, is below the top binade. *)
Lemma sumn_fin n (f : nat -> fl) : (forall i, (i < n)%nat -> pos (f i)) -> (forall i, (i < n)%nat -> is_finite (f i) = true) ->
  (1 + u) ^ n * sum n (fun i => B2R (f i)) <= bpow radix2 (emax - 1) -> is_finite (sumn n f) = true.
Proof.
  pose proof (bpow_gt_0 radix2 (- prec)) as U.
  induction n as [|n IH]; intros H G L; [reflexivity|]. rewrite sumn_S.
  change (sum (S n) (fun i => B2R (f i))) with (sum n (fun i => B2R (f i)) + B2R (f n)) in L.
  assert (P0 : 0 <= sum n (fun i => B2R (f i))).
  { clear - H. induction n as [|k IHk]; [cbn; lra|]. pose proof (pos_R (f k) (H k ltac:(lia))).
    change (sum (S k) (fun i => B2R (f i))) with (sum k (fun i => B2R (f i)) + B2R (f k)).
    assert (0 <= sum k (fun i => B2R (f i))) by (apply IHk; intros; apply H; lia). lra. }
  pose proof (pos_R (f n) (H n ltac:(lia))) as Y.
  assert (K : 1 <= (1 + u) ^ n) by (apply pow_R1_Rle; lra). change ((1 + u) ^ S n) with ((1 + u) * (1 + u) ^ n) in L.
  set (s := sum n (fun i => B2R (f i))) in *. set (y := B2R (f n)) in *. 
  assert (F : is_finite (sumn n f) = true).
  { apply IH; [intros; apply H; lia|intros; apply G; lia|]. set (k := (1 + u) ^ n) in *. 
    assert (0 <= k * s) by (apply Rmult_le_pos; lra). assert (0 <= k * y) by (apply Rmult_le_pos; lra).
    assert (0 <= u * (k * s)) by (apply Rmult_le_pos; lra). assert (0 <= u * (k * y)) by (apply Rmult_le_pos; lra). fold s. nra. }
  destruct (sumn_err n f ltac:(intros; apply H; lia) F) as (_ & E). fold s in E.
  assert (Kn : (1 + u) ^ (n - 1) <= (1 + u) ^ n) by (apply Rle_pow; [lra|lia]).
  apply fadd_fin; [exact F|apply G; lia|]. fold y.
  assert (Q : 0 <= B2R (sumn n f)). { apply pos_R. apply sumn_pos. intros; apply H; lia. }
  rewrite Rabs_pos_eq by lra. apply Rabs_le_inv in E. set (k := (1 + u) ^ n) in *. set (k1 := (1 + u) ^ (n - 1)) in *.
  assert (0 <= (k - k1) * s) by (apply Rmult_le_pos; lra). assert (0 <= (k - 1) * y) by (apply Rmult_le_pos; lra).
  assert (0 <= u * (k * s)). { apply Rmult_le_pos; [lra|apply Rmult_le_pos; lra]. }
  assert (0 <= u * (k * y)). { apply Rmult_le_pos; [lra|apply Rmult_le_pos; lra]. }
  nra.
Qed.
(** A sum is zero only if its terms are. *)
Lemma sumn_zero n (f : nat -> fl) : (forall i, (i < n)%nat -> pos (f i)) ->
  sumn n f = B754_zero false <-> forall i, (i < n)%nat -> f i = B754_zero false.
Proof.
  intros H. split.
  - intros E i Hi. destruct (sumn_pos n f H) as (_ & A). specialize (A i Hi). rewrite E in A.
    apply pos_eq; [apply H; exact Hi|apply pos_0|exact A|apply le_0; apply H; exact Hi].
  - intros E. clear H. induction n as [|n IH]; [reflexivity|]. rewrite sumn_S, IH, E by (intros; auto with arith). reflexivity.
Qed.
Lemma maxn_zero tie n (f : nat -> fl) : (forall i, (i < n)%nat -> pos (f i)) ->
  maxn tie n f = B754_zero false <-> forall i, (i < n)%nat -> f i = B754_zero false.
Proof.
  intros H. destruct (maxn_spec tie n f H) as (P & A & B). split.
  - intros E i Hi. specialize (A i Hi). rewrite E in A.
    apply pos_eq; [apply H; exact Hi|apply pos_0|exact A|apply le_0; apply H; exact Hi].
  - intros E. destruct B as [B|(i & Hi & B)]; [exact B|]. rewrite B. apply E. exact Hi.
Qed.
Lemma max_le_sum tie n (f : nat -> fl) : (forall i, (i < n)%nat -> pos (f i)) -> le (maxn tie n f) (sumn n f).
Proof.
  intros H. destruct (maxn_spec tie n f H) as (P & A & [B|(i & Hi & B)]); rewrite B; destruct (sumn_pos n f H) as (Q & C); [apply le_0; exact Q|].
  apply C. exact Hi.
Qed.

(** Differences in both orders. *)
Lemma abs_sub_swap (x y : fl) : fabs (nsub x y) = fabs (nsub y x).
Proof.
  cbn [nsub num_float]. destruct (is_finite x) eqn:Fx, (is_finite y) eqn:Fy.
  - pose proof (Bminus_correct prec emax Hp He mode_NE x y Fx Fy) as C. pose proof (Bminus_correct prec emax Hp He mode_NE y x Fy Fx) as D.
    change (SpecFloat.fexp prec emax) with fexp in *. cbn [round_mode] in *.
    assert (E : rnd (B2R y - B2R x) = - rnd (B2R x - B2R y)).
    { replace (B2R y - B2R x) with (- (B2R x - B2R y)) by ring. apply (round_NE_opp radix2 fexp). }
    rewrite E, Rabs_Ropp in D. revert C D. case Rlt_bool_spec; intros L C D.
    + destruct C as (C1 & C2 & _). destruct D as (D1 & D2 & _).
      apply B2R_Bsign_inj; rewrite ?fin_abs; auto.
      * rewrite !R_abs, C1, D1, Rabs_Ropp. reflexivity.
      * destruct (Bminus mode_NE x y), (Bminus mode_NE y x); try discriminate; reflexivity.
    + destruct C as (C & _), D as (D & _).
      destruct (Bminus mode_NE x y) as [|s| |]; try (destruct (Bsign x); discriminate).
      destruct (Bminus mode_NE y x) as [|s'| |]; try (destruct (Bsign y); discriminate). reflexivity.
  - destruct y as [|sy| |]; try discriminate; destruct x; try discriminate; reflexivity.
  - destruct x as [|sx| |]; try discriminate; destruct y; try discriminate; reflexivity.
  - destruct x as [|[|]| |]; try discriminate; destruct y as [|[|]| |]; try discriminate; reflexivity.
Qed.
(** A difference of finite floats is zero only if they are equal (gradual underflow). *)
Lemma abs_sub_zero (x y : fl) : is_finite x = true -> is_finite y = true -> fabs (nsub x y) = B754_zero false <-> B2R x = B2R y.
Proof.
  intros Fx Fy. split.
  - intros E. assert (F : is_finite (nsub x y) = true) by (rewrite <- fin_abs, E; reflexivity).
    assert (Z : B2R (nsub x y) = 0). { destruct (nsub x y); try discriminate; reflexivity. }
    rewrite fsub_add_neg in F, Z. destruct (fadd_err _ _ F) as (d & Hd & Ed). rewrite Z in Ed. rewrite funit_eq in Hd.
    change (B2R (nneg y)) with (B2R (Bopp y)) in Ed. rewrite B2R_Bopp in Ed. pose proof u_half as U.
    apply Rabs_le_inv in Hd. assert (1 + d <> 0) by lra. symmetry in Ed. apply Rmult_integral in Ed. destruct Ed; lra.
  - intros E. assert (L : Rabs (B2R x - B2R y) <= bpow radix2 (emax - 1)).
    { rewrite E, Rminus_diag_eq, Rabs_R0 by reflexivity. apply bpow_ge_0. }
    destruct (sub_val x y Fx Fy L) as (F & V & _). rewrite E, Rminus_diag_eq, round_0 in V by first [reflexivity|apply valid_rnd_N].
    apply B2R_Bsign_inj; rewrite ?fin_abs; auto.
    + rewrite R_abs, V, Rabs_R0. reflexivity.
    + destruct (nsub x y); try discriminate; reflexivity.
Qed.
End A.
