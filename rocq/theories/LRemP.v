(** Proofs of the theorems of PRem.v. *)

From Coq Require Import List Arith ZArith Bool Lia Reals Lra.
From Flocq Require Import Core.Core IEEE754.BinarySingleNaN.
From Verif Require Import Base Scalar Spec LBase MVector LVector MMatrix LMatrix MComplex LComplex MQuat LQuat MPoint MInt LInt MFloat LFloat LFloatNormP MRem.
Import ListNotations.

(** A loop that may stop: an invariant, and a reason for stopping. *)
Lemma opt_loop {St} (P : nat -> St -> Prop) (F : nat -> Prop) m body s0 :
  P 0%nat s0 ->
  (forall i s, (i < m)%nat -> P i s -> (exists s', body i s = Some s' /\ P (S i) s') \/ (body i s = None /\ F i)) ->
  (exists s, for_range_opt m body s0 = Some s /\ P m s) \/ (for_range_opt m body s0 = None /\ exists i, (i < m)%nat /\ F i).
Proof.
  intros P0 H. induction m as [|m IH].
  - left. exists s0. split; [reflexivity|exact P0].
  - rewrite for_range_opt_S. destruct IH as [(s & E & Ps)|(E & i & Hi & Fi)].
    + intros i s Hi. apply H. lia.
    + rewrite E. destruct (H m s ltac:(lia) Ps) as [(s' & E' & Ps')|(E' & Fm)]; rewrite E'; [left|right].
      * exists s'. auto.
      * split; [reflexivity|exists m; auto].
    + rewrite E. right. split; [reflexivity|exists i; auto].
Qed.

Section Lifted.
Context {K : Type} {NK : Num K} (op : K -> K -> option K).

Lemma vsop_cases n (u : vec K n) s :
  (exists r, vsop op u s = Some r /\ forall i, (i < n)%nat -> op (vat u i) s = Some (vat r i)) \/
  (vsop op u s = None /\ exists i, (i < n)%nat /\ op (vat u i) s = None).
Proof.
  unfold vsop.
  destruct (opt_loop (fun m (r : vec K n) => forall i, (i < m)%nat -> op (vat u i) s = Some (vat r i)) (fun i => op (vat u i) s = None) n
    (fun i result => match op (vat u i) s with Some x => Some (vset result i x) | None => None end) (vzero n)) as [H|H].
  - intros i Hi. lia.
  - intros i r Hi IH. destruct (op (vat u i) s) as [x|] eqn:E; [left|right; auto].
    eexists; split; [reflexivity|]. intros k Hk. destruct (Nat.eq_dec k i) as [->|N].
    + unfold vat at 2. rewrite vget_vset_eq by exact Hi. exact E.
    + unfold vat at 2. rewrite vget_vset_neq by (exact Hi || lia). apply IH. lia.
  - left. exact H.
  - right. exact H.
Qed.

Lemma vsop_assign_cases n (u : vec K n) s :
  (exists r, vsop_assign op u s = Some r /\ forall i, (i < n)%nat -> op (vat u i) s = Some (vat r i)) \/
  (vsop_assign op u s = None /\ exists i, (i < n)%nat /\ op (vat u i) s = None).
Proof.
  unfold vsop_assign.
  destruct (opt_loop (fun m (r : vec K n) => (forall i, (i < m)%nat -> op (vat u i) s = Some (vat r i)) /\
     forall i, (m <= i)%nat -> vat r i = vat u i) (fun i => op (vat u i) s = None) n
     (fun i data => match op (vat data i) s with Some x => Some (vset data i x) | None => None end) u) as [(r & E & H & _)|H].
  - split; [intros i Hi; lia|auto].
  - intros i r Hi (IH & U). rewrite U by lia. destruct (op (vat u i) s) as [x|] eqn:E; [left|right; auto].
    eexists; split; [reflexivity|]. split; intros k Hk; (destruct (Nat.eq_dec k i) as [->|N]; [try lia|]).
    + unfold vat at 2. rewrite vget_vset_eq by exact Hi. exact E.
    + unfold vat at 2. rewrite vget_vset_neq by (exact Hi || lia). apply IH. lia.
    + unfold vat at 1. rewrite vget_vset_neq by (exact Hi || lia). apply U. lia.
  - left. exists r. auto.
  - right. exact H.
Qed.

Lemma mset_same r c (m : mat K r c) j i x j' i' :
  (j < c)%nat -> (i < r)%nat -> (j' < c)%nat -> (j', i') <> (j, i) -> mget (mset m j i x) j' i' = mget m j' i'.
Proof.
  intros Hj Hi Hj' N. rewrite mget_mset by assumption.
  destruct (Nat.eqb_spec j' j) as [->|]; destruct (Nat.eqb_spec i' i) as [->|]; cbn [andb]; congruence.
Qed.
Lemma mset_at r c (m : mat K r c) j i x : (j < c)%nat -> (i < r)%nat -> mget (mset m j i x) j i = x.
Proof. intros Hj Hi. rewrite mget_mset by assumption. rewrite !Nat.eqb_refl. reflexivity. Qed.

(** Both matrix loops: [h] reads the entry from the source or from the matrix being updated. *)
Lemma msop_loop r c (m s0 : mat K r c) (h : nat -> nat -> mat K r c -> K) s :
  (forall j i d, (j < c)%nat -> (i < r)%nat -> mget d j i = mget s0 j i -> h j i d = mget m j i) ->
  let loop := for_range_opt c (fun j data => for_range_opt r (fun i data =>
    match op (h j i data) s with Some x => Some (mset data j i x) | None => None end) data) s0 in
  (exists w, loop = Some w /\ forall j i, (j < c)%nat -> (i < r)%nat -> op (mget m j i) s = Some (mget w j i)) \/
  (loop = None /\ exists j i, (j < c)%nat /\ (i < r)%nat /\ op (mget m j i) s = None).
Proof.
  intros Hh loop.
  destruct (opt_loop (fun k (d : mat K r c) =>
     (forall j i, (j < k)%nat -> (j < c)%nat -> (i < r)%nat -> op (mget m j i) s = Some (mget d j i)) /\
     (forall j i, (k <= j)%nat -> (j < c)%nat -> (i < r)%nat -> mget d j i = mget s0 j i))
     (fun j => exists i, (i < r)%nat /\ op (mget m j i) s = None) c
     (fun j data => for_range_opt r (fun i data =>
    match op (h j i data) s with Some x => Some (mset data j i x) | None => None end) data) s0) as [(w & E & Hw & _)|(E & j & Hj & i & Hi & F)].
  - split; intros; [lia|reflexivity].
  - intros k d Hk (D & U).
    destruct (opt_loop (fun l (d' : mat K r c) =>
      (forall j i, (j < k)%nat -> (j < c)%nat -> (i < r)%nat -> op (mget m j i) s = Some (mget d' j i)) /\
      (forall i, (i < l)%nat -> (i < r)%nat -> op (mget m k i) s = Some (mget d' k i)) /\
      (forall i, (l <= i)%nat -> (i < r)%nat -> mget d' k i = mget s0 k i) /\
      (forall j i, (S k <= j)%nat -> (j < c)%nat -> (i < r)%nat -> mget d' j i = mget s0 j i))
      (fun i => op (mget m k i) s = None) r
      (fun i data => match op (h k i data) s with Some x => Some (mset data k i x) | None => None end) d) as [(d' & E & D1 & D2 & _ & D3)|(E & i & Hi & F)].
    + conjs; intros; try lia; auto. apply U; lia.
    + intros i d' Hi (D1 & D2 & D3 & D4). rewrite (Hh k i d' Hk Hi (D3 i (le_n i) Hi)).
      destruct (op (mget m k i) s) as [x|] eqn:E; [left|right; auto].
      eexists; split; [reflexivity|]. conjs.
      * intros j i' L1 L2 L3. rewrite mset_same by (try assumption; intros X; injection X; lia). apply D1; assumption.
      * intros i' L1 L2. destruct (Nat.eq_dec i' i) as [->|N].
        -- rewrite mset_at by assumption. exact E.
        -- rewrite mset_same by (try assumption; intros X; injection X; lia). apply D2; lia.
      * intros i' L1 L2. rewrite mset_same by (try assumption; intros X; injection X; lia). apply D3; lia.
      * intros j i' L1 L2 L3. rewrite mset_same by (try assumption; intros X; injection X; lia). apply D4; assumption.
    + left. exists d'. split; [exact E|]. split; [|exact D3].
      intros j i L1 L2 L3. destruct (Nat.eq_dec j k) as [->|N]; [apply D2; assumption|apply D1; lia].
    + right. split; [exact E|]. exists i. auto.
  - left. exists w. split; [exact E|]. intros j i Hj Hi. apply Hw; assumption.
  - right. split; [exact E|]. exists j, i. auto.
Qed.

Lemma msop_cases r c (m : mat K r c) s :
  (exists w, msop op m s = Some w /\ forall j i, (j < c)%nat -> (i < r)%nat -> op (mget m j i) s = Some (mget w j i)) \/
  (msop op m s = None /\ exists j i, (j < c)%nat /\ (i < r)%nat /\ op (mget m j i) s = None).
Proof. apply (msop_loop r c m (mzero r c) (fun j i _ => mget m j i)). reflexivity. Qed.
Lemma msop_assign_cases r c (m : mat K r c) s :
  (exists w, msop_assign op m s = Some w /\ forall j i, (j < c)%nat -> (i < r)%nat -> op (mget m j i) s = Some (mget w j i)) \/
  (msop_assign op m s = None /\ exists j i, (j < c)%nat /\ (i < r)%nat /\ op (mget m j i) s = None).
Proof. apply (msop_loop r c m m (fun j i d => mget d j i)). auto. Qed.

Lemma vec_opt_ext n (u : vec K n) (f : K -> option K) (r r' : vec K n) :
  (forall i, (i < n)%nat -> f (vat u i) = Some (vat r i)) -> (forall i, (i < n)%nat -> f (vat u i) = Some (vat r' i)) -> r = r'.
Proof. intros A B. apply (vec_ext n0). intros i Hi. specialize (A i Hi). specialize (B i Hi). unfold vat in *. congruence. Qed.

Lemma vsop_some n (u : vec K n) s r : vsop op u s = Some r <-> forall i, (i < n)%nat -> op (vat u i) s = Some (vat r i).
Proof.
  destruct (vsop_cases n u s) as [(r' & E & H)|(E & i & Hi & F)]; rewrite E; split; intros X.
  - injection X as <-. exact H.
  - f_equal. exact (vec_opt_ext n u (fun x => op x s) r' r H X).
  - discriminate.
  - rewrite X in F by exact Hi. discriminate.
Qed.
Lemma vsop_none n (u : vec K n) s : vsop op u s = None <-> exists i, (i < n)%nat /\ op (vat u i) s = None.
Proof.
  destruct (vsop_cases n u s) as [(r' & E & H)|(E & i & Hi & F)]; rewrite E; split; intros X; try discriminate; eauto.
  destruct X as (i & Hi & F). rewrite H in F by exact Hi. discriminate.
Qed.
Lemma vsop_assign_eq n (u : vec K n) s : vsop_assign op u s = vsop op u s.
Proof.
  destruct (vsop_assign_cases n u s) as [(r & E & H)|(E & i & Hi & F)]; rewrite E; symmetry.
  - apply vsop_some. exact H.
  - apply vsop_none. eauto.
Qed.
Lemma msop_some r c (m w : mat K r c) s :
  msop op m s = Some w <-> forall j i, (j < c)%nat -> (i < r)%nat -> op (mget m j i) s = Some (mget w j i).
Proof.
  destruct (msop_cases r c m s) as [(w' & E & H)|(E & j & i & Hj & Hi & F)]; rewrite E; split; intros X.
  - injection X as <-. exact H.
  - f_equal. apply mat_ext. intros j i Hj Hi. specialize (H j i Hj Hi). specialize (X j i Hj Hi). congruence.
  - discriminate.
  - rewrite X in F by assumption. discriminate.
Qed.
Lemma msop_none r c (m : mat K r c) s : msop op m s = None <-> exists j i, (j < c)%nat /\ (i < r)%nat /\ op (mget m j i) s = None.
Proof.
  destruct (msop_cases r c m s) as [(w' & E & H)|(E & j & i & Hj & Hi & F)]; rewrite E; split; intros X; try discriminate; eauto.
  destruct X as (j & i & Hj & Hi & F). rewrite H in F by assumption. discriminate.
Qed.
Lemma msop_assign_eq r c (m : mat K r c) s : msop_assign op m s = msop op m s.
Proof.
  destruct (msop_assign_cases r c m s) as [(w & E & H)|(E & j & i & Hj & Hi & F)]; rewrite E; symmetry.
  - apply msop_some. exact H.
  - apply msop_none. eauto.
Qed.

Lemma qsop_eq (q : quat K) s : qsop op q s = vsop op (q : vec K 4) s.
Proof.
  destruct q as [a [b [c [d []]]]].
  unfold qsop, vsop, for_range_opt, qscalar, qvector, qfrom_parts, qnew.
  cbn [seq fold_left vat vget fst snd v3 v4].
  destruct (op a s); [|reflexivity]. destruct (op b s); [|reflexivity]. destruct (op c s); [|reflexivity]. destruct (op d s); reflexivity.
Qed.
End Lifted.

(** The remainder of two integers brought to a common exponent. *)
Lemma wrem_fits s w (x y : wint s w) : wval y <> 0%Z -> wfits s w (Z.rem (wval x) (wval y)).
Proof.
  intros N. pose proof (wval_range s w x) as X. unfold wfits, wmin, wmodulus in *.
  pose proof (Z.rem_bound_abs (wval x) (wval y) N).
  assert (P : (0 < 2 ^ (Zpos w - 1))%Z) by (apply Z.pow_pos_nonneg; lia).
  assert (E : (2 ^ Zpos w = 2 * 2 ^ (Zpos w - 1))%Z) by (rewrite <- Z.pow_succ_r by lia; f_equal; lia).
  destruct (Z.le_gt_cases 0 (wval x)) as [G|G].
  - pose proof (Z.rem_nonneg (wval x) (wval y) N G). assert (Z.rem (wval x) (wval y) <= wval x)%Z.
    { rewrite <- (Z.rem_abs_r (wval x)) by exact N. apply Z.rem_le; lia. } destruct s; lia.
  - pose proof (Z.rem_nonpos (wval x) (wval y) N ltac:(lia)).
    assert (- wval x >= - Z.rem (wval x) (wval y))%Z.
    { rewrite <- Z.rem_opp_l by exact N. apply Z.le_ge. rewrite <- (Z.rem_abs_r (- wval x)) by exact N. apply Z.rem_le; lia. }
    destruct s; lia.
Qed.

Lemma wquot_fits s w (x y : wint s w) : wval y <> 0%Z -> wdiv_overflows s w (wval x) (wval y) = false -> wfits s w (Z.quot (wval x) (wval y)).
Proof.
  intros N O. pose proof (wval_range s w x) as X. pose proof (wval_range s w y) as Y. unfold wfits, wmin, wmodulus in *.
  assert (P : (0 < 2 ^ (Zpos w - 1))%Z) by (apply Z.pow_pos_nonneg; lia).
  assert (E : (2 ^ Zpos w = 2 * 2 ^ (Zpos w - 1))%Z) by (rewrite <- Z.pow_succ_r by lia; f_equal; lia).
  assert (A : (Z.abs (Z.quot (wval x) (wval y)) <= Z.abs (wval x))%Z).
  { rewrite <- Z.quot_abs by exact N. apply Z.quot_le_upper_bound; [lia|]. nia. }
  destruct s.
  - destruct (Z.eq_dec (wval x) (- 2 ^ (Zpos w - 1))) as [M|M]; [|lia].
    destruct (Z.eq_dec (wval y) (-1)) as [Q|Q].
    + unfold wdiv_overflows, wmin in O. rewrite M, Q, !Z.eqb_refl in O. discriminate.
    + destruct (Z.eq_dec (wval y) 1) as [Q1|Q1]; [rewrite Q1, Z.quot_1_r; lia|].
      assert (B : (Z.abs (Z.quot (wval x) (wval y)) * 2 <= Z.abs (wval x))%Z).
      { rewrite <- Z.quot_abs by exact N. pose proof (Z.mul_quot_le (Z.abs (wval x)) (Z.abs (wval y)) ltac:(lia) ltac:(lia)).
        pose proof (Z.quot_pos (Z.abs (wval x)) (Z.abs (wval y)) ltac:(lia) ltac:(lia)). nia. }
      lia.
  - pose proof (Z.quot_pos (wval x) (wval y) ltac:(lia) ltac:(lia)). lia.
Qed.

Lemma wop_none s w (x y : wint s w) (g : Z -> Z -> Z) :
  (if (wval y =? 0)%Z then None else if wdiv_overflows s w (wval x) (wval y) then None else Some (wof s w (g (wval x) (wval y)))) = None <->
  wval y = 0%Z \/ (s = true /\ wval x = wmin s w /\ wval y = (-1)%Z).
Proof.
  destruct (Z.eqb_spec (wval y) 0) as [E|N]; [split; auto|].
  unfold wdiv_overflows. destruct s; cbn [andb].
  - destruct (Z.eqb_spec (wval x) (wmin true w)); destruct (Z.eqb_spec (wval y) (-1)); cbn [andb]; split; intros H; try discriminate; auto; lia.
  - split; intros H; [discriminate|]. destruct H as [|[? _]]; [contradiction|discriminate].
Qed.

Section FloatRem.
Context {prec emax : Z} {Hprec : Prec_gt_0 prec} {Hemax : Prec_lt_emax prec emax}.
Notation fl := (binary_float prec emax).
Local Open Scope R_scope.

Lemma F2R_shift m e e' : (e' <= e)%Z -> F2R (Float radix2 m e) = IZR (m * 2 ^ (e - e')) * bpow radix2 e'.
Proof.
  intros H. unfold F2R. cbn [Fnum Fexp]. rewrite mult_IZR. change 2%Z with (radix_val radix2).
  rewrite IZR_Zpower by lia. rewrite Rmult_assoc, <- bpow_plus. do 2 f_equal. lia.
Qed.

Lemma rem_mul_sign a b : (b <> 0)%Z ->
  ((0 <= a * b)%Z -> (0 <= Z.rem a b * b)%Z) /\ ((a * b <= 0)%Z -> (Z.rem a b * b <= 0)%Z).
Proof.
  intros N. destruct (Z.lt_trichotomy a 0) as [H|[->|H]].
  - pose proof (Z.rem_nonpos a b N ltac:(lia)). split; intros; nia.
  - rewrite Z.rem_0_l by exact N. lia.
  - pose proof (Z.rem_nonneg a b N ltac:(lia)). split; intros; nia.
Qed.

Lemma bounded_facts m e : SpecFloat.bounded prec emax m e = true -> (Zpos m < 2 ^ prec)%Z /\ (3 - emax - prec <= e)%Z.
Proof.
  intros H. apply andb_prop in H. destruct H as [C _]. unfold SpecFloat.canonical_mantissa in C. apply Zeq_bool_eq in C.
  unfold SpecFloat.fexp, SpecFloat.emin in C. rewrite Digits.Zpos_digits2_pos in C.
  pose proof (Digits.Zdigits_correct radix2 (Zpos m)) as D. cbv zeta in D.
  split; [|lia]. apply Z.lt_le_trans with (Zpower radix2 (Digits.Zdigits radix2 (Zpos m))); [lia|].
  change (2 ^ prec)%Z with (Zpower radix2 prec). apply Zpower_le. lia.
Qed.

Lemma Ztrunc_div_Z a b : (b <> 0)%Z -> Ztrunc (IZR a / IZR b) = Z.quot a b.
Proof.
  intros N. assert (IZR b <> 0) by (apply IZR_neq; exact N).
  pose proof (Z.quot_rem a b N) as Q. pose proof (Z.rem_bound_abs a b N) as RB.
  assert (E : IZR a / IZR b = IZR (Z.quot a b) + IZR (Z.rem a b) / IZR b).
  { rewrite Q at 1. rewrite plus_IZR, mult_IZR. field. assumption. }
  assert (AB : Rabs (IZR (Z.rem a b) / IZR b) < 1).
  { unfold Rdiv. rewrite Rabs_mult, Rabs_inv, <- !abs_IZR. apply (Rmult_lt_reg_r (IZR (Z.abs b))).
    - apply IZR_lt; lia.
    - rewrite Rmult_assoc, Rinv_l, Rmult_1_r, Rmult_1_l by (apply IZR_neq; lia). apply IZR_lt. exact RB. }
  apply Rabs_lt_inv in AB. destruct AB as [A1 A2].
  destruct (Rle_dec 0 (IZR a / IZR b)) as [G|G].
  - rewrite Ztrunc_floor by exact G. apply Zfloor_imp. rewrite plus_IZR.
    assert (F : 0 <= IZR (Z.rem a b) / IZR b).
    { destruct (Z.eq_dec (Z.rem a b) 0) as [R0|R0]; [rewrite R0; unfold Rdiv; rewrite Rmult_0_l; lra|].
      assert (AB0 : (0 <= a * b)%Z).
      { apply le_IZR. rewrite mult_IZR. replace (IZR a * IZR b) with (IZR a / IZR b * (IZR b * IZR b)) by (field; assumption).
        apply Rmult_le_pos; [exact G|apply Rle_0_sqr]. }
      pose proof (proj1 (rem_mul_sign a b N) AB0) as RB0.
      replace (IZR (Z.rem a b) / IZR b) with (IZR (Z.rem a b * b) / (IZR b * IZR b)) by (rewrite mult_IZR; field; assumption).
      apply Rmult_le_pos; [apply IZR_le; exact RB0|]. apply Rlt_le, Rinv_0_lt_compat. apply Rlt_0_sqr. assumption. }
    rewrite E. lra.
  - rewrite Ztrunc_ceil by lra. apply Zceil_imp. rewrite minus_IZR.
    assert (F : IZR (Z.rem a b) / IZR b <= 0).
    { destruct (Z.eq_dec (Z.rem a b) 0) as [R0|R0]; [rewrite R0; unfold Rdiv; rewrite Rmult_0_l; lra|].
      assert (AB0 : (a * b <= 0)%Z).
      { apply le_IZR. rewrite mult_IZR. replace (IZR a * IZR b) with (IZR a / IZR b * (IZR b * IZR b)) by (field; assumption).
        assert (0 <= IZR b * IZR b) by apply Rle_0_sqr. nra. }
      pose proof (proj2 (rem_mul_sign a b N) AB0) as RB0.
      replace (IZR (Z.rem a b) / IZR b) with (- (- IZR (Z.rem a b * b) / (IZR b * IZR b))) by (rewrite mult_IZR; field; assumption).
      assert (0 <= - IZR (Z.rem a b * b) / (IZR b * IZR b)); [|lra].
      apply Rmult_le_pos; [apply IZR_le in RB0; lra|]. apply Rlt_le, Rinv_0_lt_compat. apply Rlt_0_sqr. assumption. }
    rewrite E. lra.
Qed.

Lemma frem_finite (x y : fl) : is_finite x = true -> is_finite y = true -> B2R y <> 0 ->
  is_finite (frem x y) = true /\ B2R (frem x y) = B2R x - IZR (Ztrunc (B2R x / B2R y)) * B2R y /\
  Bsign (frem x y) = Bsign x /\ Rabs (B2R (frem x y)) < Rabs (B2R y).
Proof.
  intros Fx Fy Ny. destruct y as [sy|sy| |sy my ey Hy]; try discriminate; [cbn in Ny; lra|].
  destruct x as [sx|sx| |sx mx ex Hx]; try discriminate.
  - cbn [frem B2R is_finite Bsign]. unfold Rdiv. rewrite Rmult_0_l. change 0 with (IZR 0) at 2. rewrite Ztrunc_IZR.
    conjs; try reflexivity; [lra|]. rewrite Rabs_R0. apply Rabs_pos_lt. exact Ny.
  - clear Fx Fy. cbn [frem]. set (e := Z.min ex ey). cbv zeta.
    set (a := (Zpos mx * 2 ^ (ex - e))%Z). set (b := (Zpos my * 2 ^ (ey - e))%Z). set (k := Z.rem a b).
    assert (Pa : (0 < a)%Z) by (apply Z.mul_pos_pos; [lia|apply Z.pow_pos_nonneg; lia]).
    assert (Pb : (0 < b)%Z) by (apply Z.mul_pos_pos; [lia|apply Z.pow_pos_nonneg; lia]).
    assert (K1 : (0 <= k < b)%Z) by (apply Z.rem_bound_pos; lia).
    assert (K2 : (k <= a)%Z) by (apply Z.rem_le; lia).
    assert (Ex : B2R (B754_finite sx mx ex Hx) = IZR (SpecFloat.cond_Zopp sx a) * bpow radix2 e).
    { cbn [B2R]. rewrite (F2R_shift _ ex e) by lia. f_equal. unfold a. destruct sx; cbn [SpecFloat.cond_Zopp]; f_equal; lia. }
    assert (Ey : B2R (B754_finite sy my ey Hy) = IZR (SpecFloat.cond_Zopp sy b) * bpow radix2 e).
    { cbn [B2R]. rewrite (F2R_shift _ ey e) by lia. f_equal. unfold b. destruct sy; cbn [SpecFloat.cond_Zopp]; f_equal; lia. }
    assert (BP : 0 < bpow radix2 e) by apply bpow_gt_0.
    (* representability *)
    destruct (bounded_facts mx ex Hx) as (X1 & X2). destruct (bounded_facts my ey Hy) as (Y1 & Y2).
    assert (KP : (k < 2 ^ prec)%Z).
    { destruct (Z.le_gt_cases ex ey) as [L|L].
      - assert (e = ex) by (unfold e; lia). unfold a in K2. replace (ex - e)%Z with 0%Z in K2 by lia. rewrite Z.pow_0_r in K2. lia.
      - assert (e = ey) by (unfold e; lia). unfold b in K1. replace (ey - e)%Z with 0%Z in K1 by lia. rewrite Z.pow_0_r in K1. lia. }
    assert (EM : (3 - emax - prec <= e)%Z) by (unfold e; lia).
    set (z := SpecFloat.cond_Zopp sx k).
    assert (G : generic_format radix2 (FLT_exp (3 - emax - prec) prec) (IZR z * bpow radix2 e)).
    { apply generic_format_FLT. exists (Float radix2 z e); [reflexivity| |cbn; exact EM].
      cbn [Fnum]. change (Zpower radix2 prec) with (2 ^ prec)%Z. unfold z. destruct sx; cbn [SpecFloat.cond_Zopp]; lia. }
    pose proof (binary_normalize_correct prec emax Hprec Hemax mode_NE z e sx) as C. cbv zeta in C.
    change (F2R (Float radix2 z e)) with (IZR z * bpow radix2 e) in C.
    assert (RG : round radix2 (SpecFloat.fexp prec emax) (round_mode mode_NE) (IZR z * bpow radix2 e) = IZR z * bpow radix2 e)
      by (apply round_generic; [apply valid_rnd_round_mode|exact G]).
    rewrite RG in C.
    assert (LX : Rabs (IZR z * bpow radix2 e) <= Rabs (B2R (B754_finite sx mx ex Hx))).
    { rewrite Ex, !Rabs_mult, <- !abs_IZR. apply Rmult_le_compat_r; [apply Rabs_pos|]. apply IZR_le.
      unfold z. destruct sx; cbn [SpecFloat.cond_Zopp]; lia. }
    rewrite Rlt_bool_true in C by (eapply Rle_lt_trans; [exact LX|apply abs_B2R_lt_emax]).
    destruct C as (C1 & C2 & C3).
    assert (NB : (SpecFloat.cond_Zopp sy b <> 0)%Z) by (destruct sy; cbn [SpecFloat.cond_Zopp]; lia).
    assert (TR : Ztrunc (B2R (B754_finite sx mx ex Hx) / B2R (B754_finite sy my ey Hy)) =
                 Z.quot (SpecFloat.cond_Zopp sx a) (SpecFloat.cond_Zopp sy b)).
    { rewrite Ex, Ey. replace (IZR (SpecFloat.cond_Zopp sx a) * bpow radix2 e / (IZR (SpecFloat.cond_Zopp sy b) * bpow radix2 e))
        with (IZR (SpecFloat.cond_Zopp sx a) / IZR (SpecFloat.cond_Zopp sy b)).
      - apply Ztrunc_div_Z. exact NB.
      - field. split; [apply Rgt_not_eq; exact BP|apply IZR_neq; exact NB]. }
    assert (RZ : Z.rem (SpecFloat.cond_Zopp sx a) (SpecFloat.cond_Zopp sy b) = z).
    { unfold z, k. destruct sx, sy; cbn [SpecFloat.cond_Zopp];
        rewrite ?Z.rem_opp_l, ?Z.rem_opp_r by lia; rewrite ?Z.rem_opp_l by lia; reflexivity. }
    conjs.
    + exact C2.
    + rewrite C1, TR, Ex, Ey. pose proof (Z.quot_rem (SpecFloat.cond_Zopp sx a) (SpecFloat.cond_Zopp sy b) NB) as QR.
      rewrite RZ in QR. rewrite QR at 1. rewrite plus_IZR, mult_IZR. ring.
    + rewrite C3. cbn [Bsign]. destruct (Rcompare_spec (IZR z * bpow radix2 e) 0) as [L|L|L]; try reflexivity.
      * assert (Z0 : (z < 0)%Z) by (apply lt_IZR; nra). unfold z in Z0. destruct sx; cbn [SpecFloat.cond_Zopp] in Z0; [reflexivity|lia].
      * assert (Z0 : (0 < z)%Z) by (apply lt_IZR; nra). unfold z in Z0. destruct sx; cbn [SpecFloat.cond_Zopp] in Z0; [lia|reflexivity].
    + rewrite C1, Ey, !Rabs_mult, <- !abs_IZR. apply Rmult_lt_compat_r; [apply Rabs_pos_lt, Rgt_not_eq; exact BP|].
      apply IZR_lt. unfold z. destruct sx, sy; cbn [SpecFloat.cond_Zopp]; lia.
Qed.
End FloatRem.

Lemma c113_componentwise :
  forall (K : Type) (NK : Num K) (op : K -> K -> option K) (s : K),
    (forall n (u r : vec K n),
       (vsop op u s = Some r <-> forall i, (i < n)%nat -> op (vat u i) s = Some (vat r i)) /\
       (vsop op u s = None <-> exists i, (i < n)%nat /\ op (vat u i) s = None) /\ psop op u s = vsop op u s) /\
    (forall n p (m w : mat K n p),
       (msop op m s = Some w <-> forall j i, (j < p)%nat -> (i < n)%nat -> op (mget m j i) s = Some (mget w j i)) /\
       (msop op m s = None <-> exists j i, (j < p)%nat /\ (i < n)%nat /\ op (mget m j i) s = None)) /\
    (forall z w : complex K,
       (csop op z s = Some w <-> op (re z) s = Some (re w) /\ op (im z) s = Some (im w)) /\
       (csop op z s = None <-> op (re z) s = None \/ op (im z) s = None)) /\
    (forall q r : quat K,
       (qsop op q s = Some r <-> forall i, (i < 4)%nat -> op (vat (q : vec K 4) i) s = Some (vat (r : vec K 4) i)) /\
       (qsop op q s = None <-> exists i, (i < 4)%nat /\ op (vat (q : vec K 4) i) s = None)).
Proof.
  intros K NK op s. conjs; intros; conjs.
  - apply vsop_some.
  - apply vsop_none.
  - reflexivity.
  - apply msop_some.
  - apply msop_none.
  - destruct z as [a b], w as [c d]. unfold csop. cbn [re im].
    destruct (op a s) as [x|]; [destruct (op b s) as [y|]|]; split; intros H; try discriminate; try (destruct H; discriminate).
    + injection H as -> ->. auto.
    + destruct H as [H1 H2]. injection H1 as ->. injection H2 as ->. reflexivity.
  - destruct z as [a b]. unfold csop. cbn [re im].
    destruct (op a s) as [x|]; [destruct (op b s) as [y|]|]; split; intros H; auto; try discriminate; destruct H; discriminate.
  - rewrite qsop_eq. apply vsop_some.
  - rewrite qsop_eq. apply vsop_none.
Qed.

Lemma c113_assign :
  forall (K : Type) (NK : Num K) (op : K -> K -> option K) (s : K),
    (forall n (u : vec K n), vsop_assign op u s = vsop op u s /\ psop_assign op u s = psop op u s) /\
    (forall n p (m : mat K n p), msop_assign op m s = msop op m s) /\
    (forall z : complex K, csop_assign op z s = csop op z s) /\
    (forall q : quat K, qsop_assign op q s = qsop op q s).
Proof.
  intros K NK op s. conjs; intros; conjs.
  - apply vsop_assign_eq.
  - apply vsop_assign_eq.
  - apply msop_assign_eq.
  - destruct z as [a b]. unfold csop_assign, csop. cbn [re im]. destruct (op a s); reflexivity.
  - unfold qsop_assign. rewrite qsop_eq. apply vsop_assign_eq.
Qed.

Lemma c113_integer_law :
  forall (signed : bool) (w : positive) (n : nat) (u q r : vec (wint signed w) n) (s : wint signed w),
    vsop wquot u s = Some q -> vsop wrem u s = Some r ->
    vadd (vmul_s q s) r = u /\
    forall i, (i < n)%nat ->
      (wval (vat u i) = wval (vat q i) * wval s + wval (vat r i))%Z /\
      (Z.abs (wval (vat r i)) < Z.abs (wval s))%Z /\ (0 <= wval (vat r i) * wval (vat u i))%Z.
Proof.
  intros signed w n u q r s Q R.
  assert (L : forall i, (i < n)%nat ->
      (wval (vat u i) = wval (vat q i) * wval s + wval (vat r i))%Z /\
      (Z.abs (wval (vat r i)) < Z.abs (wval s))%Z /\ (0 <= wval (vat r i) * wval (vat u i))%Z).
  { intros i Hi. pose proof (proj1 (vsop_some _ _ _ _ _) Q i Hi) as Qi. pose proof (proj1 (vsop_some _ _ _ _ _) R i Hi) as Ri.
    unfold wquot, wrem in Qi, Ri. destruct (Z.eqb_spec (wval s) 0) as [|N]; [discriminate|].
    destruct (wdiv_overflows signed w (wval (vat u i)) (wval s)) eqn:O; [discriminate|].
    injection Qi as <-. injection Ri as <-. rewrite !wval_wof.
    rewrite (wwrap_fits _ _ _ (wquot_fits _ _ _ _ N O)), (wwrap_fits _ _ _ (wrem_fits _ _ (vat u i) s N)). conjs.
    - pose proof (Z.quot_rem (wval (vat u i)) (wval s) N). lia.
    - apply Z.rem_bound_abs. exact N.
    - apply Z.rem_sign_mul. exact N. }
  split; [|exact L]. apply (vec_ext n0). intros i Hi.
  change (vat (vadd (vmul_s q s) r) i = vat u i). autorewrite with vat; [|exact Hi..].
  destruct (L i Hi) as (E & _).
  rewrite <- (wof_wval _ _ (vat u i)), E, wof_add, wof_mul, !wof_wval. reflexivity.
Qed.

Lemma c113_integer_panics :
  forall (signed : bool) (w : positive) (n : nat) (u : vec (wint signed w) n) (s : wint signed w),
    (vsop wrem u s = None <-> exists i, (i < n)%nat /\ (wval s = 0%Z \/ (signed = true /\ wval (vat u i) = wmin signed w /\ wval s = (-1)%Z))) /\
    (vsop wquot u s = None <-> vsop wrem u s = None).
Proof.
  intros signed w n u s.
  assert (A : vsop wrem u s = None <-> exists i, (i < n)%nat /\ (wval s = 0%Z \/ (signed = true /\ wval (vat u i) = wmin signed w /\ wval s = (-1)%Z))).
  { rewrite vsop_none. split; intros (i & Hi & H); exists i; (split; [exact Hi|]); apply (wop_none signed w (vat u i) s Z.rem); exact H. }
  split; [exact A|]. rewrite A, vsop_none.
  split; intros (i & Hi & H); exists i; (split; [exact Hi|]); apply (wop_none signed w (vat u i) s Z.quot); exact H.
Qed.

Lemma c113_float_remainder :
  forall (prec emax : Z) (Hp : Prec_gt_0 prec) (He : Prec_lt_emax prec emax) (n : nat)
    (u : vec (binary_float prec emax) n) (s : binary_float prec emax),
    is_finite s = true -> B2R s <> 0%R -> (forall i, (i < n)%nat -> is_finite (vat u i) = true) ->
    exists r, vsop (fun x y => Some (frem x y)) u s = Some r /\
      forall i, (i < n)%nat ->
        is_finite (vat r i) = true /\
        B2R (vat r i) = (B2R (vat u i) - IZR (Ztrunc (B2R (vat u i) / B2R s)) * B2R s)%R /\
        (Rabs (B2R (vat r i)) < Rabs (B2R s))%R /\ Bsign (vat r i) = Bsign (vat u i).
Proof.
  intros prec emax Hp He n u s Fs Ns Fu.
  destruct (vsop_cases (fun x y => Some (frem x y)) n u s) as [(r & E & H)|(_ & i & _ & F)]; [|discriminate].
  exists r. split; [exact E|]. intros i Hi. specialize (H i Hi). injection H as <-.
  destruct (frem_finite (vat u i) s (Fu i Hi) Fs Ns) as (A & B & C & D). auto.
Qed.

Lemma c113_float_special :
  forall (prec emax : Z) (Hp : Prec_gt_0 prec) (He : Prec_lt_emax prec emax) (x s : binary_float prec emax),
    (is_nan (frem x s) = true <-> is_nan x = true \/ is_nan s = true \/ (is_finite x = false) \/ (is_finite s = true /\ B2R s = 0%R)) /\
    (is_finite x = true -> is_finite s = false -> is_nan s = false -> frem x s = x).
Proof.
  intros prec emax Hp He x s. split.
  - destruct (is_finite x) eqn:Fx.
    + destruct (is_finite s) eqn:Fs.
      * destruct (Req_dec (B2R s) 0) as [Z|Z].
        -- split; [auto|]. intros _. destruct s as [b|b| |b m e H]; try discriminate; [destruct x; reflexivity|].
           exfalso. revert Z. cbn [B2R]. apply F2R_neq_0. destruct b; discriminate.
        -- destruct (frem_finite x s Fx Fs Z) as (A & _). split.
           ++ intros N. destruct (frem x s); discriminate.
           ++ intros [N|[N|[N|[_ N]]]]; [destruct x; discriminate|destruct s; discriminate|discriminate|contradiction].
      * destruct x as [a|a| |a m e H]; try discriminate; destruct s as [b|b| |b m' e' H']; try discriminate; cbn;
          split; intros N; try discriminate; auto; destruct N as [N|[N|[N|[N _]]]]; discriminate.
    + split; [auto|]. intros _. destruct x; try discriminate; destruct s; reflexivity.
  - intros Fx Fs Ns. destruct x; try discriminate; destruct s; try discriminate; reflexivity.
Qed.

Lemma c113_field_division :
  forall (K : Type) (NK : Num K) (ND : NumDiv K) (FK : FieldLaws K) (a : K), a <> n0 ->
    (forall n (u : vec K n), vmul_s (vdiv_s u a) a = u /\ vdiv_s (vmul_s u a) a = u /\ pdiv_s u a = vdiv_s u a /\
       vdiv_assign u a = vdiv_s u a /\ vsop (fun x y => Some (ndiv x y)) u a = Some (vdiv_s u a)) /\
    (forall n p (m : mat K n p), mmul_s (mdiv_s m a) a = m /\ mdiv_s (mmul_s m a) a = m /\ mdiv_assign m a = mdiv_s m a /\
       msop (fun x y => Some (ndiv x y)) m a = Some (mdiv_s m a)) /\
    (forall z : complex K, cmul_s (cdiv_s z a) a = z /\ cdiv_s (cmul_s z a) a = z /\ cdiv_assign_s z a = cdiv_s z a) /\
    (forall q : quat K, qscale (qdiv_s q a) a = q /\ qdiv_s (qscale q a) a = q /\ qdiv_assign q a = qdiv_s q a).
Proof.
  intros K NK ND FK a Ha. pose (LK := field_ring : RingLaws K).
  assert (D1 : forall x : K, nmul (ndiv x a) a = x).
  { intros x. apply field_div_mul. exact Ha. }
  assert (D2 : forall x : K, ndiv (nmul x a) a = x).
  { intros x. apply (field_mul_cancel _ _ a Ha). apply D1. }
  conjs; intros; conjs.
  - vext. apply D1.
  - vext. apply D2.
  - reflexivity.
  - vext. reflexivity.
  - apply vsop_some. intros i Hi. rewrite vat_vdiv_s by exact Hi. reflexivity.
  - mext. apply D1.
  - mext. apply D2.
  - mext. reflexivity.
  - apply msop_some. intros j i Hj Hi. rewrite mget_mdiv_s by assumption. reflexivity.
  - destruct z as [x y]. unfold cmul_s, cdiv_s. cbn [re im]. f_equal; apply D1.
  - destruct z as [x y]. unfold cmul_s, cdiv_s. cbn [re im]. f_equal; apply D2.
  - reflexivity.
  - destruct q as [q0 [q1 [q2 [q3 []]]]]. qcompute. rewrite !D1. reflexivity.
  - destruct q as [q0 [q1 [q2 [q3 []]]]]. qcompute. rewrite !D2. reflexivity.
  - destruct q as [q0 [q1 [q2 [q3 []]]]]. qcompute. reflexivity.
Qed.

Lemma c113_example :
  let u := v2 (wof true 8 7) (wof true 8 (-7)) in
  vsop wquot u (wof true 8 (-2)) = Some (v2 (wof true 8 (-3)) (wof true 8 3)) /\
  vsop wrem u (wof true 8 (-2)) = Some (v2 (wof true 8 1) (wof true 8 (-1))) /\
  vsop wrem (v2 (wof true 8 7) (wof true 8 (-128))) (wof true 8 (-1)) = None /\
  vsop wrem u (wof true 8 0) = None /\
  B2SF (frem (ndiv (f64_of_Z 11) (f64_of_Z 2)) (f64_of_Z 2)) = B2SF (ndiv (f64_of_Z 3) (f64_of_Z 2)).
Proof.
  cbv zeta. conjs.
  - apply vsop_some. intros i Hi. destruct i as [|[|?]]; [| |lia]; cbv [vat vget fst snd v2];
      (unfold wquot; replace (wval _ =? 0)%Z with false by (vm_compute; reflexivity);
       replace (wdiv_overflows _ _ _ _) with false by (vm_compute; reflexivity); f_equal; apply wint_eq; vm_compute; reflexivity).
  - apply vsop_some. intros i Hi. destruct i as [|[|?]]; [| |lia]; cbv [vat vget fst snd v2];
      (unfold wrem; replace (wval _ =? 0)%Z with false by (vm_compute; reflexivity);
       replace (wdiv_overflows _ _ _ _) with false by (vm_compute; reflexivity); f_equal; apply wint_eq; vm_compute; reflexivity).
  - vm_compute. reflexivity.
  - vm_compute. reflexivity.
  - vm_compute. reflexivity.
Qed.
