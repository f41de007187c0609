(** The loops of the integer powers. *)

From Coq Require Import List Arith ZArith Bool Lia Reals Lra Psatz.
From Flocq Require Import Core.Core IEEE754.BinarySingleNaN.
From Verif Require Import Base Scalar Spec LBase MComplex LComplex LComplexR MFloat LFloat LFloatP MFloatVec LFloatVec MSign LTrScF SpecPowF MPowF LPowFA.
Local Open Scope R_scope.

Lemma cn_one : cn (mkC 1 0) = 1.
Proof. unfold cn. cbn [re im]. replace (1 * 1 + 0 * 0) with 1 by ring. apply sqrt_1. Qed.
Lemma cn_cprod V j : cn (cprod V j) = cn V ^ j.
Proof. induction j as [|j IH]; cbn [cprod pow]; [apply cn_one|]. rewrite cn_mul, IH. reflexivity. Qed.

Lemma pow_between (A lo hi : R) (n j : nat) : 0 <= A -> (1 <= j <= n)%nat -> lo <= A <= hi -> lo <= A ^ n <= hi -> lo <= A ^ j <= hi.
Proof.
  intros A0 Hj H1 Hn. destruct (Rle_or_lt 1 A) as [H|H].
  - assert (A ^ 1 <= A ^ j) by (apply Rle_pow; [lra|lia]). assert (A ^ j <= A ^ n) by (apply Rle_pow; [lra|lia]). rewrite pow_1 in *. lra.
  - assert (M : forall i k, (i <= k)%nat -> A ^ k <= A ^ i).
    { intros i k Hk. replace k with (i + (k - i))%nat by lia. rewrite pow_add.
      assert (0 <= A ^ i) by (apply pow_le; exact A0).
      assert (P : forall m, 0 <= A ^ m <= 1). { induction m as [|m IH]; cbn [pow]; [lra|]. split; nra. }
      specialize (P (k - i)%nat). nra. }
    pose proof (M 1%nat j ltac:(lia)) as X. pose proof (M j n ltac:(lia)) as Y. rewrite pow_1 in X. lra.
Qed.

Lemma fits (a j h N : nat) : (a + 2 * j * h = N)%nat -> (1 <= h)%nat -> (j + j <= N /\ a + (j + j) <= N)%nat.
Proof. intros E H. assert (2 * j <= 2 * j * h)%nat by nia. lia. Qed.
Lemma step_odd (a j h g N : nat) : (a + 2 * j * h = N)%nat -> (h = 2 * g + 1)%nat -> (a + (j + j) + 2 * (j + j) * g = N)%nat.
Proof. intros E ->. rewrite <- E. ring. Qed.
Lemma step_even (a j h g N : nat) : (a + 2 * j * h = N)%nat -> (h = 2 * g)%nat -> (a + 2 * (j + j) * g = N)%nat.
Proof. intros E ->. rewrite <- E. ring. Qed.
Lemma start_odd (e j g N : nat) : (e * j = N)%nat -> (e = 2 * g + 1)%nat -> (j + 2 * j * g = N)%nat.
Proof. intros E ->. rewrite <- E. ring. Qed.

Section B.
Context {prec emax : Z} {Hp : Prec_gt_0 prec} {He : Prec_lt_emax prec emax}.
Notation fl := (binary_float prec emax).
Notation u := (bpow radix2 (- prec)).
Context (H24 : (24 <= prec)%Z) (V : complex R) (d0 : R) (n : nat).
Context (D0 : 0 <= d0) (Rng : forall j, (1 <= j <= n)%nat -> bpow radix2 (7 - emax) <= cn V ^ j <= bpow radix2 (emax - 4)).
Context (Dn : (1 + d0) ^ n * (1 + 3 * u) ^ n <= 2).

Definition grow (j : nat) : R := (1 + d0) ^ j * (1 + 3 * u) ^ (j - 1) - 1.
Definition ap (x : complex fl) (j : nat) : Prop := (1 <= j)%nat /\ rl (grow j) x (cprod V j).

Lemma pow_ge1 (x : R) (i : nat) : 0 <= x -> 1 <= (1 + x) ^ i.
Proof. intros X. apply pow_R1_Rle. lra. Qed.
Lemma u3 : 0 <= 3 * u. Proof. pose proof (bpow_gt_0 radix2 (- prec)). lra. Qed.
Lemma grow_pos j : 0 <= grow j.
Proof. unfold grow. pose proof (pow_ge1 d0 j D0). pose proof (pow_ge1 (3 * u) (j - 1) u3). nra. Qed.

Lemma ap_mul f x y i j : is_prod f -> ap x i -> ap y j -> (i + j <= n)%nat -> ap (f x y) (i + j).
Proof.
  intros Pf (Hi & Rx) (Hj & Ry) L. split; [lia|]. rewrite cprod_add.
  assert (E : (1 + grow i) * (1 + grow j) = (1 + d0) ^ (i + j) * (1 + 3 * u) ^ (i + j - 2)).
  { unfold grow. replace (i + j - 2)%nat with ((i - 1) + (j - 1))%nat by lia. rewrite !pow_add. ring. }
  assert (G : grow (i + j) = (1 + 3 * u) * ((1 + grow i) * (1 + grow j)) - 1).
  { rewrite E. unfold grow. replace (i + j - 1)%nat with (S (i + j - 2)) by lia. cbn [pow]. ring. }
  rewrite G. apply prod_rl; auto using grow_pos.
  - rewrite E. eapply Rle_trans; [|exact Dn]. pose proof u3.
    apply Rmult_le_compat; [apply pow_le; lra|apply pow_le; lra|apply Rle_pow; [lra|lia]|apply Rle_pow; [lra|lia]].
  - rewrite !cn_cprod, <- pow_add. apply Rng. lia.
Qed.

(** Positive exponents. *)
Lemma powu_loop (x : complex fl) : (1 <= n)%nat -> ap x 1 -> exists w, cpowu x n = Some w /\ ap w n.
Proof.
  intros Hn Hx. unfold cpowu. destruct (Nat.eqb_spec n 0) as [Z|_]; [lia|].
  destruct (while_inv
    (fun s : nat * complex fl => (1 <= fst s <= n)%nat /\ exists j, ap (snd s) j /\ (fst s * j = n)%nat)
    fst (fun s => fst s mod 2 =? 0)%nat (fun s => (Nat.div (fst s) 2, cmul (snd s) (snd s))))
    with (fuel := n) (s := (n, x)) as ([e b] & -> & [Hs (j & Hb & Hj)] & Hc).
  - intros [e b] [Hs (j & Hb & Hj)] Hc; cbn [fst snd] in *. apply Nat.eqb_eq in Hc. pose proof (half_facts e).
    assert (E2 : (2 <= e)%nat) by lia. split; [|lia]. split; [lia|]. exists (j + j)%nat.
    split; [apply ap_mul; [apply cmul_is_prod; exact H24|exact Hb|exact Hb|clear - E2 Hj; nia]|].
    assert (Q : (2 * (e / 2) = e)%nat) by lia. set (h := (e / 2)%nat) in *. clear - Q Hj. nia.
  - cbn. split; [lia|]. exists 1%nat. split; [exact Hx|lia].
  - cbn; lia.
  - cbn [fst snd] in *. apply Nat.eqb_neq in Hc. pose proof (half_facts e) as D.
    destruct (Nat.eqb_spec e 1) as [->|He1].
    { exists b. split; [reflexivity|]. replace n with j by lia. exact Hb. }
    match goal with |- context [while_fuel _ _ ?b _] => set (body := b) end.
    destruct (while_inv
      (fun s : nat * complex fl * complex fl => let '(e, b, r) := s in
         (1 <= e <= n)%nat /\ exists j a, ap b j /\ ap r a /\ (a + 2 * j * (e / 2) = n)%nat)
      (fun s => fst (fst s)) (fun s => 1 <? fst (fst s))%nat body)
      with (fuel := n) (s := (e, b, b)) as ([[e' b'] r'] & -> & [He' (j' & a' & Hb' & Hr' & E')] & Hc').
    + intros [[e' b'] r'] [He' (j' & a' & Hb' & Hr' & E')] Hc'. cbn [fst] in Hc'. apply Nat.ltb_lt in Hc'.
      unfold body; cbn zeta. pose proof (half_facts e') as D1. set (h := (e' / 2)%nat) in *.
      pose proof (half_facts h) as D2. cbv iota beta.
      destruct (fits a' j' h n E' ltac:(lia)) as (L1 & L2).
      assert (Hsq : ap (cmul b' b') (j' + j')) by (apply ap_mul; [apply cmul_is_prod; exact H24|exact Hb'|exact Hb'|exact L1]).
      split; [split; [lia|]|cbn [fst]; lia]. exists (j' + j')%nat.
      destruct (Nat.eqb_spec (h mod 2)%nat 1) as [E|E].
      * exists (a' + (j' + j'))%nat. split; [exact Hsq|]. split; [|apply (step_odd _ _ h); [exact E'|lia]].
        apply ap_mul; [apply cmul_assign_is_prod; exact H24|exact Hr'|exact Hsq|exact L2].
      * exists a'. split; [exact Hsq|]. split; [exact Hr'|]. apply (step_even _ _ h); [exact E'|lia].
    + split; [lia|]. exists j, j. split; [exact Hb|]. split; [exact Hb|]. apply (start_odd e); [exact Hj|lia].
    + cbn. lia.
    + cbn [fst] in Hc'. apply Nat.ltb_ge in Hc'. exists r'. split; [reflexivity|].
      assert (e' = 1)%nat by lia; subst e'. cbn in E'. replace n with a' by lia. exact Hr'.
Qed.

Lemma ap_not_nan x j : ap x j -> cis_nan x = false.
Proof.
  intros (_ & F & _). apply cfin in F. destruct F as (F1 & F2). unfold cis_nan.
  destruct (re x); try discriminate; destruct (im x); try discriminate; reflexivity.
Qed.

Lemma powi_pos_loop (x : complex fl) : (1 <= n)%nat -> ap x 1 -> exists w, fcpowi x (Z.of_nat n) = Some w /\ ap w n.
Proof.
  intros Hn Hx. unfold fcpowi. destruct (Z.eqb_spec (Z.of_nat n) 0) as [Z|_]; [lia|].
  destruct (Z.ltb_spec 0 (Z.of_nat n)) as [_|Z]; [|lia]. cbv zeta. rewrite (ap_not_nan x 1 Hx).
  destruct (while_inv
    (fun s : Z * complex fl => (1 <= fst s <= Z.of_nat n)%Z /\ exists j, ap (snd s) j /\ (fst s * Z.of_nat j = Z.of_nat n)%Z)
    (fun s => Z.abs_nat (fst s)) (fun s => Z.eqb (Z.rem (fst s) 2) 0) (fun s => (Z.div (fst s) 2, cmul (snd s) (snd s))))
    with (fuel := Z.abs_nat (Z.of_nat n)) (s := (Z.of_nat n, x)) as ([e b] & -> & [Hs (j & Hb & Hj)] & Hc).
  - intros [e b] [Hs (j & Hb & Hj)] Hc; cbn [fst snd] in *. apply Z.eqb_eq in Hc. pose proof (halfZ_facts e ltac:(lia)).
    assert (E2 : (2 <= e)%Z) by lia. split; [|lia]. split; [lia|]. exists (j + j)%nat.
    split; [apply ap_mul; [apply cmul_is_prod; exact H24|exact Hb|exact Hb|clear - E2 Hj; nia]|].
    assert (Q : (2 * (e / 2) = e)%Z) by lia. set (h := (e / 2)%Z) in *. clear - Q Hj. nia.
  - cbn [fst snd]. split; [lia|]. exists 1%nat. split; [exact Hx|lia].
  - cbn [fst]; lia.
  - cbn [fst snd] in *. apply Z.eqb_neq in Hc. pose proof (halfZ_facts e ltac:(lia)) as D.
    destruct (Z.eqb_spec e 1) as [->|He1].
    { exists b. split; [reflexivity|]. replace n with j by lia. exact Hb. }
    match goal with |- context [while_fuel _ _ ?b _] => set (body := b) end.
    destruct (while_inv
      (fun s : Z * complex fl * complex fl => let '(e, b, r) := s in
         (1 <= e <= Z.of_nat n)%Z /\ exists j a, ap b j /\ ap r a /\ (Z.of_nat a + 2 * Z.of_nat j * (e / 2) = Z.of_nat n)%Z)
      (fun s => Z.abs_nat (fst (fst s))) (fun s => Z.ltb 1 (fst (fst s))) body)
      with (fuel := Z.abs_nat (Z.of_nat n)) (s := (e, b, b)) as ([[e' b'] r'] & -> & [He' (j' & a' & Hb' & Hr' & E')] & Hc').
    + intros [[e' b'] r'] [He' (j' & a' & Hb' & Hr' & E')] Hc'. cbn [fst] in Hc'. apply Z.ltb_lt in Hc'.
      unfold body; cbn zeta. pose proof (halfZ_facts e' ltac:(lia)) as D1. set (h := (e' / 2)%Z) in *.
      pose proof (halfZ_facts h ltac:(lia)) as D2. cbv iota beta.
      assert (En : (a' + 2 * j' * Z.to_nat h = n)%nat) by (apply Nat2Z.inj; rewrite Nat2Z.inj_add, !Nat2Z.inj_mul, Z2Nat.id by lia; exact E').
      assert (Hh : forall g, (0 <= g)%Z -> (2 * g = h)%Z -> (Z.to_nat h = 2 * Z.to_nat g)%nat) by (intros; lia).
      destruct (fits a' j' (Z.to_nat h) n En ltac:(lia)) as (L1 & L2).
      assert (Hsq : ap (cmul b' b') (j' + j')) by (apply ap_mul; [apply cmul_is_prod; exact H24|exact Hb'|exact Hb'|exact L1]).
      split; [split; [lia|]|cbn [fst]; lia]. exists (j' + j')%nat.
      destruct (Z.eqb_spec (Z.rem h 2) 1) as [E|E].
      * exists (a' + (j' + j'))%nat. split; [exact Hsq|]. split; [|assert (Y := step_odd _ _ _ (Z.to_nat (h / 2)) _ En ltac:(lia)); apply (f_equal Z.of_nat) in Y; rewrite Nat2Z.inj_add, !Nat2Z.inj_mul, Z2Nat.id in Y by lia; exact Y].
        apply ap_mul; [apply cmul_assign_is_prod; exact H24|exact Hr'|exact Hsq|exact L2].
      * exists a'. split; [exact Hsq|]. split; [exact Hr'|]. assert (Y := step_even _ _ _ (Z.to_nat (h / 2)) _ En ltac:(lia)); apply (f_equal Z.of_nat) in Y; rewrite Nat2Z.inj_add, !Nat2Z.inj_mul, Z2Nat.id in Y by lia; exact Y.
    + split; [lia|]. exists j, j. split; [exact Hb|]. split; [exact Hb|]. assert (Q : (e = 2 * (e / 2) + 1)%Z) by lia. set (g := (e / 2)%Z) in *. clear - Q Hj. rewrite <- Hj, Q. ring.
    + cbn [fst]. lia.
    + cbn [fst] in Hc'. apply Z.ltb_ge in Hc'. exists r'. split; [reflexivity|].
      assert (e' = 1)%Z by lia; subst e'. change (1 / 2)%Z with 0%Z in E'. replace n with a' by lia. exact Hr'.
Qed.

(** Negative exponents [-(2^k m)] with [m] odd: [k] squarings of the inverse. *)
Lemma powi_neg_loop (x : complex fl) (b : complex fl) (k m : nat) : Nat.odd m = true -> (n = 2 ^ k)%nat ->
  nis0 (cmodulus_squared x) = false ->
  b = mkC (ndiv (re x) (cmodulus_squared x)) (ndiv (nneg (im x)) (cmodulus_squared x)) -> ap b 1 ->
  exists w, fcpowi x (- Z.of_nat (2 ^ k * m)) = Some w /\ ap w n.
Proof.
  intros Hm Hn Hz Eb Hb. unfold fcpowi.
  assert (0 < 2 ^ k)%nat by (apply Nat.neq_0_lt_0, Nat.pow_nonzero; lia).
  assert (0 < m)%nat by (destruct m; [discriminate|lia]).
  set (N := Z.of_nat (2 ^ k * m)). assert (0 < N)%Z by (unfold N; nia).
  destruct (Z.eqb_spec (- N) 0); [lia|]. destruct (Z.ltb_spec 0 (- N)); [lia|]. cbv zeta. rewrite Hz, <- Eb. rewrite (ap_not_nan b 1 Hb).
  apply Nat.odd_spec in Hm. destruct Hm as [q Hq].
  assert (L : forall i fuel b j, (i <= fuel)%nat -> ap b j -> (j * 2 ^ i = n)%nat -> exists w, ap w n /\
     while_fuel fuel (fun s : Z * complex fl => Z.eqb (Z.rem (fst s) 2) 0)
       (fun s => (Z.div (fst s) 2, cmul (snd s) (snd s))) (- Z.of_nat (2 ^ i * m), b)%Z = Some (- Z.of_nat m, w)%Z).
  { clear - Hq H24 D0 Rng Dn. induction i as [|i IH]; intros fuel b j Hf Hb Hj.
    - exists b. split; [replace n with j by (cbn in Hj; lia); exact Hb|]. change (2 ^ 0)%nat with 1%nat. rewrite Nat.mul_1_l.
      assert (E : Z.eqb (Z.rem (- Z.of_nat m) 2) 0 = false).
      { rewrite Z.rem_opp_l by lia. rewrite Z.rem_mod_nonneg by lia. subst m.
        replace (Z.of_nat (2 * q + 1)) with (1 + Z.of_nat q * 2)%Z by lia. rewrite Z_mod_plus_full. reflexivity. }
      destruct fuel; cbn [while_fuel fst]; rewrite E; reflexivity.
    - destruct fuel as [|fuel]; [lia|]. cbn [while_fuel fst snd].
      assert (E : (- Z.of_nat (2 ^ S i * m) = - Z.of_nat (2 ^ i * m) * 2)%Z) by (rewrite Nat.pow_succ_r'; lia).
      rewrite E, Z.rem_mul, Z.div_mul by lia. cbn [Z.eqb].
      assert (1 <= 2 ^ i)%nat by (apply Nat.neq_0_lt_0, Nat.pow_nonzero; lia). rewrite Nat.pow_succ_r' in Hj.
      apply (IH fuel (cmul b b) (j + j)%nat); [lia| |nia]. apply ap_mul; [apply cmul_is_prod; exact H24|exact Hb|exact Hb|nia]. }
  assert (Hk : (k <= Z.abs_nat (- N))%nat).
  { assert (k < 2 ^ k)%nat by (apply Nat.pow_gt_lin_r; lia). unfold N. nia. }
  destruct (L k _ b 1%nat Hk Hb ltac:(lia)) as (w & Hw & E). fold N in E. rewrite E.
  destruct (Z.eqb_spec (- Z.of_nat m) 1); [lia|]. exists w. split; [|exact Hw].
  destruct (Z.abs_nat (- N)); cbn [while_fuel fst]; destruct (Z.ltb_spec 1 (- Z.of_nat m)); try lia; reflexivity.
Qed.
End B.
