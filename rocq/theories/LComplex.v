(** Algebra of the complex number model. *)

From Coq Require Import Arith Lia ZArith Bool Ring Field Reals Lra Psatz.
From Verif Require Import Base Scalar Spec LBase MReal LReal MComplex.
Local Open Scope nat_scope.

Lemma complex_eq {K} (z w : complex K) : re z = re w -> im z = im w -> z = w.
Proof. destruct z, w; cbn; intros -> ->; reflexivity. Qed.

(** n-fold product, written with the complex product only. *)
Fixpoint cprod {K} {NK : Num K} (z : complex K) (n : nat) : complex K :=
  match n with O => mkC n1 n0 | S k => cmul z (cprod z k) end.

Ltac cext := apply complex_eq; cbn.
Ltac csolve := intros; cext; ring.

Section Ring.
Context {K : Type} {NK : Num K} {LK : RingLaws K}.
Local Open Scope num_scope.
Add Ring Kring : (@ring_laws K NK LK).

Lemma complex_ring_theory :
  ring_theory (@czero K NK) cone cadd cmul csub cneg (@eq (complex K)).
Proof. constructor; csolve. Qed.
Add Ring Cring : complex_ring_theory.

Lemma cunit_im_sq : cmul cunit_im cunit_im = cneg (@cone K NK).
Proof. csolve. Qed.
Lemma cconj_add z w : cconj (cadd z w) = cadd (cconj z) (cconj w). Proof. csolve. Qed.
Lemma cconj_mul z w : cconj (cmul z w) = cmul (cconj z) (cconj w). Proof. csolve. Qed.
Lemma cconj_invol z : cconj (cconj z) = z :> complex K. Proof. csolve. Qed.
Lemma cconj_one : cconj cone = cone :> complex K. Proof. csolve. Qed.
Lemma cmul_conj z : cmul z (cconj z) = cfrom_real (cmodulus_squared z) :> complex K.
Proof. intros; cext; unfold cmodulus_squared; ring. Qed.
Lemma cmodulus_squared_mul z w :
  cmodulus_squared (cmul z w) = cmodulus_squared z * cmodulus_squared w.
Proof. unfold cmodulus_squared; cbn; ring. Qed.
Lemma cmodulus_squared_conj z : cmodulus_squared (cconj z) = cmodulus_squared z.
Proof. unfold cmodulus_squared; cbn; ring. Qed.

Lemma cmul_assign_eq z w : cmul_assign z w = cmul z w :> complex K. Proof. csolve. Qed.

Lemma s_add_c_eq s z : s_add_c s z = cadd (cfrom_real s) z. Proof. csolve. Qed.
Lemma s_mul_c_eq s z : s_mul_c s z = cmul (cfrom_real s) z. Proof. csolve. Qed.
Lemma s_sub_c_re s z : re (s_sub_c s z) = re (csub (cfrom_real s) z).
Proof. reflexivity. Qed.
Lemma s_sub_c_im s z : im (s_sub_c s z) = - im (csub (cfrom_real s) z).
Proof. cbn; ring. Qed.
Lemma cadd_s_eq z s : cadd_s z s = cadd z (cfrom_real s). Proof. csolve. Qed.
Lemma csub_s_eq z s : csub_s z s = csub z (cfrom_real s). Proof. csolve. Qed.
Lemma cmul_s_eq z s : cmul_s z s = cmul z (cfrom_real s). Proof. csolve. Qed.

(** ** Powers *)

Lemma cprod_1 z : cprod z 1 = z. Proof. cbn. csolve. Qed.
Lemma cprod_add z m n : cprod z (m + n) = cmul (cprod z m) (cprod z n).
Proof.
  induction m as [|m IH]; cbn [cprod Nat.add].
  - change (mkC 1 0) with (@cone K NK). ring.
  - rewrite IH. ring.
Qed.
Lemma cprod_sq z n : cprod (cmul z z) n = cprod z (2 * n).
Proof.
  replace (2 * n)%nat with (n + n)%nat by lia. rewrite cprod_add.
  induction n as [|n IH]; cbn [cprod].
  - change (mkC 1 0) with (@cone K NK). ring.
  - rewrite IH. ring.
Qed.
Lemma cprod_one n : cprod cone n = cone :> complex K.
Proof. induction n as [|n IH]; cbn [cprod]; [reflexivity|rewrite IH; csolve]. Qed.
Lemma cprod_mul z w n : cprod (cmul z w) n = cmul (cprod z n) (cprod w n).
Proof.
  induction n as [|n IH]; cbn [cprod].
  - change (mkC 1 0) with (@cone K NK). ring.
  - rewrite IH. ring.
Qed.
Lemma cprod_mul_exp z m n : cprod z (m * n) = cprod (cprod z m) n.
Proof.
  induction n as [|n IH]; [rewrite Nat.mul_0_r; reflexivity|].
  rewrite Nat.mul_succ_r, Nat.add_comm, cprod_add, IH. reflexivity.
Qed.

Lemma while_inv {St} (I : St -> Prop) (m : St -> nat) cond (body : St -> St) :
  (forall s, I s -> cond s = true -> I (body s) /\ m (body s) < m s)%nat ->
  forall fuel s, I s -> (m s <= fuel)%nat ->
  exists s', while_fuel fuel cond body s = Some s' /\ I s' /\ cond s' = false.
Proof.
  intros HB. induction fuel as [|f IH]; intros s Hs Hm; cbn [while_fuel].
  - destruct (cond s) eqn:E; [|eauto].
    destruct (HB s Hs E); lia.
  - destruct (cond s) eqn:E; [|eauto].
    destruct (HB s Hs E) as [H1 H2]. apply IH; auto. lia.
Qed.

Lemma half_facts (e : nat) : (e = 2 * (e / 2) + e mod 2 /\ e mod 2 < 2)%nat.
Proof.
  split; [apply Nat.div_mod; lia|apply Nat.mod_upper_bound; lia].
Qed.

Lemma cpowu_spec z n : cpowu z n = Some (cprod z n).
Proof.
  unfold cpowu. destruct (Nat.eqb_spec n 0) as [->|Hn]; [reflexivity|].
  destruct (while_inv
    (fun s : nat * complex K => (1 <= fst s <= n)%nat /\ cprod (snd s) (fst s) = cprod z n)
    fst (fun s => fst s mod 2 =? 0)%nat (fun s => (Nat.div (fst s) 2, cmul (snd s) (snd s))))
    with (fuel := n) (s := (n, z)) as ([e b] & -> & [Hs He] & Hc).
  - intros [e b] [He Hb] Hc; cbn [fst snd] in *. apply Nat.eqb_eq in Hc.
    pose proof (half_facts e). split; [split|]; [lia| |lia].
    rewrite cprod_sq. rewrite <- Hb. f_equal. lia.
  - cbn; split; [lia|reflexivity].
  - cbn; lia.
  - cbn [fst snd] in *. apply Nat.eqb_neq in Hc. pose proof (half_facts e) as D.
    destruct (Nat.eqb_spec e 1) as [->|He1]; [rewrite cprod_1 in He; congruence|].
    match goal with |- context [while_fuel _ _ ?b _] => set (body := b) end.
    destruct (while_inv
      (fun s : nat * complex K * complex K => let '(e, b, r) := s in
         (1 <= e <= n)%nat /\ cmul r (cprod b (2 * (e / 2))) = cprod z n)
      (fun s => fst (fst s)) (fun s => 1 <? fst (fst s))%nat body)
      with (fuel := n) (s := (e, b, b)) as ([[e' b'] r'] & -> & [He' Hr'] & Hc').
    + intros [[e' b'] r'] [He' Hr'] Hc'. cbn [fst] in Hc'. apply Nat.ltb_lt in Hc'.
      unfold body; cbn zeta. pose proof (half_facts e') as D1. set (h := (e' / 2)%nat) in *.
      pose proof (half_facts h) as D2. cbv iota beta.
      split; [split; [lia|]|cbn [fst]; lia].
      rewrite <- Hr', <- (cprod_sq b' h). destruct (Nat.eqb_spec (h mod 2)%nat 1) as [E|E].
      * rewrite cmul_assign_eq. replace h with (S (2 * (h / 2)))%nat at 2 by lia.
        cbn [cprod]. ring.
      * do 2 f_equal. lia.
    + split; [lia|]. rewrite <- He.
      replace e with (S (2 * (e / 2)))%nat at 2 by lia. reflexivity.
    + cbn. lia.
    + cbn [fst] in Hc'. apply Nat.ltb_ge in Hc'.
      assert (e' = 1)%nat by lia; subst e'. rewrite <- Hr'. cbn. f_equal.
      change (mkC 1 0) with (@cone K NK). ring.
Qed.

End Ring.

Section PowI.
Context {K : Type} {NK : Num K} {ND : NumDiv K} {LK : RingLaws K}.
Local Open Scope num_scope.
Add Ring Kring2 : (@ring_laws K NK LK).
Add Ring Cring2 : (@complex_ring_theory K NK LK).

Lemma halfZ_facts (e : Z) : (0 <= e)%Z -> (e = 2 * (e / 2) + Z.rem e 2 /\ 0 <= Z.rem e 2 < 2)%Z.
Proof.
  intros. rewrite Z.rem_mod_nonneg by lia.
  pose proof (Z.div_mod e 2). pose proof (Z.mod_pos_bound e 2). lia.
Qed.

(** Non-negative exponents. *)
Lemma cpowi_nonneg z (n : Z) : (0 <= n)%Z -> cpowi z n = CPow (cprod z (Z.to_nat n)).
Proof.
  intros Hn0. unfold cpowi. destruct (Z.eqb_spec n 0) as [->|Hn]; [reflexivity|].
  destruct (Z.ltb_spec 0 n); [|lia]. cbn [negb andb].
  destruct (while_inv
    (fun s : Z * complex K => (1 <= fst s <= n)%Z /\
       cprod (snd s) (Z.to_nat (fst s)) = cprod z (Z.to_nat n))
    (fun s => Z.abs_nat (fst s)) (fun s => Z.eqb (Z.rem (fst s) 2) 0)
    (fun s => (Z.div (fst s) 2, cmul (snd s) (snd s))))
    with (fuel := Z.abs_nat n) (s := (n, z)) as ([e b] & -> & [Hs He] & Hc).
  - intros [e b] [He Hb] Hc; cbn [fst snd] in *. apply Z.eqb_eq in Hc.
    pose proof (halfZ_facts e ltac:(lia)). split; [split|]; [lia| |lia].
    rewrite cprod_sq. rewrite <- Hb. f_equal. lia.
  - cbn; split; [lia|reflexivity].
  - cbn; lia.
  - cbn [fst snd] in *. apply Z.eqb_neq in Hc. pose proof (halfZ_facts e ltac:(lia)) as D.
    destruct (Z.eqb_spec e 1) as [->|He1].
    { f_equal. rewrite <- He. change (Z.to_nat 1) with 1%nat. symmetry. apply cprod_1. }
    match goal with |- context [while_fuel _ _ ?b _] => set (body := b) end.
    destruct (while_inv
      (fun s : Z * complex K * complex K => let '(e, b, r) := s in
         (1 <= e <= n)%Z /\ cmul r (cprod b (2 * Z.to_nat (e / 2))) = cprod z (Z.to_nat n))
      (fun s => Z.abs_nat (fst (fst s))) (fun s => Z.ltb 1 (fst (fst s))) body)
      with (fuel := Z.abs_nat n) (s := (e, b, b)) as ([[e' b'] r'] & -> & [He' Hr'] & Hc').
    + intros [[e' b'] r'] [He' Hr'] Hc'. cbn [fst] in Hc'. apply Z.ltb_lt in Hc'.
      unfold body; cbn zeta. pose proof (halfZ_facts e' ltac:(lia)) as D1.
      set (h := (e' / 2)%Z) in *.
      pose proof (halfZ_facts h ltac:(lia)) as D2. cbv iota beta.
      split; [split; [lia|]|cbn [fst]; lia].
      rewrite <- Hr', <- (cprod_sq b' (Z.to_nat h)).
      destruct (Z.eqb_spec (Z.rem h 2) 1) as [E|E].
      * rewrite cmul_assign_eq.
        replace (Z.to_nat h) with (S (2 * Z.to_nat (h / 2)))%nat by lia.
        cbn [cprod]. ring.
      * do 2 f_equal. lia.
    + split; [lia|]. rewrite <- He.
      replace (Z.to_nat e) with (S (2 * Z.to_nat (e / 2)))%nat by lia. reflexivity.
    + cbn. lia.
    + cbn [fst] in Hc'. apply Z.ltb_ge in Hc'.
      assert (e' = 1)%Z by lia; subst e'. f_equal. rewrite <- Hr'. cbn.
      change (mkC 1 0) with (@cone K NK). ring.
Qed.

(** Negative exponents -(2^k m), m odd: the loop squares k times and stops, so the odd part of
    the exponent is ignored. *)
Lemma cpowi_neg z (k m : nat) :
  Nat.odd m = true -> nis0 (cmodulus_squared z) = false ->
  cpowi z (- Z.of_nat (2 ^ k * m)) =
    CPow (cprod (mkC (re z / cmodulus_squared z) (- im z / cmodulus_squared z)) (2 ^ k)).
Proof.
  intros Hm Hz. unfold cpowi.
  assert (0 < 2 ^ k)%nat by (apply Nat.neq_0_lt_0, Nat.pow_nonzero; lia).
  assert (0 < m)%nat by (destruct m; [discriminate|lia]).
  set (n := Z.of_nat (2 ^ k * m)).
  assert (0 < n)%Z by (unfold n; nia).
  destruct (Z.eqb_spec (- n) 0); [lia|]. rewrite Hz, Bool.andb_false_r.
  destruct (Z.ltb_spec 0 (- n)); [lia|].
  set (w := mkC _ _). cbv zeta.
  assert (L : forall k fuel b, (k <= fuel)%nat ->
     while_fuel fuel (fun s : Z * complex K => Z.eqb (Z.rem (fst s) 2) 0)
       (fun s => (Z.div (fst s) 2, cmul (snd s) (snd s))) (- Z.of_nat (2 ^ k * m), b)%Z
     = Some (- Z.of_nat m, cprod b (2 ^ k))%Z).
  { clear - Hm LK. apply Nat.odd_spec in Hm. destruct Hm as [q Hq].
    induction k as [|k IH]; intros fuel b Hf.
    - change (2 ^ 0)%nat with 1%nat. rewrite Nat.mul_1_l, cprod_1.
      assert (E : Z.eqb (Z.rem (- Z.of_nat m) 2) 0 = false).
      { rewrite Z.rem_opp_l by lia. rewrite Z.rem_mod_nonneg by lia. subst m.
        replace (Z.of_nat (2 * q + 1)) with (1 + Z.of_nat q * 2)%Z by lia.
        rewrite Z_mod_plus_full. reflexivity. }
      destruct fuel; cbn [while_fuel fst]; rewrite E; reflexivity.
    - destruct fuel as [|fuel]; [lia|]. cbn [while_fuel fst snd].
      assert (E : (- Z.of_nat (2 ^ S k * m) = - Z.of_nat (2 ^ k * m) * 2)%Z).
      { rewrite Nat.pow_succ_r'. lia. }
      rewrite E, Z.rem_mul, Z.div_mul by lia. cbn [Z.eqb].
      rewrite IH by lia. do 2 f_equal. rewrite cprod_sq. reflexivity. }
  assert (Hk : (k <= Z.abs_nat (- n))%nat).
  { assert (k < 2 ^ k)%nat by (apply Nat.pow_gt_lin_r; lia). unfold n. nia. }
  unfold n at 2. rewrite L by exact Hk.
  destruct (Z.eqb_spec (- Z.of_nat m) 1); [lia|].
  assert (F : forall fuel b r body,
    while_fuel fuel (fun s : Z * complex K * complex K => Z.ltb 1 (fst (fst s))) body
      (- Z.of_nat m, b, r)%Z = Some (- Z.of_nat m, b, r)%Z).
  { intros fuel b r body. destruct fuel; cbn [while_fuel fst];
    destruct (Z.ltb_spec 1 (- Z.of_nat m)); try lia; reflexivity. }
  rewrite F. reflexivity.
Qed.

Lemma cpowi_nan z (n : Z) :
  (n < 0)%Z -> nis0 (cmodulus_squared z) = true -> cpowi z n = CPowNan.
Proof.
  intros Hn Hz. unfold cpowi. destruct (Z.eqb_spec n 0); [lia|].
  destruct (Z.ltb_spec 0 n); [lia|]. rewrite Hz. reflexivity.
Qed.

End PowI.

(** ** Division *)

Section Field.
Context {K : Type} {NK : Num K} {ND : NumDiv K} {FK : FieldLaws K}.
Local Open Scope num_scope.
#[local] Instance rl_of_fieldC : RingLaws K := field_ring.
Add Field KfieldC : (@field_th K NK ND FK).

Lemma cdiv_mul z w : cmodulus_squared w <> 0 -> cmul (cdiv z w) w = z.
Proof.
  intros H. cext; rewrite !ndiv_ninv by exact H; unfold cmodulus_squared in *; field; exact H.
Qed.
Lemma cmul_div z w : cmodulus_squared w <> 0 -> cdiv (cmul z w) w = z.
Proof.
  intros H. cext; rewrite !ndiv_ninv by exact H; unfold cmodulus_squared in *; field; exact H.
Qed.
Lemma ctry_inverse_none z : ctry_inverse z = None <-> cmodulus_squared z = 0.
Proof.
  unfold ctry_inverse. destruct (nis0 (cmodulus_squared z)) eqn:E.
  - apply nis0_true in E. tauto.
  - apply nis0_false in E. split; [discriminate|tauto].
Qed.
Lemma ctry_inverse_some z w :
  ctry_inverse z = Some w -> cmul z w = cone /\ cmul w z = cone.
Proof.
  unfold ctry_inverse. destruct (nis0 (cmodulus_squared z)) eqn:E; [discriminate|].
  apply nis0_false in E. intros [= <-].
  split; cext; rewrite !ndiv_ninv by exact E; unfold cmodulus_squared in *; field; exact E.
Qed.
Lemma cdiv_assign_eq z w : cdiv_assign z w = cdiv z w :> complex K.
Proof. reflexivity. Qed.
Lemma s_div_c_eq s z : cmodulus_squared z <> 0 -> s_div_c s z = cdiv (cfrom_real s) z.
Proof.
  intros H. cext; rewrite !ndiv_ninv by exact H; unfold cmodulus_squared in *; field; exact H.
Qed.
Lemma cdiv_s_eq z s : s <> 0 -> cdiv_s z s = cdiv z (cfrom_real s).
Proof.
  intros H. assert (H2 : s * s + 0 * 0 <> 0).
  { replace (s * s + 0 * 0) with (s * s) by ring. intros E.
    destruct (field_integral s s E); auto. }
  cext; unfold cmodulus_squared; cbn; rewrite !(ndiv_ninv _ s) by exact H; rewrite ndiv_ninv by exact H2; field;
  repeat split; auto.
Qed.
Lemma cdiv_conj z w :
  cmodulus_squared w <> 0 -> cconj (cdiv z w) = cdiv (cconj z) (cconj w).
Proof.
  intros H. cext; unfold cmodulus_squared in *; cbn;
  assert (H' : re w * re w + - im w * - im w <> 0)
    by (replace (re w * re w + - im w * - im w) with (re w * re w + im w * im w) by ring; auto);
  rewrite !ndiv_ninv by assumption; field; repeat split; auto.
Qed.
Lemma cinv_pow z n :
  cmodulus_squared z <> 0 ->
  cmul (cprod (mkC (re z / cmodulus_squared z) (- im z / cmodulus_squared z)) n) (cprod z n)
  = cone.
Proof.
  intros H. rewrite <- cprod_mul.
  replace (cmul (mkC (re z / cmodulus_squared z) (- im z / cmodulus_squared z)) z)
    with (@cone K NK); [apply cprod_one|].
  cext; rewrite !ndiv_ninv by exact H; unfold cmodulus_squared in *; field; exact H.
Qed.
End Field.

Section Extra.
Context {K : Type} {NK : Num K} {LK : RingLaws K}.
Local Open Scope num_scope.
Add Ring Kring3 : (@ring_laws K NK LK).
Lemma cparts (x : complex K) :
  x = cadd (cfrom_real (re x)) (cmul cunit_im (cfrom_real (im x))).
Proof. csolve. Qed.
Lemma s_sub_c_conj s z : s_sub_c s z = cconj (csub (mkC s 0) z).
Proof. csolve. Qed.
End Extra.

Section PowAll.
Context {K : Type} {NK : Num K} {ND : NumDiv K} {FK : FieldLaws K}.
Local Open Scope num_scope.
#[local] Instance rl_of_fieldC2 : RingLaws K := field_ring.
Lemma cpowi_all (z : complex K) :
    (forall n : Z, (0 <= n)%Z -> cpowi z n = CPow (cprod z (Z.to_nat n))) /\
    (forall n : Z, (n < 0)%Z -> cmodulus_squared z = 0 -> cpowi z n = CPowNan) /\
    (forall k m : nat, Nat.odd m = true -> cmodulus_squared z <> 0 ->
       exists w, cpowi z (- Z.of_nat (2 ^ k * m)) = CPow w /\ cmul w (cprod z (2 ^ k)) = cone).
Proof.
  split; [intros; apply cpowi_nonneg; auto|]. split.
  - intros n Hn Hz. apply cpowi_nan; auto. rewrite Hz. apply nis0_0.
  - intros k m Hm Hz. eexists. split.
    + apply cpowi_neg; auto. apply nis0_neq; auto.
    + apply cinv_pow; auto.
Qed.
End PowAll.

Lemma ctry_cast_all {A B} (conv : A -> option B) (z : complex A) :
  (ctry_cast conv z = None <-> conv (re z) = None \/ conv (im z) = None) /\
  (forall w, ctry_cast conv z = Some w <-> conv (re z) = Some (re w) /\ conv (im z) = Some (im w)).
Proof.
  unfold ctry_cast. destruct (conv (re z)), (conv (im z));
  (split; [split; intros; try discriminate; auto; intuition congruence|]);
  intros [a b']; cbn; split; intros H; try discriminate; try (destruct H; congruence);
  injection H; intros; subst; auto.
Qed.
Lemma ccmp_spec {A T} (cmp : A -> A -> T -> bool) (z w : complex A) (t : complex T) (u : T) :
    (ccmp cmp z w t = true <-> cmp (re z) (re w) (re t) = true /\ cmp (im z) (im w) (im t) = true) /\
    (ccmp_all cmp z w u = true <-> cmp (re z) (re w) u = true /\ cmp (im z) (im w) u = true).
Proof. unfold ccmp, ccmp_all. split; apply andb_true_iff. Qed.
