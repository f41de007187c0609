(** Norms, componentwise extremes and clamping in floats: the proofs of the property theorems of PNormF.v. *)

From Coq Require Import List Arith ZArith Bool Lia Reals Lra Psatz.
From Flocq Require Import Core.Core IEEE754.BinarySingleNaN.
From Verif Require Import Base Scalar Spec LBase MVector LVector LVectorR MMatrix LMatrix MFloat LFloat LFloatP LFloatNormP MFloatVec LFloatVec MSign LTrScF MNormF LNormFA.
Local Open Scope R_scope.

Lemma linf_maxn prec emax (Hp : Prec_gt_0 prec) (He : Prec_lt_emax prec emax) tie n (u : vec (binary_float prec emax) n) :
  flinf_norm tie u = maxn tie n (fun i => fabs (vat u i)).
Proof. reflexivity. Qed.
Lemma l1_sumn prec emax (Hp : Prec_gt_0 prec) (He : Prec_lt_emax prec emax) n (u : vec (binary_float prec emax) n) :
  fl1_norm u = sumn n (fun i => fabs (vat u i)).
Proof. reflexivity. Qed.

Theorem c146_linf_exact_partial (prec emax : Z) (Hp : Prec_gt_0 prec) (He : Prec_lt_emax prec emax) (n : nat)
    (tie : binary_float prec emax -> binary_float prec emax -> bool) (u : vec (binary_float prec emax) n) :
  (forall i, (i < n)%nat -> is_nan (vat u i) = false) ->
  is_nan (flinf_norm tie u) = false /\ Bsign (flinf_norm tie u) = false /\
  (forall i, (i < n)%nat -> Bleb (fabs (vat u i)) (flinf_norm tie u) = true) /\
  (flinf_norm tie u = n0 \/ exists i, (i < n)%nat /\ flinf_norm tie u = fabs (vat u i)) /\
  ((forall i, (i < n)%nat -> is_finite (vat u i) = true) ->
   is_finite (flinf_norm tie u) = true /\ (forall i, (i < n)%nat -> Rabs (B2R (vat u i)) <= B2R (flinf_norm tie u)) /\
   (B2R (flinf_norm tie u) = 0 \/ exists i, (i < n)%nat /\ B2R (flinf_norm tie u) = Rabs (B2R (vat u i)))).
Proof.
  intros N. rewrite linf_maxn. assert (P : forall i, (i < n)%nat -> pos (fabs (vat u i))) by (intros; apply pos_abs; auto).
  destruct (maxn_spec tie n _ P) as (Q & A & B). split; [apply Q|]. split; [apply Q|]. split; [|split; [exact B|]].
  - intros i Hi. apply bleb_le; [apply P; exact Hi|apply Q|]. apply A. exact Hi.
  - intros F. assert (G : is_finite (maxn tie n (fun i => fabs (vat u i))) = true).
    { destruct B as [->|(i & Hi & ->)]; [reflexivity|]. rewrite fin_abs. apply F. exact Hi. }
    split; [exact G|]. split.
    + intros i Hi. rewrite <- R_abs. destruct (A i Hi) as [E|[E|(_ & _ & E)]]; [|rewrite E in G; discriminate|exact E].
      pose proof (P i Hi) as (_ & S). rewrite E in S. discriminate.
    + destruct B as [->|(i & Hi & ->)]; [left; reflexivity|]. right. exists i. split; [exact Hi|apply R_abs].
Qed.

Theorem c146_linf_drops_nan_partial (prec emax : Z) (Hp : Prec_gt_0 prec) (He : Prec_lt_emax prec emax) (n : nat)
    (tie : binary_float prec emax -> binary_float prec emax -> bool) (u w : vec (binary_float prec emax) n) :
  (forall i, (i < n)%nat -> vat w i = if is_nan (vat u i) then n0 else vat u i) ->
  flinf_norm tie u = flinf_norm tie w.
Proof.
  intros H. rewrite !linf_maxn. apply maxn_nan.
  - intros i Hi N. apply pos_abs. rewrite nan_abs in N. exact N.
  - intros i Hi. rewrite nan_abs, H by exact Hi. destruct (is_nan (vat u i)); reflexivity.
Qed.

Theorem c146_l1 (prec emax : Z) (Hp : Prec_gt_0 prec) (He : Prec_lt_emax prec emax) (n : nat)
    (tie : binary_float prec emax -> binary_float prec emax -> bool) (u : vec (binary_float prec emax) n) :
  (is_nan (fl1_norm u) = true <-> exists i, (i < n)%nat /\ is_nan (vat u i) = true) /\
  (is_nan (fl1_norm u) = false ->
   Bsign (fl1_norm u) = false /\ (forall i, (i < n)%nat -> Bleb (fabs (vat u i)) (fl1_norm u) = true) /\
   Bleb (flinf_norm tie u) (fl1_norm u) = true) /\
  (is_finite (fl1_norm u) = true ->
   Rabs (B2R (fl1_norm u) - sum n (fun i => Rabs (B2R (vat u i)))) <=
   ((1 + bpow radix2 (- prec)) ^ (n - 1) - 1) * sum n (fun i => Rabs (B2R (vat u i)))) /\
  ((forall i, (i < n)%nat -> is_finite (vat u i) = true) ->
   (1 + bpow radix2 (- prec)) ^ n * sum n (fun i => Rabs (B2R (vat u i))) <= bpow radix2 (emax - 1) ->
   is_finite (fl1_norm u) = true).
Proof.
  rewrite l1_sumn, linf_maxn.
  assert (P : forall i, (i < n)%nat -> is_nan (fabs (vat u i)) = false -> pos (fabs (vat u i))).
  { intros i Hi N. apply pos_abs. rewrite nan_abs in N. exact N. }
  assert (I : is_nan (sumn n (fun i => fabs (vat u i))) = true <-> exists i, (i < n)%nat /\ is_nan (vat u i) = true).
  { rewrite (sumn_nan n _ P). split; intros (i & Hi & N); exists i; rewrite nan_abs in *; auto. }
  assert (P' : is_nan (sumn n (fun i => fabs (vat u i))) = false -> forall i, (i < n)%nat -> pos (fabs (vat u i))).
  { intros N i Hi. apply P; [exact Hi|]. rewrite nan_abs. destruct (is_nan (vat u i)) eqn:M; [|reflexivity].
    assert (T := proj2 I (ex_intro _ i (conj Hi M))). congruence. }
  assert (Q : sum n (fun i => B2R (fabs (vat u i))) = sum n (fun i => Rabs (B2R (vat u i)))) by (apply sum_ext; intros; apply R_abs).
  split; [exact I|]. split; [|split].
  - intros N. specialize (P' N). destruct (sumn_pos n _ P') as (S & A). split; [apply S|]. split.
    + intros i Hi. apply bleb_le; [apply P'; exact Hi|apply S|]. apply A. exact Hi.
    + apply bleb_le; [apply (maxn_spec tie n _ P')|apply S|]. apply max_le_sum. exact P'.
  - intros F. assert (N : is_nan (sumn n (fun i => fabs (vat u i))) = false) by (destruct (sumn n (fun i => fabs (vat u i))); try discriminate; reflexivity).
    destruct (sumn_err n _ (P' N) F) as (_ & E). rewrite Q in E. exact E.
  - intros F L. rewrite <- Q in L.
    assert (P2 : forall i, (i < n)%nat -> pos (fabs (vat u i))). { intros i Hi. specialize (F i Hi). apply pos_abs. destruct (vat u i); try discriminate; reflexivity. }
    apply sumn_fin; [exact P2| |exact L]. intros i Hi. rewrite fin_abs. apply F. exact Hi.
Qed.

Lemma sub_not_nan {prec emax} {Hp : Prec_gt_0 prec} {He : Prec_lt_emax prec emax} (x y : binary_float prec emax) :
  is_finite x = true -> is_finite y = true -> is_nan (nsub x y) = false.
Proof.
  intros Fx Fy. cbn [nsub num_float]. pose proof (Bminus_correct prec emax Hp He mode_NE x y Fx Fy) as C.
  revert C. case Rlt_bool_spec; intros L C.
  - destruct C as (_ & C & _). destruct (Bminus mode_NE x y); try discriminate; reflexivity.
  - destruct C as (C & _). destruct (Bminus mode_NE x y); try reflexivity. destruct (Bsign x); discriminate.
Qed.

Theorem c146_distance (prec emax : Z) (Hp : Prec_gt_0 prec) (He : Prec_lt_emax prec emax) (n : nat)
    (tie : binary_float prec emax -> binary_float prec emax -> bool) (a b : vec (binary_float prec emax) n) :
  fl1_dist a b = fl1_dist b a /\ flinf_dist tie a b = flinf_dist tie b a /\
  ((forall i, (i < n)%nat -> is_finite (vat a i) = true /\ is_finite (vat b i) = true) ->
   (fl1_dist a b = n0 <-> forall i, (i < n)%nat -> B2R (vat a i) = B2R (vat b i)) /\
   (flinf_dist tie a b = n0 <-> forall i, (i < n)%nat -> B2R (vat a i) = B2R (vat b i))).
Proof.
  split; [|split].
  - unfold fl1_dist, fl1_norm. apply for_range_ext. intros i r Hi. rewrite !vat_vsub by exact Hi. rewrite abs_sub_swap. reflexivity.
  - unfold flinf_dist, flinf_norm. apply for_range_ext. intros i r Hi. rewrite !vat_vsub by exact Hi. rewrite abs_sub_swap. reflexivity.
  - intros F. unfold fl1_dist, flinf_dist. rewrite l1_sumn, linf_maxn.
    assert (P : forall i, (i < n)%nat -> pos (fabs (vat (vsub b a) i))).
    { intros i Hi. destruct (F i Hi) as (Fa & Fb). rewrite vat_vsub by exact Hi. apply pos_abs. apply sub_not_nan; assumption. }
    rewrite (sumn_zero n _ P), (maxn_zero tie n _ P).
    assert (E : (forall i, (i < n)%nat -> fabs (vat (vsub b a) i) = B754_zero false) <-> forall i, (i < n)%nat -> B2R (vat a i) = B2R (vat b i)).
    { split; intros H i Hi; specialize (H i Hi); destruct (F i Hi) as (Fa & Fb).
      - rewrite vat_vsub in H by exact Hi. apply abs_sub_zero in H; auto.
      - rewrite vat_vsub by exact Hi. apply abs_sub_zero; auto. }
    split; exact E.
Qed.

(** A largest value computed from approximations within a common factor. *)
Lemma max_err {prec emax} {Hp : Prec_gt_0 prec} {He : Prec_lt_emax prec emax} tie n (f : nat -> binary_float prec emax) (s : nat -> R) (k E : R) :
  0 <= k -> (forall i, (i < n)%nat -> pos (f i)) -> (forall i, (i < n)%nat -> 0 <= s i) ->
  is_finite (maxn tie n f) = true ->
  (forall i, (i < n)%nat -> is_finite (f i) = true -> Rabs (B2R (f i) - s i) <= k * s i) ->
  (forall i, (i < n)%nat -> s i <= E) -> (E = 0 \/ exists i, (i < n)%nat /\ E = s i) ->
  Rabs (B2R (maxn tie n f) - E) <= k * E.
Proof.
  intros K P S F H U A. destruct (maxn_spec tie n f P) as (Q & B & C).
  assert (G : forall i, (i < n)%nat -> is_finite (f i) = true /\ B2R (f i) <= B2R (maxn tie n f)).
  { intros i Hi. destruct (B i Hi) as [X|[X|(X & _ & Y)]]; [|rewrite X in F; discriminate|auto].
    pose proof (P i Hi) as (_ & Z). rewrite X in Z. discriminate. }
  assert (E0 : 0 <= E). { destruct A as [->|(i & Hi & ->)]; [lra|auto]. }
  assert (KE : 0 <= k * E) by (apply Rmult_le_pos; lra).
  pose proof (pos_R _ Q) as M0. apply Rabs_le. split.
  - destruct A as [A|(i & Hi & A)]; [lra|]. destruct (G i Hi) as (Fi & L). specialize (H i Hi Fi). apply Rabs_le_inv in H. rewrite A. lra.
  - destruct C as [C|(i & Hi & C)]; [rewrite C; cbn [B2R]; lra|]. rewrite C. destruct (G i Hi) as (Fi & _). specialize (H i Hi Fi). apply Rabs_le_inv in H.
    specialize (U i Hi). specialize (S i Hi). assert (k * s i <= k * E) by (apply Rmult_le_compat_l; assumption). lra.
Qed.

Theorem c146_matrix_partial (prec emax : Z) (Hp : Prec_gt_0 prec) (He : Prec_lt_emax prec emax) (r c : nat)
    (tie : binary_float prec emax -> binary_float prec emax -> bool) (m : mat (binary_float prec emax) r c) :
  (forall j i, (j < c)%nat -> (i < r)%nat -> is_nan (mget m j i) = false) ->
  (forall j, (j < c)%nat -> Bleb (fl1_norm (mcol m j)) (fml1_norm tie m) = true) /\
  (fml1_norm tie m = n0 \/ exists j, (j < c)%nat /\ fml1_norm tie m = fl1_norm (mcol m j)) /\
  fmlinf_norm tie m = fml1_norm tie (mtranspose m) /\
  (forall E, is_finite (fml1_norm tie m) = true ->
   (forall j, (j < c)%nat -> sum r (fun i => Rabs (B2R (mget m j i))) <= E) ->
   (E = 0 \/ exists j, (j < c)%nat /\ E = sum r (fun i => Rabs (B2R (mget m j i)))) ->
   Rabs (B2R (fml1_norm tie m) - E) <= ((1 + bpow radix2 (- prec)) ^ (r - 1) - 1) * E) /\
  (forall E, is_finite (fmlinf_norm tie m) = true ->
   (forall i, (i < r)%nat -> sum c (fun j => Rabs (B2R (mget m j i))) <= E) ->
   (E = 0 \/ exists i, (i < r)%nat /\ E = sum c (fun j => Rabs (B2R (mget m j i)))) ->
   Rabs (B2R (fmlinf_norm tie m) - E) <= ((1 + bpow radix2 (- prec)) ^ (c - 1) - 1) * E).
Proof.
  intros N.
  pose proof (bpow_gt_0 radix2 (- prec)) as U.
  assert (K : forall q, 0 <= (1 + bpow radix2 (- prec)) ^ q - 1).
  { intros q. assert (1 <= (1 + bpow radix2 (- prec)) ^ q) by (apply pow_R1_Rle; lra). lra. }
  assert (P : forall j, (j < c)%nat -> forall i, (i < r)%nat -> pos (fabs (vat (mcol m j) i))).
  { intros j Hj i Hi. rewrite vat_mcol. apply pos_abs. apply N; assumption. }
  assert (P1 : forall j, (j < c)%nat -> pos (fl1_norm (mcol m j))) by (intros j Hj; rewrite l1_sumn; apply sumn_pos; apply P; exact Hj).
  change (fml1_norm tie m) with (maxn tie c (fun j => fl1_norm (mcol m j))).
  destruct (maxn_spec tie c _ P1) as (Q & A & B).
  split; [|split; [exact B|split; [|split]]].
  - intros j Hj. apply bleb_le; [apply P1; exact Hj|apply Q|]. apply A. exact Hj.
  - unfold fmlinf_norm, fml1_norm. apply for_range_ext. intros i x Hi. f_equal. unfold fl1_norm. apply for_range_ext. intros j y Hj.
    rewrite vat_mcol, mget_mtranspose by assumption. reflexivity.
  - intros E F H1 H2. eapply max_err; try exact F; try exact H1; try exact H2; [apply K|exact P1| |].
    + intros j Hj. cbv beta. apply sum_nonneg. intros; apply Rabs_pos.
    + intros j Hj Fj. cbv beta in *. rewrite l1_sumn in *. destruct (sumn_err r _ (P j Hj) Fj) as (_ & G).
      rewrite (sum_ext r _ (fun i => Rabs (B2R (mget m j i)))) in G; [exact G|]. intros i Hi. rewrite R_abs, vat_mcol. reflexivity.
  - intros E F H1 H2.
    change (fmlinf_norm tie m) with (maxn tie r (fun i => sumn c (fun j => fabs (mget m j i)))) in *.
    assert (P2 : forall i, (i < r)%nat -> forall j, (j < c)%nat -> pos (fabs (mget m j i))) by (intros i Hi j Hj; apply pos_abs; apply N; assumption).
    eapply max_err; try exact F; try exact H1; try exact H2; [apply K| | |].
    + intros i Hi. apply sumn_pos. apply P2. exact Hi.
    + intros i Hi. cbv beta. apply sum_nonneg. intros; apply Rabs_pos.
    + intros i Hi Fi. cbv beta in *. destruct (sumn_err c _ (P2 i Hi) Fi) as (_ & G).
      rewrite (sum_ext c _ (fun j => Rabs (B2R (mget m j i)))) in G; [exact G|]. intros j Hj. apply R_abs.
Qed.

Theorem c146_extremes (prec emax : Z) (Hp : Prec_gt_0 prec) (He : Prec_lt_emax prec emax) (n : nat)
    (tie : binary_float prec emax -> binary_float prec emax -> bool) (u v : vec (binary_float prec emax) n) (i : nat) :
  (i < n)%nat ->
  (is_nan (vat u i) = true -> vat (fvcmin tie u v) i = vat v i /\ vat (fvcmax tie u v) i = vat v i) /\
  (is_nan (vat v i) = true -> is_nan (vat u i) = false -> vat (fvcmin tie u v) i = vat u i /\ vat (fvcmax tie u v) i = vat u i) /\
  (is_nan (vat u i) = false -> is_nan (vat v i) = false ->
   (vat (fvcmin tie u v) i = vat u i \/ vat (fvcmin tie u v) i = vat v i) /\
   (vat (fvcmax tie u v) i = vat u i \/ vat (fvcmax tie u v) i = vat v i) /\
   Bleb (vat (fvcmin tie u v) i) (vat u i) = true /\ Bleb (vat (fvcmin tie u v) i) (vat v i) = true /\
   Bleb (vat u i) (vat (fvcmax tie u v) i) = true /\ Bleb (vat v i) (vat (fvcmax tie u v) i) = true).
Proof.
  intros Hi.
  assert (Emin : vat (fvcmin tie u v) i = fmin tie (vat u i) (vat v i)) by (unfold fvcmin, vat at 1; rewrite vget_loop_fill by exact Hi; reflexivity).
  assert (Emax : vat (fvcmax tie u v) i = fmax tie (vat u i) (vat v i)) by (unfold fvcmax, vat at 1; rewrite vget_loop_fill by exact Hi; reflexivity).
  rewrite Emin, Emax. split; [|split].
  - intros N. unfold fmin, fmax. rewrite N. auto.
  - intros N M. unfold fmin, fmax. rewrite N, M. auto.
  - intros N M. destruct (fmin_cases tie _ _ N M) as (A & B & C). destruct (fmax_cases tie _ _ N M) as (D & E & F).
    assert (X : is_nan (fmin tie (vat u i) (vat v i)) = false) by (destruct A as [-> | ->]; assumption).
    assert (Y : is_nan (fmax tie (vat u i) (vat v i)) = false) by (destruct D as [-> | ->]; assumption).
    repeat split; try assumption; apply bleb_le; assumption.
Qed.

Theorem c146_clamp (prec emax : Z) (Hp : Prec_gt_0 prec) (He : Prec_lt_emax prec emax) (x lo hi : binary_float prec emax) :
  (is_nan x = true -> is_nan (fclamp x lo hi) = true) /\
  (Bleb lo x = true -> Bleb x hi = true -> fclamp x lo hi = x) /\
  (is_nan x = false -> Bleb lo hi = true ->
   Bleb lo (fclamp x lo hi) = true /\ Bleb (fclamp x lo hi) hi = true /\
   (fclamp x lo hi = x \/ fclamp x lo hi = lo \/ fclamp x lo hi = hi)) /\
  (is_nan x = false -> Bltb hi lo = true -> fclamp x lo hi = if Bltb x lo then lo else hi).
Proof.
  assert (NN : forall a b : binary_float prec emax, Bleb a b = true -> is_nan a = false /\ is_nan b = false).
  { intros a b H. destruct a as [[|]|[|]| |[|]], b as [[|]|[|]| |[|]]; try discriminate; auto. }
  assert (NL : forall a b : binary_float prec emax, Bltb a b = true -> is_nan a = false /\ is_nan b = false).
  { intros a b H. destruct a as [[|]|[|]| |[|]], b as [[|]|[|]| |[|]]; try discriminate; auto. }
  unfold fclamp. split; [|split; [|split]].
  - intros N. destruct x; try discriminate. destruct lo as [[|]|[|]| |[|]], hi as [[|]|[|]| |[|]]; reflexivity.
  - intros A B. destruct (NN _ _ A) as (Nl & Nx). destruct (NN _ _ B) as (_ & Nh).
    rewrite (bltb_lt x lo Nx Nl), (bltb_lt hi x Nh Nx), A, B. reflexivity.
  - intros Nx L. destruct (NN _ _ L) as (Nl & Nh). rewrite (bltb_lt x lo Nx Nl), (bltb_lt hi x Nh Nx).
    assert (R : forall a : binary_float prec emax, is_nan a = false -> Bleb a a = true) by (intros a Na; apply bleb_le; auto using le_refl).
    destruct (Bleb lo x) eqn:A; cbn [negb]; [destruct (Bleb x hi) eqn:B; cbn [negb]|]; repeat split; auto.
  - intros Nx H. destruct (NL _ _ H) as (Nh & Nl). destruct (Bltb x lo) eqn:A; [reflexivity|].
    rewrite (bltb_lt hi x Nh Nx). rewrite (bltb_lt x lo Nx Nl) in A. rewrite (bltb_lt hi lo Nh Nl) in H.
    destruct (Bleb x hi) eqn:B; [|reflexivity]. exfalso.
    apply negb_true_iff in H. apply negb_false_iff in A. apply (bleb_le _ _ Nl Nx) in A. apply (bleb_le _ _ Nx Nh) in B.
    assert (C := proj2 (bleb_le lo hi Nl Nh) (le_trans _ _ _ A B)). congruence.
Qed.

Lemma sf_eq {prec emax} (x y : binary_float prec emax) : B2SF x = B2SF y -> x = y.
Proof. exact (B2SF_inj prec emax x y). Qed.

Theorem c146_nan_refuted :
  exists (a : vec f64 3) (v : vec f64 2) (m : mat f64 2 2), forall tie,
    (forall i, (i < 3)%nat -> is_nan (vat a i) = true) /\
    (forall b, flinf_norm tie a = n0 /\ flinf_dist tie a b = n0 /\ flinf_dist tie b a = n0 /\ is_nan (fl1_dist a b) = true) /\
    is_nan (vat v 0) = true /\ flinf_norm tie v = f64_of_Z 1 /\ is_nan (fl1_norm v) = true /\
    is_nan (mget m 0 0) = true /\ fml1_norm tie m = f64_of_Z 5 /\ fmlinf_norm tie m = f64_of_Z 4.
Proof.
  exists (v3 B754_nan B754_nan B754_nan), (v2 B754_nan (f64_of_Z 1)), (m2new B754_nan (f64_of_Z 1) (f64_of_Z 2) (f64_of_Z 3)). intros tie.
  split; [intros [|[|[|i]]] Hi; try reflexivity; lia|].
  split.
  - intros b. split; [reflexivity|]. destruct b as (b0 & b1 & b2 & []).
    split; [|split].
    + destruct b0, b1, b2; reflexivity.
    + reflexivity.
    + destruct b0, b1, b2; reflexivity.
  - split; [reflexivity|]. split; [apply sf_eq; vm_compute; reflexivity|]. split; [vm_compute; reflexivity|]. split; [reflexivity|].
    split; apply sf_eq; vm_compute; reflexivity.
Qed.

Theorem c146_example :
  let u : vec f64 4 := v4 (f64_of_Z (-3)) (f64_of_Z 2) (ndiv (f64_of_Z 1) (f64_of_Z 10)) (f64_of_Z 0) in
  (forall i, (i < 4)%nat -> is_finite (vat u i) = true) /\ is_finite (fl1_norm u) = true /\
  (forall tie, flinf_norm tie u = f64_of_Z 3) /\
  fl1_norm (v2 (f64_of_Z (2 ^ 53)) (f64_of_Z (-1))) = f64_of_Z (2 ^ 53) /\
  (forall tie, fml1_norm tie (m2new (f64_of_Z 1) (f64_of_Z (-2)) (f64_of_Z 5) (f64_of_Z 7)) = f64_of_Z 12) /\
  (forall tie, fmlinf_norm tie (m2new (f64_of_Z 1) (f64_of_Z (-2)) (f64_of_Z 5) (f64_of_Z 7)) = f64_of_Z 9) /\
  fclamp (f64_of_Z 9) (f64_of_Z 0) (f64_of_Z 1) = f64_of_Z 1 /\
  (forall tie, vat (fvcmin tie u (v4 B754_nan (f64_of_Z (-7)) B754_nan B754_nan)) 1 = f64_of_Z (-7)).
Proof.
  intros u. split; [intros [|[|[|[|i]]]] Hi; try reflexivity; lia|]. split; [vm_compute; reflexivity|].
  split; [intros tie; apply sf_eq; vm_compute; reflexivity|]. split.
  - apply sf_eq; vm_compute; reflexivity.
  - split; [intros tie; apply sf_eq; vm_compute; reflexivity|]. split; [intros tie; apply sf_eq; vm_compute; reflexivity|].
    split; [apply sf_eq; vm_compute; reflexivity|intros tie; apply sf_eq; vm_compute; reflexivity].
Qed.
