(** Composite comparisons are componentwise. *)

From Coq Require Import List Arith Bool Lia.
From Verif Require Import Base LBase LVector MMatrix LMatrix MComplex MQuat MTransform MApprox SpecApprox.
Import ListNotations.

Lemma Forall4_cons_iff {A B C D} (Q : A -> B -> C -> D -> Prop) a b c e la lb lc ld :
  Forall4 Q (a :: la) (b :: lb) (c :: lc) (e :: ld) <-> Q a b c e /\ Forall4 Q la lb lc ld.
Proof. split; [intros H; inversion H; auto|intros [H1 H2]; constructor; auto]. Qed.

Section Lists.
Context {A B C D : Type} (P : A -> B -> C -> D -> Prop).

Lemma Forall4_app la lb lc ld la' lb' lc' ld' :
  length la = length lb -> length la = length lc -> length la = length ld ->
  (Forall4 P (la ++ la') (lb ++ lb') (lc ++ lc') (ld ++ ld') <->
   Forall4 P la lb lc ld /\ Forall4 P la' lb' lc' ld').
Proof.
  revert lb lc ld. induction la as [|a la IH]; intros [|b lb] [|c lc] [|d ld]; cbn; try discriminate.
  - intros _ _ _. split; [intros H; split; [constructor|exact H]|intros [_ H]; exact H].
  - intros H1 H2 H3. split.
    + intros H. apply Forall4_cons_iff in H as [H0 H]. apply IH in H as [H4 H5]; auto. split; [constructor|]; auto.
    + intros [H H']. apply Forall4_cons_iff in H as [H0 H]. constructor; auto. apply IH; auto.
Qed.
End Lists.

Lemma vcomps_length {A n} (v : vec A n) : length (vcomps v) = n.
Proof. induction n as [|n IH]; cbn; [reflexivity|f_equal; apply IH]. Qed.

Lemma mcomps_length {A r c} (m : mat A r c) : length (mcomps m) = c * r.
Proof.
  unfold mcomps. unfold mat in m. induction c as [|c IH]; cbn; [reflexivity|].
  rewrite app_length, vcomps_length. f_equal. apply IH.
Qed.

Lemma vcomps_inj {A n} (u v : vec A n) : vcomps u = vcomps v -> u = v.
Proof.
  induction n as [|n IH]; cbn in *; [destruct u, v; reflexivity|].
  destruct u as [x u], v as [y v]. cbn. intros H. injection H as -> H. f_equal. apply IH. exact H.
Qed.

Lemma app_inj_len {A} (a b c d : list A) : length a = length b -> a ++ c = b ++ d -> a = b /\ c = d.
Proof.
  revert b. induction a as [|x a IH]; intros [|y b]; cbn; try discriminate; auto.
  intros H E. injection E as -> E. injection H as H. destruct (IH b H E). subst. auto.
Qed.

Lemma mcomps_inj {A r c} (m m' : mat A r c) : mcomps m = mcomps m' -> m = m'.
Proof.
  unfold mcomps, mat in *. induction c as [|c IH]; cbn in *; [destruct m, m'; reflexivity|].
  destruct m as [x m], m' as [y m']. cbn. intros H.
  apply app_inj_len in H as [H1 H2]; [|rewrite !vcomps_length; reflexivity].
  apply vcomps_inj in H1. apply IH in H2. congruence.
Qed.

Section Approx.
Context {K T U : Type}.
Variables (d : K) (dt : T) (du : U).
Variable cmp : K -> K -> T -> U -> bool.
Notation P := (fun x y t w => cmp x y t w = true).

Lemma forall_vcomps n (Q : K -> K -> T -> U -> Prop) (x y : vec K n) (t : vec T n) (w : vec U n) :
  (forall i, i < n -> Q (vget d x i) (vget d y i) (vget dt t i) (vget du w i)) <->
  Forall4 Q (vcomps x) (vcomps y) (vcomps t) (vcomps w).
Proof.
  induction n as [|n IH]; cbn.
  - split; [constructor|intros; lia].
  - destruct x as [x0 x], y as [y0 y], t as [t0 t], w as [w0 w]. cbn. split.
    + intros H. constructor; [exact (H 0 (Nat.lt_0_succ n))|]. apply IH. intros i Hi. apply (H (S i)). lia.
    + intros H. apply Forall4_cons_iff in H as [H0 H]. intros [|i] Hi; [assumption|]. cbn.
      revert i Hi. assert (G : forall i, i < n -> Q (vget d x i) (vget d y i) (vget dt t i) (vget du w i)) by (apply IH; assumption).
      intros i Hi. apply G. lia.
Qed.

Lemma vapprox_spec n (x y : vec K n) t w :
  vapprox d dt du cmp x y t w = true <-> Forall4 P (vcomps x) (vcomps y) (vcomps t) (vcomps w).
Proof. unfold vapprox. rewrite for_range_andb. exact (forall_vcomps n P x y t w). Qed.

Lemma vapprox_all_eq n (x y : vec K n) t w :
  vapprox_all d cmp x y t w = vapprox d dt du cmp x y (vfill n t) (vfill n w).
Proof.
  unfold vapprox_all, vapprox. apply for_range_ext. intros i acc Hi. rewrite !vget_vfill by exact Hi. reflexivity.
Qed.

Lemma mapprox_spec r c (x y : mat K r c) t w :
  mapprox d dt du cmp x y t w = true <-> Forall4 P (mcomps x) (mcomps y) (mcomps t) (mcomps w).
Proof.
  unfold mapprox. rewrite for_range2_andb. unfold mcomps, mat in *. unfold mget_d.
  induction c as [|c IH]; cbn.
  - split; [constructor|split; [reflexivity|intros; lia]].
  - destruct x as [x0 x], y as [y0 y], t as [t0 t], w as [w0 w]. cbn.
    rewrite Forall4_app by (rewrite !vcomps_length; reflexivity).
    rewrite <- (IH x y t w). rewrite <- (forall_vcomps r P). split.
    + intros [_ H]. split; [intros i Hi; exact (H 0 i (Nat.lt_0_succ c) Hi)|].
      split; [reflexivity|]. intros j i Hj Hi. apply (H (S j) i); lia.
    + intros [H1 [_ H2]]. split; [reflexivity|]. intros [|j] i Hj Hi; cbn; [apply H1; exact Hi|apply H2; lia].
Qed.

Lemma mget_d_vfill2 {A} (a dd : A) r c j i : j < c -> i < r -> mget_d dd (vfill c (vfill r a) : mat A r c) j i = a.
Proof. intros. unfold mget_d. rewrite vget_vfill by assumption. apply vget_vfill. assumption. Qed.

Lemma mapprox_all_eq r c (x y : mat K r c) t w :
  mapprox_all d cmp x y t w = mapprox d dt du cmp x y (vfill c (vfill r t)) (vfill c (vfill r w)).
Proof.
  unfold mapprox_all, mapprox. apply for_range_ext. intros j acc Hj. apply for_range_ext. intros i acc' Hi.
  rewrite !mget_d_vfill2 by assumption. reflexivity.
Qed.

Lemma capprox_spec (x y : complex K) t w :
  capprox cmp x y t w = true <-> Forall4 P (ccomps x) (ccomps y) (ccomps t) (ccomps w).
Proof.
  unfold capprox, ccomps. rewrite andb_true_iff. split.
  - intros [H1 H2]. repeat constructor; assumption.
  - rewrite !Forall4_cons_iff. tauto.
Qed.

Lemma euapprox_spec (x y : K * K * K) t w :
  euapprox cmp x y t w = true <-> Forall4 P (eucomps x) (eucomps y) (eucomps t) (eucomps w).
Proof.
  destruct x as [[x1 x2] x3], y as [[y1 y2] y3], t as [[t1 t2] t3], w as [[w1 w2] w3].
  unfold euapprox, eucomps. rewrite !andb_true_iff. cbn. split.
  - intros [[H1 H2] H3]. repeat constructor; assumption.
  - rewrite !Forall4_cons_iff. tauto.
Qed.

Lemma reapprox_spec n (x y : reflection K n) t w :
  reapprox d dt du cmp x y t w = true <-> Forall4 P (recomps x) (recomps y) (recomps t) (recomps w).
Proof.
  unfold reapprox, recomps, papprox. rewrite andb_true_iff, !vapprox_spec.
  rewrite Forall4_app by (rewrite !vcomps_length; reflexivity). reflexivity.
Qed.

Lemma shapprox_spec n (x y : shear K n) t w :
  shapprox d dt du cmp x y t w = true <-> Forall4 P (shcomps x) (shcomps y) (shcomps t) (shcomps w).
Proof.
  unfold shapprox, shcomps, papprox. rewrite !andb_true_iff, !vapprox_spec, Forall4_cons_iff.
  rewrite !Forall4_app by (rewrite !vcomps_length; reflexivity). tauto.
Qed.

Lemma isoapprox_spec n (x y : isometry K n) t w :
  isoapprox d dt du cmp x y t w = true <-> Forall4 P (isocomps x) (isocomps y) (isocomps t) (isocomps w).
Proof.
  unfold isoapprox, isocomps. rewrite !andb_true_iff, vapprox_spec, mapprox_spec.
  rewrite !Forall4_app by (rewrite !mcomps_length; reflexivity). tauto.
Qed.

Lemma simapprox_spec n (x y : similarity K n) t w :
  simapprox d dt du cmp x y t w = true <-> Forall4 P (simcomps x) (simcomps y) (simcomps t) (simcomps w).
Proof.
  unfold simapprox, simcomps. rewrite !andb_true_iff, isoapprox_spec. unfold isocomps.
  rewrite Forall4_app by (rewrite !mcomps_length; reflexivity).
  rewrite (Forall4_app _ (mcomps _)) by (rewrite !mcomps_length; reflexivity).
  rewrite Forall4_app by (rewrite !vcomps_length; reflexivity).
  rewrite Forall4_cons_iff. split; [intros [[H1 H2] H3]; repeat split; auto; constructor|tauto].
Qed.
End Approx.

(** The [_all] versions. *)
Lemma Forall2_app_iff {A B} (Q : A -> B -> Prop) la lb la' lb' :
  length la = length lb -> (Forall2 Q (la ++ la') (lb ++ lb') <-> Forall2 Q la lb /\ Forall2 Q la' lb').
Proof.
  revert lb. induction la as [|a la IH]; intros [|b lb]; cbn; try discriminate.
  - intros _. split; [intros H; split; [constructor|exact H]|tauto].
  - intros H. split.
    + intros G. inversion G; subst. apply IH in H5 as [G1 G2]; auto.
    + intros [G1 G2]. inversion G1; subst. constructor; auto. apply IH; auto.
Qed.

Lemma Forall2_cons_iff' {A B} (Q : A -> B -> Prop) a b la lb :
  Forall2 Q (a :: la) (b :: lb) <-> Q a b /\ Forall2 Q la lb.
Proof. split; [intros H; inversion H; auto|intros [H1 H2]; constructor; auto]. Qed.

Section ApproxAll.
Context {K T U : Type}.
Variables (d : K).
Variable cmp : K -> K -> T -> U -> bool.
Variables (t : T) (w : U).
Notation Q := (fun x y => cmp x y t w = true).

Lemma forall2_vcomps n (Q : K -> K -> Prop) (x y : vec K n) :
  (forall i, i < n -> Q (vget d x i) (vget d y i)) <-> Forall2 Q (vcomps x) (vcomps y).
Proof.
  induction n as [|n IH]; cbn.
  - split; [constructor|intros; lia].
  - destruct x as [x0 x], y as [y0 y]. cbn. rewrite Forall2_cons_iff', <- IH. split.
    + intros H. split; [exact (H 0 (Nat.lt_0_succ n))|]. intros i Hi. apply (H (S i)). lia.
    + intros [H0 H] [|i] Hi; [assumption|]. apply H. lia.
Qed.

Lemma vapprox_all_spec n (x y : vec K n) :
  vapprox_all d cmp x y t w = true <-> Forall2 Q (vcomps x) (vcomps y).
Proof. unfold vapprox_all. rewrite for_range_andb. exact (forall2_vcomps n Q x y). Qed.

Lemma mapprox_all_spec r c (x y : mat K r c) :
  mapprox_all d cmp x y t w = true <-> Forall2 Q (mcomps x) (mcomps y).
Proof.
  unfold mapprox_all. rewrite for_range2_andb. unfold mcomps, mat in *. unfold mget_d.
  induction c as [|c IH]; cbn.
  - split; [constructor|split; [reflexivity|intros; lia]].
  - destruct x as [x0 x], y as [y0 y]. cbn.
    rewrite Forall2_app_iff by (rewrite !vcomps_length; reflexivity).
    rewrite <- (IH x y). rewrite <- (forall2_vcomps r Q). split.
    + intros [_ H]. split; [intros i Hi; exact (H 0 i (Nat.lt_0_succ c) Hi)|].
      split; [reflexivity|]. intros j i Hj Hi. apply (H (S j) i); lia.
    + intros [H1 [_ H2]]. split; [reflexivity|]. intros [|j] i Hj Hi; cbn; [apply H1; exact Hi|apply H2; lia].
Qed.

Lemma capprox_all_spec (x y : complex K) :
  capprox_all cmp x y t w = true <-> Forall2 Q (ccomps x) (ccomps y).
Proof.
  unfold capprox_all, ccomps. rewrite andb_true_iff, !Forall2_cons_iff'.
  split; [intros [H1 H2]; repeat split; auto|tauto].
Qed.

Lemma euapprox_all_spec (x y : K * K * K) :
  euapprox_all cmp x y t w = true <-> Forall2 Q (eucomps x) (eucomps y).
Proof.
  destruct x as [[x1 x2] x3], y as [[y1 y2] y3].
  unfold euapprox_all, eucomps. rewrite !andb_true_iff, !Forall2_cons_iff'. cbn.
  split; [intros [[H1 H2] H3]; repeat split; auto|tauto].
Qed.

Lemma reapprox_all_spec n (x y : reflection K n) :
  reapprox_all d cmp x y t w = true <-> Forall2 Q (recomps x) (recomps y).
Proof.
  unfold reapprox_all, recomps, papprox_all. rewrite andb_true_iff, !vapprox_all_spec.
  rewrite Forall2_app_iff by (rewrite !vcomps_length; reflexivity). reflexivity.
Qed.

Lemma shapprox_all_spec n (x y : shear K n) :
  shapprox_all d cmp x y t w = true <-> Forall2 Q (shcomps x) (shcomps y).
Proof.
  unfold shapprox_all, shcomps, papprox_all. rewrite !andb_true_iff, !vapprox_all_spec, Forall2_cons_iff'.
  rewrite !Forall2_app_iff by (rewrite !vcomps_length; reflexivity). tauto.
Qed.

Lemma isoapprox_all_spec n (x y : isometry K n) :
  isoapprox_all d cmp x y t w = true <-> Forall2 Q (isocomps x) (isocomps y).
Proof.
  unfold isoapprox_all, isocomps. rewrite !andb_true_iff, vapprox_all_spec, mapprox_all_spec.
  rewrite !Forall2_app_iff by (rewrite !mcomps_length; reflexivity). tauto.
Qed.

Lemma simapprox_all_spec n (x y : similarity K n) :
  simapprox_all d cmp x y t w = true <-> Forall2 Q (simcomps x) (simcomps y).
Proof.
  unfold simapprox_all, simcomps. rewrite !andb_true_iff, isoapprox_all_spec. unfold isocomps.
  rewrite Forall2_app_iff by (rewrite !mcomps_length; reflexivity).
  rewrite (Forall2_app_iff _ (mcomps _)) by (rewrite !mcomps_length; reflexivity).
  rewrite Forall2_app_iff by (rewrite !vcomps_length; reflexivity).
  rewrite Forall2_cons_iff'. split; [intros [[H1 H2] H3]; repeat split; auto|tauto].
Qed.
End ApproxAll.

Lemma Forall2_eq_list {A} (Q : A -> A -> Prop) (H : forall a b, Q a b -> a = b) l l' : Forall2 Q l l' -> l = l'.
Proof. induction 1; [reflexivity|]. f_equal; auto. Qed.
Lemma Forall2_refl_list {A} (Q : A -> A -> Prop) (H : forall a, Q a a) l : Forall2 Q l l.
Proof. induction l; constructor; auto. Qed.
Lemma Forall2_sym_list {A} (Q : A -> A -> Prop) (H : forall a b, Q a b -> Q b a) l l' :
  Forall2 Q l l' -> Forall2 Q l' l.
Proof. induction 1; constructor; auto. Qed.

Lemma recomps_inj {A n} (x y : reflection A n) : recomps x = recomps y -> x = y.
Proof.
  destruct x as [a b], y as [a' b']. unfold recomps. cbn. intros H.
  apply app_inj_len in H as [H1 H2]; [|rewrite !vcomps_length; reflexivity].
  apply vcomps_inj in H1, H2. congruence.
Qed.
Lemma shcomps_inj {A n} (x y : shear A n) : shcomps x = shcomps y -> x = y.
Proof.
  destruct x as [a b c e], y as [a' b' c' e']. unfold shcomps. cbn. intros H. injection H as -> H.
  apply app_inj_len in H as [H1 H]; [|rewrite !vcomps_length; reflexivity].
  apply app_inj_len in H as [H2 H3]; [|rewrite !vcomps_length; reflexivity].
  apply vcomps_inj in H1, H2, H3. congruence.
Qed.
Lemma isocomps_inj {A n} (x y : isometry A n) : isocomps x = isocomps y -> x = y.
Proof.
  destruct x as [a b], y as [a' b']. unfold isocomps. cbn. intros H.
  apply app_inj_len in H as [H1 H2]; [|rewrite !mcomps_length; reflexivity].
  apply mcomps_inj in H1. apply vcomps_inj in H2. congruence.
Qed.
Lemma simcomps_inj {A n} (x y : similarity A n) : simcomps x = simcomps y -> x = y.
Proof.
  destruct x as [[a b] c], y as [[a' b'] c']. unfold simcomps. cbn. intros H.
  apply app_inj_len in H as [H1 H]; [|rewrite !mcomps_length; reflexivity].
  apply app_inj_len in H as [H2 H]; [|rewrite !vcomps_length; reflexivity].
  apply mcomps_inj in H1. apply vcomps_inj in H2. injection H as ->. congruence.
Qed.
Lemma ccomps_inj {A} (x y : complex A) : ccomps x = ccomps y -> x = y.
Proof. destruct x, y. unfold ccomps. cbn. congruence. Qed.
Lemma eucomps_inj {A} (x y : A * A * A) : eucomps x = eucomps y -> x = y.
Proof. destruct x as [[? ?] ?], y as [[? ?] ?]. unfold eucomps. cbn. congruence. Qed.
