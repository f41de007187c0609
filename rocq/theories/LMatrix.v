(** Lemmas and proofs about matrices over any commutative ring / field. *)

From Coq Require Import List Arith Lia Bool Ring Setoid.
From Verif Require Import Base Scalar Spec LBase MVector LVector MMatrix.
Import ListNotations.
Local Open Scope nat_scope.

(** ** Entries: reading after writing, for any element type *)

Section Raw.
Context {A : Type} (d : A).

Lemma mget_d_mset_d r c (m : mat A r c) j i j' i' x :
  j < c -> i < r -> j' < c ->
  mget_d d (mset_d d m j i x) j' i' =
  if (Nat.eqb j' j && Nat.eqb i' i)%bool then x else mget_d d m j' i'.
Proof.
  intros Hj Hi Hj'. unfold mget_d, mset_d. rewrite vget_vset by auto.
  destruct (Nat.eqb_spec j' j) as [->|]; cbn [andb]; [|reflexivity].
  rewrite vget_vset by auto. reflexivity.
Qed.

Lemma mat_d_ext r c (m m' : mat A r c) :
  (forall j i, j < c -> i < r -> mget_d d m j i = mget_d d m' j i) -> m = m'.
Proof.
  intros H. apply (vec_ext (vfill r d)). intros j Hj. apply (vec_ext d). intros i Hi.
  exact (H j i Hj Hi).
Qed.

Lemma mget_d_fill r c a j i : j < c -> i < r -> mget_d d (vfill c (vfill r a)) j i = a.
Proof. intros. unfold mget_d. rewrite !vget_vfill; auto. Qed.

(** Column-major nested loop, each entry computed from its old value. *)
Lemma mget_d_loop_cr r c (g : nat -> nat -> A -> A) (m : mat A r c) j i :
  j < c -> i < r ->
  mget_d d (for_range c (fun j acc => for_range r (fun i acc =>
    mset_d d acc j i (g j i (mget_d d acc j i))) acc) m) j i = g j i (mget_d d m j i).
Proof.
  intros Hj Hi.
  pose (inner := fun j (acc : mat A r c) => for_range r (fun i acc =>
    mset_d d acc j i (g j i (mget_d d acc j i))) acc).
  assert (I : forall j0 (acc : mat A r c), j0 < c -> forall k, k <= r ->
     forall j' i', j' < c -> i' < r ->
     mget_d d (for_range k (fun i acc => mset_d d acc j0 i (g j0 i (mget_d d acc j0 i))) acc)
       j' i' =
     if (Nat.eqb j' j0 && Nat.ltb i' k)%bool then g j' i' (mget_d d acc j' i')
     else mget_d d acc j' i').
  { intros j0 acc Hj0. induction k as [|k IH]; intros Hk j' i' Hj' Hi'.
    - rewrite andb_comm. reflexivity.
    - rewrite for_range_S, mget_d_mset_d by lia.
      destruct (Nat.eqb_spec j' j0) as [->|Hne]; cbn [andb].
      + destruct (Nat.eqb_spec i' k) as [->|Hne].
        * rewrite IH by lia. rewrite Nat.eqb_refl, Nat.ltb_irrefl; cbn [andb].
          destruct (Nat.ltb_spec k (S k)); [reflexivity|lia].
        * rewrite IH by lia. rewrite Nat.eqb_refl; cbn [andb].
          destruct (Nat.ltb_spec i' k), (Nat.ltb_spec i' (S k)); try lia; reflexivity.
      + rewrite IH by lia. destruct (Nat.eqb_spec j' j0); [contradiction|reflexivity]. }
  assert (O : forall k, k <= c -> forall j' i', j' < c -> i' < r ->
     mget_d d (for_range k inner m) j' i' =
     if Nat.ltb j' k then g j' i' (mget_d d m j' i') else mget_d d m j' i').
  { induction k as [|k IH]; intros Hk j' i' Hj' Hi'; [reflexivity|].
    rewrite for_range_S. unfold inner at 1. rewrite I by lia. rewrite !IH by lia.
    destruct (Nat.eqb_spec j' k) as [->|Hne]; cbn [andb].
    - destruct (Nat.ltb_spec i' r); [|lia]. rewrite Nat.ltb_irrefl.
      destruct (Nat.ltb_spec k (S k)); [reflexivity|lia].
    - destruct (Nat.ltb_spec j' k), (Nat.ltb_spec j' (S k)); try lia; reflexivity. }
  etransitivity; [exact (O c (le_n c) j i Hj Hi)|]. destruct (Nat.ltb_spec j c); [reflexivity|lia].
Qed.

(** Row-major nested loop over a block: the first [rb] rows and [cb] columns are overwritten. *)
Lemma mget_d_block_rc r c rb cb (f : nat -> nat -> A) (m : mat A r c) j i :
  cb <= c -> rb <= r -> j < c -> i < r ->
  mget_d d (for_range rb (fun i acc => for_range cb (fun j acc =>
    mset_d d acc j i (f j i)) acc) m) j i =
  if (Nat.ltb j cb && Nat.ltb i rb)%bool then f j i else mget_d d m j i.
Proof.
  intros Hcb Hrb Hj Hi.
  assert (I : forall i0 (acc : mat A r c), i0 < r -> forall k, k <= cb ->
     forall j' i', j' < c -> i' < r ->
     mget_d d (for_range k (fun j acc => mset_d d acc j i0 (f j i0)) acc) j' i' =
     if (Nat.ltb j' k && Nat.eqb i' i0)%bool then f j' i' else mget_d d acc j' i').
  { intros i0 acc Hi0. induction k as [|k IH]; intros Hk j' i' Hj' Hi'; [reflexivity|].
    rewrite for_range_S, mget_d_mset_d by lia. rewrite IH by lia.
    destruct (Nat.eqb_spec j' k), (Nat.eqb_spec i' i0), (Nat.ltb_spec j' k),
      (Nat.ltb_spec j' (S k)); cbn [andb]; subst; try lia; reflexivity. }
  revert j i Hj Hi. induction rb as [|k IH]; intros j i Hj Hi.
  - rewrite andb_comm. reflexivity.
  - rewrite for_range_S, I by lia. rewrite IH by lia.
    destruct (Nat.ltb_spec j cb), (Nat.eqb_spec i k), (Nat.ltb_spec i k),
      (Nat.ltb_spec i (S k)); cbn [andb]; subst; try lia; reflexivity.
Qed.

(** The same, column-major. *)
Lemma mget_d_block_cr r c rb cb (f : nat -> nat -> A) (m : mat A r c) j i :
  cb <= c -> rb <= r -> j < c -> i < r ->
  mget_d d (for_range cb (fun j acc => for_range rb (fun i acc =>
    mset_d d acc j i (f j i)) acc) m) j i =
  if (Nat.ltb j cb && Nat.ltb i rb)%bool then f j i else mget_d d m j i.
Proof.
  intros Hcb Hrb Hj Hi.
  assert (I : forall j0 (acc : mat A r c), j0 < c -> forall k, k <= rb ->
     forall j' i', j' < c -> i' < r ->
     mget_d d (for_range k (fun i acc => mset_d d acc j0 i (f j0 i)) acc) j' i' =
     if (Nat.eqb j' j0 && Nat.ltb i' k)%bool then f j' i' else mget_d d acc j' i').
  { intros j0 acc Hj0. induction k as [|k IH]; intros Hk j' i' Hj' Hi'.
    - rewrite andb_comm. reflexivity.
    - rewrite for_range_S, mget_d_mset_d by lia. rewrite IH by lia.
      destruct (Nat.eqb_spec j' j0), (Nat.eqb_spec i' k), (Nat.ltb_spec i' k),
        (Nat.ltb_spec i' (S k)); cbn [andb]; subst; try lia; reflexivity. }
  revert j i Hj Hi. induction cb as [|k IH]; intros j i Hj Hi; [reflexivity|].
  rewrite for_range_S, I by lia. rewrite IH by lia.
  destruct (Nat.ltb_spec i rb), (Nat.eqb_spec j k), (Nat.ltb_spec j k),
    (Nat.ltb_spec j (S k)); cbn [andb]; subst; try lia; reflexivity.
Qed.

(** Diagonal loop over a prefix. *)
Lemma mget_d_diag_loop n k (f : nat -> A) (m : mat A n n) j i :
  k <= n -> j < n -> i < n ->
  mget_d d (for_range k (fun i acc => mset_d d acc i i (f i)) m) j i =
  if (Nat.eqb j i && Nat.ltb j k)%bool then f j else mget_d d m j i.
Proof.
  intros Hk Hj Hi. induction k as [|k IH].
  - rewrite andb_comm. reflexivity.
  - rewrite for_range_S, mget_d_mset_d by lia. rewrite IH by lia.
    destruct (Nat.eqb_spec j k), (Nat.eqb_spec i k), (Nat.eqb_spec j i), (Nat.ltb_spec j k),
      (Nat.ltb_spec j (S k)); cbn [andb]; subst; try lia; reflexivity.
Qed.

Lemma mindex_get r c (m : mat A r c) j i :
  j < c -> i < r -> mindex m j i = Some (mget_d d m j i).
Proof.
  intros. unfold mindex, mget_d. rewrite (vindex_get (vfill r d)) by auto.
  rewrite (vindex_get d) by auto. reflexivity.
Qed.

Lemma mindex_none r c (m : mat A r c) j i : c <= j \/ r <= i -> mindex m j i = None.
Proof.
  intros H. unfold mindex. destruct (Nat.lt_ge_cases j c) as [Hj|Hj].
  - rewrite (vindex_get (vfill r d)) by auto. apply vindex_none. lia.
  - rewrite vindex_none by auto. reflexivity.
Qed.

Lemma mget_d_default (d' : A) r c (m : mat A r c) j i :
  j < c -> i < r -> mget_d d m j i = mget_d d' m j i.
Proof.
  intros. unfold mget_d. rewrite (vget_default (vfill r d) (vfill r d')) by auto.
  apply vget_default; auto.
Qed.

Lemma mget_d_from_rows r c (rows : vec (vec A c) r) j i :
  j < c -> i < r ->
  mget_d d (mfrom_rows d rows) j i = vget d (vget (vfill c d) rows i) j.
Proof.
  intros Hj Hi. unfold mfrom_rows.
  rewrite (mget_d_block_rc r c r c (fun j i => vget d (vget (vfill c d) rows i) j)) by lia.
  destruct (Nat.ltb_spec j c), (Nat.ltb_spec i r); try lia; reflexivity.
Qed.

Lemma mget_d_from_flat r c (a : vec A (r * c)) j i :
  j < c -> i < r -> mget_d d (mfrom_flat d a) j i = vget d a (j * r + i).
Proof.
  intros Hj Hi. unfold mfrom_flat.
  rewrite (mget_d_block_cr r c r c (fun j i => vget d a (j * r + i))) by lia.
  destruct (Nat.ltb_spec j c), (Nat.ltb_spec i r); try lia; reflexivity.
Qed.

Lemma mrow_get r c (m : mat A r c) i :
  i < r -> exists v, mrow d m i = Some v /\ forall j, j < c -> vget d v j = mget_d d m j i.
Proof.
  intros Hi.
  assert (G : forall k, k <= c -> exists v,
    for_range_opt k (fun j data =>
    match vindex (vget (vfill r d) m j) i with
    | Some x => Some (vset data j x)
    | None => None
    end) (vfill c d) = Some v /\ forall j, j < k -> vget d v j = mget_d d m j i).
  { induction k as [|k IH]; intros Hk.
    - exists (vfill c d). split; [reflexivity|intros; lia].
    - destruct (IH ltac:(lia)) as [v [E Hv]]. rewrite for_range_opt_S, E.
      rewrite (vindex_get d) by auto. eexists; split; [reflexivity|].
      intros j Hj. rewrite vget_vset by lia. destruct (Nat.eqb_spec j k) as [->|]; [reflexivity|].
      apply Hv; lia. }
  exact (G c (le_n c)).
Qed.

Lemma for_range_opt_fail {St} n (body : nat -> St -> option St) s :
  0 < n -> (forall i s', i < n -> body i s' = None) -> for_range_opt n body s = None.
Proof.
  intros Hn H. destruct n as [|n]; [lia|]. rewrite for_range_opt_S.
  destruct (for_range_opt n body s); auto.
Qed.

Lemma mrow_none r c (m : mat A r c) i : r <= i -> 0 < c -> mrow d m i = None.
Proof.
  intros Hi Hc. apply for_range_opt_fail; auto.
  intros j data Hj. rewrite vindex_none; auto.
Qed.

(** ** Swaps *)

Definition transp (a b i : nat) : nat := if Nat.eqb i a then b else if Nat.eqb i b then a else i.

Lemma vswap_some n (v : vec A n) a b :
  a < n -> b < n -> exists w, vswap v a b = Some w /\
  forall i, i < n -> vget d w i = vget d v (transp a b i).
Proof.
  intros Ha Hb. unfold vswap. rewrite !(vindex_get d) by auto.
  eexists; split; [reflexivity|]. intros i Hi. rewrite !vget_vset by auto. unfold transp.
  destruct (Nat.eqb_spec i b), (Nat.eqb_spec i a); subst; reflexivity.
Qed.

Lemma vswap_none n (v : vec A n) a b : n <= a \/ n <= b -> vswap v a b = None.
Proof.
  intros H. unfold vswap. destruct (Nat.lt_ge_cases a n) as [Ha|Ha].
  - rewrite (vindex_get d) by auto. rewrite vindex_none by lia. reflexivity.
  - rewrite (vindex_none n v a) by lia. reflexivity.
Qed.

Lemma transp_lt a b i n : a < n -> b < n -> i < n -> transp a b i < n.
Proof. intros. unfold transp. destruct (Nat.eqb i a), (Nat.eqb i b); auto. Qed.

Lemma transp_invol a b i : transp a b (transp a b i) = i.
Proof.
  unfold transp.
  destruct (Nat.eqb_spec i a) as [->|]; [|destruct (Nat.eqb_spec i b) as [->|]].
  - destruct (Nat.eqb_spec b a); [congruence|]. rewrite Nat.eqb_refl. reflexivity.
  - rewrite Nat.eqb_refl. reflexivity.
  - destruct (Nat.eqb_spec i a); [contradiction|]. destruct (Nat.eqb_spec i b); [contradiction|].
    reflexivity.
Qed.

Lemma mswap_rows_some r c (m : mat A r c) a b :
  a < r -> b < r -> exists m', mswap_rows d m a b = Some m' /\
  forall j i, j < c -> i < r -> mget_d d m' j i = mget_d d m j (transp a b i).
Proof.
  intros Ha Hb. unfold mswap_rows.
  assert (G : forall k, k <= c -> exists m',
    for_range_opt k (fun j m' =>
    match vswap (vget (vfill r d) m' j) a b with
    | Some col => Some (vset m' j col)
    | None => None
    end) m = Some m' /\ forall j i, j < c -> i < r ->
      mget_d d m' j i = mget_d d m j (if j <? k then transp a b i else i)).
  { induction k as [|k IH]; intros Hk.
    - exists m. split; [reflexivity|]. intros; reflexivity.
    - destruct (IH ltac:(lia)) as [m' [E H]]. rewrite for_range_opt_S, E.
      destruct (vswap_some r (vget (vfill r d) m' k) a b Ha Hb) as [w [Ew Hw]].
      rewrite Ew. eexists; split; [reflexivity|]. intros j i Hj Hi.
      unfold mget_d at 1. rewrite vget_vset by lia.
      destruct (Nat.eqb_spec j k) as [->|Hne].
      + rewrite Hw by auto. change (mget_d d m' k (transp a b i) =
          mget_d d m k (if k <? S k then transp a b i else i)).
        rewrite H by (auto using transp_lt).
        rewrite Nat.ltb_irrefl. destruct (Nat.ltb_spec k (S k)); [reflexivity|lia].
      + change (mget_d d m' j i = mget_d d m j (if j <? S k then transp a b i else i)).
        rewrite H by auto.
        destruct (Nat.ltb_spec j k), (Nat.ltb_spec j (S k)); try lia; reflexivity. }
  destruct (G c (le_n c)) as [m' [E H]]. exists m'; split; [exact E|].
  intros j i Hj Hi. rewrite H by auto. destruct (Nat.ltb_spec j c); [reflexivity|lia].
Qed.

Lemma mswap_rows_none r c (m : mat A r c) a b :
  r <= a \/ r <= b -> 0 < c -> mswap_rows d m a b = None.
Proof.
  intros H Hc. apply for_range_opt_fail; auto.
  intros j m' Hj. rewrite vswap_none by auto. reflexivity.
Qed.

Lemma mswap_some r c (m : mat A r c) ja ia jb ib :
  ja < c -> ia < r -> jb < c -> ib < r ->
  exists m', mswap d m (ja, ia) (jb, ib) = Some m' /\
  forall j i, j < c -> i < r ->
    mget_d d m' j i =
    if (Nat.eqb j ja && Nat.eqb i ia)%bool then mget_d d m jb ib
    else if (Nat.eqb j jb && Nat.eqb i ib)%bool then mget_d d m ja ia
    else mget_d d m j i.
Proof.
  intros. unfold mswap; cbn [fst snd]. rewrite !mindex_get by auto.
  eexists; split; [reflexivity|]. intros j i Hj Hi. rewrite !mget_d_mset_d by auto.
  destruct (Nat.eqb_spec j ja), (Nat.eqb_spec i ia), (Nat.eqb_spec j jb), (Nat.eqb_spec i ib);
    cbn [andb]; subst; reflexivity.
Qed.

Lemma mswap_none r c (m : mat A r c) ja ia jb ib :
  c <= ja \/ r <= ia \/ c <= jb \/ r <= ib -> mswap d m (ja, ia) (jb, ib) = None.
Proof.
  intros H. unfold mswap; cbn [fst snd].
  destruct (Nat.lt_ge_cases ja c), (Nat.lt_ge_cases ia r);
    try (rewrite mindex_none by lia; reflexivity).
  rewrite mindex_get by auto. rewrite mindex_none by lia. reflexivity.
Qed.

(** In-place transposition. *)
Lemma mtranspose_mut_some n (m : mat A n n) :
  exists m', mtranspose_mut d m = Some m' /\
  forall j i, j < n -> i < n -> mget_d d m' j i = mget_d d m i j.
Proof.
  unfold mtranspose_mut.
  assert (I : forall i0 (m0 : mat A n n), i0 < n -> forall k, k <= i0 -> exists m',
    for_range_opt k (fun j m => mswap d m (i0, j) (j, i0)) m0 = Some m' /\
    forall j i, j < n -> i < n -> mget_d d m' j i =
      if ((Nat.eqb j i0 && Nat.ltb i k) || (Nat.eqb i i0 && Nat.ltb j k))%bool
      then mget_d d m0 i j else mget_d d m0 j i).
  { intros i0 m0 Hi0. induction k as [|k IH]; intros Hk.
    - exists m0. split; [reflexivity|]. intros j i Hj Hi.
      rewrite !(andb_comm (Nat.eqb _ _)). reflexivity.
    - destruct (IH ltac:(lia)) as [m' [E H]]. rewrite for_range_opt_S, E.
      destruct (mswap_some n n m' i0 k k i0) as [m'' [E' H']]; try lia.
      exists m''. split; [exact E'|]. intros j i Hj Hi. rewrite H' by auto.
      rewrite !H by lia.
      rewrite !Nat.ltb_irrefl, !Nat.eqb_refl.
      destruct (Nat.eqb_spec k i0); [lia|]. destruct (Nat.ltb_spec i0 k); [lia|].
      cbn [andb orb].
      destruct (Nat.eqb_spec j i0), (Nat.eqb_spec i i0); cbn [andb orb]; subst.
      + destruct (Nat.eqb_spec i0 k); [lia|]. cbn [andb orb].
        destruct (Nat.ltb_spec i0 k), (Nat.ltb_spec i0 (S k)); try lia; reflexivity.
      + destruct (Nat.eqb_spec i k), (Nat.eqb_spec i0 k), (Nat.ltb_spec i k),
          (Nat.ltb_spec i (S k)); cbn [andb orb]; subst; try lia; reflexivity.
      + destruct (Nat.eqb_spec j k), (Nat.eqb_spec i0 k), (Nat.ltb_spec j k),
          (Nat.ltb_spec j (S k)); cbn [andb orb]; subst; try lia; reflexivity.
      + rewrite !andb_false_r. reflexivity. }
  assert (O : forall k, k <= n -> exists m',
    for_range_opt k (fun i m => for_range_opt i (fun j m => mswap d m (i, j) (j, i)) m) m
      = Some m' /\
    forall j i, j < n -> i < n -> mget_d d m' j i =
      if (Nat.ltb j k && Nat.ltb i k)%bool then mget_d d m i j else mget_d d m j i).
  { induction k as [|k IH]; intros Hk.
    - exists m; split; [reflexivity|]. intros; reflexivity.
    - destruct (IH ltac:(lia)) as [m' [E H]]. rewrite for_range_opt_S, E.
      destruct (I k m' ltac:(lia) k (le_n k)) as [m'' [E' H']].
      exists m''. split; [exact E'|]. intros j i Hj Hi. rewrite H' by auto.
      rewrite !H by lia.
      destruct (Nat.eqb_spec j k), (Nat.eqb_spec i k), (Nat.ltb_spec i k), (Nat.ltb_spec j k),
        (Nat.ltb_spec i (S k)), (Nat.ltb_spec j (S k)); cbn [andb orb]; subst; try lia;
        reflexivity. }
  destruct (O n (le_n n)) as [m' [E H]]. exists m'; split; [exact E|].
  intros j i Hj Hi. rewrite H by auto.
  destruct (Nat.ltb_spec j n), (Nat.ltb_spec i n); try lia; reflexivity.
Qed.

End Raw.

Lemma mget_d_mmap {A B} (da : A) (db : B) (f : A -> B) r c (m : mat A r c) j i :
  j < c -> i < r -> mget_d db (mmap da db f m) j i = f (mget_d da m j i).
Proof.
  intros Hj Hi. unfold mmap.
  rewrite (mget_d_block_cr db r c r c (fun j i => f (mget_d da m j i))) by lia.
  destruct (Nat.ltb_spec j c), (Nat.ltb_spec i r); try lia; reflexivity.
Qed.

Lemma for_range2_andb r c (p : nat -> nat -> bool) b :
  for_range c (fun j acc => for_range r (fun i acc => andb acc (p j i)) acc) b = true <->
  b = true /\ (forall j i, j < c -> i < r -> p j i = true).
Proof.
  assert (I : forall k j b, for_range k (fun i acc => andb acc (p j i)) b = true <->
                       b = true /\ forall i, i < k -> p j i = true).
  { induction k as [|k IH]; intros j b0.
    - cbn. split; [intros H; split; auto; intros; lia|tauto].
    - rewrite for_range_S, andb_true_iff, IH. split.
      + intros [[H1 H2] H3]. split; auto. intros i Hi.
        destruct (Nat.eq_dec i k); [subst; auto|apply H2; lia].
      + intros [H1 H2]. repeat split; auto; intros; apply H2; lia. }
  induction c as [|c IH].
  - cbn. split; [intros H; split; auto; intros; lia|tauto].
  - rewrite for_range_S, I, IH. split.
    + intros [[H1 H2] H3]. split; auto. intros j i Hj Hi.
      destruct (Nat.eq_dec j c); [subst; apply H3; auto|apply H2; auto; lia].
    + intros [H1 H2]. repeat split; auto; intros; apply H2; auto; lia.
Qed.

Lemma for_range_tri_andb n (p : nat -> nat -> bool) b :
  for_range n (fun i acc => for_range i (fun j acc => andb acc (p i j)) acc) b = true <->
  b = true /\ (forall i j, i < n -> j < i -> p i j = true).
Proof.
  assert (I : forall k j b, for_range k (fun i acc => andb acc (p j i)) b = true <->
                       b = true /\ forall i, i < k -> p j i = true).
  { induction k as [|k IH]; intros j b0.
    - cbn. split; [intros H; split; auto; intros; lia|tauto].
    - rewrite for_range_S, andb_true_iff, IH. split.
      + intros [[H1 H2] H3]. split; auto. intros i Hi.
        destruct (Nat.eq_dec i k); [subst; auto|apply H2; lia].
      + intros [H1 H2]. repeat split; auto; intros; apply H2; lia. }
  induction n as [|n IH].
  - cbn. split; [intros H; split; auto; intros; lia|tauto].
  - rewrite for_range_S, I, IH. split.
    + intros [[H1 H2] H3]. split; auto. intros i j Hi Hj.
      destruct (Nat.eq_dec i n); [subst; apply H3; auto|apply H2; auto; lia].
    + intros [H1 H2]. repeat split; auto; intros; apply H2; auto; lia.
Qed.

Lemma mcmp_all_spec {A B} (cmp : A -> A -> B -> bool) da db r c (m m' : mat A r c)
  (t : mat B r c) :
  mcmp_all cmp da db m m' t = true <->
  forall j i, j < c -> i < r -> cmp (mget_d da m j i) (mget_d da m' j i) (mget_d db t j i) = true.
Proof.
  unfold mcmp_all. rewrite for_range2_andb. split; [intros [_ H]; exact H|intros H; auto].
Qed.

Lemma mis_symmetric_spec {A} (d : A) (eqb : A -> A -> bool) n (m : mat A n n) :
  mis_symmetric d eqb m = true <->
  forall i j, j < i -> i < n -> eqb (mget_d d m i j) (mget_d d m j i) = true.
Proof. unfold mis_symmetric. rewrite for_range_tri_andb. split; [intros [_ H]|]; auto. Qed.

Lemma mis_diagonal_spec {A} (d : A) (eq0 : A -> bool) n (m : mat A n n) :
  mis_diagonal d eq0 m = true <->
  forall i j, i < n -> j < n -> i <> j -> eq0 (mget_d d m i j) = true.
Proof.
  unfold mis_diagonal. rewrite for_range_tri_andb. split.
  - intros [_ H] i j Hi Hj Hne. destruct (Nat.lt_ge_cases j i) as [L|L].
    + destruct (proj1 (andb_true_iff _ _) (H i j Hi L)) as [E _]. exact E.
    + destruct (proj1 (andb_true_iff _ _) (H j i Hj ltac:(lia))) as [_ E]. exact E.
  - intros H; split; auto. intros i j Hi Hj. apply andb_true_iff; split; apply H; lia.
Qed.

Section TryCast.
Context {A B : Type} (conv : A -> option B) (da : A) (db : B).

Lemma mtry_cast_inv r c (m : mat A r c) (k : nat) : k <= c ->
  match for_range_opt k (fun j data => for_range_opt r (fun i data =>
    match conv (mget_d da m j i) with
    | Some value => Some (mset_d db data j i value)
    | None => None
    end) data) (vfill c (vfill r db)) with
  | Some w => forall j i, j < k -> i < r -> conv (mget_d da m j i) = Some (mget_d db w j i)
  | None => exists j i, j < k /\ i < r /\ conv (mget_d da m j i) = None
  end.
Proof.
  assert (I : forall j0 (w0 : mat B r c), j0 < c -> forall k, k <= r ->
    match for_range_opt k (fun i data =>
      match conv (mget_d da m j0 i) with
      | Some value => Some (mset_d db data j0 i value)
      | None => None
      end) w0 with
    | Some w => (forall i, i < k -> conv (mget_d da m j0 i) = Some (mget_d db w j0 i)) /\
                (forall j i, j < c -> j <> j0 -> mget_d db w j i = mget_d db w0 j i)
    | None => exists i, i < k /\ conv (mget_d da m j0 i) = None
    end).
  { intros j0 w0 Hj0. induction k0 as [|k0 IH]; intros Hk0.
    - cbn. split; intros; [lia|reflexivity].
    - rewrite for_range_opt_S. specialize (IH ltac:(lia)).
      match type of IH with match ?x with _ => _ end => destruct x as [w|] end.
      + destruct IH as [IH1 IH2]. destruct (conv (mget_d da m j0 k0)) as [x|] eqn:E.
        * split.
          -- intros i Hi. rewrite mget_d_mset_d by lia. rewrite Nat.eqb_refl; cbn [andb].
             destruct (Nat.eqb_spec i k0) as [->|]; [exact E|]. apply IH1; lia.
          -- intros j i Hj Hne. rewrite mget_d_mset_d by lia.
             destruct (Nat.eqb_spec j j0); [contradiction|]. cbn [andb]. auto.
        * exists k0. split; [lia|exact E].
      + destruct IH as [i [Hi E]]. exists i; split; [lia|exact E]. }
  induction k as [|k IH]; intros Hk.
  - cbn. intros; lia.
  - rewrite for_range_opt_S. specialize (IH ltac:(lia)).
    match type of IH with match ?x with _ => _ end => destruct x as [w|] end.
    + specialize (I k w ltac:(lia) r (le_n r)).
      match type of I with match ?x with _ => _ end => destruct x as [w'|] end.
      * destruct I as [I1 I2]. intros j i Hj Hi.
        destruct (Nat.eq_dec j k) as [->|]; [apply I1; auto|].
        rewrite I2 by lia. apply IH; lia.
      * destruct I as [i [Hi E]]. exists k, i. auto.
    + destruct IH as [j [i [Hj [Hi E]]]]. exists j, i. auto.
Qed.

Lemma mtry_cast_spec r c (m : mat A r c) (w : mat B r c) :
  mtry_cast conv da db m = Some w <->
  forall j i, j < c -> i < r -> conv (mget_d da m j i) = Some (mget_d db w j i).
Proof.
  pose proof (mtry_cast_inv r c m c (le_n c)) as H. unfold mtry_cast.
  match type of H with match ?x with _ => _ end => destruct x as [w'|] end; split; intros E.
  - injection E as <-. exact H.
  - f_equal. apply (mat_d_ext db). intros j i Hj Hi.
    specialize (H j i Hj Hi). specialize (E j i Hj Hi). congruence.
  - discriminate.
  - destruct H as [j [i [Hj [Hi H]]]]. rewrite E in H by auto. discriminate.
Qed.

Lemma mtry_cast_none r c (m : mat A r c) :
  mtry_cast conv da db m = None <->
  exists j i, j < c /\ i < r /\ conv (mget_d da m j i) = None.
Proof.
  pose proof (mtry_cast_inv r c m c (le_n c)) as H. unfold mtry_cast.
  match type of H with match ?x with _ => _ end => destruct x as [w'|] end; split; intros E.
  - discriminate.
  - destruct E as [j [i [Hj [Hi E]]]]. rewrite H in E by auto. discriminate.
  - exact H.
  - reflexivity.
Qed.

End TryCast.

(** ** Entries of the results, no ring laws needed *)

Section Entries.
Context {K : Type} {NK : Num K}.
Local Open Scope num_scope.

Lemma mat_ext r c (a b : mat K r c) :
  (forall j i, (j < c)%nat -> (i < r)%nat -> mget a j i = mget b j i) -> a = b.
Proof. apply mat_d_ext. Qed.

Lemma mget_mset r c (m : mat K r c) j i j' i' x :
  (j < c)%nat -> (i < r)%nat -> (j' < c)%nat ->
  mget (mset m j i x) j' i' =
  if (Nat.eqb j' j && Nat.eqb i' i)%bool then x else mget m j' i'.
Proof. apply mget_d_mset_d. Qed.

Lemma mget_mloop r c f (m : mat K r c) j i :
  (j < c)%nat -> (i < r)%nat -> mget (mloop f m) j i = f j i (mget m j i).
Proof. apply mget_d_loop_cr. Qed.

Lemma vat_mcol r c (m : mat K r c) j i : vat (mcol m j) i = mget m j i.
Proof. reflexivity. Qed.

Lemma mget_mzero r c j i : mget (mzero r c) j i = (0 : K).
Proof.
  unfold mget, mget_d, mzero. revert j; induction c as [|c IH]; intros j; cbn.
  - apply vget_vfill_same.
  - destruct j; cbn; [apply vget_vfill_same|apply IH].
Qed.
Lemma mget_fill r c (a : K) j i :
  (j < c)%nat -> (i < r)%nat -> mget (mfrom_fill r c a) j i = a.
Proof. apply mget_d_fill. Qed.

Lemma mget_madd r c (a b : mat K r c) j i :
  (j < c)%nat -> (i < r)%nat -> mget (madd a b) j i = mget a j i + mget b j i.
Proof. intros; unfold madd; rewrite mget_mloop; auto. Qed.
Lemma mget_msub r c (a b : mat K r c) j i :
  (j < c)%nat -> (i < r)%nat -> mget (msub a b) j i = mget a j i - mget b j i.
Proof. intros; unfold msub; rewrite mget_mloop; auto. Qed.
Lemma mget_mneg r c (a : mat K r c) j i :
  (j < c)%nat -> (i < r)%nat -> mget (mneg a) j i = - mget a j i.
Proof. intros; unfold mneg; rewrite mget_mloop; auto. Qed.
Lemma mget_mmul_s r c (a : mat K r c) s j i :
  (j < c)%nat -> (i < r)%nat -> mget (mmul_s a s) j i = mget a j i * s.
Proof. intros; unfold mmul_s; rewrite mget_mloop; auto. Qed.
Lemma mget_s_mul_m r c (a : mat K r c) s j i :
  (j < c)%nat -> (i < r)%nat -> mget (s_mul_m s a) j i = s * mget a j i.
Proof. intros; unfold s_mul_m; rewrite mget_mloop; auto. Qed.
Lemma mget_mcmul r c (a b : mat K r c) j i :
  (j < c)%nat -> (i < r)%nat -> mget (mcmul a b) j i = mget a j i * mget b j i.
Proof. intros; unfold mcmul; rewrite mget_mloop; auto. Qed.
Lemma mget_mcmul_assign r c (a b : mat K r c) j i :
  (j < c)%nat -> (i < r)%nat -> mget (mcmul_assign a b) j i = mget a j i * mget b j i.
Proof. intros; unfold mcmul_assign; rewrite mget_mloop; auto. Qed.
Lemma mget_mneg_mut r c (a : mat K r c) j i :
  (j < c)%nat -> (i < r)%nat -> mget (mneg_mut a) j i = - mget a j i.
Proof. intros; unfold mneg_mut; rewrite mget_mloop; auto. Qed.
Lemma mget_madd_assign r c (a b : mat K r c) j i :
  (j < c)%nat -> (i < r)%nat -> mget (madd_assign a b) j i = mget a j i + mget b j i.
Proof. intros; unfold madd_assign; rewrite mget_mloop; auto. Qed.
Lemma mget_msub_assign r c (a b : mat K r c) j i :
  (j < c)%nat -> (i < r)%nat -> mget (msub_assign a b) j i = mget a j i - mget b j i.
Proof. intros; unfold msub_assign; rewrite mget_mloop; auto. Qed.
Lemma mget_mmul_assign r c (a : mat K r c) s j i :
  (j < c)%nat -> (i < r)%nat -> mget (mmul_assign a s) j i = mget a j i * s.
Proof. intros; unfold mmul_assign; rewrite mget_mloop; auto. Qed.
Lemma mget_mlerp r c (a b : mat K r c) t j i :
  (j < c)%nat -> (i < r)%nat ->
  mget (mlerp a b t) j i = mget a j i + (mget b j i - mget a j i) * t.
Proof. intros; unfold mlerp; rewrite mget_madd, mget_mmul_s, mget_msub; auto. Qed.

Lemma mget_mtranspose r c (m : mat K r c) j i :
  (j < r)%nat -> (i < c)%nat -> mget (mtranspose m) j i = mget m i j.
Proof.
  intros Hj Hi. unfold mtranspose, mset, mget at 1.
  rewrite (mget_d_block_rc 0 c r c r (fun j i => mget m i j)) by lia.
  destruct (Nat.ltb_spec j r), (Nat.ltb_spec i c); try lia; reflexivity.
Qed.

Lemma dot_array_col_sum r c (m : mat K r c) v i :
  dot_array_col m v i = sum c (fun k => mget m k i * vat v k).
Proof. apply (for_range_sum c (fun k => mget m k i * vat v k)). Qed.

Lemma vat_mmulv r c (m : mat K r c) v i :
  (i < r)%nat -> vat (mmulv m v) i = sum c (fun k => mget m k i * vat v k).
Proof.
  intros Hi. unfold mmulv, vat at 1. rewrite vget_loop_fill by auto. apply dot_array_col_sum.
Qed.

Lemma mget_mmul r1 c1 c2 (a : mat K r1 c1) (b : mat K c1 c2) j i :
  (j < c2)%nat -> (i < r1)%nat ->
  mget (mmul a b) j i = sum c1 (fun k => mget a k i * mget b j k).
Proof.
  intros Hj Hi. unfold mmul, mset, mget at 1.
  rewrite (mget_d_block_cr 0 r1 c2 r1 c2 (fun j i => dot_array_col a (mcol b j) i)) by lia.
  destruct (Nat.ltb_spec j c2), (Nat.ltb_spec i r1); try lia.
  apply dot_array_col_sum.
Qed.

Lemma mget_mtr_mul r c1 c2 (a : mat K r c1) (b : mat K r c2) j i :
  (j < c2)%nat -> (i < c1)%nat ->
  mget (mtr_mul a b) j i = sum r (fun k => mget a i k * mget b j k).
Proof.
  intros Hj Hi. unfold mtr_mul, mset, mget at 1.
  rewrite (mget_d_block_rc 0 c1 c2 c1 c2
    (fun j i => for_range r (fun k s => s + mget a i k * mget b j k) 0)) by lia.
  destruct (Nat.ltb_spec j c2), (Nat.ltb_spec i c1); try lia.
  apply (for_range_sum r (fun k => mget a i k * mget b j k)).
Qed.

Lemma mget_midentity n j i :
  (j < n)%nat -> (i < n)%nat -> mget (midentity n) j i = (delta j i : K).
Proof.
  intros Hj Hi. unfold midentity, mset, mget.
  rewrite (mget_d_diag_loop 0 n n (fun _ => 1)) by lia.
  unfold delta. destruct (Nat.eqb_spec j i), (Nat.ltb_spec j n); cbn [andb]; try lia; auto.
  apply mget_mzero.
Qed.

Lemma mget_mfrom_diagonal n (d : vec K n) j i :
  (j < n)%nat -> (i < n)%nat ->
  mget (mfrom_diagonal d) j i = if Nat.eqb j i then vat d j else 0.
Proof.
  intros Hj Hi. unfold mfrom_diagonal, mset, mget.
  rewrite (mget_d_diag_loop 0 n n (fun i => vat d i)) by lia.
  destruct (Nat.eqb_spec j i), (Nat.ltb_spec j n); cbn [andb]; try lia; auto.
  apply mget_mzero.
Qed.

Lemma mget_mfrom_diagonal_value n (a : K) j i :
  (j < n)%nat -> (i < n)%nat ->
  mget (mfrom_diagonal_value n a) j i = if Nat.eqb j i then a else 0.
Proof.
  intros Hj Hi. unfold mfrom_diagonal_value, mset, mget.
  rewrite (mget_d_diag_loop 0 n n (fun i => a)) by lia.
  destruct (Nat.eqb_spec j i), (Nat.ltb_spec j n); cbn [andb]; try lia; auto.
  apply mget_mzero.
Qed.

Lemma mget_mfrom_scale n (s : K) j i :
  (j < n)%nat -> (i < n)%nat -> mget (mfrom_scale n s) j i = if Nat.eqb j i then s else 0.
Proof.
  intros Hj Hi. unfold mfrom_scale, mset, mget.
  rewrite (mget_d_diag_loop 0 n n (fun i => s)) by lia.
  destruct (Nat.eqb_spec j i) as [|Hne], (Nat.ltb_spec j n); cbn [andb]; try lia; auto.
  change (mget (midentity n) j i = 0). rewrite mget_midentity by auto. unfold delta.
  destruct (Nat.eqb_spec j i); [contradiction|reflexivity].
Qed.

Lemma mget_mfrom_nonuniform_scale n (s : vec K n) j i :
  (j < n)%nat -> (i < n)%nat ->
  mget (mfrom_nonuniform_scale s) j i = if Nat.eqb j i then vat s j else 0.
Proof.
  intros Hj Hi. unfold mfrom_nonuniform_scale, mset, mget.
  rewrite (mget_d_diag_loop 0 n n (fun i => vat s i)) by lia.
  destruct (Nat.eqb_spec j i) as [|Hne], (Nat.ltb_spec j n); cbn [andb]; try lia; auto.
  change (mget (midentity n) j i = 0). rewrite mget_midentity by auto. unfold delta.
  destruct (Nat.eqb_spec j i); [contradiction|reflexivity].
Qed.

Lemma mget_mfrom_affine_scale n (s : K) j i :
  (j < S n)%nat -> (i < S n)%nat ->
  mget (mfrom_affine_scale n s) j i =
  if Nat.eqb j i then (if Nat.ltb j n then s else 1) else 0.
Proof.
  intros Hj Hi. unfold mfrom_affine_scale, mset, mget.
  rewrite (mget_d_diag_loop 0 (S n) (S n - 1) (fun i => s)) by lia.
  replace (S n - 1)%nat with n by lia.
  destruct (Nat.eqb_spec j i) as [|Hne], (Nat.ltb_spec j n); cbn [andb]; try lia; auto;
  change (mget_d 0 (midentity (S n)) j i) with (mget (midentity (S n)) j i);
  rewrite mget_midentity by auto; unfold delta;
  destruct (Nat.eqb_spec j i); try contradiction; reflexivity.
Qed.

Lemma mget_mfrom_affine_nonuniform_scale n (s : vec K n) j i :
  (j < S n)%nat -> (i < S n)%nat ->
  mget (mfrom_affine_nonuniform_scale s) j i =
  if Nat.eqb j i then (if Nat.ltb j n then vat s j else 1) else 0.
Proof.
  intros Hj Hi. unfold mfrom_affine_nonuniform_scale, mset, mget.
  rewrite (mget_d_diag_loop 0 (S n) (S n - 1) (fun i => vat s i)) by lia.
  replace (S n - 1)%nat with n by lia.
  destruct (Nat.eqb_spec j i) as [|Hne], (Nat.ltb_spec j n); cbn [andb]; try lia; auto;
  change (mget_d 0 (midentity (S n)) j i) with (mget (midentity (S n)) j i);
  rewrite mget_midentity by auto; unfold delta;
  destruct (Nat.eqb_spec j i); try contradiction; reflexivity.
Qed.

Lemma mget_mfrom_affine_translation n (t : vec K n) j i :
  (j < S n)%nat -> (i < S n)%nat ->
  mget (mfrom_affine_translation t) j i =
  if (Nat.eqb j n && Nat.ltb i n)%bool then vat t i else delta j i.
Proof.
  intros Hj Hi. unfold mfrom_affine_translation.
  replace (S n - 1)%nat with n by lia.
  assert (G : forall k, (k <= n)%nat ->
    mget (for_range k (fun i acc => mset acc n i (vat t i)) (midentity (S n))) j i =
    if (Nat.eqb j n && Nat.ltb i k)%bool then vat t i else delta j i).
  { induction k as [|k IH]; intros Hk.
    - rewrite andb_comm. apply mget_midentity; auto.
    - rewrite for_range_S, mget_mset, IH by lia.
      destruct (Nat.eqb_spec j n), (Nat.eqb_spec i k), (Nat.ltb_spec i k),
        (Nat.ltb_spec i (S k)); cbn [andb]; subst; try lia; reflexivity. }
  apply G; lia.
Qed.

Lemma mget_membed k n (m : mat K k k) j i :
  (k <= n)%nat -> (j < n)%nat -> (i < n)%nat ->
  mget (membed (n := n) m) j i =
  if (Nat.ltb j k && Nat.ltb i k)%bool then mget m j i else delta j i.
Proof.
  intros Hk Hj Hi. unfold membed, mset, mget at 1.
  rewrite (mget_d_block_cr 0 n n k k (fun j i => mget m j i)) by lia.
  destruct (Nat.ltb_spec j k), (Nat.ltb_spec i k); cbn [andb]; try lia; auto;
    apply mget_midentity; auto.
Qed.

(** Sum of a nested accumulation loop needs associativity, see [mdot_sum]. *)
Lemma mtrace_sum n (m : mat K n n) : mtrace m = sum n (fun i => mget m i i).
Proof. apply (for_range_sum n (fun i => mget m i i)). Qed.

Context {DK : NumDiv K}.
Lemma mget_mdiv_s r c (a : mat K r c) s j i :
  (j < c)%nat -> (i < r)%nat -> mget (mdiv_s a s) j i = mget a j i / s.
Proof. intros; unfold mdiv_s; rewrite mget_mloop; auto. Qed.
Lemma mget_mdiv_assign r c (a : mat K r c) s j i :
  (j < c)%nat -> (i < r)%nat -> mget (mdiv_assign a s) j i = mget a j i / s.
Proof. intros; unfold mdiv_assign; rewrite mget_mloop; auto. Qed.

End Entries.

#[global] Hint Rewrite @mget_mzero @vat_mcol : mat.
#[global] Hint Rewrite @mget_fill @mget_madd @mget_msub @mget_mneg @mget_mmul_s @mget_s_mul_m
  @mget_mcmul @mget_mcmul_assign @mget_mneg_mut @mget_madd_assign @mget_msub_assign
  @mget_mmul_assign @mget_mlerp @mget_mtranspose @vat_mmulv @mget_mmul @mget_mtr_mul
  @mget_midentity @mget_mfrom_diagonal @mget_mfrom_diagonal_value @mget_mfrom_scale
  @mget_mfrom_nonuniform_scale @mget_mfrom_affine_scale @mget_mfrom_affine_nonuniform_scale
  @mget_mfrom_affine_translation @mget_membed @mget_mdiv_s @mget_mdiv_assign
  using (assumption || lia) : mat.

Ltac mext := apply mat_ext; intros ?j ?i ?Hj ?Hi; autorewrite with mat.
Ltac mvext := apply vat_ext; intros ?i ?Hi; autorewrite with mat vat.

(** ** Laws without ring axioms *)

Section NoLaws.
Context {K : Type} {NK : Num K}.
Local Open Scope num_scope.

Lemma madd_assign_eq r c (a b : mat K r c) : madd_assign a b = madd a b.
Proof. mext; auto. Qed.
Lemma msub_assign_eq r c (a b : mat K r c) : msub_assign a b = msub a b.
Proof. mext; auto. Qed.
Lemma mmul_assign_eq r c (a : mat K r c) s : mmul_assign a s = mmul_s a s.
Proof. mext; auto. Qed.
Lemma mdiv_assign_eq {DK : NumDiv K} r c (a : mat K r c) s : mdiv_assign a s = mdiv_s a s.
Proof. mext; auto. Qed.
Lemma mcmul_assign_eq r c (a b : mat K r c) : mcmul_assign a b = mcmul a b.
Proof. mext; auto. Qed.
Lemma mneg_mut_eq r c (a : mat K r c) : mneg_mut a = mneg a.
Proof. mext; auto. Qed.

Lemma mtranspose_invol r c (m : mat K r c) : mtranspose (mtranspose m) = m.
Proof. mext; auto. Qed.
Lemma mtranspose_add r c (a b : mat K r c) :
  mtranspose (madd a b) = madd (mtranspose a) (mtranspose b).
Proof. mext; auto. Qed.
Lemma mtranspose_sub r c (a b : mat K r c) :
  mtranspose (msub a b) = msub (mtranspose a) (mtranspose b).
Proof. mext; auto. Qed.
Lemma mtranspose_neg r c (a : mat K r c) : mtranspose (mneg a) = mneg (mtranspose a).
Proof. mext; auto. Qed.
Lemma mtranspose_mul_s r c (a : mat K r c) s :
  mtranspose (mmul_s a s) = mmul_s (mtranspose a) s.
Proof. mext; auto. Qed.
Lemma mtranspose_identity n : mtranspose (midentity n) = (midentity n : mat K n n).
Proof. mext. unfold delta. rewrite Nat.eqb_sym. reflexivity. Qed.
Lemma mtranspose_mut_eq n (m : mat K n n) : mtranspose_mut 0 m = Some (mtranspose m).
Proof.
  destruct (mtranspose_mut_some 0 n m) as [m' [E H]]. rewrite E. f_equal.
  mext. apply H; auto.
Qed.
Lemma mfrom_rows_transpose r c (rows : vec (vec K c) r) :
  mfrom_rows 0 rows = mtranspose (mfrom_columns rows).
Proof. mext. unfold mget. rewrite mget_d_from_rows by auto. reflexivity. Qed.

Lemma mtr_mul_eq r c1 c2 (a : mat K r c1) (b : mat K r c2) :
  mtr_mul a b = mmul (mtranspose a) b.
Proof. mext. apply sum_ext. intros k Hk. autorewrite with mat. reflexivity. Qed.

Lemma mmul_col r1 c1 c2 (a : mat K r1 c1) (b : mat K c1 c2) k :
  (k < c2)%nat -> mcol (mmul a b) k = mmulv a (mcol b k).
Proof. intros. mvext. apply sum_ext. intros; rewrite vat_mcol; reflexivity. Qed.

Lemma mmulv_mmul r c (m : mat K r c) (v : vec K c) :
  mmul m (v1 v : mat K c 1) = (v1 (mmulv m v) : mat K r 1).
Proof.
  mext. destruct j; [|lia].
  change (mget (v1 (mmulv m v) : mat K r 1) 0 i) with (vat (mmulv m v) i).
  rewrite vat_mmulv by auto. reflexivity.
Qed.

Lemma s_mul_m_comm_gen r c (a : mat K r c) s :
  (forall x y : K, x * y = y * x) -> s_mul_m s a = mmul_s a s.
Proof. intros H. mext; auto. Qed.

Lemma madd_comm_gen r c (a b : mat K r c) :
  (forall x y : K, x + y = y + x) -> madd a b = madd b a.
Proof. intros H. mext; auto. Qed.

Lemma mcmul_comm_gen r c (a b : mat K r c) :
  (forall x y : K, x * y = y * x) -> mcmul a b = mcmul b a.
Proof. intros H. mext; auto. Qed.

Lemma mtranspose_mul_gen r c1 c2 (a : mat K r c1) (b : mat K c1 c2) :
  (forall x y : K, x * y = y * x) ->
  mtranspose (mmul a b) = mmul (mtranspose b) (mtranspose a).
Proof.
  intros H. mext. apply sum_ext. intros k Hk. autorewrite with mat. apply H.
Qed.

Lemma mdiagonal_small n (m : mat K n n) :
  (n <= 4)%nat ->
  exists v, mdiagonal m = Some v /\
  forall i, (i < 4)%nat -> vat v i = if Nat.ltb i n then mget m i i else 0.
Proof.
  intros Hn. unfold mdiagonal.
  assert (G : forall k, (k <= n)%nat -> exists v,
    for_range_opt k (fun i res => vassign res i (mget m i i)) (vzero 4) = Some v /\
    forall i, (i < 4)%nat -> vat v i = if Nat.ltb i k then mget m i i else 0).
  { induction k as [|k IH]; intros Hk.
    - exists (vzero 4); split; [reflexivity|]. intros i Hi. apply vat_vzero.
    - destruct (IH ltac:(lia)) as [v [E H]]. rewrite for_range_opt_S, E. unfold vassign.
      destruct (Nat.ltb_spec k 4); [|lia]. eexists; split; [reflexivity|].
      intros i Hi. unfold vat in *. rewrite vget_vset by lia. rewrite H by auto.
      destruct (Nat.eqb_spec i k), (Nat.ltb_spec i k), (Nat.ltb_spec i (S k)); subst; try lia;
        reflexivity. }
  apply G; lia.
Qed.

Lemma mdiagonal_large n (m : mat K n n) : (4 < n)%nat -> mdiagonal m = None.
Proof.
  intros Hn. unfold mdiagonal.
  assert (G : forall k, (4 < k)%nat ->
    for_range_opt k (fun i res => vassign res i (mget m i i)) (vzero 4) = None).
  { induction k as [|k IH]; intros Hk; [lia|].
    rewrite for_range_opt_S. destruct (Nat.eq_dec k 4) as [->|].
    - destruct (for_range_opt 4 _ _); reflexivity.
    - rewrite IH by lia. reflexivity. }
  apply G; auto.
Qed.

End NoLaws.

(** ** Ring laws *)

Section Laws.
Context {K : Type} {NK : Num K} {LK : RingLaws K}.
Local Open Scope num_scope.
Add Ring Kring : (@ring_laws K NK LK).

Lemma madd_comm r c (a b : mat K r c) : madd a b = madd b a.
Proof. mext; ring. Qed.
Lemma madd_assoc r c (a b d : mat K r c) : madd a (madd b d) = madd (madd a b) d.
Proof. mext; ring. Qed.
Lemma madd_0_l r c (a : mat K r c) : madd (mzero r c) a = a.
Proof. mext; ring. Qed.
Lemma madd_0_r r c (a : mat K r c) : madd a (mzero r c) = a.
Proof. mext; ring. Qed.
Lemma madd_neg_r r c (a : mat K r c) : madd a (mneg a) = mzero r c.
Proof. mext; ring. Qed.
Lemma msub_def r c (a b : mat K r c) : msub a b = madd a (mneg b).
Proof. mext; ring. Qed.
Lemma mmul_s_add r c (a b : mat K r c) s : mmul_s (madd a b) s = madd (mmul_s a s) (mmul_s b s).
Proof. mext; ring. Qed.
Lemma mmul_s_add_s r c (a : mat K r c) s t : mmul_s a (s + t) = madd (mmul_s a s) (mmul_s a t).
Proof. mext; ring. Qed.
Lemma mmul_s_assoc r c (a : mat K r c) s t : mmul_s (mmul_s a s) t = mmul_s a (s * t).
Proof. mext; ring. Qed.
Lemma mmul_s_1 r c (a : mat K r c) : mmul_s a 1 = a.
Proof. mext; ring. Qed.
Lemma s_mul_m_eq r c (a : mat K r c) s : s_mul_m s a = mmul_s a s.
Proof. mext; ring. Qed.

Lemma mmul_assoc r c1 c2 c3 (a : mat K r c1) (b : mat K c1 c2) (d : mat K c2 c3) :
  mmul (mmul a b) d = mmul a (mmul b d).
Proof.
  mext.
  transitivity (sum c2 (fun k => sum c1 (fun l => mget a l i * mget b k l * mget d j k))).
  { apply sum_ext. intros k Hk. rewrite mget_mmul by auto. rewrite <- sum_mul_r. reflexivity. }
  rewrite sum_swap. apply sum_ext. intros l Hl. rewrite mget_mmul by auto.
  rewrite <- sum_mul_l. apply sum_ext. intros; ring.
Qed.

Lemma mmulv_mmulv r c1 c2 (a : mat K r c1) (b : mat K c1 c2) (v : vec K c2) :
  mmulv (mmul a b) v = mmulv a (mmulv b v).
Proof.
  mvext.
  transitivity (sum c2 (fun k => sum c1 (fun l => mget a l i * mget b k l * vat v k))).
  { apply sum_ext. intros k Hk. rewrite mget_mmul by auto. rewrite <- sum_mul_r. reflexivity. }
  rewrite sum_swap. apply sum_ext. intros l Hl. rewrite vat_mmulv by auto.
  rewrite <- sum_mul_l. apply sum_ext. intros; ring.
Qed.

Lemma mmul_add_l r c1 c2 (a b : mat K r c1) (d : mat K c1 c2) :
  mmul (madd a b) d = madd (mmul a d) (mmul b d).
Proof.
  mext. rewrite <- sum_add. apply sum_ext. intros k Hk. rewrite mget_madd by auto. ring.
Qed.
Lemma mmul_add_r r c1 c2 (a : mat K r c1) (b d : mat K c1 c2) :
  mmul a (madd b d) = madd (mmul a b) (mmul a d).
Proof.
  mext. rewrite <- sum_add. apply sum_ext. intros k Hk. rewrite mget_madd by auto. ring.
Qed.
Lemma mmul_1_l r c (a : mat K r c) : mmul (midentity r) a = a.
Proof.
  mext. rewrite (sum_ext _ _ (fun k => delta i k * mget a j k)).
  - apply sum_delta_l; auto.
  - intros k Hk. rewrite mget_midentity by auto. unfold delta. rewrite Nat.eqb_sym. reflexivity.
Qed.
Lemma mmul_1_r r c (a : mat K r c) : mmul a (midentity c) = a.
Proof.
  mext. rewrite (sum_ext _ _ (fun k => mget a k i * delta k j)).
  - exact (sum_delta_r c j (fun k => mget a k i) Hj).
  - intros k Hk. rewrite mget_midentity by auto. unfold delta. rewrite Nat.eqb_sym. reflexivity.
Qed.
Lemma mmulv_1 n (v : vec K n) : mmulv (midentity n) v = v.
Proof.
  mvext. rewrite (sum_ext _ _ (fun k => delta i k * vat v k)).
  - apply sum_delta_l; auto.
  - intros k Hk. rewrite mget_midentity by auto. unfold delta. rewrite Nat.eqb_sym. reflexivity.
Qed.
Lemma mmul_mul_s_l r c1 c2 (a : mat K r c1) (b : mat K c1 c2) s :
  mmul (mmul_s a s) b = mmul_s (mmul a b) s.
Proof.
  mext. rewrite <- sum_mul_r. apply sum_ext. intros k Hk. rewrite mget_mmul_s by auto. ring.
Qed.
Lemma mmul_mul_s_r r c1 c2 (a : mat K r c1) (b : mat K c1 c2) s :
  mmul a (mmul_s b s) = mmul_s (mmul a b) s.
Proof.
  mext. rewrite <- sum_mul_r. apply sum_ext. intros k Hk. rewrite mget_mmul_s by auto. ring.
Qed.
Lemma mmul_0_l r c1 c2 (b : mat K c1 c2) : mmul (mzero r c1) b = mzero r c2.
Proof. mext. apply sum_zero_ext. intros. rewrite mget_mzero. ring. Qed.
Lemma mmul_0_r r c1 c2 (a : mat K r c1) : mmul a (mzero c1 c2) = mzero r c2.
Proof. mext. apply sum_zero_ext. intros. rewrite mget_mzero. ring. Qed.

Lemma mmulv_add r c (m : mat K r c) (u v : vec K c) :
  mmulv m (vadd u v) = vadd (mmulv m u) (mmulv m v).
Proof.
  mvext. rewrite <- sum_add. apply sum_ext. intros k Hk. rewrite vat_vadd by auto. ring.
Qed.
Lemma mmulv_sub r c (m : mat K r c) (u v : vec K c) :
  mmulv m (vsub u v) = vsub (mmulv m u) (mmulv m v).
Proof.
  mvext. rewrite <- sum_sub. apply sum_ext. intros k Hk. rewrite vat_vsub by auto. ring.
Qed.
Lemma mmulv_neg r c (m : mat K r c) (u : vec K c) :
  mmulv m (vneg u) = vneg (mmulv m u).
Proof.
  mvext. rewrite <- sum_neg. apply sum_ext. intros k Hk. rewrite vat_vneg by auto. ring.
Qed.
Lemma mmulv_mul_s r c (m : mat K r c) (u : vec K c) a :
  mmulv m (vmul_s u a) = vmul_s (mmulv m u) a.
Proof.
  mvext. rewrite <- sum_mul_r. apply sum_ext. intros k Hk. rewrite vat_vmul_s by auto. ring.
Qed.
Lemma mmulv_0 r c (m : mat K r c) : mmulv m (vzero c) = vzero r.
Proof. mvext. apply sum_zero_ext. intros. rewrite vat_vzero. ring. Qed.

Lemma mtranspose_mul r c1 c2 (a : mat K r c1) (b : mat K c1 c2) :
  mtranspose (mmul a b) = mmul (mtranspose b) (mtranspose a).
Proof. apply mtranspose_mul_gen. intros; ring. Qed.

Lemma nested_sum r c (f : nat -> nat -> K) s :
  for_range r (fun i acc => for_range c (fun j acc => acc + f i j) acc) s =
  s + sum r (fun i => sum c (fun j => f i j)).
Proof.
  assert (I : forall k i s, for_range k (fun j acc => acc + f i j) s =
                            s + sum k (fun j => f i j)).
  { induction k as [|k IH]; intros i s0; cbn [sum].
    - rewrite for_range_0. ring.
    - rewrite for_range_S, IH. ring. }
  induction r as [|r IH]; cbn [sum].
  - rewrite for_range_0. ring.
  - rewrite for_range_S, IH, I. ring.
Qed.

Lemma mdot_sum r c (a b : mat K r c) :
  mdot a b = sum r (fun i => sum c (fun j => mget a j i * mget b j i)).
Proof.
  unfold mdot. rewrite (nested_sum r c (fun i j => mget a j i * mget b j i)). ring.
Qed.

Lemma mtr_dot_sum r1 c1 (a : mat K r1 c1) (b : mat K c1 r1) :
  mtr_dot a b = sum r1 (fun c => sum c1 (fun r => mget a r c * mget b c r)).
Proof.
  unfold mtr_dot. rewrite (nested_sum r1 c1 (fun c r => mget a r c * mget b c r)). ring.
Qed.

Lemma mtr_dot_eq r1 c1 (a : mat K r1 c1) (b : mat K c1 r1) :
  mtr_dot a b = mdot (mtranspose a) b.
Proof.
  rewrite mtr_dot_sum, mdot_sum, sum_swap.
  apply sum_ext. intros i Hi. apply sum_ext. intros j Hj. autorewrite with mat. reflexivity.
Qed.

Lemma mdot_comm r c (a b : mat K r c) : mdot a b = mdot b a.
Proof. rewrite !mdot_sum. apply sum_ext; intros. apply sum_ext; intros. ring. Qed.

Lemma mdot_trace r c (a b : mat K r c) : mdot a b = mtrace (mmul (mtranspose a) b).
Proof.
  rewrite mdot_sum, mtrace_sum, sum_swap. apply sum_ext. intros j Hj.
  rewrite mget_mmul by auto. apply sum_ext. intros i Hi. autorewrite with mat. reflexivity.
Qed.

Lemma mtrace_add n (a b : mat K n n) : mtrace (madd a b) = mtrace a + mtrace b.
Proof.
  rewrite !mtrace_sum, <- sum_add. apply sum_ext. intros; autorewrite with mat; ring.
Qed.
Lemma mtrace_mul_s n (a : mat K n n) s : mtrace (mmul_s a s) = mtrace a * s.
Proof.
  rewrite !mtrace_sum, <- sum_mul_r. apply sum_ext. intros; autorewrite with mat; ring.
Qed.
Lemma mtrace_transpose n (a : mat K n n) : mtrace (mtranspose a) = mtrace a.
Proof. rewrite !mtrace_sum. apply sum_ext. intros; autorewrite with mat; ring. Qed.
Lemma mtrace_mmul r c (a : mat K r c) (b : mat K c r) :
  mtrace (mmul a b) = mtrace (mmul b a).
Proof.
  rewrite !mtrace_sum.
  rewrite (sum_ext r _ (fun i => sum c (fun k => mget a k i * mget b i k))).
  2: intros; autorewrite with mat; reflexivity.
  rewrite sum_swap. apply sum_ext. intros k Hk. autorewrite with mat.
  apply sum_ext. intros; ring.
Qed.
Lemma mtrace_identity n : mtrace (midentity n) = sum n (fun _ => 1 : K).
Proof.
  rewrite mtrace_sum. apply sum_ext. intros. autorewrite with mat.
  unfold delta. rewrite Nat.eqb_refl. reflexivity.
Qed.

Lemma mlerp_0 r c (a b : mat K r c) : mlerp a b 0 = a.
Proof. mext; ring. Qed.
Lemma mlerp_1 r c (a b : mat K r c) : mlerp a b 1 = b.
Proof. mext; ring. Qed.
Lemma mlerp_same r c (a : mat K r c) t : mlerp a a t = a.
Proof. mext; ring. Qed.
Lemma mlerp_affine r c (a b : mat K r c) t :
  mlerp a b t = madd (mmul_s a (1 - t)) (mmul_s b t).
Proof. mext; ring. Qed.

(** Matrix-vector product and dot product: the transpose is the adjoint. *)
Lemma vdot_mmulv r c (m : mat K r c) (u : vec K c) (v : vec K r) :
  vdot (mmulv m u) v = vdot u (mmulv (mtranspose m) v).
Proof.
  rewrite !vdot_sum.
  rewrite (sum_ext r _ (fun i => sum c (fun k => mget m k i * vat u k * vat v i))).
  2: intros; rewrite vat_mmulv by auto; rewrite <- sum_mul_r; reflexivity.
  rewrite sum_swap. apply sum_ext. intros k Hk. rewrite vat_mmulv by auto.
  rewrite <- sum_mul_l. apply sum_ext. intros. rewrite mget_mtranspose by auto. ring.
Qed.

(** A linear map is determined by its action. *)
Lemma vat_mmulv_unit r c (m : mat K r c) j i :
  (j < c)%nat -> (i < r)%nat ->
  vat (mmulv m (mcol (midentity c) j)) i = mget m j i.
Proof.
  intros Hj Hi. rewrite vat_mmulv by auto.
  rewrite (sum_ext _ _ (fun k => mget m k i * delta k j)).
  - exact (sum_delta_r c j (fun k => mget m k i) Hj).
  - intros k Hk. rewrite vat_mcol, mget_midentity by auto. unfold delta.
    rewrite Nat.eqb_sym. reflexivity.
Qed.

Lemma mmulv_ext r c (a b : mat K r c) : (forall v, mmulv a v = mmulv b v) -> a = b.
Proof.
  intros H. mext. rewrite <- !vat_mmulv_unit by auto. rewrite H. reflexivity.
Qed.

(** Scale matrices. *)
Lemma mfrom_nonuniform_scale_act n (s v : vec K n) :
  mmulv (mfrom_nonuniform_scale s) v = vcmul s v.
Proof.
  mvext. rewrite (sum_single n i) by
    (auto; intros k Hk Hne; autorewrite with mat;
     destruct (Nat.eqb_spec k i); try contradiction; ring).
  autorewrite with mat. rewrite Nat.eqb_refl. reflexivity.
Qed.
Lemma mfrom_scale_nonuniform n (s : K) :
  mfrom_scale n s = mfrom_nonuniform_scale (vfrom_fill n s).
Proof.
  mext. destruct (Nat.eqb_spec j i); [|reflexivity]. rewrite vat_fill by auto. reflexivity.
Qed.
Lemma mfrom_scale_act n (s : K) (v : vec K n) : mmulv (mfrom_scale n s) v = vmul_s v s.
Proof.
  rewrite mfrom_scale_nonuniform, mfrom_nonuniform_scale_act.
  vext. ring.
Qed.
Lemma mfrom_nonuniform_scale_mul n (s t : vec K n) :
  mmul (mfrom_nonuniform_scale s) (mfrom_nonuniform_scale t) =
  mfrom_nonuniform_scale (vcmul s t).
Proof.
  apply mmulv_ext. intros v. rewrite mmulv_mmulv, !mfrom_nonuniform_scale_act.
  apply vcmul_assoc.
Qed.
Lemma mfrom_affine_nonuniform_scale_act n (s v : vec K n) w :
  mmulv (mfrom_affine_nonuniform_scale s) (vextend v w) = vextend (vcmul s v) w.
Proof.
  mvext. rewrite (sum_single (S n) i) by
    (auto; intros k Hk Hne; autorewrite with mat;
     destruct (Nat.eqb_spec k i); try contradiction; ring).
  autorewrite with mat vat. rewrite Nat.eqb_refl.
  destruct (Nat.ltb_spec i n).
  - rewrite !extend_init by auto. rewrite vat_vcmul by auto. ring.
  - assert (i = n) by lia. subst. rewrite !extend_last. ring.
Qed.
Lemma mfrom_affine_scale_nonuniform n (s : K) :
  mfrom_affine_scale n s = mfrom_affine_nonuniform_scale (vfrom_fill n s).
Proof.
  mext. destruct (Nat.eqb_spec j i); [|reflexivity].
  destruct (Nat.ltb_spec j n); [|reflexivity]. rewrite vat_fill by auto. reflexivity.
Qed.
Lemma mfrom_affine_scale_act n (s : K) (v : vec K n) w :
  mmulv (mfrom_affine_scale n s) (vextend v w) = vextend (vmul_s v s) w.
Proof.
  rewrite mfrom_affine_scale_nonuniform, mfrom_affine_nonuniform_scale_act. f_equal.
  vext. ring.
Qed.
Lemma mfrom_affine_translation_act n (t v : vec K n) w :
  mmulv (mfrom_affine_translation t) (vextend v w) = vextend (vadd v (vmul_s t w)) w.
Proof.
  mvext. cbn [sum]. rewrite mget_mfrom_affine_translation by lia. rewrite Nat.eqb_refl.
  rewrite extend_last.
  rewrite (sum_ext n _ (fun k => delta i k * vat v k)).
  2:{ intros k Hk. rewrite mget_mfrom_affine_translation by lia. rewrite extend_init by auto.
      destruct (Nat.eqb_spec k n); [lia|]. cbn [andb]. unfold delta. rewrite Nat.eqb_sym.
      reflexivity. }
  destruct (Nat.ltb_spec i n) as [L|L]; cbn [andb].
  - rewrite sum_delta_l by auto. rewrite extend_init by auto.
    rewrite vat_vadd, vat_vmul_s by auto. reflexivity.
  - assert (i = n) by lia. subst i. rewrite extend_last.
    rewrite sum_zero_ext.
    + unfold delta. rewrite Nat.eqb_refl. ring.
    + intros k Hk. unfold delta. destruct (Nat.eqb_spec n k); [lia|ring].
Qed.

(** Every homogeneous vector is an extension. *)
Lemma mmulv_ext_h r n (a b : mat K r (S n)) :
  (forall v w, mmulv a (vextend v w) = mmulv b (vextend v w)) -> a = b.
Proof.
  intros H. apply mmulv_ext. intros v. rewrite <- (extend_contract n v). apply H.
Qed.

Lemma mfrom_affine_nonuniform_scale_mul n (s t : vec K n) :
  mmul (mfrom_affine_nonuniform_scale s) (mfrom_affine_nonuniform_scale t) =
  mfrom_affine_nonuniform_scale (vcmul s t).
Proof.
  apply mmulv_ext_h. intros v w. rewrite mmulv_mmulv, !mfrom_affine_nonuniform_scale_act.
  rewrite vcmul_assoc. reflexivity.
Qed.
Lemma mfrom_affine_translation_mul n (s t : vec K n) :
  mmul (mfrom_affine_translation s) (mfrom_affine_translation t) =
  mfrom_affine_translation (vadd s t).
Proof.
  apply mmulv_ext_h. intros v w. rewrite mmulv_mmulv, !mfrom_affine_translation_act.
  f_equal. vext. ring.
Qed.
Lemma mfrom_affine_translation_0 n : mfrom_affine_translation (vzero n) = midentity (S n).
Proof.
  apply mmulv_ext_h. intros v w. rewrite mfrom_affine_translation_act, mmulv_1. f_equal.
  vext. ring.
Qed.
Lemma mfrom_nonuniform_scale_1 n : mfrom_nonuniform_scale (vfrom_fill n 1) = midentity n.
Proof.
  mext. unfold delta. destruct (Nat.eqb_spec j i); [|reflexivity]. apply vat_fill; auto.
Qed.
Lemma mfrom_affine_nonuniform_scale_1 n :
  mfrom_affine_nonuniform_scale (vfrom_fill n 1) = midentity (S n).
Proof.
  mext. unfold delta. destruct (Nat.eqb_spec j i); [|reflexivity].
  destruct (Nat.ltb_spec j n); [|reflexivity]. apply vat_fill; auto.
Qed.
Lemma mfrom_diagonal_eq_scale n (d : vec K n) : mfrom_diagonal d = mfrom_nonuniform_scale d.
Proof. mext; reflexivity. Qed.

(** Embedding *)
Lemma membed_identity k n : (k <= n)%nat -> membed (midentity k) = (midentity n : mat K n n).
Proof.
  intros Hk. mext. destruct (Nat.ltb_spec j k), (Nat.ltb_spec i k); cbn [andb];
    rewrite !mget_midentity by auto; reflexivity.
Qed.

Lemma sum_split n k (f : nat -> K) :
  (k <= n)%nat -> sum n f = sum k f + sum (n - k) (fun i => f (k + i)%nat).
Proof.
  intros Hk. replace n with (k + (n - k))%nat at 1 by lia.
  induction (n - k)%nat as [|m IH]; cbn [sum].
  - rewrite Nat.add_0_r. ring.
  - rewrite Nat.add_succ_r. cbn [sum]. rewrite IH. ring.
Qed.

Lemma membed_mul k n (a b : mat K k k) :
  (k <= n)%nat ->
  (membed (mmul a b) : mat K n n) = mmul (membed a) (membed b).
Proof.
  intros Hk. apply mat_ext. intros j i Hj Hi. rewrite mget_membed by auto.
  rewrite (mget_mmul n n n) by auto.
  rewrite (sum_ext n _ (fun l =>
    (if (Nat.ltb l k && Nat.ltb i k)%bool then mget a l i else delta l i) *
    (if (Nat.ltb j k && Nat.ltb l k)%bool then mget b j l else delta j l))).
  2:{ intros l Hl. autorewrite with mat. reflexivity. }
  destruct (Nat.ltb_spec j k) as [Lj|Lj], (Nat.ltb_spec i k) as [Li|Li]; cbn [andb].
  - rewrite mget_mmul by auto. rewrite (sum_split n k) by auto.
    rewrite (sum_zero_ext (n - k)).
    + transitivity (sum k (fun l => mget a l i * mget b j l) + 0); [ring|].
      f_equal. apply sum_ext. intros l Hl. destruct (Nat.ltb_spec l k); [|lia]. reflexivity.
    + intros l Hl. destruct (Nat.ltb_spec (k + l) k); [lia|]. cbn [andb].
      unfold delta. destruct (Nat.eqb_spec (k + l) i); [lia|]. ring.
  - rewrite (sum_single n i); auto.
    + rewrite andb_false_r. unfold delta at 2. rewrite Nat.eqb_refl.
      destruct (Nat.ltb_spec i k); [lia|]. ring.
    + intros l Hl Hne. rewrite andb_false_r. unfold delta at 1.
      destruct (Nat.eqb_spec l i); [contradiction|]. ring.
  - rewrite (sum_single n j); auto.
    + unfold delta at 3. rewrite Nat.eqb_refl.
      destruct (Nat.ltb_spec j k); [lia|]. cbn [andb]. ring.
    + intros l Hl Hne. unfold delta at 2.
      destruct (Nat.eqb_spec j l); [congruence|]. ring.
  - rewrite (sum_single n j); auto.
    + unfold delta at 3. rewrite Nat.eqb_refl.
      destruct (Nat.ltb_spec j k); [lia|]. cbn [andb]. ring.
    + intros l Hl Hne. unfold delta at 2.
      destruct (Nat.eqb_spec j l); [congruence|]. ring.
Qed.

End Laws.
