(** Proofs about slices and memory views. *)

From Coq Require Import List Arith Bool Lia.
From Verif Require Import Base LBase Scalar MVector MMatrix LMatrix MComplex MQuat MView.
Import ListNotations.

Section P.
Context {A : Type}.

Lemma vmem_length {B} n (v : vec B n) : length (vmem v) = n.
Proof. induction n as [|n IH]; cbn; auto. Qed.

Lemma nth_vmem {B} n (v : vec B n) i : nth_error (vmem v) i = vindex v i.
Proof. revert i; induction n as [|n IH]; intros [|i]; cbn; auto. Qed.

Lemma vindex_some {B} n (v : vec B n) i : i < n -> exists x, vindex v i = Some x.
Proof.
  intro H. rewrite <- nth_vmem. destruct (nth_error (vmem v) i) eqn:E; [eauto|].
  apply nth_error_None in E. rewrite vmem_length in E. lia.
Qed.

Lemma nth_error_ext {B} (l l' : list B) : (forall i, nth_error l i = nth_error l' i) -> l = l'.
Proof.
  revert l'; induction l as [|x l IH]; intros [|y l'] H; auto.
  - discriminate (H 0).
  - discriminate (H 0).
  - f_equal; [injection (H 0); auto|apply IH; intro i; exact (H (S i))].
Qed.

Lemma vmem_inj {B} n (u v : vec B n) : vmem u = vmem v -> u = v.
Proof.
  induction n as [|n IH]; cbn; [now destruct u, v|].
  destruct u as [x u], v as [y v]; cbn; intro H; injection H as -> H; now rewrite (IH _ _ H).
Qed.

Lemma read_vector_mem n (v : vec A n) rest : read_vector n (vmem v ++ rest) = Some (v, rest).
Proof.
  unfold read_vector. induction n as [|n IH]; cbn; [now destruct v|].
  rewrite IH. now destruct v.
Qed.

Lemma read_vector_total n (l : list A) : n <= length l ->
  exists v, read_vector n l = Some (v, skipn n l) /\ vmem v = firstn n l.
Proof.
  intro H. rewrite <- (firstn_skipn n l).
  assert (L : length (firstn n l) = n) by (rewrite firstn_length; lia).
  revert L; generalize (firstn n l) as l1, (skipn n l) as l2; clear.
  induction n as [|n IH]; intros [|x l1] l2 L; try discriminate L.
  - exists tt; split; reflexivity.
  - injection L as L. destruct (IH l1 l2 L) as (v & E & F).
    exists (x, v); unfold read_vector in *; cbn in *. rewrite E; split; [reflexivity|now rewrite F].
Qed.

Lemma cast_vector n (l : list A) : length l = n -> exists v, cast (read_vector n) l = Some v /\ vmem v = l.
Proof.
  intro H. destruct (read_vector_total n l) as (v & E & F); [lia|].
  exists v; split; [unfold cast; now rewrite E|]. rewrite F, firstn_all2; [reflexivity|lia].
Qed.

Lemma mmem_length r c (m : mat A r c) : length (mmem m) = r * c.
Proof.
  unfold mmem. induction c as [|c IH]; cbn; [lia|].
  rewrite app_length, vmem_length, IH. lia.
Qed.

Lemma nth_mmem r c (m : mat A r c) j i : i < r -> nth_error (mmem m) (j * r + i) = mindex m j i.
Proof.
  intro H. unfold mmem, mindex. revert j; induction c as [|c IH]; intro j; cbn.
  - now destruct (j * r + i).
  - destruct m as [col m]; cbn. destruct j as [|j].
    + cbn. rewrite nth_error_app1 by (rewrite vmem_length; lia). apply nth_vmem.
    + cbn. rewrite nth_error_app2 by (rewrite vmem_length; lia).
      rewrite vmem_length. replace (r + j * r + i - r) with (j * r + i) by lia. apply IH.
Qed.

Lemma read_columns_mem r c (m : mat A r c) rest : read_columns r c (mmem m ++ rest) = Some (m, rest).
Proof.
  unfold mmem, read_columns. induction c as [|c IH]; [now destruct m|].
  destruct m as [col m]; cbn [vmem flat_map fst snd read_array].
  rewrite <- app_assoc, read_vector_mem, IH. reflexivity.
Qed.

Lemma cast_columns_total r c (l : list A) : length l = r * c ->
  exists m : mat A r c, cast (read_columns r c) l = Some m /\ mmem m = l.
Proof.
  intro H. assert (G : exists m : mat A r c, mmem m = l).
  { revert l H; induction c as [|c IH]; intros l H.
    - exists tt. destruct l; [reflexivity|cbn in H; lia].
    - destruct (cast_vector r (firstn r l)) as (v & _ & F); [rewrite firstn_length; lia|].
      destruct (IH (skipn r l)) as (m & E); [rewrite skipn_length; lia|].
      exists (v, m). unfold mmem in *; cbn. rewrite F, E. apply firstn_skipn. }
  destruct G as (m & E). exists m; split; [|exact E].
  unfold cast. rewrite <- E, <- (app_nil_r (mmem m)), read_columns_mem. reflexivity.
Qed.

(** ** Ranges *)
Lemma slice_range_none {B} (l : list B) a b : slice_range l a b = None <-> b < a \/ length l < b.
Proof.
  unfold slice_range. destruct (Nat.leb_spec a b), (Nat.leb_spec b (length l)); cbn; split; intro H1; try discriminate;
    try reflexivity; lia.
Qed.

Lemma nth_skipn {B} (l : list B) a k : nth_error (skipn a l) k = nth_error l (a + k).
Proof. revert l; induction a as [|a IH]; intros [|x l]; cbn; auto. now destruct k. Qed.

Lemma nth_firstn {B} (l : list B) n k : k < n -> nth_error (firstn n l) k = nth_error l k.
Proof. revert l k; induction n as [|n IH]; intros [|x l] [|k] H; cbn; auto; try lia. apply IH; lia. Qed.

Lemma slice_range_some {B} (l l' : list B) a b : slice_range l a b = Some l' ->
  length l' = b - a /\ forall k, k < b - a -> nth_error l' k = nth_error l (a + k).
Proof.
  unfold slice_range. destruct (Nat.leb_spec a b), (Nat.leb_spec b (length l)); cbn; try discriminate.
  intro E; injection E as <-. split.
  - rewrite firstn_length, skipn_length; lia.
  - intros k Hk. now rewrite nth_firstn, nth_skipn.
Qed.

Lemma vrange_spec n (v : vec A n) a b :
  (vrange v a b = None <-> b < a \/ n < b) /\
  (forall l, vrange v a b = Some l -> length l = b - a /\ forall k, k < b - a -> nth_error l k = vindex v (a + k)).
Proof.
  unfold vrange. split; [rewrite slice_range_none, vmem_length; reflexivity|].
  intros l E. destruct (slice_range_some _ _ _ _ E) as [L N]. split; [exact L|].
  intros k Hk. now rewrite N, nth_vmem.
Qed.

Lemma vrange_kinds n (v : vec A n) (k : nat) :
  (vrange_to v k = None <-> n < k) /\ (vrange_from v k = None <-> n < k) /\
  (forall l, vrange_to v k = Some l -> length l = k /\ forall i, i < k -> nth_error l i = vindex v i) /\
  (forall l, vrange_from v k = Some l -> length l = n - k /\ forall i, i < n - k -> nth_error l i = vindex v (k + i)) /\
  (exists l, vrange_full v = Some l /\ length l = n /\ forall i, nth_error l i = vindex v i).
Proof.
  change (vrange_to v k) with (vrange v 0 k). change (vrange_from v k) with (vrange v k n).
  change (vrange_full v) with (vrange v 0 n).
  destruct (vrange_spec n v 0 k) as [N1 S1], (vrange_spec n v k n) as [N2 S2].
  conjs.
  - rewrite N1; lia.
  - rewrite N2; lia.
  - intros l E. destruct (S1 l E) as [L F]. rewrite Nat.sub_0_r in *. split; assumption.
  - exact S2.
  - exists (vmem v). split; [|split; [apply vmem_length|apply nth_vmem]].
    unfold vrange, slice_range. rewrite vmem_length, Nat.leb_refl. cbn [Nat.leb andb skipn].
    rewrite firstn_all2; [reflexivity|rewrite vmem_length; lia].
Qed.

Lemma vrange_split n (v : vec A n) k : k <= n ->
  exists l1 l2, vrange_to v k = Some l1 /\ vrange_from v k = Some l2 /\ vrange_full v = Some (l1 ++ l2).
Proof.
  intro H. unfold vrange_to, vrange_from, vrange_full, slice_range. rewrite !vmem_length.
  destruct (Nat.leb_spec 0 k), (Nat.leb_spec k n), (Nat.leb_spec n n), (Nat.leb_spec 0 n); cbn; try lia.
  eexists _, _; repeat split. f_equal. cbn [skipn]. rewrite !Nat.sub_0_r.
  rewrite (firstn_all2 (skipn k (vmem v))) by (rewrite skipn_length, vmem_length; lia).
  rewrite (firstn_all2 (vmem v)) by (rewrite vmem_length; lia). symmetry; apply firstn_skipn.
Qed.

Lemma slice_range_nested {B} (l l1 : list B) a b c d : slice_range l a b = Some l1 ->
  d <= b - a -> slice_range l1 c d = slice_range l (a + c) (a + d).
Proof.
  unfold slice_range. destruct (Nat.leb_spec a b), (Nat.leb_spec b (length l)); cbn; try discriminate.
  intros E Hd; injection E as <-. rewrite firstn_length, skipn_length.
  destruct (Nat.leb_spec c d), (Nat.leb_spec (a + c) (a + d)); cbn; try lia; [|reflexivity].
  destruct (Nat.leb_spec d (min (b - a) (length l - a))), (Nat.leb_spec (a + d) (length l)); cbn; try lia.
  f_equal. apply nth_error_ext; intro k.
  replace (a + d - (a + c)) with (d - c) by lia.
  destruct (Nat.lt_ge_cases k (d - c)) as [K|K].
  - rewrite !nth_firstn by lia. rewrite !nth_skipn, nth_firstn by lia. rewrite nth_skipn. f_equal; lia.
  - rewrite !(proj2 (nth_error_None _ _)); auto; rewrite !firstn_length; lia.
Qed.

Lemma nth_update {B} (l : list B) p x i : p < length l ->
  nth_error (firstn p l ++ x :: skipn (S p) l) i = if i =? p then Some x else nth_error l i.
Proof.
  intro H. assert (L : length (firstn p l) = p) by (rewrite firstn_length; lia).
  destruct (Nat.eqb_spec i p) as [->|N].
  - rewrite nth_error_app2, L, Nat.sub_diag by lia. reflexivity.
  - destruct (Nat.lt_ge_cases i p).
    + rewrite nth_error_app1 by lia. now rewrite nth_firstn.
    + rewrite nth_error_app2, L by lia. destruct (i - p) as [|q] eqn:E; [lia|]. cbn [nth_error].
      rewrite nth_skipn. f_equal; lia.
Qed.

Lemma update_length {B} (l : list B) p x : p < length l -> length (firstn p l ++ x :: skipn (S p) l) = length l.
Proof. intro H. rewrite app_length, firstn_length. cbn [length]. rewrite skipn_length. lia. Qed.

Lemma vrange_write_spec n (v : vec A n) a b k x :
  (vrange_write v a b k x = None <-> b < a \/ n < b \/ b - a <= k) /\
  (forall v', vrange_write v a b k x = Some v' ->
     forall i, vindex v' i = if i =? a + k then Some x else vindex v i).
Proof.
  unfold vrange_write, slice_range_write.
  destruct (slice_range (vmem v) a b) as [l|] eqn:E; cbn [obind].
  - assert (N : ~ (b < a \/ n < b)).
    { intro Q. rewrite <- (vmem_length n v) in Q. apply slice_range_none in Q. congruence. }
    destruct (Nat.ltb_spec k (b - a)); cbn [obind].
    + destruct (cast_vector n (firstn (a + k) (vmem v) ++ x :: skipn (S (a + k)) (vmem v))) as (v' & F & M).
      { rewrite update_length; rewrite vmem_length; lia. }
      rewrite F. split; [split; [discriminate|lia]|].
      intros w Ew; injection Ew as <-. intro i.
      rewrite <- !nth_vmem, M. apply nth_update. rewrite vmem_length; lia.
    + split; [split; auto; intros _; lia|discriminate].
  - split; [|discriminate]. apply slice_range_none in E. rewrite vmem_length in E. tauto.
Qed.

(** ** Complex numbers and quaternions *)
Lemma complex_array (z : complex A) : complex_as_array z = Some (v2 (re z) (im z)).
Proof. reflexivity. Qed.
Lemma quat_array (q : quat A) : quat_as_array q = Some q.
Proof. destruct q as (s & x & y & w & []). reflexivity. Qed.

Lemma complex_via (f : vec A 2 -> option (vec A 2)) z :
  complex_via_array f z = option_map (fun w => mkC (fst w) (fst (snd w))) (f (v2 (re z) (im z))).
Proof. unfold complex_via_array. rewrite complex_array; cbn. destruct (f _) as [(x & y & [])|]; reflexivity. Qed.

Lemma complex_ranges (z : complex A) a b k x :
  cindex z 0 = Some (re z) /\ cindex z 1 = Some (im z) /\ (2 <= k -> cindex z k = None) /\
  cassign z 0 x = Some (mkC x (im z)) /\ cassign z 1 x = Some (mkC (re z) x) /\ (2 <= k -> cassign z k x = None) /\
  crange z a b = vrange (v2 (re z) (im z)) a b /\
  crange_to z b = vrange (v2 (re z) (im z)) 0 b /\
  crange_from z a = vrange (v2 (re z) (im z)) a 2 /\
  crange_full z = Some [re z; im z] /\
  (crange_write z a b k x = None <-> b < a \/ 2 < b \/ b - a <= k) /\
  (forall z', crange_write z a b k x = Some z' ->
     re z' = (if a + k =? 0 then x else re z) /\ im z' = (if a + k =? 1 then x else im z)).
Proof.
  repeat match goal with |- _ /\ _ => split end; try reflexivity.
  - intro H. destruct k as [|[|k]]; try lia; reflexivity.
  - intro H. destruct k as [|[|k]]; try lia; reflexivity.
  - unfold crange_write. rewrite complex_via.
    destruct (vrange_write_spec 2 (v2 (re z) (im z)) a b k x) as [N _]. rewrite <- N.
    destruct (vrange_write _ _ _ _ _); cbn; split; congruence.
  - intros z'. unfold crange_write. rewrite complex_via.
    destruct (vrange_write_spec 2 (v2 (re z) (im z)) a b k x) as [_ N].
    destruct (vrange_write _ _ _ _ _) as [w|]; cbn; [|discriminate].
    intro E; injection E as <-. specialize (N w eq_refl).
    pose proof (N 0) as N0. pose proof (N 1) as N1. cbn in N0, N1.
    rewrite (Nat.eqb_sym (a + k) 0), (Nat.eqb_sym (a + k) 1). cbn.
    destruct (a + k) as [|[|p]]; cbn in *; split; congruence.
Qed.

Lemma quat_ranges (q : quat A) a b k x :
  qvindex q k = vindex (q : vec A 4) k /\ qvassign q k x = vassign (q : vec A 4) k x /\
  qrange q a b = vrange (q : vec A 4) a b /\
  qrange_to q b = vrange (q : vec A 4) 0 b /\
  qrange_from q a = vrange (q : vec A 4) a 4 /\
  qrange_full q = vrange (q : vec A 4) 0 4 /\
  qrange_write q a b k x = vrange_write (q : vec A 4) a b k x.
Proof.
  unfold qvindex, qvassign, qrange, qrange_to, qrange_from, qrange_full, qrange_write.
  rewrite quat_array. repeat split.
Qed.

(** ** Matrices *)
Lemma mat_array r c (m : mat A r c) : exists w, mat_as_array m = Some w /\ vmem w = mmem m.
Proof. apply cast_vector, mmem_length. Qed.

Lemma mat_array_spec r c (m : mat A r c) : exists w, mat_as_array m = Some w /\
  forall j i, i < r -> vindex w (j * r + i) = mindex m j i.
Proof.
  destruct (mat_array r c m) as (w & E & F). exists w; split; [exact E|].
  intros j i H. rewrite <- nth_vmem, F. now apply nth_mmem.
Qed.

Lemma mat_array_inj r c (m m' : mat A r c) : mat_as_array m = mat_as_array m' -> m = m'.
Proof.
  destruct (mat_array r c m) as (w & E & F), (mat_array r c m') as (w' & E' & F').
  rewrite E, E'. intro H; injection H as ->. rewrite F in F'.
  pose proof (read_columns_mem r c m []) as R. rewrite F', read_columns_mem in R. now injection R.
Qed.

Lemma vmem_vset n (w : vec A n) k x : k < n -> vmem (vset w k x) = firstn k (vmem w) ++ x :: skipn (S k) (vmem w).
Proof.
  revert k; induction n as [|n IH]; intros [|k] H; try lia; cbn.
  - reflexivity.
  - f_equal. rewrite IH by lia. reflexivity.
Qed.

Lemma mat_write r c (m : mat A r c) k x :
  (r * c <= k -> mat_via_array (fun w => vassign w k x) m = None) /\
  (k < r * c -> exists m', mat_via_array (fun w => vassign w k x) m = Some m' /\
     forall j i, i < r -> mindex m' j i = if j * r + i =? k then Some x else mindex m j i).
Proof.
  unfold mat_via_array. destruct (mat_array r c m) as (w & E & F). rewrite E; cbn [obind]. unfold vassign.
  destruct (Nat.ltb_spec k (r * c)) as [K|K]; cbn [obind]; split; intro H; try lia; [|reflexivity].
  rewrite vmem_vset, F by exact K.
  destruct (cast_columns_total r c (firstn k (mmem m) ++ x :: skipn (S k) (mmem m))) as (m' & G & M).
  { rewrite update_length; rewrite mmem_length; lia. }
  exists m'; split; [exact G|]. intros j i Hi. rewrite <- !nth_mmem, M by exact Hi.
  apply nth_update. rewrite mmem_length; lia.
Qed.

Lemma mat_array_flat (d : A) r c (m : mat A r c) w : mat_as_array m = Some w -> mfrom_flat d w = m.
Proof.
  intro E. destruct (mat_array_spec r c m) as (w' & E' & F). rewrite E in E'; injection E' as <-.
  apply (mat_d_ext d). intros j i Hj Hi. rewrite (mget_d_from_flat d) by assumption.
  specialize (F j i Hi). rewrite (vindex_get d), (mindex_get d) in F by (try assumption; nia). congruence.
Qed.

Lemma mat_columns r c (m : mat A r c) : mat_as_columns m = Some m.
Proof. unfold mat_as_columns, cast. rewrite <- (app_nil_r (mmem m)), read_columns_mem. reflexivity. Qed.

Lemma vec_column n (v : vec A n) : vec_as_column v = Some (v1 v).
Proof.
  unfold vec_as_column, cast. pose proof (read_columns_mem n 1 (v1 v) []) as H.
  unfold mmem, v1 in H; cbn [vmem flat_map fst snd] in H. rewrite !app_nil_r in H. now rewrite H.
Qed.

(** ** Structs *)
Lemma quat_view (q : quat A) : exists s v, quat_deref q = Some (s, v) /\
  vindex (q : vec A 4) 0 = Some s /\ forall i, vindex (q : vec A 4) (S i) = vindex v i.
Proof. destruct q as (s & x & y & w & []). exists s, (v3 x y w). repeat split. Qed.

Lemma quat_view_write (q : quat A) f s v : quat_deref q = Some (s, v) ->
  exists q', quat_via_view f q = Some q' /\ quat_deref q' = Some (f (s, v)).
Proof.
  destruct q as (s0 & x & y & w & []). intro E; injection E as <- <-.
  unfold quat_via_view; cbn. destruct (f _) as (s' & x' & y' & w' & []). eexists; split; reflexivity.
Qed.

Lemma coords_names (v : vec A 2) (u : vec A 3) (w : vec A 4) :
  (exists c, vec_deref2 v = Some c /\ vindex v 0 = Some (cx2 c) /\ vindex v 1 = Some (cy2 c)) /\
  (exists c, vec_deref3 u = Some c /\ vindex u 0 = Some (cx3 c) /\ vindex u 1 = Some (cy3 c) /\ vindex u 2 = Some (cz3 c)) /\
  (exists c, vec_deref4 w = Some c /\ vindex w 0 = Some (cx4 c) /\ vindex w 1 = Some (cy4 c) /\ vindex w 2 = Some (cz4 c) /\
     vindex w 3 = Some (cw4 c)).
Proof.
  destruct v as (a & b & []), u as (d & e & f & []), w as (g & h & i & j & []).
  repeat split; eexists; repeat split.
Qed.

Lemma coords_write (v : vec A 2) (u : vec A 3) (w : vec A 4) f g h :
  (forall c, vec_deref2 v = Some c -> exists v', vec_via_coords2 f v = Some v' /\ vec_deref2 v' = Some (f c)) /\
  (forall c, vec_deref3 u = Some c -> exists u', vec_via_coords3 g u = Some u' /\ vec_deref3 u' = Some (g c)) /\
  (forall c, vec_deref4 w = Some c -> exists w', vec_via_coords4 h w = Some w' /\ vec_deref4 w' = Some (h c)).
Proof.
  conjs; intros c E; unfold vec_via_coords2, vec_via_coords3, vec_via_coords4; rewrite E; cbn [obind].
  - destruct (f c) as [x y]. eexists; split; reflexivity.
  - destruct (g c) as [x y z]. eexists; split; reflexivity.
  - destruct (h c) as [x y z t]. eexists; split; reflexivity.
Qed.

Lemma quat_ranges_new (s x y z t : A) (a b k : nat) :
  let q : quat A := qnew s x y z in
  (qvindex q 0 = Some s /\ qvindex q 1 = Some x /\ qvindex q 2 = Some y /\ qvindex q 3 = Some z /\
   (4 <= k -> qvindex q k = None)) /\
  qvassign q k t = vassign (v4 s x y z) k t /\
  qrange q a b = vrange (v4 s x y z) a b /\
  qrange_to q b = vrange (v4 s x y z) 0 b /\
  qrange_from q a = vrange (v4 s x y z) a 4 /\
  qrange_full q = Some [s; x; y; z] /\
  qrange_write q a b k t = vrange_write (v4 s x y z) a b k t.
Proof.
  intro q. destruct (quat_ranges q a b k t) as (H1 & H2 & H3 & H4 & H5 & H6 & H7).
  conjs; try assumption; try reflexivity.
  intro H. rewrite H1. apply vindex_none, H.
Qed.

Lemma quat_view_full (s x y z : A) (f : A * vec A 3 -> A * vec A 3) :
  quat_deref (qnew s x y z) = Some (s, v3 x y z) /\
  exists q', quat_via_view f (qnew s x y z) = Some q' /\ quat_deref q' = Some (f (s, v3 x y z)).
Proof. split; [reflexivity|]. apply quat_view_write; reflexivity. Qed.

Lemma mat_array_full r c (m : mat A r c) : exists w, mat_as_array m = Some w /\
  (forall j i, i < r -> vindex w (j * r + i) = mindex m j i) /\ (forall d, mfrom_flat d w = m).
Proof.
  destruct (mat_array_spec r c m) as (w & E & F). exists w; repeat split; auto.
  intro d. now apply mat_array_flat.
Qed.

Lemma mat_write_divmod r c (m : mat A r c) k x :
  (r * c <= k -> mat_via_array (fun w => vassign w k x) m = None) /\
  (k < r * c -> exists m', mat_via_array (fun w => vassign w k x) m = Some m' /\
     forall j i, i < r -> mindex m' j i = if (j =? k / r) && (i =? k mod r) then Some x else mindex m j i).
Proof.
  destruct (mat_write r c m k x) as [H1 H2]. split; [exact H1|]. intro K.
  destruct (H2 K) as (m' & E & F). exists m'; split; [exact E|]. intros j i Hi. rewrite F by exact Hi.
  assert (R : r <> 0) by lia. pose proof (Nat.div_mod k r R) as D. pose proof (Nat.mod_upper_bound k r R) as U.
  destruct (Nat.eqb_spec (j * r + i) k) as [Q|Q].
  - assert (J : j = k / r) by (apply (Nat.div_unique k r j i); lia).
    assert (I : i = k mod r) by (apply (Nat.mod_unique k r j i); lia).
    rewrite <- J, <- I, !Nat.eqb_refl. reflexivity.
  - destruct (Nat.eqb_spec j (k / r)) as [->|]; [|reflexivity]. destruct (Nat.eqb_spec i (k mod r)) as [->|]; [|reflexivity].
    exfalso; apply Q. lia.
Qed.

Lemma pointers n (v : vec A n) r c (m : mat A r c) :
  (vec_as_ptr v = None <-> vec_is_empty v = true) /\ (mat_as_ptr m = None <-> mat_is_empty m = true) /\
  length (vmem v) = vec_len v /\ vec_shape v = (vec_len v, 1) /\
  length (mmem m) = mat_len m /\ mat_len m = fst (mat_shape m) * snd (mat_shape m).
Proof.
  repeat match goal with |- _ /\ _ => split end; try reflexivity; try apply vmem_length; try apply mmem_length.
  - destruct n; split; try discriminate; auto.
  - unfold mat_as_ptr, mat_is_empty, mat_len. destruct c as [|c].
    + cbn. rewrite Nat.mul_0_r. tauto.
    + destruct m as [col m]. cbn [vindex obind fst]. destruct r as [|r]; cbn; split; try discriminate; auto.
Qed.
End P.
