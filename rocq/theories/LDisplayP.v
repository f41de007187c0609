(** Proofs of the theorems of PDisplay.v. *)

From Coq Require Import String Ascii List Arith Bool Lia DecimalString DecimalNat ZArith.
From Verif Require Import Base Scalar Spec LBase MVector MMatrix LMatrix MComplex MQuat MTransform MDisplay SpecText.
Import ListNotations.
Local Open Scope string_scope.

Lemma append_assoc_s (a b c : string) : (a ++ b) ++ c = a ++ (b ++ c).
Proof. induction a as [|x a IH]; cbn; [reflexivity|]. rewrite IH. reflexivity. Qed.
Lemma append_nil_s (a : string) : a ++ "" = a.
Proof. induction a as [|x a IH]; cbn; [reflexivity|]. rewrite IH. reflexivity. Qed.
Lemma append_inj_l (a b c : string) : a ++ b = a ++ c -> b = c.
Proof. induction a as [|x a IH]; cbn; intros H; [exact H|]. injection H. exact IH. Qed.

(** Splitting at the first occurrence of a character. *)
Lemma split_at (ch : ascii) (a b s t : string) :
  free_of ch a -> free_of ch b -> a ++ String ch s = b ++ String ch t -> a = b /\ s = t.
Proof.
  unfold free_of. revert b. induction a as [|x a IH]; intros [|y b] Ha Hb E; cbn in E; injection E; intros.
  - auto.
  - subst. exfalso. apply Hb. left. reflexivity.
  - subst. exfalso. apply Ha. left. reflexivity.
  - subst. destruct (IH b) as [-> ->]; auto; intros F; [apply Ha|apply Hb]; right; exact F.
Qed.

Lemma chars_app (a b : string) : chars (a ++ b) = (chars a ++ chars b)%list.
Proof. induction a as [|x a IH]; cbn; [reflexivity|]. rewrite IH. reflexivity. Qed.

Lemma some_inj {A} (a b : A) : Some a = Some b -> a = b.
Proof. intros E. injection E. auto. Qed.

Definition code {A} (f : A -> string) : Prop := forall x y s t, f x ++ s = f y ++ t -> x = y /\ s = t.

Lemma digits_only d ch : ~ In ch (chars "0123456789") -> free_of ch (NilEmpty.string_of_uint d).
Proof.
  unfold free_of. intros N. induction d as [|d IH|d IH|d IH|d IH|d IH|d IH|d IH|d IH|d IH|d IH]; cbn [NilEmpty.string_of_uint chars]; [exact (fun F => F)|..].
  all: intros [F|F]; [|exact (IH F)]; apply N; subst ch; cbn; tauto.
Qed.
Lemma decimal_digits n ch : match ch with "0" | "1" | "2" | "3" | "4" | "5" | "6" | "7" | "8" | "9" => True | _ => False end%char = False -> free_of ch (decimal n).
Proof.
  intros H. apply digits_only. cbn. intros F. repeat (destruct F as [F|F]; [subst ch; cbn in H; rewrite <- H; exact I|]). exact F.
Qed.
Lemma decimal_inj n m : decimal n = decimal m -> n = m.
Proof.
  unfold decimal. intros E. apply (f_equal NilEmpty.uint_of_string) in E. rewrite !NilEmpty.usu in E. injection E as E.
  exact (DecimalNat.Unsigned.to_uint_inj _ _ E).
Qed.

Section D.
Context {K : Type} {NK : Num K} (show : K -> string).
Local Notation items n u := (map (fun i => show (vat u i)) (seq 0 n)).

Lemma concat_snoc sep (l : list string) x : l <> [] -> String.concat sep (l ++ [x])%list = String.concat sep l ++ sep ++ x.
Proof.
  induction l as [|a l IH]; [congruence|]. intros _. destruct l as [|b l]; [reflexivity|].
  change (String.concat sep ((a :: b :: l) ++ [x])%list) with (a ++ sep ++ String.concat sep ((b :: l) ++ [x])%list).
  rewrite IH by congruence. change (String.concat sep (a :: b :: l)) with (a ++ sep ++ String.concat sep (b :: l)).
  rewrite !append_assoc_s. reflexivity.
Qed.

Lemma fmt_items_text n (u : vec K n) out : (0 < n)%nat -> fmt_items show u out = Some (out ++ String.concat ", " (items n u)).
Proof.
  intros Hn. unfold fmt_items. destruct (Nat.eqb_spec n 0) as [|_]; [lia|].
  assert (L : forall k, (k < n)%nat ->
    obind (for_range_opt k (fun i out => obind (vindex u i) (fun x => Some (out ++ show x ++ ", "))) out)
      (fun out => Some (out ++ show (vat u k))) = Some (out ++ String.concat ", " (items (S k) u))).
  { induction k as [|k IH]; intros Hk.
    - reflexivity.
    - rewrite for_range_opt_S. specialize (IH ltac:(lia)).
      destruct (for_range_opt k _ out) as [o|]; [|discriminate IH]. cbn [obind] in IH. apply some_inj in IH.
      rewrite (vindex_get n0) by lia. cbn [obind]. f_equal. change (vget n0 u k) with (vat u k).
      rewrite (seq_S (S k)), map_app. cbn [map Nat.add]. rewrite concat_snoc by (cbn; congruence).
      rewrite <- (append_assoc_s out), <- IH, !append_assoc_s. reflexivity. }
  specialize (L (n - 1)%nat ltac:(lia)). replace (S (n - 1)) with n in L by lia. rewrite <- L.
  destruct (for_range_opt _ _ out); cbn [obind]; [|reflexivity].
  rewrite (vindex_get n0) by lia. reflexivity.
Qed.

Lemma vdisplay_text n (u : vec K n) : (0 < n)%nat -> vdisplay show u = Some (vector_text show "Vector" u).
Proof.
  intros Hn. unfold vdisplay. rewrite fmt_items_text by exact Hn. cbn [obind]. f_equal. unfold vector_text.
  rewrite !append_assoc_s. reflexivity.
Qed.
Lemma pdisplay_text n (u : vec K n) : (0 < n)%nat -> pdisplay show u = Some (vector_text show "Point" u).
Proof.
  intros Hn. unfold pdisplay. rewrite fmt_items_text by exact Hn. cbn [obind]. f_equal. unfold vector_text.
  rewrite !append_assoc_s. reflexivity.
Qed.

Lemma mdisplay_text r c (m : mat K r c) : (0 < r)%nat -> (0 < c)%nat -> mdisplay show m = Some (matrix_text show m).
Proof.
  intros Hr Hc. unfold mdisplay. cbv zeta. destruct (Nat.eqb_spec c 0) as [|_]; [lia|].
  set (out := "Matrix" ++ show_nat r ++ "x" ++ show_nat c ++ " [").
  assert (G : forall j, (j < c)%nat -> exists col, vindex m j = Some col /\ forall i, vat col i = mget m j i).
  { intros j Hj. rewrite (vindex_get (vfill r n0)) by exact Hj. eexists; split; [reflexivity|]. reflexivity. }
  assert (CT : forall j (col : vec K r) o, (forall i, vat col i = mget m j i) -> fmt_items show col (o ++ "[") = Some (o ++ "[" ++ String.concat ", " (map (fun i => show (mget m j i)) (seq 0 r)))).
  { intros j col o E. rewrite fmt_items_text by exact Hr. rewrite append_assoc_s. do 4 f_equal. apply map_ext. intros i. rewrite E. reflexivity. }
  assert (L : forall k, (k < c)%nat ->
    obind (for_range_opt k (fun j out =>
      obind (vindex m j) (fun col => obind (fmt_items show col (out ++ "[")) (fun out => Some (out ++ "], ")))) out)
      (fun out => Some (out ++ column_text show m k)) = Some (out ++ String.concat ", " (map (column_text show m) (seq 0 (S k))))).
  { induction k as [|k IH]; intros Hk.
    - reflexivity.
    - rewrite for_range_opt_S. specialize (IH ltac:(lia)).
      destruct (for_range_opt k _ out) as [o|]; [|discriminate IH]. cbn [obind] in IH. apply some_inj in IH.
      destruct (G k ltac:(lia)) as (col & E & EC). rewrite E. cbn [obind]. rewrite (CT k col o EC). cbn [obind]. f_equal.
      rewrite (seq_S (S k)), map_app. cbn [map Nat.add]. rewrite concat_snoc by (cbn; congruence).
      rewrite <- (append_assoc_s out), <- IH. unfold column_text. rewrite !append_assoc_s. reflexivity. }
  specialize (L (c - 1)%nat ltac:(lia)). replace (S (c - 1)) with c in L by lia.
  destruct (for_range_opt _ _ out) as [o|]; cbn [obind] in *; [|discriminate].
  apply some_inj in L. destruct (G (c - 1)%nat ltac:(lia)) as (col & E & EC). rewrite E. cbn [obind].
  rewrite (CT _ col o EC). cbn [obind]. f_equal. unfold matrix_text, column_text in *. unfold out in L.
  rewrite !append_assoc_s in *. rewrite <- !append_assoc_s. rewrite !append_assoc_s.
  match goal with |- ?l = _ => replace l with ((o ++ "[" ++ String.concat ", " (map (fun i => show (mget m (c - 1) i)) (seq 0 r)) ++ "]") ++ "]") by (rewrite !append_assoc_s; reflexivity) end.
  rewrite L, !append_assoc_s. reflexivity.
Qed.

Hypothesis inj : forall x y, show x = show y -> x = y.
Hypothesis clean : forall x, free_of "," (show x) /\ free_of "]" (show x) /\ free_of " " (show x).

(** A scalar followed by one of the separators. *)
Lemma show_comma x y s t : show x ++ String "," s = show y ++ String "," t -> x = y /\ s = t.
Proof. intros E. apply split_at in E; [|apply clean|apply clean]. destruct E as [E ->]. auto. Qed.
Lemma show_close x y s t : show x ++ String "]" s = show y ++ String "]" t -> x = y /\ s = t.
Proof. intros E. apply split_at in E; [|apply clean|apply clean]. destruct E as [E ->]. auto. Qed.
Lemma show_space x y s t : show x ++ String " " s = show y ++ String " " t -> x = y /\ s = t.
Proof. intros E. apply split_at in E; [|apply clean|apply clean]. destruct E as [E ->]. auto. Qed.

Lemma items_code (f g : nat -> K) a k s t :
  String.concat ", " (map (fun i => show (f i)) (seq a (S k))) ++ String "]" s = String.concat ", " (map (fun i => show (g i)) (seq a (S k))) ++ String "]" t ->
  (forall i, (a <= i <= a + k)%nat -> f i = g i) /\ s = t.
Proof.
  revert a. induction k as [|k IH]; intros a E.
  - cbn in E. apply show_close in E. destruct E as [E ->]. split; [|reflexivity]. intros i Hi. replace i with a by lia. exact E.
  - change (seq a (S (S k))) with (a :: seq (S a) (S k)) in E. cbn [map] in E.
    assert (C : forall h, String.concat ", " (show (h a) :: map (fun i => show (h i)) (seq (S a) (S k))) =
      show (h a) ++ ", " ++ String.concat ", " (map (fun i : nat => show (h i)) (seq (S a) (S k)))) by reflexivity.
    rewrite !C, !append_assoc_s in E. cbn [append] in E. apply show_comma in E. destruct E as [E1 E2]. injection E2 as E2.
    apply IH in E2. destruct E2 as [E2 ->]. split; [|reflexivity]. intros i Hi.
    destruct (Nat.eq_dec i a) as [->|N]; [exact E1|apply E2; lia].
Qed.

Lemma vector_text_code name n : (0 < n)%nat -> code (fun u : vec K n => vector_text show name u).
Proof.
  intros Hn u v s t E. unfold vector_text in E. rewrite !append_assoc_s in E. do 3 apply append_inj_l in E.
  destruct n as [|k]; [lia|]. apply (items_code (vat u) (vat v) 0 k) in E. destruct E as [E ->].
  split; [|reflexivity]. apply (vec_ext n0). intros i Hi. apply E. lia.
Qed.

Lemma column_text_code r c (m w : mat K r c) j s t : (0 < r)%nat ->
  column_text show m j ++ s = column_text show w j ++ t -> (forall i, (i < r)%nat -> mget m j i = mget w j i) /\ s = t.
Proof.
  intros Hr E. unfold column_text in E. rewrite !append_assoc_s in E. apply append_inj_l in E.
  destruct r as [|k]; [lia|]. apply (items_code (mget m j) (mget w j) 0 k) in E. destruct E as [E ->].
  split; [|reflexivity]. intros i Hi. apply E. lia.
Qed.

Lemma columns_code r c (m w : mat K r c) a k s t : (0 < r)%nat ->
  String.concat ", " (map (column_text show m) (seq a (S k))) ++ s = String.concat ", " (map (column_text show w) (seq a (S k))) ++ t ->
  (forall j i, (a <= j <= a + k)%nat -> (i < r)%nat -> mget m j i = mget w j i) /\ s = t.
Proof.
  intros Hr. revert a. induction k as [|k IH]; intros a E.
  - cbn [seq map String.concat] in E. apply column_text_code in E; [|exact Hr]. destruct E as [E ->]. split; [|reflexivity].
    intros j i Hj Hi. replace j with a by lia. apply E. exact Hi.
  - change (seq a (S (S k))) with (a :: seq (S a) (S k)) in E. cbn [map] in E.
    assert (C : forall h : mat K r c, String.concat ", " (column_text show h a :: map (column_text show h) (seq (S a) (S k))) =
      column_text show h a ++ ", " ++ String.concat ", " (map (column_text show h) (seq (S a) (S k)))) by reflexivity.
    rewrite !C, !append_assoc_s in E. apply column_text_code in E; [|exact Hr]. destruct E as [E1 E2]. apply append_inj_l in E2.
    apply IH in E2. destruct E2 as [E2 ->]. split; [|reflexivity]. intros j i Hj Hi.
    destruct (Nat.eq_dec j a) as [->|N]; [apply E1; exact Hi|apply E2; [lia|exact Hi]].
Qed.

Lemma matrix_text_code r c : (0 < r)%nat -> (0 < c)%nat -> code (fun m : mat K r c => matrix_text show m).
Proof.
  intros Hr Hc m w s t E. unfold matrix_text in E. rewrite !append_assoc_s in E. do 5 apply append_inj_l in E.
  destruct c as [|k]; [lia|]. apply columns_code in E; [|exact Hr]. destruct E as [E1 E2]. apply append_inj_l in E2.
  split; [|exact E2]. apply mat_ext. intros j i Hj Hi. apply E1; [lia|exact Hi].
Qed.
End D.

Lemma c114_text_partial :
  forall (K : Type) (NK : Num K) (show : K -> string),
    (forall n (u : vec K n), (0 < n)%nat -> vdisplay show u = Some (vector_text show "Vector" u) /\ pdisplay show u = Some (vector_text show "Point" u)) /\
    (forall r c (m : mat K r c), (0 < r)%nat -> (0 < c)%nat -> mdisplay show m = Some (matrix_text show m)).
Proof.
  intros K NK show. split; intros; [split|]; [apply vdisplay_text|apply pdisplay_text|apply mdisplay_text]; assumption.
Qed.

Lemma c114_never_panics_refuted :
  (forall (K : Type) (show : K -> string) (u : vec K 0), vdisplay show u = None /\ pdisplay show u = None) /\
  (forall (K : Type) (show : K -> string) (r : nat) (m : mat K r 0), mdisplay show m = None) /\
  (forall (K : Type) (show : K -> string) (c : nat) (m : mat K 0 (S c)), mdisplay show m = None).
Proof.
  conjs; intros; [split; reflexivity|reflexivity|].
  unfold mdisplay. cbv zeta. change (Nat.eqb (S c) 0) with false. cbn [Nat.sub]. rewrite Nat.sub_0_r. cbv iota.
  set (out := "Matrix" ++ _). destruct (for_range_opt c _ out) as [o|]; [|reflexivity]. cbn [obind].
  destruct (vindex m c) as [col|]; reflexivity.
Qed.

Lemma c114_injective :
  forall (K : Type) (NK : Num K) (show : K -> string),
    (forall x y, show x = show y -> x = y) -> (forall x, free_of "," (show x) /\ free_of "]" (show x) /\ free_of " " (show x)) ->
    (forall n (u v : vec K (S n)), vdisplay show u = vdisplay show v -> u = v) /\
    (forall n (u v : vec K (S n)), pdisplay show u = pdisplay show v -> u = v) /\
    (forall r c (m w : mat K (S r) (S c)), mdisplay show m = mdisplay show w -> m = w) /\
    (forall z w : complex K, cdisplay show z = cdisplay show w -> z = w) /\
    (forall p q : quat K, qdisplay show p = qdisplay show q -> p = q) /\
    (forall x y : K, degrees_display show x = degrees_display show y -> x = y) /\
    (forall x y : K, radians_display show x = radians_display show y -> x = y) /\
    (forall x y z x' y' z' : K, euler_display (radians_display show) x y z = euler_display (radians_display show) x' y' z' ->
       x = x' /\ y = y' /\ z = z').
Proof.
  intros K NK show inj clean. conjs.
  - intros n u v E. rewrite !vdisplay_text in E by lia. apply some_inj in E.
    apply (vector_text_code show inj clean "Vector" (S n) ltac:(lia) u v "" ""). rewrite !append_nil_s. exact E.
  - intros n u v E. rewrite !pdisplay_text in E by lia. apply some_inj in E.
    apply (vector_text_code show inj clean "Point" (S n) ltac:(lia) u v "" ""). rewrite !append_nil_s. exact E.
  - intros r c m w E. rewrite !mdisplay_text in E by lia. apply some_inj in E.
    apply (matrix_text_code show inj clean (S r) (S c) ltac:(lia) ltac:(lia) m w "" ""). rewrite !append_nil_s. exact E.
  - intros [a b] [c d] E. unfold cdisplay in E. cbn [re im append] in E. apply (show_space show inj clean) in E.
    destruct E as [-> E]. injection E as E. apply inj in E. subst. reflexivity.
  - intros [a [b [c [d []]]]] [a' [b' [c' [d' []]]]] E. unfold qdisplay in E. cbn [vindex obind fst snd] in E. apply some_inj in E.
    cbn [append] in E. apply (show_space show inj clean) in E. destruct E as [-> E]. injection E as E.
    apply (show_comma show inj clean) in E. destruct E as [-> E]. injection E as E.
    apply (show_comma show inj clean) in E. destruct E as [-> E]. injection E as E.
    apply (show_close show inj clean) in E. destruct E as [-> _]. reflexivity.
  - intros x y E. unfold degrees_display in E. cbn [append] in E. apply (show_space show inj clean) in E. apply E.
  - intros x y E. unfold radians_display in E. cbn [append] in E. apply (show_space show inj clean) in E. apply E.
  - intros x y z x' y' z' E. unfold euler_display, radians_display in E. rewrite !append_assoc_s in E. cbn [append] in E.
    injection E as E.
    apply (show_space show inj clean) in E. destruct E as [-> E]. injection E as E.
    apply (show_space show inj clean) in E. destruct E as [-> E]. injection E as E.
    apply (show_space show inj clean) in E. destruct E as [-> _]. auto.
Qed.

Lemma c114_transform_injective :
  forall (K : Type) (NK : Num K) (show : K -> string),
    (forall x y, show x = show y -> x = y) -> (forall x, free_of "," (show x) /\ free_of "]" (show x) /\ free_of " " (show x)) ->
    forall n : nat,
    (forall t t' : translation K (S n), translation_display show t = translation_display show t' -> t = t') /\
    (forall t t' : scale K (S n), scale_display show t = scale_display show t' -> t = t') /\
    (forall t t' : rotation K (S n), rotation_display show t = rotation_display show t' -> t = t') /\
    (forall t t' : transform K (S n), transform_display show t = transform_display show t' -> t = t') /\
    (forall t t' : reflection K (S n), reflection_display show t = reflection_display show t' -> t = t') /\
    (forall t t' : shear K (S n), shear_display show t = shear_display show t' -> t = t') /\
    (forall t t' : isometry K (S n), isometry_display show t = isometry_display show t' -> t = t') /\
    (forall t t' : similarity K (S n), similarity_display show t = similarity_display show t' -> t = t') /\
    (forall m w : mat K 4 4, perspective_display show m = perspective_display show w -> m = w) /\
    (forall m w : mat K 4 4, orthographic_display show m = orthographic_display show w -> m = w).
Proof.
  intros K NK show inj clean n.
  pose proof (fun name k => vector_text_code show inj clean name (S k) ltac:(lia)) as VC.
  pose proof (fun r c => matrix_text_code show inj clean (S r) (S c) ltac:(lia) ltac:(lia)) as MC.
  conjs.
  - intros t t' E. unfold translation_display in E. rewrite !vdisplay_text in E by lia. cbn [obind] in E. apply some_inj in E.
    do 3 apply append_inj_l in E. apply (VC "Vector" n t t' "" ""). rewrite !append_nil_s. exact E.
  - intros t t' E. unfold scale_display in E. rewrite !vdisplay_text in E by lia. cbn [obind] in E. apply some_inj in E.
    do 3 apply append_inj_l in E. apply (VC "Vector" n t t') in E. apply E.
  - intros t t' E. unfold rotation_display in E. rewrite !mdisplay_text in E by lia. cbn [obind] in E. apply some_inj in E.
    do 3 apply append_inj_l in E. apply (MC n n t t') in E. apply E.
  - intros t t' E. unfold transform_display in E. rewrite !mdisplay_text in E by lia. cbn [obind] in E. apply some_inj in E.
    do 3 apply append_inj_l in E. apply (MC (S n) (S n) t t') in E. apply E.
  - intros [a b] [a' b'] E. unfold reflection_display in E. cbn [re_normal re_bias] in E.
    rewrite !vdisplay_text, !pdisplay_text in E by lia. cbn [obind] in E. apply some_inj in E.
    do 3 apply append_inj_l in E. apply (VC "Vector" n a a') in E. destruct E as [-> E]. apply append_inj_l in E.
    apply (VC "Point" n b b') in E. destruct E as [-> E]. reflexivity.
  - intros [f o d nn] [f' o' d' nn'] E. unfold shear_display in E. cbn [sh_factor sh_origin sh_direction sh_normal] in E.
    rewrite !vdisplay_text, !pdisplay_text in E by lia. cbn [obind] in E. apply some_inj in E.
    do 3 apply append_inj_l in E. apply (show_comma show inj clean) in E. destruct E as [-> E]. apply (append_inj_l " origin=") in E.
    apply (VC "Point" n o o') in E. destruct E as [-> E]. apply append_inj_l in E.
    apply (VC "Vector" n d d') in E. destruct E as [-> E]. apply append_inj_l in E.
    apply (VC "Vector" n nn nn') in E. destruct E as [-> E]. reflexivity.
  - intros [t r] [t' r'] E. unfold isometry_display, rotation_display, translation_display in E. cbn [iso_translation iso_rotation] in E.
    rewrite !vdisplay_text, !mdisplay_text in E by lia. cbn [obind] in E. apply some_inj in E. rewrite !append_assoc_s in E.
    do 6 apply append_inj_l in E. apply (MC n n r r') in E. destruct E as [-> E].
    do 5 apply append_inj_l in E. apply (VC "Vector" n t t') in E. destruct E as [-> E]. reflexivity.
  - intros [[t r] s] [[t' r'] s'] E. unfold similarity_display, rotation_display in E. cbn [iso_translation iso_rotation sim_isometry sim_scale] in E.
    rewrite !vdisplay_text, !mdisplay_text in E by lia. cbn [obind] in E. apply some_inj in E. rewrite !append_assoc_s in E.
    do 3 apply append_inj_l in E. apply (show_comma show inj clean) in E. destruct E as [-> E]. apply (append_inj_l " rotation=") in E.
    do 3 apply append_inj_l in E. apply (MC n n r r') in E. destruct E as [-> E]. do 2 apply append_inj_l in E.
    apply (VC "Vector" n t t') in E. destruct E as [-> E]. reflexivity.
  - intros m w E. unfold perspective_display in E. rewrite !mdisplay_text in E by lia. cbn [obind] in E. apply some_inj in E.
    apply append_inj_l in E. apply (MC 3%nat 3%nat m w) in E. apply E.
  - intros m w E. unfold orthographic_display in E. rewrite !mdisplay_text in E by lia. cbn [obind] in E. apply some_inj in E.
    apply append_inj_l in E. apply (MC 3%nat 3%nat m w) in E. apply E.
Qed.

Lemma c114_dimension :
  forall (K : Type) (NK : Num K) (show : K -> string),
    (forall n m (u : vec K (S n)) (v : vec K (S m)), vdisplay show u = vdisplay show v -> n = m) /\
    (forall n m (u : vec K (S n)) (v : vec K (S m)), pdisplay show u = pdisplay show v -> n = m) /\
    (forall r c r' c' (m : mat K (S r) (S c)) (w : mat K (S r') (S c')), mdisplay show m = mdisplay show w -> r = r' /\ c = c').
Proof.
  intros K NK show. conjs.
  - intros n m u v E. rewrite !vdisplay_text in E by lia. apply some_inj in E. unfold vector_text in E. apply append_inj_l in E.
    apply split_at in E; [|apply decimal_digits; reflexivity|apply decimal_digits; reflexivity]. destruct E as [E _]. apply decimal_inj in E. lia.
  - intros n m u v E. rewrite !pdisplay_text in E by lia. apply some_inj in E. unfold vector_text in E. apply append_inj_l in E.
    apply split_at in E; [|apply decimal_digits; reflexivity|apply decimal_digits; reflexivity]. destruct E as [E _]. apply decimal_inj in E. lia.
  - intros r c r' c' m w E. rewrite !mdisplay_text in E by lia. apply some_inj in E. unfold matrix_text in E. apply append_inj_l in E.
    apply split_at in E; [|apply decimal_digits; reflexivity|apply decimal_digits; reflexivity]. destruct E as [E1 E]. apply decimal_inj in E1.
    apply split_at in E; [|apply decimal_digits; reflexivity|apply decimal_digits; reflexivity]. destruct E as [E2 E]. apply decimal_inj in E2. lia.
Qed.

Lemma c114_transform_text :
  forall (K : Type) (NK : Num K) (show : K -> string) (n : nat), (0 < n)%nat ->
    (forall t : translation K n, translation_display show t = Some ("Translation" ++ decimal n ++ " " ++ vector_text show "Vector" t)) /\
    (forall t : scale K n, scale_display show t = Some ("Scale" ++ decimal n ++ " [" ++ vector_text show "Vector" t ++ "]")) /\
    (forall t : rotation K n, rotation_display show t = Some ("Rotation" ++ decimal n ++ " [" ++ matrix_text show t ++ "]")) /\
    (forall t : transform K n, transform_display show t = Some ("Transform" ++ decimal n ++ " [" ++ matrix_text show t ++ "]")) /\
    (forall t : reflection K n, reflection_display show t =
       Some ("Reflection" ++ decimal n ++ " [normal = " ++ vector_text show "Vector" (re_normal t) ++ ", bias = " ++ vector_text show "Point" (re_bias t) ++ "]")) /\
    (forall t : shear K n, shear_display show t =
       Some ("Shear" ++ decimal n ++ " [shear_factor=" ++ show (sh_factor t) ++ ", origin=" ++ vector_text show "Point" (sh_origin t) ++
             ", direction=" ++ vector_text show "Vector" (sh_direction t) ++ ", normal=" ++ vector_text show "Vector" (sh_normal t) ++ "]")) /\
    (forall t : isometry K n, isometry_display show t =
       Some ("Isometry" ++ decimal n ++ " [rotation=Rotation" ++ decimal n ++ " [" ++ matrix_text show (iso_rotation t) ++
             "], translation=Translation" ++ decimal n ++ " " ++ vector_text show "Vector" (iso_translation t) ++ "]")) /\
    (forall t : similarity K n, similarity_display show t =
       Some ("Similarity" ++ decimal n ++ " [scale=" ++ show (sim_scale t) ++ ", rotation=Rotation" ++ decimal n ++ " [" ++
             matrix_text show (iso_rotation (sim_isometry t)) ++ "], translation=" ++ vector_text show "Vector" (iso_translation (sim_isometry t)) ++ "]")).
Proof.
  intros K NK show n Hn. conjs; intros t.
  all: unfold translation_display, scale_display, transform_display, reflection_display, shear_display, isometry_display, similarity_display,
    translation_display, rotation_display.
  all: rewrite ?vdisplay_text, ?pdisplay_text, ?mdisplay_text by lia; cbn [obind]; rewrite ?vdisplay_text by lia; cbn [obind].
  all: rewrite ?append_assoc_s; reflexivity.
Qed.

Lemma c114_single_line_refuted :
  forall (K : Type) (show : K -> string),
    (forall x, free_of (ascii_of_nat 10) (show x)) ->
    (forall z, free_of (ascii_of_nat 10) (cdisplay show z)) /\
    (forall q : quat K, exists t, qdisplay show q = Some (t ++ String (ascii_of_nat 10) "")).
Proof.
  intros K show F. split.
  - intros [a b]. unfold cdisplay. cbn [re im]. pose proof (F a) as A. pose proof (F b) as B. unfold free_of in *.
    set (ch := ascii_of_nat 10) in *. intros H. rewrite chars_app in H. apply in_app_or in H. destruct H as [H|H]; [exact (A H)|].
    rewrite chars_app in H. apply in_app_or in H. destruct H as [H|H]; [|exact (B H)].
    unfold ch in H. cbn in H. repeat (destruct H as [H|H]; [discriminate H|]). exact H.
  - intros [a [b [c [d []]]]]. unfold qdisplay. cbn [vindex obind fst snd].
    exists (show a ++ " + [" ++ show b ++ ", " ++ show c ++ ", " ++ show d ++ "]"). f_equal. rewrite !append_assoc_s. reflexivity.
Qed.

Lemma c114_example :
  let show := fun b : bool => if b then "1" else "0" in
  vdisplay show (v3 true false true) = Some "Vector3 [1, 0, 1]" /\
  mdisplay show (m2new_b true false true true) = Some "Matrix2x2 [[1, 0], [1, 1]]" /\
  cdisplay show (mkC true false) = "1 + i0" /\ (forall x, free_of "," (show x) /\ free_of "]" (show x) /\ free_of " " (show x)).
Proof.
  cbv zeta. conjs; try reflexivity. unfold free_of. intros []; cbn; intuition discriminate.
Qed.
